(** * Rays and segments against planes, disks and triangles; crossing points
      of lines, rays and segments (finite numbers). *)
From Coq Require Import ZArith Bool List Reals Lra Lia.
From Verif Require Import Base Num Vec Aabb Geom Acme ER SpecGeom SpecAcme.
From Verif Require Import ProofGeom ProofInt ProofAcme.
Import ListNotations.
Local Open Scope R_scope.

(** ** Against a plane. *)
Lemma plane_at : forall p o d s, pdot d (pnormal p) <> 0 ->
  (on_plane p (padd o (pscale s d)) <-> s = - pdot (psub o (porigin p)) (pnormal p) / pdot d (pnormal p)).
Proof.
  intros p o d s H. unfold on_plane. set (n := pnormal p) in *. set (a := porigin p).
  replace (psub (padd o (pscale s d)) a) with (padd (psub o a) (pscale s d)) by (apply vec_eq; vunf; ring).
  rewrite pdot_add_l, pdot_scale_l. split; intros E.
  - apply Rmult_eq_reg_r with (pdot d n); auto. unfold Rdiv. rewrite Rmult_assoc, Rinv_l by auto. lra.
  - rewrite E. field. auto.
Qed.
Lemma rabs_pos_neq : forall x tol, 0 < tol -> tol < Rabs x -> x <> 0.
Proof. intros x tol H1 H2 E. rewrite E, Rabs_R0 in H2. lra. Qed.

Lemma ray_plane_exact : forall r p tol, 0 < tol ->
  let at_ t := padd (ry_origin r) (pscale t (ry_dir r)) in
  match int_ray_plane (fray r) (fplane p) (Fin tol) with
  | Some v => exists t, tol < t /\ v = fv (at_ t) /\ forall x, on_ray r x /\ on_plane p x <-> x = at_ t
  | None => Rabs (pdot (ry_dir r) (pnormal p)) <= tol \/ forall t, tol < t -> ~ on_plane p (at_ t)
  end.
Proof.
  intros r p tol Ht at_. unfold int_ray_plane, fray, fplane. cbn [ry_origin ry_dir porigin pnormal]. push.
  destruct (rltb tol (Rabs (pdot (ry_dir r) (pnormal p)))) eqn:E; rb; [|left; exact E].
  pose proof (rabs_pos_neq _ _ Ht E) as N. rewrite e_ndiv by auto. push.
  pose proof (plane_at p (ry_origin r) (ry_dir r)) as PA.
  set (t := _ / _) in *. destruct (rltb tol t) eqn:E1; rb.
  - exists t. split; [exact E1|]. split; [reflexivity|]. intros x. split.
    + intros ((s & Hs & ->) & H). apply PA in H; auto. unfold at_. now subst s.
    + intros ->. split; [exists t; split; [lra|reflexivity]|]. now apply PA.
  - right. intros s Hs H. apply PA in H; auto. subst s. fold t in Hs. lra.
Qed.
Lemma plane_seg_exact : forall p s tol, 0 < tol ->
  let at_ t := padd (sv0 s) (pscale t (psub (sv1 s) (sv0 s))) in
  match int_plane_seg (fplane p) (fseg s) (Fin tol) with
  | Some v => exists t, - tol <= t <= 1 + tol /\ v = fv (at_ t) /\
      forall x, on_line (seg_line s) x /\ on_plane p x <-> x = at_ t
  | None => Rabs (pdot (psub (sv1 s) (sv0 s)) (pnormal p)) <= tol \/
      forall x, in_segment s x -> ~ on_plane p x
  end.
Proof.
  intros p s tol Ht at_. unfold int_plane_seg, seg_vector, fseg, fplane. cbn [sv0 sv1 porigin pnormal]. push.
  set (d := psub (sv1 s) (sv0 s)) in *.
  destruct (rltb tol (Rabs (pdot d (pnormal p)))) eqn:E; rb; [|left; exact E].
  pose proof (rabs_pos_neq _ _ Ht E) as N. rewrite e_ndiv by auto. push.
  pose proof (plane_at p (sv0 s) d) as PA.
  set (t := _ / _) in *. destruct (rleb (0 - tol) t && rleb t (1 + tol)) eqn:E1.
  - apply andb_true_iff in E1. destruct E1 as [E1 E2]. repeat rb.
    exists t. split; [lra|]. split; [reflexivity|]. intros x. unfold on_line, seg_line. cbn [lorigin ldir]. fold d. split.
    + intros ((k & ->) & H). apply PA in H; auto. now subst k.
    + intros ->. split; [now exists t|]. now apply PA.
  - right. intros x (k & Hk & ->) H. apply PA in H; auto. subst k. fold t in Hk.
    apply andb_false_iff in E1. destruct E1; rb; lra.
Qed.

(** ** Against a disk (general position). *)
Lemma f_disk_inside : forall d q tol, disk_is_inside (fdisk d) (fv q) (Fin tol) =
  rltb (Rabs (pdot (psub q (porigin (dplane d))) (pnormal (dplane d)))) tol && rleb (dist (porigin (dplane d)) q) (dradius d).
Proof.
  intros. unfold disk_is_inside, plane_is_inside, plane_distance, signed_distance, dcenter, fdisk, fplane.
  cbn [dplane porigin pnormal dradius]. now push.
Qed.
Lemma disk_inside_on : forall d q tol, 0 < tol -> on_plane (dplane d) q ->
  (disk_is_inside (fdisk d) (fv q) (Fin tol) = true <-> in_disk d q).
Proof.
  intros d q tol Ht H. rewrite f_disk_inside. unfold in_disk. rewrite dist_sym, andb_true_iff, rleb_true, rltb_true.
  unfold on_plane in *. rewrite H, Rabs_R0. tauto.
Qed.
Lemma line_plane_at : forall l p tol, 0 < tol ->
  match int_line_plane (fline l) (fplane p) (Fin tol) with
  | Some v => exists q, v = fv q /\ forall x, on_line l x /\ on_plane p x <-> x = q
  | None => Rabs (pdot (ldir l) (pnormal p)) <= tol
  end.
Proof.
  intros l p tol Ht. unfold int_line_plane, fline, fplane. cbn [lorigin ldir porigin pnormal]. push.
  rewrite (pdot_comm (pnormal p)). destruct (rltb tol (Rabs (pdot (ldir l) (pnormal p)))) eqn:E; rb; [|exact E].
  pose proof (rabs_pos_neq _ _ Ht E) as N. rewrite e_ndiv by auto. push.
  replace (pdot (psub (porigin p) (lorigin l)) (pnormal p)) with (- pdot (psub (lorigin l) (porigin p)) (pnormal p)) by (vunf; ring).
  pose proof (plane_at p (lorigin l) (ldir l)) as PA. set (t := _ / _) in *.
  eexists. split; [reflexivity|]. intros x. split.
  - intros ((k & ->) & H). apply PA in H; auto. now subst k.
  - intros ->. split; [now exists t|]. now apply PA.
Qed.
Lemma line_disk_point_exact : forall l d tol, 0 < tol ->
  match int_line_disk_point (fline l) (fdisk d) (Fin tol) with
  | Some v => exists q, v = fv q /\ forall x, on_line l x /\ in_disk d x <-> x = q
  | None => Rabs (pdot (ldir l) (pnormal (dplane d))) <= tol \/ forall x, ~ (on_line l x /\ in_disk d x)
  end.
Proof.
  intros l d tol Ht. unfold int_line_disk_point. change (dplane (fdisk d)) with (fplane (dplane d)).
  pose proof (line_plane_at l (dplane d) tol Ht) as H. destruct (int_line_plane _ _ _) as [v|]; [|now left].
  destruct H as (q & -> & H). destruct (proj2 (H q) eq_refl) as [Q1 Q2].
  pose proof (disk_inside_on d q tol Ht Q2) as DI. destruct (disk_is_inside _ _ _).
  - exists q. split; auto. intros x. split; [|intros ->; tauto]. intros [X1 [X2 X3]]. apply H. tauto.
  - right. intros x [X1 X2]. assert (x = q) by (apply H; destruct X2; tauto). subst. destruct DI as [_ DI]. discriminate (DI X2).
Qed.
Lemma ray_disk_point_exact : forall r d tol, 0 < tol ->
  match int_ray_disk_point (fray r) (fdisk d) (Fin tol) with
  | Some v => exists q, v = fv q /\ forall x, on_ray r x /\ in_disk d x <-> x = q
  | None => Rabs (pdot (ry_dir r) (pnormal (dplane d))) <= tol \/
      forall t, tol < t -> ~ in_disk d (padd (ry_origin r) (pscale t (ry_dir r)))
  end.
Proof.
  intros r d tol Ht. unfold int_ray_disk_point. change (dplane (fdisk d)) with (fplane (dplane d)).
  pose proof (ray_plane_exact r (dplane d) tol Ht) as H. cbv zeta in H. destruct (int_ray_plane _ _ _) as [v|].
  - destruct H as (t & T & -> & H). set (q := padd _ _) in *. destruct (proj2 (H q) eq_refl) as [Q1 Q2].
    pose proof (disk_inside_on d q tol Ht Q2) as DI. destruct (disk_is_inside _ _ _).
    + exists q. split; auto. intros x. split; [|intros ->; tauto]. intros [X1 [X2 X3]]. apply H. tauto.
    + right. intros s Hs X. assert (E : padd (ry_origin r) (pscale s (ry_dir r)) = q).
      { apply H. destruct X as [X _]. split; auto. exists s. split; [lra|reflexivity]. }
      rewrite E in X. destruct DI as [_ DI]. discriminate (DI X).
  - destruct H as [H|H]; [now left|]. right. intros s Hs [X _]. exact (H s Hs X).
Qed.
Lemma seg_disk_point_exact : forall s d tol, 0 < tol ->
  match int_seg_disk_point (fseg s) (fdisk d) (Fin tol) with
  | Some v => exists t, - tol <= t <= 1 + tol /\
      let q := padd (sv0 s) (pscale t (psub (sv1 s) (sv0 s))) in
      v = fv q /\ in_disk d q /\ forall x, in_segment s x /\ in_disk d x -> x = q
  | None => Rabs (pdot (psub (sv1 s) (sv0 s)) (pnormal (dplane d))) <= tol \/
      forall x, ~ (in_segment s x /\ in_disk d x)
  end.
Proof.
  intros s d tol Ht. unfold int_seg_disk_point. change (dplane (fdisk d)) with (fplane (dplane d)).
  pose proof (plane_seg_exact (dplane d) s tol Ht) as H. cbv zeta in H.
  assert (SL : forall x, in_segment s x -> on_line (seg_line s) x) by (intros x (k & _ & E); now exists k).
  destruct (int_plane_seg _ _ _) as [v|].
  - destruct H as (t & T & -> & H). set (q := padd _ _) in *. destruct (proj2 (H q) eq_refl) as [Q1 Q2].
    pose proof (disk_inside_on d q tol Ht Q2) as DI. destruct (disk_is_inside _ _ _).
    + exists t. split; auto. cbv zeta. fold q. split; auto. split; [now apply DI|]. intros x [X1 [X2 X3]]. apply H. auto.
    + right. intros x [X1 X2]. assert (x = q) by (apply H; destruct X2; auto). subst x. destruct DI as [_ DI]. discriminate (DI X2).
  - destruct H as [H|H]; [now left|]. right. intros x [X1 [X2 _]]. exact (H x X1 X2).
Qed.

(** ** Against a triangle. *)
Section MT.
  Variables (o d : pt) (t : triangle R).
  Let l := Line o d.
  Let e1 := psub (tv1 t) (tv0 t).
  Let e2 := psub (tv2 t) (tv0 t).
  Let a := pdot e1 (pcross d e2).
  Let w := psub o (tv0 t).
  Let u := / a * pdot w (pcross d e2).
  Let v := / a * pdot d (pcross w e1).
  Let k := / a * pdot e2 (pcross w e1).

  Lemma mt_eval : forall tol, 0 < tol ->
    mt_abscissa (fv o) (fv d) (ftri t) (Fin tol) =
    if rltb (- tol) a && rltb a tol then None
    else if rltb u (0 - tol) || rltb (1 + tol) u then None
    else if rltb v (0 - tol) || rltb (1 + tol) (u + v) then None
    else Some (Fin k).
  Proof.
    intros tol Ht. unfold mt_abscissa, ftri. cbn [tv0 tv1 tv2]. push.
    fold e1 e2 w. fold a. destruct (rltb (- tol) a && rltb a tol) eqn:E; auto.
    assert (Ha : a <> 0).
    { intros Ha. rewrite Ha in E. replace (rltb (- tol) 0) with true in E by (symmetry; apply rltb_true; lra).
      replace (rltb 0 tol) with true in E by (symmetry; apply rltb_true; lra). discriminate. }
    rewrite e_ndiv by auto. push. unfold Rdiv. rewrite !Rmult_1_l. fold u v k.
    destruct (rltb u (0 - tol) || rltb (1 + tol) u); auto.
  Qed.
  (** The line meets the triangle (within the margin) at abscissa [k], or it
      is nearly parallel to it or misses it. *)
  Lemma mt_exact : forall tol, 0 < tol ->
    match mt_abscissa (fv o) (fv d) (ftri t) (Fin tol) with
    | Some s => exists k, s = Fin k /\ near_triangle tol t (padd o (pscale k d)) /\
        forall k', in_triangle t (padd o (pscale k' d)) -> k' = k
    | None => Rabs (pdot e1 (pcross d e2)) < tol \/ forall k', ~ in_triangle t (padd o (pscale k' d))
    end.
  Proof.
    intros tol Ht. fold a. rewrite mt_eval by auto.
    destruct (rltb (- tol) a && rltb a tol) eqn:E.
    { left. apply andb_true_iff in E. destruct E. repeat rb. apply Rabs_def1; lra. }
    assert (Ha : a <> 0).
    { intros Ha. rewrite Ha in E. replace (rltb (- tol) 0) with true in E by (symmetry; apply rltb_true; lra).
      replace (rltb 0 tol) with true in E by (symmetry; apply rltb_true; lra). discriminate. }
    assert (U : forall k', in_triangle t (padd o (pscale k' d)) -> 0 <= u /\ 0 <= v /\ u + v <= 1 /\ k' = k).
    { intros k' (x & u' & v' & H1 & H2 & H3 & H4 & H5). replace x with (1 - u' - v') in H5 by lra.
      destruct (mt_unique l t _ k' u' v' Ha eq_refl H5) as (EU & EV & EK).
      change (u = u') in EU. change (v = v') in EV. change (k = k') in EK. subst. lra. }
    destruct (rltb u (0 - tol) || rltb (1 + tol) u) eqn:E1.
    { right. intros k' H. apply U in H. apply orb_true_iff in E1. destruct E1; rb; lra. }
    destruct (rltb v (0 - tol) || rltb (1 + tol) (u + v)) eqn:E2.
    { right. intros k' H. apply U in H. apply orb_true_iff in E2. destruct E2; rb; lra. }
    apply orb_false_iff in E1, E2. destruct E1, E2. repeat rb.
    exists k. split; auto. split; [|intros k' H3; now apply U in H3].
    pose proof (mt_point l t Ha) as P. change (padd o (pscale k d) = bary t (1 - u - v) u v) in P.
    exists (1 - u - v), u, v. repeat split; try lra. exact P.
  Qed.
End MT.
Lemma ray_triangle_exact : forall r t tol, 0 < tol ->
  let at_ k := padd (ry_origin r) (pscale k (ry_dir r)) in
  match int_ray_triangle (fray r) (ftri t) (Fin tol) with
  | Some v => exists k, - tol <= k /\ v = fv (at_ k) /\ near_triangle tol t (at_ k) /\
      forall x, on_ray r x -> in_triangle t x -> x = at_ k
  | None => Rabs (pdot (psub (tv1 t) (tv0 t)) (pcross (ry_dir r) (psub (tv2 t) (tv0 t)))) < tol \/
      forall x, ~ (on_ray r x /\ in_triangle t x)
  end.
Proof.
  intros r t tol Ht at_. unfold int_ray_triangle, fray. cbn [ry_origin ry_dir].
  pose proof (mt_exact (ry_origin r) (ry_dir r) t tol Ht) as H.
  destruct (mt_abscissa _ _ _ _) as [s|].
  - destruct H as (k & -> & H1 & H2). push. destruct (rleb (0 - tol) k) eqn:E; rb.
    + exists k. split; [lra|]. split; [reflexivity|]. split; [exact H1|]. intros x (k' & _ & ->) X. now rewrite (H2 k' X).
    + right. intros x ((k' & Hk & ->) & X). apply H2 in X. lra.
  - destruct H as [H|H]; [now left|]. right. intros x ((k' & _ & ->) & X). exact (H k' X).
Qed.
Lemma seg_triangle_exact : forall s t tol, 0 < tol ->
  let at_ k := padd (sv0 s) (pscale k (psub (sv1 s) (sv0 s))) in
  match int_seg_triangle (fseg s) (ftri t) (Fin tol) with
  | Some v => exists k, - tol <= k <= 1 + tol /\ v = fv (at_ k) /\ near_triangle tol t (at_ k) /\
      forall x, in_segment s x -> in_triangle t x -> x = at_ k
  | None => Rabs (pdot (psub (tv1 t) (tv0 t)) (pcross (psub (sv1 s) (sv0 s)) (psub (tv2 t) (tv0 t)))) < tol \/
      forall x, ~ (in_segment s x /\ in_triangle t x)
  end.
Proof.
  intros s t tol Ht at_. unfold int_seg_triangle, seg_vector, fseg. cbn [sv0 sv1]. push.
  pose proof (mt_exact (sv0 s) (psub (sv1 s) (sv0 s)) t tol Ht) as H.
  destruct (mt_abscissa _ _ _ _) as [c|].
  - destruct H as (k & -> & H1 & H2). push. destruct (rleb (0 - tol) k && rleb k (1 + tol)) eqn:E.
    + apply andb_true_iff in E. destruct E. repeat rb.
      exists k. split; [lra|]. split; [reflexivity|]. split; [exact H1|]. intros x (k' & _ & ->) X. now rewrite (H2 k' X).
    + right. intros x ((k' & Hk & ->) & X). apply H2 in X. apply andb_false_iff in E. destruct E; rb; lra.
  - destruct H as [H|H]; [now left|]. right. intros x ((k' & _ & ->) & X). exact (H k' X).
Qed.

(** ** Crossing points. *)
Section Cross.
  Variables (o0 d0 o1 d1 : pt).
  Let a0 := pcross d0 d1.
  Let w := psub o1 o0.
  Let t0 := pdot (pcross w d1) a0 / pdot a0 a0.
  Let t1 := pdot (pcross w d0) a0 / pdot a0 a0.
  Let P0 := padd o0 (pscale t0 d0).
  Let P1 := padd o1 (pscale t1 d1).
  Hypothesis H : 0 < pdot a0 a0.

  Lemma f_cross_t0 : cross_t0 (fv o0) (fv d0) (fv o1) (fv d1) = Fin t0.
  Proof. unfold cross_t0. push. apply e_ndiv. fold a0. lra. Qed.
  Lemma f_cross_t1 : cross_t1 (fv o0) (fv d0) (fv o1) (fv d1) = Fin t1.
  Proof.
    unfold cross_t1. push. fold a0. rewrite !pdot_scale_r, !pdot_scale_l. rewrite e_ndiv by lra.
    unfold t1. f_equal.
    replace (pdot (pcross (psub o0 o1) d0) a0) with (- pdot (pcross w d0) a0) by (unfold w; clearbody a0; vunf; ring).
    field. lra.
  Qed.
  Lemma cross_gap : psub P1 P0 = pscale (pdot w a0 / pdot a0 a0) a0.
  Proof.
    pose proof (four_points w d0 d1) as F. cbv zeta in F. fold a0 in F.
    assert (E : w = pscale (/ pdot a0 a0) (pscale (pdot a0 a0) w)).
    { rewrite pscale_scale, Rinv_l by lra. now rewrite pscale_1. }
    rewrite F in E.
    replace (psub P1 P0) with (psub (padd w (pscale t1 d1)) (pscale t0 d0)) by (unfold P0, P1, w; apply vec_eq; unfold padd, psub, pscale; cbn [vx vy vz]; ring).
    rewrite E at 1. unfold t0, t1. set (A := pdot a0 a0) in *. set (x := pdot (pcross w d1) a0). set (y := pdot (pcross w d0) a0).
    set (z := pdot w a0). apply vec_eq; unfold padd, psub, pscale; cbn [vx vy vz]; field; lra.
  Qed.
  Lemma cross_perp : pdot (psub P1 P0) d0 = 0 /\ pdot (psub P1 P0) d1 = 0.
  Proof.
    rewrite cross_gap, !pdot_scale_l. rewrite (pdot_comm a0 d0), (pdot_comm a0 d1). unfold a0 at 4 8.
    rewrite pcross_dot_l, pcross_dot_r. split; ring.
  Qed.
  Lemma cross_nearest : closest (Line o0 d0) (Line o1 d1) P0 P1.
  Proof.
    split; [now exists t0|]. split; [now exists t1|]. intros x y (s & ->) (s' & ->). cbn [lorigin ldir].
    destruct cross_perp as [Q0 Q1]. rewrite (dist_sym P0), (dist_sym (padd o0 _)).
    unfold dist. apply sqrt_le_1_alt.
    set (g := psub P1 P0) in *.
    replace (psub (padd o1 (pscale s' d1)) (padd o0 (pscale s d0))) with
      (padd g (psub (pscale (s' - t1) d1) (pscale (s - t0) d0)))
      by (unfold g, P0, P1; apply vec_eq; unfold padd, psub, pscale; cbn [vx vy vz]; ring).
    set (h := psub _ (pscale (s - t0) d0)).
    assert (Z : pdot g h = 0) by (unfold h; rewrite pdot_sub_r, !pdot_scale_r, Q0, Q1; ring).
    rewrite pdot_add_l, !pdot_add_r, (pdot_comm h g), Z. pose proof (pdot_pos h). lra.
  Qed.
  Lemma cross_unique : forall s s', padd o0 (pscale s d0) = padd o1 (pscale s' d1) -> s = t0 /\ s' = t1.
  Proof.
    intros s s' E.
    assert (W : w = psub (pscale s d0) (pscale s' d1)).
    { unfold w. apply vec_eq; [apply (f_equal vx) in E|apply (f_equal vy) in E|apply (f_equal vz) in E];
        unfold padd, psub, pscale in *; cbn [vx vy vz] in *; lra. }
    assert (W1 : pcross w d1 = pscale s a0) by (rewrite W; unfold a0; apply vec_eq; vunf; ring).
    assert (W0 : pcross w d0 = pscale s' a0) by (rewrite W; unfold a0; apply vec_eq; vunf; ring).
    unfold t0, t1. rewrite W0, W1, !pdot_scale_l. split; field; lra.
  Qed.
End Cross.

Lemma f_parallel : forall a b tol, vec_parallel (fv a) (fv b) (Fin tol) = rltb (skew a b) tol.
Proof.
  intros. unfold vec_parallel. push. rewrite f_approx0, Rabs_pos_eq by apply pnorm_nonneg. reflexivity.
Qed.
Lemma skew_pos : forall a b tol, 0 < tol -> tol <= skew a b -> 0 < pdot (pcross a b) (pcross a b).
Proof.
  intros a b tol H1 H2. rewrite <- pnorm_sq. unfold skew in H2. apply Rmult_lt_0_compat; lra.
Qed.
Lemma seg_dir_eq : forall s, sv0 s <> sv1 s -> punit (psub (sv1 s) (sv0 s)) = seg_dir s.
Proof.
  intros s H. unfold seg_dir. rewrite (dist_sym (sv0 s)). apply punit_pos.
  pose proof (pdot_pos (psub (sv1 s) (sv0 s))). destruct (Req_dec (pdot (psub (sv1 s) (sv0 s)) (psub (sv1 s) (sv0 s))) 0) as [E|E]; [|lra].
  exfalso. apply H. apply pdot_zero in E. apply vec_eq; [apply (f_equal vx) in E|apply (f_equal vy) in E|apply (f_equal vz) in E];
    unfold psub in E; cbn [vx vy vz] in E; lra.
Qed.
Lemma seg_skew_pos : forall d s tol, 0 < tol -> tol <= skew d (punit (psub (sv1 s) (sv0 s))) ->
  0 < pdot (pcross d (psub (sv1 s) (sv0 s))) (pcross d (psub (sv1 s) (sv0 s))).
Proof.
  intros d s tol H1 H2. apply skew_pos in H2; auto. unfold punit in H2.
  destruct (rltb 0 _) eqn:E; auto. rb. pose proof (pnorm_pos _ E) as N.
  rewrite pcross_scale_r, pdot_scale_l, pdot_scale_r in H2.
  set (x := pdot (pcross _ _) (pcross _ _)) in *. pose proof (pdot_pos (pcross d (psub (sv1 s) (sv0 s)))) as P. fold x in P.
  destruct (Req_dec x 0) as [Z|Z]; [|lra]. rewrite Z in H2. lra.
Qed.

Lemma line_line_exact : forall a b tol, 0 < tol ->
  match int_line_line (fline a) (fline b) (Fin tol) with
  | Some v => exists p q, v = fv p /\ closest a b p q
  | None => skew (ldir a) (ldir b) < tol
  end.
Proof.
  intros [o0 d0] [o1 d1] tol Ht. unfold int_line_line, par_line_line, fline. cbn [lorigin ldir]. rewrite f_parallel.
  destruct (rltb (skew d0 d1) tol) eqn:E; rb; cbn [negb]; [exact E|].
  apply skew_pos in E; auto. rewrite f_cross_t0 by auto. push. eexists _, _. split; [reflexivity|].
  now apply cross_nearest.
Qed.
(** The common point, when there is one. *)
Lemma closest_common : forall a b p q x, closest a b p q -> on_line a x -> on_line b x -> p = q.
Proof.
  intros a b p q x (H1 & H2 & H3) Ha Hb. specialize (H3 x x Ha Hb). unfold dist in H3.
  rewrite psub_self in H3. replace (pnorm (V 0 0 0)) with 0 in H3 by (symmetry; apply pnorm_eq; [lra|vunf; ring]).
  pose proof (pnorm_nonneg (psub p q)). assert (E : pnorm (psub p q) = 0) by lra.
  apply pnorm_eq in E; [|lra]. rewrite Rmult_0_l in E. apply pdot_zero in E.
  apply vec_eq; [apply (f_equal vx) in E|apply (f_equal vy) in E|apply (f_equal vz) in E];
    unfold psub in E; cbn [vx vy vz] in E; lra.
Qed.

Lemma ray_ray_exact : forall a b tol, 0 < tol ->
  match int_ray_ray (fray a) (fray b) (Fin tol) with
  | Some v => exists t0 t1, - tol <= t0 /\ - tol <= t1 /\
      let p := padd (ry_origin a) (pscale t0 (ry_dir a)) in let q := padd (ry_origin b) (pscale t1 (ry_dir b)) in
      v = fv p /\ closest (ray_line a) (ray_line b) p q /\ forall x, on_ray a x -> on_ray b x -> x = p
  | None => skew (ry_dir a) (ry_dir b) < tol \/ forall x, ~ (on_ray a x /\ on_ray b x)
  end.
Proof.
  intros [o0 d0] [o1 d1] tol Ht. unfold int_ray_ray, par_ray_ray, fray, ray_line. cbn [ry_origin ry_dir]. rewrite f_parallel.
  destruct (rltb (skew d0 d1) tol) eqn:E; rb; cbn [negb]; [left; exact E|].
  apply skew_pos in E; auto. rewrite f_cross_t0, f_cross_t1 by auto. push.
  pose proof (cross_nearest o0 d0 o1 d1 E) as C. pose proof (cross_unique o0 d0 o1 d1 E) as U.
  set (t0 := _ / _) in *. set (t1 := pdot (pcross _ d0) _ / _) in *.
  destruct (rltb t0 (0 - tol) || rltb t1 (0 - tol)) eqn:E1.
  - right. intros x ((s & Hs & X) & (s' & Hs' & X')). cbn [ry_origin ry_dir] in X, X'. rewrite X in X'. apply U in X'.
    destruct X'. apply orb_true_iff in E1. destruct E1; rb; lra.
  - apply orb_false_iff in E1. destruct E1. repeat rb. exists t0, t1. split; [lra|]. split; [lra|]. cbv zeta. split; [reflexivity|].
    split; [exact C|]. intros x (s & Hs & X) (s' & Hs' & X'). cbn [ry_origin ry_dir] in X, X'. rewrite X in X'. apply U in X'.
    destruct X'. subst. reflexivity.
Qed.
Lemma line_ray_exact : forall l b tol, 0 < tol ->
  match int_line_ray (fline l) (fray b) (Fin tol) with
  | Some v => exists p t1, - tol <= t1 /\ v = fv p /\
      closest l (ray_line b) p (padd (ry_origin b) (pscale t1 (ry_dir b))) /\
      forall x, on_line l x -> on_ray b x -> x = p
  | None => skew (ldir l) (ry_dir b) < tol \/ forall x, ~ (on_line l x /\ on_ray b x)
  end.
Proof.
  intros [o0 d0] [o1 d1] tol Ht. unfold int_line_ray, par_line_ray, fline, fray, ray_line. cbn [lorigin ldir ry_origin ry_dir]. rewrite f_parallel.
  destruct (rltb (skew d0 d1) tol) eqn:E; rb; cbn [negb]; [left; exact E|].
  apply skew_pos in E; auto. rewrite f_cross_t0, f_cross_t1 by auto. push.
  pose proof (cross_nearest o0 d0 o1 d1 E) as C. pose proof (cross_unique o0 d0 o1 d1 E) as U.
  set (t0 := _ / _) in *. set (t1 := pdot (pcross _ d0) _ / _) in *.
  destruct (rltb t1 (0 - tol)) eqn:E1; rb.
  - right. intros x ((s & X) & (s' & Hs' & X')). cbn [lorigin ldir ry_origin ry_dir] in X, X'. rewrite X in X'. apply U in X'. lra.
  - eexists _, t1. split; [lra|]. split; [reflexivity|].
    split; [exact C|]. intros x (s & X) (s' & Hs' & X'). cbn [lorigin ldir ry_origin ry_dir] in X, X'. rewrite X in X'. apply U in X'.
    destruct X'. subst. reflexivity.
Qed.
Lemma ray_seg_exact : forall a s tol, 0 < tol -> sv0 s <> sv1 s ->
  match int_ray_seg (fray a) (fseg s) (Fin tol) with
  | Some v => exists t0 t1, - tol <= t0 /\ - tol <= t1 <= 1 + tol /\
      let p := padd (ry_origin a) (pscale t0 (ry_dir a)) in let q := padd (sv0 s) (pscale t1 (psub (sv1 s) (sv0 s))) in
      v = fv p /\ closest (ray_line a) (seg_line s) p q /\ forall x, on_ray a x -> in_segment s x -> x = p
  | None => skew (ry_dir a) (seg_dir s) < tol \/ forall x, ~ (on_ray a x /\ in_segment s x)
  end.
Proof.
  intros [o0 d0] s tol Ht Hs. unfold int_ray_seg, par_ray_seg, seg_unit_vector, seg_vector, fray, fseg, ray_line, seg_line.
  cbn [ry_origin ry_dir sv0 sv1]. push. rewrite f_parallel, seg_dir_eq by auto.
  destruct (rltb (skew d0 (seg_dir s)) tol) eqn:E; rb; cbn [negb]; [left; exact E|].
  rewrite <- seg_dir_eq in E by auto. apply seg_skew_pos in E; auto. set (o1 := sv0 s) in *. set (d1 := psub (sv1 s) o1) in *.
  rewrite f_cross_t0, f_cross_t1 by auto. push.
  pose proof (cross_nearest o0 d0 o1 d1 E) as C. pose proof (cross_unique o0 d0 o1 d1 E) as U.
  set (t0 := _ / _) in *. set (t1 := pdot (pcross _ d0) _ / _) in *.
  destruct (_ || _) eqn:E1.
  - right. intros x ((k & Hk & X) & (k' & Hk' & X')). cbn [ry_origin ry_dir] in X. fold o1 in X'. fold d1 in X'. rewrite X in X'. apply U in X'.
    rewrite !orb_true_iff in E1. destruct X', E1 as [[E1|E1]|E1]; rb; lra.
  - rewrite !orb_false_iff in E1. destruct E1 as [[E1 E2] E3]. repeat rb. exists t0, t1. split; [lra|]. split; [lra|]. cbv zeta. split; [reflexivity|].
    split; [exact C|]. intros x (k & Hk & X) (k' & Hk' & X'). cbn [ry_origin ry_dir] in X. fold o1 in X'. fold d1 in X'. rewrite X in X'. apply U in X'.
    destruct X'. subst. reflexivity.
Qed.
Lemma seg_seg_exact : forall a s tol, 0 < tol -> sv0 a <> sv1 a -> sv0 s <> sv1 s ->
  match int_seg_seg (fseg a) (fseg s) (Fin tol) with
  | Some v => exists t0 t1, - tol <= t0 <= 1 + tol /\ - tol <= t1 <= 1 + tol /\
      let p := padd (sv0 a) (pscale t0 (psub (sv1 a) (sv0 a))) in let q := padd (sv0 s) (pscale t1 (psub (sv1 s) (sv0 s))) in
      v = fv p /\ closest (seg_line a) (seg_line s) p q /\ forall x, in_segment a x -> in_segment s x -> x = p
  | None => skew (seg_dir a) (seg_dir s) < tol \/ forall x, ~ (in_segment a x /\ in_segment s x)
  end.
Proof.
  intros a s tol Ht Ha Hs. unfold int_seg_seg, par_seg_seg, seg_unit_vector, seg_vector, fseg, seg_line.
  cbn [sv0 sv1]. push. rewrite f_parallel, !seg_dir_eq by auto.
  destruct (rltb (skew (seg_dir a) (seg_dir s)) tol) eqn:E; rb; cbn [negb]; [left; exact E|].
  rewrite <- (seg_dir_eq s) in E by auto. apply seg_skew_pos in E; auto.
  assert (E' : 0 < pdot (pcross (psub (sv1 a) (sv0 a)) (psub (sv1 s) (sv0 s))) (pcross (psub (sv1 a) (sv0 a)) (psub (sv1 s) (sv0 s)))).
  { unfold seg_dir in E. rewrite pcross_scale_l, pdot_scale_l, pdot_scale_r in E. set (x := pdot (pcross _ _) (pcross _ _)) in E |- *.
    pose proof (pdot_pos (pcross (psub (sv1 a) (sv0 a)) (psub (sv1 s) (sv0 s)))) as P. fold x in P.
    destruct (Req_dec x 0) as [Z|Z]; [|lra]. rewrite Z in E. lra. }
  clear E. set (o0 := sv0 a) in *. set (d0 := psub (sv1 a) o0) in *. set (o1 := sv0 s) in *. set (d1 := psub (sv1 s) o1) in *.
  rewrite f_cross_t0, f_cross_t1 by auto. push.
  pose proof (cross_nearest o0 d0 o1 d1 E') as C. pose proof (cross_unique o0 d0 o1 d1 E') as U.
  set (t0 := _ / _) in *. set (t1 := pdot (pcross _ d0) _ / _) in *.
  destruct (_ || _) eqn:E1.
  - right. intros x ((k & Hk & X) & (k' & Hk' & X')). fold o0 in X. fold d0 in X. fold o1 in X'. fold d1 in X'. rewrite X in X'. apply U in X'.
    rewrite !orb_true_iff in E1. destruct X', E1 as [[[E1|E1]|E1]|E1]; rb; lra.
  - rewrite !orb_false_iff in E1. destruct E1 as [[[E1 E2] E3] E4]. repeat rb. exists t0, t1. split; [lra|]. split; [lra|]. cbv zeta. split; [reflexivity|].
    split; [exact C|]. intros x (k & Hk & X) (k' & Hk' & X'). fold o0 in X. fold d0 in X. fold o1 in X'. fold d1 in X'. rewrite X in X'. apply U in X'.
    destruct X'. subst. reflexivity.
Qed.
