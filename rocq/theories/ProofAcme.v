(** * Planes, balls, rays: the remaining intersection functions on finite
      numbers. *)
From Coq Require Import ZArith Bool List Reals Lra Lia.
From Verif Require Import Base Num Vec Aabb Geom Acme ER SpecGeom SpecAcme.
From Verif Require Import ProofGeom ProofInt.
Import ListNotations.
Local Open Scope R_scope.

(** ** Measures. *)
Lemma disk_measures : forall d : disk R,
  disk_area (fdisk d) = Fin (2 * PI * dradius d) /\ disk_perimeter (fdisk d) = Fin (PI * dradius d * dradius d).
Proof. intros d. split; reflexivity. Qed.
Lemma ball_measures : forall b : ball R,
  ball_area (fball b) = Fin (4 * PI * bl_radius b ^ 2) /\ ball_volume (fball b) = Fin (4 / 3 * PI * bl_radius b ^ 3).
Proof.
  intros b. unfold ball_area, ball_volume, fball. cbn [bl_radius npi ER_Num]. push.
  rewrite e_ndiv by lra. push. split; f_equal; ring.
Qed.
Lemma segment_measure : forall s, seg_length (fseg s) = Fin (dist (sv0 s) (sv1 s)).
Proof. intros s. unfold seg_length, fseg. cbn [sv0 sv1]. now push. Qed.
Lemma triangle_perimeter : forall t, tri_perimeter (ftri t) =
  Fin (dist (tv0 t) (tv1 t) + dist (tv1 t) (tv2 t) + dist (tv2 t) (tv0 t)).
Proof. intros t. unfold tri_perimeter, ftri. cbn [tv0 tv1 tv2]. now push. Qed.
Lemma foot_height : forall a u c, 0 < pdot u u ->
  pdot (psub c (foot (Line a u) c)) (psub c (foot (Line a u) c)) * pdot u u = pdot (pcross u (psub c a)) (pcross u (psub c a)).
Proof.
  intros a u c H. rewrite pcross_sq. unfold foot. cbn [lorigin ldir].
  replace (psub c (padd a (pscale (pdot (psub c a) u / pdot u u) u)))
    with (psub (psub c a) (pscale (pdot (psub c a) u / pdot u u) u)) by (apply vec_eq; vunf; ring).
  set (w := psub c a). rewrite pdot_sub_l, !pdot_sub_r, !pdot_scale_l, !pdot_scale_r, (pdot_comm u w).
  field. lra.
Qed.
Lemma triangle_area : forall t, 0 < dist (tv0 t) (tv1 t) ->
  tri_area (ftri t) = Fin (dist (tv0 t) (tv1 t) * triangle_height t / 2).
Proof.
  intros t H. unfold tri_area, ftri. cbn [tv0 tv1 tv2]. push. rewrite e_ndiv by lra. f_equal. f_equal.
  unfold triangle_height, seg_line. cbn [sv0 sv1]. apply pnorm_eq.
  { apply Rmult_le_pos; apply sqrt_pos. }
  assert (HP : 0 < pdot (psub (tv1 t) (tv0 t)) (psub (tv1 t) (tv0 t))).
  { rewrite <- pnorm_sq. fold (dist (tv1 t) (tv0 t)). rewrite dist_sym. now apply Rmult_lt_0_compat. }
  rewrite <- foot_height by exact HP. rewrite (dist_sym (tv0 t)). unfold dist.
  rewrite <- (pnorm_sq (psub (tv2 t) _)), <- (pnorm_sq (psub (tv1 t) (tv0 t))). ring.
Qed.

(** ** Three planes. *)
Lemma mdet_cols : forall a b c, mdet (of_cols (fv a) (fv b) (fv c)) = Fin (triple a b c).
Proof. intros [x y z] [u v w] [p q r]. cbn. unfold triple. vunf. f_equal. ring. Qed.
Lemma cramer : forall a b c x, pscale (triple a b c) x =
  padd (padd (pscale (pdot x a) (pcross b c)) (pscale (pdot x b) (pcross c a))) (pscale (pdot x c) (pcross a b)).
Proof. intros. apply vec_eq; unfold triple; vunf; ring. Qed.
Lemma three_planes : forall p0 p1 p2 tol, 0 < tol ->
  match int_three_planes (fplane p0) (fplane p1) (fplane p2) (Fin tol) with
  | Some v => tol <= Rabs (triple (pnormal p0) (pnormal p1) (pnormal p2)) /\
      exists q, v = fv q /\ forall x, on_plane p0 x /\ on_plane p1 x /\ on_plane p2 x <-> x = q
  | None => Rabs (triple (pnormal p0) (pnormal p1) (pnormal p2)) < tol
  end.
Proof.
  intros p0 p1 p2 tol Ht. unfold int_three_planes, plane_d, fplane. cbn [porigin pnormal].
  rewrite mdet_cols, f_approx0. destruct (rltb _ tol) eqn:E; [now rb|]. rb. split; [exact E|].
  set (n0 := pnormal p0) in *. set (n1 := pnormal p1) in *. set (n2 := pnormal p2) in *. set (det := triple n0 n1 n2) in *.
  assert (Hd : det <> 0) by (intros Z; rewrite Z, Rabs_R0 in E; lra).
  push. rewrite f_div by auto. eexists. split; [reflexivity|]. rewrite !Ropp_involutive.
  set (d0 := pdot (porigin p0) n0). set (d1 := pdot (porigin p1) n1). set (d2 := pdot (porigin p2) n2).
  intros x.
  assert (P : forall o n, pdot (psub x o) n = 0 <-> pdot x n = pdot o n) by (intros; rewrite pdot_sub_l; lra).
  unfold on_plane. fold n0 n1 n2. rewrite !P. fold d0 d1 d2. split.
  - intros (H0 & H1 & H2). rewrite <- H0, <- H1, <- H2, <- cramer. fold det. rewrite pscale_scale, Rinv_l by auto. now rewrite pscale_1.
  - intros ->. rewrite !pdot_scale_l, !pdot_add_l, !pdot_scale_l.
    assert (C1 : pdot (pcross n1 n2) n0 = det) by (unfold det, triple; apply pdot_comm).
    assert (C2 : pdot (pcross n2 n0) n1 = det) by (unfold det, triple; vunf; ring).
    assert (C3 : pdot (pcross n0 n1) n2 = det) by (unfold det, triple; vunf; ring).
    assert (Z : forall a b, pdot (pcross a b) a = 0 /\ pdot (pcross a b) b = 0).
    { intros a b. rewrite (pdot_comm _ a), (pdot_comm _ b). split; [apply pcross_dot_l|apply pcross_dot_r]. }
    rewrite C1, C2, C3. rewrite (proj2 (Z n2 n0)), (proj1 (Z n0 n1)), (proj1 (Z n1 n2)), (proj2 (Z n0 n1)), (proj2 (Z n1 n2)), (proj1 (Z n2 n0)).
    repeat split; field; auto.
Qed.

(** ** Plane and ball. *)
Lemma plane_ball : forall p b,
  match int_plane_ball (fplane p) (fball b) with
  | Some d => exists d', d = fdisk d' /\ 0 <= dradius d' /\
      forall q, in_disk d' q <-> on_plane p q /\ in_ball b q
  | None => forall q, ~ (on_plane p q /\ in_ball b q)
  end.
Proof.
  intros p b. unfold int_plane_ball, plane_unit_normal, fplane, fball. cbn [porigin pnormal bl_radius bl_center]. push.
  set (n := punit (pnormal p)). set (c := bl_center b). set (r := bl_radius b). set (sd := pdot (psub c (porigin p)) n).
  assert (On : forall q, on_plane p q <-> pdot (psub q (porigin p)) n = 0).
  { intros q. unfold on_plane, n, punit. destruct (rltb 0 (pdot (pnormal p) (pnormal p))) eqn:E; [|reflexivity].
    rb. rewrite pdot_scale_r. pose proof (pnorm_pos _ E) as N. split; [intros ->; ring|].
    intros H. apply Rmult_integral in H. destruct H as [H|H]; auto. exfalso. revert H. apply Rinv_neq_0_compat. lra. }
  assert (N1 : pdot n n = 1 \/ n = V 0 0 0).
  { unfold n. destruct (Rlt_dec 0 (pdot (pnormal p) (pnormal p))) as [H|H].
    - left. now apply punit_is_unit.
    - right. pose proof (pdot_pos (pnormal p)). assert (E : pdot (pnormal p) (pnormal p) = 0) by lra.
      rewrite punit_zero by auto. now apply pdot_zero. }
  assert (SD : sd * pdot n n = sd).
  { destruct N1 as [-> | N1]; [ring|]. unfold sd. rewrite N1. vunf. ring. }
  (* Pythagoras *)
  assert (Py : forall q, pdot (psub q (porigin p)) n = 0 ->
    pdot (psub q c) (psub q c) = pdot (psub q (psub c (pscale sd n))) (psub q (psub c (pscale sd n))) + sd * sd).
  { intros q H. replace (psub q (psub c (pscale sd n))) with (padd (psub q c) (pscale sd n)) by (apply vec_eq; vunf; ring).
    rewrite pdot_add_l, !pdot_add_r, !pdot_scale_l, !pdot_scale_r, (pdot_comm n (psub q c)).
    assert (D : pdot (psub q c) n = - sd).
    { replace (psub q c) with (psub (psub q (porigin p)) (psub c (porigin p))) by (apply vec_eq; vunf; ring).
      rewrite pdot_sub_l, H. fold sd. ring. }
    rewrite D. replace (sd * (sd * pdot n n)) with (sd * sd) by (rewrite SD; ring). ring. }
  destruct (rleb (Rabs sd) r) eqn:E; rb.
  - assert (A : 0 <= Rabs sd) by apply Rabs_pos.
    assert (S2 : Rabs sd * Rabs sd = sd * sd) by (rewrite <- Rabs_mult; apply Rabs_pos_eq, Rle_0_sqr).
    assert (G : 0 <= (r + Rabs sd) * (r - Rabs sd)) by (apply Rmult_le_pos; lra).
    rewrite e_nsqrt by exact G. exists (Disk (sqrt ((r + Rabs sd) * (r - Rabs sd))) (Plane (psub c (pscale sd n)) n)).
    split; [reflexivity|]. cbn [dradius]. split; [apply sqrt_pos|]. intros q. unfold in_disk, in_ball. cbn [dplane dradius].
    fold c r. unfold on_plane at 1. cbn [porigin pnormal]. unfold dist.
    assert (OO : pdot (psub q (psub c (pscale sd n))) n = 0 <-> on_plane p q).
    { rewrite On. replace (psub q (psub c (pscale sd n))) with (padd (psub (psub q (porigin p)) (psub c (porigin p))) (pscale sd n))
        by (apply vec_eq; vunf; ring).
      rewrite pdot_add_l, pdot_sub_l, pdot_scale_l. fold sd. rewrite SD. lra. }
    rewrite OO. split; intros [H1 H2]; (split; [exact H1|]); apply On in H1; pose proof (Py q H1) as P.
    + apply pnorm_le in H2; [|apply sqrt_pos]. rewrite sqrt_sqrt in H2 by exact G.
      apply pnorm_le; [lra|]. rewrite P. lra.
    + apply pnorm_le in H2; [|lra]. apply pnorm_le; [apply sqrt_pos|]. rewrite sqrt_sqrt by exact G. lra.
  - intros q [H1 H2]. apply On in H1. pose proof (Py q H1) as P. unfold in_ball, dist in H2. fold c r in H2.
    pose proof (pnorm_nonneg (psub q c)). assert (R0 : 0 <= r) by lra. apply pnorm_le in H2; [|lra].
    pose proof (pdot_pos (psub q (psub c (pscale sd n)))).
    assert (S2 : Rabs sd * Rabs sd = sd * sd) by (rewrite <- Rabs_mult; apply Rabs_pos_eq, Rle_0_sqr).
    assert (r * r < Rabs sd * Rabs sd) by (apply Rmult_le_0_lt_compat; lra). lra.
Qed.

(** ** Line, ray, segment and ball. *)
Lemma f_seg : forall a b, Segment (fv a) (fv b) = fseg (Segment a b).
Proof. reflexivity. Qed.
Lemma seg_param : forall o u t0 t1 q, t0 <= t1 ->
  (in_segment (Segment (padd o (pscale t0 u)) (padd o (pscale t1 u))) q <->
   exists s, t0 <= s <= t1 /\ q = padd o (pscale s u)).
Proof.
  intros o u t0 t1 q H. unfold in_segment. cbn [sv0 sv1]. split.
  - intros (k & Hk & ->). exists (t0 + k * (t1 - t0)). split; [nra|]. apply vec_eq; vunf; ring.
  - intros (s & Hs & ->). destruct (Req_dec t0 t1) as [E|E].
    + exists 0. split; [lra|]. assert (s = t0) by lra. subst. apply vec_eq; vunf; ring.
    + exists ((s - t0) / (t1 - t0)). assert (0 < t1 - t0) by lra. split.
      * split; [apply Rmult_le_pos; [lra|left; now apply Rinv_0_lt_compat]|].
        apply Rmult_le_reg_r with (t1 - t0); auto. unfold Rdiv. rewrite Rmult_assoc, Rinv_l by lra. lra.
      * apply vec_eq; vunf; field; lra.
Qed.
Lemma on_line_unit : forall o d q, 0 < pdot d d ->
  (on_line (Line o d) q <-> exists s, q = padd o (pscale s (punit d))).
Proof.
  intros o d q H. rewrite punit_pos by auto. pose proof (pnorm_pos _ H) as N. unfold on_line. cbn [lorigin ldir]. split.
  - intros [t ->]. exists (t * pnorm d). rewrite pscale_scale. f_equal. f_equal. field. lra.
  - intros [s ->]. exists (s * / pnorm d). now rewrite pscale_scale.
Qed.
Lemma on_ray_unit : forall o d q, 0 < pdot d d ->
  (on_ray (Ray o d) q <-> exists s, 0 <= s /\ q = padd o (pscale s (punit d))).
Proof.
  intros o d q H. rewrite punit_pos by auto. pose proof (pnorm_pos _ H) as N. unfold on_ray. cbn [ry_origin ry_dir]. split.
  - intros (t & Ht & ->). exists (t * pnorm d). split; [apply Rmult_le_pos; lra|]. rewrite pscale_scale. f_equal. f_equal. field. lra.
  - intros (s & Hs & ->). exists (s * / pnorm d). split; [apply Rmult_le_pos; [lra|left; now apply Rinv_0_lt_compat]|]. now rewrite pscale_scale.
Qed.
Lemma ball_on_line : forall b o u s, is_unit u -> 0 <= bl_radius b ->
  let w := psub o (bl_center b) in
  let discr := pdot u w * pdot u w - (pdot w w - bl_radius b * bl_radius b) in
  (in_ball b (padd o (pscale s u)) <-> (s + pdot u w) * (s + pdot u w) <= discr).
Proof.
  intros b o u s U R w discr. unfold in_ball, dist. rewrite pnorm_le by auto.
  replace (psub (padd o (pscale s u)) (bl_center b)) with (padd w (pscale s u)) by (unfold w; apply vec_eq; vunf; ring).
  rewrite pdot_add_l, !pdot_add_r, !pdot_scale_l, !pdot_scale_r, (pdot_comm w u), U. unfold discr. split; lra.
Qed.
Lemma sq_le : forall x d, 0 <= d -> (x * x <= d <-> - sqrt d <= x <= sqrt d).
Proof.
  intros x d H. pose proof (sqrt_pos d). pose proof (sqrt_sqrt d H) as S. split.
  - intros L. assert (Rsqr x <= Rsqr (sqrt d)) by (unfold Rsqr; lra). split.
    + apply Rnot_lt_le. intros C. assert (Cq : sqrt d < - x) by lra.
      apply (Rsqr_incrst_1 (sqrt d) (- x)) in Cq; try lra. rewrite <- Rsqr_neg in Cq. lra.
    + apply Rsqr_incr_0_var; auto.
  - intros L. rewrite <- S. destruct (Rle_dec 0 x); nra.
Qed.
Lemma dist2_unit : forall o d c, 0 < pdot d d ->
  let w := psub o c in line_dist2 (Line o d) c = pdot w w - pdot (punit d) w * pdot (punit d) w.
Proof.
  intros o d c H w. unfold line_dist2. unfold dist. rewrite pnorm_sq. unfold foot. cbn [lorigin ldir].
  rewrite punit_pos by auto. rewrite pdot_scale_l.
  assert (N : pnorm d * pnorm d = pdot d d) by apply pnorm_sq. pose proof (pnorm_pos _ H) as P.
  replace (psub (padd o (pscale (pdot (psub c o) d / pdot d d) d)) c) with (psub w (pscale (pdot w d / pdot d d) d)).
  2:{ unfold w. replace (pdot (psub c o) d) with (- pdot (psub o c) d) by (vunf; ring). apply vec_eq; unfold padd, psub, pscale; cbn [vx vy vz]; field; lra. }
  rewrite pdot_sub_l, !pdot_sub_r, !pdot_scale_l, !pdot_scale_r, (pdot_comm d w), <- N. field. lra.
Qed.

Section LineBall.
  Variables (o d : pt) (b : ball R) (tol : R).
  Hypotheses (Hd : 0 < pdot d d) (Hr : 0 <= bl_radius b) (Ht : 0 < tol).
  Let u := punit d.
  Let w := psub o (bl_center b).
  Let a1 := pdot u w.
  Let discr := a1 * a1 - (pdot w w - bl_radius b * bl_radius b).
  Let Uu : is_unit u := punit_is_unit d Hd.

  Lemma discr_eq : discr = bl_radius b * bl_radius b - line_dist2 (Line o d) (bl_center b).
  Proof. rewrite dist2_unit by auto. fold w u. unfold discr, a1. ring. Qed.
  Lemma in_ball_param : forall s, 0 <= discr ->
    (in_ball b (padd o (pscale s u)) <-> - a1 - sqrt discr <= s <= - a1 + sqrt discr).
  Proof.
    intros s H. rewrite (ball_on_line b o u s Uu Hr). cbv zeta. fold w a1 discr.
    rewrite sq_le by auto. split; lra.
  Qed.

  Lemma line_ball_exact :
    match int_line_ball (fline (Line o d)) (fball b) (Fin tol) with
    | Some s => exists s', s = fseg s' /\ forall q, in_segment s' q <-> on_line (Line o d) q /\ in_ball b q
    | None => bl_radius b * bl_radius b - line_dist2 (Line o d) (bl_center b) <= tol
    end.
  Proof.
    rewrite <- discr_eq. unfold int_line_ball, line_unit_vector, fline, fball. cbn [lorigin ldir bl_radius bl_center]. push.
    fold u w a1. fold discr. destruct (rltb tol discr) eqn:E; rb; [|exact E].
    rewrite e_nsqrt by lra. push. rewrite f_seg. eexists. split; [reflexivity|]. intros q.
    pose proof (sqrt_pos discr). rewrite seg_param by lra. rewrite on_line_unit by auto. fold u. split.
    - intros (s & Hs & ->). split; [eauto|]. apply in_ball_param; lra.
    - intros ((s & ->) & H1). exists s. split; auto. apply in_ball_param in H1; lra.
  Qed.
  Lemma ray_ball_exact :
    match int_ray_ball (fray (Ray o d)) (fball b) (Fin tol) with
    | Some s => exists s', s = fseg s' /\ forall q, in_segment s' q <-> on_ray (Ray o d) q /\ in_ball b q
    | None => bl_radius b * bl_radius b - line_dist2 (Line o d) (bl_center b) <= tol \/
        forall q, ~ (on_ray (Ray o d) q /\ in_ball b q)
    end.
  Proof.
    rewrite <- discr_eq. unfold int_ray_ball, ray_unit_vector, fray, fball. cbn [ry_origin ry_dir bl_radius bl_center]. push.
    fold u w a1. fold discr. destruct (rltb tol discr) eqn:E; rb; [|left; exact E].
    rewrite e_nsqrt by lra. push. pose proof (sqrt_pos discr) as SP.
    destruct (rltb (- a1 - sqrt discr) 0 && rltb (- a1 + sqrt discr) 0) eqn:E1.
    - right. apply andb_true_iff in E1. destruct E1 as [E1 E2]. repeat rb. intros q [H1 H2].
      apply on_ray_unit in H1; auto. destruct H1 as (s & Hs & ->). fold u in H2. apply in_ball_param in H2; lra.
    - apply andb_false_iff in E1. rewrite f_seg. eexists. split; [reflexivity|]. intros q.
      assert (T1 : 0 <= - a1 + sqrt discr) by (destruct E1; rb; lra).
      rewrite (Rmax_left (- a1 + sqrt discr) 0) by lra.
      assert (M : Rmax (- a1 - sqrt discr) 0 <= - a1 + sqrt discr) by (apply Rmax_lub; lra).
      rewrite seg_param by auto. rewrite on_ray_unit by auto. fold u. split.
      + intros (s & Hs & ->). pose proof (Rmax_l (- a1 - sqrt discr) 0). pose proof (Rmax_r (- a1 - sqrt discr) 0).
        split; [exists s; split; [lra|reflexivity]|]. apply in_ball_param; lra.
      + intros ((s & Hs & ->) & H1). exists s. apply in_ball_param in H1; [|lra]. split; auto. split; [apply Rmax_lub|]; lra.
  Qed.
End LineBall.
Section SegBall.
  Variables (s0 : segment R) (b : ball R) (tol : R).
  Hypotheses (Hd : dist (sv0 s0) (sv1 s0) = 1) (Hr : 0 <= bl_radius b) (Ht : 0 < tol).
  Let o := sv0 s0.
  Let d := psub (sv1 s0) (sv0 s0).
  Let Ud : is_unit d.
  Proof.
    unfold is_unit. rewrite <- pnorm_sq. unfold d. fold (dist (sv1 s0) (sv0 s0)). rewrite dist_sym, Hd. ring.
  Qed.
  Lemma seg_ball_unit_exact :
    match int_seg_ball (fseg s0) (fball b) (Fin tol) with
    | Some s => exists s', s = fseg s' /\ forall q, in_segment s' q <-> in_segment s0 q /\ in_ball b q
    | None => bl_radius b * bl_radius b - line_dist2 (seg_line s0) (bl_center b) <= tol \/
        forall q, ~ (in_segment s0 q /\ in_ball b q)
    end.
  Proof.
    assert (Dp : 0 < pdot d d) by (rewrite Ud; lra).
    pose proof (in_ball_param o d b Dp Hr) as BP. pose proof (discr_eq o d b Dp) as DE.
    cbv zeta in BP, DE. rewrite !punit_unit in BP by auto. rewrite !punit_unit in DE by auto.
    change (seg_line s0) with (Line o d). rewrite <- DE. unfold int_seg_ball, seg_vector, fseg, fball. cbn [sv0 sv1 bl_radius bl_center].
    push. fold d. change (sv0 s0) with o. set (w := psub o (bl_center b)) in *. set (a1 := pdot d w) in *.
    set (discr := a1 * a1 - (pdot w w - bl_radius b * bl_radius b)) in *.
    destruct (rltb tol discr) eqn:E; rb; [|left; exact E].
    rewrite e_nsqrt by lra. push. pose proof (sqrt_pos discr) as SP. set (rt := sqrt discr) in *.
    assert (PS : forall q, in_segment s0 q <-> exists s, 0 <= s <= 1 /\ q = padd o (pscale s d)) by (intros; reflexivity).
    destruct (_ || _) eqn:E1.
    - right. intros q [H1 H2]. apply PS in H1. destruct H1 as (s & Hs & ->). apply BP in H2; [|lra].
      apply orb_true_iff in E1. destruct E1 as [E1|E1]; apply andb_true_iff in E1; destruct E1 as [E1 E2]; repeat rb; lra.
    - apply orb_false_iff in E1. destruct E1 as [E1 E2]. apply andb_false_iff in E1, E2.
      assert (T1 : 0 <= - a1 + rt) by (destruct E1; rb; lra).
      assert (T0 : - a1 - rt <= 1) by (destruct E2; rb; lra).
      rewrite f_seg. eexists. split; [reflexivity|]. intros q.
      assert (M0 : Rmin (Rmax (- a1 - rt) 0) 1 = Rmax (- a1 - rt) 0) by (apply Rmin_left, Rmax_lub; lra).
      assert (M1 : Rmin (Rmax (- a1 + rt) 0) 1 = Rmin (- a1 + rt) 1) by (rewrite Rmax_left by lra; reflexivity).
      rewrite M0, M1. rewrite seg_param by (apply Rmax_lub; apply Rmin_glb; lra). rewrite PS.
      pose proof (Rmax_l (- a1 - rt) 0). pose proof (Rmax_r (- a1 - rt) 0).
      pose proof (Rmin_l (- a1 + rt) 1). pose proof (Rmin_r (- a1 + rt) 1). split.
      + intros (s & Hs & ->). split; [exists s; split; [lra|reflexivity]|]. apply BP; lra.
      + intros ((s & Hs & ->) & H3). exists s. apply BP in H3; [|lra]. split; auto. split; [apply Rmax_lub|apply Rmin_glb]; lra.
  Qed.
End SegBall.
