(** * The predicates on run-time typed entities. *)
From Coq Require Import ZArith Bool List Reals Lra Lia.
From Verif Require Import Base Num Vec Aabb Geom Acme AcmeEntity ER SpecGeom SpecAcme SpecEntity.
From Verif Require Import ProofGeom ProofInt ProofAcme ProofCross ProofEntity.
Import ListNotations.
Local Open Scope R_scope.

Lemma zero_scale : forall v k, pdot v v = 0 -> pscale k v = v.
Proof. intros v k H. apply pdot_zero in H. rewrite H. apply vec_eq; vunf; ring. Qed.
Lemma punit_over : forall v, punit v = pscale (/ pnorm v) v.
Proof.
  intros v. destruct (Rle_lt_dec (pdot v v) 0) as [L|L]; [|now apply punit_pos].
  assert (E : pdot v v = 0) by (pose proof (pdot_pos v); lra). now rewrite punit_zero, zero_scale.
Qed.
Lemma f_orthogonal : forall a b tol, vec_orthogonal (fv a) (fv b) (Fin tol) = rltb (Rabs (pdot a b)) tol.
Proof. intros. unfold vec_orthogonal. rewrite f_dot. apply f_approx0. Qed.
Lemma f_seg_unit : forall s, seg_unit_vector (fseg s) = fv (seg_dir s).
Proof.
  intros s. unfold seg_unit_vector, fseg, seg_dir. cbn [sv0 sv1]. rewrite f_sub, f_normalized, punit_over.
  rewrite dist_sym. reflexivity.
Qed.
Lemma f_tri_normal : forall t, tri_normal (ftri t) = fv (pscale (/ pnorm (tri_across t)) (tri_across t)).
Proof. intros t. unfold tri_normal, ftri. cbn [tv0 tv1 tv2]. rewrite !f_sub, f_cross, f_normalized, punit_over. reflexivity. Qed.
Lemma skew_sym : forall a b, skew a b = skew b a.
Proof. intros a b. unfold skew, pnorm. f_equal. rewrite (pcross_anti a b). vringd. Qed.

Ltac facing_unfold := unfold par_line_line, par_ray_ray, par_plane_plane, par_seg_seg, par_tri_tri, par_disk_disk, par_line_ray,
  par_line_plane, par_line_tri, par_line_disk, par_ray_plane, par_ray_seg, par_ray_tri, par_ray_disk, par_plane_seg, par_plane_tri,
  par_plane_disk, par_seg_tri, par_seg_disk, par_tri_disk, line_seg_parallel,
  orth_line_line, orth_ray_ray, orth_plane_plane, orth_seg_seg, orth_tri_tri, orth_disk_disk, orth_line_ray, orth_line_plane,
  orth_line_seg, orth_line_tri, orth_line_disk, orth_ray_plane, orth_ray_seg, orth_ray_tri, orth_ray_disk, orth_plane_seg,
  orth_plane_tri, orth_plane_disk, orth_seg_tri, orth_seg_disk, orth_tri_disk.
Lemma f_ldir : forall l, ldir (fline l) = fv (ldir l). Proof. reflexivity. Qed.
Lemma f_rdir : forall l, ry_dir (fray l) = fv (ry_dir l). Proof. reflexivity. Qed.
Lemma f_pnormal : forall l, pnormal (fplane l) = fv (pnormal l). Proof. reflexivity. Qed.
Lemma f_dnormal : forall l, dnormal (fdisk l) = fv (pnormal (dplane l)). Proof. reflexivity. Qed.
Lemma parallel_table : forall e0 e1 tol,
  match facing_of e0, facing_of e1 with
  | Some a, Some b => ent_parallel (fent e0) (fent e1) (Fin tol) = rltb (parallel_gap a b) tol
  | _, _ => ent_parallel (fent e0) (fent e1) (Fin tol) = false
  end.
Proof.
  intros e0 e1 tol. destruct e0, e1; cbn [facing_of fent ent_parallel parallel_gap]; try reflexivity; facing_unfold;
  rewrite ?f_ldir, ?f_rdir, ?f_pnormal, ?f_dnormal, ?f_seg_unit, ?f_tri_normal, ?f_parallel, ?f_orthogonal; try reflexivity;
  f_equal; first [apply skew_sym | f_equal; apply pdot_comm].
Qed.
Lemma orthogonal_table : forall e0 e1 tol, ~ line_and_plane e0 e1 ->
  match facing_of e0, facing_of e1 with
  | Some a, Some b => ent_orthogonal (fent e0) (fent e1) (Fin tol) = rltb (orthogonal_gap a b) tol
  | _, _ => ent_orthogonal (fent e0) (fent e1) (Fin tol) = false
  end.
Proof.
  intros e0 e1 tol N. destruct e0, e1; cbn [line_and_plane] in N; try (destruct (N I)); cbn [facing_of fent ent_orthogonal orthogonal_gap];
  try reflexivity; facing_unfold;
  rewrite ?f_ldir, ?f_rdir, ?f_pnormal, ?f_dnormal, ?f_seg_unit, ?f_tri_normal, ?f_parallel, ?f_orthogonal; try reflexivity;
  f_equal; first [apply skew_sym | f_equal; apply pdot_comm].
Qed.
(** A line against a plane: the test for parallelism again. *)
Lemma orthogonal_is_parallel : forall {K} {NK : Num K} (e0 e1 : entity K) tol,
  match e0, e1 with ELine _, EPlane _ | EPlane _, ELine _ => True | _, _ => False end ->
  ent_orthogonal e0 e1 tol = ent_parallel e0 e1 tol.
Proof. intros K NK e0 e1 tol H. destruct e0, e1; try contradiction H; reflexivity. Qed.

(** ** Collinear. *)
Lemma f_lorigin : forall l, lorigin (fline l) = fv (lorigin l). Proof. reflexivity. Qed.
Lemma f_rorigin : forall l, ry_origin (fray l) = fv (ry_origin l). Proof. reflexivity. Qed.
Lemma f_porigin : forall l, porigin (fplane l) = fv (porigin l). Proof. reflexivity. Qed.
Lemma f_sv0 : forall s, sv0 (fseg s) = fv (sv0 s). Proof. reflexivity. Qed.
Lemma rltb_and : forall a b c d, rltb a b && rltb c d = true <-> a < b /\ c < d.
Proof. intros. rewrite andb_true_iff, !rltb_true. tauto. Qed.
Lemma ordered_iff : forall e0 e1 P a b, facing_of e0 = Some a -> facing_of e1 = Some b ->
  (ordered P e0 e1 <-> if (level e0 <=? level e1)%Z then P a b else P b a).
Proof.
  intros e0 e1 P a b A B. unfold ordered. split.
  - intros (x & y & X & Y & H). assert (x = a) as -> by congruence. assert (y = b) as -> by congruence. exact H.
  - intros H. now exists a, b.
Qed.
Lemma collinear_table : forall e0 e1 tol, ~ two_rays e0 e1 ->
  (ent_collinear (fent e0) (fent e1) (Fin tol) = true <-> ordered (near_collinear tol) e0 e1).
Proof.
  intros e0 e1 tol N.
  pose proof (ordered_iff e0 e1) as O.
  destruct e0, e1; cbn [two_rays] in N; try (destruct (N I)); cbn [fent ent_collinear];
  try (split; [discriminate|intros (x & y & X & Y & Z); cbn in X, Y; discriminate X || discriminate Y ||
        (injection X as <-; injection Y as <-; cbn in Z; destruct Z)]);
  rewrite (O _ _ _ eq_refl eq_refl); cbn -[rltb skew];
  unfold col_line_line, col_line_ray, col_line_seg, col_ray_seg, col_seg_seg;
  rewrite ?f_ldir, ?f_rdir, ?f_lorigin, ?f_rorigin, ?f_sv0, ?f_seg_unit, ?f_sub, ?f_parallel; apply rltb_and.
Qed.
Lemma collinear_rays : forall a b tol, 0 < tol ->
  (ent_collinear (fent (ERay a)) (fent (ERay b)) (Fin tol) = true <-> skew (ry_dir a) (psub (ry_origin a) (ry_origin b)) < tol).
Proof.
  intros a b tol T. cbn [fent ent_collinear]. unfold col_ray_ray. rewrite !f_rdir, !f_rorigin, f_sub, !f_parallel, rltb_and.
  assert (E : skew (ry_dir b) (ry_dir b) = 0).
  { unfold skew, pnorm. replace (pdot _ _) with 0; [apply sqrt_0|]. vunf; ring. }
  rewrite E. tauto.
Qed.
Lemma carrier_on : forall l e, straight_line e -> along_line l e ->
  exists o u s k, facing_of e = Some (Along o u) /\ o = padd (lorigin l) (pscale s (ldir l)) /\ u = pscale k (ldir l).
Proof.
  intros l e S A.
  assert (G : forall o u, in_entity e o -> in_entity e (padd o u) -> exists s k, o = padd (lorigin l) (pscale s (ldir l)) /\ u = pscale k (ldir l)).
  { intros o u H1 H2. apply A in H1. apply A in H2. destruct H1 as (s & H1), H2 as (t & H2). exists s, (t - s). split; [exact H1|].
    rewrite H1 in H2. apply vec_eq; [apply (f_equal vx) in H2|apply (f_equal vy) in H2|apply (f_equal vz) in H2]; vunf; lra. }
  destruct e; cbn [straight_line] in S; try (exfalso; exact S).
  - destruct (G (lorigin l0) (ldir l0)) as (s & k & E1 & E2).
    + exists 0. apply vec_eq; vunf; ring.
    + exists 1. apply vec_eq; vunf; ring.
    + exists (lorigin l0), (ldir l0), s, k. auto.
  - destruct (G (ry_origin r) (ry_dir r)) as (s & k & E1 & E2).
    + exists 0. split; [lra|]. apply vec_eq; vunf; ring.
    + exists 1. split; [lra|]. apply vec_eq; vunf; ring.
    + exists (ry_origin r), (ry_dir r), s, k. auto.
  - destruct (G (sv0 s) (psub (sv1 s) (sv0 s))) as (t & k & E1 & E2).
    + apply end_in.
    + replace (padd (sv0 s) (psub (sv1 s) (sv0 s))) with (sv1 s) by (apply vec_eq; vunf; ring). apply end_in.
    + exists (sv0 s), (seg_dir s), t, (/ dist (sv0 s) (sv1 s) * k). split; [reflexivity|]. split; [exact E1|].
      unfold seg_dir. rewrite E2. apply vec_eq; vunf; ring.
Qed.
Lemma skew_same : forall d a b, skew (pscale a d) (pscale b d) = 0.
Proof. intros d a b. unfold skew, pnorm. replace (pdot _ _) with 0; [apply sqrt_0|]. vunf; ring. Qed.
Lemma collinear_complete : forall l e0 e1 tol, 0 < tol -> straight_line e0 -> straight_line e1 -> along_line l e0 -> along_line l e1 ->
  ent_collinear (fent e0) (fent e1) (Fin tol) = true.
Proof.
  intros l e0 e1 tol T S0 S1 A0 A1.
  destruct (carrier_on l e0 S0 A0) as (o & u & s & k & F0 & -> & ->). destruct (carrier_on l e1 S1 A1) as (p & v & s' & k' & F1 & -> & ->).
  assert (D : forall a b, psub (padd (lorigin l) (pscale a (ldir l))) (padd (lorigin l) (pscale b (ldir l))) = pscale (a - b) (ldir l))
    by (intros; apply vec_eq; vunf; ring).
  assert (DEC : two_rays e0 e1 \/ ~ two_rays e0 e1) by (destruct e0, e1; cbn; tauto). destruct DEC as [Y|N].
  - destruct e0, e1; try contradiction Y. apply collinear_rays; [exact T|]. injection F0 as E0 E0'. injection F1 as E1 E1'.
    rewrite E0, E0', E1, D, skew_same. exact T.
  - apply collinear_table; [exact N|]. rewrite (ordered_iff _ _ _ _ _ F0 F1).
    destruct (level e0 <=? level e1)%Z; cbn [near_collinear]; rewrite D, !skew_same; auto.
Qed.

(** ** Coplanar. *)
Lemma f_vis_orthogonal : forall a b tol, 0 <= tol -> (vis_orthogonal (fv a) (fv b) (Fin tol) = true <-> Rabs (pdot a b) <= tol * pnorm a * pnorm b).
Proof.
  intros a b tol T. unfold vis_orthogonal. rewrite f_dot, !f_sqnorm. push. rewrite rleb_true.
  assert (P : 0 <= tol * pnorm a * pnorm b) by (apply Rmult_le_pos; [apply Rmult_le_pos; [exact T|]|]; unfold pnorm; apply sqrt_pos).
  rewrite <- !pnorm_sq. set (x := pdot a b) in *. set (y := pnorm a) in *. set (z := pnorm b) in *.
  replace (tol * tol * (y * y) * (z * z)) with ((tol * y * z) * (tol * y * z)) by ring. set (w := tol * y * z) in *.
  split; intros H.
  - apply Rsqr_incr_0_var; [|exact P]. rewrite <- Rsqr_abs. exact H.
  - replace (x * x) with (Rabs x * Rabs x) by (rewrite <- Rabs_mult; apply Rabs_pos_eq; nra).
    pose proof (Rabs_pos x). apply Rmult_le_compat; lra.
Qed.
Lemma f_tri_plane : forall t, tri_plane (ftri t) = fplane (Plane (tri_middle t) (pscale (/ pnorm (tri_across t)) (tri_across t))).
Proof.
  intros t. unfold tri_plane, fplane. cbn [porigin pnormal]. rewrite f_tri_normal. f_equal.
  unfold tri_centroid, ftri, tri_middle. cbn [tv0 tv1 tv2]. push. rewrite f_div by lra. reflexivity.
Qed.
Lemma f_signed_distance : forall p q, signed_distance (fplane p) (fv q) = Fin (pdot (psub q (porigin p)) (pnormal p)).
Proof. intros p q. unfold signed_distance, fplane. cbn [porigin pnormal]. now rewrite f_sub, f_dot. Qed.
Lemma cop_planes : forall p q tol, cop_plane_plane (fplane p) (fplane q) (Fin tol) = true <->
  near_coplanar tol (Across (porigin p) (pnormal p)) (Across (porigin q) (pnormal q)).
Proof.
  intros p q tol. unfold cop_plane_plane. rewrite !f_pnormal, f_porigin, f_parallel, f_signed_distance, f_approx0, rltb_and. reflexivity.
Qed.
Lemma cop_dir_plane : forall o u p n tol, 0 <= tol ->
  (vis_orthogonal (fv u) (fv n) (Fin tol) && vis_orthogonal (fv n) (vsub (fv o) (fv p)) (Fin tol) = true <->
  near_coplanar tol (Along o u) (Across p n)).
Proof.
  intros o u p n tol T. rewrite f_sub, andb_true_iff, !f_vis_orthogonal by exact T. cbn [near_coplanar]. unfold dist.
  rewrite (pdot_comm n). replace (tol * pnorm n * pnorm (psub o p)) with (tol * pnorm (psub o p) * pnorm n) by ring. tauto.
Qed.
Lemma cop_dirs : forall o u p v tol, 0 <= tol ->
  (vis_orthogonal (vsub (fv o) (fv p)) (vcross (fv u) (fv v)) (Fin tol) = true <-> near_coplanar tol (Along o u) (Along p v)).
Proof. intros o u p v tol T. rewrite f_sub, f_cross, f_vis_orthogonal by exact T. reflexivity. Qed.
Lemma coplanar_table : forall e0 e1 tol, 0 <= tol ->
  (ent_coplanar (fent e0) (fent e1) (Fin tol) = true <-> ordered (near_coplanar tol) e0 e1).
Proof.
  intros e0 e1 tol T. pose proof (ordered_iff e0 e1) as O.
  destruct e0, e1; cbn [fent ent_coplanar];
  try (split; [discriminate|intros (x & y & X & Y & Z); cbn in X, Y; discriminate X || discriminate Y]);
  rewrite (O _ _ _ eq_refl eq_refl); cbn [level Z.leb Z.compare Pos.compare Pos.compare_cont]; clear O;
  unfold cop_line_tri, cop_line_disk, cop_ray_tri, cop_ray_disk, cop_plane_tri, cop_plane_disk, cop_seg_tri, cop_seg_disk, cop_tri_disk, cop_tri_tri, cop_disk_disk;
  rewrite ?f_tri_plane; unfold fdisk; cbn [dplane];
  lazymatch goal with
  | |- context [cop_plane_plane] => apply cop_planes
  | |- context [cop_line_plane] => unfold cop_line_plane; rewrite f_pnormal, f_porigin, f_ldir, f_lorigin; exact (cop_dir_plane _ _ _ _ _ T)
  | |- context [cop_ray_plane] => unfold cop_ray_plane; rewrite f_pnormal, f_porigin, f_rdir, f_rorigin; exact (cop_dir_plane _ _ _ _ _ T)
  | |- context [cop_plane_seg] => unfold cop_plane_seg; rewrite f_pnormal, f_porigin, f_sv0, f_seg_unit; exact (cop_dir_plane _ _ _ _ _ T)
  | |- _ => unfold cop_line_line, cop_ray_ray, cop_seg_seg, cop_line_ray, cop_line_seg, cop_ray_seg;
    rewrite ?f_ldir, ?f_rdir, ?f_lorigin, ?f_rorigin, ?f_sv0, ?f_seg_unit; exact (cop_dirs _ _ _ _ _ T)
  end.
Qed.
Lemma on_plane_dir : forall p o u, on_plane p o -> on_plane p (padd o u) -> pdot u (pnormal p) = 0.
Proof.
  intros p o u H1 H2. unfold on_plane in *. replace (psub (padd o u) (porigin p)) with (padd (psub o (porigin p)) u) in H2 by (apply vec_eq; vunf; ring).
  rewrite pdot_add_l in H2. lra.
Qed.
Lemma pdot_nonzero : forall v, v <> V 0 0 0 -> 0 < pdot v v.
Proof. intros v H. pose proof (pdot_pos v). destruct (Req_dec (pdot v v) 0) as [E|E]; [|lra]. apply pdot_zero in E. contradiction. Qed.
Lemma normal_scale : forall m n, m <> V 0 0 0 -> (forall w, pdot w m = 0 -> pdot w n = 0) -> exists k, n = pscale k m.
Proof.
  intros m n M H. pose proof (pdot_nonzero m M) as P. exists (pdot n m / pdot m m).
  assert (W : pdot (psub n (pscale (pdot n m / pdot m m) m)) m = 0).
  { rewrite pdot_sub_l, pdot_scale_l. field. lra. }
  pose proof (H _ W) as W'.
  assert (Z : pdot (psub n (pscale (pdot n m / pdot m m) m)) (psub n (pscale (pdot n m / pdot m m) m)) = 0).
  { set (x := psub n _) in *. unfold x at 2. rewrite pdot_sub_r, pdot_scale_r, W, W'. ring. }
  apply pdot_zero in Z. apply vec_eq; [apply (f_equal vx) in Z|apply (f_equal vy) in Z|apply (f_equal vz) in Z]; vunf; lra.
Qed.
Lemma span_along : forall p e, straight_line e -> inside_plane p e ->
  exists o u, facing_of e = Some (Along o u) /\ on_plane p o /\ pdot u (pnormal p) = 0.
Proof.
  intros p e S A.
  assert (G : forall o u, in_entity e o -> in_entity e (padd o u) -> on_plane p o /\ pdot u (pnormal p) = 0).
  { intros o u H1 H2. apply A in H1. apply A in H2. split; [exact H1|now apply on_plane_dir with o]. }
  destruct e; cbn [straight_line] in S; try (exfalso; exact S).
  - destruct (G (lorigin l) (ldir l)) as (E1 & E2).
    + exists 0. apply vec_eq; vunf; ring.
    + exists 1. apply vec_eq; vunf; ring.
    + exists (lorigin l), (ldir l). auto.
  - destruct (G (ry_origin r) (ry_dir r)) as (E1 & E2).
    + exists 0. split; [lra|]. apply vec_eq; vunf; ring.
    + exists 1. split; [lra|]. apply vec_eq; vunf; ring.
    + exists (ry_origin r), (ry_dir r). auto.
  - destruct (G (sv0 s) (psub (sv1 s) (sv0 s))) as (E1 & E2).
    + apply end_in.
    + replace (padd (sv0 s) (psub (sv1 s) (sv0 s))) with (sv1 s) by (apply vec_eq; vunf; ring). apply end_in.
    + exists (sv0 s), (seg_dir s). split; [reflexivity|]. split; [exact E1|]. unfold seg_dir. rewrite pdot_scale_l, E2. ring.
Qed.
Lemma span_across : forall p e, pnormal p <> V 0 0 0 -> flat e -> inside_plane p e ->
  exists o k, facing_of e = Some (Across o (pscale k (pnormal p))) /\ on_plane p o.
Proof.
  intros p e N S A. destruct e; cbn [flat] in S; try (exfalso; exact S).
  - assert (A0 : on_plane p (porigin p0)).
    { apply A. cbn [in_entity]. unfold on_plane. replace (psub (porigin p0) (porigin p0)) with (V 0 0 0) by (apply vec_eq; vunf; ring). vunf; ring. }
    destruct (normal_scale (pnormal p0) (pnormal p) S) as (k & K).
    { intros w W. apply (on_plane_dir p (porigin p0)); [exact A0|]. apply A. cbn [in_entity]. unfold on_plane.
      replace (psub (padd (porigin p0) w) (porigin p0)) with w by (apply vec_eq; vunf; ring). exact W. }
    assert (K0 : k <> 0). { intros ->. apply N. rewrite K. apply vec_eq; vunf; ring. }
    exists (porigin p0), (/ k). split; [|exact A0]. cbn [facing_of]. do 2 f_equal. rewrite K. apply vec_eq; vunf; field; exact K0.
  - destruct (vertex_in t) as (V0 & V1 & V2). apply A in V0. apply A in V1. apply A in V2.
    assert (E1 : pdot (psub (tv1 t) (tv0 t)) (pnormal p) = 0).
    { apply (on_plane_dir p (tv0 t)); [exact V0|]. replace (padd (tv0 t) (psub (tv1 t) (tv0 t))) with (tv1 t) by (apply vec_eq; vunf; ring). exact V1. }
    assert (E2 : pdot (psub (tv2 t) (tv0 t)) (pnormal p) = 0).
    { apply (on_plane_dir p (tv0 t)); [exact V0|]. replace (padd (tv0 t) (psub (tv2 t) (tv0 t))) with (tv2 t) by (apply vec_eq; vunf; ring). exact V2. }
    destruct (normal_scale (pnormal p) (tri_across t) N) as (k & K).
    { intros w W. pose proof (pdot_nonzero _ N) as P.
      assert (C : pcross (pnormal p) (tri_across t) = V 0 0 0).
      { unfold tri_across. rewrite pcross_pcross, !(pdot_comm (pnormal p)), E1, E2. apply vec_eq; vunf; ring. }
      assert (Q : pdot (pnormal p) (pnormal p) * pdot w (tri_across t) = pdot (pnormal p) (tri_across t) * pdot w (pnormal p)
        + pdot (pcross (pnormal p) (tri_across t)) (pcross (pnormal p) w)) by (clear; set (n := pnormal p); set (m := tri_across t); clearbody n m; vringd).
      rewrite C, W in Q. assert (Q' : pdot (pnormal p) (pnormal p) * pdot w (tri_across t) = 0). { rewrite Q. vunf; ring. }
      apply Rmult_integral in Q'. destruct Q'; lra. }
    exists (tri_middle t), (/ pnorm (tri_across t) * k). split.
    + cbn [facing_of]. do 2 f_equal. rewrite K at 2. apply vec_eq; vunf; ring.
    + unfold on_plane, tri_middle in *. vunf. lra.
  - destruct S as [S R]. set (o := porigin (dplane d)) in *. set (m := pnormal (dplane d)) in *.
    assert (IN : forall w, pdot w m = 0 -> pnorm w <= dradius d -> on_plane p (padd o w)).
    { intros w W D. apply A. cbn [in_entity]. unfold in_disk, on_plane, dist. fold o. fold m.
      replace (psub (padd o w) o) with w by (apply vec_eq; vunf; ring). now split. }
    assert (A0 : on_plane p o).
    { replace o with (padd o (V 0 0 0)) by (apply vec_eq; vunf; ring). apply IN; [vunf; ring|].
      unfold pnorm. replace (pdot (V 0 0 0) (V 0 0 0)) with 0 by (vunf; ring). rewrite sqrt_0. lra. }
    destruct (normal_scale m (pnormal p) S) as (k & K).
    { intros w W. pose proof (pnorm_nonneg w) as PW. set (s := dradius d / (pnorm w + 1)).
      assert (S0 : 0 < s) by (apply Rdiv_lt_0_compat; lra).
      assert (Z : pdot (pscale s w) (pnormal p) = 0).
      { apply (on_plane_dir p o); [exact A0|]. apply IN; [rewrite pdot_scale_l, W; ring|]. rewrite pnorm_scale, Rabs_pos_eq by lra.
        unfold s. apply Rmult_le_reg_r with (pnorm w + 1); [lra|].
        replace (dradius d / (pnorm w + 1) * pnorm w * (pnorm w + 1)) with (dradius d * pnorm w) by (field; lra). nra. }
      rewrite pdot_scale_l in Z. apply Rmult_integral in Z. destruct Z; lra. }
    assert (K0 : k <> 0). { intros ->. apply N. rewrite K. apply vec_eq; vunf; ring. }
    exists o, (/ k). split; [|exact A0]. cbn [facing_of]. fold o. fold m. do 2 f_equal. rewrite K. apply vec_eq; vunf; field; exact K0.
Qed.
Lemma coplanar_complete : forall p e0 e1 tol, 0 < tol -> pnormal p <> V 0 0 0 ->
  straight_line e0 \/ flat e0 -> straight_line e1 \/ flat e1 -> inside_plane p e0 -> inside_plane p e1 ->
  ent_coplanar (fent e0) (fent e1) (Fin tol) = true.
Proof.
  intros p e0 e1 tol T N S0 S1 A0 A1. apply coplanar_table; [lra|]. set (n := pnormal p) in *.
  assert (D : forall a b, on_plane p a -> on_plane p b -> pdot (psub a b) n = 0).
  { intros a b H1 H2. unfold on_plane in *. fold n in H1, H2. replace (psub a b) with (psub (psub a (porigin p)) (psub b (porigin p))) by (apply vec_eq; vunf; ring).
    rewrite pdot_sub_l, H1, H2. ring. }
  assert (TP : forall x y z, 0 <= x -> 0 <= y -> z = 0 -> Rabs z <= tol * x * y).
  { intros x y z X Y ->. rewrite Rabs_R0. apply Rmult_le_pos; [apply Rmult_le_pos; lra|exact Y]. }
  assert (AA : forall o u q v, on_plane p o -> on_plane p q -> pdot u n = 0 -> pdot v n = 0 -> near_coplanar tol (Along o u) (Along q v)).
  { intros o u q v O Q U W. cbn [near_coplanar]. apply TP; [apply pnorm_nonneg|apply pnorm_nonneg|].
    pose proof (pdot_nonzero n N) as P. pose proof (D o q O Q) as Z. set (w := psub o q) in *.
    assert (C : pcross n (pcross u v) = V 0 0 0). { rewrite pcross_pcross, !(pdot_comm n), U, W. apply vec_eq; vunf; ring. }
    assert (E : pdot n n * pdot w (pcross u v) = pdot n (pcross u v) * pdot w n + pdot (pcross n (pcross u v)) (pcross n w))
      by (clear; clearbody n w; set (m := pcross u v); clearbody m; vringd).
    rewrite C, Z in E. assert (E' : pdot n n * pdot w (pcross u v) = 0). { rewrite E. vunf; ring. }
    apply Rmult_integral in E'. destruct E'; lra. }
  assert (AX : forall o u q k, on_plane p o -> on_plane p q -> pdot u n = 0 -> near_coplanar tol (Along o u) (Across q (pscale k n))).
  { intros o u q k O Q U. cbn [near_coplanar]. split; (apply TP; [apply pnorm_nonneg|apply pnorm_nonneg|]); rewrite pdot_scale_r; [rewrite U|rewrite (D o q O Q)]; ring. }
  assert (XX : forall o k q k', on_plane p o -> on_plane p q -> near_coplanar tol (Across o (pscale k n)) (Across q (pscale k' n))).
  { intros o k q k' O Q. cbn [near_coplanar]. rewrite skew_same, pdot_scale_r, (D q o Q O), Rmult_0_r, Rabs_R0. auto. }
  destruct S0 as [S0|S0], S1 as [S1|S1].
  - destruct (span_along p e0 S0 A0) as (o & u & F0 & O & U). destruct (span_along p e1 S1 A1) as (q & v & F1 & Q & W).
    rewrite (ordered_iff _ _ _ _ _ F0 F1). destruct (_ <=? _)%Z; auto.
  - destruct (span_along p e0 S0 A0) as (o & u & F0 & O & U). destruct (span_across p e1 N S1 A1) as (q & k & F1 & Q).
    rewrite (ordered_iff _ _ _ _ _ F0 F1). fold n. destruct (_ <=? _)%Z; [auto|]. apply (AX o u q k O Q U).
  - destruct (span_across p e0 N S0 A0) as (o & k & F0 & O). destruct (span_along p e1 S1 A1) as (q & v & F1 & Q & W).
    rewrite (ordered_iff _ _ _ _ _ F0 F1). fold n. destruct (_ <=? _)%Z; [|auto]. apply (AX q v o k Q O W).
  - destruct (span_across p e0 N S0 A0) as (o & k & F0 & O). destruct (span_across p e1 N S1 A1) as (q & k' & F1 & Q).
    rewrite (ordered_iff _ _ _ _ _ F0 F1). fold n. destruct (_ <=? _)%Z; auto.
Qed.
(** What a null gap means. *)
Lemma skew_zero : forall u v, u <> V 0 0 0 -> (skew u v = 0 <-> exists k, v = pscale k u).
Proof.
  intros u v U. split.
  - intros H. apply normal_scale; [exact U|]. intros w W. unfold skew in H.
    assert (Z : pdot (pcross u v) (pcross u v) = 0). { rewrite <- pnorm_sq, H. ring. }
    apply pdot_zero in Z. pose proof (pdot_nonzero u U) as P.
    assert (Q : pdot u u * pdot w v = pdot u v * pdot w u + pdot (pcross u v) (pcross u w)) by (clear; vringd).
    rewrite Z, W in Q. assert (Q' : pdot u u * pdot w v = 0). { rewrite Q. vunf; ring. }
    apply Rmult_integral in Q'. destruct Q'; lra.
  - intros (k & ->). pose proof (skew_same u 1 k) as S. replace (pscale 1 u) with u in S by (apply vec_eq; vunf; ring). exact S.
Qed.
