(** * Poses, the bounding box of the shell, and the candidate filter. *)
From Coq Require Import ZArith Bool List Reals Lra Lia Nsatz String.
From Verif Require Import Base Num Vec Aabb Tree Geom Ground Shape Rib Str Mesh Shell ER SpecGeom SpecRib SpecShape SpecShell SpecPose.
From Verif Require Import SpecTree SpecLoad SpecMesh ProofMesh ProofQuery ProofMeshFacts.
From Verif Require Import ProofTree ProofGeom ProofInt ProofGround ProofShape ProofShapeFacts ProofShell.
Import ListNotations.
Local Open Scope R_scope.

(** ** Rotations. *)
Definition rrot (t : R) (u : pt) : mat3 R :=
  M3 ((1 - cos t) * vx u * vx u + cos t) ((1 - cos t) * vx u * vy u - sin t * vz u) ((1 - cos t) * vx u * vz u + sin t * vy u)
     ((1 - cos t) * vx u * vy u + sin t * vz u) ((1 - cos t) * vy u * vy u + cos t) ((1 - cos t) * vy u * vz u - sin t * vx u)
     ((1 - cos t) * vx u * vz u - sin t * vy u) ((1 - cos t) * vy u * vz u + sin t * vx u) ((1 - cos t) * vz u * vz u + cos t).
Lemma f_angle_axis : forall t u, angle_axis (Fin t) (fv u) = fm (rrot t u).
Proof. intros. reflexivity. Qed.
Lemma rrot_rotation : forall t u, is_unit u -> rotation (rrot t u).
Proof.
  intros t u U. unfold rotation, rrot, is_unit in *. unfold pcol0, pcol1, pcol2, pdot, pcross in *.
  cbn [m00 m01 m02 m10 m11 m12 m20 m21 m22 vx vy vz].
  pose proof (sin2_cos2 t) as SC. unfold Rsqr in SC. set (s := sin t) in *. set (c := cos t) in *.
  destruct u as [x y z]. cbn [vx vy vz] in *. clearbody s c.
  repeat split; try nsatz. f_equal; nsatz.
Qed.
Definition pmul (a b : mat3 R) : mat3 R :=
  let x := papply a (pcol0 b) in let y := papply a (pcol1 b) in let z := papply a (pcol2 b) in
  M3 (vx x) (vx y) (vx z) (vy x) (vy y) (vy z) (vz x) (vz y) (vz z).
Lemma f_mmul : forall a b, mmul (fm a) (fm b) = fm (pmul a b).
Proof. intros. reflexivity. Qed.
Lemma rotation_cross : forall m a b, rotation m -> papply m (pcross a b) = pcross (papply m a) (papply m b).
Proof.
  intros m a b (U0 & U1 & U2 & O01 & O12 & O20 & C).
  set (X := pcol0 m) in *. set (Y := pcol1 m) in *. set (Z := pcol2 m) in *.
  assert (E : forall v, papply m v = padd (padd (pscale (vx v) X) (pscale (vy v) Y)) (pscale (vz v) Z)).
  { intros v. unfold X, Y, Z. apply vec_eq; vunf; ring. }
  assert (YZ : pcross Y Z = X).
  { rewrite <- C, pcross_pcross. unfold is_unit in U1. rewrite U1, (pdot_comm Y X), O01. apply vec_eq; vunf; ring. }
  assert (ZX : pcross Z X = Y).
  { rewrite pcross_anti, <- C, pcross_pcross. unfold is_unit in U0. rewrite U0, O01. apply vec_eq; vunf; ring. }
  rewrite !E. clearbody X Y Z.
  transitivity (padd (padd (pscale (vy a * vz b - vz a * vy b) (pcross Y Z)) (pscale (vz a * vx b - vx a * vz b) (pcross Z X)))
    (pscale (vx a * vy b - vy a * vx b) (pcross X Y))).
  - rewrite YZ, ZX, C. reflexivity.
  - clear. apply vec_eq; vunf; ring.
Qed.
Lemma pmul_rotation : forall a b, rotation a -> rotation b -> rotation (pmul a b).
Proof.
  intros a b A (U0 & U1 & U2 & O01 & O12 & O20 & C).
  change (is_unit (papply a (pcol0 b)) /\ is_unit (papply a (pcol1 b)) /\ is_unit (papply a (pcol2 b)) /\
    pdot (papply a (pcol0 b)) (papply a (pcol1 b)) = 0 /\ pdot (papply a (pcol1 b)) (papply a (pcol2 b)) = 0 /\
    pdot (papply a (pcol2 b)) (papply a (pcol0 b)) = 0 /\ pcross (papply a (pcol0 b)) (papply a (pcol1 b)) = papply a (pcol2 b)).
  unfold is_unit. rewrite !rotation_isometry, <- rotation_cross, C by auto. auto 10.
Qed.
Lemma ident_rigid : (aident : affine er) = fa (Aff (M3 1 0 0 0 1 0 0 0 1) (V 0 0 0)) /\
  rigid (Aff (M3 1 0 0 0 1 0 0 0 1) (V 0 0 0)).
Proof.
  split; [reflexivity|]. unfold rigid, rotation, is_unit, pcol0, pcol1, pcol2. cbn [lin m00 m01 m02 m10 m11 m12 m20 m21 m22].
  repeat split; try (vunf; ring). apply vec_eq; vunf; ring.
Qed.
Lemma moved_rigid : forall s s', moved s s' -> (exists a, sh_affine s = fa a /\ rigid a) ->
  exists a, sh_affine s' = fa a /\ rigid a.
Proof.
  intros s s' H (a0 & E0 & R0). induction H; eauto.
  - destruct (IHmoved E0) as (a & E & R). exists (Aff (lin a) (padd (tra a) (papply (lin a) v))).
    unfold sh_translate, with_affine. cbn [sh_affine]. rewrite E. split; [reflexivity|exact R].
  - destruct (IHmoved E0) as (a & E & R). exists (Aff (pmul (lin a) (rrot angle axis)) (tra a)).
    unfold sh_rotate, with_affine. cbn [sh_affine]. rewrite E. split; [reflexivity|].
    apply pmul_rotation; [exact R|now apply rrot_rotation].
Qed.
Definition rdet (m : mat3 R) : R :=
  m00 m * (m11 m * m22 m - m12 m * m21 m) - m01 m * (m10 m * m22 m - m12 m * m20 m) + m02 m * (m10 m * m21 m - m11 m * m20 m).
Lemma rdet_triple : forall m, rdet m = pdot (pcross (pcol0 m) (pcol1 m)) (pcol2 m).
Proof. intros. unfold rdet. vunf. ring. Qed.
Lemma rigid_det : forall a, rigid a -> rdet (lin a) = 1.
Proof. intros a (U0 & U1 & U2 & O01 & O12 & O20 & C). rewrite rdet_triple, C. exact U2. Qed.
Lemma f_check : forall a tol, check_transformation (fa a) (Fin tol) = rltb (Rabs (rdet (lin a) - 1)) tol.
Proof. intros. reflexivity. Qed.
Lemma check_iff : forall a tol, check_transformation (fa a) (Fin tol) = true <->
  Rabs (pdot (pcross (pcol0 (lin a)) (pcol1 (lin a))) (pcol2 (lin a)) - 1) < tol.
Proof. intros. rewrite f_check, rdet_triple. apply rltb_true. Qed.
Definition rdet4 (a : affine R) (r : pt) (d : R) : R :=
  let V := fun x y z => pdot (pcross x y) z in
  let X := pcol0 (lin a) in let Y := pcol1 (lin a) in let Z := pcol2 (lin a) in let T := tra a in
  d * V X Y Z - vx r * V T Y Z - vy r * V X T Z - vz r * V X Y T.
Lemma f_mdet4 : forall a r d, mdet4 (fa a) (fv r) (Fin d) = Fin (rdet4 a r d).
Proof.
  intros [[m00 m01 m02 m10 m11 m12 m20 m21 m22] [t0 t1 t2]] [r0 r1 r2] d.
  unfold mdet4. cbn. f_equal. unfold rdet4. vunf. cbn. ring.
Qed.
Lemma matrix_iff : forall a r d tol, check_matrix (fa a) (fv r) (Fin d) (Fin tol) = true <->
  Rabs (rdet4 a r d - 1) < tol.
Proof. intros. unfold check_matrix. rewrite f_mdet4. apply rltb_true. Qed.
Lemma matrix_affine : forall a tol,
  check_matrix (fa a) (fv (V 0 0 0)) (Fin 1) (Fin tol) = check_transformation (fa a) (Fin tol).
Proof.
  intros a tol. unfold check_matrix. rewrite f_mdet4. rewrite f_check, rdet_triple.
  replace (rdet4 a (V 0 0 0) 1) with (pdot (pcross (pcol0 (lin a)) (pcol1 (lin a))) (pcol2 (lin a))); [reflexivity|].
  unfold rdet4. cbn [vx vy vz]. ring.
Qed.
Lemma check_rigid : forall a tol, rigid a -> 0 < tol -> check_transformation (fa a) (Fin tol) = true.
Proof. intros a tol H T. rewrite f_check, rigid_det by auto. apply rltb_true. rewrite Rminus_diag_eq, Rabs_R0; auto. Qed.
Lemma new_shell_affine : forall {K} {NK : Num K} n (rx mx ry my ly : K) s,
  mk_shell n rx mx ry my ly = Ret s -> sh_affine s = aident.
Proof.
  intros K NK n rx mx ry my ly s H. unfold mk_shell, resize in H. destruct n; [discriminate|].
  cbn zeta in H. destruct (make_ribs _ _ _ _ _) as [rs [e|]]; [discriminate|]. injection H as <-. reflexivity.
Qed.
Lemma moves_keep_rigid : forall n rx mx ry my ly s s', mk_shell n rx mx ry my ly = Ret s -> moved s s' ->
  exists a, sh_affine s' = fa a /\ rigid a /\ forall tol, 0 < tol -> check_transformation (sh_affine s') (Fin tol) = true.
Proof.
  intros n rx mx ry my ly s s' H M. apply new_shell_affine in H. destruct ident_rigid as [E R].
  destruct (moved_rigid s s' M) as (a & Ea & Ra); [eexists; split; [rewrite H; exact E|exact R]|].
  exists a. split; auto. split; auto. intros tol T. rewrite Ea. now apply check_rigid.
Qed.

(** ** The bounding box. *)
Lemma axial_point : forall r a q, axial_rib r -> rigid a -> in_disk (posed_disk r a) q ->
  pdot (psub q (tra a)) (psub q (tra a)) <= rb_radius r * rb_radius r + vy (rb_center r) * vy (rb_center r).
Proof.
  intros r a q (HN & HX & HZ) HA [OP D]. unfold on_plane, posed_disk in OP, D. cbn [dplane porigin pnormal dradius] in OP, D.
  set (c := rb_center r) in *. set (e := papply (lin a) (rb_normal r)) in *.
  assert (CE : place a c = padd (tra a) (pscale (vy c) e)).
  { unfold place, e. rewrite HN. apply vec_eq; vunf; rewrite HX, HZ; ring. }
  assert (EU : pdot e e = 1).
  { unfold e. rewrite rotation_isometry by auto. rewrite HN. vunf. ring. }
  assert (N : dist q (place a c) * dist q (place a c) = pdot (psub q (place a c)) (psub q (place a c))) by apply pnorm_sq.
  pose proof (pnorm_nonneg (psub q (place a c))) as P. fold (dist q (place a c)) in P.
  assert (Q : psub q (tra a) = padd (psub q (place a c)) (pscale (vy c) e)).
  { rewrite CE. clearbody e. apply vec_eq; vunf; ring. }
  rewrite Q, !pdot_add_l, !pdot_add_r, !pdot_scale_l, !pdot_scale_r, EU, OP, (pdot_comm e), OP.
  set (d := dist _ _) in *. clearbody d. assert (d * d <= rb_radius r * rb_radius r) by nra.
  set (k := pdot (psub q (place a c)) (psub q (place a c))) in *. nra.
Qed.
Definition cube (o : pt) (r : R) : aabb er := Box (fv (psub o (V r r r))) (fv (padd o (V r r r))) 0.
Lemma sw_min : forall x r, 0 <= r -> swap_min (Fin (x - r)) (Fin (x + r)) = Fin (x - r).
Proof. intros. unfold swap_min. rewrite e_lt. replace (rltb _ _) with false by (symmetry; apply rltb_false; lra). reflexivity. Qed.
Lemma sw_max : forall x r, 0 <= r -> swap_max (Fin (x - r)) (Fin (x + r)) = Fin (x + r).
Proof. intros. unfold swap_max. rewrite e_lt. replace (rltb _ _) with false by (symmetry; apply rltb_false; lra). reflexivity. Qed.
Lemma f_bbox : forall (s : shell er) a rx, sRx (sh_shape s) = Fin rx -> 0 <= rx ->
  let b := sh_bbox (update_bbox (transform s (fa a))) in
  bmin b = fv (psub (tra a) (V rx rx rx)) /\ bmax b = fv (padd (tra a) (V rx rx rx)).
Proof.
  intros s a rx E H b. unfold b, update_bbox, transform, with_affine, surface_max_radius. cbn [sh_bbox sh_shape sh_affine].
  rewrite E. unfold update_max_min. cbn [bmin bmax].
  change (tra (fa a)) with (fv (tra a)). rewrite f_const, f_sub, f_add. unfold fv at 1 2 3 4 5 6 7 8 9 10 11 12.
  unfold psub, padd. cbn [vx vy vz]. rewrite !sw_min, !sw_max by auto. split; reflexivity.
Qed.
Lemma in_cube : forall (s : shell er) a rx q, sRx (sh_shape s) = Fin rx -> 0 <= rx ->
  pdot (psub q (tra a)) (psub q (tra a)) <= rx * rx ->
  in_box (fv q) (sh_bbox (update_bbox (transform s (fa a)))).
Proof.
  intros s a rx q E H D. destruct (f_bbox s a rx E H) as [B1 B2]. unfold in_box. rewrite B1, B2.
  unfold fv, psub, padd. cbn [vx vy vz]. rewrite !e_le, !rleb_true. set (o := tra a) in *. clearbody o. vunf.
  assert (G : forall x y z, x * x + y * y + z * z <= rx * rx -> - rx <= x <= rx) by (intros; nra).
  pose proof (G (vx q - vx o) (vy q - vy o) (vz q - vz o) D).
  pose proof (G (vy q - vy o) (vx q - vx o) (vz q - vz o) ltac:(lra)).
  pose proof (G (vz q - vz o) (vx q - vx o) (vy q - vy o) ltac:(lra)). lra.
Qed.
Lemma setup_flat_bbox : forall {K} {NK : Num K} gb (s : shell K) g pose meth s' b,
  setup_flat gb s g pose meth = Ok s' b -> sh_bbox s' = sh_bbox (update_bbox (transform s pose)) /\ sh_ribs s' = sh_ribs s.
Proof.
  intros K NK gb s g pose meth s' b H. unfold setup_flat, with_cells in H.
  destruct (run_ribs _ _ _ _ _ _); [|discriminate|discriminate]. injection H as <- _. split; reflexivity.
Qed.
Lemma setup_mesh_bbox : forall {K} {NK : Num K} gb (s : shell K) m pose meth s' b,
  setup_mesh gb s m pose meth = Ok s' b -> sh_bbox s' = sh_bbox (update_bbox (transform s pose)) /\ sh_ribs s' = sh_ribs s.
Proof.
  intros K NK gb s m pose meth s' b H. unfold setup_mesh, with_cells in H.
  destruct (mesh_intersection _ _) as [[|g l]| |]; [| |discriminate|discriminate].
  - destruct (run_ribs _ _ _ _ _ _); [|discriminate|discriminate]. injection H as <- _. split; reflexivity.
  - destruct (run_ribs _ _ _ _ _ _); [|discriminate|discriminate]. injection H as <- _. split; reflexivity.
Qed.

(** ** Ribs of a shell with any history. *)
Lemma setup_flat_keeps : forall {K} {NK : Num K} gb (s : shell K) g pose meth s' x,
  setup_flat gb s g pose meth = Ok s' x \/ (exists e, setup_flat gb s g pose meth = Exn s' e) ->
  sh_ribs s' = sh_ribs s /\ sh_shape s' = sh_shape s.
Proof.
  intros K NK gb s g pose meth s' b H. unfold setup_flat, with_cells in H.
  destruct (run_ribs _ _ _ _ _ _); destruct H as [H|[e' H]]; try discriminate; injection H as <- _; split; reflexivity.
Qed.
Lemma setup_mesh_keeps : forall {K} {NK : Num K} gb (s : shell K) m pose meth s' x,
  setup_mesh gb s m pose meth = Ok s' x \/ (exists e, setup_mesh gb s m pose meth = Exn s' e) ->
  sh_ribs s' = sh_ribs s /\ sh_shape s' = sh_shape s.
Proof.
  intros K NK gb s m pose meth s' b H. unfold setup_mesh, with_cells in H.
  destruct (mesh_intersection _ _) as [[|g l]| |];
    try (destruct (run_ribs _ _ _ _ _ _)); destruct H as [H|[e' H]]; try discriminate; injection H as <- _; split; reflexivity.
Qed.
Lemma resize_shape : forall {K} {NK : Num K} (s s' : shell K) n, resize s n = Ok s' tt -> (0 < n)%nat /\ sh_shape s' = sh_shape s.
Proof.
  intros K NK s s' n H. unfold resize in H. destruct n; [discriminate|]. cbn zeta in H.
  destruct (make_ribs _ _ _ _ _) as [rs [e|]]; [discriminate|]. injection H as <-. split; [lia|reflexivity].
Qed.
Lemma reach_slices : forall s, reach s -> forall sp, sh_shape s = fshape sp -> good_shape sp ->
  exists n, (0 < n)%nat /\ sh_ribs s = map frib (slices sp n).
Proof.
  intros s H. induction H; intros sp E G.
  - assert (N : (0 < n)%nat) by (destruct n; [discriminate|lia]).
    assert (S : sh_shape s = Shape rx mx ry my ly).
    { unfold mk_shell, resize in H. destruct n; [lia|]. cbn zeta in H.
      destruct (make_ribs _ _ _ _ _) as [rs [e|]]; [discriminate|]. injection H as <-. reflexivity. }
    rewrite S in E. unfold fshape in E. injection E as -> -> -> -> ->. exists n. split; auto. now apply mk_shell_ribs.
  - destruct (resize_shape _ _ _ H0) as [N S]. rewrite S in E. exists n. split; auto. now apply resize_ribs with (sh := s).
  - exact (IHreach sp E G).
  - exact (IHreach sp E G).
  - exact (IHreach sp E G).
  - destruct (setup_mesh_keeps gb s m p meth s' b (or_introl H0)) as [R S]. rewrite R. rewrite S in E. eauto.
  - destruct (setup_mesh_keeps gb s m p meth s' true (or_intror (ex_intro _ e H0))) as [R S]. rewrite R. rewrite S in E. eauto.
  - destruct (setup_flat_keeps gb s g p meth s' b (or_introl H0)) as [R S]. rewrite R. rewrite S in E. eauto.
  - destruct (setup_flat_keeps gb s g p meth s' true (or_intror (ex_intro _ e H0))) as [R S]. rewrite R. rewrite S in E. eauto.
Qed.
Lemma frib_inj : forall r r', frib r = frib r' -> r = r'.
Proof.
  intros [[rad [[ox oy oz] [nx ny nz]]] i y w a] [[rad' [[ox' oy' oz'] [nx' ny' nz']]] i' y' w' a'].
  unfold frib, fdisk, fplane, fv. cbn. intros H. injection H. intros. subst. reflexivity.
Qed.
Lemma has_rib_axial : forall sp s j r, real_shell sp s -> has_rib s j r ->
  axial_rib r /\ good_rib r /\ rb_radius r = radius_at sp (vy (rb_center r)) /\ Rabs (vy (rb_center r)) < sLy sp.
Proof.
  intros sp s j r (RC & E & G) H. destruct (reach_slices s RC sp E G) as (n & N & RB).
  unfold has_rib, rib_at in H. destruct (nth_error (sh_ribs s) j) as [x|] eqn:NE; [|discriminate]. injection H as ->.
  rewrite RB in NE. assert (j < n)%nat.
  { assert (L : nth_error (map frib (slices sp n)) j <> None) by congruence.
    apply nth_error_Some in L; now rewrite map_length, slices_length in L. }
  erewrite map_nth_error in NE; [|now apply slices_nth]. assert (E' := f_equal (fun o => match o with Some x => x | None => frib r end) NE). cbv beta iota in E'. apply frib_inj in E'. subst r.
  split; [repeat split|]. split; [|split; [reflexivity|]].
  - assert (L : Rabs (slice_center (sLy sp) n j) < sRy sp).
    { pose proof (slice_bound sp G n j H). pose proof (slice_width_pos sp G n N). destruct G as (_ & _ & _ & _ & ?). lra. }
    unfold good_rib, real_rib, rb_radius, rb_normal, is_unit. cbn [rb_disk rb_width dradius dplane pnormal].
    split; [now apply radius_positive|]. split; [left; now apply slice_width_pos|]. change (pdot (V 0 1 0) (V 0 1 0) = 1). vunf. ring.
  - pose proof (slice_bound sp G n j H). pose proof (slice_width_pos sp G n N). cbn. lra.
Qed.
Lemma real_box : forall sp s a q, real_shell sp s -> pdot (psub q (tra a)) (psub q (tra a)) <= sRx sp * sRx sp ->
  in_box (fv q) (sh_bbox (update_bbox (transform s (fa a)))).
Proof.
  intros sp s a q (_ & E & G) D. apply (in_cube s a (sRx sp)); auto; [now rewrite E|]. destruct G as [G _]. lra.
Qed.
Lemma setup_bbox : forall {K} {NK : Num K} gb (s : shell K) pose meth s' b,
  (exists m, setup_mesh gb s m pose meth = Ok s' b) \/ (exists g, setup_flat gb s g pose meth = Ok s' b) ->
  sh_bbox s' = sh_bbox (update_bbox (transform s pose)).
Proof.
  intros K NK gb s pose meth s' b [[m H]|[g H]]; [now apply setup_mesh_bbox in H|now apply setup_flat_bbox in H].
Qed.
Lemma ribs_in_bbox : forall sp s gb a meth s' b j r q, real_shell sp s -> rigid a -> has_rib s j r ->
  rb_radius r * rb_radius r + vy (rb_center r) * vy (rb_center r) <= sRx sp * sRx sp ->
  (exists m, setup_mesh gb s m (fa a) meth = Ok s' b) \/ (exists g, setup_flat gb s g (fa a) meth = Ok s' b) ->
  in_disk (posed_disk r a) q -> in_box (fv q) (sh_bbox s').
Proof.
  intros sp s gb a meth s' b j r q RS RA HR HC HB D. rewrite (setup_bbox _ _ _ _ _ _ HB).
  apply (real_box sp); auto. eapply Rle_trans; [|exact HC]. apply axial_point; auto. eapply has_rib_axial; eauto.
Qed.
(** Superellipses with exponents up to 2 and [Ry <= Rx] are inside the sphere. *)
Lemma hpow_sq : forall x m, 0 <= x <= 1 -> 0 < m <= 2 -> x * x <= hpow x m.
Proof.
  intros x m [X0 X1] [M0 M2]. destruct (Rle_lt_or_eq_dec 0 x X0) as [P|P].
  - rewrite hpow_pos by auto. replace (x * x) with (Rpower x 2).
    + unfold Rpower. destruct (Rle_lt_or_eq_dec x 1 X1) as [Q|Q].
      * assert (LN : ln x < 0) by (rewrite <- ln_1; now apply ln_increasing).
        assert (L : 2 * ln x <= m * ln x) by nra. destruct L as [L|L]; [left; now apply exp_increasing|right; now rewrite L].
      * subst x. rewrite ln_1, !Rmult_0_r. lra.
    + replace 2 with (INR 2) by (cbn; lra). rewrite Rpower_pow by auto. cbn. ring.
  - subst x. rewrite hpow_0. lra.
Qed.
Lemma profile_in_sphere : forall sp y, good_shape sp -> sMx sp <= 2 -> sMy sp <= 2 -> sRy sp <= sRx sp -> Rabs y <= sLy sp ->
  radius_at sp y * radius_at sp y + y * y <= sRx sp * sRx sp.
Proof.
  intros sp y G MX MY RR L. pose proof (radius_profile sp G y L) as P. pose proof (radius_range sp G y L) as [R0 R1].
  pose proof (ratio_range sp G y L) as [A0 A1]. pose proof (ry_pos sp G) as RY. destruct G as (RX & MX0 & MY0 & LY & LR).
  unfold on_profile in P. set (u := radius_at sp y / sRx sp) in *. set (v := Rabs y / sRy sp) in *.
  assert (U : 0 <= u <= 1).
  { unfold u. split; [apply Rmult_le_pos; auto; left; now apply Rinv_0_lt_compat|].
    apply (Rmult_le_reg_r (sRx sp)); auto. unfold Rdiv. rewrite Rmult_assoc, Rinv_l by lra. lra. }
  pose proof (hpow_sq u (sMx sp) U (conj MX0 MX)). pose proof (hpow_sq v (sMy sp) (conj A0 A1) (conj MY0 MY)).
  assert (EU : radius_at sp y = u * sRx sp) by (unfold u; field; lra).
  assert (EV : Rabs y = v * sRy sp) by (unfold v; field; lra).
  replace (y * y) with (Rabs y * Rabs y) by (rewrite <- Rabs_mult; apply Rabs_pos_eq; nra).
  rewrite EU, EV.
  assert (v * v * (sRy sp * sRy sp) <= v * v * (sRx sp * sRx sp)) by (apply Rmult_le_compat_l; nra). nra.
Qed.
Lemma round_shell_in_bbox : forall sp s gb a meth s' b j r q, real_shell sp s -> rigid a -> has_rib s j r ->
  sMx sp <= 2 -> sMy sp <= 2 -> sRy sp <= sRx sp ->
  (exists m, setup_mesh gb s m (fa a) meth = Ok s' b) \/ (exists g, setup_flat gb s g (fa a) meth = Ok s' b) ->
  in_disk (posed_disk r a) q -> in_box (fv q) (sh_bbox s').
Proof.
  intros sp s gb a meth s' b j r q RS RA HR MX MY RR HB D. apply (ribs_in_bbox sp s gb a meth s' b j r q); auto.
  destruct (has_rib_axial sp s j r RS HR) as (_ & _ & -> & L). apply profile_in_sphere; auto; [apply RS|lra].
Qed.
(** ... and the criterion is sharp. *)
Definition lean_pose (c s : R) : affine R := Aff (M3 1 0 0 0 c (- s) 0 s c) (V 0 0 0).
Lemma lean_rigid : forall c s, c * c + s * s = 1 -> rigid (lean_pose c s).
Proof.
  intros c s H. unfold rigid, rotation, is_unit, lean_pose, pcol0, pcol1, pcol2. cbn [lin m00 m01 m02 m10 m11 m12 m20 m21 m22].
  repeat split; try (vunf; nra). apply vec_eq; vunf; nra.
Qed.
Lemma bbox_misses : forall sp s j r, real_shell sp s -> has_rib s j r ->
  sRx sp * sRx sp < rb_radius r * rb_radius r + vy (rb_center r) * vy (rb_center r) ->
  exists a q, rigid a /\ in_disk (posed_disk r a) q /\
    forall gb meth s' b,
      (exists m, setup_mesh gb s m (fa a) meth = Ok s' b) \/ (exists g, setup_flat gb s g (fa a) meth = Ok s' b) ->
      ~ in_box (fv q) (sh_bbox s').
Proof.
  intros sp s j r RS HR HC. destruct (has_rib_axial sp s j r RS HR) as ((HN & HX & HZ) & (R0 & _) & _).
  set (y := vy (rb_center r)) in *. set (k := rb_radius r) in *. set (L := sqrt (k * k + y * y)).
  assert (L0 : 0 < k * k + y * y) by nra. assert (LP : 0 < L) by (now apply sqrt_lt_R0).
  assert (LL : L * L = k * k + y * y) by (apply sqrt_sqrt; lra).
  assert (U : k / L * (k / L) + y / L * (y / L) = 1).
  { transitivity ((k * k + y * y) * / (L * L)); [field; lra|]. rewrite LL. field. lra. }
  exists (lean_pose (k / L) (y / L)), (V 0 0 L).
  assert (RX : 0 < sRx sp) by (destruct RS as (_ & _ & ? & _); auto).
  assert (LX : sRx sp < L) by nra.
  assert (CE : place (lean_pose (k / L) (y / L)) (rb_center r) = V 0 (k / L * y) (y / L * y)).
  { unfold place, lean_pose. cbn [tra lin]. apply vec_eq; vunf; cbn [m00 m01 m02 m10 m11 m12 m20 m21 m22]; rewrite HX, HZ; change (vy (rb_center r)) with y; ring. }
  split; [now apply lean_rigid|]. split.
  - unfold posed_disk. fold k. split; cbn [dplane dradius porigin pnormal]; rewrite CE.
    + unfold on_plane. cbn [porigin pnormal]. rewrite HN. unfold lean_pose. vunf. cbn [lin m00 m01 m02 m10 m11 m12 m20 m21 m22].
      transitivity (y / L * (L * L - (k * k + y * y)) / L); [field; lra|]. rewrite LL. field. lra.
    + apply pnorm_le; [lra|]. right. vunf.
      transitivity ((L * L - y * y) * (L * L - y * y) / (L * L) + k * k * (y * y) / (L * L)); [field; lra|].
      rewrite LL. field. lra.
  - intros gb meth s' b HB. rewrite (setup_bbox _ _ _ _ _ _ HB). destruct RS as (_ & E & G).
    destruct (f_bbox s (lean_pose (k / L) (y / L)) (sRx sp)) as [_ B]; [now rewrite E|lra|].
    unfold in_box. rewrite B. intros (_ & _ & _ & _ & _ & Z). revert Z. unfold fv, lean_pose, padd. cbn [vx vy vz tra].
    rewrite e_le. replace (rleb L (0 + sRx sp)) with false; [discriminate|]. symmetry. apply rleb_false. lra.
Qed.

(** ** The candidate filter. *)
Definition rsgn (d : R) : R := (if rltb 0 d then 1 else 0) - (if rltb d 0 then 1 else 0).
Lemma f_sgn : forall d, sgn (Fin d) = Fin (rsgn d).
Proof. intros. unfold sgn, nofbool, rsgn. rewrite !e_ofZ, !e_lt. destruct (rltb 0 d), (rltb d 0); reflexivity. Qed.
Lemma rsgn_cases : forall d, (0 < d /\ rsgn d = 1) \/ (d < 0 /\ rsgn d = -1) \/ (d = 0 /\ rsgn d = 0).
Proof.
  intros d. unfold rsgn. destruct (Rtotal_order d 0) as [H|[H|H]].
  - right; left. split; [auto|]. replace (rltb 0 d) with false by (symmetry; apply rltb_false; lra).
    replace (rltb d 0) with true by (symmetry; apply rltb_true; lra). lra.
  - right; right. split; [auto|]. subst d. replace (rltb 0 0) with false by (symmetry; apply rltb_false; lra). lra.
  - left. split; [auto|]. replace (rltb 0 d) with true by (symmetry; apply rltb_true; lra).
    replace (rltb d 0) with false by (symmetry; apply rltb_false; lra). lra.
Qed.
Lemma f_straddles : forall d0 d1 d2 y, straddles (Fin d0) (Fin d1) (Fin d2) (Fin y) = true <->
  ~ (y < d0 /\ y < d1 /\ y < d2) /\ ~ (d0 < y /\ d1 < y /\ d2 < y).
Proof.
  intros d0 d1 d2 y. unfold straddles. rewrite !e_sub, !f_sgn, !e_add, !e_ofZ, !e_lt, andb_true_iff, !rltb_true.
  destruct (rsgn_cases (d0 - y)) as [[A ->]|[[A ->]|[A ->]]], (rsgn_cases (d1 - y)) as [[B ->]|[[B ->]|[B ->]]],
    (rsgn_cases (d2 - y)) as [[C ->]|[[C ->]|[C ->]]]; split; intros; lra.
Qed.
Lemma zero_combination : forall d0 d1 d2 : R, ~ (0 < d0 /\ 0 < d1 /\ 0 < d2) -> ~ (d0 < 0 /\ d1 < 0 /\ d2 < 0) ->
  exists a b c, 0 <= a /\ 0 <= b /\ 0 <= c /\ a + b + c = 1 /\ a * d0 + b * d1 + c * d2 = 0.
Proof.
  assert (T : forall p n, 0 < p -> n < 0 -> exists u v, 0 <= u /\ 0 <= v /\ u + v = 1 /\ u * p + v * n = 0).
  { intros p n P N. exists (- n / (p - n)), (p / (p - n)).
    assert (I : 0 < / (p - n)) by (apply Rinv_0_lt_compat; lra).
    split; [apply Rmult_le_pos; lra|]. split; [apply Rmult_le_pos; lra|]. split; field; lra. }
  intros d0 d1 d2 A B.
  destruct (Req_dec d0 0) as [E|E0]; [exists 1, 0, 0; subst; repeat split; lra|].
  destruct (Req_dec d1 0) as [E|E1]; [exists 0, 1, 0; subst; repeat split; lra|].
  destruct (Req_dec d2 0) as [E|E2]; [exists 0, 0, 1; subst; repeat split; lra|].
  destruct (Rlt_dec 0 d0) as [P0|P0].
  - destruct (Rlt_dec 0 d1) as [P1|P1].
    + destruct (T d0 d2) as (u & v & ? & ? & ? & ?); [lra|lra|]. exists u, 0, v. repeat split; lra.
    + destruct (T d0 d1) as (u & v & ? & ? & ? & ?); [lra|lra|]. exists u, v, 0. repeat split; lra.
  - destruct (Rlt_dec 0 d1) as [P1|P1].
    + destruct (T d1 d0) as (u & v & ? & ? & ? & ?); [lra|lra|]. exists v, u, 0. repeat split; lra.
    + destruct (T d2 d0) as (u & v & ? & ? & ? & ?); [lra|lra|]. exists v, 0, u. repeat split; lra.
Qed.
Lemma ftri_inj : forall t t', ftri t = ftri t' -> t = t'.
Proof.
  intros [[a b c] [d e f] [g h i]] [[a' b' c'] [d' e' f'] [g' h' i']]. unfold ftri, fv. cbn. intros H. injection H. intros. subst. reflexivity.
Qed.
Lemma f_mid_plane : forall (s : shell er) a, sh_affine s = fa a -> rigid a -> mid_plane s = fplane (Plane (tra a) (pcol1 (lin a))).
Proof.
  intros s a E (_ & U & _). unfold mid_plane, sh_y, plane_normalize, fplane. rewrite E. cbn [porigin pnormal].
  change (col1 (lin (fa a))) with (fv (pcol1 (lin a))). rewrite f_normalized, punit_unit by auto. reflexivity.
Qed.
Definition rib_plane (r : rib R) (a : affine R) : plane R := dplane (posed_disk r a).
Lemma rib_plane_dist : forall r a q, axial_rib r -> rigid a ->
  pdot (psub q (porigin (rib_plane r a))) (pnormal (rib_plane r a)) = pdot (psub q (tra a)) (pcol1 (lin a)) - vy (rb_center r).
Proof.
  intros r a q (HN & HX & HZ) RA. unfold rib_plane, posed_disk. cbn [dplane porigin pnormal]. rewrite HN.
  assert (E : papply (lin a) (V 0 1 0) = pcol1 (lin a)) by (apply vec_eq; vunf; ring). rewrite E.
  assert (CE : place a (rb_center r) = padd (tra a) (pscale (vy (rb_center r)) (pcol1 (lin a)))).
  { unfold place. apply vec_eq; vunf; rewrite HX, HZ; ring. }
  rewrite CE. destruct RA as (_ & U & _). set (e := pcol1 (lin a)) in *. unfold is_unit in U.
  replace (psub q (padd (tra a) (pscale (vy (rb_center r)) e))) with (psub (psub q (tra a)) (pscale (vy (rb_center r)) e)) by (clearbody e; apply vec_eq; vunf; ring).
  rewrite (pdot_sub_l (psub q (tra a))), pdot_scale_l, U. ring.
Qed.
Lemma f_signed : forall p q, signed_distance (fplane p) (fv q) = Fin (pdot (psub q (porigin p)) (pnormal p)).
Proof. intros. unfold signed_distance, fplane. cbn [porigin pnormal]. now rewrite f_sub, f_dot. Qed.
Lemma candidate_iff : forall (s : shell er) a r g t, sh_affine s = fa a -> rigid a -> axial_rib r -> tg_tri g = ftri t ->
  (is_candidate s true (frib r) g = true <-> crosses (rib_plane r a) g).
Proof.
  intros s a r g t E RA AX T. unfold is_candidate. rewrite (f_mid_plane s a) by auto. rewrite T. unfold ftri. cbn [tv0 tv1 tv2].
  rewrite !f_signed. cbn [porigin pnormal]. change (vy (rb_center (frib r))) with (Fin (vy (rb_center r))).
  rewrite f_straddles.
  assert (D : forall q, pdot (psub q (tra a)) (pcol1 (lin a)) =
    pdot (psub q (porigin (rib_plane r a))) (pnormal (rib_plane r a)) + vy (rb_center r)).
  { intros q. rewrite rib_plane_dist by auto. ring. }
  rewrite !D. set (o := porigin (rib_plane r a)). set (n := pnormal (rib_plane r a)).
  assert (BC : forall x y z, x + y + z = 1 -> pdot (psub (bary t x y z) o) n =
    x * pdot (psub (tv0 t) o) n + y * pdot (psub (tv1 t) o) n + z * pdot (psub (tv2 t) o) n).
  { intros x y z S. clearbody o n. replace x with (1 - y - z) by lra. vunf. ring. }
  split.
  - intros [A B]. destruct (zero_combination (pdot (psub (tv0 t) o) n) (pdot (psub (tv1 t) o) n) (pdot (psub (tv2 t) o) n))
      as (x & y & z & X & Y & Z & S & Q); [lra|lra|].
    exists t, (bary t x y z). split; [exact T|]. split; [exists x, y, z; repeat split; auto; lra|].
    unfold on_plane. fold o n. rewrite BC by auto. exact Q.
  - intros (t' & q & T' & (x & y & z & X & Y & Z & S & ->) & OP). unfold real_triangle in T'. rewrite T in T'. apply ftri_inj in T'. subst t'.
    unfold on_plane in OP. fold o n in OP. rewrite BC in OP by auto. rewrite Ropp_0 in *.
    split; intros (A & B & C).
    + assert (0 < x * pdot (psub (tv0 t) o) n + y * pdot (psub (tv1 t) o) n + z * pdot (psub (tv2 t) o) n); [|lra].
      destruct (Rle_lt_or_eq_dec 0 x X); destruct (Rle_lt_or_eq_dec 0 y Y); destruct (Rle_lt_or_eq_dec 0 z Z); subst; try lra; nra.
    + assert (x * pdot (psub (tv0 t) o) n + y * pdot (psub (tv1 t) o) n + z * pdot (psub (tv2 t) o) n < 0); [|lra].
      destruct (Rle_lt_or_eq_dec 0 x X); destruct (Rle_lt_or_eq_dec 0 y Y); destruct (Rle_lt_or_eq_dec 0 z Z); subst; try lra; nra.
Qed.
Lemma filter_keeps : forall A (f : A -> bool) (P : A -> Prop) l, (forall x, In x l -> (f x = true <-> P x)) -> keeps P l (filter f l).
Proof.
  intros A f P l. induction l as [|x l IH]; intros H; cbn; [constructor|].
  assert (IH' : keeps P l (filter f l)) by (apply IH; intros; apply H; now right).
  pose proof (H x (or_introl eq_refl)) as Hx. destruct (f x) eqn:E.
  - constructor; auto. now apply Hx.
  - constructor; auto. intros C. apply Hx in C. discriminate.
Qed.
Lemma setup_mesh_cands : forall {K} {NK : Num K} gb (s : shell K) m pose meth s' b local,
  setup_mesh gb s m pose meth = Ok s' b ->
  mesh_intersection m (sh_bbox (update_bbox (transform s pose))) = Ret local -> local <> [] ->
  forall j r, nth_error (sh_ribs s) j = Some r ->
  nth_error (sh_cands s') j = Some (filter (is_candidate (update_bbox (transform s pose))
    (String.eqb meth "geometric" && Nat.ltb 3 (List.length local)) r) local).
Proof.
  intros K NK gb s m pose meth s' b local H Q NE j r NJ. unfold setup_mesh in H. rewrite Q in H.
  destruct local as [|g l]; [congruence|]. set (L := g :: l) in *. cbv zeta in H. set (rf := (_ && _)%bool) in *.
  unfold with_cells in H. destruct (run_ribs _ _ _ _ _ _); [|discriminate|discriminate]. injection H as <- _.
  cbn [sh_cands]. unfold refine_intersection. rewrite nth_error_app1.
  - rewrite (map_nth_error _ _ _ NJ). reflexivity.
  - rewrite map_length. apply nth_error_Some. change (sh_ribs (update_bbox (transform s pose))) with (sh_ribs s). congruence.
Qed.
Lemma candidates_exact : forall sp s gb m a meth s' b local j r, real_shell sp s -> rigid a ->
  setup_mesh gb s m (fa a) meth = Ok s' b -> mesh_intersection m (sh_bbox s') = Ret local -> local <> [] ->
  Forall (fun g => exists t, real_triangle g t) local -> has_rib s j r ->
  exists c, nth_error (sh_cands s') j = Some c /\
    ((meth = "geometric"%string /\ (3 < List.length local)%nat) -> keeps (crosses (rib_plane r a)) local c) /\
    (~ (meth = "geometric"%string /\ (3 < List.length local)%nat) -> c = local).
Proof.
  intros sp s gb m a meth s' b local j r RS RA H Q NE FR HR. destruct (has_rib_axial sp s j r RS HR) as (AX & _).
  rewrite (setup_bbox gb s (fa a) meth s' b) in Q by eauto.
  unfold has_rib, rib_at in HR. destruct (nth_error (sh_ribs s) j) as [x|] eqn:NJ; [|discriminate].
  assert (X : x = frib r) by congruence. subst x.
  rewrite (setup_mesh_cands gb s m (fa a) meth s' b local H Q NE j (frib r) NJ). eexists. split; [reflexivity|]. split.
  - intros [-> L]. apply Nat.ltb_lt in L. rewrite L. cbn [andb String.eqb Ascii.eqb Bool.eqb]. apply filter_keeps.
    intros g Hg. rewrite Forall_forall in FR. destruct (FR g Hg) as [t T]. now apply candidate_iff with (t := t).
  - intros N. replace (String.eqb meth "geometric" && Nat.ltb 3 (List.length local))%bool with false.
    + unfold is_candidate. clear. induction local as [|x l IH]; cbn; [reflexivity|]. now rewrite IH.
    + symmetry. apply andb_false_iff. destruct (String.eqb_spec meth "geometric"); auto. right. apply Nat.ltb_ge.
      destruct (Nat.le_gt_cases (List.length local) 3); auto. exfalso. apply N. auto.
Qed.
Lemma keeps_in : forall A (P : A -> Prop) l c x, keeps P l c -> In x l -> P x -> In x c.
Proof.
  intros A P l c x H. induction H; intros I HP; auto.
  - destruct I as [->|I]; [now left|right; auto].
  - destruct I as [->|I]; [contradiction|auto].
Qed.

(** ** Nothing is lost between the file and the ribs. *)
Lemma sealed_in_bbox : forall (g : tground er) t q, sealed g -> tg_tri g = ftri t -> in_triangle t q -> in_box (fv q) (tg_bbox g).
Proof.
  intros g t q (B & _ & F) T I.
  assert (M : exists g', mk_tground (tg_id g) (tg_friction g) (fv (tv0 t)) (fv (tv1 t)) (fv (tv2 t)) = Ret g' /\ tg_bbox g' = tg_bbox g).
  { unfold mk_tground. rewrite F. eexists. split; [reflexivity|]. rewrite B, T. reflexivity. }
  destruct M as (g' & M & <-). destruct t as [v0 v1 v2]. apply (triangle_in_bbox _ _ _ _ _ _ M q) in I.
  unfold aabb_is_inside in I. rewrite !andb_true_iff in I. destruct I as (((((I1 & I2) & I3) & I4) & I5) & I6).
  unfold in_box. auto 10.
Qed.
Lemma real_tri_num : forall (g : tground er) t, tg_tri g = ftri t -> tri_num g.
Proof. intros g t E. unfold tri_num, vnum, isnum. rewrite E. unfold ftri, fv. cbn [tv0 tv1 tv2 vx vy vz]. repeat split; cbn; apply rleb_true; lra. Qed.
Lemma shell_box_proper : forall sp s a, real_shell sp s -> proper_box (sh_bbox (update_bbox (transform s (fa a)))).
Proof.
  intros sp s a (_ & E & G). assert (RX : 0 < sRx sp) by (now destruct G).
  destruct (f_bbox s a (sRx sp)) as [B1 B2]; [now rewrite E|lra|]. unfold proper_box. rewrite B1, B2.
  unfold fv, psub, padd. cbn [vx vy vz]. rewrite !e_le, !rleb_true. lra.
Qed.
Lemma exactly_in : forall A (P : A -> Prop) all l x, exactly P all l -> In x all -> P x -> In x l.
Proof.
  intros A P all l x (k & HK & HP) I HX. eapply Permutation.Permutation_in; [apply Permutation.Permutation_sym; exact HP|].
  apply filter_In. split; auto. now apply HK.
Qed.
Lemma exactly_sub : forall A (P : A -> Prop) all l x, exactly P all l -> In x l -> In x all.
Proof.
  intros A P all l x (k & HK & HP) I. eapply Permutation.Permutation_in in I; [|exact HP]. now apply filter_In in I.
Qed.
Lemma nothing_lost : forall stod fs m0 m sp s gb a meth s' b g t q j r,
  load_succeeds stod fs m0 m -> (Z.of_nat (mesh_size m) <= 2 ^ 31)%Z ->
  Forall (fun g => exists t, real_triangle g t) (me_tris m) ->
  real_shell sp s -> rigid a -> setup_mesh gb s m (fa a) meth = Ok s' b ->
  In g (me_tris m) -> real_triangle g t -> in_triangle t q ->
  has_rib s j r -> in_disk (posed_disk r a) q -> in_box (fv q) (sh_bbox s') ->
  exists c, nth_error (sh_cands s') j = Some c /\ In g c.
Proof.
  intros stod fs m0 m sp s gb a meth s' b g t q j r LD SZ FR RS RA H IG RT IT HR D IB.
  pose proof (setup_bbox gb s (fa a) meth s' b (or_introl (ex_intro _ m H))) as EB.
  destruct (load_succeeds_good _ _ _ _ LD SZ) as (_ & _ & _ & SL). rewrite Forall_forall in SL.
  destruct (loaded_query_exact stod fs m0 m (sh_bbox s') LD SZ) as (local & Q & EX & _).
  { eapply Forall_impl; [|exact FR]. intros x [t' E]. eapply real_tri_num. exact E. }
  { rewrite EB. eapply shell_box_proper. exact RS. }
  assert (IL : In g local).
  { apply (exactly_in _ _ _ _ _ EX IG). exists (fv q). split; auto. apply (sealed_in_bbox g t); auto. }
  destruct (candidates_exact sp s gb m a meth s' b local j r RS RA H Q) as (c & NC & K1 & K2).
  { intros ->. destruct IL. }
  { rewrite Forall_forall in *. intros x Hx. apply FR. eapply exactly_sub; eauto. }
  { exact HR. }
  exists c. split; auto.
  destruct (String.eqb_spec meth "geometric") as [E|E].
  - destruct (Nat.lt_ge_cases 3 (List.length local)) as [L|L].
    + eapply keeps_in; [apply K1; auto|auto|]. exists t, q. split; auto. split; auto. apply D.
    + rewrite K2; auto. lia.
  - rewrite K2; auto. tauto.
Qed.
