(** * Properties of poses, of the shell box and of the candidate lists (exact
    arithmetic). *)
From Coq Require Import ZArith Bool Reals Lra Lia String List.
From Verif Require Import Base Num Vec Aabb Geom Ground Shape Rib Str Mesh Shell ER SpecGeom SpecRib SpecShape SpecShell SpecPose.
From Verif Require Import SpecTree SpecLoad SpecMesh ProofGeom ProofInt ProofShape ProofShell ProofShellFacts ProofPose SamplePose.
Import ListNotations.
Local Open Scope R_scope.

(** ** C27 *)
Theorem C27_moves_keep_rigid : forall n rx mx ry my ly s s', mk_shell n rx mx ry my ly = Ret s -> moved s s' ->
  exists a, sh_affine s' = fa a /\ rigid a /\ forall tol, 0 < tol -> check_transformation (sh_affine s') (Fin tol) = true.
Proof. exact moves_keep_rigid. Qed.
Print Assumptions C27_moves_keep_rigid.

Example C27_example : exists s, mk_shell 1 (Fin 1) (Fin 2) (Fin (1 / 2)) (Fin 2) (Fin (1 / 4)) = Ret s /\
  moved s (sh_rotate (sh_translate (sh_rotate s (Fin 1) (fv (V 0 0 1))) (fv (V 1 2 3))) (Fin (-2)) (fv (V (3 / 5) 0 (4 / 5)))).
Proof.
  destruct (mk_shell_eval round_tire round_good 1 ltac:(lia)) as (s & E & _). exists s. split; [exact E|].
  apply mv_rotate; [|unfold is_unit; vunf; lra]. apply mv_translate. apply mv_rotate; [|unfold is_unit; vunf; lra]. apply mv_none.
Qed.

(** The axis must be a unit vector: rotate does not normalise it. *)
Theorem C27_axis_must_be_unit : exists s angle axis, real_shell round_tire s /\ axis <> V 0 0 0 /\
  forall a, sh_affine (sh_rotate s (Fin angle) (fv axis)) = fa a -> ~ rigid a.
Proof.
  destruct (mk_shell_eval round_tire round_good 1 ltac:(lia)) as (s & E & _ & S). exists s, (PI / 2), (V 2 0 0).
  split; [split; [exact (r_new _ _ _ _ _ _ _ E)|split; [exact S|exact round_good]]|].
  split; [intros H; injection H; lra|]. intros a H (U & _).
  apply new_shell_affine in E. unfold sh_rotate, with_affine in H. cbn [sh_affine] in H. rewrite E in H.
  change (aident : affine er) with (fa upright) in H. unfold arotate in H. rewrite f_angle_axis in H.
  change (lin (fa upright)) with (fm (lin upright)) in H. rewrite f_mmul in H.
  apply (f_equal lin) in H. cbn [lin] in H. unfold fm, fa in H. cbn [lin] in H. injection H. intros _ _ H1 _ _ H2 _ _ H3.
  unfold is_unit, pcol0 in U. unfold pdot in U. cbn [vx vy vz] in U. rewrite <- H1, <- H2, <- H3 in U.
  unfold pmul, rrot, upright in U. rewrite cos_PI2, sin_PI2 in U. unfold papply, pcol0 in U. cbn in U. lra.
Qed.
Print Assumptions C27_axis_must_be_unit.

(** ** C28: false of the code: only the determinant is tested ... *)
Theorem C28_determinant_only_refuted : exists a, ~ rigid a /\
  forall tol, 0 < tol -> check_transformation (fa a) (Fin tol) = true.
Proof.
  exists (Aff (M3 2 0 0 0 (1 / 2) 0 0 0 1) (V 0 0 0)). split.
  - intros (U & _). unfold is_unit, pcol0 in U. cbn [lin m00 m10 m20] in U. vunf. lra.
  - intros tol T. apply check_iff. cbn [lin]. unfold pcol0, pcol1, pcol2, pcross, pdot. cbn [vx vy vz m00 m01 m02 m10 m11 m12 m20 m21 m22].
    match goal with |- Rabs ?x < _ => replace x with 0 by field end. now rewrite Rabs_R0.
Qed.
Print Assumptions C28_determinant_only_refuted.

(** ... and transform stores the pose whatever the test says. *)
Theorem C28_transform_unchecked_refuted : exists pose : affine er,
  check_transformation pose neps = false /\
  forall s, sh_affine (transform s pose) = pose.
Proof.
  exists (fa (Aff (M3 2 0 0 0 2 0 0 0 2) (V 0 0 0))). split; [|reflexivity].
  rewrite neps_eps, f_check. unfold rdet. cbn [lin m00 m01 m02 m10 m11 m12 m20 m21 m22]. apply rltb_false.
  match goal with |- _ <= Rabs ?x => replace x with 7 by ring end. rewrite Rabs_pos_eq by lra. pose proof eps_lt1. lra.
Qed.
Print Assumptions C28_transform_unchecked_refuted.

(** What the test decides: the volume spanned by the columns is 1 within the
    tolerance. *)
Theorem C28_volume_test : forall a tol, check_transformation (fa a) (Fin tol) = true <->
  Rabs (pdot (pcross (pcol0 (lin a)) (pcol1 (lin a))) (pcol2 (lin a)) - 1) < tol.
Proof. exact check_iff. Qed.
Print Assumptions C28_volume_test.

Theorem C28_rigid_accepted : forall a tol, rigid a -> 0 < tol -> check_transformation (fa a) (Fin tol) = true.
Proof. exact check_rigid. Qed.
Print Assumptions C28_rigid_accepted.

Theorem C28_mirror_rejected : forall a tol, tol <= 2 -> is_unit (pcol2 (lin a)) ->
  pcross (pcol0 (lin a)) (pcol1 (lin a)) = pscale (-1) (pcol2 (lin a)) ->
  check_transformation (fa a) (Fin tol) = false.
Proof.
  intros a tol T U C. rewrite f_check, rdet_triple, C, pdot_scale_l. unfold is_unit in U. rewrite U. apply rltb_false.
  replace (-1 * 1 - 1) with (-2) by ring. rewrite Rabs_left by lra. lra.
Qed.
Print Assumptions C28_mirror_rejected.

(** The overload on a 4x4 matrix, whatever its last row [r, d]: the
    determinant of the whole matrix, expanded along that row, is 1 within the
    tolerance.  With 0 0 0 1 it is the test on the pose. *)
Theorem C28_matrix_test : forall a r d tol, check_matrix (fa a) (fv r) (Fin d) (Fin tol) = true <->
  let V := fun x y z => pdot (pcross x y) z in
  let X := pcol0 (lin a) in let Y := pcol1 (lin a) in let Z := pcol2 (lin a) in let T := tra a in
  Rabs (d * V X Y Z - vx r * V T Y Z - vy r * V X T Z - vz r * V X Y T - 1) < tol.
Proof. exact matrix_iff. Qed.
Print Assumptions C28_matrix_test.

Theorem C28_matrix_of_pose : forall a tol,
  check_matrix (fa a) (fv (V 0 0 0)) (Fin 1) (Fin tol) = check_transformation (fa a) (Fin tol).
Proof. exact matrix_affine. Qed.
Print Assumptions C28_matrix_of_pose.

(** The last row is not looked at: a matrix that doubles every length is
    accepted when its corner is 1/8. *)
Theorem C28_last_row_refuted : exists a d, d <> 1 /\ (forall p, papply (lin a) p = pscale 2 p) /\
  forall tol, 0 < tol -> check_matrix (fa a) (fv (V 0 0 0)) (Fin d) (Fin tol) = true.
Proof.
  exists (Aff (M3 2 0 0 0 2 0 0 0 2) (V 0 0 0)), (1 / 8). split; [lra|]. split.
  - intros p. apply vec_eq; unfold papply, pscale; cbn [lin vx vy vz m00 m01 m02 m10 m11 m12 m20 m21 m22]; ring.
  - intros tol T. apply matrix_iff. unfold rdet4. cbn [lin tra]. unfold pcol0, pcol1, pcol2, pcross, pdot.
    cbn [vx vy vz m00 m01 m02 m10 m11 m12 m20 m21 m22].
    match goal with |- Rabs ?x < _ => replace x with 0 by field end. now rewrite Rabs_R0.
Qed.
Print Assumptions C28_last_row_refuted.

Example C28_example : rigid (lean_pose (3 / 5) (4 / 5)) /\
  exists a, pcross (pcol0 (lin a)) (pcol1 (lin a)) = pscale (-1) (pcol2 (lin a)) /\ is_unit (pcol2 (lin a)).
Proof.
  split; [apply lean_rigid; lra|]. exists (Aff (M3 1 0 0 0 1 0 0 0 (-1)) (V 0 0 0)).
  split; [apply vec_eq|unfold is_unit]; unfold pcol0, pcol1, pcol2, pcross, pdot, pscale; cbn [lin vx vy vz m00 m01 m02 m10 m11 m12 m20 m21 m22]; ring.
Qed.

(** ** C29: false of the code: a wide shell leaves its box when it leans.
    The criterion is sharp: a rib is inside the box in every pose exactly when
    it is inside the sphere of radius [Rx]. *)
Theorem C29_inside_the_sphere : forall sp s gb a meth s' b j r q, real_shell sp s -> rigid a -> has_rib s j r ->
  rb_radius r * rb_radius r + vy (rb_center r) * vy (rb_center r) <= sRx sp * sRx sp ->
  (exists m, setup_mesh gb s m (fa a) meth = Ok s' b) \/ (exists g, setup_flat gb s g (fa a) meth = Ok s' b) ->
  in_disk (posed_disk r a) q -> in_box (fv q) (sh_bbox s').
Proof. exact ribs_in_bbox. Qed.
Print Assumptions C29_inside_the_sphere.

Theorem C29_outside_the_sphere : forall sp s j r, real_shell sp s -> has_rib s j r ->
  sRx sp * sRx sp < rb_radius r * rb_radius r + vy (rb_center r) * vy (rb_center r) ->
  exists a q, rigid a /\ in_disk (posed_disk r a) q /\
    forall gb meth s' b,
      (exists m, setup_mesh gb s m (fa a) meth = Ok s' b) \/ (exists g, setup_flat gb s g (fa a) meth = Ok s' b) ->
      ~ in_box (fv q) (sh_bbox s').
Proof. exact bbox_misses. Qed.
Print Assumptions C29_outside_the_sphere.

(** Shapes with exponents at most 2 and [Ry <= Rx] are always inside. *)
Theorem C29_round_shapes : forall sp s gb a meth s' b j r q, real_shell sp s -> rigid a -> has_rib s j r ->
  sMx sp <= 2 -> sMy sp <= 2 -> sRy sp <= sRx sp ->
  (exists m, setup_mesh gb s m (fa a) meth = Ok s' b) \/ (exists g, setup_flat gb s g (fa a) meth = Ok s' b) ->
  in_disk (posed_disk r a) q -> in_box (fv q) (sh_bbox s').
Proof. exact round_shell_in_bbox. Qed.
Print Assumptions C29_round_shapes.

Definition wide : shape R := Shape 1 1 10 1 1.
Lemma wide_good : good_shape wide.
Proof. unfold good_shape, wide. cbn. lra. Qed.
Lemma hpow_one : forall x, 0 <= x -> hpow x 1 = x.
Proof. intros x [H|H]; [rewrite hpow_pos by auto; now apply Rpower_1|subst; apply hpow_0]. Qed.
Lemma wide_radius : forall y, Rabs y <= 1 -> radius_at wide y = 1 - Rabs y / 10.
Proof.
  intros y H. unfold radius_at, wide. cbn [sRx sMx sRy sMy]. pose proof (Rabs_pos y).
  rewrite (hpow_one (Rabs y / 10)) by lra. rewrite Rinv_1, hpow_one by lra. ring.
Qed.
Theorem C29_box_refuted : exists sp s a j r q, real_shell sp s /\ rigid a /\ has_rib s j r /\ in_disk (posed_disk r a) q /\
  (forall gb g meth, meth = "geometric"%string \/ meth = "sampling"%string ->
     exists s' b, setup_flat gb s g (fa a) meth = Ok s' b) /\
  forall gb meth s' b,
    (exists m, setup_mesh gb s m (fa a) meth = Ok s' b) \/ (exists g, setup_flat gb s g (fa a) meth = Ok s' b) ->
    ~ in_box (fv q) (sh_bbox s').
Proof.
  destruct (mk_shell_eval wide wide_good 2 ltac:(lia)) as (s & E & RB & S).
  assert (RS : real_shell wide s) by (split; [exact (r_new _ _ _ _ _ _ _ E)|split; [exact S|exact wide_good]]).
  set (r := real_rib wide (slice_width (sLy wide) 2) 1 (slice_center (sLy wide) 2 1)).
  assert (HR : has_rib s 1 r) by (unfold has_rib, rib_at; rewrite RB; reflexivity).
  assert (Y : slice_center (sLy wide) 2 1 = 1 / 2) by (unfold slice_center, slice_width, wide; cbn; field).
  destruct (bbox_misses wide s 1 r RS HR) as (a & q & RA & D & N).
  { unfold r, real_rib, rb_radius, rb_center. cbn [rb_disk dradius dcenter dplane porigin vy]. rewrite Y.
    rewrite wide_radius; rewrite Rabs_pos_eq; try lra. unfold wide. cbn [sRx].
    change (vy (dcenter {| dradius := 1 - 1 / 2 / 10; dplane := Plane (V 0 (1 / 2) 0) (V 0 1 0) |})) with (1 / 2). lra. }
  exists wide, s, a, 1%nat, r, q. split; [exact RS|]. split; [exact RA|]. split; [exact HR|]. split; [exact D|]. split; [|exact N].
  intros gb g meth V. apply (setup_flat_total gb s g (fa a) meth (reach_inv s (proj1 RS)) V). unfold sh_size. rewrite RB. cbn. unfold capacity. lia.
Qed.
Print Assumptions C29_box_refuted.

Example C29_example : exists s, real_shell round_tire s /\ rigid upright /\ has_rib s 0 mid_rib /\
  sMx round_tire <= 2 /\ sMy round_tire <= 2 /\ sRy round_tire <= sRx round_tire /\
  in_disk (posed_disk mid_rib upright) (V 0 0 (-1)) /\
  forall gb g, exists s' b, setup_flat gb s g (fa upright) "sampling" = Ok s' b.
Proof.
  destruct one_slice as (s & RS & S1 & RB). exists s. split; [exact RS|]. split; [exact upright_rigid|].
  split; [unfold has_rib, rib_at; rewrite RB, mid_slices; reflexivity|].
  split; [unfold round_tire; cbn; lra|]. split; [unfold round_tire; cbn; lra|]. split; [unfold round_tire; cbn; lra|].
  split.
  - unfold posed_disk. split; cbn [dplane dradius porigin pnormal]; rewrite mid_center.
    + unfold on_plane. cbn [porigin pnormal]. change (rb_normal mid_rib) with (V 0 1 0 : pt). unfold place, upright. vunf. cbn. ring.
    + rewrite mid_radius. apply pnorm_le; [lra|]. unfold place, upright. vunf. cbn. lra.
  - intros gb g. apply (setup_flat_total gb s g (fa upright) "sampling" (reach_inv s (proj1 RS)) (or_intror eq_refl)).
    rewrite S1. unfold capacity. lia.
Qed.

(** ** C30 *)
Theorem C30_candidates_exact : forall sp s gb m a meth s' b local j r, real_shell sp s -> rigid a ->
  setup_mesh gb s m (fa a) meth = Ok s' b -> mesh_intersection m (sh_bbox s') = Ret local -> local <> [] ->
  Forall (fun g => exists t, real_triangle g t) local -> has_rib s j r ->
  exists c, nth_error (sh_cands s') j = Some c /\
    ((meth = "geometric"%string /\ (3 < List.length local)%nat) -> keeps (crosses (dplane (posed_disk r a))) local c) /\
    (~ (meth = "geometric"%string /\ (3 < List.length local)%nat) -> c = local).
Proof. exact candidates_exact. Qed.
Print Assumptions C30_candidates_exact.

(** Four triangles in range, one in the plane of the rib. *)
Example C30_example : exists m s, real_shell round_tire s /\ rigid upright /\ has_rib s 0 mid_rib /\
  (exists g, nth_error (me_tris m) 0 = Some g /\ crosses (dplane (posed_disk mid_rib upright)) g) /\
  (exists g, nth_error (me_tris m) 1 = Some g /\ ~ crosses (dplane (posed_disk mid_rib upright)) g) /\
  forall gb, exists s' b local, setup_mesh gb s m (fa upright) "geometric" = Ok s' b /\
    mesh_intersection m (sh_bbox s') = Ret local /\ List.length local = 4%nat /\
    Forall (fun g => exists t, real_triangle g t) local.
Proof.
  destruct wall_setup as (m & s & LD & SZ & RS & HR & TR & H). exists m, s. split; [exact RS|]. split; [exact upright_rigid|].
  split; [exact HR|].
  assert (OP : forall q, on_plane (dplane (posed_disk mid_rib upright)) q <-> vy q = 0).
  { intros q. unfold posed_disk. cbn [dplane]. rewrite mid_center. unfold on_plane. cbn [porigin pnormal].
    change (rb_normal mid_rib) with (V 0 1 0 : pt). unfold place, upright. vunf. cbn. split; lra. }
  split; [|split; [|exact H]].
  - destruct (TR 0%nat _ eq_refl) as (g & N & T). exists g. split; auto. eexists. exists (V 0 0 0). split; [exact T|]. split; [|apply OP; reflexivity].
    exists 1, 0, 0. repeat split; try lra. apply vec_eq; vunf; ring.
  - destruct (TR 1%nat _ eq_refl) as (g & N & T). exists g. split; auto. intros (t & q & T' & (x & y & z & X & Y & Z & S & ->) & O).
    unfold real_triangle in *. rewrite T in T'. apply ftri_inj in T'. subst t. apply OP in O. vunf. lra.
Qed.

(** ** C31 *)
Theorem C31_nothing_lost : forall stod fs m0 m sp s gb a meth s' b g t q j r,
  load_succeeds stod fs m0 m -> (Z.of_nat (mesh_size m) <= 2 ^ 31)%Z ->
  Forall (fun g => exists t, real_triangle g t) (me_tris m) ->
  real_shell sp s -> rigid a -> setup_mesh gb s m (fa a) meth = Ok s' b ->
  In g (me_tris m) -> real_triangle g t -> in_triangle t q ->
  has_rib s j r -> in_disk (posed_disk r a) q -> in_box (fv q) (sh_bbox s') ->
  exists c, nth_error (sh_cands s') j = Some c /\ In g c.
Proof. exact nothing_lost. Qed.
Print Assumptions C31_nothing_lost.

(** No box hypothesis is needed when the rib is inside the sphere. *)
Theorem C31_nothing_lost_round : forall stod fs m0 m sp s gb a meth s' b g t q j r,
  load_succeeds stod fs m0 m -> (Z.of_nat (mesh_size m) <= 2 ^ 31)%Z ->
  Forall (fun g => exists t, real_triangle g t) (me_tris m) ->
  real_shell sp s -> rigid a -> setup_mesh gb s m (fa a) meth = Ok s' b ->
  In g (me_tris m) -> real_triangle g t -> in_triangle t q ->
  has_rib s j r -> in_disk (posed_disk r a) q ->
  rb_radius r * rb_radius r + vy (rb_center r) * vy (rb_center r) <= sRx sp * sRx sp ->
  exists c, nth_error (sh_cands s') j = Some c /\ In g c.
Proof.
  intros. eapply nothing_lost; eauto. eapply (ribs_in_bbox sp s gb a meth s' b j r q); eauto.
Qed.
Print Assumptions C31_nothing_lost_round.

Example C31_example : exists m s g t q, load_succeeds eread wall_files mesh_empty m /\ mesh_size m = 4%nat /\
  Forall (fun g => exists t, real_triangle g t) (me_tris m) /\ real_shell round_tire s /\
  In g (me_tris m) /\ real_triangle g t /\ in_triangle t q /\ has_rib s 0 mid_rib /\
  in_disk (posed_disk mid_rib upright) q /\
  forall gb, exists s' b, setup_mesh gb s m (fa upright) "geometric" = Ok s' b /\ in_box (fv q) (sh_bbox s').
Proof.
  destruct wall_setup as (m & s & LD & SZ & RS & HR & TR & H). destruct (TR 0%nat _ eq_refl) as (g & N & T).
  exists m, s, g. eexists. exists (V 0 0 0). split; [exact LD|]. split; [exact SZ|]. split.
  { rewrite Forall_forall. intros x Hx. destruct (wall_all m x SZ TR Hx) as (t & _ & R). eauto. }
  split; [exact RS|]. split; [eapply nth_error_In; exact N|]. split; [exact T|]. split.
  { exists 1, 0, 0. repeat split; try lra. apply vec_eq; vunf; ring. }
  split; [exact HR|].
  assert (D : in_disk (posed_disk mid_rib upright) (V 0 0 0)).
  { unfold posed_disk. split; cbn [dplane dradius porigin pnormal]; rewrite mid_center.
    - unfold on_plane. cbn [porigin pnormal]. change (rb_normal mid_rib) with (V 0 1 0 : pt). unfold place, upright. vunf. cbn. ring.
    - rewrite mid_radius. apply pnorm_le; [lra|]. unfold place, upright. vunf. cbn. lra. }
  split; [exact D|]. intros gb. destruct (H gb) as (s' & b & local & E & _). exists s', b. split; [exact E|].
  apply (ribs_in_bbox round_tire s gb upright "geometric" s' b 0 mid_rib (V 0 0 0)); auto; [exact upright_rigid| |left; eauto].
  rewrite mid_radius, mid_center. unfold round_tire. cbn. lra.
Qed.
