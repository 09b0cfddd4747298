(** * The contact data do not depend on where the world frame is put, nor on
    how far the wheel has turned about its axle. *)
From Coq Require Import ZArith Bool Reals Lra Lia String List.
From Verif Require Import Base Num Vec Aabb Tree Geom Ground Shape Rib Str Mesh Shell ER.
From Verif Require Import SpecGeom SpecRib SpecShape SpecShell SpecPose SpecAvg SpecCut SpecFrame.
From Verif Require Import ProofGeom ProofInt ProofTri ProofFlat ProofShape ProofPose ProofMeshGeo ProofMeshEval ProofChord SamplePose SampleMeshGeo SampleChord.
From Verif Require Import ProofFrame ProofFrameMesh ProofFrameGeo ProofFrameShell ProofSpin.
From Verif Require PropertiesGeom F64 SampleShell.
Import ListNotations.
Local Open Scope R_scope.
Local Open Scope string_scope.

(** ** C87: moving the wheel and the ground together moves the contact data. *)
Theorem C87_flat_geometric : forall m r a gp f gb gb', rigid m -> good_rib r -> rigid a -> is_unit (pnormal gp) ->
  exists b o, envelop_flat gb (frib r) (fflat gp f) (fa a) "geometric" = Ret (b, fout o) /\
    envelop_flat gb' (frib r) (fflat (carry_plane m gp) f) (fa (after m a)) "geometric" = Ret (b, fout (carry_out m o)).
Proof. intros m r a gp f gb gb' HM HR HA. exact (flat_geo_call m HM r a HR HA gb gb' gp f). Qed.
Print Assumptions C87_flat_geometric.

Theorem C87_flat_sampling : forall m r a gp f gb gb', rigid m -> keeps_vertical m ->
  exists b o, envelop_flat gb (frib r) (fflat gp f) (fa a) "sampling" = Ret (b, fout o) /\
    envelop_flat gb' (frib r) (fflat (carry_plane m gp) f) (fa (after m a)) "sampling" = Ret (b, fout (carry_out m o)).
Proof. intros m r a gp f gb gb' HM HV. exact (flat_sam_call m HM r a HV gb gb' gp f). Qed.
Print Assumptions C87_flat_sampling.

Theorem C87_mesh_sampling : forall m r a ts gs gs' gb gb', rigid m -> keeps_vertical m ->
  grounds ts gs -> grounds (carry_ground m ts) gs' ->
  exists b o, envelop gb (frib r) gs (fa a) "sampling" = Ret (b, fout o) /\
    envelop gb' (frib r) gs' (fa (after m a)) "sampling" = Ret (b, fout (carry_out m o)).
Proof. intros m r a ts gs gs' gb gb' HM HV. exact (mesh_sam_call m HM r a HV gb gb' ts gs gs'). Qed.
Print Assumptions C87_mesh_sampling.

(** The geometric method on triangles, when no vertex is within the tolerance
    of the rib plane. *)
Theorem C87_mesh_geometric : forall m r a ts gs gs' gb gb', rigid m -> keeps_vertical m -> good_rib r -> rigid a ->
  grounds ts gs -> grounds (carry_ground m ts) gs' ->
  (forall t f, In (t, f) ts -> clear eps (dplane (posed_disk r a)) t) ->
  exists b o o', envelop gb (frib r) gs (fa a) "geometric" = Ret (b, o) /\
    envelop gb' (frib r) gs' (fa (after m a)) "geometric" = Ret (b, o') /\ carried m o o'.
Proof. intros m r a ts gs gs' gb gb' HM HV HR HA. exact (mesh_geo_call m HM r a HR HA HV gb gb' ts gs gs'). Qed.
Print Assumptions C87_mesh_geometric.

(** The whole shell on a plane: same answer, and the data of every rib move. *)
Theorem C87_setup : forall m sp s a gp f gb gb' meth, rigid m -> real_shell sp s -> (sh_size s <= 200)%nat -> rigid a ->
  is_unit (pnormal gp) -> valid_method meth -> (meth = "sampling" -> keeps_vertical m) ->
  exists s1 s2 b os, setup_flat gb s (fflat gp f) (fa a) meth = Ok s1 b /\
    setup_flat gb' s (fflat (carry_plane m gp) f) (fa (after m a)) meth = Ok s2 b /\
    rib_data s1 os /\ rib_data s2 (map (carry_out m) os).
Proof.
  intros m sp s a gp f gb gb' meth HM HS SZ HA HG HMeth HV. apply (setups_related (carry_out m) gb gb' sp); auto.
  intros i j r _ HR _. destruct HMeth as [-> | ->]; [now apply flat_geo_call|apply flat_sam_call; auto].
Qed.
Print Assumptions C87_setup.

(** A quarter turn about the vertical followed by a shift; the road under a
    wheel. *)
Definition quarter : affine R := Aff (M3 0 (-1) 0 1 0 0 0 0 1) (V 10 20 3).
Lemma quarter_rigid : rigid quarter.
Proof. unfold rigid, rotation, quarter. cbn [lin]. unfold is_unit. vunf. cbn [m00 m01 m02 m10 m11 m12 m20 m21 m22]. repeat split; try ring. apply vec_eq; cbn; ring. Qed.
Lemma quarter_vertical : keeps_vertical quarter.
Proof. unfold keeps_vertical, quarter. cbn [lin]. apply vec_eq; vunf; cbn; ring. Qed.
Lemma road_clear : clear eps (dplane (posed_disk wide stand)) road.
Proof.
  assert (HH : forall v, vertex_of road v -> height (dplane (posed_disk wide stand)) v = -2 \/ height (dplane (posed_disk wide stand)) v = 2).
  { intros v Hv. unfold wide. rewrite stand_disk. unfold height, big_disk. cbn [dplane porigin pnormal]. unfold road, plank in Hv.
    destruct Hv as [-> | [-> | ->]]; cbn [tv0 tv1 tv2]; vunf; (left; lra) || (right; lra). }
  assert (EE : eps * 4 < 2) by (unfold eps; lra). pose proof eps_pos.
  intros x y X Y. destruct (HH x X) as [-> | ->], (HH y Y) as [-> | ->].
  + replace (-2 - -2) with 0 by ring. rewrite Rabs_R0, Rabs_left; lra.
  + replace (-2 - 2) with (-4) by ring. rewrite !Rabs_left; lra.
  + replace (2 - -2) with 4 by ring. rewrite !Rabs_pos_eq; lra.
  + replace (2 - 2) with 0 by ring. rewrite Rabs_R0, Rabs_pos_eq; lra.
Qed.
Example C87_example : exists g g', rigid quarter /\ keeps_vertical quarter /\ good_rib wide /\ rigid stand /\
  grounds [(road, 1 / 2)] [g] /\ grounds (carry_ground quarter [(road, 1 / 2)]) [g'] /\
  (forall t f, In (t, f) [(road, 1 / 2)] -> clear eps (dplane (posed_disk wide stand)) t) /\
  exists o, envelop_geometric (frib wide) [g] (fa stand) = Ret (true, fout o) /\ o_point o = V 0 0 (-3 / 5) /\
    place quarter (o_point o) = V 10 20 (12 / 5).
Proof.
  destruct (ground_exists road (1 / 2) ltac:(lra)) as [g G].
  destruct (ground_exists (carry_triangle quarter road) (1 / 2) ltac:(lra)) as [g' G'].
  exists g, g'. split; [exact quarter_rigid|]. split; [exact quarter_vertical|]. split; [exact wide_good|]. split; [exact stand_rigid|].
  split; [constructor; [exact G|constructor]|]. split; [constructor; [exact G'|constructor]|]. split.
  - intros t f [E|[]]. injection E as <- <-. exact road_clear.
  - destruct (road_contact _ _ G) as (o & E & _ & P & _). exists o. split; [exact E|]. split; [exact P|]. rewrite P. apply vec_eq; munf; cbn; field.
Qed.

Example C87_setup_example : exists s, real_shell round_tire s /\ sh_size s = 1%nat /\ rigid quarter /\ keeps_vertical quarter /\
  rigid upright /\ is_unit (pnormal (Plane (V 0 0 (-3 / 5)) (V 0 0 1))) /\
  forall gb o b, envelop_flat gb (frib mid_rib) (fflat (Plane (V 0 0 (-3 / 5)) (V 0 0 1)) (1 / 2)) (fa upright) "geometric" = Ret (b, o) ->
    b = true.
Proof.
  destruct one_slice as (s & RS & S1 & _). exists s. split; [exact RS|]. split; [exact S1|]. split; [exact quarter_rigid|].
  split; [exact quarter_vertical|]. split; [exact upright_rigid|].
  assert (U : is_unit (pnormal (Plane (V 0 0 (-3 / 5)) (V 0 0 1)))) by (unfold is_unit; cbn [pnormal]; vunf; ring).
  split; [exact U|]. intros gb o b H. pose proof eps_small as ES.
  assert (GR : good_rib mid_rib).
  { unfold good_rib. rewrite mid_radius. split; [lra|]. split; [|change (rb_normal mid_rib) with (V 0 1 0 : pt); unfold is_unit; vunf; ring].
    unfold mid_rib, real_rib. cbn [rb_width]. unfold slice_width, round_tire. cbn. lra. }
  apply (ProofSample.flat_detection gb mid_rib upright _ _ b o GR upright_rigid U H).
  assert (AP : forall p, papply (lin upright) p = p) by (intros p; unfold upright; cbn [lin]; apply vec_eq; vunf; cbn; ring).
  assert (PL : place upright (rb_center mid_rib) = V 0 0 0) by (rewrite mid_center; unfold place, upright; apply vec_eq; vunf; cbn; ring).
  unfold sin2, center_height. rewrite AP, PL, mid_radius. change (rb_normal mid_rib) with (V 0 1 0 : pt). cbn [pnormal porigin]. vunf. split; lra.
Qed.

(** Without the clearance, moving the world changes the outcome (binary64):
    the triangle and the wheel of [C69_geometric_refuted] throw next to the
    world origin and return when both are moved by 8 along x. *)
Section C87Witness.
  Import F64 SampleShell.
  Definition spike_at (x : Z) : list (tground f64) :=
    let a := V (fz x) (fz 0) (fz 0) in let b := V (fz (x + 1)) (fz 1) (fz 0) in let c := V (fz (x + 1)) (fz (-1)) (fz 0) in
    [got (TGround (Triangle a b c) 0 (fz 0) a nan_aabb) (mk_tground 0 (f_of 1 (-1)) a b c)].
  Definition spike_mesh (x : Z) : mesh f64 := got mesh_empty (mesh_of_triangles (spike_at x)).
  Theorem C87_mesh_geometric_refuted : reach wheel1 /\
    mesh_of_triangles (spike_at 0) = Ret (spike_mesh 0) /\ mesh_of_triangles (spike_at 8) = Ret (spike_mesh 8) /\
    (exists s, setup_mesh gb0 wheel1 (spike_mesh 0) (at_pose (fz 0) (f_of 1 (-27)) (fz 0)) "geometric" = Exn s RuntimeError) /\
    exists s, setup_mesh gb0 wheel1 (spike_mesh 8) (at_pose (fz 8) (f_of 1 (-27)) (fz 0)) "geometric" = Ok s true.
  Proof.
    split; [exact (r_new _ _ _ _ _ _ _ wheel1_ok)|]. split; [vm_compute; reflexivity|]. split; [vm_compute; reflexivity|]. split.
    - exists (SampleShell.after no_shell (setup_mesh gb0 wheel1 (spike_mesh 0) (at_pose (fz 0) (f_of 1 (-27)) (fz 0)) "geometric")). vm_compute. reflexivity.
    - exists (SampleShell.after no_shell (setup_mesh gb0 wheel1 (spike_mesh 8) (at_pose (fz 8) (f_of 1 (-27)) (fz 0)) "geometric")). vm_compute. reflexivity.
  Qed.
End C87Witness.
Print Assumptions C87_mesh_geometric_refuted.

(** ** C88: turning the wheel about its axle. *)
Theorem C88_flat_geometric : forall r a t gp f gb gb', axial_rib r -> good_rib r -> rigid a -> is_unit (pnormal gp) ->
  exists b o o', envelop_flat gb (frib r) (fflat gp f) (fa a) "geometric" = Ret (b, o) /\
    envelop_flat gb' (frib r) (fflat gp f) (fa (spun a t)) "geometric" = Ret (b, o') /\ (b = true -> o' = o).
Proof.
  intros r a t gp f [[[g0 g1] g2] g3] [[[g0' g1'] g2'] g3'] HX HR HA HG. unfold envelop_flat.
  change (String.eqb "geometric" "geometric") with true. cbn [orb].
  destruct (spun_flat r a t HX HA gp f HR HG) as [[F ->]|[-> ->]].
  - destruct (envelop_geometric_flat (frib r) (fflat gp f) (fa a)) as [b o]. exists b, o, o. auto.
  - unfold envelop_none. do 3 eexists. split; [reflexivity|]. split; [reflexivity|]. discriminate.
Qed.
Print Assumptions C88_flat_geometric.

(** Triangles cut below the axle, before and after the turn. *)
Theorem C88_mesh_geometric : forall r a t gs gb gb', axial_rib r -> good_rib r -> rigid a ->
  (forall g, In g gs -> exists tr f, ground_of tr f g) ->
  (forall g s, In g gs -> int_triangle_disk (tg_tri g) (disk_grd (frib r) (fa a)) neps = Ret (Some (fseg s)) ->
     under_axle r a (sv0 s) /\ under_axle r (spun a t) (sv0 s) /\ under_axle r a (sv1 s) /\ under_axle r (spun a t) (sv1 s)) ->
  (exists e, envelop gb (frib r) gs (fa a) "geometric" = Throw e /\ envelop gb' (frib r) gs (fa (spun a t)) "geometric" = Throw e) \/
  exists b o o', envelop gb (frib r) gs (fa a) "geometric" = Ret (b, o) /\
    envelop gb' (frib r) gs (fa (spun a t)) "geometric" = Ret (b, o') /\ (b = true -> o' = o).
Proof.
  intros r a t gs [[[g0 g1] g2] g3] [[[g0' g1'] g2'] g3'] HX HR HA HG HU. unfold envelop.
  change (String.eqb "geometric" "geometric") with true. cbn [orb].
  destruct (spun_mesh r a t HX HA HR gs HG HU) as [(o & -> & ->)|[[-> ->]|(e & -> & ->)]].
  - right. exists true, o, o. auto.
  - right. unfold envelop_none. do 3 eexists. split; [reflexivity|]. split; [reflexivity|]. discriminate.
  - left. eauto.
Qed.
Print Assumptions C88_mesh_geometric.

Lemma quarter_turn : forall p, in_rib wide (spun stand (- (PI / 2))) p = V (vz p) (vy p) (- vx p).
Proof.
  intros p. rewrite spun_in_rib; [|unfold axial_rib, wide, thin_rib; cbn; auto].
  unfold wide. rewrite stand_in_rib. cbv zeta. rewrite cos_neg, sin_neg, cos_PI2, sin_PI2. f_equal; ring.
Qed.
Lemma wide_axial : axial_rib wide.
Proof. unfold axial_rib, wide, thin_rib. cbn. auto. Qed.
Example C88_example : exists g, axial_rib wide /\ good_rib wide /\ rigid stand /\ ground_of road (1 / 2) g /\
  (forall s, int_triangle_disk (tg_tri g) (disk_grd (frib wide) (fa stand)) neps = Ret (Some (fseg s)) ->
     under_axle wide stand (sv0 s) /\ under_axle wide (spun stand (PI / 6)) (sv0 s) /\
     under_axle wide stand (sv1 s) /\ under_axle wide (spun stand (PI / 6)) (sv1 s)) /\
  exists o, envelop_geometric (frib wide) [g] (fa stand) = Ret (true, fout o) /\ o_point o = V 0 0 (-3 / 5).
Proof.
  destruct (ground_exists road (1 / 2) ltac:(lra)) as [g G]. exists g.
  split; [exact wide_axial|]. split; [exact wide_good|]. split; [exact stand_rigid|]. split; [exact G|]. split.
  - intros s H. pose proof (cut_of 1 road (1 / 2) g _ G road_cut) as CUT. fold wide in CUT. fold road_seg in CUT.
    assert (HS : fseg road_seg = fseg s) by congruence. clear H CUT.
    assert (s = road_seg) as ->.
    { destruct s as [[x y z] [x' y' z']]. unfold fseg, fv, road_seg in HS. cbn [sv0 sv1 vx vy vz] in HS.
      injection HS. intros. unfold road_seg. congruence. }
    assert (S3 : 3 / 2 < sqrt 3) by (rewrite <- (sqrt_square (3 / 2)) by lra; apply sqrt_lt_1_alt; lra).
    assert (U : forall x, under_axle wide (spun stand (PI / 6)) (V x 0 (-3 / 5)) <-> x / 2 - sqrt 3 / 2 * (3 / 5) < 0).
    { intros x. unfold under_axle. rewrite (spun_center wide stand (PI / 6) wide_axial), spun_col2, stand_place, sin_PI6, cos_PI6.
      unfold wide, thin_rib, rb_center, dcenter, stand. cbn [rb_disk dplane porigin lin]. unfold pcol0, pcol2. cbn [m00 m01 m02 m10 m11 m12 m20 m21 m22].
      vunf. split; intros; lra. }
    unfold road_seg. cbn [sv0 sv1]. split; [apply under; lra|]. split; [apply U; lra|]. split; [apply under; lra|apply U; lra].
  - destruct (road_contact _ _ G) as (o & E & _ & P & _). eauto.
Qed.

(** The road under the wheel: depth 2/5. With the wheel turned by a quarter
    of a turn about its axle, the same road gives depth 1, the contact point
    being the center of the rib. *)
Theorem C88_mesh_geometric_refuted : exists r a t tr f g, axial_rib r /\ good_rib r /\ rigid a /\ ground_of tr f g /\
  forall gb, exists o o', envelop gb (frib r) [g] (fa a) "geometric" = Ret (true, fout o) /\
    envelop gb (frib r) [g] (fa (spun a t)) "geometric" = Ret (true, fout o') /\
    o_depth o = 2 / 5 /\ o_depth o' = 1 /\ o_point o' = place a (rb_center r).
Proof.
  destruct (ground_exists road (1 / 2) ltac:(lra)) as [g G]. pose proof eps_small as ES. pose proof eps_pos as EP.
  exists wide, stand, (- (PI / 2)), road, (1 / 2), g. split; [exact wide_axial|]. split; [exact wide_good|]. split; [exact stand_rigid|]. split; [exact G|].
  intros [[[g0 g1] g2] g3]. destruct (road_contact _ _ G) as (o & E & V0 & _ & _ & D & _). exists o.
  set (a' := spun stand (- (PI / 2))).
  assert (ANG : forall x z, ang wide a' (V x 0 z) = ang wide stand (V z 0 (- x))).
  { intros x z. unfold ang, a'. rewrite quarter_turn. unfold wide. rewrite stand_in_rib. reflexivity. }
  assert (HL : hi_ang wide a' road_seg = hi_ang wide stand wall_seg /\ lo_ang wide a' road_seg = lo_ang wide stand wall_seg).
  { unfold hi_ang, lo_ang, road_seg, wall_seg. cbn [sv0 sv1]. rewrite !ANG.
    replace (- (-4 / 5)) with (4 / 5) by field. replace (- (4 / 5)) with (-4 / 5) by field. split; [apply Rmax_comm|apply Rmin_comm]. }
  destruct HL as [EH EL]. destruct wall_half as [HF MD].
  assert (HF' : half_ang wide a' road_seg = half_ang wide stand wall_seg) by (unfold half_ang; now rewrite EH, EL).
  assert (HB : half_ang wide stand wall_seg < PI).
  { pose proof (on_unit_circle (-3 / 5) (-4 / 5) ltac:(lra)) as C0. pose proof (on_unit_circle (-3 / 5) (4 / 5) ltac:(lra)) as C1.
    assert (NE : sv0 wall_seg <> sv1 wall_seg) by (apply ends_differ; right; lra).
    pose proof (chord_angles wide stand wide_good eq_refl stand_rigid wall_seg C0 C1 NE). lra. }
  assert (RC : rad_c wide a' road_seg = 0).
  { unfold rad_c. rewrite HF'. assert (CN : cos (half_ang wide stand wall_seg) <= 0) by (apply cos_le_0; lra).
    assert (RB : forall p, 0 <= rad_at wide a' p) by (intros p; apply rad_bounds; exact wide_good).
    pose proof (RB (sv0 road_seg)). pose proof (RB (sv1 road_seg)).
    set (x := rad_at wide a' (sv0 road_seg)) in *. set (y := rad_at wide a' (sv1 road_seg)) in *.
    rewrite Rmax_left; [apply Rmin_right; change (rb_radius wide) with 1; lra|].
    assert (0 < Rmax eps (x + y)) by (apply Rlt_le_trans with eps; [exact EP|apply Rmax_l]).
    assert (0 <= 2 * x * y / Rmax eps (x + y)) by (apply Rmult_le_pos; [nra|left; now apply Rinv_0_lt_compat]). nra. }
  assert (CP : c_point wide a' road_seg = place stand (rb_center wide)).
  { unfold c_point. rewrite RC. replace (padd _ _) with (rb_center wide) by (apply vec_eq; vunf; ring). apply spun_center, wide_axial. }
  assert (VP : 0 < c_volume wide a' road_seg).
  { assert (VW : c_volume wide a' road_seg = c_volume wide stand wall_seg).
    { unfold c_volume. rewrite HF', EH, EL. unfold road_seg, wall_seg. cbn [sv0 sv1].
      assert (RD : forall x z, rad_at wide a' (V x 0 z) = rad_at wide stand (V z 0 (- x))).
      { intros x z. unfold rad_at, a'. rewrite quarter_turn. unfold wide. rewrite stand_in_rib. reflexivity. }
      rewrite !RD. replace (- (-4 / 5)) with (4 / 5) by field. replace (- (4 / 5)) with (-4 / 5) by field. field. }
    rewrite VW. pose proof (on_unit_circle (-3 / 5) (-4 / 5) ltac:(lra)) as C0. pose proof (on_unit_circle (-3 / 5) (4 / 5) ltac:(lra)) as C1.
    apply chord_volume_pos; auto; [exact wide_good|apply stand_rigid|apply ends_differ; right; lra|unfold wide, thin_rib; cbn; lra]. }
  eexists. split; [exact E|]. split; [|split; [exact D|]].
  - refine (geo_single wide a' g road (1 / 2) road_seg G _ _ _ _).
    + rewrite f_disk. unfold a'. rewrite (spun_disk wide stand _ wide_axial), <- f_disk. apply (cut_of 1 road (1 / 2) g _ G road_cut).
    + unfold dropped. rewrite road_dist. replace (rltb (8 / 5) eps) with false by (symmetry; apply rltb_false; lra). apply andb_false_r.
    + lra.
    + left. rewrite road_area. lra.
  - cbn [o_depth o_point]. rewrite CP. split; [|reflexivity]. unfold a'. rewrite (spun_center wide stand _ wide_axial).
    rewrite (PropertiesGeom.dist_eq _ _ 0); [change (rb_radius wide) with 1; ring|lra|].
    vunf. ring.
Qed.
Print Assumptions C88_mesh_geometric_refuted.

(** Sampling (binary64): turning the wheel by a quarter of a turn about its
    axle loses the contact with the ground half a radius above the rim. *)
Section C88Witness.
  Import F64 SampleShell.
  Definition quarter_spun (z : f64) : affine f64 :=
    Aff (M3 (fz 0) (fz 0) (fz 1) (fz 0) (fz 1) (fz 0) (fz (-1)) (fz 0) (fz 0)) (V (fz 0) (fz 0) z).
  Theorem C88_sampling_refuted : reach wheel1 /\
    (exists s, setup_flat gb0 wheel1 level (at_pose (fz 0) (fz 0) (f_of 1 (-1))) "sampling" = Ok s true /\
       contact_depth_i s 0 = Ret (f_of 1 (-1))) /\
    exists s, setup_flat gb0 wheel1 level (quarter_spun (f_of 1 (-1))) "sampling" = Ok s false /\
       contact_depth_i s 0 = Ret (fz 0).
  Proof.
    split; [exact (r_new _ _ _ _ _ _ _ wheel1_ok)|]. split.
    - exists (SampleShell.after no_shell (setup_flat gb0 wheel1 level (at_pose (fz 0) (fz 0) (f_of 1 (-1))) "sampling")). split; vm_compute; reflexivity.
    - exists (SampleShell.after no_shell (setup_flat gb0 wheel1 level (quarter_spun (f_of 1 (-1))) "sampling")). split; vm_compute; reflexivity.
  Qed.
End C88Witness.
Print Assumptions C88_sampling_refuted.
