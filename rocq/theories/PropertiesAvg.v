(** * Properties of the geometric method on a mesh, of the shell totals and of
    the contact frames (exact arithmetic, ER.v). *)
From Coq Require Import ZArith Bool Reals Lra Lia String List Permutation.
From Verif Require Import Base Num Vec Aabb Geom Ground Shape Rib Str Mesh Shell ER SpecGeom SpecRib SpecShape SpecShell SpecPose SpecAvg.
From Verif Require Import ProofGeom ProofInt ProofTri ProofSegArea ProofFlat ProofShell ProofPose ProofAvg ProofMeshGeo ProofPolar.
From Verif Require Import ProofMeshEval ProofChord ProofSetupData SamplePose SampleMeshGeo SampleChord.
Import ListNotations.
Local Open Scope R_scope.

(** ** C35: totals of a shell that touches nothing. *)
Theorem C35_no_contact_totals : forall gb (s : shell er) m pose method s', reach s ->
  setup_mesh gb s m pose method = Ok s' false ->
  contact_volume s' = Ret (Fin 0) /\ contact_friction s' = Ret (Fin 0) /\ contact_depth s' = Ret (Fin 0).
Proof. exact no_contact_totals. Qed.
Print Assumptions C35_no_contact_totals.

(** ** C48 *)
Theorem C48_mesh_output_bounds : forall gb r a gs o lo hi, good_rib r -> rigid a ->
  (forall g, In g gs -> exists t f, ground_of t f g /\ lo <= f <= hi) ->
  envelop gb (frib r) gs (fa a) "geometric" = Ret (true, o) -> o_volume o <> Fin 0 ->
  exists o', o = fout o' /\ lo <= o_friction o' <= hi /\ 0 <= o_area o' /\ 0 < o_volume o' /\
    0 <= o_depth o' <= rb_radius r /\ o_depth o' = rb_radius r - dist (o_point o') (place a (rb_center r)) /\
    (is_unit (o_normal o') \/ o_normal o' = V 0 0 0).
Proof.
  intros [[[g0 g1] g2] g3] r a gs o lo hi HR HA HG H. exact (geometric_bounds r a HR HA gs o lo hi HG H).
Qed.
Print Assumptions C48_mesh_output_bounds.

(** A unit rib on a road 3/5 below the axle. *)
Example C48_example : good_rib wide /\ rigid stand /\ exists g, ground_of road (1 / 2) g /\
  forall gb, exists o, envelop gb (frib wide) [g] (fa stand) "geometric" = Ret (true, fout o) /\
    0 < o_volume o /\ o_point o = V 0 0 (-3 / 5) /\ o_friction o = 1 / 2 /\ o_depth o = 2 / 5 /\ o_area o = 8 / 5.
Proof.
  split; [exact wide_good|]. split; [exact stand_rigid|].
  destruct (ground_exists road (1 / 2) ltac:(lra)) as [g G]. exists g. split; [exact G|].
  intros [[[g0 g1] g2] g3]. exact (road_contact (1 / 2) g G).
Qed.

(** ** C49: false of the code: a triangle cut in a segment shorter than the
    tolerance makes the method forget the triangles after it. *)
Theorem C49_order_refuted : exists r a gs gs', good_rib r /\ rigid a /\ Permutation gs gs' /\
  (forall g, In g gs -> exists t f, ground_of t f g) /\
  forall gb, exists o o', envelop gb (frib r) gs (fa a) "geometric" = Ret (true, o) /\
    envelop gb (frib r) gs' (fa a) "geometric" = Ret (false, o').
Proof.
  destruct (ground_exists road (1 / 2) ltac:(lra)) as [g G]. destruct (ground_exists chip (1 / 2) ltac:(lra)) as [g' G'].
  exists wide, stand, [g; g'], [g'; g]. split; [exact wide_good|]. split; [exact stand_rigid|]. split; [apply perm_swap|].
  split; [intros x [<-|[<-|[]]]; eauto|].
  intros [[[g0 g1] g2] g3]. destruct (road_contact (1 / 2) g G) as (o & E & _).
  exists (fout o), (snd (envelop_none (frib wide) (fa stand))). split.
  - change (envelop_geometric (frib wide) [g; g'] (fa stand) = Ret (true, fout o)). now rewrite (chip_last g g' (1 / 2) (1 / 2)).
  - change (envelop_geometric (frib wide) [g'; g] (fa stand) = Ret (false, snd (envelop_none (frib wide) (fa stand)))).
    now rewrite (chip_first g' [g] (1 / 2)).
Qed.
Print Assumptions C49_order_refuted.

(** It holds when every triangle is missed or cut in a segment of at least
    the tolerance. *)
Theorem C49_order_clean_cuts : forall gb r a gs gs', Permutation gs gs' ->
  (forall g, In g gs -> (exists t f, ground_of t f g) /\ cut_cleanly (frib r) (fa a) g) ->
  envelop gb (frib r) gs (fa a) "geometric" = envelop gb (frib r) gs' (fa a) "geometric".
Proof. intros [[[g0 g1] g2] g3] r a gs gs' HP H. exact (geometric_order r a gs gs' HP H). Qed.
Print Assumptions C49_order_clean_cuts.

Example C49_example : exists g g', ground_of road (1 / 2) g /\ ground_of wall (1 / 3) g' /\
  cut_cleanly (frib wide) (fa stand) g /\ cut_cleanly (frib wide) (fa stand) g'.
Proof.
  destruct (ground_exists road (1 / 2) ltac:(lra)) as [g G]. destruct (ground_exists wall (1 / 3) ltac:(lra)) as [g' G'].
  exists g, g'. split; [exact G|]. split; [exact G'|]. pose proof SampleMeshGeo.eps_small.
  split; right; eexists; (split; [eapply (cut_of 1); [eassumption|first [apply road_cut|apply wall_cut]]|]);
    cbn [sv0 sv1]; (replace (dist _ _) with (8 / 5); [lra|]); symmetry; unfold dist; (apply pnorm_eq; [lra|]); vunf; field.
Qed.

(** ** C50: false of the code: a step edge pointing at the axle is cut in a
    radial segment; contact is reported with undefined data. *)
Theorem C50_finite_refuted : exists r a gs, good_rib r /\ rigid a /\ (forall g, In g gs -> exists t f, ground_of t f g) /\
  forall gb, exists o, envelop gb (frib r) gs (fa a) "geometric" = Ret (true, o) /\
    o_point o = V Nan Nan Nan /\ o_friction o = Nan /\ o_depth o = Nan.
Proof.
  destruct (ground_exists step (1 / 2) ltac:(lra)) as [g G]. exists wide, stand, [g].
  split; [exact wide_good|]. split; [exact stand_rigid|]. split; [intros x [<-|[]]; eauto|].
  intros [[[g0 g1] g2] g3]. destruct (step_contact (1 / 2) g G) as (o & E & _ & H). exists o. split; [exact E|exact H].
Qed.
Print Assumptions C50_finite_refuted.

(** That is the only way: the data are all numbers, or the volume is 0. *)
Theorem C50_finite_or_no_volume : forall gb r a gs o, good_rib r -> rigid a ->
  (forall g, In g gs -> exists t f, ground_of t f g) ->
  envelop gb (frib r) gs (fa a) "geometric" = Ret (true, o) ->
  (exists o', o = fout o') \/
  (o_volume o = Fin 0 /\ o_point o = V Nan Nan Nan /\ o_friction o = Nan /\ o_depth o = Nan).
Proof. intros [[[g0 g1] g2] g3] r a gs o HR HA HG H. exact (geometric_data r a HR HA gs o HG H). Qed.
Print Assumptions C50_finite_or_no_volume.

Example C50_example : exists g, (forall x, In x [g] -> exists t f, ground_of t f x) /\
  forall gb, exists o, envelop gb (frib wide) [g] (fa stand) "geometric" = Ret (true, fout o).
Proof.
  destruct C48_example as (_ & _ & g & G & H). exists g. split; [intros x [<-|[]]; eauto|].
  intros gb. destruct (H gb) as (o & E & _). eauto.
Qed.

(** ** C55.  A rib matters when it has volume, or when no rib has. *)
Definition matters (os : list (output R)) (o : output R) : Prop :=
  In o os /\ (total o_volume os < eps \/ 0 < o_volume o).

Theorem C55_volume_is_sum : forall s os, rib_data s os -> contact_volume s = Ret (Fin (total o_volume os)).
Proof. exact total_volume. Qed.
Print Assumptions C55_volume_is_sum.

Theorem C55_friction_between : forall s os lo hi, rib_data s os -> (0 < sh_size s)%nat ->
  (forall o, In o os -> 0 <= o_volume o) -> (forall o, matters os o -> lo <= o_friction o <= hi) ->
  exists f, contact_friction s = Ret (Fin f) /\ lo <= f <= hi.
Proof. intros s os lo hi HD HN HV. exact (friction_bounds s os HD HN HV lo hi). Qed.
Print Assumptions C55_friction_between.

Theorem C55_depth_between : forall s os lo hi, rib_data s os -> (0 < sh_size s)%nat ->
  (forall o, In o os -> 0 <= o_volume o) -> eps <= total o_volume os ->
  (forall o, In o os -> 0 < o_volume o -> lo <= o_depth o <= hi) ->
  exists d, contact_depth s = Ret (Fin d) /\ lo <= d <= hi.
Proof. intros s os lo hi HD HN HV. exact (depth_bounds s os HD HN HV lo hi). Qed.
Print Assumptions C55_depth_between.

(** The contact point is in every half space that contains the points of the
    ribs that matter, hence in their convex hull. *)
Theorem C55_point_in_hull : forall s os, rib_data s os -> (0 < sh_size s)%nat ->
  (forall o, In o os -> 0 <= o_volume o) ->
  exists p, contact_point s = Ret (fv p) /\
    forall u c, (forall o, matters os o -> c <= pdot u (o_point o)) -> c <= pdot u p.
Proof. exact point_hull. Qed.
Print Assumptions C55_point_in_hull.

(** The total normal is a unit vector on the same side as the rib normals. *)
Theorem C55_normal_side : forall s os u c, rib_data s os -> (0 < sh_size s)%nat ->
  (forall o, In o os -> 0 <= o_volume o) -> 0 < c -> is_unit u ->
  (forall o, matters os o -> c <= pdot u (o_normal o)) -> (forall o, matters os o -> is_unit (o_normal o)) ->
  exists n, contact_normal s = Ret (fv n) /\ is_unit n /\ c <= pdot u n.
Proof. intros s os u c HD HN HV. exact (normal_side s os HD HN HV u c). Qed.
Print Assumptions C55_normal_side.

(** The hypotheses hold after every geometric setup on flat ground. *)
Theorem C55_flat_setup_data : forall gb sp s gp f a s' b, real_shell sp s -> rigid a -> is_unit (pnormal gp) ->
  setup_flat gb s (fflat gp f) (fa a) "geometric" = Ok s' b ->
  exists os, rib_data s' os /\ (0 < sh_size s')%nat /\
    forall o, In o os -> 0 <= o_volume o /\ 0 <= o_area o /\ is_unit (o_normal o) /\
      ((o_friction o = f /\ o_normal o = pnormal gp /\ 0 < o_depth o) \/
       (o_friction o = 0 /\ o_volume o = 0 /\ o_area o = 0 /\ o_depth o = 0 /\
        o_normal o = papply (lin a) (V 0 0 1))).
Proof. exact flat_setup_data. Qed.
Print Assumptions C55_flat_setup_data.

Example C55_example : exists s, real_shell round_tire s /\ rigid upright /\ is_unit (V 0 0 1) /\
  forall gb, exists s' b, setup_flat gb s (fflat (Plane (V 0 0 (- (1 / 2))) (V 0 0 1)) (3 / 4)) (fa upright) "geometric" = Ok s' b /\
    exists o, rib_data s' [o] /\ o_friction o = 3 / 4 /\ 0 < o_depth o.
Proof.
  destruct one_slice as (s & RS & S1 & RB). exists s. split; [exact RS|]. split; [apply upright_rigid|]. split; [vunf; ring|].
  intros gb. set (gp := Plane (V 0 0 (- (1 / 2))) (V 0 0 1)).
  assert (U : is_unit (pnormal gp)) by (unfold gp; cbn [pnormal]; vunf; ring).
  destruct (setup_flat_returns gb s (fflat gp (3 / 4)) (fa upright)) as (s' & b & E); [apply RS|lia|].
  exists s', b. split; [exact E|].
  destruct (flat_setup_data gb round_tire s gp (3 / 4) upright s' b RS upright_rigid U E) as (os & RD & _ & HO).
  destruct (setup_flat_reports _ _ _ _ _ _ _ E) as (RB' & _ & flags & LF & HR & _).
  assert (L1 : sh_size s' = 1%nat) by (unfold sh_size in *; rewrite RB'; exact S1).
  destruct os as [|o [|o' os]]; [destruct RD as [L _]; rewrite L1 in L; discriminate| |destruct RD as [L _]; rewrite L1 in L; discriminate].
  exists o. split; [exact RD|].
  destruct flags as [|c flags]; [rewrite L1 in LF; discriminate|].
  destruct (HR 0%nat c eq_refl) as (x & ox & NX & EF & EO). rewrite RB', RB, mid_slices in NX. cbn in NX.
  assert (EX : x = frib mid_rib) by congruence. subst x.
  assert (C : c = true).
  { destruct (gb 0%nat) as [[[g0 g1] g2] g3].
    assert (GR : good_rib mid_rib).
    { apply (has_rib_axial round_tire s 0 mid_rib); auto. unfold has_rib, rib_at. rewrite RB, mid_slices. reflexivity. }
    assert (EE : envelop_geometric_flat (frib mid_rib) (fflat gp (3 / 4)) (fa upright) = (c, ox)) by (cbn in EF; congruence).
    replace c with (fst (envelop_geometric_flat (frib mid_rib) (fflat gp (3 / 4)) (fa upright))) by now rewrite EE.
    apply (proj2 (flat_contact_iff mid_rib upright gp (3 / 4) GR upright_rigid U)).
    pose proof SampleMeshGeo.eps_small. pose proof eps_pos.
    assert (S : sin2 (pnormal gp) (papply (lin upright) (rb_normal mid_rib)) = 1).
    { change (rb_normal mid_rib) with (V 0 1 0 : pt). unfold sin2, upright, gp, papply. cbn. vunf. ring. }
    rewrite S, mid_radius. unfold center_height. rewrite mid_center.
    replace (pdot (psub (place upright (V 0 0 0)) (porigin gp)) (pnormal gp)) with (1 / 2)
      by (unfold place, upright, gp, papply; cbn; vunf; field).
    lra. }
  subst c. destruct (HO o (or_introl eq_refl)) as (_ & _ & _ & [[F [_ D]]|(F & _ & _ & D & _)]); [auto|exfalso].
  (* a contact has a positive depth *)
  destruct RD as [_ RD]. destruct (RD 0%nat o eq_refl) as (_ & _ & _ & ED & _). unfold contact_depth_i in ED. rewrite EO in ED. cbn [obind] in ED.
  destruct (gb 0%nat) as [[[g0 g1] g2] g3].
  assert (EE : envelop_geometric_flat (frib mid_rib) (fflat gp (3 / 4)) (fa upright) = (true, ox)) by (cbn in EF; congruence).
  assert (GR : good_rib mid_rib).
  { apply (has_rib_axial round_tire s 0 mid_rib); auto. unfold has_rib, rib_at. rewrite RB, mid_slices. reflexivity. }
  destruct (flat_contact mid_rib upright gp (3 / 4) GR upright_rigid U ox EE) as (p & _ & _ & _ & _ & _ & DP & BD & _).
  assert (X : rb_radius mid_rib - dist p (place upright (rb_center mid_rib)) = o_depth o) by congruence. lra.
Qed.

(** ** C59 *)
Theorem C59_rib_frame : forall s a i p n, sh_affine s = fa a ->
  contact_point_i s i = Ret (fv p) -> contact_normal_i s i = Ret (fv n) -> is_unit n -> pcross (pcol1 (lin a)) n <> V 0 0 0 ->
  exists A, contact_affine_i s i = Ret (fa A) /\ frame_of (pcol1 (lin a)) p n A.
Proof. exact affine_i_frame. Qed.
Print Assumptions C59_rib_frame.

Theorem C59_total_frame : forall s a p n, sh_affine s = fa a ->
  contact_point s = Ret (fv p) -> contact_normal s = Ret (fv n) -> is_unit n -> pcross (pcol1 (lin a)) n <> V 0 0 0 ->
  exists A, contact_affine s = Ret (fa A) /\ frame_of (pcol1 (lin a)) p n A.
Proof. exact affine_frame. Qed.
Print Assumptions C59_total_frame.

Example C59_example : exists s, real_shell round_tire s /\
  forall gb, exists s' b p, setup_flat gb s (fflat (Plane (V 0 0 (- (1 / 2))) (V 0 0 1)) (3 / 4)) (fa upright) "geometric" = Ok s' b /\
    sh_affine s' = fa upright /\ contact_point s' = Ret (fv p) /\ contact_normal s' = Ret (fv (V 0 0 1)) /\
    pcross (pcol1 (lin upright)) (V 0 0 1) <> V 0 0 0.
Proof.
  destruct one_slice as (s & RS & S1 & RB). exists s. split; [exact RS|].
  intros gb. set (gp := Plane (V 0 0 (- (1 / 2))) (V 0 0 1)).
  assert (U : is_unit (pnormal gp)) by (unfold gp; cbn [pnormal]; vunf; ring).
  destruct (setup_flat_returns gb s (fflat gp (3 / 4)) (fa upright)) as (s' & b & E); [apply RS|lia|].
  destruct (flat_setup_data gb round_tire s gp (3 / 4) upright s' b RS upright_rigid U E) as (os & RD & HN & HO).
  destruct (point_hull s' os RD HN) as (p & EP & _); [intros o Ho; apply HO; auto|].
  exists s', b, p. split; [exact E|]. split; [eapply setup_flat_pose; eassumption|]. split; [exact EP|]. split.
  - assert (UP : papply (lin upright) (V 0 0 1) = V 0 0 1) by (unfold upright; apply vec_eq; cbn; ring).
    assert (NZ : forall o, In o os -> o_normal o = V 0 0 1).
    { intros o Ho. destruct (HO o Ho) as (_ & _ & _ & [(_ & H & _)|(_ & _ & _ & _ & H)]); rewrite H; auto. }
    destruct (normal_side s' os RD HN) with (u := V 0 0 1 : pt) (c := 1) as (n & EN & NU & NS); try lra.
    + intros o Ho. now apply HO.
    + vunf. ring.
    + intros o [Ho _]. rewrite (NZ o Ho). vunf. lra.
    + intros o [Ho _]. rewrite (NZ o Ho). vunf. ring.
    + rewrite EN. do 2 f_equal. destruct n as [x y z]. unfold is_unit, pdot in *. cbn [vx vy vz] in *. apply vec_eq; cbn; nra.
  - unfold upright, pcol1. cbn. intros H. apply (f_equal vx) in H. cbn in H. lra.
Qed.

(** ** C66: one triangle cut in a full chord against the flat ground. *)
Theorem C66_mesh_matches_flat : forall gb r a gp f t g s o, good_rib r -> rb_normal r = V 0 1 0 -> rigid a ->
  is_unit (pnormal gp) -> ground_of t f g -> lies_in t gp ->
  int_triangle_disk (tg_tri g) (disk_grd (frib r) (fa a)) neps = Ret (Some (fseg s)) ->
  on_circle (posed_disk r a) (sv0 s) -> on_circle (posed_disk r a) (sv1 s) -> sv0 s <> sv1 s ->
  under_axle r a (sv0 s) -> under_axle r a (sv1 s) ->
  envelop_flat gb (frib r) (fflat gp f) (fa a) "geometric" = Ret (true, fout o) -> eps < o_area o ->
  exists n, envelop gb (frib r) [g] (fa a) "geometric" = Ret (true, fout
    (Output (o_point o) n (o_friction o) (o_depth o) (o_area o) (o_volume o))).
Proof.
  intros [[[g0 g1] g2] g3] r a gp f t g s o HR HN HA HG Hg HT HS H0 H1 HNE B0 B1 HF HE. eexists.
  refine (mesh_eval r a gp f HR HN HA HG t g s o Hg HT HS H0 H1 B0 B1 _ HE HNE). cbn in HF. congruence.
Qed.
Print Assumptions C66_mesh_matches_flat.

(** The normal too when the rib is perpendicular to the ground and its center
    above the ground. *)
Theorem C66_mesh_equals_flat : forall gb r a gp f t g s o, good_rib r -> rb_normal r = V 0 1 0 -> rigid a ->
  is_unit (pnormal gp) -> ground_of t f g -> lies_in t gp ->
  int_triangle_disk (tg_tri g) (disk_grd (frib r) (fa a)) neps = Ret (Some (fseg s)) ->
  on_circle (posed_disk r a) (sv0 s) -> on_circle (posed_disk r a) (sv1 s) -> sv0 s <> sv1 s ->
  under_axle r a (sv0 s) -> under_axle r a (sv1 s) ->
  pdot (pnormal gp) (papply (lin a) (rb_normal r)) = 0 -> 0 < center_height r a gp -> tg_normal g = fv (pnormal gp) ->
  envelop_flat gb (frib r) (fflat gp f) (fa a) "geometric" = Ret (true, fout o) -> eps < o_area o ->
  envelop gb (frib r) [g] (fa a) "geometric" = Ret (true, fout o).
Proof.
  intros [[[g0 g1] g2] g3] r a gp f t g s o HR HN HA HG Hg HT HS H0 H1 HNE B0 B1 HP HH HU HF HE.
  refine (mesh_equals_flat r a gp f HR HN HA HG t g s o Hg HT HS H0 H1 B0 B1 _ HE HNE HP HH _); [cbn in HF; congruence|].
  destruct (ground_of_fields _ _ _ Hg) as (_ & _ & EN & _). apply fv_inj. congruence.
Qed.
Print Assumptions C66_mesh_equals_flat.

Example C66_example : exists g o, ground_of road (1 / 2) g /\ lies_in road (Plane (V 0 0 (-3 / 5)) (V 0 0 1)) /\
  int_triangle_disk (tg_tri g) (disk_grd (frib wide) (fa stand)) neps = Ret (Some (fseg road_seg)) /\
  on_circle (posed_disk wide stand) (sv0 road_seg) /\ on_circle (posed_disk wide stand) (sv1 road_seg) /\
  under_axle wide stand (sv0 road_seg) /\ under_axle wide stand (sv1 road_seg) /\
  pdot (V 0 0 1) (papply (lin stand) (rb_normal wide)) = 0 /\ 0 < center_height wide stand (Plane (V 0 0 (-3 / 5)) (V 0 0 1)) /\
  tg_normal g = fv (V 0 0 1) /\ eps < o_area o /\
  forall gb, envelop_flat gb (frib wide) (fflat (Plane (V 0 0 (-3 / 5)) (V 0 0 1)) (1 / 2)) (fa stand) "geometric" = Ret (true, fout o).
Proof.
  destruct (ground_exists road (1 / 2) ltac:(lra)) as [g G]. set (gp := Plane (V 0 0 (-3 / 5)) (V 0 0 1)).
  assert (U : is_unit (pnormal gp)) by (unfold gp; cbn [pnormal]; vunf; ring).
  pose proof SampleMeshGeo.eps_small as ES. pose proof eps_pos as EP.
  assert (S2 : sin2 (pnormal gp) (papply (lin stand) (rb_normal wide)) = 1).
  { rewrite stand_apply. change (rb_normal wide) with (V 0 1 0 : pt). unfold sin2, gp. cbn [pnormal]. vunf. ring. }
  assert (CH : center_height wide stand gp = 3 / 5).
  { unfold center_height. rewrite stand_place. unfold wide, thin_rib, rb_center, dcenter, gp. cbn [rb_disk dplane porigin pnormal]. vunf. field. }
  destruct (flat_real wide stand gp (1 / 2) wide_good stand_rigid U) as (b & o & E & _).
  assert (B : b = true).
  { replace b with (fst (envelop_geometric_flat (frib wide) (fflat gp (1 / 2)) (fa stand))) by now rewrite E.
    apply (flat_contact_iff wide stand gp (1 / 2) wide_good stand_rigid U). rewrite S2, CH. change (rb_radius wide) with 1. lra. }
  subst b. exists g, o. split; [exact G|]. split.
  { unfold lies_in, on_plane, road, plank, gp. cbn [tv0 tv1 tv2 porigin pnormal]. repeat split; vunf; field. }
  split; [apply (cut_of 1 road (1 / 2) g _ G road_cut)|].
  split; [apply on_unit_circle; lra|]. split; [apply on_unit_circle; lra|]. split; [apply under; lra|]. split; [apply under; lra|].
  split; [rewrite stand_apply; change (rb_normal wide) with (V 0 1 0 : pt); vunf; ring|]. split; [rewrite CH; lra|].
  split.
  { destruct (ground_of_fields _ _ _ G) as (_ & _ & -> & _). f_equal. unfold up_normal, road. rewrite plank_normal by lra. cbn [vz].
    replace (rltb 1 0) with false by (symmetry; apply rltb_false; lra). f_equal; ring. }
  split.
  - destruct (flat_contact wide stand gp (1 / 2) wide_good stand_rigid U _ E) as (p & P1 & P2 & P3 & P4 & _ & P6 & P7 & P8 & _).
    cbn [fout o_area] in P8. assert (X : o_area o = chord (rb_radius wide) (rb_radius wide - dist p (place stand (rb_center wide))) * rb_width wide) by congruence.
    rewrite X. set (c := place stand (rb_center wide)) in *. change (rb_radius wide) with 1. change (rb_width wide) with 1. rewrite Rmult_1_r.
    assert (DC : dist p c <= 3 / 5).
    { apply Rle_trans with (dist (V 0 0 (-3 / 5)) c).
      - apply P4; [unfold on_plane, gp; cbn; vunf; ring|]. unfold on_plane, posed_disk. cbn [dplane porigin pnormal]. rewrite stand_place, stand_apply.
        change (rb_normal wide) with (V 0 1 0 : pt). unfold wide, thin_rib, rb_center, dcenter. cbn. vunf. ring.
      - unfold dist. apply pnorm_le; [lra|]. unfold c. rewrite stand_place. unfold wide, thin_rib, rb_center, dcenter. cbn. vunf. lra. }
    pose proof (pnorm_nonneg (psub p c)) as N. fold (dist p c) in N. unfold chord.
    assert (Q : 4 / 5 <= sqrt (1 * 1 - (1 - (1 - dist p c)) * (1 - (1 - dist p c)))).
    { rewrite <- (sqrt_square (4 / 5)) by lra. apply sqrt_le_1_alt. nra. }
    lra.
  - intros [[[g0 g1] g2] g3]. cbn. now rewrite E.
Qed.

(** False without "under the axle": for a wall behind the wheel the mesh
    method puts the contact point at the axle and reports a full radius of
    depth; the flat method reports 2/5. *)
Theorem C66_wall_behind_refuted : exists r a gp f t g s, good_rib r /\ rb_normal r = V 0 1 0 /\ rigid a /\
  is_unit (pnormal gp) /\ ground_of t f g /\ lies_in t gp /\ tg_normal g = fv (pnormal gp) /\
  int_triangle_disk (tg_tri g) (disk_grd (frib r) (fa a)) neps = Ret (Some (fseg s)) /\
  on_circle (posed_disk r a) (sv0 s) /\ on_circle (posed_disk r a) (sv1 s) /\ sv0 s <> sv1 s /\
  pdot (pnormal gp) (papply (lin a) (rb_normal r)) = 0 /\
  forall gb, exists o o', envelop gb (frib r) [g] (fa a) "geometric" = Ret (true, o) /\ o_depth o = Fin 1 /\
    envelop_flat gb (frib r) (fflat gp f) (fa a) "geometric" = Ret (true, o') /\ o_depth o' = Fin (2 / 5).
Proof.
  destruct (ground_exists wall (1 / 2) ltac:(lra)) as [g G]. pose proof SampleMeshGeo.eps_small as ES. pose proof eps_pos as EP.
  assert (U : is_unit (pnormal wall_plane)) by (unfold wall_plane; cbn [pnormal]; vunf; ring).
  exists wide, stand, wall_plane, (1 / 2), wall, g, wall_seg.
  split; [exact wide_good|]. split; [reflexivity|]. split; [exact stand_rigid|]. split; [exact U|]. split; [exact G|].
  split. { unfold lies_in, on_plane, wall, plank, wall_plane. cbn [tv0 tv1 tv2 porigin pnormal]. repeat split; vunf; field. }
  split. { destruct (ground_of_fields _ _ _ G) as (_ & _ & -> & _). now rewrite wall_up. }
  split; [apply (cut_of 1 wall (1 / 2) g _ G wall_cut)|].
  split; [apply on_unit_circle; lra|]. split; [apply on_unit_circle; lra|]. split; [apply ends_differ; right; lra|].
  split. { rewrite stand_apply. change (rb_normal wide) with (V 0 1 0 : pt). unfold wall_plane. cbn [pnormal]. vunf. ring. }
  intros [[[g0 g1] g2] g3]. destruct (wall_contact (1 / 2) g G) as (o & E & _ & DE & _).
  exists (fout o). 
  assert (S2 : sin2 (pnormal wall_plane) (papply (lin stand) (rb_normal wide)) = 1).
  { rewrite stand_apply. change (rb_normal wide) with (V 0 1 0 : pt). unfold sin2, wall_plane. cbn [pnormal]. vunf. ring. }
  assert (CH : center_height wide stand wall_plane = - (3 / 5)).
  { unfold center_height. rewrite stand_place. unfold wide, thin_rib, rb_center, dcenter, wall_plane. cbn [rb_disk dplane porigin pnormal]. vunf. field. }
  destruct (flat_real wide stand wall_plane (1 / 2) wide_good stand_rigid U) as (b & o' & E' & _).
  assert (B : b = true).
  { replace b with (fst (envelop_geometric_flat (frib wide) (fflat wall_plane (1 / 2)) (fa stand))) by now rewrite E'.
    apply (flat_contact_iff wide stand wall_plane (1 / 2) wide_good stand_rigid U). rewrite S2, CH. change (rb_radius wide) with 1. lra. }
  subst b. exists (fout o'). split; [exact E|]. split; [cbn [fout o_depth]; now rewrite DE|].
  split; [cbn; now rewrite E'|].
  destruct (flat_contact wide stand wall_plane (1 / 2) wide_good stand_rigid U _ E') as (p & _ & P2 & _ & P4 & _ & P6 & _).
  rewrite P6. f_equal. set (c := place stand (rb_center wide)) in *. change (rb_radius wide) with 1.
  assert (C : c = V 0 0 0) by (unfold c; rewrite stand_place; reflexivity).
  replace (dist p c) with (3 / 5); [field|]. apply Rle_antisym.
  - unfold on_plane, wall_plane in P2. cbn [porigin pnormal] in P2. 
    assert (X : vx p = -3 / 5) by (vunf; lra).
    rewrite <- (sqrt_square (3 / 5)) by lra. unfold dist, pnorm. apply sqrt_le_1_alt. rewrite C. vunf. rewrite X. nra.
  - apply Rle_trans with (dist (V (-3 / 5) 0 0) c).
    + apply P4; [unfold on_plane, wall_plane; cbn; vunf; ring|]. unfold on_plane, posed_disk. cbn [dplane porigin pnormal]. rewrite stand_place, stand_apply.
      change (rb_normal wide) with (V 0 1 0 : pt). unfold wide, thin_rib, rb_center, dcenter. cbn. vunf. ring.
    + unfold dist. apply pnorm_le; [lra|]. rewrite C. vunf. lra.
Qed.
Print Assumptions C66_wall_behind_refuted.
