(** * C136: the contact point of the geometric method lies on the cuts. *)
From Coq Require Import ZArith Bool Reals Lra String List.
From Verif Require Import Base Num Vec Geom Ground Shape Rib Mesh Shell ER SpecGeom SpecRib SpecShape SpecShell SpecPose SpecAvg SpecFrame SpecRoof SpecHull.
From Verif Require Import ProofGeom ProofMeshGeo ProofMeshEval ProofBisector SampleMeshGeo SampleChord SamplePose SampleRoad.
Import ListNotations.
Local Open Scope R_scope.

(** One triangle: the point is on the segment that the rib cuts out of it, when
    both ends of the segment are in the disk of the rib and under its axle. *)
Theorem C136_cut : forall gb r a g t f s o, good_rib r -> rb_normal r = V 0 1 0 -> rigid a -> ground_of t f g ->
  int_triangle_disk (tg_tri g) (disk_grd (frib r) (fa a)) neps = Ret (Some (fseg s)) -> in_disk (posed_disk r a) (sv0 s) -> in_disk (posed_disk r a) (sv1 s) ->
  pdot (psub (sv0 s) (place a (rb_center r))) (pcol2 (lin a)) <= - eps -> pdot (psub (sv1 s) (place a (rb_center r))) (pcol2 (lin a)) <= - eps ->
  envelop gb (frib r) [g] (fa a) "geometric" = Ret (true, o) -> o_volume o <> Fin 0 ->
  exists k, 0 <= k <= 1 /\ o_point o = fv (padd (pscale k (sv0 s)) (pscale (1 - k) (sv1 s))).
Proof. intros [[[g0 g1] g2] g3]. exact single_cut. Qed.
Print Assumptions C136_cut.

(** Any triangles under the axle: the point is in every slab that holds them. *)
Theorem C136_rib : forall gb r a ts gs o v, good_rib r -> rb_normal r = V 0 1 0 -> rigid a -> grounds ts gs -> below_hub a (rb_center r) ts ->
  envelop gb (frib r) gs (fa a) "geometric" = Ret (true, o) -> o_volume o = Fin v -> v <> 0 ->
  exists p, o_point o = fv p /\ forall u lo hi, (forall t f, In (t, f) ts -> between u lo hi t) -> slab u lo hi p.
Proof. intros [[[g0 g1] g2] g3]. exact geo_slab. Qed.
Print Assumptions C136_rib.

(** The wheel as a whole on a mesh under its axle, when no rib reports an
    undefined friction and the volume is not negligible. *)
Theorem C136_wheel : forall gb sp s m ts a s' b v, real_shell sp s -> rigid a -> grounds ts (me_tris m) -> below_hub a (V 0 0 0) ts ->
  setup_mesh gb s m (fa a) "geometric" = Ok s' b -> (forall i, (i < sh_size s')%nat -> contact_friction_i s' i <> Ret Nan) ->
  contact_volume s' = Ret (Fin v) -> eps <= v ->
  exists p, contact_point s' = Ret (fv p) /\
    forall u lo hi, (forall t f, In (t, f) ts -> between u lo hi t) -> slab u lo hi p.
Proof. exact wheel_geo_slab. Qed.
Print Assumptions C136_wheel.

(** A road 3/5 below the axle of a rib of radius 1. *)
Example C136_example : exists g o, good_rib wide /\ rb_normal wide = V 0 1 0 /\ rigid stand /\ grounds [(road, 1 / 2)] [g] /\
  below_hub stand (rb_center wide) [(road, 1 / 2)] /\
  int_triangle_disk (tg_tri g) (disk_grd (frib wide) (fa stand)) neps = Ret (Some (fseg road_seg)) /\
  in_disk (posed_disk wide stand) (sv0 road_seg) /\ in_disk (posed_disk wide stand) (sv1 road_seg) /\
  (forall gb, envelop gb (frib wide) [g] (fa stand) "geometric" = Ret (true, fout o)) /\ 0 < o_volume o.
Proof.
  pose proof eps_small as ES. destruct (ground_exists road (1 / 2) ltac:(lra)) as [g G]. destruct (road_contact _ _ G) as (o & E & V0 & _).
  exists g, o. split; [exact wide_good|]. split; [reflexivity|]. split; [apply stand_rigid|]. split; [constructor; [exact G|constructor]|]. split.
  { exists (-3 / 5), (-3 / 5). split.
    - intros t f [H|[]]. injection H as <- <-. unfold between, road, plank, pdot, pcol2, stand. cbn. lra.
    - rewrite stand_place. unfold pdot, pcol2, stand, wide, thin_rib, rb_center, dcenter. cbn. lra. }
  split; [apply (cut_of 1 road (1 / 2) g _ G road_cut)|].
  destruct (on_unit_circle (-4 / 5) (-3 / 5) ltac:(lra)) as [P0 D0]. destruct (on_unit_circle (4 / 5) (-3 / 5) ltac:(lra)) as [P1 D1].
  split; [split; [exact P0|apply Req_le; exact D0]|]. split; [split; [exact P1|apply Req_le; exact D1]|].
  split; [intros [[[g0 g1] g2] g3]; exact E|exact V0].
Qed.

(** A wheel on a road of one triangle, loaded from a file. *)
Example C136_wheel_example : exists m s, grounds [(road, 1)] (me_tris m) /\ real_shell round_tire s /\ rigid stand /\ below_hub stand (V 0 0 0) [(road, 1)] /\
  forall gb, exists s' b v, setup_mesh gb s m (fa stand) "geometric" = Ok s' b /\
    (forall i, (i < sh_size s')%nat -> contact_friction_i s' i <> Ret Nan) /\ contact_volume s' = Ret (Fin v) /\ eps <= v.
Proof. exact road_wheel. Qed.

(** Ground beside the axle is outside the claim: the point reported for a wall
    behind the wheel is the center of the rib, not on the wall. *)
Example C136_beside_axle : exists g, good_rib wide /\ rigid stand /\ grounds [(wall, 1 / 2)] [g] /\ between (V 1 0 0) (-3 / 5) (-3 / 5) wall /\
  ~ below_hub stand (rb_center wide) [(wall, 1 / 2)] /\
  forall gb, exists o, envelop gb (frib wide) [g] (fa stand) "geometric" = Ret (true, fout o) /\ ~ slab (V 1 0 0) (-3 / 5) (-3 / 5) (o_point o).
Proof.
  pose proof eps_pos as EP. destruct (ground_exists wall (1 / 2) ltac:(lra)) as [g G]. destruct (wall_contact _ _ G) as (o & E & P & _).
  exists g. split; [exact wide_good|]. split; [apply stand_rigid|]. split; [constructor; [exact G|constructor]|].
  split; [unfold between, wall, plank, pdot; cbn; lra|]. split.
  - intros (l & h & B & H). destruct (B wall (1 / 2) (or_introl eq_refl)) as (B0 & B1 & B2). rewrite stand_place in H.
    unfold pdot, pcol2, stand, wide, thin_rib, rb_center, dcenter, wall, plank in B0, B1, B2, H. cbn in B0, B1, B2, H.
    assert (0 <= eps * (h - l)) by (apply Rmult_le_pos; lra). lra.
  - intros [[[g0 g1] g2] g3]. exists o. split; [exact E|]. rewrite P. unfold slab, pdot. cbn. lra.
Qed.
