(** * C137: the depth is at most how far the wheel reaches below the ground. *)
From Coq Require Import ZArith Bool Reals Lra String List.
From Verif Require Import Base Num Vec Geom Ground Shape Rib Mesh Shell ER SpecGeom SpecRib SpecShape SpecShell SpecPose SpecAvg SpecFrame SpecRoof SpecHull.
From Verif Require SpecSmooth.
From Verif Require Import ProofReach SampleMeshGeo SampleChord SamplePose SampleRoad SpecPaved SamplePaved SampleTerrainFloor.
Import ListNotations.
Local Open Scope R_scope.

(** Seen along any direction [u], the depth a rib reports is at most how far the
    ball of its radius reaches beyond the highest ground. *)
Theorem C137_rib : forall gb r a ts gs o v u lo hi, good_rib r -> rb_normal r = V 0 1 0 -> rigid a -> grounds ts gs -> below_hub a (rb_center r) ts ->
  envelop gb (frib r) gs (fa a) "geometric" = Ret (true, o) -> o_volume o = Fin v -> v <> 0 ->
  is_unit u -> (forall t f, In (t, f) ts -> between u lo hi t) ->
  exists d, o_depth o = Fin d /\ d <= rb_radius r - (pdot u (place a (rb_center r)) - (hi + 3 * eps * (hi - lo))).
Proof. intros [[[g0 g1] g2] g3]. exact geo_depth. Qed.
Print Assumptions C137_rib.

(** The wheel: with its axle at least [k] over the highest ground, the depth is
    at most the radius less [k]. *)
Theorem C137_wheel : forall gb sp s m ts a s' b v u lo hi k, real_shell sp s -> rigid a -> grounds ts (me_tris m) -> below_hub a (V 0 0 0) ts ->
  setup_mesh gb s m (fa a) "geometric" = Ok s' b -> (forall i, (i < sh_size s')%nat -> contact_friction_i s' i <> Ret Nan) ->
  contact_volume s' = Ret (Fin v) -> eps <= v ->
  is_unit u -> (forall t f, In (t, f) ts -> between u lo hi t) ->
  (forall y, Rabs y <= sLy sp -> hi + 3 * eps * (hi - lo) + k <= pdot u (place a (V 0 y 0))) ->
  exists d, contact_depth s' = Ret (Fin d) /\ 0 <= d <= sRx sp - k.
Proof. exact wheel_geo_depth. Qed.
Print Assumptions C137_wheel.

(** With the sampling method the ground may lie anywhere. *)
Theorem C137_sampling_rib : forall gb r a ts gs o u lo hi, good_rib r -> rigid a -> grounds ts gs ->
  envelop gb (frib r) gs (fa a) "sampling" = Ret (true, o) -> is_unit u -> (forall t f, In (t, f) ts -> between u lo hi t) ->
  exists d, o_depth o = Fin d /\ d <= rb_radius r - (pdot u (place a (rb_center r)) - (hi + 3 * eps * (hi - lo))).
Proof. exact sam_depth. Qed.
Print Assumptions C137_sampling_rib.

Theorem C137_sampling_wheel : forall gb sp s m ts a s' b v u lo hi k, real_shell sp s -> rigid a -> grounds ts (me_tris m) ->
  setup_mesh gb s m (fa a) "sampling" = Ok s' b -> contact_volume s' = Ret (Fin v) -> eps <= v ->
  is_unit u -> (forall t f, In (t, f) ts -> between u lo hi t) ->
  (forall y, Rabs y <= sLy sp -> hi + 3 * eps * (hi - lo) + k <= pdot u (place a (V 0 y 0))) ->
  exists d, contact_depth s' = Ret (Fin d) /\ 0 <= d <= sRx sp - k.
Proof. exact wheel_sam_depth. Qed.
Print Assumptions C137_sampling_wheel.

(** A road 3/5 below the axle of a rib of radius 1: the depth is exactly the
    bound. *)
Example C137_rib_example : exists g o, good_rib wide /\ rb_normal wide = V 0 1 0 /\ rigid stand /\ grounds [(road, 1 / 2)] [g] /\
  below_hub stand (rb_center wide) [(road, 1 / 2)] /\ is_unit (V 0 0 1) /\ between (V 0 0 1) (-3 / 5) (-3 / 5) road /\
  (forall gb, envelop gb (frib wide) [g] (fa stand) "geometric" = Ret (true, fout o)) /\ 0 < o_volume o /\
  o_depth o = rb_radius wide - (pdot (V 0 0 1) (place stand (rb_center wide)) - (-3 / 5)).
Proof.
  pose proof eps_small as ES. destruct (ground_exists road (1 / 2) ltac:(lra)) as [g G]. destruct (road_contact _ _ G) as (o & E & V0 & _ & _ & D & _).
  exists g, o. split; [exact wide_good|]. split; [reflexivity|]. split; [apply stand_rigid|]. split; [constructor; [exact G|constructor]|]. split.
  { exists (-3 / 5), (-3 / 5). split.
    - intros t f [H|[]]. injection H as <- <-. unfold between, road, plank, pdot, pcol2, stand. cbn. lra.
    - rewrite stand_place. unfold pdot, pcol2, stand, wide, thin_rib, rb_center, dcenter. cbn. lra. }
  split; [unfold is_unit, pdot; cbn; lra|]. split; [unfold between, road, plank, pdot; cbn; lra|].
  split; [intros [[[g0 g1] g2] g3]; exact E|]. split; [exact V0|]. rewrite D, stand_place.
  unfold wide, thin_rib, rb_radius, rb_center, dcenter, pdot. cbn. lra.
Qed.

(** A wheel of radius 1 with its axle 3/5 over a road loaded from a file. *)
Example C137_wheel_example : exists m s, grounds [(road, 1)] (me_tris m) /\ real_shell round_tire s /\ rigid stand /\ below_hub stand (V 0 0 0) [(road, 1)] /\
  is_unit (V 0 0 1) /\ between (V 0 0 1) (-3 / 5) (-3 / 5) road /\
  (forall y, Rabs y <= sLy round_tire -> -3 / 5 + 3 * eps * (-3 / 5 - -3 / 5) + 3 / 5 <= pdot (V 0 0 1) (place stand (V 0 y 0))) /\
  forall gb, exists s' b v, setup_mesh gb s m (fa stand) "geometric" = Ok s' b /\
    (forall i, (i < sh_size s')%nat -> contact_friction_i s' i <> Ret Nan) /\ contact_volume s' = Ret (Fin v) /\ eps <= v.
Proof.
  destruct road_wheel as (m & s & A & B & C & D & E). exists m, s. repeat (split; [assumption|]).
  split; [unfold is_unit, pdot; cbn; lra|]. split; [unfold between, road, plank, pdot; cbn; lra|]. split; [|exact E].
  intros y _. rewrite stand_place. unfold pdot. cbn. lra.
Qed.

(** A wheel of radius 1 with its axle 1/2 over a floor of two triangles. *)
Example C137_sampling_example : exists m s, grounds floor_tris (me_tris m) /\ real_shell round_tire s /\ rigid on_floor /\
  is_unit (V 0 0 1) /\ (forall t f, In (t, f) floor_tris -> between (V 0 0 1) 0 0 t) /\
  (forall y, Rabs y <= sLy round_tire -> 0 + 3 * eps * (0 - 0) + 1 / 2 <= pdot (V 0 0 1) (place on_floor (V 0 y 0))) /\
  forall gb, exists s' b v, setup_mesh gb s m (fa on_floor) "sampling" = Ok s' b /\ contact_volume s' = Ret (Fin v) /\ eps <= v.
Proof.
  destruct floor_heavy as (m & s & A & B & C & D). exists m, s. repeat (split; [assumption|]).
  split; [unfold is_unit, pdot; cbn; lra|]. split; [|split; [|exact D]].
  - intros t f [H|[H|[]]]; injection H as <- <-; unfold between, floor_one, floor_two, pdot; cbn; lra.
  - intros y _. unfold on_floor, SpecSmooth.moved_by, upright, place, pdot, papply, padd. cbn. lra.
Qed.
