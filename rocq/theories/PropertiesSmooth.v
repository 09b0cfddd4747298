(** * C118: contact with flat ground at neighbouring places. *)
From Coq Require Import ZArith Bool Reals Lra Lia String List.
From Verif Require Import Base Num Vec Geom Ground Rib Shell ER SpecGeom SpecRib SpecShell SpecAvg Shape SpecShape SpecPose ProofGeom ProofSegArea SpecSmooth
  ProofSmooth.
Import ListNotations.
Local Open Scope R_scope.

(** The depth of the geometric method, from the height of the rib center over
    the ground and the angle between rib and ground. *)
Theorem C118_geometric : forall gb r a gp f o, good_rib r -> rigid a -> is_unit (pnormal gp) ->
  envelop_flat gb (frib r) (fflat gp f) (fa a) "geometric" = Ret (true, o) ->
  o_depth o = Fin (rb_radius r - Rabs (center_height r a gp) / sqrt (sin2 (pnormal gp) (papply (lin a) (rb_normal r)))).
Proof. exact geometric_value. Qed.
Print Assumptions C118_geometric.

(** The sampling method: exactly when there is contact, the point and the
    depth. *)
Theorem C118_sampling : forall gb r a gp f b o, good_rib r -> rigid a -> is_unit (pnormal gp) ->
  envelop_flat gb (frib r) (fflat gp f) (fa a) "sampling" = Ret (b, o) ->
  let n := pnormal gp in
  let d := rb_radius r * sqrt (sin2 n (axle a)) - Rabs (center_height r a gp) / Rabs (vz n) in
  (b = true <-> eps < Rabs (vz n) /\ m22 (lin a) <> 0 /\ 0 < rb_width r /\ 0 < d) /\
  (b = true -> o_point o = fv (straight_below gp (place a (rb_center r))) /\ o_depth o = Fin d).
Proof. exact sampling_value. Qed.
Print Assumptions C118_sampling.

(** Moving the wheel by [v], without turning it, changes the depth the sampling
    method reports by at most the distance moved towards the ground, measured
    vertically; contact or not. *)
Theorem C118_sampling_depth : forall gb gb' r a v gp f b b' o o', good_rib r -> rigid a -> is_unit (pnormal gp) ->
  envelop_flat gb (frib r) (fflat gp f) (fa a) "sampling" = Ret (b, o) ->
  envelop_flat gb' (frib r) (fflat gp f) (fa (moved_by v a)) "sampling" = Ret (b', o') ->
  exists d d', o_depth o = Fin d /\ o_depth o' = Fin d' /\
    Rabs (d - d') <= Rabs (pdot v (pnormal gp)) / Rabs (vz (pnormal gp)).
Proof. exact sampling_follows. Qed.
Print Assumptions C118_sampling_depth.

(** The same for the geometric method, measured in the plane of the rib, with a
    jump of at most [eps / (s2 * radius)] where contact begins. *)
Theorem C118_geometric_depth : forall gb gb' r a v gp f b b' o o', good_rib r -> rigid a -> is_unit (pnormal gp) ->
  envelop_flat gb (frib r) (fflat gp f) (fa a) "geometric" = Ret (b, o) ->
  envelop_flat gb' (frib r) (fflat gp f) (fa (moved_by v a)) "geometric" = Ret (b', o') ->
  let s2 := sin2 (pnormal gp) (papply (lin a) (rb_normal r)) in
  exists d d', o_depth o = Fin d /\ o_depth o' = Fin d' /\
    (b = b' -> Rabs (d - d') <= Rabs (pdot v (pnormal gp)) / sqrt s2) /\
    Rabs (d - d') <= Rabs (pdot v (pnormal gp)) / sqrt s2 + eps / (s2 * rb_radius r).
Proof. exact geometric_follows. Qed.
Print Assumptions C118_geometric_depth.

(** Area and volume follow the depth, between any two poses, grounds and
    methods. *)
Theorem C118_area_volume : forall gb gb' r a a' gp gp' f f' m m' b b' o o', good_rib r -> rigid a -> rigid a' ->
  is_unit (pnormal gp) -> is_unit (pnormal gp') ->
  envelop_flat gb (frib r) (fflat gp f) (fa a) m = Ret (b, o) ->
  envelop_flat gb' (frib r) (fflat gp' f') (fa a') m' = Ret (b', o') ->
  exists d d' A A' V V', o_depth o = Fin d /\ o_depth o' = Fin d' /\
    o_area o = Fin A /\ o_area o' = Fin A' /\ o_volume o = Fin V /\ o_volume o' = Fin V' /\
    Rabs (A * A - A' * A') <= 8 * rb_radius r * (rb_width r * rb_width r) * Rabs (d - d') /\
    Rabs (V - V') <= 2 * rb_radius r * rb_width r * Rabs (d - d').
Proof. exact flat_follows. Qed.
Print Assumptions C118_area_volume.

(** The total volume of a wheel with any number of ribs, of radius [sRx] and
    width [2 * sLy]. *)
Theorem C118_total_volume : forall gb gb' sp s gp f a v s1 s2 b b', real_shell sp s ->
  rigid a -> is_unit (pnormal gp) ->
  setup_flat gb s (fflat gp f) (fa a) "sampling" = Ok s1 b ->
  setup_flat gb' s (fflat gp f) (fa (moved_by v a)) "sampling" = Ok s2 b' ->
  exists V V', contact_volume s1 = Ret (Fin V) /\ contact_volume s2 = Ret (Fin V') /\
    Rabs (V - V') <= 4 * sRx sp * sLy sp * (Rabs (pdot v (pnormal gp)) / Rabs (vz (pnormal gp))).
Proof. exact real_wheel_follows. Qed.
Print Assumptions C118_total_volume.

Example C118_total_example : forall gb g p, exists sp s s' b, real_shell sp s /\ sh_size s = 2%nat /\
  setup_flat gb s g p "sampling" = Ok s' b.
Proof. exact wheel_example. Qed.

(** The jump of the geometric method is real: however close, there are two
    heights between which the area goes from 0 to [2^-13] (a rib of radius 1)
    and the depth from 0 to at least [eps / 2]. *)
Theorem C118_continuous_refuted : forall gb f delta, 0 < delta -> exists z z' o o',
  z < z' < z + delta /\
  envelop_flat gb (frib unit_rib) (fflat level f) (fa (standing z)) "geometric" = Ret (true, o) /\
  envelop_flat gb (frib unit_rib) (fflat level f) (fa (standing z')) "geometric" = Ret (false, o') /\
  o_area o = Fin (/ 2 ^ 13) /\ o_area o' = Fin 0 /\
  exists d, o_depth o = Fin d /\ eps / 2 <= d /\ o_depth o' = Fin 0.
Proof. exact jump. Qed.
Print Assumptions C118_continuous_refuted.

(** The two methods on level ground: the sampling depth is the geometric one
    times the cosine of the inclination of the axle. *)
Theorem C118_methods : forall gb gb' r a go f o o', good_rib r -> rigid a -> rb_normal r = V 0 1 0 ->
  envelop_flat gb (frib r) (fflat (Plane go (V 0 0 1)) f) (fa a) "geometric" = Ret (true, o) ->
  envelop_flat gb' (frib r) (fflat (Plane go (V 0 0 1)) f) (fa a) "sampling" = Ret (true, o') ->
  exists d, o_depth o = Fin d /\ o_depth o' = Fin (d * sqrt (1 - vz (axle a) * vz (axle a))).
Proof. exact methods_level. Qed.
Print Assumptions C118_methods.

Example C118_example : forall gb f, good_rib unit_rib /\ rigid (standing (1 / 2)) /\ is_unit (pnormal level) /\
  rb_normal unit_rib = V 0 1 0 /\
  (exists o, envelop_flat gb (frib unit_rib) (fflat level f) (fa (standing (1 / 2))) "sampling" = Ret (true, o)) /\
  (exists o, envelop_flat gb (frib unit_rib) (fflat level f) (fa (standing (1 / 2))) "geometric" = Ret (true, o) /\ o_depth o = Fin (1 / 2)).
Proof.
  intros gb f. split; [exact unit_rib_good|]. split; [apply standing_rigid|]. split; [exact level_unit|]. split; [reflexivity|].
  split; [apply level_sampling_value|].
  destruct (proj1 (standing_eval gb f (1 / 2) ltac:(lra))) as (o & E & D & _).
  { unfold eps. lra. }
  exists o. split; [exact E|]. rewrite D. f_equal. lra.
Qed.

(** Between any two poses of the wheel, turned as well as moved. The sampling
    method follows the turning of the axle and the movement of the rib center
    towards the ground, as long as the wheel is not a quarter turn away from
    upright in either pose. *)
Theorem C118_sampling_turned : forall gb gb' r a a' gp f b b' o o', good_rib r -> rigid a -> rigid a' -> is_unit (pnormal gp) ->
  m22 (lin a) <> 0 -> m22 (lin a') <> 0 ->
  envelop_flat gb (frib r) (fflat gp f) (fa a) "sampling" = Ret (b, o) ->
  envelop_flat gb' (frib r) (fflat gp f) (fa a') "sampling" = Ret (b', o') ->
  exists d d', o_depth o = Fin d /\ o_depth o' = Fin d' /\
    Rabs (d - d') <= rb_radius r * pnorm (psub (axle a) (axle a')) +
      Rabs (pdot (psub (place a (rb_center r)) (place a' (rb_center r))) (pnormal gp)) / Rabs (vz (pnormal gp)).
Proof. exact sampling_turned. Qed.
Print Assumptions C118_sampling_turned.

(** The geometric method follows the turning of the rib axis, with a jump of at
    most [Rmax 1 radius * sqrt eps] where contact begins. *)
Theorem C118_geometric_turned : forall gb gb' r a a' gp f b b' o o', good_rib r -> rigid a -> rigid a' -> is_unit (pnormal gp) ->
  envelop_flat gb (frib r) (fflat gp f) (fa a) "geometric" = Ret (b, o) ->
  envelop_flat gb' (frib r) (fflat gp f) (fa a') "geometric" = Ret (b', o') ->
  let n := pnormal gp in let y := papply (lin a) (rb_normal r) in let y' := papply (lin a') (rb_normal r) in
  let move := rb_radius r * pnorm (psub y y') + Rabs (pdot (psub (place a (rb_center r)) (place a' (rb_center r))) n) in
  exists d d', o_depth o = Fin d /\ o_depth o' = Fin d' /\
    (b = b' -> Rabs (d - d') * sqrt (sin2 n y) <= move /\ Rabs (d - d') * sqrt (sin2 n y') <= move) /\
    (b <> b' -> Rabs (d - d') * sqrt (sin2 n (if b then y else y')) <= move + Rmax 1 (rb_radius r) * sqrt eps).
Proof. exact geometric_turned_any. Qed.
Print Assumptions C118_geometric_turned.

(** The total volume of a wheel with any number of ribs. *)
Theorem C118_total_turned : forall gb gb' sp s gp f a a' s1 s2 b b', real_shell sp s -> rigid a -> rigid a' -> is_unit (pnormal gp) ->
  m22 (lin a) <> 0 -> m22 (lin a') <> 0 ->
  setup_flat gb s (fflat gp f) (fa a) "sampling" = Ok s1 b ->
  setup_flat gb' s (fflat gp f) (fa a') "sampling" = Ok s2 b' ->
  let dy := psub (axle a) (axle a') in
  exists V V', contact_volume s1 = Ret (Fin V) /\ contact_volume s2 = Ret (Fin V') /\
    Rabs (V - V') <= 4 * sRx sp * sLy sp * (sRx sp * pnorm dy +
      (Rabs (pdot (psub (tra a) (tra a')) (pnormal gp)) + sLy sp * Rabs (pdot dy (pnormal gp))) / Rabs (vz (pnormal gp))).
Proof. exact wheel_turned. Qed.
Print Assumptions C118_total_turned.

(** The condition on the attitude cannot be dropped: at a quarter turn about the
    axle the sampling method loses the contact, however close the other pose. *)
Theorem C118_turned_refuted : forall gb f delta, 0 < delta -> exists a a' o o', rigid a /\ rigid a' /\ tra a = tra a' /\ axle a = axle a' /\
  pnorm (psub (pcol0 (lin a)) (pcol0 (lin a'))) < delta /\ pnorm (psub (pcol2 (lin a)) (pcol2 (lin a'))) < delta /\
  envelop_flat gb (frib unit_rib) (fflat level f) (fa a) "sampling" = Ret (true, o) /\ o_depth o = Fin (1 / 2) /\
  envelop_flat gb (frib unit_rib) (fflat level f) (fa a') "sampling" = Ret (false, o').
Proof. exact turn_lost. Qed.
Print Assumptions C118_turned_refuted.

Example C118_turned_example : forall gb f, let a := standing (1 / 2) in let a' := tilted (4 / 5) (3 / 5) (1 / 2) in
  rigid a /\ rigid a' /\ m22 (lin a) <> 0 /\ m22 (lin a') <> 0 /\ axle a <> axle a' /\
  (exists o, envelop_flat gb (frib unit_rib) (fflat level f) (fa a) "sampling" = Ret (true, o)) /\
  (exists o, envelop_flat gb (frib unit_rib) (fflat level f) (fa a') "sampling" = Ret (true, o)) /\
  (exists o, envelop_flat gb (frib unit_rib) (fflat level f) (fa a') "geometric" = Ret (true, o)).
Proof.
  intros gb f a a'. split; [apply standing_rigid|]. split; [apply tilted_rigid; lra|].
  split; [cbn; lra|]. split; [cbn; lra|]. split; [intros E; apply (f_equal vz) in E; cbn in E; lra|].
  split; [apply level_sampling_value|]. apply tilted_contact.
Qed.
