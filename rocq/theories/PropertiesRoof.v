(** * The sampling method on triangles, in full: theorems. *)
From Coq Require Import ZArith Bool Reals Lra Lia String List.
From Verif Require Import Base Num Vec Aabb Geom Ground Rib ER SpecGeom SpecRib SpecAvg SpecFrame SpecRoof.
From Verif Require Import ProofGeom ProofRoof PropertiesFlat.
Import ListNotations.
Local Open Scope R_scope.

(** ** C100: what a contact of the sampling method is. *)
Theorem C100_contact : forall gb r a ts gs o,
  0 < rb_radius r -> 0 <= rb_width r -> rigid a -> grounds ts gs ->
  envelop gb (frib r) gs (fa a) "sampling" = Ret (true, o) ->
  exists p0 p1 p2 p3 f0 f1 f2 f3 o', probed ts r a p0 p1 p2 p3 f0 f1 f2 f3 /\ o = fout o' /\
    o_point o' = pscale (/ 4) (padd (padd (padd p0 p1) p2) p3) /\
    o_friction o' = (f0 + f1 + f2 + f3) / 4 /\
    is_unit (o_normal o') /\ along (pcross (psub p0 p1) (psub p2 p3)) (o_normal o') /\
    o_depth o' = sink (rb_radius r) (pcol1 (lin a)) (place a (rb_center r)) (o_normal o') (o_point o') /\
    0 < o_depth o'.
Proof. exact sampling_described. Qed.
Print Assumptions C100_contact.

(** No contact: a probe is over no ground, or the wheel does not reach it. *)
Theorem C100_no_contact : forall gb r a ts gs o,
  0 < rb_radius r -> 0 <= rb_width r -> rigid a -> grounds ts gs ->
  envelop gb (frib r) gs (fa a) "sampling" = Ret (false, o) ->
  (exists x y, (Rabs x = rb_radius r / 10 /\ y = 0 \/ x = 0 /\ Rabs y = 3 / 10 * rb_width r) /\ roofless ts (probe r a x y)) \/
  exists p0 p1 p2 p3 f0 f1 f2 f3, probed ts r a p0 p1 p2 p3 f0 f1 f2 f3 /\
    forall n, along (pcross (psub p0 p1) (psub p2 p3)) n -> is_unit n ->
    sink (rb_radius r) (pcol1 (lin a)) (place a (rb_center r)) n (pscale (/ 4) (padd (padd (padd p0 p1) p2) p3)) <= 0.
Proof. exact sampling_missed. Qed.
Print Assumptions C100_no_contact.

(** The friction lies between those of the ground. *)
Theorem C100_friction_range : forall gb r a ts gs o lo hi,
  0 < rb_radius r -> 0 <= rb_width r -> rigid a -> grounds ts gs ->
  (forall t f, In (t, f) ts -> lo <= f <= hi) ->
  envelop gb (frib r) gs (fa a) "sampling" = Ret (true, o) ->
  exists f, o_friction o = Fin f /\ lo <= f <= hi.
Proof.
  intros gb r a ts gs o lo hi HR HW HA HG HF H.
  destruct (C100_contact gb r a ts gs o HR HW HA HG H) as (p0 & p1 & p2 & p3 & f0 & f1 & f2 & f3 & o' & P & -> & _ & F & _).
  exists (o_friction o'). split; [reflexivity|]. rewrite F. destruct P as [[_ [(t0 & I0 & _) _]] [_ [(t1 & I1 & _) _]] [_ [(t2 & I2 & _) _]] [_ [(t3 & I3 & _) _]]].
  apply HF in I0, I1, I2, I3. lra.
Qed.
Print Assumptions C100_friction_range.

Example C100_example : 0 < rb_radius one_rib /\ 0 <= rb_width one_rib /\ rigid (at_height (1 / 2)) /\
  exists gs, grounds [(big_tri, 1 / 2)] gs /\
  forall gb, exists o, envelop gb (frib one_rib) gs (fa (at_height (1 / 2))) "sampling" = Ret (true, o).
Proof.
  split; [cbn; lra|]. split; [cbn; lra|]. split; [apply at_height_rigid|].
  destruct C46_example as (t & T & H). exists [t]. split; [|exact H].
  constructor; [|constructor]. exists 0%Z. exact T.
Qed.
(** A wheel over an empty mesh. *)
Example C100_example_none : forall gb, exists o, envelop gb (frib one_rib) [] (fa (at_height 1)) "sampling" = Ret (false, o) /\
  roofless [] (probe one_rib (at_height 1) (1 / 10) 0).
Proof.
  intros [[[g0 g1] g2] g3]. eexists. split; [reflexivity|]. intros t f p [].
Qed.
