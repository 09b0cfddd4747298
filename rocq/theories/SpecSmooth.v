(** * Vocabulary for wheels at neighbouring places. *)
From Coq Require Import Reals.
From Verif Require Import Base Num Vec Geom Ground Rib ER SpecGeom SpecRib.
Local Open Scope R_scope.

(** The same attitude, moved by [v]. *)
Definition moved_by (v : pt) (a : affine R) : affine R := Aff (lin a) (padd v (tra a)).
(** The axle of a wheel in the ground frame. *)
Definition axle (a : affine R) : pt := pcol1 (lin a).
(** The point of a plane that is not vertical straight below (or above) [q]. *)
Definition straight_below (gp : plane R) (q : pt) : pt :=
  V (vx q) (vy q) (vz q - pdot (psub q (porigin gp)) (pnormal gp) / vz (pnormal gp)).

(** For the examples: a rib of radius 1 and width 1/2, level ground, and an
    upright wheel with its center [z] over the ground. *)
Definition unit_rib : rib R := Rib (Disk 1 (Plane (V 0 0 0) (V 0 1 0))) 0 0 (1 / 2) 0.
Definition level : plane R := Plane (V 0 0 0) (V 0 0 1).
Definition standing (z : R) : affine R := moved_by (V 0 0 z) (Aff (M3 1 0 0 0 1 0 0 0 1) (V 0 0 0)).
(** The wheel of the examples turned about its axle, with cosine [c] and sine
    [s], its center [z] over the ground. *)
Definition spun (c s z : R) : affine R := Aff (M3 c 0 s 0 1 0 (- s) 0 c) (V 0 0 z).
(** The same with the axle inclined. *)
Definition tilted (c s z : R) : affine R := Aff (M3 1 0 0 0 c (- s) 0 s c) (V 0 0 z).
