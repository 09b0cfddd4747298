(** * Ribs over the reals. *)
From Coq Require Import ZArith Bool List Reals.
From Verif Require Import Base Num Vec Geom Ground Rib ER SpecGeom.
Import ListNotations.
Local Open Scope R_scope.

Definition frib (r : rib R) : rib er :=
  Rib (fdisk (rb_disk r)) (rb_id r) (Fin (rb_y r)) (Fin (rb_width r)) (Fin (rb_angle r)).
(** A rib of positive radius and non-negative width with a unit axis. *)
Definition good_rib (r : rib R) : Prop :=
  0 < rb_radius r /\ 0 <= rb_width r /\ is_unit (rb_normal r).
(** The rib disk in the ground frame. *)
Definition posed_disk (r : rib R) (a : affine R) : disk R :=
  Disk (rb_radius r) (Plane (place a (rb_center r)) (papply (lin a) (rb_normal r))).
(** A flat ground with friction [f]. *)
Definition fflat (p : plane R) (f : R) : flat er := Flat (fplane p) (Fin f).

(** Signed height of the rib center over the ground plane, and the squared
    sine of the angle between the rib plane and the ground plane. *)
Definition center_height (r : rib R) (a : affine R) (p : plane R) : R :=
  pdot (psub (place a (rb_center r)) (porigin p)) (pnormal p).
Definition sin2 (u v : pt) : R := 1 - pdot u v * pdot u v.

(** The same pose lowered by [k]. *)
Definition lowered (a : affine R) (k : R) : affine R := Aff (lin a) (V (vx (tra a)) (vy (tra a)) (vz (tra a) - k)).
