(** * Area and volume of a contact in double precision (for C125). *)
From Coq Require Import ZArith Reals Floats.SpecFloat.
From Verif Require Import Num Geom Rib F64 SpecGeom SpecDouble SpecPlaces.
Local Open Scope R_scope.

(** A slice of a cylinder of radius [r] and width [w], cut at depth [d]: the
    area of the cut, and the volume cut off, the width times the area of the
    circular sector less that of the triangle (C40_volume characterises it by
    its derivative). *)
Definition slice_area (r w d : R) : R := chord r d * w.
Definition slice_volume (r w d : R) : R :=
  (r * r * acos ((r - d) / r) - (r - d) * sqrt (d * (2 * r - d))) * w.

(** The arccosine of the C library is right up to 2^-50 between -1 and 1. *)
Definition near_acos (lm : libm) : Prop :=
  forall x, is_double x -> SFleb (f_of (-1) 0) x = true -> SFleb x (f_of 1 0) = true ->
  is_double (lm_acos lm x) /\ is_finite (lm_acos lm x) = true /\
  Rabs (value (lm_acos lm x) - acos (value x)) <= / 2 ^ 50.

(** A rib whose radius and width are between 2^-300 and 2^300. *)
Definition thick_rib (r : rib f64) : Prop :=
  sound_rib r /\ SFleb (f_of 1 (-300)) (dradius (rb_disk r)) = true /\ SFleb (f_of 1 (-300)) (rb_width r) = true.

(** Area and volume of [out] are those of a slice at the reported depth, up to
    2^-22 of the product of the measures. *)
Definition near_slice (r : rib f64) (out : output f64) : Prop :=
  let R0 := value (dradius (rb_disk r)) in
  let W := value (rb_width r) in
  let D := value (o_depth out) in
  Rabs (value (o_area out) - slice_area R0 W D) <= / 2 ^ 22 * (R0 * W) /\
  Rabs (value (o_volume out) - slice_volume R0 W D) <= / 2 ^ 22 * (R0 * R0 * W) /\
  - (/ 2 ^ 22 * (R0 * R0 * W)) <= value (o_volume out).
