(** * The profile of the wheel in double precision (for C123). *)
From Coq Require Import ZArith Floats.SpecFloat.
From Verif Require Import Num Shape F64 SpecDouble SpecPlaces.

(** [x] lies between 0 and 1. *)
Definition in_unit (x : f64) : Prop :=
  SFleb (f_of 0 0) x = true /\ SFleb x (f_of 1 0) = true.

(** [pow] of a number between 0 and 1 to a positive power is one. *)
Definition sound_pow (lm : libm) : Prop := forall x e,
  is_double x -> in_unit x -> is_double e -> SFltb (f_of 0 0) e = true ->
  is_double (lm_pow lm x e) /\ in_unit (lm_pow lm x e).

(** [pow] to a positive power does not decrease between 0 and 1. *)
Definition rising_pow (lm : libm) : Prop := forall x x' e,
  is_double x -> in_unit x -> is_double x' -> in_unit x' -> is_double e -> SFltb (f_of 0 0) e = true ->
  SFleb x x' = true -> SFleb (lm_pow lm x e) (lm_pow lm x' e) = true.

(** Measures between 2^-300 and 2^300, a positive exponent [My], and a half
    width that does not exceed [Ry]. *)
Record sound_shape (s : shape f64) : Prop := {
  ss_rx : sound_width (sRx s);
  ss_ry : sound_width (sRy s);
  ss_ly : sound_width (sLy s);
  ss_mx : sound_width (sMx s);
  ss_my : is_double (sMy s) /\ SFltb (f_of 0 0) (sMy s) = true;
  ss_in : SFleb (sLy s) (sRy s) = true }.
