(** * Places of the ribs in double precision (for C122). *)
From Coq Require Import ZArith Reals Floats.SpecFloat.
From Verif Require Import Num Shape F64 SpecDouble.
Local Open Scope R_scope.

(** The real number a finite double stands for. *)
Definition value (x : f64) : R :=
  match x with
  | S754_finite s m e => (if s then -1 else 1) * IZR (Zpos m) * powerRZ 2 e
  | _ => 0
  end.

(** The middle of the [i]-th of [n] bands of equal width that tile
    [-l, l]. *)
Definition band_middle (l : R) (n i : nat) : R := - l + (2 * INR i + 1) * (l / INR n).

(** A half width the statement ranges over: between 2^-300 and 2^300. *)
Definition sound_width (ly : f64) : Prop :=
  is_double ly /\ SFleb (f_of 1 (-300)) ly = true /\ SFleb ly (f_of 1 300) = true.

(** A profile that has a positive radius and an angle at every place within
    its half width. *)
Definition sound_profile (lm : libm) (s : shape f64) : Prop :=
  forall y, is_double y -> SFleb (SFabs y) (sLy s) = true ->
  exists r a, @surface_radius f64 (F64_Num lm) s y = Base.Ret r /\
    @surface_angle f64 (F64_Num lm) s y (f_of 1 (-26)) = Base.Ret a /\
    SFltb (S754_zero false) r = true /\ r <> S754_nan /\ a <> S754_nan.
