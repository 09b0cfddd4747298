(** * Averages over the ribs in double precision (for C124). *)
From Coq Require Import ZArith Reals List Floats.SpecFloat.
From Verif Require Import Num Rib F64 SpecDouble SpecPlaces.
Local Open Scope R_scope.

(** A double between 0 and 2^300. *)
Definition sound_measure (x : f64) : Prop :=
  is_double x /\ SFleb (f_of 0 0) x = true /\ SFleb x (f_of 1 300) = true.

(** The rounding errors an average over [n] ribs can gather. *)
Definition slack (n : nat) : R := (4 * INR n + 4) / 2 ^ 53.

(** [x] lies between [lo] and [hi] up to those errors (the second term stands
    for products too small for a double). *)
Definition near_range (n : nat) (lo hi x : R) : Prop :=
  lo * (1 - slack n) - powerRZ 2 (-1000) <= x <= hi * (1 + slack n) + powerRZ 2 (-1000).

(** A rib with a volume and with a figure [f] between [lo] and [hi]. *)
Definition rib_data (f : output f64 -> f64) (lo hi : R) (o : output f64) : Prop :=
  sound_measure (o_volume o) /\ sound_measure (f o) /\ lo <= value (f o) <= hi.

(** The exact sum of the volumes. *)
Definition exact_volume (os : list (output f64)) : R :=
  fold_right Rplus 0 (map (fun o => value (o_volume o)) os).
