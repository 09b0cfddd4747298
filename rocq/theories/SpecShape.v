(** * Vocabulary for the shape of the shell. *)
From Coq Require Import ZArith Bool List Reals.
From Verif Require Import Base Num Vec Geom Shape ER.
Import ListNotations.
Local Open Scope R_scope.

(** [x] to the power [m], for [0 <= x] and [0 < m]. *)
Definition hpow (x m : R) : R := if Rlt_dec 0 x then Rpower x m else 0.

(** A shape of real dimensions. *)
Definition fshape (s : shape R) : shape er :=
  Shape (Fin (sRx s)) (Fin (sMx s)) (Fin (sRy s)) (Fin (sMy s)) (Fin (sLy s)).
Definition good_shape (s : shape R) : Prop :=
  0 < sRx s /\ 0 < sMx s /\ 0 < sMy s /\ 0 < sLy s /\ sLy s <= sRy s.
(** The point at axial position [y] and radius [r] is on the hyperellipse. *)
Definition on_profile (s : shape R) (y r : R) : Prop :=
  hpow (r / sRx s) (sMx s) + hpow (Rabs y / sRy s) (sMy s) = 1.

(** Width and center of rib [i] when [2 ly] is cut in [n] equal slices. *)
Definition slice_width (ly : R) (n : nat) : R := 2 * ly / INR n.
Definition slice_center (ly : R) (n i : nat) : R := - ly + (INR i + / 2) * slice_width ly n.
