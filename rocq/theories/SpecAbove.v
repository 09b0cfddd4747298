(** * Vocabulary for wheels clear of the ground. *)
From Coq Require Import Reals.
From Verif Require Import Base Num Vec Geom Ground Rib ER SpecGeom.
Local Open Scope R_scope.

(** The vertices of the triangle have heights between [lo] and [hi]. *)
Definition within (lo hi : R) (t : triangle R) : Prop :=
  lo <= vz (tv0 t) <= hi /\ lo <= vz (tv1 t) <= hi /\ lo <= vz (tv2 t) <= hi.
(** The highest place where such a triangle can be hit, with the margin the
    library allows outside its edges. *)
Definition top_of (lo hi : R) : R := hi + 3 * eps * (hi - lo).
