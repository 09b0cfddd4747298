(** * Vocabulary: slabs that hold the ground. *)
From Coq Require Import Reals List.
From Verif Require Import Base Num Vec Geom Ground Rib ER SpecGeom.
Local Open Scope R_scope.

(** The triangle lies between two parallel planes across [u]. *)
Definition between (u : pt) (lo hi : R) (t : triangle R) : Prop :=
  lo <= pdot u (tv0 t) <= hi /\ lo <= pdot u (tv1 t) <= hi /\ lo <= pdot u (tv2 t) <= hi.
(** The slab, widened by the margin the library allows outside the edges. *)
Definition slab (u : pt) (lo hi : R) (q : pt) : Prop :=
  lo - 3 * eps * (hi - lo) <= pdot u q <= hi + 3 * eps * (hi - lo).
(** The ground lies below the point [c] of the wheel, along the third axis of
    its own frame, with the same margin. *)
Definition below_hub (a : affine R) (c : pt) (ts : list (triangle R * R)) : Prop :=
  exists lo hi, (forall t f, In (t, f) ts -> between (pcol2 (lin a)) lo hi t) /\
    hi + 3 * eps * (hi - lo) + eps <= pdot (pcol2 (lin a)) (place a c).
