(** * A wheel on flat ground: how many ribs touch (for C126). *)
From Coq Require Import ZArith Bool Reals List.
From Verif Require Import Base Num Vec Geom Rib ER SpecGeom SpecRib SpecAvg.
Import ListNotations.
Local Open Scope R_scope.

(** The number of results with positive depth. *)
Definition touching (os : list (output R)) : R := total (fun o => if Rlt_dec 0 (o_depth o) then 1 else 0) os.
