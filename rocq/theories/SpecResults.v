(** * The results a wheel holds, one for each rib (for C56, C57, C119, C124). *)
From Coq Require Import List.
From Verif Require Import Base Rib Shell.
Import ListNotations.

(** [os] lists the results stored for the ribs of [s], in their order: as many
    as there are ribs, each written. *)
Definition rib_results {K : Type} (s : shell K) (os : list (output K)) : Prop :=
  List.length os = List.length (sh_ribs s) /\
  forall i o, nth_error os i = Some o -> nth_error (sh_cells s) i = Some (Some o).
