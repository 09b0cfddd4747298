(** * Vocabulary for runs of the S-function. *)
From Coq Require Import ZArith Bool String List.
From Verif Require Import Base Num Vec Aabb Tree Geom Ground Shape Rib Str Mesh Shell Sfun SfunRun SpecLoad SpecMesh SpecShell.
Import ListNotations.

Section SpecRun.
  Context {K : Type} {NK : Num K}.
  Variable stod : text -> outcome K.
  Variable fs : text -> option text.

  (** The mesh, the plane and the wheel that the global pointers designate. *)
  Definition in_force (w : memory K) (m : mesh K) (g : flat K) (s : shell K) : Prop :=
    exists i j k, mm_globals w = Some (i, j, k) /\ nth_error (mm_meshes w) i = Some m /\
      nth_error (mm_flats w) j = Some g /\ nth_error (mm_shells w) k = Some s.
  (** Everything the same but the wheel in force. *)
  Definition same_but_wheel (w w' : memory K) : Prop :=
    mm_meshes w' = mm_meshes w /\ mm_flats w' = mm_flats w /\ mm_globals w' = mm_globals w /\
    length (mm_shells w') = length (mm_shells w) /\
    forall i j k n, mm_globals w = Some (i, j, k) -> n <> k -> nth_error (mm_shells w') n = nth_error (mm_shells w) n.
  (** Number of objects allocated and not freed. *)
  Definition objects (w : memory K) : nat :=
    length (mm_meshes w) + length (mm_flats w) + length (mm_shells w).
  (** The memory after some calls of a process that starts from scratch. *)
  Definition running (w : memory K) : Prop := exists cs, run_calls stod fs memory0 cs = Some w.
  (** Not an initialisation that completes on [w]. *)
  Definition no_new_start (w : memory K) (c : call K) : Prop :=
    match c with CInit p => forall w', run_init stod fs p w <> Ok w' tt | _ => True end.
  (** Calls without a completed initialisation, from [w] to [w']. *)
  Inductive quiet : memory K -> memory K -> Prop :=
    | q_nil : forall w, quiet w w
    | q_call : forall w c w1 w2, no_new_start w c -> run_call stod fs w c = Some w1 -> quiet w1 w2 -> quiet w w2.
  (** Two calls give the caller the same: the same bus, the same exception, or
      both are undefined. *)
  Definition same_reply {S T A} (r : result S A) (q : result T A) : Prop :=
    match r, q with
    | Ok _ a, Ok _ b => a = b
    | Exn _ e, Exn _ f => e = f
    | Undef, Undef => True
    | _, _ => False
    end.
End SpecRun.
