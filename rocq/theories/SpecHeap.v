(** * What a program sees of collections that hold pointers. *)
From Coq Require Import ZArith Bool Reals List.
From Verif Require Import Base Num Vec Aabb Tree Geom Acme AcmeEntity AcmeHeap ER SpecGeom SpecAcme SpecTree SpecEntity.
Import ListNotations.

Section SpecHeap.
  Context {K : Type}.

  (** Collection [c] refers to the objects at [ads], in this order, and to the
      tree object at [t]. *)
  Definition refers (h : heap K) (c : nat) (ads : list nat) (t : nat) : Prop :=
    nth_error (h_colls h) c = Some (PColl (map Some ads) (Some t)).
  (** The objects at [ads] are the entities [es]. *)
  Definition stored (h : heap K) (ads : list nat) (es : list (entity K)) : Prop :=
    Forall2 (fun a e => nth_error (h_ents h) a = Some e) ads es.
  (** Collection [c] contains the entities [es] and its tree is [t]. *)
  Definition contains (h : heap K) (c : nat) (es : list (entity K)) (t : tree K) : Prop :=
    exists ads a, refers h c ads a /\ stored h ads es /\ nth_error (h_trees h) a = Some t.
  (** Only collection [c] may differ: every entity, every tree and every other
      collection is the same. *)
  Definition only_collection (c : nat) (h h' : heap K) : Prop :=
    h_ents h' = h_ents h /\ h_trees h' = h_trees h /\
    length (h_colls h') = length (h_colls h) /\
    forall d, d <> c -> nth_error (h_colls h') d = nth_error (h_colls h) d.
  (** As above, but new entities may have been made. *)
  Definition only_collection_and_new (c : nat) (h h' : heap K) : Prop :=
    (exists new, h_ents h' = h_ents h ++ new) /\ h_trees h' = h_trees h /\
    length (h_colls h') = length (h_colls h) /\
    forall d, d <> c -> nth_error (h_colls h') d = nth_error (h_colls h) d.
  (** How often the address [a] occurs. *)
  Definition occurrences (ads : list nat) (a : nat) : nat := count_occ Nat.eq_dec ads a.
End SpecHeap.

(** Any number of moves and builds of [c] and [d]. *)
Inductive moves_and_builds {K} {NK : Num K} (c d : nat) : heap K -> heap K -> Prop :=
| mb_done : forall h, moves_and_builds c d h h
| mb_move : forall h h1 h2 f e, e = c \/ e = d -> h_map f e h = Ret h1 -> moves_and_builds c d h1 h2 -> moves_and_builds c d h h2
| mb_build : forall h h1 h2 e, e = c \/ e = d -> h_build e h = Ret h1 -> moves_and_builds c d h1 h2 -> moves_and_builds c d h h2.

(** The position of the pair [(i, j)], [i <= j], when the pairs of [n] things
    are listed row by row. *)
Fixpoint row_start (n i : nat) : nat :=
  match i with O => 0 | S i' => row_start n i' + (n - i') end.

(** The box of an entity overlaps a given box. *)
Definition box_meets (e : entity R) (b : aabb er) : Prop :=
  exists l h q, ent_clamp (fent e) = Some (fv l, fv h) /\ within l h q /\ in_box (fv q) b.
(** The first entity of each pair. *)
Definition firsts {A} (ps : list (entity R * A)) : list (option (entity er)) := map (fun p => Some (fent (fst p))) ps.
