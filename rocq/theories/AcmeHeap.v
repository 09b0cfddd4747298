(** * Collections as pointers (toolbox/src/collection.cc,
      toolbox/src/acme/collection.hxx).

      AcmeEntity.v models a collection by the values of its entities.  In the
      code a collection holds [std::shared_ptr]s to entities and to its search
      tree (collection.hxx:57-58), so that two collections, or two places of one
      collection, can refer to the same object, and the result of a query may
      be the collection that is queried.  Here objects have addresses.
      Reference counts are not modelled: an object that is no longer reachable
      stays in the heap. *)
From Coq Require Import ZArith Bool List.
From Verif Require Import Base Num Vec Aabb Tree Geom Acme AcmeEntity Shell.
Import ListNotations.

(** [m_entities] and [m_AABBtree], collection.hxx:57-58; [None] is a null
    pointer.  A moved-from collection has a null tree. *)
Record pcoll : Type := PColl { pc_ents : list (option nat); pc_tree : option nat }.

(** The entities, the trees and the collections of a program. *)
Record heap (K : Type) : Type := Heap {
  h_ents : list (entity K);
  h_trees : list (tree K);
  h_colls : list pcoll }.
Arguments Heap {K} h_ents h_trees h_colls.
Arguments h_ents {K} h.
Arguments h_trees {K} h.
Arguments h_colls {K} h.

Section Heap.
  Context {K : Type} {NK : Num K}.

  Definition h_coll (h : heap K) (c : nat) : outcome pcoll :=
    match nth_error (h_colls h) c with Some x => Ret x | None => UB end.
  Definition h_set (h : heap K) (c : nat) (x : pcoll) : heap K :=
    Heap (h_ents h) (h_trees h) (set_nth c x (h_colls h)).
  (** Reading through a pointer to an entity or a tree. *)
  Definition h_ent (h : heap K) (p : option nat) : outcome (entity K) :=
    match p with
    | Some a => match nth_error (h_ents h) a with Some e => Ret e | None => UB end
    | None => UB
    end.
  Definition h_tree (h : heap K) (p : option nat) : outcome (tree K) :=
    match p with
    | Some a => match nth_error (h_trees h) a with Some t => Ret t | None => UB end
    | None => UB
    end.

  (** std::make_shared of an entity: its address is new. *)
  Definition h_new_entity (e : entity K) (h : heap K) : nat * heap K :=
    (length (h_ents h), Heap (h_ents h ++ [e]) (h_trees h) (h_colls h)).
  (** collection::collection(entities), collection.cc:58-64: a tree of its own,
      the pointers copied; collection(), 51-54, is the case of no pointers. *)
  Definition h_new (ps : list (option nat)) (h : heap K) : nat * heap K :=
    (length (h_colls h),
     Heap (h_ents h) (h_trees h ++ [tempty])
          (h_colls h ++ [PColl ps (Some (length (h_trees h)))])).
  (** collection(collection const &) = default, collection.hxx:64: both
      members are copied, so the tree is the same object. *)
  Definition h_copy (c : nat) (h : heap K) : outcome (nat * heap K) :=
    let* x := h_coll h c in
    Ret (length (h_colls h), Heap (h_ents h) (h_trees h) (h_colls h ++ [x])).
  (** collection(collection &&) = default, collection.hxx:67: the vector and
      the pointer that are moved from are left empty. *)
  Definition h_move (c : nat) (h : heap K) : outcome (nat * heap K) :=
    let* x := h_coll h c in
    Ret (length (h_colls h),
         Heap (h_ents h) (h_trees h) (set_nth c (PColl [] None) (h_colls h) ++ [x])).

  (** clear, resize and push_back, collection.cc:68-91. *)
  Definition h_clear (c : nat) (h : heap K) : outcome (heap K) :=
    let* x := h_coll h c in Ret (h_set h c (PColl [] (pc_tree x))).
  Definition h_resize (c n : nat) (h : heap K) : outcome (heap K) :=
    let* x := h_coll h c in
    Ret (h_set h c (PColl (firstn n (pc_ents x) ++ repeat None (n - length (pc_ents x))) (pc_tree x))).
  Definition h_push (c : nat) (p : option nat) (h : heap K) : outcome (heap K) :=
    let* x := h_coll h c in Ret (h_set h c (PColl (pc_ents x ++ [p]) (pc_tree x))).
  (** [m_entities[id]]: no bounds check, collection.cc:95-112. *)
  Definition h_slot (h : heap K) (c : nat) (id : Z) : outcome (option nat) :=
    let* x := h_coll h c in
    if (id <? 0)%Z then UB
    else match nth_error (pc_ents x) (Z.to_nat id) with Some p => Ret p | None => UB end.

  (** translate, rotate and transform, collection.cc:116-152: every pointer of
      the vector in turn. *)
  Fixpoint map_through (f : entity K -> entity K) (ps : list (option nat)) (es : list (entity K))
    : outcome (list (entity K)) :=
    match ps with
    | [] => Ret es
    | None :: _ => UB
    | Some a :: ps' =>
      match nth_error es a with
      | Some e => map_through f ps' (set_nth a (f e) es)
      | None => UB
      end
    end.
  Definition h_map (f : entity K -> entity K) (c : nat) (h : heap K) : outcome (heap K) :=
    let* x := h_coll h c in
    let* es := map_through f (pc_ents x) (h_ents h) in
    Ret (Heap es (h_trees h) (h_colls h)).

  (** clamp and buildAABBtree, collection.cc:987-1020: the tree object is
      rebuilt in place. *)
  Fixpoint clamp_through (h : heap K) (i : Z) (ps : list (option nat)) : outcome (list (aabb K)) :=
    match ps with
    | [] => Ret []
    | p :: ps' =>
      let* e := h_ent h p in
      match ent_clamp e with
      | Some (mn, mx) =>
        let* bs := clamp_through h (i + 1) ps' in Ret (mk_aabb mn mx i :: bs)
      | None => Throw RuntimeError
      end
    end.
  Definition h_build (c : nat) (h : heap K) : outcome (heap K) :=
    let* x := h_coll h c in
    let* bs := clamp_through h 0 (pc_ents x) in
    let* t := build bs in
    match pc_tree x with
    | Some a => if (a <? length (h_trees h))%nat
                then Ret (Heap (h_ents h) (set_nth a t (h_trees h)) (h_colls h)) else UB
    | None => UB
    end.

  (** collection::intersection(collection, candidates),
      collection.cc:1032-1048.  [this], [other] and [cand] may be the same
      collection; both vectors are read again at every step. *)
  Fixpoint cand_loop (this other cand : nat) (l : list (aabb K * aabb K)) (h : heap K)
    : outcome (heap K) :=
    match l with
    | [] => Ret h
    | p :: l' =>
      let* a := h_slot h this (bid (fst p)) in
      let* h := h_push cand a h in
      let* b := h_slot h other (bid (snd p)) in
      let* h := h_push cand b h in
      cand_loop this other cand l' h
    end.
  Definition h_size (h : heap K) (c : nat) : outcome nat :=
    let* x := h_coll h c in Ret (length (pc_ents x)).
  Definition h_candidates (this other cand : nat) (h : heap K) : outcome (bool * heap K) :=
    let* h := h_clear cand h in
    let* x := h_coll h this in
    let* y := h_coll h other in
    let* t := h_tree h (pc_tree x) in
    let* u := h_tree h (pc_tree y) in
    let* l := tree_intersection t u in
    let* h := cand_loop this other cand l h in
    let* n := h_size h cand in
    Ret ((0 <? n)%nat, h).

  (** collection::intersection(AABBtree, candidates), collection.cc:1052-1067,
      the overload for a vector of boxes, 1071-1081, and for one box,
      1085-1095. *)
  Fixpoint box_loop (this cand : nat) (l : list (aabb K * aabb K)) (h : heap K)
    : outcome (heap K) :=
    match l with
    | [] => Ret h
    | p :: l' =>
      let* a := h_slot h this (bid (fst p)) in
      let* h := h_push cand a h in
      box_loop this cand l' h
    end.
  Definition h_candidates_tree (this : nat) (u : tree K) (cand : nat) (h : heap K)
    : outcome (bool * heap K) :=
    let* h := h_clear cand h in
    let* x := h_coll h this in
    let* t := h_tree h (pc_tree x) in
    let* l := tree_intersection t u in
    let* h := box_loop this cand l h in
    let* n := h_size h cand in
    Ret ((0 <? n)%nat, h).
  Definition h_candidates_boxes (this : nat) (bs : list (aabb K)) (cand : nat) (h : heap K)
    : outcome (bool * heap K) :=
    let* u := build bs in h_candidates_tree this u cand h.
  Definition h_candidates_box (this : nat) (b : aabb K) (cand : nat) (h : heap K)
    : outcome (bool * heap K) :=
    h_candidates_boxes this [b] cand h.

  (** collection::intersection(entities, tolerance), collection.cc:1099-1115:
      the size is read before [out] is cleared, the vector at every step; the
      entities stored are new objects. *)
  Definition upper_indices (n : nat) : list (nat * nat) :=
    flat_map (fun i => map (pair i) (seq i (n - i))) (seq 0 n).
  Fixpoint inter_loop (this out : nat) (tol : K) (l : list (nat * nat)) (h : heap K)
    : outcome (heap K) :=
    match l with
    | [] => Ret h
    | (i, j) :: l' =>
      let* p := h_slot h this (Z.of_nat i) in
      let* q := h_slot h this (Z.of_nat j) in
      let* a := h_ent h p in
      let* b := h_ent h q in
      let* e := ent_intersection a b tol in
      let (n, h) := h_new_entity e h in
      let* h := h_push out (Some n) h in
      inter_loop this out tol l' h
    end.
  Definition h_intersections (this out : nat) (tol : K) (h : heap K) : outcome (heap K) :=
    let* n := h_size h this in
    let* h := h_clear out h in
    inter_loop this out tol (upper_indices n) h.

  (** What a collection contains: the reading of AcmeEntity.v. *)
  Definition h_view (h : heap K) (c : nat) : outcome (collection K) :=
    let* x := h_coll h c in
    let* es := omap (fun p => match p with
                              | Some _ => let* e := h_ent h p in Ret (Some e)
                              | None => Ret None
                              end) (pc_ents x) in
    let* t := h_tree h (pc_tree x) in
    Ret (Collection es t).
End Heap.
