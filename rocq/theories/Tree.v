(** * The AABB tree (toolbox/src/AABBtree.cc, toolbox/src/acme/AABBtree.hxx). *)
From Coq Require Import ZArith Bool List.
From Verif Require Import Base Num Vec Aabb.
Import ListNotations.
Local Open Scope num_scope.

(** toolbox/src/acme/AABBtree.hxx:63-64: a possibly null pointer to a box and
    a vector of (never null) pointers to children. *)
Inductive tree (K : Type) : Type :=
| Tree (box : option (aabb K)) (children : list (tree K)).
Arguments Tree {K} box children.

Definition tbox {K} (t : tree K) : option (aabb K) := match t with Tree b _ => b end.
Definition tchildren {K} (t : tree K) : list (tree K) := match t with Tree _ c => c end.

(** AABBtree::AABBtree() and clear(), toolbox/src/AABBtree.cc:58-71. *)
Definition tempty {K} : tree K := Tree None [].

(** AABBtree::isEmpty, toolbox/src/AABBtree.cc:75-80. *)
Definition tis_empty {K} (t : tree K) : bool :=
  match t with Tree None [] => true | _ => false end.

(** Number of nodes; used only as recursion fuel and in statements. *)
Fixpoint tsize {K} (t : tree K) : nat :=
  match t with Tree _ cs => S (list_sum (map tsize cs)) end.

Section Tree.
  Context {K : Type} {NK : Num K}.

  (** The three partition loops of AABBtree::build,
      toolbox/src/AABBtree.cc:114-152: returns (neg_boxes, pos_boxes).  The z
      branch really uses the y coordinate of the boxes (line 146). *)
  Definition split_boxes (b : aabb K) (boxes : list (aabb K))
    : list (aabb K) * list (aabb K) :=
    let xmin := vx (bmin b) in let ymin := vy (bmin b) in let zmin := vz (bmin b) in
    let xmax := vx (bmax b) in let ymax := vy (bmax b) in let zmax := vz (bmax b) in
    let is_pos : aabb K -> bool :=
      if ((xmax - xmin) >? (ymax - ymin)) && ((xmax - xmin) >? (zmax - zmin)) then
        let cut := (xmax + xmin) / #2 in
        fun c => (vx (bmin c) + vx (bmax c)) / #2 >? cut
      else if ((ymax - ymin) >? (xmax - xmin)) && ((ymax - ymin) >? (zmax - zmin)) then
        let cut := (ymax + ymin) / #2 in
        fun c => (vy (bmin c) + vy (bmax c)) / #2 >? cut
      else
        let cut := (zmax + zmin) / #2 in
        fun c => (vy (bmin c) + vy (bmax c)) / #2 >? cut in
    (filter (fun c => negb (is_pos c)) boxes, filter is_pos boxes).

  (** Rebalancing of AABBtree::build, toolbox/src/AABBtree.cc:154-167.  The
      iterator offset [size() / 2.0] converts to [floor(size/2)] (sizes below
      2^53). *)
  Definition rebalance (np : list (aabb K) * list (aabb K))
    : list (aabb K) * list (aabb K) :=
    let (neg, pos) := np in
    match neg, pos with
    | [], _ => let m := Nat.div2 (length pos) in (skipn m pos, firstn m pos)
    | _, [] => let m := Nat.div2 (length neg) in (firstn m neg, skipn m neg)
    | _, _ => (neg, pos)
    end.

  (** AABBtree::build, toolbox/src/AABBtree.cc:84-179.  [fuel] bounds the
      recursion depth; running out of fuel stands for non-termination and is
      reported as [UB] (proved impossible in ProofTree.v). *)
  Fixpoint build_fuel (fuel : nat) (boxes : list (aabb K)) : outcome (tree K) :=
    match fuel with
    | O => UB
    | S fuel' =>
      match boxes with
      | [] => Ret tempty
      | [b] => Ret (Tree (Some b) [])
      | _ =>
        let box := aabb_of_boxes boxes in
        let np := rebalance (split_boxes box boxes) in
        let* neg := build_fuel fuel' (fst np) in
        let* pos := build_fuel fuel' (snd np) in
        Ret (Tree (Some box)
                  ((if tis_empty neg then [] else [neg]) ++
                   (if tis_empty pos then [] else [pos])))
      end
    end.

  Definition build (boxes : list (aabb K)) : outcome (tree K) :=
    build_fuel (S (length boxes)) boxes.

  (** Sequencing of the calls made by the loops: results appended in order,
      first failure wins. *)
  Fixpoint oconcat {A} (l : list (outcome (list A))) : outcome (list A) :=
    match l with
    | [] => Ret []
    | x :: l' => let* a := x in let* b := oconcat l' in Ret (a ++ b)
    end.

  (** AABBtree::intersection, toolbox/src/AABBtree.cc:213-264: the pairs
      appended to [intersection_list], in order.  A null [m_ptrbox] is
      dereferenced at line 221, hence [UB]; [fuel] as in [build_fuel]. *)
  Fixpoint tinter_fuel (fuel : nat) (this t : tree K) (swap : bool)
    : outcome (list (aabb K * aabb K)) :=
    match fuel with
    | O => UB
    | S fuel' =>
      match tbox t, tbox this with
      | Some bt, Some bthis =>
        if negb (intersects bt bthis) then Ret []
        else
          match tchildren this, tchildren t with
          | [], [] => Ret [if swap then (bt, bthis) else (bthis, bt)]
          | cs, [] => oconcat (map (fun c => tinter_fuel fuel' t c (negb swap)) cs)
          | [], ct => oconcat (map (fun c => tinter_fuel fuel' this c swap) ct)
          | cs, ct =>
            oconcat (flat_map (fun c1 =>
                       map (fun c2 => tinter_fuel fuel' c1 c2 swap) ct) cs)
          end
      | _, _ => UB
      end
    end.

  Definition tree_intersection (this t : tree K) : outcome (list (aabb K * aabb K)) :=
    tinter_fuel (tsize this + tsize t) this t false.

  (** Loops of [collision]: stop at the first [true]. *)
  Fixpoint oexists (l : list (unit -> outcome bool)) : outcome bool :=
    match l with
    | [] => Ret false
    | x :: l' => let* b := x tt in if b : bool then Ret true else oexists l'
    end.

  (** AABBtree::collision, toolbox/src/acme/AABBtree.hxx:99-162; [f] is the
      user's predicate on pairs of boxes (assumed pure). *)
  Fixpoint tcoll_fuel (f : aabb K -> aabb K -> bool) (fuel : nat)
    (this t : tree K) (swap : bool) : outcome bool :=
    match fuel with
    | O => UB
    | S fuel' =>
      match tbox t, tbox this with
      | Some bt, Some bthis =>
        if negb (intersects bt bthis) then Ret false
        else
          match tchildren this, tchildren t with
          | [], [] => Ret (if swap then f bt bthis else f bthis bt)
          | cs, [] => oexists (map (fun c _ => tcoll_fuel f fuel' t c (negb swap)) cs)
          | [], ct => oexists (map (fun c _ => tcoll_fuel f fuel' this c swap) ct)
          | cs, ct =>
            oexists (flat_map (fun c1 =>
                       map (fun c2 _ => tcoll_fuel f fuel' c1 c2 swap) ct) cs)
          end
      | _, _ => UB
      end
    end.

  Definition tree_collision (f : aabb K -> aabb K -> bool) (this t : tree K) : outcome bool :=
    tcoll_fuel f (tsize this + tsize t) this t false.
End Tree.
