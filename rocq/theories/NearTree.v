(** * Distance queries on the AABB tree (toolbox/src/AABBtree.cc). *)
From Coq Require Import ZArith Bool List.
From Verif Require Import Base Num Vec Aabb Tree.
Import ListNotations.
Local Open Scope num_scope.

Section NearTree.
  Context {K : Type} {NK : Num K}.

  (** AABBtree::minimumExteriorDistance, toolbox/src/AABBtree.cc:268-288.
      [std::min(dst, distance)] is [nmin].  A null [m_ptrbox] is dereferenced
      at line 276 or 279, hence [UB]. *)
  Fixpoint min_exterior (q : vec3 K) (t : tree K) (distance : K) : outcome K :=
    match t with
    | Tree None _ => UB
    | Tree (Some b) [] => Ret (nmin (exterior_distance b q) distance)
    | Tree (Some b) cs =>
      if center_distance b q >? distance then Ret distance
      else (fix loop (l : list (tree K)) (distance : K) : outcome K :=
              match l with
              | [] => Ret distance
              | c :: l' => let* distance' := min_exterior q c distance in loop l' distance'
              end) cs distance
    end.

  (** AABBtree::selectLessThanDistance, toolbox/src/AABBtree.cc:292-317: the
      boxes appended to [candidate_list], in order. *)
  Fixpoint select_less (q : vec3 K) (distance : K) (t : tree K) : outcome (list (aabb K)) :=
    match t with
    | Tree None _ => UB
    | Tree (Some b) cs =>
      if center_distance b q <=? distance then
        match cs with
        | [] => Ret [b]
        | _ => oconcat (map (select_less q distance) cs)
        end
      else Ret []
    end.

  (** AABBtree::selectMinimumDistance, toolbox/src/AABBtree.cc:321-330. *)
  Definition select_minimum (q : vec3 K) (t : tree K) : outcome (list (aabb K)) :=
    let* distance := min_exterior q t ninf in select_less q distance t.
End NearTree.
