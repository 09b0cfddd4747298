(** * Specification vocabulary for boxes and trees (no model helpers). *)
From Coq Require Import ZArith Bool List Permutation.
From Verif Require Import Base Num Vec Aabb Tree.
Import ListNotations.

Section SpecTree.
  Context {K : Type} {NK : Num K}.

  (** [p] lies in the closed box [b]. *)
  Definition in_box (p : vec3 K) (b : aabb K) : Prop :=
    nle (vx (bmin b)) (vx p) = true /\ nle (vx p) (vx (bmax b)) = true /\
    nle (vy (bmin b)) (vy p) = true /\ nle (vy p) (vy (bmax b)) = true /\
    nle (vz (bmin b)) (vz p) = true /\ nle (vz p) (vz (bmax b)) = true.

  (** Two boxes overlap: they have a common point. *)
  Definition overlap (a b : aabb K) : Prop := exists p, in_box p a /\ in_box p b.

  (** A box whose corners are ordered (hence without NaN). *)
  Definition proper_box (b : aabb K) : Prop :=
    nle (vx (bmin b)) (vx (bmax b)) = true /\
    nle (vy (bmin b)) (vy (bmax b)) = true /\
    nle (vz (bmin b)) (vz (bmax b)) = true.

  (** The boxes stored at the leaves of a tree, left to right. *)
  Fixpoint leaves (t : tree K) : list (aabb K) :=
    match t with
    | Tree (Some b) [] => [b]
    | Tree None [] => []
    | Tree _ cs => flat_map leaves cs
    end.

  (** Every inner node has exactly two children. *)
  Inductive binary : tree K -> Prop :=
  | bin_leaf : forall b, binary (Tree (Some b) [])
  | bin_node : forall b l r, binary l -> binary r -> binary (Tree (Some b) [l; r]).

  (** [l] lists exactly the elements satisfying [P], each as often as in
      [all]. *)
  Definition exactly {A} (P : A -> Prop) (all l : list A) : Prop :=
    exists keep : A -> bool,
      (forall a, In a all -> (keep a = true <-> P a)) /\
      Permutation l (filter keep all).
End SpecTree.
