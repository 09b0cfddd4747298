(** * Vocabulary for objects changed in place. *)
From Coq Require Import ZArith Bool List Reals.
From Verif Require Import Base Num Vec Aabb Geom Ground ER SpecGeom Edit.
Import ListNotations.
Local Open Scope R_scope.

(** Movements of a triangle with real data: as a whole, or renaming its
    vertices. *)
Inductive movement : Type :=
| Shift (v : pt)
| Place (a : affine R)
| Rename (i j : Z).
Definition real_edit (m : movement) : edit er :=
  match m with
  | Shift v => EdTranslate (fv v)
  | Place a => EdTransform (fa a)
  | Rename i j => EdSwap i j
  end.

(** Where the movements, the first one first, take a point. *)
Definition carry (m : movement) (p : pt) : pt :=
  match m with
  | Shift v => padd v p
  | Place a => place a p
  | Rename _ _ => p
  end.
Fixpoint carried (l : list movement) (p : pt) : pt :=
  match l with
  | [] => p
  | m :: l' => carried l' (carry m p)
  end.

(** No movement but shifts and renamings; the sum of the shifts. *)
Definition turns (m : movement) : Prop := match m with Place _ => True | _ => False end.
Fixpoint total (l : list movement) : pt :=
  match l with
  | [] => V 0 0 0
  | Shift v :: l' => padd v (total l')
  | _ :: l' => total l'
  end.

(** The normal and the box of the triangle are those its constructor computes
    from the vertices it has now. *)
Definition up_to_date {K} {NK : Num K} (t : tground K) : Prop :=
  mk_tground (tg_id t) (tg_friction t) (tv0 (tg_tri t)) (tv1 (tg_tri t)) (tv2 (tg_tri t)) = Ret t.

(** [t'] is [t] after some edits. *)
Definition edited {K} {NK : Num K} (t t' : tground K) : Prop := exists l, tg_edits l t = Ret t'.

(** A triangle on the floor, for the examples. *)
Definition flat_tri : triangle R := Triangle (V 0 0 0) (V 1 0 0) (V 0 1 0).
