(** * What the names of the collection queries mean. *)
From Coq Require Import Bool List.
From Verif Require Import Num AcmeEntity AcmeCollection.

(** An entity is of a kind.  "Degenerated" is what the entity itself answers;
    a clampable entity is one that has a finite box. *)
Definition of_kind {K} {NK : Num K} (k : kind) (tol : K) (e : entity K) : Prop :=
  match k with
  | KNone => e = ENone
  | KPoint => exists p, e = EPoint p
  | KLine => exists l, e = ELine l
  | KRay => exists r, e = ERay r
  | KPlane => exists p, e = EPlane p
  | KSegment => exists s, e = ESegment s
  | KTriangle => exists t, e = ETriangle t
  | KDisk => exists d, e = EDisk d
  | KBall => exists b, e = EBall b
  | KDegenerated => ent_is_degenerated e tol = true
  | KClampable => ent_clamp e <> None
  | KNonClampable => e <> ENone /\ ent_clamp e = None
  end.

(** [n] of the elements of [l] satisfy [P]. *)
Inductive number_of {A} (P : A -> Prop) : list A -> nat -> Prop :=
| no_nil : number_of P nil 0
| no_yes : forall a l n, P a -> number_of P l n -> number_of P (a :: l) (S n)
| no_no : forall a l n, ~ P a -> number_of P l n -> number_of P (a :: l) n.

(** [r] is what remains of [l] when the elements that satisfy [P] are left
    out, in the same order. *)
Inductive without {A} (P : A -> Prop) : list A -> list A -> Prop :=
| wo_nil : without P nil nil
| wo_keep : forall a l r, ~ P a -> without P l r -> without P (a :: l) (a :: r)
| wo_drop : forall a l r, P a -> without P l r -> without P (a :: l) r.
