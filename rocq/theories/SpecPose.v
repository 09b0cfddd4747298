(** * Vocabulary for poses, ribs in the ground frame and candidate lists. *)
From Coq Require Import ZArith Bool List Reals.
From Verif Require Import Base Num Vec Aabb Geom Ground Shape Rib Str Mesh Shell ER SpecGeom SpecRib SpecShape SpecShell.
Import ListNotations.
Local Open Scope R_scope.

(** Any sequence of translate and rotate calls with real arguments, the axes
    being unit vectors. *)
Inductive moved : shell er -> shell er -> Prop :=
| mv_none : forall s, moved s s
| mv_translate : forall s t v, moved s t -> moved s (sh_translate t (fv v))
| mv_rotate : forall s t angle axis, moved s t -> is_unit axis -> moved s (sh_rotate t (Fin angle) (fv axis)).

(** Ribs as a shell cuts them: centered on the y axis and facing it. *)
Definition axial_rib (r : rib R) : Prop :=
  rb_normal r = V 0 1 0 /\ vx (rb_center r) = 0 /\ vz (rb_center r) = 0.

(** [c] is what remains of [l], in order, when only the elements satisfying
    [P] are kept. *)
Inductive keeps {A : Type} (P : A -> Prop) : list A -> list A -> Prop :=
| k_nil : keeps P [] []
| k_keep : forall x l c, P x -> keeps P l c -> keeps P (x :: l) (x :: c)
| k_drop : forall x l c, ~ P x -> keeps P l c -> keeps P (x :: l) c.

(** Triangles with real vertices. *)
Definition real_triangle (g : tground er) (t : triangle R) : Prop := tg_tri g = ftri t.
(** The triangle has a point in the plane. *)
Definition crosses (p : plane R) (g : tground er) : Prop :=
  exists t q, real_triangle g t /\ in_triangle t q /\ on_plane p q.

(** A shell with any history whose shape has real dimensions. *)
Definition real_shell (sp : shape R) (s : shell er) : Prop :=
  reach s /\ sh_shape s = fshape sp /\ good_shape sp.
(** Rib [j] of the shell over the reals. *)
Definition has_rib (s : shell er) (j : nat) (r : rib R) : Prop := rib_at s j = Ret (frib r).
