(** * Vocabulary for the cut of a triangle by a plane. *)
From Coq Require Import Reals.
From Verif Require Import Num Vec Geom SpecGeom.
Local Open Scope R_scope.

(** Signed height of a point over a plane (of unit normal). *)
Definition height (p : plane R) (q : pt) : R := pdot (psub q (porigin p)) (pnormal p).
Definition vertex_of (t : triangle R) (v : pt) : Prop := v = tv0 t \/ v = tv1 t \/ v = tv2 t.
(** No vertex is near the plane, compared with the extent of the triangle
    across the plane. *)
Definition clear (tol : R) (p : plane R) (t : triangle R) : Prop :=
  forall a b, vertex_of t a -> vertex_of t b -> tol * Rabs (height p a - height p b) < Rabs (height p a).
(** The edges that cross the plane are not nearly parallel to it. *)
Definition steep (tol : R) (p : plane R) (t : triangle R) : Prop :=
  forall a b, vertex_of t a -> vertex_of t b -> height p a < 0 < height p b ->
    tol * dist a b <= height p b - height p a.
(** The triangle has an area and its plane is not nearly parallel to the plane. *)
Definition transversal (tol : R) (p : plane R) (t : triangle R) : Prop :=
  let c := pcross (psub (tv1 t) (tv0 t)) (psub (tv2 t) (tv0 t)) in
  0 < pdot c c /\ tol * pdot c c <= pdot (pcross (pnormal p) c) (pcross (pnormal p) c).
