(** * Vocabulary for approximate equality, degenerate entities and membership
    with a tolerance. *)
From Coq Require Import ZArith Bool List Reals.
From Verif Require Import Num Vec Aabb Geom Acme AcmeEntity Ground Shape Rib ER SpecGeom SpecAcme SpecEntity.
Import ListNotations.
Local Open Scope R_scope.

(** Two points agree when their distance is small with respect to their
    distances from the origin of the coordinates. *)
Definition agree (tol : R) (a b : pt) : Prop := dist a b <= tol * Rmin (pnorm a) (pnorm b).
(** Two numbers agree when they differ by less than the tolerance. *)
Definition agree1 (tol : R) (x y : R) : Prop := Rabs (x - y) < tol.

(** A ground triangle with its friction; the other fields are free. *)
Definition ground_of (g : tground er) (t : triangle R) (f : R) : Prop :=
  tg_tri g = ftri t /\ tg_friction g = Fin f.

(** The extent of an entity is below the tolerance. *)
Definition thin (tol : R) (e : entity R) : Prop :=
  match e with
  | ENone => True
  | EPoint _ => False
  | ELine l => pnorm (ldir l) < tol
  | ERay r => pnorm (ry_dir r) < tol
  | EPlane p => pnorm (pnormal p) < tol
  | ESegment s => dist (sv0 s) (sv1 s) < tol
  | ETriangle t => dist (tv0 t) (tv1 t) < tol \/ dist (tv1 t) (tv2 t) < tol \/ dist (tv2 t) (tv0 t) < tol
  | EDisk d => Rabs (dradius d) < tol \/ pnorm (pnormal (dplane d)) < tol
  | EBall b => Rabs (bl_radius b) < tol
  end.
(** The entity has just one point. *)
Definition one_point (e : entity R) : Prop := exists p, forall q, in_entity e q <-> q = p.

(** The distance of a point from a line is small with respect to its distance
    from the origin of the line. *)
Definition in_cone (tol : R) (l : line R) (q : pt) : Prop :=
  q = lorigin l \/ dist q (foot l q) < tol * dist q (lorigin l).
(** [q] is less than [tol] off the plane of the triangle, over a point whose
    barycentric coordinates exceed [0, 1] by [tol] at most. *)
Definition over_triangle (tol : R) (t : triangle R) (q : pt) : Prop :=
  exists a b c, a + b + c = 1 /\ - tol <= a <= 1 + tol /\ - tol <= b <= 1 + tol /\ - tol <= c <= 1 + tol /\
    dist q (bary t a b c) < tol /\
    pdot (psub q (bary t a b c)) (psub (tv1 t) (tv0 t)) = 0 /\
    pdot (psub q (bary t a b c)) (psub (tv2 t) (tv0 t)) = 0.
(** Directions and normals are unit vectors, triangles have an area. *)
Definition normal_form (e : entity R) : Prop :=
  match e with
  | ELine l => is_unit (ldir l)
  | ERay r => is_unit (ry_dir r)
  | EPlane p => is_unit (pnormal p)
  | ETriangle t => tri_across t <> V 0 0 0
  | EDisk d => is_unit (pnormal (dplane d))
  | _ => True
  end.
(** The answer of the member function [isInside] of an entity that has one. *)
Definition says_inside (e : entity R) (q : pt) (tol : R) : option bool :=
  match e with
  | ENone | EPoint _ => None
  | ELine l => Some (line_is_inside (fline l) (fv q) (Fin tol))
  | ERay r => Some (ray_is_inside (fray r) (fv q) (Fin tol))
  | EPlane p => Some (plane_is_inside (fplane p) (fv q) (Fin tol))
  | ESegment s => Some (seg_is_inside (fseg s) (fv q) (Fin tol))
  | ETriangle t => Some (tri_is_inside (ftri t) (fv q) (Fin tol))
  | EDisk d => Some (disk_is_inside (fdisk d) (fv q) (Fin tol))
  | EBall b => Some (ball_is_inside (fball b) (fv q) (Fin tol))
  end.
(** What the member function means. *)
Definition counts_inside (tol : R) (e : entity R) (q : pt) : Prop :=
  match e with
  | ENone | EPoint _ => False
  | ELine l => in_cone tol l q
  | ERay r => in_cone tol (ray_line r) q /\ 0 <= pdot (psub q (ry_origin r)) (ry_dir r)
  | EPlane p => Rabs (pdot (psub q (porigin p)) (pnormal p)) < tol
  | ESegment s => dist q (sv0 s) + dist q (sv1 s) <= dist (sv0 s) (sv1 s) + tol
  | ETriangle t => over_triangle tol t q
  | EDisk d => Rabs (pdot (psub q (porigin (dplane d))) (pnormal (dplane d))) < tol /\
      dist q (porigin (dplane d)) <= dradius d
  | EBall b => in_ball b q
  end.
