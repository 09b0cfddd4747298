(** * Specification vocabulary for run-time typed entities. *)
From Coq Require Import ZArith Bool List Reals.
From Verif Require Import Base Num Vec Aabb Tree Geom Acme AcmeEntity ER SpecGeom SpecAcme.
Import ListNotations.
Local Open Scope R_scope.

(** The set of points of an entity. *)
Definition in_entity (e : entity R) (q : pt) : Prop :=
  match e with
  | ENone => False
  | EPoint p => q = p
  | ELine l => on_line l q
  | ERay r => on_ray r q
  | EPlane p => on_plane p q
  | ESegment s => in_segment s q
  | ETriangle t => in_triangle t q
  | EDisk d => in_disk d q
  | EBall b => in_ball b q
  end.
Definition fent (e : entity R) : entity er :=
  match e with
  | ENone => ENone
  | EPoint p => EPoint (fv p)
  | ELine l => ELine (fline l)
  | ERay r => ERay (fray r)
  | EPlane p => EPlane (fplane p)
  | ESegment s => ESegment (fseg s)
  | ETriangle t => ETriangle (ftri t)
  | EDisk d => EDisk (fdisk d)
  | EBall b => EBall (fball b)
  end.
(** [e'] is the image of [e] under the motion [m]. *)
Definition moved (m : pt -> pt) (e e' : entity R) : Prop :=
  forall q', in_entity e' q' <-> exists q, in_entity e q /\ q' = m q.
(** Made of straight parts without a normal or a radius. *)
Definition straight (e : entity R) : Prop :=
  match e with EPlane _ | EDisk _ | EBall _ => False | _ => True end.
(** Turn about an axis through the origin: Rodrigues' formula. *)
Definition turn (angle : R) (u p : pt) : pt :=
  padd (padd (pscale (cos angle) p) (pscale (sin angle) (pcross u p))) (pscale ((1 - cos angle) * pdot u p) u).
(** Two entities with the same points. *)
Definition same_points (e e' : entity R) : Prop := forall q, in_entity e q <-> in_entity e' q.
(** Not empty, and inside some box. *)
Definition bounded (e : entity R) : Prop :=
  (exists q, in_entity e q) /\ exists lo hi, forall q, in_entity e q -> within lo hi q.
(** [lo], [hi] are the corners of the smallest box around the entity. *)
Definition encloses (lo hi : pt) (e : entity R) : Prop := forall q, in_entity e q -> within lo hi q.
Definition smallest_box (lo hi : pt) (e : entity R) : Prop :=
  encloses lo hi e /\ forall lo' hi', encloses lo' hi' e -> within lo' hi' lo /\ within lo' hi' hi.
(** A direction that is not null, a radius that is not negative. *)
Definition well_posed (e : entity R) : Prop :=
  match e with
  | ELine l => ldir l <> V 0 0 0
  | ERay r => ry_dir r <> V 0 0 0
  | EDisk d => 0 <= dradius d
  | EBall b => 0 <= bl_radius b
  | _ => True
  end.

(** How an entity lies in space: along a direction, or across a normal. *)
Inductive facing : Type := Along (o u : pt) | Across (o n : pt).
Definition tri_middle (t : triangle R) : pt := pscale (/ 3) (padd (padd (tv0 t) (tv1 t)) (tv2 t)).
Definition tri_across (t : triangle R) : pt := pcross (psub (tv1 t) (tv0 t)) (psub (tv2 t) (tv0 t)).
Definition facing_of (e : entity R) : option facing :=
  match e with
  | ELine l => Some (Along (lorigin l) (ldir l))
  | ERay r => Some (Along (ry_origin r) (ry_dir r))
  | ESegment s => Some (Along (sv0 s) (seg_dir s))
  | EPlane p => Some (Across (porigin p) (pnormal p))
  | ETriangle t => Some (Across (tri_middle t) (pscale (/ pnorm (tri_across t)) (tri_across t)))
  | EDisk d => Some (Across (porigin (dplane d)) (pnormal (dplane d)))
  | ENone | EPoint _ | EBall _ => None
  end.
(** What vanishes when the two are parallel: for unit vectors, the sine or
    the cosine of the angle between them. *)
Definition parallel_gap (a b : facing) : R :=
  match a, b with
  | Along _ u, Along _ v | Across _ u, Across _ v => skew u v
  | Along _ u, Across _ v | Across _ u, Along _ v => Rabs (pdot u v)
  end.
(** What vanishes when they are orthogonal. *)
Definition orthogonal_gap (a b : facing) : R :=
  match a, b with
  | Along _ u, Along _ v | Across _ u, Across _ v => Rabs (pdot u v)
  | Along _ u, Across _ v | Across _ u, Along _ v => skew u v
  end.
Definition line_and_plane (e0 e1 : entity R) : Prop :=
  match e0, e1 with ELine _, EPlane _ | EPlane _, ELine _ => True | _, _ => False end.
(** Two carriers on one line, up to the tolerance: how far the second origin
    is from the first line, and the angle between the directions (unit
    vectors). *)
Definition near_collinear (tol : R) (a b : facing) : Prop :=
  match a, b with
  | Along o u, Along p v => skew u (psub o p) < tol /\ skew u v < tol
  | _, _ => False
  end.
(** Two carriers in one plane, up to the tolerance. *)
Definition near_coplanar (tol : R) (a b : facing) : Prop :=
  match a, b with
  | Along o u, Along p v => Rabs (pdot (psub o p) (pcross u v)) <= tol * dist o p * skew u v
  | Along o u, Across p n | Across p n, Along o u =>
    Rabs (pdot u n) <= tol * pnorm u * pnorm n /\ Rabs (pdot (psub o p) n) <= tol * dist o p * pnorm n
  | Across o n, Across p m => skew n m < tol /\ Rabs (pdot (psub p o) n) < tol
  end.
(** The entity of the lower level is compared first. *)
Definition ordered (P : facing -> facing -> Prop) (e0 e1 : entity R) : Prop :=
  exists a b, facing_of e0 = Some a /\ facing_of e1 = Some b /\ if (level e0 <=? level e1)%Z then P a b else P b a.
Definition two_rays (e0 e1 : entity R) : Prop := match e0, e1 with ERay _, ERay _ => True | _, _ => False end.
(** All the points of the entity lie on the line, in the plane. *)
Definition along_line (l : line R) (e : entity R) : Prop := forall q, in_entity e q -> on_line l q.
Definition inside_plane (p : plane R) (e : entity R) : Prop := forall q, in_entity e q -> on_plane p q.
(** Lines, rays, segments of positive length. *)
Definition straight_line (e : entity R) : Prop :=
  match e with
  | ELine l => ldir l <> V 0 0 0
  | ERay r => ry_dir r <> V 0 0 0
  | ESegment s => sv0 s <> sv1 s
  | _ => False
  end.
Definition flat (e : entity R) : Prop :=
  match e with
  | EPlane p => pnormal p <> V 0 0 0
  | ETriangle _ => True
  | EDisk d => pnormal (dplane d) <> V 0 0 0 /\ 0 < dradius d
  | _ => False
  end.
(** Within [r] of some point of the entity. *)
Definition close_to (r : R) (e : entity R) (q : pt) : Prop := exists x, in_entity e x /\ dist q x <= r.
(** The result is the set of the common points. *)
Definition common_points (e0 e1 e : entity R) : Prop := forall q, in_entity e q <-> in_entity e0 q /\ in_entity e1 q.
(** The common points, enlarged by no more than [r]. *)
Definition common_points_upto (r : R) (e0 e1 e : entity R) : Prop :=
  (forall q, in_entity e0 q -> in_entity e1 q -> in_entity e q) /\
  (forall q, in_entity e q -> close_to r e0 q /\ close_to r e1 q).
Definition two_segments (e0 e1 : entity R) : Prop := match e0, e1 with ESegment _, ESegment _ => True | _, _ => False end.
(** What [Intersection] may answer for two entities on one line. *)
Definition collinear_answer (tol : R) (e0 e1 : entity R) (r : outcome (entity er)) : Prop :=
  match r with
  | Ret e => exists c, e = fent c /\
      ((two_segments e0 e1 -> common_points_upto (tol / 2) e0 e1 c) /\ (~ two_segments e0 e1 -> common_points e0 e1 c))
  | Throw x => x = RuntimeError /\ two_rays e0 e1 /\ forall q, ~ (in_entity e0 q /\ in_entity e1 q)
  | UB => False
  end.

(** ** Collections. *)
(** A collection of the given entities, with the given tree. *)
Definition holding {K} (es : list (entity K)) (t : tree K) : collection K := Collection (map Some es) t.
(** The two candidates of each pair, one after the other. *)
Definition listed (ps : list (entity R * entity R)) : list (option (entity er)) :=
  flat_map (fun p => [Some (fent (fst p)); Some (fent (snd p))]) ps.
Definition meet (e0 e1 : entity R) : Prop := exists q, in_entity e0 q /\ in_entity e1 q.
(** The boxes of two entities overlap. *)
Definition boxes_meet (e0 e1 : entity R) : Prop :=
  exists l0 h0 l1 h1 q, ent_clamp (fent e0) = Some (fv l0, fv h0) /\ ent_clamp (fent e1) = Some (fv l1, fv h1) /\
    within l0 h0 q /\ within l1 h1 q.

(** ** The dispatcher. *)
(** Dimension of the set of points; [none] is below all. *)
Definition dimension {K} (e : entity K) : Z :=
  match e with
  | ENone => -1
  | EPoint _ => 0
  | ELine _ | ERay _ | ESegment _ => 1
  | EPlane _ | ETriangle _ | EDisk _ => 2
  | EBall _ => 3
  end.
Definition plane_and_disk {K} (e0 e1 : entity K) : Prop :=
  match e0, e1 with EPlane _, EDisk _ => True | _, _ => False end.
Definition plane_and_triangle {K} (e0 e1 : entity K) : Prop :=
  match e0, e1 with EPlane _, ETriangle _ => True | _, _ => False end.
(** The kinds, lower level first, for which there is always an answer. *)
Definition always_answered {K} (e0 e1 : entity K) : Prop :=
  match e0, e1 with
  | EPoint _, (EPoint _ | ELine _ | ERay _ | EPlane _ | ESegment _ | ETriangle _ | EDisk _)
  | ELine _, (ELine _ | ERay _ | EPlane _ | ESegment _ | EDisk _ | EBall _)
  | ERay _, (EPlane _ | ESegment _ | EDisk _ | EBall _)
  | EPlane _, (EPlane _ | ESegment _ | EBall _)
  | ESegment _, (EDisk _ | EBall _) => True
  | _, _ => False
  end.
(** The kinds for which there is never one. *)
Definition never_answered {K} (e0 e1 : entity K) : Prop :=
  match e0, e1 with
  | ENone, _ | EPoint _, EBall _ | (ETriangle _ | EDisk _ | EBall _), EBall _ => True
  | _, _ => False
  end.
Definition either_way {K} (P : entity K -> entity K -> Prop) (e0 e1 : entity K) : Prop := P e0 e1 \/ P e1 e0.
