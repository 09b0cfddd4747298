(** * Specification vocabulary for boxes, rays, balls and motions. *)
From Coq Require Import ZArith Bool List Reals.
From Verif Require Import Num Vec Aabb Geom Acme ER SpecGeom.
Local Open Scope R_scope.

(** [q] lies between [a] and [b], whichever is the larger. *)
Definition between {K} {NK : Num K} (a b q : K) : Prop :=
  nle a q = true /\ nle q b = true \/ nle b q = true /\ nle q a = true.

(** Real boxes. *)
Definition within (lo hi q : pt) : Prop :=
  vx lo <= vx q <= vx hi /\ vy lo <= vy q <= vy hi /\ vz lo <= vz q <= vz hi.
Definition fbox (lo hi : pt) (id : Z) : aabb er := Box (fv lo) (fv hi) id.

(** Rays and balls. *)
Definition on_ray (r : ray R) (q : pt) : Prop :=
  exists t, 0 <= t /\ q = padd (ry_origin r) (pscale t (ry_dir r)).
Definition in_ball (b : ball R) (q : pt) : Prop := dist q (bl_center b) <= bl_radius b.
Definition fray (r : ray R) : ray er := Ray (fv (ry_origin r)) (fv (ry_dir r)).
Definition fball (b : ball R) : ball er := Ball (Fin (bl_radius b)) (fv (bl_center b)).
(** The line that carries a ray. *)
Definition ray_line (r : ray R) : line R := Line (ry_origin r) (ry_dir r).

(** Measures. *)
Definition triangle_height (t : triangle R) : R :=
  dist (tv2 t) (foot (seg_line (Segment (tv0 t) (tv1 t))) (tv2 t)).
(** Determinant of three vectors. *)
Definition triple (a b c : pt) : R := pdot a (pcross b c).
(** Squared distance from a point to a line. *)
Definition line_dist2 (l : line R) (c : pt) : R := dist (foot l c) c * dist (foot l c) c.

(** [p] and [q] are the closest points of two lines. *)
Definition closest (a b : line R) (p q : pt) : Prop :=
  on_line a p /\ on_line b q /\ forall x y, on_line a x -> on_line b y -> dist p q <= dist x y.
(** Sine of the angle between two directions, times their lengths. *)
Definition skew (u v : pt) : R := pnorm (pcross u v).
(** The unit vector along a segment. *)
Definition seg_dir (s : segment R) : pt := pscale (/ dist (sv0 s) (sv1 s)) (psub (sv1 s) (sv0 s)).
