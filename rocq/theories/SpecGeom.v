(** * Plain geometry over the reals.

    The vocabulary of the geometric properties.  Nothing here refers to the
    model's functions: points are triples of reals and the notions are the
    textbook ones.  [f..] embeds real data in the numbers of ER.v. *)
From Coq Require Import ZArith Bool List Reals Lra.
From Verif Require Import Num Vec Geom ER.
Import ListNotations.
Local Open Scope R_scope.

Definition pt : Type := vec3 R.
Definition padd (a b : pt) : pt := V (vx a + vx b) (vy a + vy b) (vz a + vz b).
Definition psub (a b : pt) : pt := V (vx a - vx b) (vy a - vy b) (vz a - vz b).
Definition pscale (k : R) (a : pt) : pt := V (k * vx a) (k * vy a) (k * vz a).
Definition pdot (a b : pt) : R := vx a * vx b + vy a * vy b + vz a * vz b.
Definition pcross (a b : pt) : pt :=
  V (vy a * vz b - vz a * vy b) (vz a * vx b - vx a * vz b) (vx a * vy b - vy a * vx b).
Definition pnorm (a : pt) : R := sqrt (pdot a a).
Definition dist (a b : pt) : R := pnorm (psub a b).
Definition is_unit (a : pt) : Prop := pdot a a = 1.

(** Matrices act on points; columns; rotations. *)
Definition papply (m : mat3 R) (a : pt) : pt :=
  V (m00 m * vx a + m01 m * vy a + m02 m * vz a)
    (m10 m * vx a + m11 m * vy a + m12 m * vz a)
    (m20 m * vx a + m21 m * vy a + m22 m * vz a).
Definition pcol0 (m : mat3 R) : pt := V (m00 m) (m10 m) (m20 m).
Definition pcol1 (m : mat3 R) : pt := V (m01 m) (m11 m) (m21 m).
Definition pcol2 (m : mat3 R) : pt := V (m02 m) (m12 m) (m22 m).
(** Right-handed orthonormal columns. *)
Definition rotation (m : mat3 R) : Prop :=
  is_unit (pcol0 m) /\ is_unit (pcol1 m) /\ is_unit (pcol2 m) /\
  pdot (pcol0 m) (pcol1 m) = 0 /\ pdot (pcol1 m) (pcol2 m) = 0 /\ pdot (pcol2 m) (pcol0 m) = 0 /\
  pcross (pcol0 m) (pcol1 m) = pcol2 m.
Definition rigid (a : affine R) : Prop := rotation (lin a).
(** Image of a point under a pose. *)
Definition place (a : affine R) (p : pt) : pt := padd (tra a) (papply (lin a) p).

(** Membership. *)
Definition on_plane (p : plane R) (q : pt) : Prop := pdot (psub q (porigin p)) (pnormal p) = 0.
Definition on_line (l : line R) (q : pt) : Prop := exists t, q = padd (lorigin l) (pscale t (ldir l)).
Definition in_segment (s : segment R) (q : pt) : Prop :=
  exists t, 0 <= t <= 1 /\ q = padd (sv0 s) (pscale t (psub (sv1 s) (sv0 s))).
Definition in_disk (d : disk R) (q : pt) : Prop :=
  on_plane (dplane d) q /\ dist q (porigin (dplane d)) <= dradius d.
Definition on_circle (d : disk R) (q : pt) : Prop :=
  on_plane (dplane d) q /\ dist q (porigin (dplane d)) = dradius d.
(** Barycentric combination of the vertices. *)
Definition bary (t : triangle R) (a b c : R) : pt :=
  padd (padd (pscale a (tv0 t)) (pscale b (tv1 t))) (pscale c (tv2 t)).
(** In the triangle enlarged by the relative margin [tol] ([tol = 0]: in the
    triangle). *)
Definition near_triangle (tol : R) (t : triangle R) (q : pt) : Prop :=
  exists a b c, - tol <= a /\ - tol <= b /\ - tol <= c /\ a + b + c = 1 /\ q = bary t a b c.
Definition in_triangle (t : triangle R) (q : pt) : Prop := near_triangle 0 t q.

(** Embeddings. *)
Definition fv (v : pt) : vec3 er := V (Fin (vx v)) (Fin (vy v)) (Fin (vz v)).
Definition fm (m : mat3 R) : mat3 er :=
  M3 (Fin (m00 m)) (Fin (m01 m)) (Fin (m02 m))
     (Fin (m10 m)) (Fin (m11 m)) (Fin (m12 m))
     (Fin (m20 m)) (Fin (m21 m)) (Fin (m22 m)).
Definition fa (a : affine R) : affine er := Aff (fm (lin a)) (fv (tra a)).
Definition fline (l : line R) : line er := Line (fv (lorigin l)) (fv (ldir l)).
Definition fplane (p : plane R) : plane er := Plane (fv (porigin p)) (fv (pnormal p)).
Definition fseg (s : segment R) : segment er := Segment (fv (sv0 s)) (fv (sv1 s)).
Definition ftri (t : triangle R) : triangle er := Triangle (fv (tv0 t)) (fv (tv1 t)) (fv (tv2 t)).
Definition fdisk (d : disk R) : disk er := Disk (Fin (dradius d)) (fplane (dplane d)).

(** The tolerance EPSILON_ENVE. *)
Definition eps : R := / 2 ^ 26.

(** The point of a line nearest to [c]. *)
Definition foot (l : line R) (c : pt) : pt :=
  padd (lorigin l) (pscale (pdot (psub c (lorigin l)) (ldir l) / pdot (ldir l) (ldir l)) (ldir l)).
(** The whole line lies in the plane. *)
Definition line_in_plane (l : line R) (p : plane R) : Prop :=
  on_plane p (lorigin l) /\ pdot (ldir l) (pnormal p) = 0.
(** Squared half chord cut by the line in a circle, times the squared length
    of the direction: the quantity compared with the tolerance. *)
Definition chord2 (l : line R) (d : disk R) : R :=
  pdot (ldir l) (ldir l) *
  (dradius d * dradius d - dist (foot l (porigin (dplane d))) (porigin (dplane d)) ^ 2).
(** The line through a segment. *)
Definition seg_line (s : segment R) : line R := Line (sv0 s) (psub (sv1 s) (sv0 s)).

(** Chord of a circle of radius [r] at depth [d] below its top (or bottom). *)
Definition chord (r d : R) : R := 2 * sqrt (r * r - (r - d) * (r - d)).
