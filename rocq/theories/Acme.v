(** * The rest of the acme geometry (toolbox/src): rays and balls, motions
      and bounding boxes of the entities, the parallel / orthogonal /
      collinear / coplanar predicates, and the intersection functions that
      enve itself does not call. *)
From Coq Require Import ZArith Bool List.
From Verif Require Import Base Num Vec Aabb Geom.
Import ListNotations.
Local Open Scope num_scope.

(** toolbox/src/acme/ray.hxx:58-59. *)
Record ray (K : Type) : Type := Ray { ry_origin : vec3 K; ry_dir : vec3 K }.
Arguments Ray {K} ry_origin ry_dir.
Arguments ry_origin {K} r.
Arguments ry_dir {K} r.

(** toolbox/src/acme/ball.hxx:58-59. *)
Record ball (K : Type) : Type := Ball { bl_radius : K; bl_center : vec3 K }.
Arguments Ball {K} bl_radius bl_center.
Arguments bl_radius {K} b.
Arguments bl_center {K} b.

Section Acme.
  Context {K : Type} {NK : Num K}.

  (** Eigen's [a.isOrthogonal(b, tol)]:
      [(a.b)^2 <= tol*tol*|a|^2*|b|^2] (trusted base, as in Vec.v). *)
  Definition vis_orthogonal (a b : vec3 K) (tol : K) : bool :=
    let d := vdot a b in d * d <=? tol * tol * vsqnorm a * vsqnorm b.

  (** Transform(vec3, affine), toolbox/src/math.cc:62-69. *)
  Definition vec_transform (m : affine K) (v : vec3 K) : vec3 K := mvmul (lin m) v.
  (** point::translate and point::transform, toolbox/src/point.cc:57-73. *)
  Definition point_translate (v p : vec3 K) : vec3 K := vadd p v.
  Definition point_transform (m : affine K) (p : vec3 K) : vec3 K := aapply m p.

  (** ** line (toolbox/src/line.cc:129-180) *)
  Definition line_normalize (l : line K) : line K := Line (lorigin l) (vnormalized (ldir l)).
  Definition line_unit_vector (l : line K) : vec3 K := vnormalized (ldir l).
  Definition line_reverse (l : line K) : line K := Line (lorigin l) (vopp (ldir l)).
  Definition line_translate (v : vec3 K) (l : line K) : line K :=
    Line (vadd v (lorigin l)) (ldir l).
  Definition line_transform (m : affine K) (l : line K) : line K :=
    Line (point_transform m (lorigin l)) (vec_transform m (ldir l)).

  (** ** ray (toolbox/src/ray.cc:82-204) *)
  Definition ray_is_approx (a b : ray K) (tol : K) : bool :=
    vis_approx (ry_origin a) (ry_origin b) tol && vis_approx (ry_dir a) (ry_dir b) tol.
  Definition ray_normalize (r : ray K) : ray K := Ray (ry_origin r) (vnormalized (ry_dir r)).
  Definition ray_unit_vector (r : ray K) : vec3 K := vnormalized (ry_dir r).
  Definition ray_reverse (r : ray K) : ray K := Ray (ry_origin r) (vopp (ry_dir r)).
  Definition ray_translate (v : vec3 K) (r : ray K) : ray K :=
    Ray (vadd v (ry_origin r)) (ry_dir r).
  Definition ray_transform (m : affine K) (r : ray K) : ray K :=
    Ray (point_transform m (ry_origin r)) (vec_transform m (ry_dir r)).
  (** ray::isInside, toolbox/src/ray.cc:184-193. *)
  Definition ray_is_inside (r : ray K) (q : vec3 K) (tol : K) : bool :=
    let p := vnormalized (vsub q (ry_origin r)) in
    is_approx (vnorm (vcross p (ry_dir r))) #0 tol && (vdot p (ry_dir r) >=? #0).
  Definition ray_is_degenerated (r : ray K) (tol : K) : bool :=
    is_approx (vnorm (ry_dir r)) #0 tol.

  (** ** plane (toolbox/src/plane.cc:129-150, 197-214) *)
  Definition plane_unit_normal (p : plane K) : vec3 K := vnormalized (pnormal p).
  Definition plane_reverse (p : plane K) : plane K := Plane (porigin p) (vopp (pnormal p)).
  Definition plane_translate (v : vec3 K) (p : plane K) : plane K :=
    Plane (vadd v (porigin p)) (pnormal p).
  Definition plane_transform (m : affine K) (p : plane K) : plane K :=
    Plane (point_transform m (porigin p)) (vec_transform m (pnormal p)).

  (** ** segment (toolbox/src/segment.cc:89-98, 171-208, 238-252) *)
  Definition seg_is_approx (a b : segment K) (tol : K) : bool :=
    vis_approx (sv0 a) (sv0 b) tol && vis_approx (sv1 a) (sv1 b) tol.
  Definition seg_swap (s : segment K) : segment K := Segment (sv1 s) (sv0 s).
  Definition seg_translate (v : vec3 K) (s : segment K) : segment K :=
    Segment (vadd v (sv0 s)) (vadd v (sv1 s)).
  Definition seg_transform (m : affine K) (s : segment K) : segment K :=
    Segment (point_transform m (sv0 s)) (point_transform m (sv1 s)).
  (** segment::clamp: [(min, max)]. *)
  Definition seg_clamp (s : segment K) : vec3 K * vec3 K :=
    (V (nmin (vx (sv0 s)) (vx (sv1 s))) (nmin (vy (sv0 s)) (vy (sv1 s)))
       (nmin (vz (sv0 s)) (vz (sv1 s))),
     V (nmax (vx (sv0 s)) (vx (sv1 s))) (nmax (vy (sv0 s)) (vy (sv1 s)))
       (nmax (vz (sv0 s)) (vz (sv1 s)))).

  (** ** triangle (toolbox/src/triangle.cc:215-225, 283-303, 343-357) *)
  (** triangle::swap(i, j) for the three unordered pairs of distinct
      indices; [m_vertex[i]] with [i > 2] is out of bounds. *)
  Definition tri_swap (i j : nat) (t : triangle K) : outcome (triangle K) :=
    match i, j with
    | 0, 0 | 1, 1 | 2, 2 => Ret t
    | 0, 1 | 1, 0 => Ret (Triangle (tv1 t) (tv0 t) (tv2 t))
    | 0, 2 | 2, 0 => Ret (Triangle (tv2 t) (tv1 t) (tv0 t))
    | 1, 2 | 2, 1 => Ret (Triangle (tv0 t) (tv2 t) (tv1 t))
    | _, _ => UB
    end%nat.
  Definition tri_translate (v : vec3 K) (t : triangle K) : triangle K :=
    Triangle (vadd v (tv0 t)) (vadd v (tv1 t)) (vadd v (tv2 t)).
  Definition tri_transform (m : affine K) (t : triangle K) : triangle K :=
    Triangle (point_transform m (tv0 t)) (point_transform m (tv1 t))
             (point_transform m (tv2 t)).
  Definition tri_clamp (t : triangle K) : vec3 K * vec3 K :=
    (V (nmin (vx (tv0 t)) (nmin (vx (tv1 t)) (vx (tv2 t))))
       (nmin (vy (tv0 t)) (nmin (vy (tv1 t)) (vy (tv2 t))))
       (nmin (vz (tv0 t)) (nmin (vz (tv1 t)) (vz (tv2 t)))),
     V (nmax (vx (tv0 t)) (nmax (vx (tv1 t)) (vx (tv2 t))))
       (nmax (vy (tv0 t)) (nmax (vy (tv1 t)) (vy (tv2 t))))
       (nmax (vz (tv0 t)) (nmax (vz (tv1 t)) (vz (tv2 t))))).

  (** ** disk (toolbox/src/disk.cc:176-188, 210-226, 255-270) *)
  Definition disk_normalize (d : disk K) : disk K :=
    Disk (dradius d) (plane_normalize (dplane d)).
  Definition disk_reverse (d : disk K) : disk K :=
    Disk (dradius d) (plane_reverse (dplane d)).
  Definition disk_translate (v : vec3 K) (d : disk K) : disk K :=
    Disk (dradius d) (plane_translate v (dplane d)).
  Definition disk_transform (m : affine K) (d : disk K) : disk K :=
    Disk (dradius d) (plane_transform m (dplane d)).
  (** [-r + c] and [+r + c] on each axis; shared by disk and ball. *)
  Definition cube_clamp (r : K) (c : vec3 K) : vec3 K * vec3 K :=
    (V (- r + vx c) (- r + vy c) (- r + vz c), V (r + vx c) (r + vy c) (r + vz c)).
  Definition disk_clamp (d : disk K) : vec3 K * vec3 K :=
    cube_clamp (dradius d) (dcenter d).

  (** ** ball (toolbox/src/ball.cc:82-91, 129-204) *)
  Definition ball_is_approx (a b : ball K) (tol : K) : bool :=
    is_approx (bl_radius a) (bl_radius b) tol && vis_approx (bl_center a) (bl_center b) tol.
  Definition ball_area (b : ball K) : K := #4 * npi * bl_radius b * bl_radius b.
  Definition ball_volume (b : ball K) : K :=
    #4 / #3 * npi * bl_radius b * bl_radius b * bl_radius b.
  Definition ball_translate (v : vec3 K) (b : ball K) : ball K :=
    Ball (bl_radius b) (point_translate v (bl_center b)).
  Definition ball_transform (m : affine K) (b : ball K) : ball K :=
    Ball (bl_radius b) (point_transform m (bl_center b)).
  Definition ball_is_inside (b : ball K) (q : vec3 K) (tol : K) : bool :=
    vnorm (vsub (bl_center b) q) <=? bl_radius b.
  Definition ball_is_degenerated (b : ball K) (tol : K) : bool :=
    is_approx (bl_radius b) #0 tol.
  Definition ball_clamp (b : ball K) : vec3 K * vec3 K :=
    cube_clamp (bl_radius b) (bl_center b).

  (** ** IsOrthogonal / IsParallel on vectors
      (toolbox/src/orthogonal.cc:340-348; parallel.cc:340-348 is
      [vec_parallel] of Geom.v) *)
  Definition vec_orthogonal (a b : vec3 K) (tol : K) : bool :=
    is_approx (vdot a b) #0 tol.

  (** ** IsParallel on entities (toolbox/src/parallel.cc:422-669); for a
      vector against an entity see AcmeVector.v. *)
  Definition par_line_line (a b : line K) tol := vec_parallel (ldir a) (ldir b) tol.
  Definition par_ray_ray (a b : ray K) tol := vec_parallel (ry_dir a) (ry_dir b) tol.
  Definition par_plane_plane (a b : plane K) tol := vec_parallel (pnormal a) (pnormal b) tol.
  Definition par_seg_seg (a b : segment K) tol :=
    vec_parallel (seg_unit_vector a) (seg_unit_vector b) tol.
  Definition par_tri_tri (a b : triangle K) tol :=
    vec_parallel (tri_normal a) (tri_normal b) tol.
  Definition par_disk_disk (a b : disk K) tol := vec_parallel (dnormal a) (dnormal b) tol.
  Definition par_line_ray (l : line K) (r : ray K) tol :=
    vec_parallel (ldir l) (ry_dir r) tol.
  Definition par_line_plane (l : line K) (p : plane K) tol :=
    vec_orthogonal (ldir l) (pnormal p) tol.
  Definition par_line_tri (l : line K) (t : triangle K) tol :=
    vec_orthogonal (ldir l) (tri_normal t) tol.
  Definition par_line_disk (l : line K) (d : disk K) tol :=
    vec_orthogonal (ldir l) (dnormal d) tol.
  Definition par_ray_plane (r : ray K) (p : plane K) tol :=
    vec_orthogonal (ry_dir r) (pnormal p) tol.
  Definition par_ray_seg (r : ray K) (s : segment K) tol :=
    vec_parallel (ry_dir r) (seg_unit_vector s) tol.
  Definition par_ray_tri (r : ray K) (t : triangle K) tol :=
    vec_orthogonal (ry_dir r) (tri_normal t) tol.
  Definition par_ray_disk (r : ray K) (d : disk K) tol :=
    vec_orthogonal (ry_dir r) (dnormal d) tol.
  Definition par_plane_seg (p : plane K) (s : segment K) tol :=
    vec_orthogonal (seg_unit_vector s) (pnormal p) tol.
  Definition par_plane_tri (p : plane K) (t : triangle K) tol :=
    vec_parallel (pnormal p) (tri_normal t) tol.
  Definition par_plane_disk (p : plane K) (d : disk K) tol :=
    vec_parallel (pnormal p) (dnormal d) tol.
  Definition par_seg_tri (s : segment K) (t : triangle K) tol :=
    vec_orthogonal (seg_unit_vector s) (tri_normal t) tol.
  Definition par_seg_disk (s : segment K) (d : disk K) tol :=
    vec_orthogonal (seg_unit_vector s) (dnormal d) tol.
  Definition par_tri_disk (t : triangle K) (d : disk K) tol :=
    vec_parallel (tri_normal t) (dnormal d) tol.

  (** ** IsOrthogonal on entities (toolbox/src/orthogonal.cc:424-672) *)
  Definition orth_line_line (a b : line K) tol := vec_orthogonal (ldir a) (ldir b) tol.
  Definition orth_ray_ray (a b : ray K) tol := vec_orthogonal (ry_dir a) (ry_dir b) tol.
  Definition orth_plane_plane (a b : plane K) tol :=
    vec_orthogonal (pnormal a) (pnormal b) tol.
  Definition orth_seg_seg (a b : segment K) tol :=
    vec_orthogonal (seg_unit_vector a) (seg_unit_vector b) tol.
  Definition orth_tri_tri (a b : triangle K) tol :=
    vec_orthogonal (tri_normal a) (tri_normal b) tol.
  Definition orth_disk_disk (a b : disk K) tol := vec_orthogonal (dnormal a) (dnormal b) tol.
  Definition orth_line_ray (l : line K) (r : ray K) tol :=
    vec_orthogonal (ldir l) (ry_dir r) tol.
  (** IsOrthogonal(line, plane), orthogonal.cc:508-516: the code tests
      [direction . normal] here, not parallelism with the normal. *)
  Definition orth_line_plane (l : line K) (p : plane K) tol :=
    vec_orthogonal (ldir l) (pnormal p) tol.
  Definition orth_line_seg (l : line K) (s : segment K) tol :=
    vec_orthogonal (ldir l) (seg_unit_vector s) tol.
  Definition orth_line_tri (l : line K) (t : triangle K) tol :=
    vec_parallel (ldir l) (tri_normal t) tol.
  Definition orth_line_disk (l : line K) (d : disk K) tol :=
    vec_parallel (ldir l) (dnormal d) tol.
  Definition orth_ray_plane (r : ray K) (p : plane K) tol :=
    vec_parallel (ry_dir r) (pnormal p) tol.
  Definition orth_ray_seg (r : ray K) (s : segment K) tol :=
    vec_orthogonal (ry_dir r) (seg_unit_vector s) tol.
  Definition orth_ray_tri (r : ray K) (t : triangle K) tol :=
    vec_parallel (ry_dir r) (tri_normal t) tol.
  Definition orth_ray_disk (r : ray K) (d : disk K) tol :=
    vec_parallel (ry_dir r) (dnormal d) tol.
  Definition orth_plane_seg (p : plane K) (s : segment K) tol :=
    vec_parallel (seg_unit_vector s) (pnormal p) tol.
  Definition orth_plane_tri (p : plane K) (t : triangle K) tol :=
    vec_orthogonal (pnormal p) (tri_normal t) tol.
  Definition orth_plane_disk (p : plane K) (d : disk K) tol :=
    vec_orthogonal (pnormal p) (dnormal d) tol.
  Definition orth_seg_tri (s : segment K) (t : triangle K) tol :=
    vec_parallel (seg_unit_vector s) (tri_normal t) tol.
  Definition orth_seg_disk (s : segment K) (d : disk K) tol :=
    vec_parallel (seg_unit_vector s) (dnormal d) tol.
  Definition orth_tri_disk (t : triangle K) (d : disk K) tol :=
    vec_orthogonal (tri_normal t) (dnormal d) tol.

  (** ** IsCollinear (toolbox/src/collinear.cc:144-215) *)
  Definition col_line_line (a b : line K) (tol : K) : bool :=
    vec_parallel (ldir a) (vsub (lorigin a) (lorigin b)) tol
    && vec_parallel (ldir a) (ldir b) tol.
  (** IsCollinear(ray, ray), collinear.cc:156-164: the second test compares
      the direction of the second ray with itself. *)
  Definition col_ray_ray (a b : ray K) (tol : K) : bool :=
    vec_parallel (ry_dir a) (vsub (ry_origin a) (ry_origin b)) tol
    && vec_parallel (ry_dir b) (ry_dir b) tol.
  Definition col_seg_seg (a b : segment K) (tol : K) : bool :=
    vec_parallel (seg_unit_vector a) (vsub (sv0 a) (sv0 b)) tol
    && vec_parallel (seg_unit_vector a) (seg_unit_vector b) tol.
  Definition col_line_ray (l : line K) (r : ray K) (tol : K) : bool :=
    vec_parallel (ldir l) (vsub (lorigin l) (ry_origin r)) tol
    && vec_parallel (ldir l) (ry_dir r) tol.
  Definition col_line_seg (l : line K) (s : segment K) (tol : K) : bool :=
    vec_parallel (ldir l) (vsub (lorigin l) (sv0 s)) tol
    && vec_parallel (ldir l) (seg_unit_vector s) tol.
  Definition col_ray_seg (r : ray K) (s : segment K) (tol : K) : bool :=
    vec_parallel (ry_dir r) (vsub (ry_origin r) (sv0 s)) tol
    && vec_parallel (ry_dir r) (seg_unit_vector s) tol.

  (** ** IsCoplanar (toolbox/src/coplanar.cc:340-592) *)
  Definition cop_line_line (a b : line K) (tol : K) : bool :=
    vis_orthogonal (vsub (lorigin a) (lorigin b)) (vcross (ldir a) (ldir b)) tol.
  Definition cop_ray_ray (a b : ray K) (tol : K) : bool :=
    vis_orthogonal (vsub (ry_origin a) (ry_origin b)) (vcross (ry_dir a) (ry_dir b)) tol.
  Definition cop_plane_plane (a b : plane K) (tol : K) : bool :=
    vec_parallel (pnormal a) (pnormal b) tol
    && is_approx (signed_distance a (porigin b)) #0 tol.
  Definition cop_seg_seg (a b : segment K) (tol : K) : bool :=
    vis_orthogonal (vsub (sv0 a) (sv0 b))
                   (vcross (seg_unit_vector a) (seg_unit_vector b)) tol.
  Definition cop_tri_tri (a b : triangle K) tol :=
    cop_plane_plane (tri_plane a) (tri_plane b) tol.
  Definition cop_disk_disk (a b : disk K) tol :=
    cop_plane_plane (dplane a) (dplane b) tol.
  Definition cop_line_ray (l : line K) (r : ray K) (tol : K) : bool :=
    vis_orthogonal (vsub (lorigin l) (ry_origin r)) (vcross (ldir l) (ry_dir r)) tol.
  Definition cop_line_plane (l : line K) (p : plane K) (tol : K) : bool :=
    vis_orthogonal (ldir l) (pnormal p) tol
    && vis_orthogonal (pnormal p) (vsub (lorigin l) (porigin p)) tol.
  Definition cop_line_seg (l : line K) (s : segment K) (tol : K) : bool :=
    vis_orthogonal (vsub (lorigin l) (sv0 s)) (vcross (ldir l) (seg_unit_vector s)) tol.
  Definition cop_line_tri (l : line K) (t : triangle K) tol :=
    cop_line_plane l (tri_plane t) tol.
  Definition cop_line_disk (l : line K) (d : disk K) tol := cop_line_plane l (dplane d) tol.
  Definition cop_ray_plane (r : ray K) (p : plane K) (tol : K) : bool :=
    vis_orthogonal (ry_dir r) (pnormal p) tol
    && vis_orthogonal (pnormal p) (vsub (ry_origin r) (porigin p)) tol.
  Definition cop_ray_seg (r : ray K) (s : segment K) (tol : K) : bool :=
    vis_orthogonal (vsub (ry_origin r) (sv0 s)) (vcross (ry_dir r) (seg_unit_vector s)) tol.
  Definition cop_ray_tri (r : ray K) (t : triangle K) tol :=
    cop_ray_plane r (tri_plane t) tol.
  Definition cop_ray_disk (r : ray K) (d : disk K) tol := cop_ray_plane r (dplane d) tol.
  Definition cop_plane_seg (p : plane K) (s : segment K) (tol : K) : bool :=
    vis_orthogonal (seg_unit_vector s) (pnormal p) tol
    && vis_orthogonal (pnormal p) (vsub (sv0 s) (porigin p)) tol.
  Definition cop_plane_tri (p : plane K) (t : triangle K) tol :=
    cop_plane_plane p (tri_plane t) tol.
  Definition cop_plane_disk (p : plane K) (d : disk K) tol :=
    cop_plane_plane p (dplane d) tol.
  Definition cop_seg_tri (s : segment K) (t : triangle K) tol :=
    cop_plane_seg (tri_plane t) s tol.
  Definition cop_seg_disk (s : segment K) (d : disk K) tol :=
    cop_plane_seg (dplane d) s tol.
  Definition cop_tri_disk (t : triangle K) (d : disk K) tol :=
    cop_plane_plane (tri_plane t) (dplane d) tol.

  (** ** Intersections, collinear entities
      (toolbox/src/intersection.cc:1147-1439) *)
  Definition int_line_line_col (a b : line K) (tol : K) : option (line K) :=
    if col_line_line a b tol then Some a else None.
  (** intersection.cc:1168-1197. *)
  Definition int_ray_ray_ray (a b : ray K) (tol : K) : option (ray K) :=
    if col_ray_ray a b tol && (vdot (ry_dir a) (ry_dir b) >? #0) then
      if ray_is_inside a (ry_origin b) tol then Some b
      else if ray_is_inside b (ry_origin a) tol then Some a
      else None
    else None.
  (** intersection.cc:1201-1226. *)
  Definition int_ray_ray_seg (a b : ray K) (tol : K) : option (segment K) :=
    if col_ray_ray a b tol && (vdot (ry_dir a) (ry_dir b) <? #0) then
      if ray_is_inside a (ry_origin b) tol && ray_is_inside b (ry_origin a) tol
      then Some (Segment (ry_origin a) (ry_origin b))
      else None
    else None.
  (** intersection.cc:1230-1355: the four bits are [s0_p0 in s1],
      [s0_p1 in s1], [s1_p0 in s0], [s1_p1 in s0]; a single bit set throws. *)
  Definition int_seg_seg_seg (a b : segment K) (tol : K) : outcome (option (segment K)) :=
    if col_seg_seg a b tol then
      match seg_is_inside b (sv0 a) tol, seg_is_inside b (sv1 a) tol,
            seg_is_inside a (sv0 b) tol, seg_is_inside a (sv1 b) tol with
      | true, true, true, true => Ret (Some (Segment (sv0 a) (sv1 a)))
      | false, true, true, true => Ret (Some (Segment (sv0 b) (sv1 b)))
      | true, false, true, true => Ret (Some (Segment (sv0 b) (sv1 b)))
      | true, true, false, true => Ret (Some (Segment (sv0 a) (sv1 a)))
      | true, true, true, false => Ret (Some (Segment (sv0 a) (sv1 a)))
      | false, true, false, true => Ret (Some (Segment (sv1 a) (sv1 b)))
      | false, true, true, false => Ret (Some (Segment (sv1 a) (sv0 b)))
      | true, false, false, true => Ret (Some (Segment (sv0 a) (sv1 b)))
      | true, false, true, false => Ret (Some (Segment (sv0 a) (sv0 b)))
      | true, true, false, false => Ret (Some (Segment (sv0 a) (sv1 a)))
      | false, false, true, true => Ret (Some (Segment (sv0 b) (sv1 b)))
      | false, false, false, false => Ret None
      | _, _, _, _ => Throw RuntimeError
      end
    else Ret None.
  (** intersection.cc:1359-1376 and 1380-1397. *)
  Definition int_line_ray_ray (l : line K) (r : ray K) (tol : K) : option (ray K) :=
    if col_line_ray l r tol then Some r else None.
  Definition int_line_seg_seg (l : line K) (s : segment K) (tol : K) : option (segment K) :=
    if col_line_seg l s tol then Some s else None.
  (** intersection.cc:1401-1439. *)
  Definition int_ray_seg_seg (r : ray K) (s : segment K) (tol : K) : option (segment K) :=
    if col_ray_seg r s tol then
      match ray_is_inside r (sv0 s) tol, ray_is_inside r (sv1 s) tol with
      | true, true => Some s
      | true, false => Some (Segment (ry_origin r) (sv0 s))
      | false, true => Some (Segment (ry_origin r) (sv1 s))
      | false, false => None
      end
    else None.

  (** ** Intersections with a point (intersection.cc:1454-1597) *)
  Definition int_point (inside : bool) (p : vec3 K) : option (vec3 K) :=
    if inside then Some p else None.
  Definition int_point_point (p q : vec3 K) tol := int_point (vis_approx p q tol) p.
  Definition int_point_line (p : vec3 K) (l : line K) tol :=
    int_point (line_is_inside l p tol) p.
  Definition int_point_ray (p : vec3 K) (r : ray K) tol :=
    int_point (ray_is_inside r p tol) p.
  Definition int_point_plane (p : vec3 K) (a : plane K) tol :=
    int_point (plane_is_inside a p tol) p.
  Definition int_point_seg (p : vec3 K) (s : segment K) tol :=
    int_point (seg_is_inside s p tol) p.
  Definition int_point_tri (p : vec3 K) (t : triangle K) tol :=
    int_point (tri_is_inside t p tol) p.
  Definition int_point_disk (p : vec3 K) (d : disk K) tol :=
    int_point (disk_is_inside d p tol) p.

  (** ** Intersections in a point (intersection.cc:1610-1815).  The two
      abscissas [t0] and [t1] are computed in the same way by all of them. *)
  Definition cross_t0 (o0 d0 o1 d1 : vec3 K) : K :=
    let a0 := vcross d0 d1 in
    let b0 := vcross (vsub o1 o0) d1 in
    vdot b0 a0 / vdot a0 a0.
  Definition cross_t1 (o0 d0 o1 d1 : vec3 K) : K :=
    let a1 := vopp (vcross d0 d1) in
    let b1 := vcross (vsub o0 o1) d0 in
    vdot b1 a1 / vdot a1 a1.
  (** intersection.cc:1610-1635. *)
  Definition int_line_line (a b : line K) (tol : K) : option (vec3 K) :=
    if negb (par_line_line a b tol) then
      let t := cross_t0 (lorigin a) (ldir a) (lorigin b) (ldir b) in
      Some (vadd (lorigin a) (vmul t (ldir a)))
    else None.
  (** intersection.cc:1639-1671. *)
  Definition int_ray_ray (a b : ray K) (tol : K) : option (vec3 K) :=
    if negb (par_ray_ray a b tol) then
      let t0 := cross_t0 (ry_origin a) (ry_dir a) (ry_origin b) (ry_dir b) in
      let t1 := cross_t1 (ry_origin a) (ry_dir a) (ry_origin b) (ry_dir b) in
      if (t0 <? #0 - tol) || (t1 <? #0 - tol) then None
      else Some (vadd (ry_origin a) (vmul t0 (ry_dir a)))
    else None.
  (** intersection.cc:1675-1707. *)
  Definition int_seg_seg (a b : segment K) (tol : K) : option (vec3 K) :=
    if negb (par_seg_seg a b tol) then
      let t0 := cross_t0 (sv0 a) (seg_vector a) (sv0 b) (seg_vector b) in
      let t1 := cross_t1 (sv0 a) (seg_vector a) (sv0 b) (seg_vector b) in
      if (t0 <? #0 - tol) || (t1 <? #0 - tol) || (t0 >? #1 + tol) || (t1 >? #1 + tol)
      then None
      else Some (vadd (sv0 a) (vmul t0 (seg_vector a)))
    else None.
  (** intersection.cc:1711-1743. *)
  Definition int_line_ray (l : line K) (r : ray K) (tol : K) : option (vec3 K) :=
    if negb (par_line_ray l r tol) then
      let t0 := cross_t0 (lorigin l) (ldir l) (ry_origin r) (ry_dir r) in
      let t1 := cross_t1 (lorigin l) (ldir l) (ry_origin r) (ry_dir r) in
      if t1 <? #0 - tol then None
      else Some (vadd (lorigin l) (vmul t0 (ldir l)))
    else None.
  (** intersection.cc:1783-1815. *)
  Definition int_ray_seg (r : ray K) (s : segment K) (tol : K) : option (vec3 K) :=
    if negb (par_ray_seg r s tol) then
      let t0 := cross_t0 (ry_origin r) (ry_dir r) (sv0 s) (seg_vector s) in
      let t1 := cross_t1 (ry_origin r) (ry_dir r) (sv0 s) (seg_vector s) in
      if (t0 <? #0 - tol) || (t1 <? #0 - tol) || (t1 >? #1 + tol) then None
      else Some (vadd (ry_origin r) (vmul t0 (ry_dir r)))
    else None.

  (** ** Intersections of coplanar entities (intersection.cc:1830-2262) *)
  Definition int_plane_plane_plane (a b : plane K) (tol : K) : option (plane K) :=
    if cop_plane_plane a b tol then Some a else None.
  Definition int_line_plane_line (l : line K) (p : plane K) (tol : K) : option (line K) :=
    if cop_line_plane l p tol then Some l else None.
  Definition int_ray_plane_ray (r : ray K) (p : plane K) (tol : K) : option (ray K) :=
    if cop_ray_plane r p tol then Some r else None.
  (** intersection.cc:2054-2067. *)
  Definition int_ray_triangle_seg (r : ray K) (t : triangle K) (tol : K)
    : outcome (option (segment K)) :=
    let* s := int_line_triangle_seg (Line (ry_origin r) (ry_dir r)) t tol in
    match s with
    | Some s => Ret (int_ray_seg_seg r s tol)
    | None => Ret None
    end.
  (** intersection.cc:2071-2114. *)
  Definition int_ray_disk_seg (r : ray K) (d : disk K) (tol : K) : option (segment K) :=
    let rad := dradius d in
    let o := ry_origin r in
    let dir := ry_dir r in
    let diff := vsub o (dcenter d) in
    let a2 := vdot dir dir in
    let a1 := vdot diff dir in
    let a0 := vdot diff diff - rad * rad in
    let disc := a1 * a1 - a0 * a2 in
    if disc <? - tol then None
    else
      let inv := #1 / a2 in
      if nabs disc <? tol then
        let t := - a1 * inv in
        if t <? #0 then None
        else let p := vadd o (vmul t dir) in Some (Segment p p)
      else
        let root := nsqrt disc in
        let t0 := - (a1 + root) * inv in
        let t1 := - (a1 - root) * inv in
        if (t0 <? #0) && (t1 <? #0) then None
        else
          let t0 := nmax #0 t0 in
          let t1 := nmax #0 t1 in
          Some (Segment (vadd o (vmul t0 dir)) (vadd o (vmul t1 dir))).
  Definition int_plane_seg_seg (p : plane K) (s : segment K) (tol : K)
    : option (segment K) := if cop_plane_seg p s tol then Some s else None.
  Definition int_plane_tri_tri (p : plane K) (t : triangle K) (tol : K)
    : option (triangle K) := if cop_plane_tri p t tol then Some t else None.
  Definition int_plane_disk_disk (p : plane K) (d : disk K) (tol : K)
    : option (disk K) := if cop_plane_disk p d tol then Some d else None.
  (** intersection.cc:2181-2195. *)
  Definition int_seg_triangle_seg (s : segment K) (t : triangle K) (tol : K)
    : outcome (option (segment K)) :=
    let* c := int_line_triangle_seg (Line (sv0 s) (seg_unit_vector s)) t tol in
    match c with
    | Some c => int_seg_seg_seg s c tol
    | None => Ret None
    end.

  (** ** Intersections in general position (intersection.cc:2310-2863) *)
  (** Three planes, intersection.cc:2310-2338. *)
  Definition int_three_planes (p0 p1 p2 : plane K) (tol : K) : option (vec3 K) :=
    let n0 := pnormal p0 in
    let n1 := pnormal p1 in
    let n2 := pnormal p2 in
    let det := mdet (of_cols n0 n1 n2) in
    if is_approx det #0 tol then None
    else
      Some (vdiv (vadd (vadd (vmulr (vcross n1 n2) (- plane_d p0))
                             (vmulr (vcross n2 n0) (- plane_d p1)))
                       (vmulr (vcross n0 n1) (- plane_d p2))) det).
  (** A default-constructed segment: toolbox/src/acme/segment.hxx:58. *)
  Definition nan_segment : segment K := Segment nan_vec nan_vec.
  Definition seg_or_nan (s : option (segment K)) : segment K :=
    match s with Some s => s | None => nan_segment end.
  (** intersection.cc:2342-2362: the two flags are ignored, a segment that
      was not written keeps its NaN initial value. *)
  Definition int_tri_tri_seg (a b : triangle K) (tol : K) : outcome (option (segment K)) :=
    match int_plane_plane (tri_plane a) (tri_plane b) tol with
    | Some l =>
      let* s0 := int_line_triangle_seg l a tol in
      let* s1 := int_line_triangle_seg l b tol in
      int_seg_seg_seg (seg_or_nan s0) (seg_or_nan s1) tol
    | None => Ret None
    end.
  (** intersection.cc:2366-2386. *)
  Definition int_disk_disk_seg (a b : disk K) (tol : K) : outcome (option (segment K)) :=
    match int_plane_plane (dplane a) (dplane b) tol with
    | Some l => int_seg_seg_seg (seg_or_nan (int_line_disk l a tol))
                                (seg_or_nan (int_line_disk l b tol)) tol
    | None => Ret None
    end.
  (** Intersection(triangle, triangle, none), intersection.cc:1851-1868: a
      flag only. *)
  Definition int_tri_tri_none (a b : triangle K) (tol : K) : outcome bool :=
    if negb (cop_tri_tri a b tol) then
      let* s := int_tri_tri_seg a b tol in
      Ret (match s with Some _ => true | None => false end)
    else
      Ret (tri_is_inside a (tv0 b) tol || tri_is_inside a (tv1 b) tol
           || tri_is_inside a (tv2 b) tol || tri_is_inside b (tv0 a) tol
           || tri_is_inside b (tv1 a) tol || tri_is_inside b (tv2 a) tol).
  (** intersection.cc:2453-2465. *)
  Definition int_line_disk_point (l : line K) (d : disk K) (tol : K) : option (vec3 K) :=
    match int_line_plane l (dplane d) tol with
    | Some p => if disk_is_inside d p tol then Some p else None
    | None => None
    end.
  (** intersection.cc:2469-2494. *)
  Definition int_line_ball (l : line K) (b : ball K) (tol : K) : option (segment K) :=
    let o := lorigin l in
    let dir := line_unit_vector l in
    let diff := vsub o (bl_center b) in
    let a0 := vdot diff diff - bl_radius b * bl_radius b in
    let a1 := vdot dir diff in
    let discr := a1 * a1 - a0 in
    if discr >? tol then
      let root := nsqrt discr in
      Some (Segment (vadd o (vmul (- a1 - root) dir)) (vadd o (vmul (- a1 + root) dir)))
    else None.
  (** intersection.cc:2498-2526. *)
  Definition int_ray_plane (r : ray K) (p : plane K) (tol : K) : option (vec3 K) :=
    let o := ry_origin r in
    let dir := ry_dir r in
    let det := vdot dir (pnormal p) in
    if nabs det >? tol then
      let t := - vdot (vsub o (porigin p)) (pnormal p) / det in
      if t >? tol then Some (vadd o (vmul t dir)) else None
    else None.
  (** The common part of intersection.cc:2530-2571 and 2718-2759: the
      abscissa [t] of the line through [o] along [dir] on the triangle. *)
  Definition mt_abscissa (o dir : vec3 K) (tr : triangle K) (tol : K) : option K :=
    let v0 := tv0 tr in
    let e1 := vsub (tv1 tr) v0 in
    let e2 := vsub (tv2 tr) v0 in
    let h := vcross dir e2 in
    let a := vdot e1 h in
    if (a >? - tol) && (a <? tol) then None
    else
      let f := #1 / a in
      let s := vsub o v0 in
      let u := f * vdot s h in
      if (u <? #0 - tol) || (u >? #1 + tol) then None
      else
        let q := vcross s e1 in
        let v := f * vdot dir q in
        if (v <? #0 - tol) || (u + v >? #1 + tol) then None
        else Some (f * vdot e2 q).
  Definition int_ray_triangle (r : ray K) (tr : triangle K) (tol : K) : option (vec3 K) :=
    match mt_abscissa (ry_origin r) (ry_dir r) tr tol with
    | Some t =>
      if t >=? #0 - tol then Some (vadd (ry_origin r) (vmul t (ry_dir r))) else None
    | None => None
    end.
  Definition int_seg_triangle (s : segment K) (tr : triangle K) (tol : K)
    : option (vec3 K) :=
    match mt_abscissa (sv0 s) (seg_vector s) tr tol with
    | Some t =>
      if (t >=? #0 - tol) && (t <=? #1 + tol)
      then Some (vadd (sv0 s) (vmulr (seg_vector s) t)) else None
    | None => None
    end.
  (** intersection.cc:2575-2587. *)
  Definition int_ray_disk_point (r : ray K) (d : disk K) (tol : K) : option (vec3 K) :=
    match int_ray_plane r (dplane d) tol with
    | Some p => if disk_is_inside d p tol then Some p else None
    | None => None
    end.
  (** intersection.cc:2591-2622. *)
  Definition int_ray_ball (r : ray K) (b : ball K) (tol : K) : option (segment K) :=
    let o := ry_origin r in
    let dir := ray_unit_vector r in
    let diff := vsub o (bl_center b) in
    let a0 := vdot diff diff - bl_radius b * bl_radius b in
    let a1 := vdot dir diff in
    let discr := a1 * a1 - a0 in
    if discr >? tol then
      let root := nsqrt discr in
      let t0 := - a1 - root in
      let t1 := - a1 + root in
      if (t0 <? #0) && (t1 <? #0) then None
      else
        let t0 := nmax t0 #0 in
        let t1 := nmax t1 #0 in
        Some (Segment (vadd o (vmul t0 dir)) (vadd o (vmul t1 dir)))
    else None.
  (** intersection.cc:2626-2654. *)
  Definition int_plane_seg (p : plane K) (s : segment K) (tol : K) : option (vec3 K) :=
    let o := sv0 s in
    let dir := seg_vector s in
    let det := vdot dir (pnormal p) in
    if nabs det >? tol then
      let t := - vdot (vsub o (porigin p)) (pnormal p) / det in
      if (t >=? #0 - tol) && (t <=? #1 + tol) then Some (vadd o (vmul t dir)) else None
    else None.
  (** intersection.cc:2692-2714 (the tolerance is unused). *)
  Definition int_plane_ball (p : plane K) (b : ball K) : option (disk K) :=
    let n := plane_unit_normal p in
    let sd := vdot (vsub (bl_center b) (porigin p)) n in
    let dist := nabs sd in
    if dist <=? bl_radius b then
      Some (mk_disk (nsqrt ((bl_radius b + dist) * (bl_radius b - dist)))
                    (vsub (bl_center b) (vmul sd n)) n)
    else None.
  (** intersection.cc:2763-2775. *)
  Definition int_seg_disk_point (s : segment K) (d : disk K) (tol : K) : option (vec3 K) :=
    match int_plane_seg (dplane d) s tol with
    | Some p => if disk_is_inside d p tol then Some p else None
    | None => None
    end.
  (** intersection.cc:2779-2812: the direction is not normalised. *)
  Definition int_seg_ball (s : segment K) (b : ball K) (tol : K) : option (segment K) :=
    let o := sv0 s in
    let dir := seg_vector s in
    let diff := vsub o (bl_center b) in
    let a0 := vdot diff diff - bl_radius b * bl_radius b in
    let a1 := vdot dir diff in
    let discr := a1 * a1 - a0 in
    if discr >? tol then
      let root := nsqrt discr in
      let t0 := - a1 - root in
      let t1 := - a1 + root in
      if ((t0 <? #0) && (t1 <? #0)) || ((t0 >? #1) && (t1 >? #1)) then None
      else
        let t0 := nmin (nmax t0 #0) #1 in
        let t1 := nmin (nmax t1 #0) #1 in
        Some (Segment (vadd o (vmul t0 dir)) (vadd o (vmul t1 dir)))
    else None.
  (** Boxes, intersection.cc:2878-2902; [aabb_out] keeps its own id. *)
  Definition int_box_box (a b out : aabb K) : option (aabb K) :=
    let lo x y := if x <=? y then y else x in
    let hi x y := if x <=? y then x else y in
    if negb (intersects a b) then None
    else
      Some (Box (V (lo (vx (bmin a)) (vx (bmin b))) (lo (vy (bmin a)) (vy (bmin b)))
                   (lo (vz (bmin a)) (vz (bmin b))))
                (V (hi (vx (bmax a)) (vx (bmax b))) (hi (vy (bmax a)) (vy (bmax b)))
                   (hi (vz (bmax a)) (vz (bmax b))))
                (bid out)).
End Acme.
