(** * Geometric entities of acme used by enve
      (toolbox/src/{math,line,plane,segment,triangle,disk,parallel}.cc). *)
From Coq Require Import ZArith Bool List.
From Verif Require Import Base Num Vec.
Import ListNotations.
Local Open Scope num_scope.

(** toolbox/src/acme/line.hxx:58-59. *)
Record line (K : Type) : Type := Line { lorigin : vec3 K; ldir : vec3 K }.
Arguments Line {K} lorigin ldir.
Arguments lorigin {K} l.
Arguments ldir {K} l.

(** toolbox/src/acme/plane.hxx:57-58. *)
Record plane (K : Type) : Type := Plane { porigin : vec3 K; pnormal : vec3 K }.
Arguments Plane {K} porigin pnormal.
Arguments porigin {K} p.
Arguments pnormal {K} p.

(** toolbox/src/acme/segment.hxx: [m_vertex[2]]. *)
Record segment (K : Type) : Type := Segment { sv0 : vec3 K; sv1 : vec3 K }.
Arguments Segment {K} sv0 sv1.
Arguments sv0 {K} s.
Arguments sv1 {K} s.

(** toolbox/src/acme/triangle.hxx: [m_vertex[3]]. *)
Record triangle (K : Type) : Type := Triangle { tv0 : vec3 K; tv1 : vec3 K; tv2 : vec3 K }.
Arguments Triangle {K} tv0 tv1 tv2.
Arguments tv0 {K} t.
Arguments tv1 {K} t.
Arguments tv2 {K} t.

(** toolbox/src/acme/disk.hxx: [m_radius], [m_plane]. *)
Record disk (K : Type) : Type := Disk { dradius : K; dplane : plane K }.
Arguments Disk {K} dradius dplane.
Arguments dradius {K} d.
Arguments dplane {K} d.

Section Geom.
  Context {K : Type} {NK : Num K}.

  (** IsApprox(real, real, tol), toolbox/src/math.cc:50-58. *)
  Definition is_approx (a b tol : K) : bool := nabs (a - b) <? tol.

  (** Angle, toolbox/src/math.cc:73-80. *)
  Definition vangle (a b : vec3 K) : K := nacos (vdot a b / (vnorm a * vnorm b)).

  (** line::isApprox, toolbox/src/line.cc:82-91. *)
  Definition line_is_approx (a b : line K) (tol : K) : bool :=
    vis_approx (lorigin a) (lorigin b) tol && vis_approx (ldir a) (ldir b) tol.
  (** line::isInside, toolbox/src/line.cc:184-192. *)
  Definition line_is_inside (l : line K) (p : vec3 K) (tol : K) : bool :=
    is_approx (vnorm (vcross (vnormalized (vsub p (lorigin l))) (ldir l))) #0 tol.
  (** line::isDegenerated, toolbox/src/line.cc:196-203. *)
  Definition line_is_degenerated (l : line K) (tol : K) : bool :=
    is_approx (vnorm (ldir l)) #0 tol.

  (** plane::isApprox, toolbox/src/plane.cc:82-91. *)
  Definition plane_is_approx (a b : plane K) (tol : K) : bool :=
    vis_approx (porigin a) (porigin b) tol && vis_approx (pnormal a) (pnormal b) tol.
  (** plane::normalize, toolbox/src/plane.cc:138-142. *)
  Definition plane_normalize (p : plane K) : plane K :=
    Plane (porigin p) (vnormalized (pnormal p)).
  (** plane::d, toolbox/src/plane.cc:154-159. *)
  Definition plane_d (p : plane K) : K := - vdot (porigin p) (pnormal p).
  (** plane::signedDistance, toolbox/src/plane.cc:186-193. *)
  Definition signed_distance (p : plane K) (q : vec3 K) : K :=
    vdot (vsub q (porigin p)) (pnormal p).
  (** plane::distance, toolbox/src/plane.cc:163-170. *)
  Definition plane_distance (p : plane K) (q : vec3 K) : K := nabs (signed_distance p q).
  (** plane::squaredDistance, toolbox/src/plane.cc:174-182. *)
  Definition plane_squared_distance (p : plane K) (q : vec3 K) : K :=
    let d := signed_distance p q in d * d.
  (** plane::isInside, toolbox/src/plane.cc:218-226. *)
  Definition plane_is_inside (p : plane K) (q : vec3 K) (tol : K) : bool :=
    plane_distance p q <? tol.
  (** plane::isDegenerated, toolbox/src/plane.cc:230-237. *)
  Definition plane_is_degenerated (p : plane K) (tol : K) : bool :=
    is_approx (vnorm (pnormal p)) #0 tol.

  (** segment::centroid, toolbox/src/segment.cc:102-107. *)
  Definition seg_centroid (s : segment K) : vec3 K := vdiv (vadd (sv0 s) (sv1 s)) #2.
  (** segment::toVector, toolbox/src/segment.cc:153-158. *)
  Definition seg_vector (s : segment K) : vec3 K := vsub (sv1 s) (sv0 s).
  (** segment::toUnitVector, toolbox/src/segment.cc:162-167. *)
  Definition seg_unit_vector (s : segment K) : vec3 K := vnormalized (vsub (sv1 s) (sv0 s)).
  (** segment::length, toolbox/src/segment.cc:181-186. *)
  Definition seg_length (s : segment K) : K := vnorm (vsub (sv0 s) (sv1 s)).
  (** segment::isInside, toolbox/src/segment.cc:212-223. *)
  Definition seg_is_inside (s : segment K) (q : vec3 K) (tol : K) : bool :=
    let d0 := seg_length s in
    let d1 := vnorm (vsub q (sv0 s)) in
    let d2 := vnorm (vsub q (sv1 s)) in
    nabs (d0 - d1 - d2) <=? tol.
  (** segment::isDegenerated, toolbox/src/segment.cc:227-234. *)
  Definition seg_is_degenerated (s : segment K) (tol : K) : bool :=
    is_approx (vnorm (vsub (sv0 s) (sv1 s))) #0 tol.

  (** triangle::isApprox, toolbox/src/triangle.cc:95-105. *)
  Definition tri_is_approx (a b : triangle K) (tol : K) : bool :=
    vis_approx (tv0 a) (tv0 b) tol && vis_approx (tv1 a) (tv1 b) tol
    && vis_approx (tv2 a) (tv2 b) tol.
  (** triangle::centroid, toolbox/src/triangle.cc:175-180. *)
  Definition tri_centroid (t : triangle K) : vec3 K :=
    vdiv (vadd (vadd (tv0 t) (tv1 t)) (tv2 t)) #3.
  (** triangle::edge(0..2), toolbox/src/triangle.cc:184-202; the code only
      calls it with the literals 0, 1 and 2. *)
  Definition tri_edge0 (t : triangle K) : segment K := Segment (tv0 t) (tv1 t).
  Definition tri_edge1 (t : triangle K) : segment K := Segment (tv1 t) (tv2 t).
  Definition tri_edge2 (t : triangle K) : segment K := Segment (tv2 t) (tv0 t).
  (** triangle::normal, toolbox/src/triangle.cc:206-211. *)
  Definition tri_normal (t : triangle K) : vec3 K :=
    vnormalized (vcross (vsub (tv1 t) (tv0 t)) (vsub (tv2 t) (tv0 t))).
  (** triangle::perimeter, toolbox/src/triangle.cc:229-236. *)
  Definition tri_perimeter (t : triangle K) : K :=
    vnorm (vsub (tv0 t) (tv1 t)) + vnorm (vsub (tv1 t) (tv2 t))
    + vnorm (vsub (tv2 t) (tv0 t)).
  (** triangle::area, toolbox/src/triangle.cc:240-245. *)
  Definition tri_area (t : triangle K) : K :=
    vnorm (vcross (vsub (tv1 t) (tv0 t)) (vsub (tv2 t) (tv0 t))) / #2.
  (** triangle::barycentric, toolbox/src/triangle.cc:249-270: (u, v, w). *)
  Definition tri_barycentric (t : triangle K) (p : vec3 K) : K * K * K :=
    let v0 := vsub (tv1 t) (tv0 t) in
    let v1 := vsub (tv2 t) (tv0 t) in
    let v2 := vsub p (tv0 t) in
    let d00 := vdot v0 v0 in
    let d01 := vdot v0 v1 in
    let d11 := vdot v1 v1 in
    let d20 := vdot v2 v0 in
    let d21 := vdot v2 v1 in
    let denom := d00 * d11 - d01 * d01 in
    let v := (d11 * d20 - d01 * d21) / denom in
    let w := (d00 * d21 - d01 * d20) / denom in
    (#1 - v - w, v, w).
  (** triangle::layingPlane, toolbox/src/triangle.cc:274-279. *)
  Definition tri_plane (t : triangle K) : plane K := Plane (tri_centroid t) (tri_normal t).
  (** triangle::isInside, toolbox/src/triangle.cc:307-326. *)
  Definition tri_is_inside (t : triangle K) (p : vec3 K) (tol : K) : bool :=
    let '(u, v, w) := tri_barycentric t p in
    if (u >=? #0 - tol) && (u <=? #1 + tol) && (v >=? #0 - tol) && (v <=? #1 + tol)
       && (w >=? #0 - tol) && (w <=? #1 + tol)
    then plane_is_inside (tri_plane t) p tol else false.
  (** triangle::isDegenerated, toolbox/src/triangle.cc:330-339. *)
  Definition tri_is_degenerated (t : triangle K) (tol : K) : bool :=
    is_approx (vnorm (vsub (tv0 t) (tv1 t))) #0 tol
    || is_approx (vnorm (vsub (tv1 t) (tv2 t))) #0 tol
    || is_approx (vnorm (vsub (tv2 t) (tv0 t))) #0 tol.

  (** disk::disk(radius, center, normal), toolbox/src/disk.cc:67-75, and the
      accessors center()/normal(), 125-155. *)
  Definition mk_disk (r : K) (c n : vec3 K) : disk K := Disk r (Plane c n).
  Definition dcenter (d : disk K) : vec3 K := porigin (dplane d).
  Definition dnormal (d : disk K) : vec3 K := pnormal (dplane d).
  (** disk::isApprox, toolbox/src/disk.cc:94-104. *)
  Definition disk_is_approx (a b : disk K) (tol : K) : bool :=
    is_approx (dradius a) (dradius b) tol && vis_approx (dcenter a) (dcenter b) tol
    && vis_approx (dnormal a) (dnormal b) tol.
  (** disk::perimeter and disk::area, toolbox/src/disk.cc:192-206. *)
  Definition disk_perimeter (d : disk K) : K := npi * dradius d * dradius d.
  Definition disk_area (d : disk K) : K := #2 * npi * dradius d.
  (** disk::isInside, toolbox/src/disk.cc:230-239. *)
  Definition disk_is_inside (d : disk K) (p : vec3 K) (tol : K) : bool :=
    plane_is_inside (dplane d) p tol && (vnorm (vsub (dcenter d) p) <=? dradius d).
  (** disk::isDegenerated, toolbox/src/disk.cc:243-251. *)
  Definition disk_is_degenerated (d : disk K) (tol : K) : bool :=
    is_approx (dradius d) #0 tol || plane_is_degenerated (dplane d) tol.

  (** IsParallel(vec3, vec3), toolbox/src/parallel.cc:340-348. *)
  Definition vec_parallel (a b : vec3 K) (tol : K) : bool :=
    is_approx (vnorm (vcross a b)) #0 tol.
  (** IsParallel(line, segment), toolbox/src/parallel.cc:517-525. *)
  Definition line_seg_parallel (l : line K) (s : segment K) (tol : K) : bool :=
    vec_parallel (ldir l) (seg_unit_vector s) tol.

  (** ** Intersections (toolbox/src/intersection.cc).

      An intersection function returns a flag and writes an output argument
      only when it returns [true]; the model returns [Some out] or [None]. *)

  (** Intersection(line, segment, point), toolbox/src/intersection.cc:1747-1779. *)
  Definition int_line_segment (l : line K) (s : segment K) (tol : K) : option (vec3 K) :=
    if negb (line_seg_parallel l s tol) then
      let o0 := lorigin l in
      let d0 := ldir l in
      let o1 := sv0 s in
      let d1 := seg_vector s in
      let a0 := vcross d0 d1 in
      let b0 := vcross (vsub o1 o0) d1 in
      let t0 := vdot b0 a0 / vdot a0 a0 in
      let a1 := vopp a0 in
      let b1 := vcross (vsub o0 o1) d0 in
      let t1 := vdot b1 a1 / vdot a1 a1 in
      if (t1 <? #0 - tol) || (t1 >? #1 + tol) then None
      else Some (vadd o0 (vmul t0 d0))
    else None.

  (** Intersection(line, triangle, segment),
      toolbox/src/intersection.cc:1927-1991; throws when the line hits the
      three edges in three different points. *)
  Definition int_line_triangle_seg (l : line K) (t : triangle K) (tol : K)
    : outcome (option (segment K)) :=
    match int_line_segment l (tri_edge0 t) tol,
          int_line_segment l (tri_edge1 t) tol,
          int_line_segment l (tri_edge2 t) tol with
    | Some p0, Some p1, None => Ret (Some (Segment p0 p1))
    | None, Some p1, Some p2 => Ret (Some (Segment p1 p2))
    | Some p0, None, Some p2 => Ret (Some (Segment p2 p0))
    | Some p0, Some p1, Some p2 =>
      if vis_approx p0 p1 tol then Ret (Some (Segment p1 p2))
      else if vis_approx p1 p2 tol then Ret (Some (Segment p0 p1))
      else if vis_approx p0 p2 tol then Ret (Some (Segment p0 p1))
      else Throw RuntimeError
    | _, _, _ => Ret None
    end.

  (** Intersection(line, disk, segment), toolbox/src/intersection.cc:1995-2029. *)
  Definition int_line_disk (l : line K) (d : disk K) (tol : K) : option (segment K) :=
    let r := dradius d in
    let o := lorigin l in
    let dir := ldir l in
    let diff := vsub o (dcenter d) in
    let a2 := vdot dir dir in
    let a1 := vdot diff dir in
    let a0 := vdot diff diff - r * r in
    let disc := a1 * a1 - a0 * a2 in
    if disc <? - tol then None
    else
      let inv := #1 / a2 in
      if nabs disc <? tol then
        let p := vsub o (vmul (a1 * inv) dir) in Some (Segment p p)
      else
        let root := nsqrt disc in
        Some (Segment (vsub o (vmul ((a1 + root) * inv) dir))
                      (vsub o (vmul ((a1 - root) * inv) dir))).

  (** Intersection(segment, disk, segment), toolbox/src/intersection.cc:2199-2245. *)
  Definition int_segment_disk (s : segment K) (d : disk K) (tol : K) : option (segment K) :=
    if seg_is_degenerated s tol || disk_is_degenerated d tol then None
    else
      let r := dradius d in
      let o := sv0 s in
      let dir := seg_vector s in
      let diff := vsub o (dcenter d) in
      let a2 := vdot dir dir in
      let a1 := vdot diff dir in
      let a0 := vdot diff diff - r * r in
      let disc := a1 * a1 - a0 * a2 in
      if disc <? - tol then None
      else
        let inv := #1 / a2 in
        if nabs disc <? tol then
          let t := - a1 * inv in
          if (t <? #0) || (t >? #1) then None
          else let p := vadd o (vmul t dir) in Some (Segment p p)
        else
          let root := nsqrt disc in
          let t0 := - (a1 + root) * inv in
          let t1 := - (a1 - root) * inv in
          if ((t0 <? #0) && (t1 <? #0)) || ((t0 >? #1) && (t1 >? #1)) then None
          else
            let t0 := nmax #0 (nmin t0 #1) in
            let t1 := nmax #0 (nmin t1 #1) in
            Some (Segment (vadd o (vmul t0 dir)) (vadd o (vmul t1 dir))).

  (** Intersection(plane, plane, line), toolbox/src/intersection.cc:2277-2306. *)
  Definition int_plane_plane (p0 p1 : plane K) (tol : K) : option (line K) :=
    let n0 := vnormalized (pnormal p0) in
    let n1 := vnormalized (pnormal p1) in
    let d0 := - plane_d p0 in
    let d1 := - plane_d p1 in
    let dir := vcross n0 n1 in
    let dot := vdot n0 n1 in
    let norm := vnorm dir in
    if is_approx (norm * norm) #0 tol then None
    else
      let inv_det := #1 / (#1 - dot * dot) in
      let c0 := (d0 - dot * d1) * inv_det in
      let c1 := (d1 - dot * d0) * inv_det in
      Some (Line (vadd (vmul c0 n0) (vmul c1 n1)) dir).

  (** Intersection(line, plane, point), toolbox/src/intersection.cc:2390-2411. *)
  Definition int_line_plane (l : line K) (p : plane K) (tol : K) : option (vec3 K) :=
    let o := lorigin l in
    let dir := ldir l in
    let det := vdot (pnormal p) dir in
    if nabs det >? tol then
      let t := vdot (vsub (porigin p) o) (pnormal p) / det in
      Some (vadd o (vmul t dir))
    else None.

  (** Intersection(line, triangle, point), toolbox/src/intersection.cc:2415-2449. *)
  Definition int_line_triangle (l : line K) (tr : triangle K) (tol : K) : option (vec3 K) :=
    let v0 := tv0 tr in
    let e1 := vsub (tv1 tr) v0 in
    let e2 := vsub (tv2 tr) v0 in
    let o := lorigin l in
    let dir := ldir l in
    let h := vcross dir e2 in
    let a := vdot e1 h in
    if (a >? - tol) && (a <? tol) then None
    else
      let f := #1 / a in
      let s := vsub o v0 in
      let u := f * vdot s h in
      if (u <? #0 - tol) || (u >? #1 + tol) then None
      else
        let q := vcross s e1 in
        let v := f * vdot dir q in
        if (v <? #0 - tol) || (u + v >? #1 + tol) then None
        else
          let t := f * vdot e2 q in
          Some (vadd o (vmul t dir)).

  (** Intersection(plane, triangle, segment), toolbox/src/intersection.cc:2658-2671. *)
  Definition int_plane_triangle (p : plane K) (t : triangle K) (tol : K)
    : outcome (option (segment K)) :=
    match int_plane_plane p (tri_plane t) tol with
    | Some l => int_line_triangle_seg l t tol
    | None => Ret None
    end.

  (** Intersection(plane, disk, segment), toolbox/src/intersection.cc:2675-2688. *)
  Definition int_plane_disk (p : plane K) (d : disk K) (tol : K) : option (segment K) :=
    match int_plane_plane p (dplane d) tol with
    | Some l => int_line_disk l d tol
    | None => None
    end.

  (** Intersection(triangle, disk, segment), toolbox/src/intersection.cc:2816-2829. *)
  Definition int_triangle_disk (t : triangle K) (d : disk K) (tol : K)
    : outcome (option (segment K)) :=
    let* r := int_plane_triangle (dplane d) t tol in
    match r with
    | Some s => Ret (int_segment_disk s d tol)
    | None => Ret None
    end.
End Geom.
