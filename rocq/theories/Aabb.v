(** * Axis-aligned bounding boxes (toolbox/src/aabb.cc). *)
From Coq Require Import ZArith Bool List.
From Verif Require Import Base Num Vec.
Import ListNotations.
Local Open Scope num_scope.

(** toolbox/src/acme/aabb.hxx:64-67.  [m_pos] is never read by any code in
    the repository and is left out. *)
Record aabb (K : Type) : Type := Box { bmin : vec3 K; bmax : vec3 K; bid : Z }.
Arguments Box {K} bmin bmax bid.
Arguments bmin {K} a.
Arguments bmax {K} a.
Arguments bid {K} a.

Section Aabb.
  Context {K : Type} {NK : Num K}.

  (** NAN_AABB, toolbox/src/acme/aabb.hxx:267. *)
  Definition nan_aabb : aabb K := Box nan_vec nan_vec 0%Z.

  (** aabb::checkMaxMin, toolbox/src/aabb.cc:130-137. *)
  Definition check_max_min (b : aabb K) : bool :=
    (vx (bmax b) >=? vx (bmin b)) && (vy (bmax b) >=? vy (bmin b))
    && (vz (bmax b) >=? vz (bmin b)).

  (** One iteration of the loop of aabb::updateMaxMin
      (toolbox/src/aabb.cc:146-156): swap when [max < min]. *)
  Definition swap_min (mn mx : K) : K := if mx <? mn then mx else mn.
  Definition swap_max (mn mx : K) : K := if mx <? mn then mn else mx.

  (** aabb::updateMaxMin, toolbox/src/aabb.cc:141-158 (new box; the boolean
      result is [update_max_min_ok]). *)
  Definition update_max_min (b : aabb K) : aabb K :=
    Box (V (swap_min (vx (bmin b)) (vx (bmax b)))
           (swap_min (vy (bmin b)) (vy (bmax b)))
           (swap_min (vz (bmin b)) (vz (bmax b))))
        (V (swap_max (vx (bmin b)) (vx (bmax b)))
           (swap_max (vy (bmin b)) (vy (bmax b)))
           (swap_max (vz (bmin b)) (vz (bmax b))))
        (bid b).
  Definition update_max_min_ok (b : aabb K) : bool :=
    negb (vx (bmax b) <? vx (bmin b)) && negb (vy (bmax b) <? vy (bmin b))
    && negb (vz (bmax b) <? vz (bmin b)).

  (** aabb::aabb(min, max, id), toolbox/src/aabb.cc:76-88 (and 56-72). *)
  Definition mk_aabb (mn mx : vec3 K) (id : Z) : aabb K :=
    update_max_min (Box mn mx id).

  (** aabb::intersects, toolbox/src/aabb.cc:266-275 ([a.intersects(b)]). *)
  Definition intersects (a b : aabb K) : bool :=
    (vx (bmin a) <=? vx (bmax b)) && (vx (bmax a) >=? vx (bmin b))
    && (vy (bmin a) <=? vy (bmax b)) && (vy (bmax a) >=? vy (bmin b))
    && (vz (bmin a) <=? vz (bmax b)) && (vz (bmax a) >=? vz (bmin b)).

  (** Body of the loop of aabb::merged, toolbox/src/aabb.cc:298-310. *)
  Definition merge_step (acc : vec3 K * vec3 K) (c : aabb K) : vec3 K * vec3 K :=
    let (mn, mx) := acc in
    (V (if vx (bmin c) <? vx mn then vx (bmin c) else vx mn)
       (if vy (bmin c) <? vy mn then vy (bmin c) else vy mn)
       (if vz (bmin c) <? vz mn then vz (bmin c) else vz mn),
     V (if vx (bmax c) >? vx mx then vx (bmax c) else vx mx)
       (if vy (bmax c) >? vy mx then vy (bmax c) else vy mx)
       (if vz (bmax c) >? vz mx then vz (bmax c) else vz mx)).

  (** aabb::merged, toolbox/src/aabb.cc:279-313 (new min and max). *)
  Definition merged (boxes : list (aabb K)) : vec3 K * vec3 K :=
    match boxes with
    | [] => (vconst #0, vconst #0)
    | b :: bs => fold_left merge_step bs (bmin b, bmax b)
    end.

  (** aabb::aabb(boxes), toolbox/src/aabb.cc:92-104 with the default id 0. *)
  Definition aabb_of_boxes (boxes : list (aabb K)) : aabb K :=
    let m := merged boxes in update_max_min (Box (fst m) (snd m) 0%Z).

  (** aabb::clamp, toolbox/src/aabb.cc:351-379 (the id is kept). *)
  Definition clamp (b : aabb K) (p0 p1 p2 : vec3 K) : aabb K :=
    Box (V (nmin (vx p0) (nmin (vx p1) (vx p2)))
           (nmin (vy p0) (nmin (vy p1) (vy p2)))
           (nmin (vz p0) (nmin (vz p1) (vz p2))))
        (V (nmax (vx p0) (nmax (vx p1) (vx p2)))
           (nmax (vy p0) (nmax (vy p1) (vy p2)))
           (nmax (vz p0) (nmax (vz p1) (vz p2))))
        (bid b).

  (** aabb::translate, toolbox/src/aabb.cc:417-424. *)
  Definition aabb_translate (b : aabb K) (v : vec3 K) : aabb K :=
    Box (vadd v (bmin b)) (vadd v (bmax b)) (bid b).

  (** aabb::isInside, toolbox/src/aabb.cc:428-441 (tolerance unused there). *)
  Definition aabb_is_inside (b : aabb K) (p : vec3 K) : bool :=
    (vx (bmin b) <=? vx p) && (vy (bmin b) <=? vy p) && (vz (bmin b) <=? vz p)
    && (vx (bmax b) >=? vx p) && (vy (bmax b) >=? vy p) && (vz (bmax b) >=? vz p).

  (** aabb::isApprox, toolbox/src/aabb.cc:117-126. *)
  Definition aabb_is_approx (a b : aabb K) (tol : K) : bool :=
    vis_approx (bmin a) (bmin b) tol && vis_approx (bmax a) (bmax b) tol.

  (** aabb::isDegenerated, toolbox/src/aabb.cc:445-453. *)
  Definition aabb_is_degenerated (b : aabb K) (tol : K) : bool :=
    vis_approx (bmin b) (bmax b) tol && check_max_min b.

  (** aabb::centerDistance, toolbox/src/aabb.cc:317-333. *)
  Definition center_distance (b : aabb K) (p : vec3 K) : K :=
    let c := vdiv (vadd (bmax b) (bmin b)) #2 in
    let m := vsub (bmax b) c in
    let q := vsub p c in
    let xs := nabs (#1 / vx m) in
    let ys := nabs (#1 / vy m) in
    let zs := nabs (#1 / vz m) in
    let dx := nmax #0 (nabs (vx q) * xs - #1) / xs in
    let dy := nmax #0 (nabs (vy q) * ys - #1) / ys in
    let dz := nmax #0 (nabs (vz q) * zs - #1) / zs in
    nsqrt (dx * dx + dy * dy + dz * dz).

  (** aabb::exteriorDistance, toolbox/src/aabb.cc:337-347. *)
  Definition exterior_distance (b : aabb K) (p : vec3 K) : K :=
    let dx := nmax (nabs (vx p - vx (bmin b))) (nabs (vx p - vx (bmax b))) in
    let dy := nmax (nabs (vy p - vy (bmin b))) (nabs (vy p - vy (bmax b))) in
    let dz := nmax (nabs (vz p - vz (bmin b))) (nabs (vz p - vz (bmax b))) in
    nsqrt (dx * dx + dy * dy + dz * dz).
End Aabb.
