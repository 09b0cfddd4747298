(** * Run-time typed acme entities: the [entity const *] overloads of the
      predicates and of [Intersection], and [acme::collection]
      (toolbox/src/{entity,collinear,coplanar,parallel,orthogonal,
      intersection,collection}.cc). *)
From Coq Require Import ZArith Bool List.
From Verif Require Import Base Num Vec Aabb Tree Geom Acme.
Import ListNotations.
Local Open Scope num_scope.

(** The concrete classes derived from [acme::entity]. *)
Inductive entity (K : Type) : Type :=
| ENone
| EPoint (p : vec3 K)
| ELine (l : line K)
| ERay (r : ray K)
| EPlane (p : plane K)
| ESegment (s : segment K)
| ETriangle (t : triangle K)
| EDisk (d : disk K)
| EBall (b : ball K).
Arguments ENone {K}.
Arguments EPoint {K} p.
Arguments ELine {K} l.
Arguments ERay {K} r.
Arguments EPlane {K} p.
Arguments ESegment {K} s.
Arguments ETriangle {K} t.
Arguments EDisk {K} d.
Arguments EBall {K} b.

(** level(), toolbox/src/acme/{none,point,line,ray,plane,segment,triangle,
    disk,ball}.hxx (lines 102, 110, 170, 170, 187, 186, 215, 197, 160). *)
Definition level {K} (e : entity K) : Z :=
  match e with
  | ENone => 0 | EPoint _ => 1 | ELine _ => 3 | ERay _ => 4 | EPlane _ => 5
  | ESegment _ => 6 | ETriangle _ => 7 | EDisk _ => 8 | EBall _ => 9
  end.

(** isClampable(), same headers (lines 201, 209, 269, 269, 286, 285, 314,
    296, 259). *)
Definition is_clampable {K} (e : entity K) : bool :=
  match e with
  | EPoint _ | ESegment _ | ETriangle _ | EDisk _ | EBall _ => true
  | ENone | ELine _ | ERay _ | EPlane _ => false
  end.

Section Entity.
  Context {K : Type} {NK : Num K}.

  (** The virtual [translate] and [transform]; [none] does nothing
      (toolbox/src/none.cc:56-70). *)
  Definition ent_translate (v : vec3 K) (e : entity K) : entity K :=
    match e with
    | ENone => ENone
    | EPoint p => EPoint (point_translate v p)
    | ELine l => ELine (line_translate v l)
    | ERay r => ERay (ray_translate v r)
    | EPlane p => EPlane (plane_translate v p)
    | ESegment s => ESegment (seg_translate v s)
    | ETriangle t => ETriangle (tri_translate v t)
    | EDisk d => EDisk (disk_translate v d)
    | EBall b => EBall (ball_translate v b)
    end.
  Definition ent_transform (m : affine K) (e : entity K) : entity K :=
    match e with
    | ENone => ENone
    | EPoint p => EPoint (point_transform m p)
    | ELine l => ELine (line_transform m l)
    | ERay r => ERay (ray_transform m r)
    | EPlane p => EPlane (plane_transform m p)
    | ESegment s => ESegment (seg_transform m s)
    | ETriangle t => ETriangle (tri_transform m t)
    | EDisk d => EDisk (disk_transform m d)
    | EBall b => EBall (ball_transform m b)
    end.
  (** entity::rotate, toolbox/src/entity.cc:62-71. *)
  Definition ent_rotate (angle : K) (axis : vec3 K) (e : entity K) : entity K :=
    ent_transform (arotate aident (angle_axis angle axis)) e.
  (** The virtual [isDegenerated]; [none] (acme/none.hxx:89-94) and [point]
      (point.cc:77-84) answer constants. *)
  Definition ent_is_degenerated (e : entity K) (tol : K) : bool :=
    match e with
    | ENone => true
    | EPoint _ => false
    | ELine l => line_is_degenerated l tol
    | ERay r => ray_is_degenerated r tol
    | EPlane p => plane_is_degenerated p tol
    | ESegment s => seg_is_degenerated s tol
    | ETriangle t => tri_is_degenerated t tol
    | EDisk d => disk_is_degenerated d tol
    | EBall b => ball_is_degenerated b tol
    end.
  (** The virtual [clamp]: [None] when it returns false and writes nothing. *)
  Definition ent_clamp (e : entity K) : option (vec3 K * vec3 K) :=
    match e with
    | ENone | ELine _ | ERay _ | EPlane _ => None
    | EPoint p => Some (p, p)
    | ESegment s => Some (seg_clamp s)
    | ETriangle t => Some (tri_clamp t)
    | EDisk d => Some (disk_clamp d)
    | EBall b => Some (ball_clamp b)
    end.

  (** IsCollinear(entity, entity), toolbox/src/collinear.cc:50-140. *)
  Definition ent_collinear (e0 e1 : entity K) (tol : K) : bool :=
    match e0, e1 with
    | ELine a, ELine b => col_line_line a b tol
    | ELine a, ERay b => col_line_ray a b tol
    | ELine a, ESegment b => col_line_seg a b tol
    | ERay a, ELine b => col_line_ray b a tol
    | ERay a, ERay b => col_ray_ray a b tol
    | ERay a, ESegment b => col_ray_seg a b tol
    | ESegment a, ELine b => col_line_seg b a tol
    | ESegment a, ERay b => col_ray_seg b a tol
    | ESegment a, ESegment b => col_seg_seg a b tol
    | _, _ => false
    end.

  (** IsParallel(entity, entity), toolbox/src/parallel.cc:50-336. *)
  Definition ent_parallel (e0 e1 : entity K) (tol : K) : bool :=
    match e0, e1 with
    | ELine a, ELine b => par_line_line a b tol
    | ELine a, ERay b => par_line_ray a b tol
    | ELine a, EPlane b => par_line_plane a b tol
    | ELine a, ESegment b => line_seg_parallel a b tol
    | ELine a, ETriangle b => par_line_tri a b tol
    | ELine a, EDisk b => par_line_disk a b tol
    | ERay a, ELine b => par_line_ray b a tol
    | ERay a, ERay b => par_ray_ray a b tol
    | ERay a, EPlane b => par_ray_plane a b tol
    | ERay a, ESegment b => par_ray_seg a b tol
    | ERay a, ETriangle b => par_ray_tri a b tol
    | ERay a, EDisk b => par_ray_disk a b tol
    | EPlane a, ELine b => par_line_plane b a tol
    | EPlane a, ERay b => par_ray_plane b a tol
    | EPlane a, EPlane b => par_plane_plane a b tol
    | EPlane a, ESegment b => par_plane_seg a b tol
    | EPlane a, ETriangle b => par_plane_tri a b tol
    | EPlane a, EDisk b => par_plane_disk a b tol
    | ESegment a, ELine b => line_seg_parallel b a tol
    | ESegment a, ERay b => par_ray_seg b a tol
    | ESegment a, EPlane b => par_plane_seg b a tol
    | ESegment a, ESegment b => par_seg_seg a b tol
    | ESegment a, ETriangle b => par_seg_tri a b tol
    | ESegment a, EDisk b => par_seg_disk a b tol
    | ETriangle a, ELine b => par_line_tri b a tol
    | ETriangle a, ERay b => par_ray_tri b a tol
    | ETriangle a, EPlane b => par_plane_tri b a tol
    | ETriangle a, ESegment b => par_seg_tri b a tol
    | ETriangle a, ETriangle b => par_tri_tri a b tol
    | ETriangle a, EDisk b => par_tri_disk a b tol
    | EDisk a, ELine b => par_line_disk b a tol
    | EDisk a, ERay b => par_ray_disk b a tol
    | EDisk a, EPlane b => par_plane_disk b a tol
    | EDisk a, ESegment b => par_seg_disk b a tol
    | EDisk a, ETriangle b => par_tri_disk b a tol
    | EDisk a, EDisk b => par_disk_disk a b tol
    | _, _ => false
    end.

  (** IsOrthogonal(entity, entity), toolbox/src/orthogonal.cc:50-336. *)
  Definition ent_orthogonal (e0 e1 : entity K) (tol : K) : bool :=
    match e0, e1 with
    | ELine a, ELine b => orth_line_line a b tol
    | ELine a, ERay b => orth_line_ray a b tol
    | ELine a, EPlane b => orth_line_plane a b tol
    | ELine a, ESegment b => orth_line_seg a b tol
    | ELine a, ETriangle b => orth_line_tri a b tol
    | ELine a, EDisk b => orth_line_disk a b tol
    | ERay a, ELine b => orth_line_ray b a tol
    | ERay a, ERay b => orth_ray_ray a b tol
    | ERay a, EPlane b => orth_ray_plane a b tol
    | ERay a, ESegment b => orth_ray_seg a b tol
    | ERay a, ETriangle b => orth_ray_tri a b tol
    | ERay a, EDisk b => orth_ray_disk a b tol
    | EPlane a, ELine b => orth_line_plane b a tol
    | EPlane a, ERay b => orth_ray_plane b a tol
    | EPlane a, EPlane b => orth_plane_plane a b tol
    | EPlane a, ESegment b => orth_plane_seg a b tol
    | EPlane a, ETriangle b => orth_plane_tri a b tol
    | EPlane a, EDisk b => orth_plane_disk a b tol
    | ESegment a, ELine b => orth_line_seg b a tol
    | ESegment a, ERay b => orth_ray_seg b a tol
    | ESegment a, EPlane b => orth_plane_seg b a tol
    | ESegment a, ESegment b => orth_seg_seg a b tol
    | ESegment a, ETriangle b => orth_seg_tri a b tol
    | ESegment a, EDisk b => orth_seg_disk a b tol
    | ETriangle a, ELine b => orth_line_tri b a tol
    | ETriangle a, ERay b => orth_ray_tri b a tol
    | ETriangle a, EPlane b => orth_plane_tri b a tol
    | ETriangle a, ESegment b => orth_seg_tri b a tol
    | ETriangle a, ETriangle b => orth_tri_tri a b tol
    | ETriangle a, EDisk b => orth_tri_disk a b tol
    | EDisk a, ELine b => orth_line_disk b a tol
    | EDisk a, ERay b => orth_ray_disk b a tol
    | EDisk a, EPlane b => orth_plane_disk b a tol
    | EDisk a, ESegment b => orth_seg_disk b a tol
    | EDisk a, ETriangle b => orth_tri_disk b a tol
    | EDisk a, EDisk b => orth_disk_disk a b tol
    | _, _ => false
    end.

  (** IsCoplanar(entity, entity), toolbox/src/coplanar.cc:50-336. *)
  Definition ent_coplanar (e0 e1 : entity K) (tol : K) : bool :=
    match e0, e1 with
    | ELine a, ELine b => cop_line_line a b tol
    | ELine a, ERay b => cop_line_ray a b tol
    | ELine a, EPlane b => cop_line_plane a b tol
    | ELine a, ESegment b => cop_line_seg a b tol
    | ELine a, ETriangle b => cop_line_tri a b tol
    | ELine a, EDisk b => cop_line_disk a b tol
    | ERay a, ELine b => cop_line_ray b a tol
    | ERay a, ERay b => cop_ray_ray a b tol
    | ERay a, EPlane b => cop_ray_plane a b tol
    | ERay a, ESegment b => cop_ray_seg a b tol
    | ERay a, ETriangle b => cop_ray_tri a b tol
    | ERay a, EDisk b => cop_ray_disk a b tol
    | EPlane a, ELine b => cop_line_plane b a tol
    | EPlane a, ERay b => cop_ray_plane b a tol
    | EPlane a, EPlane b => cop_plane_plane a b tol
    | EPlane a, ESegment b => cop_plane_seg a b tol
    | EPlane a, ETriangle b => cop_plane_tri a b tol
    | EPlane a, EDisk b => cop_plane_disk a b tol
    | ESegment a, ELine b => cop_line_seg b a tol
    | ESegment a, ERay b => cop_ray_seg b a tol
    | ESegment a, EPlane b => cop_plane_seg b a tol
    | ESegment a, ESegment b => cop_seg_seg a b tol
    | ESegment a, ETriangle b => cop_seg_tri a b tol
    | ESegment a, EDisk b => cop_seg_disk a b tol
    | ETriangle a, ELine b => cop_line_tri b a tol
    | ETriangle a, ERay b => cop_ray_tri b a tol
    | ETriangle a, EPlane b => cop_plane_tri b a tol
    | ETriangle a, ESegment b => cop_seg_tri b a tol
    | ETriangle a, ETriangle b => cop_tri_tri a b tol
    | ETriangle a, EDisk b => cop_tri_disk a b tol
    | EDisk a, ELine b => cop_line_disk b a tol
    | EDisk a, ERay b => cop_ray_disk b a tol
    | EDisk a, EPlane b => cop_plane_disk b a tol
    | EDisk a, ESegment b => cop_seg_disk b a tol
    | EDisk a, ETriangle b => cop_tri_disk b a tol
    | EDisk a, EDisk b => cop_disk_disk a b tol
    | _, _ => false
    end.

  (** The end of the function, toolbox/src/intersection.cc:1122-1130: a new
      [none] replaces the output unless the intersection was found. *)
  Definition found {A} (mk : A -> entity K) (r : option A) : outcome (entity K) :=
    Ret (match r with Some a => mk a | None => ENone end).
  Definition found_or {A} (mk : A -> entity K) (r : outcome (option A))
    : outcome (entity K) := let* r := r in found mk r.
  Definition not_supported : outcome (entity K) := Throw RuntimeError.

  (** intersection.cc:61-191, at least one argument is a point. *)
  Definition ent_int_point (e0 e1 : entity K) (tol : K) : outcome (entity K) :=
    match e0, e1 with
    | EPoint p, EPoint q => found EPoint (int_point_point p q tol)
    | EPoint p, ELine l | ELine l, EPoint p => found EPoint (int_point_line p l tol)
    | EPoint p, ERay r | ERay r, EPoint p => found EPoint (int_point_ray p r tol)
    | EPoint p, EPlane a | EPlane a, EPoint p => found EPoint (int_point_plane p a tol)
    | EPoint p, ESegment s | ESegment s, EPoint p => found EPoint (int_point_seg p s tol)
    | EPoint p, ETriangle t | ETriangle t, EPoint p => found EPoint (int_point_tri p t tol)
    | EPoint p, EDisk d | EDisk d, EPoint p => found EPoint (int_point_disk p d tol)
    | _, _ => Throw RuntimeError
    end.

  (** intersection.cc:192-308, the arguments are collinear. *)
  Definition ent_int_collinear (e0 e1 : entity K) (tol : K) : outcome (entity K) :=
    match e0, e1 with
    | ELine a, ELine b => found ELine (int_line_line_col a b tol)
    | ELine l, ERay r | ERay r, ELine l => found ERay (int_line_ray_ray l r tol)
    | ELine l, ESegment s | ESegment s, ELine l => found ESegment (int_line_seg_seg l s tol)
    | ERay a, ERay b =>
      match int_ray_ray_ray a b tol with
      | Some r => Ret (ERay r)
      | None =>
        match int_ray_ray_seg a b tol with
        | Some s => Ret (ESegment s)
        | None => Throw RuntimeError
        end
      end
    | ERay r, ESegment s | ESegment s, ERay r => found ESegment (int_ray_seg_seg r s tol)
    | ESegment a, ESegment b => found_or ESegment (int_seg_seg_seg a b tol)
    | _, _ => Throw RuntimeError
    end.

  (** intersection.cc:309-656, the arguments are coplanar. *)
  Definition ent_int_coplanar (e0 e1 : entity K) (tol : K) : outcome (entity K) :=
    match e0, e1 with
    | ELine a, ELine b => found EPoint (int_line_line a b tol)
    | ELine l, ERay r | ERay r, ELine l => found EPoint (int_line_ray l r tol)
    | ELine l, EPlane p | EPlane p, ELine l => found ELine (int_line_plane_line l p tol)
    | ELine l, ESegment s | ESegment s, ELine l => found EPoint (int_line_segment l s tol)
    | ELine l, ETriangle t | ETriangle t, ELine l =>
      found_or ESegment (int_line_triangle_seg l t tol)
    | ELine l, EDisk d | EDisk d, ELine l => found ESegment (int_line_disk l d tol)
    | ERay a, ERay b => found EPoint (int_ray_ray a b tol)
    | ERay r, EPlane p | EPlane p, ERay r => found ERay (int_ray_plane_ray r p tol)
    | ERay r, ESegment s | ESegment s, ERay r => found EPoint (int_ray_seg r s tol)
    | ERay r, ETriangle t | ETriangle t, ERay r =>
      found_or ESegment (int_ray_triangle_seg r t tol)
    | ERay r, EDisk d | EDisk d, ERay r => found ESegment (int_ray_disk_seg r d tol)
    | EPlane a, EPlane b => found EPlane (int_plane_plane_plane a b tol)
    | EPlane p, ESegment s | ESegment s, EPlane p =>
      found ESegment (int_plane_seg_seg p s tol)
    | EPlane p, ETriangle t => found ETriangle (int_plane_tri_tri p t tol)
    | ETriangle t, EPlane p => found_or ESegment (int_plane_triangle p t tol)
    | EPlane p, EDisk d | EDisk d, EPlane p => found EDisk (int_plane_disk_disk p d tol)
    | ESegment a, ESegment b => found EPoint (int_seg_seg a b tol)
    | ESegment s, ETriangle t | ETriangle t, ESegment s =>
      found_or ESegment (int_seg_triangle_seg s t tol)
    | ESegment s, EDisk d | EDisk d, ESegment s => found ESegment (int_segment_disk s d tol)
    | ETriangle a, ETriangle b =>
      let* _ := int_tri_tri_none a b tol in Ret ENone
    | ETriangle _, EDisk _ | EDisk _, ETriangle _ | EDisk _, EDisk _ => not_supported
    | _, _ => Throw RuntimeError
    end.

  (** intersection.cc:657-1121, general position.  Case 508 (line 839)
      dereferences [entity_out] while it is still null. *)
  Definition ent_int_general (e0 e1 : entity K) (tol : K) : outcome (entity K) :=
    match e0, e1 with
    | ELine a, ELine b => found EPoint (int_line_line a b tol)
    | ELine l, ERay r | ERay r, ELine l => found EPoint (int_line_ray l r tol)
    | ELine l, EPlane p | EPlane p, ELine l => found EPoint (int_line_plane l p tol)
    | ELine l, ESegment s | ESegment s, ELine l => found EPoint (int_line_segment l s tol)
    | ELine l, ETriangle t | ETriangle t, ELine l => found EPoint (int_line_triangle l t tol)
    | ELine l, EDisk d | EDisk d, ELine l => found EPoint (int_line_disk_point l d tol)
    | ELine l, EBall b | EBall b, ELine l => found ESegment (int_line_ball l b tol)
    | ERay a, ERay b => found EPoint (int_ray_ray a b tol)
    | ERay r, EPlane p | EPlane p, ERay r => found EPoint (int_ray_plane r p tol)
    | ERay r, ESegment s | ESegment s, ERay r => found EPoint (int_ray_seg r s tol)
    | ERay r, ETriangle t | ETriangle t, ERay r => found EPoint (int_ray_triangle r t tol)
    | ERay r, EDisk d | EDisk d, ERay r => found EPoint (int_ray_disk_point r d tol)
    | ERay r, EBall b | EBall b, ERay r => found ESegment (int_ray_ball r b tol)
    | EPlane a, EPlane b => found ELine (int_plane_plane a b tol)
    | EPlane p, ESegment s | ESegment s, EPlane p => found EPoint (int_plane_seg p s tol)
    | EPlane p, ETriangle t | ETriangle t, EPlane p =>
      found_or ESegment (int_plane_triangle p t tol)
    | EPlane _, EDisk _ => UB
    | EDisk d, EPlane p => found ESegment (int_plane_disk p d tol)
    | EPlane p, EBall b | EBall b, EPlane p => found EDisk (int_plane_ball p b)
    | ESegment a, ESegment b => found EPoint (int_seg_seg a b tol)
    | ESegment s, ETriangle t | ETriangle t, ESegment s =>
      found EPoint (int_seg_triangle s t tol)
    | ESegment s, EDisk d | EDisk d, ESegment s => found EPoint (int_seg_disk_point s d tol)
    | ESegment s, EBall b | EBall b, ESegment s => found ESegment (int_seg_ball s b tol)
    | ETriangle a, ETriangle b => found_or ESegment (int_tri_tri_seg a b tol)
    | ETriangle t, EDisk d | EDisk d, ETriangle t =>
      found_or ESegment (int_triangle_disk t d tol)
    | EDisk a, EDisk b => found_or ESegment (int_disk_disk_seg a b tol)
    | ETriangle _, EBall _ | EBall _, ETriangle _ | EDisk _, EBall _ | EBall _, EDisk _
    | EBall _, EBall _ => not_supported
    | _, _ => Throw RuntimeError
    end.

  Definition is_point (e : entity K) : bool :=
    match e with EPoint _ => true | _ => false end.
  Definition is_none (e : entity K) : bool :=
    match e with ENone => true | _ => false end.

  (** Intersection(entity, entity, tolerance),
      toolbox/src/intersection.cc:50-1132.  The collinearity and coplanarity
      tests run with the default tolerance. *)
  Definition ent_intersection (e0 e1 : entity K) (tol : K) : outcome (entity K) :=
    if is_point e0 || is_point e1 then ent_int_point e0 e1 tol
    else if ent_collinear e0 e1 neps then ent_int_collinear e0 e1 tol
    else if ent_coplanar e0 e1 neps then ent_int_coplanar e0 e1 tol
    else ent_int_general e0 e1 tol.
End Entity.

(** ** acme::collection (toolbox/src/acme/collection.hxx, collection.cc) *)

(** A vector of shared pointers, [None] being a null pointer, and the search
    tree that [buildAABBtree] fills. *)
Record collection (K : Type) : Type := Collection {
  co_entities : list (option (entity K));
  co_tree : tree K }.
Arguments Collection {K} co_entities co_tree.
Arguments co_entities {K} c.
Arguments co_tree {K} c.

Section Collection.
  Context {K : Type} {NK : Num K}.

  (** Constructors, clear, resize and push_back, collection.cc:49-91, are in
      AcmeHeap.v. *)

  (** Calling a method through a pointer: null is undefined behaviour. *)
  Definition deref {A} (e : option (entity K)) (f : entity K -> A) : outcome A :=
    match e with Some e => Ret (f e) | None => UB end.

  (** translate, rotate and transform, collection.cc:116-152. *)
  Definition co_map (f : entity K -> entity K) (c : collection K) : outcome (collection K) :=
    let* es := omap (fun e => deref e f) (co_entities c) in
    Ret (Collection (map Some es) (co_tree c)).

  (** The loops of countX, containX and areX for a test [p] on entities,
      collection.cc:156-952 (e.g. 207-218, 156-166, 170-180).  Which method
      passes which test to which loop is in AcmeCollection.v: three of them
      differ from what their names say. *)
  Fixpoint count_if (p : entity K -> bool) (es : list (option (entity K))) : outcome nat :=
    match es with
    | [] => Ret 0%nat
    | e :: es' =>
      let* b := deref e p in
      let* n := count_if p es' in
      Ret (if b : bool then S n else n)
    end.
  Fixpoint contain_if (p : entity K -> bool) (es : list (option (entity K))) : outcome bool :=
    match es with
    | [] => Ret false
    | e :: es' => let* b := deref e p in if b : bool then Ret true else contain_if p es'
    end.
  Fixpoint all_if (p : entity K -> bool) (es : list (option (entity K))) : outcome bool :=
    match es with
    | [] => Ret true
    | e :: es' => let* b := deref e p in if b : bool then all_if p es' else Ret false
    end.
  Fixpoint keep_if_not (p : entity K -> bool) (es : list (option (entity K)))
    : outcome (list (option (entity K))) :=
    match es with
    | [] => Ret []
    | e :: es' =>
      let* b := deref e p in
      let* r := keep_if_not p es' in
      Ret (if b : bool then r else e :: r)
    end.
  (** removeX, collection.cc:195-203 and alike: [std::remove_if] without
      [erase].  The elements kept come first, in order; the others keep
      their places with unspecified contents [junk] (ISO C++
      [alg.remove]). *)
  Definition co_remove (p : entity K -> bool) (junk : nat -> option (entity K))
    (c : collection K) : outcome (collection K) :=
    let* kept := keep_if_not p (co_entities c) in
    let n := length (co_entities c) in
    let k := length kept in
    Ret (Collection (kept ++ map junk (seq k (n - k))) (co_tree c)).

  (** collection::clamp, collection.cc:987-1010. *)
  Fixpoint clamp_from (i : Z) (es : list (option (entity K))) : outcome (list (aabb K)) :=
    match es with
    | [] => Ret []
    | e :: es' =>
      let* r := deref e ent_clamp in
      match r with
      | Some (mn, mx) =>
        let* bs := clamp_from (i + 1) es' in Ret (mk_aabb mn mx i :: bs)
      | None => Throw RuntimeError
      end
    end.
  Definition co_clamp (c : collection K) : outcome (list (aabb K)) :=
    clamp_from 0 (co_entities c).
  (** collection::buildAABBtree, collection.cc:1014-1020. *)
  Definition co_build (c : collection K) : outcome (collection K) :=
    let* bs := co_clamp c in
    let* t := build bs in
    Ret (Collection (co_entities c) t).

  (** [m_entities[id]]: no bounds check. *)
  Definition co_nth (c : collection K) (id : Z) : outcome (option (entity K)) :=
    if (id <? 0)%Z then UB
    else match nth_error (co_entities c) (Z.to_nat id) with
         | Some e => Ret e
         | None => UB
         end.
  (** collection::intersection(collection, candidates),
      collection.cc:1032-1048: two entries per pair of boxes. *)
  Definition co_candidates (c d : collection K) : outcome (list (option (entity K))) :=
    let* l := tree_intersection (co_tree c) (co_tree d) in
    let* r := omap (fun p => let* a := co_nth c (bid (fst p)) in
                             let* b := co_nth d (bid (snd p)) in Ret [a; b]) l in
    Ret (concat r).
  (** collection::intersection(AABBtree, candidates) and the overload for a
      vector of boxes, collection.cc:1052-1081. *)
  Definition co_candidates_tree (c : collection K) (t : tree K)
    : outcome (list (option (entity K))) :=
    let* l := tree_intersection (co_tree c) t in
    omap (fun p => co_nth c (bid (fst p))) l.
  Definition co_candidates_boxes (c : collection K) (bs : list (aabb K))
    : outcome (list (option (entity K))) :=
    let* t := build bs in co_candidates_tree c t.
  (** collection::intersection(entities, tolerance), collection.cc:1099-1115:
      every pair [i <= j]. *)
  Fixpoint upper_pairs {A} (l : list A) : list (A * A) :=
    match l with [] => [] | a :: l' => map (pair a) (a :: l') ++ upper_pairs l' end.
  Definition co_intersections (c : collection K) (tol : K) : outcome (list (entity K)) :=
    omap (fun p => match p with
                   | (Some a, Some b) => ent_intersection a b tol
                   | _ => UB
                   end) (upper_pairs (co_entities c)).
End Collection.
