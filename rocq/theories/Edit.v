(** * Objects changed in place: the vertices of triangles and segments by
      index, the triangles of the ground moved as plain triangles, and boxes
      that are cleared. *)
From Coq Require Import ZArith Bool List.
From Verif Require Import Base Num Vec Aabb Geom Acme Ground.
Import ListNotations.
Local Open Scope num_scope.

(** The conversion of a [size_t] to [integer], which is [int]
    (toolbox/src/acme.hh:82): 32 bits, two's complement. *)
Definition to_integer (i : Z) : Z :=
  let r := (i mod 2 ^ 32)%Z in if (r <? 2 ^ 31)%Z then r else (r - 2 ^ 32)%Z.

Section Edit.
  Context {K : Type} {NK : Num K}.

  (** triangle::vertex(i) and triangle::operator[](i) read,
      toolbox/src/triangle.cc:108-120, 142-154: only [i < 3] is checked. *)
  Definition tri_vertex (t : triangle K) (i : Z) : outcome (vec3 K) :=
    if (i <? 3)%Z then
      match i with
      | 0%Z => Ret (tv0 t)
      | 1%Z => Ret (tv1 t)
      | 2%Z => Ret (tv2 t)
      | _ => UB
      end
    else Throw RuntimeError.
  (** The same as the target of an assignment,
      toolbox/src/triangle.cc:125-136, 158-170. *)
  Definition tri_put (i : Z) (p : vec3 K) (t : triangle K) : outcome (triangle K) :=
    if (i <? 3)%Z then
      match i with
      | 0%Z => Ret (Triangle p (tv1 t) (tv2 t))
      | 1%Z => Ret (Triangle (tv0 t) p (tv2 t))
      | 2%Z => Ret (Triangle (tv0 t) (tv1 t) p)
      | _ => UB
      end
    else Throw RuntimeError.
  (** triangle::edge(i), toolbox/src/triangle.cc:183-201. *)
  Definition tri_edge (t : triangle K) (i : Z) : outcome (segment K) :=
    if (i <? 3)%Z then
      match i with
      | 0%Z => Ret (Segment (tv0 t) (tv1 t))
      | 1%Z => Ret (Segment (tv1 t) (tv2 t))
      | _ => Ret (Segment (tv2 t) (tv0 t))
      end
    else Throw RuntimeError.
  (** segment::vertex(i) and segment::operator[](i),
      toolbox/src/segment.cc:110-147: no check. *)
  Definition seg_vertex (s : segment K) (i : Z) : outcome (vec3 K) :=
    match i with
    | 0%Z => Ret (sv0 s)
    | 1%Z => Ret (sv1 s)
    | _ => UB
    end.
  (** The same as the target of an assignment. *)
  Definition seg_put (i : Z) (p : vec3 K) (s : segment K) : outcome (segment K) :=
    match i with
    | 0%Z => Ret (Segment p (sv1 s))
    | 1%Z => Ret (Segment (sv0 s) p)
    | _ => UB
    end.
  (** triangleground::vertex(i) and operator[](i),
      src/triangleground.cc:207-224: the [size_t] is passed as an [integer]. *)
  Definition tg_vertex (t : tground K) (i : Z) : outcome (vec3 K) :=
    tri_vertex (tg_tri t) (to_integer i).

  (** What the base class lets a user do to a ground triangle:
      triangle::translate, transform, swap and assigning a vertex through a
      reference to the triangle (toolbox/src/triangle.cc:125-136, 215-225,
      283-303).  [triangleground] publicly derives from [triangle] and
      overrides none of them (src/enve/triangleground.hxx:48-182). *)
  Inductive edit : Type :=
  | EdTranslate (v : vec3 K)
  | EdTransform (a : affine K)
  | EdSwap (i j : Z)
  | EdVertex (i : Z) (p : vec3 K).

  Definition tri_edit (e : edit) (t : triangle K) : outcome (triangle K) :=
    match e with
    | EdTranslate v => Ret (tri_translate v t)
    | EdTransform a => Ret (tri_transform a t)
    | EdSwap i j =>
      if (i <? 0)%Z || (j <? 0)%Z then UB else tri_swap (Z.to_nat i) (Z.to_nat j) t
    | EdVertex i p => tri_put i p t
    end.
  (** The members added by [triangleground] stay as they are. *)
  Definition tg_edit (e : edit) (t : tground K) : outcome (tground K) :=
    let* x := tri_edit e (tg_tri t) in
    Ret (TGround x (tg_id t) (tg_friction t) (tg_normal t) (tg_bbox t)).
  (** Edits one after the other. *)
  Fixpoint tg_edits (l : list edit) (t : tground K) : outcome (tground K) :=
    match l with
    | [] => Ret t
    | e :: l' => let* u := tg_edit e t in tg_edits l' u
    end.

  (** aabb::clear, toolbox/src/aabb.cc:107-112. *)
  Definition aabb_clear (b : aabb K) : aabb K := Box nan_vec nan_vec (bid b).
End Edit.
Arguments edit K : clear implicits.
