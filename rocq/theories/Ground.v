(** * Ground elements: src/triangleground.cc and src/flat.cc. *)
From Coq Require Import ZArith Bool List.
From Verif Require Import Base Num Vec Aabb Geom.
Import ListNotations.
Local Open Scope num_scope.

(** src/enve/triangleground.hxx: a triangle with id, friction, cached normal
    and cached bounding box.  Shared pointers to constant triangles are
    modelled by the triangle itself (never null). *)
Record tground (K : Type) : Type := TGround {
  tg_tri : triangle K;
  tg_id : Z;
  tg_friction : K;
  tg_normal : vec3 K;
  tg_bbox : aabb K }.
Arguments TGround {K} tg_tri tg_id tg_friction tg_normal tg_bbox.
Arguments tg_tri {K} t.
Arguments tg_id {K} t.
Arguments tg_friction {K} t.
Arguments tg_normal {K} t.
Arguments tg_bbox {K} t.

(** src/enve/flat.hxx: a plane with a friction. *)
Record flat (K : Type) : Type := Flat { fl_plane : plane K; fl_friction : K }.
Arguments Flat {K} fl_plane fl_friction.
Arguments fl_plane {K} f.
Arguments fl_friction {K} f.

Section Ground.
  Context {K : Type} {NK : Num K}.

  (** triangleground::updateNormal, src/triangleground.cc:257-263. *)
  Definition tg_update_normal (t : triangle K) : vec3 K :=
    let n := tri_normal t in
    if vz n <? #0 then vmulr n #(-1) else n.

  (** triangleground::updateBBox, src/triangleground.cc:267-272, on the
      initial box NAN_AABB. *)
  Definition tg_update_bbox (id : Z) (t : triangle K) : aabb K :=
    let b := Box (bmin nan_aabb) (bmax nan_aabb) id in
    clamp b (tv0 t) (tv1 t) (tv2 t).

  (** triangleground::triangleground(id, friction, p0, p1, p2),
      src/triangleground.cc:95-117 (the overloads at 61-91 and 121-141 do the
      same). *)
  Definition mk_tground (id : Z) (friction : K) (p0 p1 p2 : vec3 K)
    : outcome (tground K) :=
    if friction >=? #0 then
      let t := Triangle p0 p1 p2 in
      Ret (TGround t id friction (tg_update_normal t) (tg_update_bbox id t))
    else Throw RuntimeError.

  (** triangleground::copy, src/triangleground.cc:145-154 ([m_id] is not
      copied). *)
  Definition tg_copy (this src : tground K) : tground K :=
    TGround (tg_tri src) (tg_id this) (tg_friction src) (tg_normal src) (tg_bbox src).

  (** triangleground::isApprox, src/triangleground.cc:158-167 (the geometric
      part uses acme's default tolerance). *)
  Definition tg_is_approx (a b : tground K) (tol : K) : bool :=
    tri_is_approx (tg_tri a) (tg_tri b) neps
    && is_approx (tg_friction a) (tg_friction b) tol.

  (** flat::flat(friction, origin, normal), src/flat.cc:89-106 (63-85 and
      110-126 do the same). *)
  Definition mk_flat (friction : K) (origin normal : vec3 K) : outcome (flat K) :=
    if friction >=? #0 then
      if vz normal >? #0 then Ret (Flat (plane_normalize (Plane origin normal)) friction)
      else Throw RuntimeError
    else Throw RuntimeError.

  (** flat::copy, src/flat.cc:130-138. *)
  Definition flat_copy (this src : flat K) : flat K :=
    Flat (plane_normalize (fl_plane src)) (fl_friction src).

  (** flat::isApprox, src/flat.cc:142-151. *)
  Definition flat_is_approx (a b : flat K) (tol : K) : bool :=
    plane_is_approx (fl_plane a) (fl_plane b) neps
    && is_approx (fl_friction a) (fl_friction b) tol.
End Ground.
