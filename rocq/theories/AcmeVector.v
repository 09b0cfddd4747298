(** * IsParallel and IsOrthogonal of a vector and an entity
      (toolbox/src/{parallel,orthogonal}.cc:352-421). *)
From Coq Require Import Bool.
From Verif Require Import Base Num Vec Geom Acme AcmeEntity.

Section Vector.
  Context {K : Type} {NK : Num K}.

  (** parallel.cc:352-360, 364-372, 376-384, 388-396, 400-408, 412-420. *)
  Definition par_vec_line (v : vec3 K) (l : line K) tol := vec_parallel v (ldir l) tol.
  Definition par_vec_ray (v : vec3 K) (r : ray K) tol := vec_parallel v (ry_dir r) tol.
  Definition par_vec_plane (v : vec3 K) (p : plane K) tol := vec_orthogonal v (pnormal p) tol.
  Definition par_vec_seg (v : vec3 K) (s : segment K) tol := vec_parallel v (seg_unit_vector s) tol.
  Definition par_vec_tri (v : vec3 K) (t : triangle K) tol := vec_orthogonal v (tri_normal t) tol.
  Definition par_vec_disk (v : vec3 K) (d : disk K) tol := vec_orthogonal v (dnormal d) tol.

  (** orthogonal.cc:352-360, 364-372, 376-384, 388-396, 400-408, 412-420. *)
  Definition orth_vec_line (v : vec3 K) (l : line K) tol := vec_orthogonal v (ldir l) tol.
  Definition orth_vec_ray (v : vec3 K) (r : ray K) tol := vec_orthogonal v (ry_dir r) tol.
  Definition orth_vec_plane (v : vec3 K) (p : plane K) tol := vec_parallel v (pnormal p) tol.
  Definition orth_vec_seg (v : vec3 K) (s : segment K) tol := vec_orthogonal v (seg_unit_vector s) tol.
  Definition orth_vec_tri (v : vec3 K) (t : triangle K) tol := vec_parallel v (tri_normal t) tol.
  Definition orth_vec_disk (v : vec3 K) (d : disk K) tol := vec_parallel v (dnormal d) tol.

  (** The overload chosen by the static type of the second argument; [None]
      when there is none. *)
  Definition par_vec (v : vec3 K) (e : entity K) (tol : K) : option bool :=
    match e with
    | ELine l => Some (par_vec_line v l tol) | ERay r => Some (par_vec_ray v r tol)
    | EPlane p => Some (par_vec_plane v p tol) | ESegment s => Some (par_vec_seg v s tol)
    | ETriangle t => Some (par_vec_tri v t tol) | EDisk d => Some (par_vec_disk v d tol)
    | ENone | EPoint _ | EBall _ => None
    end.
  Definition orth_vec (v : vec3 K) (e : entity K) (tol : K) : option bool :=
    match e with
    | ELine l => Some (orth_vec_line v l tol) | ERay r => Some (orth_vec_ray v r tol)
    | EPlane p => Some (orth_vec_plane v p tol) | ESegment s => Some (orth_vec_seg v s tol)
    | ETriangle t => Some (orth_vec_tri v t tol) | EDisk d => Some (orth_vec_disk v d tol)
    | ENone | EPoint _ | EBall _ => None
    end.
End Vector.
