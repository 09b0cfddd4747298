(** * Averages over ribs and triangles: vocabulary. *)
From Coq Require Import ZArith Bool Reals List.
From Verif Require Import Base Num Vec Geom Ground Rib Shell ER SpecGeom SpecRib.
Import ListNotations.
Local Open Scope R_scope.

Definition fout (o : output R) : output er :=
  Output (fv (o_point o)) (fv (o_normal o)) (Fin (o_friction o)) (Fin (o_depth o)) (Fin (o_area o)) (Fin (o_volume o)).

(** The per-rib accessors of the shell return the real data [os], one per rib. *)
Definition rib_data (s : shell er) (os : list (output R)) : Prop :=
  List.length os = sh_size s /\
  forall i o, nth_error os i = Some o ->
    contact_point_i s i = Ret (fv (o_point o)) /\ contact_normal_i s i = Ret (fv (o_normal o)) /\
    contact_friction_i s i = Ret (Fin (o_friction o)) /\ contact_depth_i s i = Ret (Fin (o_depth o)) /\
    contact_area_i s i = Ret (Fin (o_area o)) /\ contact_volume_i s i = Ret (Fin (o_volume o)).

(** Sum of a quantity. *)
Fixpoint total {A} (f : A -> R) (l : list A) : R :=
  match l with [] => 0 | a :: l' => f a + total f l' end.

(** A ground triangle built with real vertices and friction. *)
Definition ground_of (t : triangle R) (f : R) (g : tground er) : Prop :=
  exists id, mk_tground id (Fin f) (fv (tv0 t)) (fv (tv1 t)) (fv (tv2 t)) = Ret g.

(** The rib disk cuts the triangle cleanly: not at all, or in a segment at
    least EPSILON_ENVE long. *)
Definition cut_cleanly (r : rib er) (pose : affine er) (g : tground er) : Prop :=
  int_triangle_disk (tg_tri g) (disk_grd r pose) neps = Ret None \/
  exists s, int_triangle_disk (tg_tri g) (disk_grd r pose) neps = Ret (Some (fseg s)) /\ eps <= dist (sv0 s) (sv1 s).

(** A right-handed orthonormal frame at [p] with third axis [n] and first
    axis orthogonal to [y], second axis on the side of [y]. *)
Definition frame_of (y p n : pt) (A : affine R) : Prop :=
  rigid A /\ tra A = p /\ pcol2 (lin A) = n /\ pdot (pcol0 (lin A)) y = 0 /\ 0 < pdot (pcol1 (lin A)) y.

(** The point is under the axle of the rib, seen in the frame of the wheel. *)
Definition under_axle (r : rib R) (a : affine R) (p : pt) : Prop :=
  pdot (psub p (place a (rb_center r))) (pcol2 (lin a)) < 0.
(** The plane contains the triangle. *)
Definition lies_in (t : triangle R) (p : plane R) : Prop :=
  on_plane p (tv0 t) /\ on_plane p (tv1 t) /\ on_plane p (tv2 t).
