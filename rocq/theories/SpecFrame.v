(** * Moving the world: vocabulary. *)
From Coq Require Import ZArith Bool Reals List.
From Verif Require Import Base Num Vec Geom Ground Rib ER SpecGeom SpecRib SpecAvg.
Import ListNotations.
Local Open Scope R_scope.

(** The pose [a] followed by the motion [m]. *)
Definition after (m a : affine R) : affine R :=
  Aff (M3 (m00 (lin m) * m00 (lin a) + m01 (lin m) * m10 (lin a) + m02 (lin m) * m20 (lin a))
          (m00 (lin m) * m01 (lin a) + m01 (lin m) * m11 (lin a) + m02 (lin m) * m21 (lin a))
          (m00 (lin m) * m02 (lin a) + m01 (lin m) * m12 (lin a) + m02 (lin m) * m22 (lin a))
          (m10 (lin m) * m00 (lin a) + m11 (lin m) * m10 (lin a) + m12 (lin m) * m20 (lin a))
          (m10 (lin m) * m01 (lin a) + m11 (lin m) * m11 (lin a) + m12 (lin m) * m21 (lin a))
          (m10 (lin m) * m02 (lin a) + m11 (lin m) * m12 (lin a) + m12 (lin m) * m22 (lin a))
          (m20 (lin m) * m00 (lin a) + m21 (lin m) * m10 (lin a) + m22 (lin m) * m20 (lin a))
          (m20 (lin m) * m01 (lin a) + m21 (lin m) * m11 (lin a) + m22 (lin m) * m21 (lin a))
          (m20 (lin m) * m02 (lin a) + m21 (lin m) * m12 (lin a) + m22 (lin m) * m22 (lin a)))
      (place m (tra a)).
(** A plane and a triangle carried by the motion. *)
Definition carry_plane (m : affine R) (p : plane R) : plane R :=
  Plane (place m (porigin p)) (papply (lin m) (pnormal p)).
Definition carry_triangle (m : affine R) (t : triangle R) : triangle R :=
  Triangle (place m (tv0 t)) (place m (tv1 t)) (place m (tv2 t)).
(** Contact data carried by the motion: the point moves, the normal turns,
    the rest stays. *)
Definition carry_out (m : affine R) (o : output R) : output R :=
  Output (place m (o_point o)) (papply (lin m) (o_normal o)) (o_friction o) (o_depth o) (o_area o) (o_volume o).
(** The motion keeps the vertical direction. *)
Definition keeps_vertical (m : affine R) : Prop := papply (lin m) (V 0 0 1) = V 0 0 1.

(** Ground triangles built from real vertices and frictions. *)
Definition grounds (ts : list (triangle R * R)) (gs : list (tground er)) : Prop :=
  Forall2 (fun tf g => ground_of (fst tf) (snd tf) g) ts gs.
Definition carry_ground (m : affine R) (ts : list (triangle R * R)) : list (triangle R * R) :=
  map (fun tf => (carry_triangle m (fst tf), snd tf)) ts.

(** Same contact data, carried by the motion: real data, or no real point
    and no real normal (a contact without volume). *)
Definition carried (m : affine R) (o o' : output er) : Prop :=
  (exists d, o = fout d /\ o' = fout (carry_out m d)) \/
  (o' = o /\ o_point o = V Nan Nan Nan /\ o_normal o = V Nan Nan Nan).

(** The pose [a] with the wheel turned by [t] about its axle. *)
Definition spun (a : affine R) (t : R) : affine R :=
  Aff (lin (after (Aff (lin a) (V 0 0 0)) (Aff (M3 (cos t) 0 (sin t) 0 1 0 (- sin t) 0 (cos t)) (V 0 0 0)))) (tra a).
