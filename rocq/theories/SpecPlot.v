(** * Vocabulary for the drawings of a wheel. *)
From Coq Require Import ZArith Bool List Reals.
From Verif Require Import Base Num Vec Geom Shape Rib Shell Mex ER SpecGeom SpecRib SpecShape SpecMex Matlab SpecMatlab Plot.
Import ListNotations.
Local Open Scope R_scope.

(** The point in row [i] and column [j] of a grid, from 0. *)
Definition point_at {P} (rows : list (list P)) (i j : nat) : option P :=
  match nth_error rows i with Some r => nth_error r j | None => None end.
(** A grid of [n] rows and [m] columns. *)
Definition rectangular {P} (n m : nat) (rows : list (list P)) : Prop :=
  List.length rows = n /\ Forall (fun r => List.length r = m) rows.

(** The tread, in the frame of the wheel: the surface swept by the profile
    around the y axis. *)
Definition on_tread (sp : shape R) (v : pt) : Prop :=
  Rabs (vy v) <= sLy sp /\
  exists r, 0 <= r /\ on_profile sp (vy v) r /\ vx v * vx v + vz v * vz v = r * r.

(** The point at axial position [y] of the circle of radius [r] around the
    axis, [j] of [n] steps around it. *)
Definition on_ring (r y : R) (n j : nat) : pt :=
  let t := 2 * PI * INR j / INR n in V (r * sin t) y (r * cos t).
(** [2h] equal steps from [- ly] to [ly]. *)
Definition station (ly : R) (h i : nat) : R := - ly + ly * (INR i / INR h).

(** The cone tangent to the tread along the middle circle of a rib, cut at the
    ends of the rib: the radius [t] away from the middle. *)
Definition cone_radius (r : rib R) (slope t : R) : R := rb_radius r + slope * t.
Definition rib_end (r : rib R) (i : nat) : R :=
  match i with O => - rb_width r / 2 | _ => rb_width r / 2 end.

(** Every execution ends with this figure, leaving these new objects behind. *)
Definition draws {A} {K} {NK : Num K} (e : env K) (w : world K) (p : prog K A)
  (fig : A) (left : list (obj K)) : Prop :=
  always e w p (fun _ w' r => r = Done fig /\ grown w w' left).
(** ... leaving everything as it was. *)
Definition only_draws {A} {K} {NK : Num K} (e : env K) (w : world K) (p : prog K A) (fig : A) : Prop :=
  always e w p (fun _ w' r => r = Done fig /\ w' = w).

(** The three axes of a frame, as arrows from its origin. *)
Definition axes (a : affine R) : list (drawn er) :=
  [Arrow (fv (tra a)) (fv (V (m00 (lin a)) (m10 (lin a)) (m20 (lin a))));
   Arrow (fv (tra a)) (fv (V (m01 (lin a)) (m11 (lin a)) (m21 (lin a))));
   Arrow (fv (tra a)) (fv (V (m02 (lin a)) (m12 (lin a)) (m22 (lin a))))].
