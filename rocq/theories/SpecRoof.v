(** * The ground under a point, and the four probes of the sampling method. *)
From Coq Require Import Reals List.
From Verif Require Import Base Num Vec Geom Ground Rib ER SpecGeom SpecRib SpecAvg SpecFrame.
Import ListNotations.
Local Open Scope R_scope.

(** Twice the area of the shadow of a triangle on the horizontal plane. *)
Definition shadow (t : triangle R) : R := Rabs (vz (pcross (psub (tv1 t) (tv0 t)) (psub (tv2 t) (tv0 t)))).

(** [p] is straight above or below [q]. *)
Definition over (q p : pt) : Prop := vx p = vx q /\ vy p = vy q.

(** [p], of friction [f], is the highest point of the ground over [q].
    Triangles seen edge-on are ignored. *)
Definition roof (ts : list (triangle R * R)) (q p : pt) (f : R) : Prop :=
  over q p /\
  (exists t, In (t, f) ts /\ near_triangle eps t p) /\
  (forall t f' p', In (t, f') ts -> eps <= shadow t -> in_triangle t p' -> over q p' -> vz p' <= vz p).

(** There is no ground over [q]. *)
Definition roofless (ts : list (triangle R * R)) (q : pt) : Prop :=
  forall t f p, In (t, f) ts -> eps <= shadow t -> in_triangle t p -> ~ over q p.

(** A point of the rib plane of the wheel, in the world. *)
Definition probe (r : rib R) (a : affine R) (x y : R) : pt := place a (padd (rb_center r) (V x y 0)).

(** The four probes, one tenth of the radius ahead and behind and three tenths
    of the width left and right of the centre, meet the ground in [p0] ... *)
Record probed (ts : list (triangle R * R)) (r : rib R) (a : affine R)
  (p0 p1 p2 p3 : pt) (f0 f1 f2 f3 : R) : Prop := {
  ahead  : roof ts (probe r a (rb_radius r / 10) 0) p0 f0;
  behind : roof ts (probe r a (- (rb_radius r / 10)) 0) p1 f1;
  left_  : roof ts (probe r a 0 (3 / 10 * rb_width r)) p2 f2;
  right_ : roof ts (probe r a 0 (- (3 / 10 * rb_width r))) p3 f3 }.

(** [n] is the unit vector along [v], or zero. *)
Definition along (v n : pt) : Prop :=
  (v = V 0 0 0 /\ n = V 0 0 0) \/ (is_unit n /\ exists k, 0 < k /\ v = pscale k n).

(** How deep a wheel of radius [rho], axle [y] and centre [c] is below the
    point [p] of a plane of normal [n]. *)
Definition sink (rho : R) (y c n p : pt) : R := rho * sqrt (1 - pdot n y * pdot n y) - dist p c.
