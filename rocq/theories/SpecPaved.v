(** * Flat ground cut in triangles. *)
From Coq Require Import Reals List.
From Verif Require Import Base Num Vec Geom Ground Rib ER SpecGeom SpecRib SpecAvg SpecFrame SpecRoof.
Import ListNotations.
Local Open Scope R_scope.

(** Every triangle lies in the plane [gp] and has the friction [f]. *)
Definition paved (gp : plane R) (f : R) (ts : list (triangle R * R)) : Prop :=
  forall t f', In (t, f') ts -> on_plane gp (tv0 t) /\ on_plane gp (tv1 t) /\ on_plane gp (tv2 t) /\ f' = f.

(** There is ground over or under [q], at the point [p]. *)
Definition ground_at (ts : list (triangle R * R)) (q p : pt) : Prop :=
  exists t f, In (t, f) ts /\ eps <= shadow t /\ in_triangle t p /\ over q p.

(** The four points of a rib from which the sampling method probes. *)
Definition probes (r : rib R) (a : affine R) : list pt :=
  [probe r a (rb_radius r / 10) 0; probe r a (- (rb_radius r / 10)) 0;
   probe r a 0 (3 / 10 * rb_width r); probe r a 0 (- (3 / 10 * rb_width r))].
