(** * The ground profile seen from the hub. *)
From Coq Require Import ZArith Bool List Reals.
From Verif Require Import Base Num Vec Geom Ground Rib ER SpecGeom SpecRib SpecAvg.
Import ListNotations.
Local Open Scope R_scope.

(** The point of the rib plane at distance [rho] from the rib center in the
    direction [th], an angle from the first towards the third axis of the
    wheel. *)
Definition wheel_point (r : rib R) (a : affine R) (rho th : R) : pt :=
  padd (place a (rb_center r)) (padd (pscale (rho * cos th) (pcol0 (lin a))) (pscale (rho * sin th) (pcol2 (lin a)))).

(** [A] is the area of the part of the rib disk that the segment [s] hides
    from its center: the directions that meet [s] are those of [[lo, hi]],
    [rho] is the distance to [s], and [A] is the integral of the area
    (radius^2 - rho^2)/2 per unit of angle. *)
Definition hidden_area (r : rib R) (a : affine R) (s : segment R) (A : R) : Prop :=
  exists (lo hi : R) (rho F : R -> R), lo <= hi < lo + PI /\
    (forall q, in_segment s q -> exists k th, 0 < k /\ lo <= th <= hi /\ q = wheel_point r a k th) /\
    (forall th, lo <= th <= hi -> 0 < rho th <= rb_radius r /\ in_segment s (wheel_point r a (rho th) th) /\
       derivable_pt_lim F th ((rb_radius r * rb_radius r - rho th * rho th) / 2)) /\
    A = F hi - F lo.

(** The segments in which the triangles are cut by the rib, in order. *)
Inductive cuts (r : rib R) (a : affine R) : list (tground er) -> list (segment R) -> Prop :=
| cuts_nil : cuts r a [] []
| cuts_none : forall g gs ss,
    int_triangle_disk (tg_tri g) (disk_grd (frib r) (fa a)) neps = Ret None ->
    cuts r a gs ss -> cuts r a (g :: gs) ss
| cuts_some : forall g gs s ss,
    int_triangle_disk (tg_tri g) (disk_grd (frib r) (fa a)) neps = Ret (Some (fseg s)) ->
    cuts r a gs ss -> cuts r a (g :: gs) (s :: ss).
(** A cut the method counts: at least the tolerance long, under the axle. *)
Definition plain_cut (r : rib R) (a : affine R) (s : segment R) : Prop :=
  eps <= dist (sv0 s) (sv1 s) /\ under_axle r a (sv0 s) /\ under_axle r a (sv1 s).
(** [s] is the union of [s1] and [s2], which share an end point. *)
Definition splits (s s1 s2 : segment R) : Prop :=
  exists m, in_segment s m /\
    (s1 = Segment (sv0 s) m \/ s1 = Segment m (sv0 s)) /\ (s2 = Segment m (sv1 s) \/ s2 = Segment (sv1 s) m).
