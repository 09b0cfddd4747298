(** * Specification vocabulary for the distance queries on a tree. *)
From Coq Require Import ZArith Bool List Reals.
From Verif Require Import Num Vec Aabb Geom ER SpecGeom SpecTree SpecAcme.
Local Open Scope R_scope.

(** A box with real corners and some extent along every axis. *)
Definition thick_box (b : aabb er) : Prop :=
  exists lo hi id, b = fbox lo hi id /\ vx lo < vx hi /\ vy lo < vy hi /\ vz lo < vz hi.
(** Some point of [b] is at most [d] away from [p]. *)
Definition reaches (p : pt) (d : R) (b : aabb er) : Prop :=
  exists x, in_box (fv x) b /\ dist p x <= d.
(** Whatever the objects in the boxes are, the one in [b] may be the nearest
    to [p]: against every box, some pair of points says so. *)
Definition may_be_nearest (p : pt) (boxes : list (aabb er)) (b : aabb er) : Prop :=
  forall b', In b' boxes ->
    exists x y, in_box (fv x) b /\ in_box (fv y) b' /\ dist p x <= dist p y.
(** [d] is the distance from [p] to the farthest point of [b]. *)
Definition farthest_at (p : pt) (b : aabb er) (d : R) : Prop :=
  (exists y, in_box (fv y) b /\ dist p y = d) /\ forall y, in_box (fv y) b -> dist p y <= d.
(** A box without thickness along some axis, and a point off its plane. *)
Definition flat_off (lo hi p : pt) : Prop :=
  vx lo = vx hi /\ vx p <> vx lo \/ vy lo = vy hi /\ vy p <> vy lo \/ vz lo = vz hi /\ vz p <> vz lo.
