(** * Specification vocabulary for angles. *)
From Coq Require Import Reals.
From Verif Require Import Num Vec Geom SpecGeom.
Local Open Scope R_scope.

(** Turning a point by an angle about one axis of the frame it is expressed in
    (right hand rule). *)
Definition turn_x (t : R) (p : pt) : pt := V (vx p) (cos t * vy p - sin t * vz p) (sin t * vy p + cos t * vz p).
Definition turn_y (t : R) (p : pt) : pt := V (cos t * vx p + sin t * vz p) (vy p) (cos t * vz p - sin t * vx p).
Definition turn_z (t : R) (p : pt) : pt := V (cos t * vx p - sin t * vy p) (sin t * vx p + cos t * vy p) (vz p).

(** The rotation named by three angles in the documented Z-X-Y sequence: first
    angle about Z, second about the turned X, third about the twice turned Y. *)
Definition turn_zxy (e : pt) (p : pt) : pt := turn_z (vx e) (turn_x (vy e) (turn_y (vz e) p)).
