(** * Vocabulary for entities that lie in one plane. *)
From Coq Require Import Reals.
From Verif Require Import Num Vec Geom Acme AcmeEntity ER SpecGeom SpecAcme SpecEntity.
Local Open Scope R_scope.

(** The line that carries a line, a ray or a segment. *)
Definition carrier (e : entity R) : option (line R) :=
  match e with
  | ELine l => Some l
  | ERay r => Some (ray_line r)
  | ESegment s => Some (seg_line s)
  | _ => None
  end.
(** Entities against which a point can be tested. *)
Definition takes_points (e : entity R) : Prop :=
  match e with ENone | EPoint _ | EBall _ => False | _ => True end.
(** The entity is as long and as wide as the tolerance. *)
Definition not_short (tol : R) (e : entity R) : Prop :=
  match e with ESegment s => tol <= dist (sv0 s) (sv1 s) | _ => True end.
