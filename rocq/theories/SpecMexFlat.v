(** * Valid flat grounds, and sessions that give finite numbers. *)
From Coq Require Import ZArith Bool Reals String List.
From Verif Require Import Base Num Vec Geom Ground Str Mesh Shell ER SpecGeom Mex SpecMex.
Import ListNotations.
Local Open Scope R_scope.

(** A flat ground with a unit normal that points upwards and a friction that
    is not negative: what the contact computations expect. *)
Definition sound_flat (g : flat er) : Prop :=
  (exists o u, fl_plane g = fplane (Plane o u) /\ is_unit u /\ 0 < vz u) /\
  nle (nofZ 0) (fl_friction g) = true.

Definition sound_world (w : world er) : Prop := forall a g, live w a (OFlat g) -> sound_flat g.

(** The double arrays among the arguments hold finite numbers. *)
Definition finite_mx (m : mx er) : Prop :=
  match m with MxDouble _ d => Forall (fun x => exists r, x = Fin r) d | _ => True end.

(** Finite arguments, and neither of the two setters that store what they get. *)
Definition tame (c : call (K := er)) : Prop :=
  Forall finite_mx (c_args c) /\
  (c_file c = FFlat -> ~ is_command (c_args c) "setNormal" /\ ~ is_command (c_args c) "setFriction").
