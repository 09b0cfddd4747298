(** * C126: what the whole wheel reports on flat ground. *)
From Coq Require Import ZArith Bool Reals Lra String List.
From Verif Require Import Base Num Vec Geom Ground Shape Rib Shell ER SpecGeom SpecRib SpecShape SpecShell SpecPose SpecAvg SpecLight.
From Verif Require Import ProofLight SamplePose SampleLight.
Import ListNotations.
Local Open Scope R_scope.

(** A wheel that hides a volume of at least EPSILON reports the friction of the
    ground, a point of the ground and the normal of the ground.  With the
    sampling method the normal is reversed when it and the wheel point to
    opposite sides. *)
Theorem C126_ground : forall gb sp s gp f a m s' b v, real_shell sp s -> rigid a -> is_unit (pnormal gp) ->
  valid_method m -> setup_flat gb s (fflat gp f) (fa a) m = Ok s' b ->
  contact_volume s' = Ret (Fin v) -> eps <= v ->
  contact_friction s' = Ret (Fin f) /\
  (exists p, contact_point s' = Ret (fv p) /\ on_plane gp p) /\
  exists n, contact_normal s' = Ret (fv n) /\
    (n = pnormal gp \/
     m = "sampling"%string /\ n = pscale (-1) (pnormal gp) /\
     vz (pnormal gp) * vz (papply (lin a) (V 0 0 1)) < 0).
Proof. exact heavy_wheel. Qed.
Print Assumptions C126_ground.

(** Below EPSILON the friction is that of the ground times the share of the
    ribs that touch it. *)
Theorem C126_light : forall gb sp s gp f a m s' b v, real_shell sp s -> rigid a -> is_unit (pnormal gp) ->
  valid_method m -> setup_flat gb s (fflat gp f) (fa a) m = Ok s' b ->
  contact_volume s' = Ret (Fin v) -> v < eps ->
  exists os, rib_data s' os /\
    contact_friction s' = Ret (Fin (f * (touching os / INR (sh_size s')))).
Proof. exact light_wheel. Qed.
Print Assumptions C126_light.

(** So a wheel in contact does not always report the friction of the ground:
    one of three ribs touches ground of friction 3/4, the wheel reports 1/4. *)
Theorem C126_light_refuted : exists sp gp a, rigid a /\ is_unit (pnormal gp) /\
  forall gb, exists s s' b d, real_shell sp s /\
    setup_flat gb s (fflat gp (3 / 4)) (fa a) "geometric" = Ok s' b /\
    contact_depth_i s' 1 = Ret (Fin d) /\ 0 < d /\ contact_friction_i s' 1 = Ret (Fin (3 / 4)) /\
    contact_friction s' = Ret (Fin (1 / 4)).
Proof.
  exists round_tire, (ground_below (1 - eps)), upright. split; [exact upright_rigid|]. split; [apply below_unit|].
  intros gb. destruct (barely gb) as (s & s' & b & o & RS & E & EO & D & F & _ & CF).
  exists s, s', b, (o_depth o). split; [exact RS|]. split; [exact E|].
  unfold contact_depth_i, contact_friction_i. rewrite EO. cbn [obind fout o_depth o_friction]. rewrite F. auto.
Qed.
Print Assumptions C126_light_refuted.

(** The same wheel meets the hypotheses of both theorems: with the axle on the
    ground, and barely touching it. *)
Example C126_example : rigid upright /\
  (is_unit (pnormal (ground_below 0)) /\ forall gb, exists s s' b v, real_shell round_tire s /\
     setup_flat gb s (fflat (ground_below 0) (3 / 4)) (fa upright) "geometric" = Ok s' b /\
     contact_volume s' = Ret (Fin v) /\ eps <= v) /\
  (is_unit (pnormal (ground_below (1 - eps))) /\ forall gb, exists s s' b v, real_shell round_tire s /\
     setup_flat gb s (fflat (ground_below (1 - eps)) (3 / 4)) (fa upright) "geometric" = Ok s' b /\
     contact_volume s' = Ret (Fin v) /\ v < eps).
Proof.
  split; [exact upright_rigid|]. split; (split; [apply below_unit|]); intros gb.
  - apply loaded.
  - destruct (barely gb) as (s & s' & b & o & RS & E & _ & _ & _ & (v & EV & HV) & _). exists s, s', b, v. auto.
Qed.
