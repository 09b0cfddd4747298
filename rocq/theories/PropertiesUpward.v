(** * C130: the normal the wheel reports with the sampling method. *)
From Coq Require Import ZArith Bool Reals Lra Lia String List.
From Verif Require Import Base Num Vec Geom Ground Shape Rib Mesh Shell ER SpecGeom SpecRib SpecShape SpecShell SpecPose SpecAvg SpecFrame SpecRoof.
From Verif Require Import ProofGeom ProofUpward SamplePose SpecPaved SamplePaved SampleTerrainFloor SampleLight.
From Verif Require ProofSetupOk.
Import ListNotations.
Local Open Scope R_scope.

Lemma up_z : forall a, vz (papply (lin a) (V 0 0 1)) = m22 (lin a).
Proof. intros a. unfold papply. vunf. ring. Qed.

(** On a mesh of triangles turned either way, with or without contact, the
    wheel reports a unit normal, and it points up if the vertical axis of the
    wheel points up and down if that axis points down. *)
Theorem C130_mesh : forall gb sp s m ts a s' b, real_shell sp s -> rigid a -> vz (papply (lin a) (V 0 0 1)) <> 0 ->
  grounds ts (me_tris m) -> setup_mesh gb s m (fa a) "sampling" = Ok s' b ->
  exists n, contact_normal s' = Ret (fv n) /\ is_unit n /\ 0 < vz n * vz (papply (lin a) (V 0 0 1)).
Proof.
  intros gb sp s m ts a s' b H H0 H1. rewrite up_z in *. intros. eapply mesh_upward; eauto.
Qed.
Print Assumptions C130_mesh.

(** So it does on flat ground. *)
Theorem C130_flat : forall gb sp s gp f a s' b, real_shell sp s -> rigid a -> vz (papply (lin a) (V 0 0 1)) <> 0 ->
  is_unit (pnormal gp) -> setup_flat gb s (fflat gp f) (fa a) "sampling" = Ok s' b ->
  exists n, contact_normal s' = Ret (fv n) /\ is_unit n /\ 0 < vz n * vz (papply (lin a) (V 0 0 1)).
Proof.
  intros gb sp s gp f a s' b H H0 H1. rewrite up_z in *. intros. eapply flat_upward; eauto.
Qed.
Print Assumptions C130_flat.

(** A wheel on a floor of two triangles, and a wheel of three ribs with its axle
    on level ground. *)
Example C130_example :
  (exists m s, grounds floor_tris (me_tris m) /\ real_shell round_tire s /\ rigid on_floor /\
     vz (papply (lin on_floor) (V 0 0 1)) <> 0 /\
     forall gb, exists s' b, setup_mesh gb s m (fa on_floor) "sampling" = Ok s' b) /\
  (rigid upright /\ vz (papply (lin upright) (V 0 0 1)) <> 0 /\ is_unit (pnormal (ground_below 0)) /\
   forall gb, exists s s' b, real_shell round_tire s /\
     setup_flat gb s (fflat (ground_below 0) (3 / 4)) (fa upright) "sampling" = Ok s' b).
Proof.
  assert (Z : vz (papply (lin upright) (V 0 0 1)) <> 0) by (unfold papply, upright; cbn; lra).
  split.
  - destruct floor_heavy as (m & s & A & B & C & D). exists m, s. split; [exact A|]. split; [exact B|]. split; [exact C|].
    split; [exact Z|]. intros gb. destruct (D gb) as (s' & b & v & E & _). eauto.
  - split; [exact upright_rigid|]. split; [exact Z|]. split; [apply below_unit|]. intros gb.
    destruct three_ribs as (s & RS & S3 & _).
    destruct (ProofSetupOk.setup_flat_ok gb s (fflat (ground_below 0) (3 / 4)) (fa upright) "sampling") as (s' & b & E);
      [apply RS|lia|right; reflexivity|]. eauto.
Qed.
