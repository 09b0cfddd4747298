(** * C131: the contact frame of a wheel with a level axle, sampling method. *)
From Coq Require Import ZArith Bool Reals Lra Lia String List.
From Verif Require Import Base Num Vec Geom Ground Shape Rib Mesh Shell ER SpecGeom SpecRib SpecShape SpecShell SpecPose SpecAvg SpecFrame SpecRoof SpecEuler.
From Verif Require Import ProofGeom ProofShell ProofEuler PropertiesInside PropertiesUpward ProofRibFrame SamplePose SpecPaved SamplePaved SampleTerrainFloor SampleLight.
Import ListNotations.
Local Open Scope R_scope.

Lemma level_cross : forall y n : pt, is_unit y -> vz y = 0 -> vz n <> 0 -> pcross y n <> V 0 0 0.
Proof.
  intros y n U Y N C. pose proof (f_equal vx C) as CX. pose proof (f_equal vy C) as CY. unfold pcross in CX, CY. cbn [vx vy vz] in CX, CY.
  unfold is_unit, pdot in U. rewrite Y in *.
  assert (Y0 : vy y * vz n = 0) by lra. assert (X0 : vx y * vz n = 0) by lra.
  apply Rmult_integral in Y0, X0. destruct Y0 as [Y0|]; [|contradiction]. destruct X0 as [X0|]; [|contradiction]. rewrite X0, Y0 in U. lra.
Qed.
Lemma level_frame : forall s' a p n, sh_affine s' = fa a -> rigid a -> vz (pcol1 (lin a)) = 0 ->
  contact_point s' = Ret (fv p) -> contact_normal s' = Ret (fv n) -> is_unit n -> 0 < vz n * vz (papply (lin a) (V 0 0 1)) ->
  exists A e, contact_affine s' = Ret (fa A) /\ frame_of (pcol1 (lin a)) p n A /\ relative_angles s' = Ret (fv e) /\
  vx e = 0 /\ - (PI / 2) < vy e < PI / 2 /\ sin (vy e) = pdot (pcol1 (lin a)) n /\ - PI <= vz e < PI /\
  forall q, papply (lin a) q = papply (lin A) (turn_zxy e q).
Proof.
  intros s' a p n AF HA L P N U D. apply (total_angles s' a p n AF HA P N U).
  apply level_cross; [apply HA|exact L|]. intros Z. rewrite Z in D. lra.
Qed.

(** A wheel whose axle is level, and whose vertical axis is not, always has an
    orthonormal contact frame at its contact point, and turning that frame by
    the relative angles gives the attitude of the wheel. *)
Theorem C131_mesh : forall gb sp s m ts a s' b, real_shell sp s -> rigid a -> vz (pcol1 (lin a)) = 0 ->
  vz (papply (lin a) (V 0 0 1)) <> 0 -> grounds ts (me_tris m) -> setup_mesh gb s m (fa a) "sampling" = Ok s' b ->
  exists p n A e, contact_point s' = Ret (fv p) /\ contact_normal s' = Ret (fv n) /\
  contact_affine s' = Ret (fa A) /\ frame_of (pcol1 (lin a)) p n A /\ relative_angles s' = Ret (fv e) /\
  vx e = 0 /\ - (PI / 2) < vy e < PI / 2 /\ sin (vy e) = pdot (pcol1 (lin a)) n /\
  forall q, papply (lin a) q = papply (lin A) (turn_zxy e q).
Proof.
  intros gb sp s m ts a s' b RS HA L Z GR E.
  destruct (C129_sampling gb sp s m ts a s' b RS HA GR E) as (p & _ & P & _).
  destruct (C130_mesh gb sp s m ts a s' b RS HA Z GR E) as (n & N & U & D).
  destruct (setup_mesh_reports _ _ _ _ _ _ _ E) as (_ & AF & _).
  destruct (level_frame s' a p n AF HA L P N U D) as (A & e & E1 & E2 & E3 & E4 & E5 & E6 & _ & E8).
  exists p, n, A, e. auto 12.
Qed.
Print Assumptions C131_mesh.

Theorem C131_flat : forall gb sp s gp f a s' b, real_shell sp s -> rigid a -> vz (pcol1 (lin a)) = 0 ->
  vz (papply (lin a) (V 0 0 1)) <> 0 -> is_unit (pnormal gp) -> setup_flat gb s (fflat gp f) (fa a) "sampling" = Ok s' b ->
  exists p n A e, contact_point s' = Ret (fv p) /\ contact_normal s' = Ret (fv n) /\
  contact_affine s' = Ret (fa A) /\ frame_of (pcol1 (lin a)) p n A /\ relative_angles s' = Ret (fv e) /\
  vx e = 0 /\ - (PI / 2) < vy e < PI / 2 /\ sin (vy e) = pdot (pcol1 (lin a)) n /\
  forall q, papply (lin a) q = papply (lin A) (turn_zxy e q).
Proof.
  intros gb sp s gp f a s' b RS HA L Z GR E.
  destruct (C129_flat gb sp s gp f a "sampling" s' b RS HA GR (or_intror eq_refl) E) as (p & _ & P & _).
  destruct (C130_flat gb sp s gp f a s' b RS HA Z GR E) as (n & N & U & D).
  destruct (setup_flat_reports _ _ _ _ _ _ _ E) as (_ & AF & _).
  destruct (level_frame s' a p n AF HA L P N U D) as (A & e & E1 & E2 & E3 & E4 & E5 & E6 & _ & E8).
  exists p, n, A, e. auto 12.
Qed.
Print Assumptions C131_flat.

(** Whatever the attitude of the wheel, a rib in contact has a contact frame. *)
Theorem C131_rib : forall gb sp s m ts a s' b i d, real_shell sp s -> rigid a -> grounds ts (me_tris m) ->
  setup_mesh gb s m (fa a) "sampling" = Ok s' b -> (i < sh_size s')%nat -> contact_depth_i s' i = Ret (Fin d) -> 0 < d ->
  exists p n A, contact_point_i s' i = Ret (fv p) /\ contact_normal_i s' i = Ret (fv n) /\ is_unit n /\
    contact_affine_i s' i = Ret (fa A) /\ frame_of (pcol1 (lin a)) p n A.
Proof. exact rib_frame. Qed.
Print Assumptions C131_rib.

Example C131_example :
  (exists m s, grounds floor_tris (me_tris m) /\ real_shell round_tire s /\ rigid on_floor /\ vz (pcol1 (lin on_floor)) = 0 /\
     vz (papply (lin on_floor) (V 0 0 1)) <> 0 /\
     forall gb, exists s' b, setup_mesh gb s m (fa on_floor) "sampling" = Ok s' b) /\
  (rigid upright /\ vz (pcol1 (lin upright)) = 0 /\ vz (papply (lin upright) (V 0 0 1)) <> 0 /\ is_unit (pnormal (ground_below 0)) /\
   forall gb, exists s s' b, real_shell round_tire s /\
     setup_flat gb s (fflat (ground_below 0) (3 / 4)) (fa upright) "sampling" = Ok s' b).
Proof.
  destruct C130_example as [(m & s & A & B & C & D & E) (A' & B' & C' & D')].
  assert (Y : vz (pcol1 (lin upright)) = 0) by reflexivity.
  split; [exists m, s; auto 8|auto 8].
Qed.
Example C131_example_rib : exists m s, grounds floor_tris (me_tris m) /\ real_shell round_tire s /\ rigid on_floor /\
  forall gb, exists s' b, setup_mesh gb s m (fa on_floor) "sampling" = Ok s' b /\ (0 < sh_size s')%nat /\ contact_depth_i s' 0 = Ret (Fin (1 / 2)).
Proof.
  destruct floor_deep as (m & s & A & B & C & D). exists m, s. split; [exact A|]. split; [exact B|]. split; [exact C|].
  intros gb. destruct (D gb) as (s' & b & v & E & _ & _ & F & G). eauto 6.
Qed.
