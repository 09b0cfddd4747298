(** * The floor of [SamplePaved] carries enough of the wheel (for C128). *)
From Coq Require Import ZArith Bool Reals Lra Lia String List.
From Verif Require Import Base Num Vec Aabb Tree Geom Ground Shape Rib Str Mesh Shell ER SpecGeom SpecRib SpecShape SpecShell SpecPose SpecAvg SpecFrame SpecRoof.
From Verif Require Import SpecTree SpecLoad SpecMesh ProofMesh.
From Verif Require Import ProofGeom ProofInt ProofSegArea ProofFlat ProofSample ProofShape ProofShell ProofPose ProofAvg SamplePose SpecSmooth ProofSmooth SpecPaved ProofPaved SamplePaved.
Import ListNotations.
Local Open Scope R_scope.

Lemma third_volume : rvol 1 (1 / 2) (1 / 2) >= 1 / 4.
Proof.
  unfold rvol. replace ((1 - 1 / 2) / 1) with (cos (PI / 3)) by (rewrite cos_PI3; lra).
  pose proof PI_RGT_0. pose proof PI2_3_2. unfold PI2 in *. rewrite acos_cos by lra.
  assert (S : sqrt (1 / 2 * (2 * 1 - 1 / 2)) <= 1) by (apply Rle_trans with (sqrt 1); [apply sqrt_le_1_alt; lra|rewrite sqrt_1; lra]). lra.
Qed.
Lemma floor_deep : exists m s, grounds floor_tris (me_tris m) /\ real_shell round_tire s /\ rigid on_floor /\
  forall gb, exists s' b v, setup_mesh gb s m (fa on_floor) "sampling" = Ok s' b /\ contact_volume s' = Ret (Fin v) /\ eps <= v /\
    (0 < sh_size s')%nat /\ contact_depth_i s' 0 = Ret (Fin (1 / 2)).
Proof.
  destruct floor_one_rib as (m & s & LD & SZ & GR & RS & HA & UN & S1 & HR & RUN). exists m, s.
  split; [exact GR|]. split; [exact RS|]. split; [exact HA|]. intros gb.
  destruct (RUN gb gb) as (s1 & b & s2 & b' & E1 & E2).
  assert (NM : (Z.of_nat (mesh_size m) <= 2 ^ 31)%Z) by (rewrite SZ; cbn; lia).
  assert (B2 : sMx round_tire <= 2 /\ sMy round_tire <= 2 /\ sRy round_tire <= sRx round_tire) by (unfold round_tire; cbn; lra).
  destruct B2 as (BX & BY & BR).
  destruct (level_wheel _ _ _ _ _ level 1 _ _ _ _ _ _ _ _ _ LD NM GR floor_paved eq_refl RS BX BY BR HA UN E1 E2) as (os & O1 & O2 & L).
  rewrite S1 in L. destruct os as [|o [|o' os]]; try discriminate L.
  destruct (flat_out level 1 s on_floor gb s2 b' E2 0%nat mid_rib HR) as (c & o2 & F & O).
  assert (SZ2 : sh_size s2 = 1%nat) by (apply setup_flat_reports in E2 as (R1 & _); unfold sh_size in *; now rewrite R1).
  assert (Q : o2 = o).
  { unfold outs in O2. rewrite SZ2 in O2. cbn [seq omap] in O2. rewrite O in O2. cbn [obind] in O2. congruence. }
  subst o2. destruct (floor_contact gb s s2 b' RS HR E2) as (o3 & O3 & D). rewrite O in O3. injection O3 as <-.
  destruct (has_rib_axial _ _ _ _ RS HR) as (_ & (R1 & R2 & R3) & _).
  destruct c.
  - pose proof F as F'. apply flat_sam_ret in F. destruct F as (g0 & g1 & g2 & g3 & F).
    apply sampling_bounds in F; [|exact R1|exact R2]. destruct F as (d & D' & _ & _ & V). rewrite D in D'. injection D' as <-.
    assert (W : rb_width mid_rib = 1 / 2) by (unfold mid_rib, real_rib, slice_width, round_tire; cbn; lra).
    rewrite mid_radius, W in V. pose proof third_volume as T.
    exists s1, b, (rvol 1 (1 / 2) (1 / 2)). split; [exact E1|]. split.
    + unfold contact_volume. rewrite O1. cbn [obind]. unfold sum_by. cbn [fold_left]. rewrite V. 
      change (Ret (Fin (0 + rvol 1 (1 / 2) (1 / 2))) = Ret (Fin (rvol 1 (1 / 2) (1 / 2)))). now rewrite Rplus_0_l.
    + split; [assert (eps < / 100) by (unfold eps; lra); lra|].
      assert (SZ1 : sh_size s1 = 1%nat) by (apply setup_mesh_reports in E1 as (R0 & _); unfold sh_size in *; now rewrite R0).
      split; [lia|]. unfold outs in O1. rewrite SZ1 in O1. cbn [seq omap] in O1. unfold contact_depth_i.
      destruct (out_at s1 0) as [q| |]; cbn [obind] in O1; try discriminate. cbn [obind]. assert (QO : q = o) by congruence. subst q. now rewrite D.
  - exfalso. apply envelop_flat_no_contact in F. destruct F as (_ & _ & _ & Z & _). rewrite D in Z. assert (1 / 2 = 0) by (injection Z; auto). lra.
Qed.
Lemma floor_heavy : exists m s, grounds floor_tris (me_tris m) /\ real_shell round_tire s /\ rigid on_floor /\
  forall gb, exists s' b v, setup_mesh gb s m (fa on_floor) "sampling" = Ok s' b /\ contact_volume s' = Ret (Fin v) /\ eps <= v.
Proof.
  destruct floor_deep as (m & s & A & B & C & D). exists m, s. split; [exact A|]. split; [exact B|]. split; [exact C|].
  intros gb. destruct (D gb) as (s' & b & v & E & F & G & _). eauto 6.
Qed.
