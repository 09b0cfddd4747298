(** * The volume a wheel hides is at most half of its cylinder (for C132). *)
From Coq Require Import ZArith Bool Reals Lra Lia String List.
From Verif Require Import Base Num Vec Aabb Tree Geom Ground Shape Rib Str Mesh Shell ER SpecGeom SpecRib SpecShape SpecShell SpecPose SpecAvg SpecCut SpecFrame SpecRoof.
From Verif Require Import SpecTree SpecMesh ProofMesh.
From Verif Require Import ProofGeom ProofInt ProofSegArea ProofFlat ProofSample ProofShape ProofShapeFacts ProofShell ProofShellFacts ProofPose ProofRoof ProofAvg ProofSetupData ProofPaved ProofTerrain ProofUpward.
From Verif Require ProofLight.
Import ListNotations.
Local Open Scope R_scope.

Definition half_rib (r : rib R) : R := PI * (rb_radius r * rb_radius r) / 2 * rb_width r.
Lemma rvol_half_bound : forall r w d, 0 < r -> 0 <= w -> 0 < d <= r -> 0 <= rvol r w d <= PI * (r * r) / 2 * w.
Proof.
  intros r w d HR HW HD. split; [apply rvol_bounds; lra|]. rewrite <- rvol_half by exact HR. apply rvol_mono; lra.
Qed.
Lemma half_pos : forall r, good_rib r -> 0 <= half_rib r.
Proof.
  intros r (R1 & R2 & _). unfold half_rib. pose proof PI_RGT_0. pose proof (Rmult_lt_0_compat _ _ R1 R1).
  apply Rmult_le_pos; [|exact R2]. pose proof (Rmult_lt_0_compat _ _ H H0). lra.
Qed.
Lemma flat_volume : forall gb r a gp f m b o, good_rib r -> rigid a -> is_unit (pnormal gp) ->
  valid_method m -> envelop_flat gb (frib r) (fflat gp f) (fa a) m = Ret (b, o) ->
  exists v, o_volume o = Fin v /\ 0 <= v <= half_rib r.
Proof.
  intros gb r a gp f m b o HR HA HG HM H. pose proof (half_pos r HR) as HP. pose proof HR as (R1 & R2 & _). destruct b.
  2: { apply envelop_flat_no_contact in H. exists 0. split; [apply H|lra]. }
  destruct HM as [->| ->].
  - apply flat_geo_ret in H. destruct (flat_contact r a gp f HR HA HG o H) as (p & _ & _ & _ & _ & _ & _ & P7 & _ & P9).
    eexists. split; [exact P9|]. now apply rvol_half_bound.
  - apply flat_sam_ret in H. destruct H as (g0 & g1 & g2 & g3 & H).
    destruct (sampling_bounds _ _ _ _ _ _ _ _ R1 R2 H) as (d & _ & B & _ & P). eexists. split; [exact P|]. now apply rvol_half_bound.
Qed.
Lemma mesh_volume : forall gb r gs pose o, good_rib r -> envelop gb (frib r) gs pose "sampling" = Ret (true, o) ->
  exists v, o_volume o = Fin v /\ 0 <= v <= half_rib r.
Proof.
  intros gb r gs pose o (R1 & R2 & _) H. apply sam_ret in H. destruct H as (g0 & g1 & g2 & g3 & H).
  destruct (sampling_bounds _ _ _ _ _ _ _ _ R1 R2 H) as (d & _ & B & _ & P). eexists. split; [exact P|]. now apply rvol_half_bound.
Qed.

(** The ribs share the width of the wheel. *)
Lemma rib_share : forall sp s i r, real_shell sp s -> has_rib s i r ->
  INR (sh_size s) * half_rib r <= PI * (sRx sp * sRx sp) * sLy sp.
Proof.
  intros sp s i r RS HR. destruct (has_rib_axial sp s i r RS HR) as (_ & (R1 & R2 & _) & RR & YY).
  pose proof RS as (RC & ES & GS). destruct (reach_slices s RC sp ES GS) as (n & N & RN).
  assert (SZ : sh_size s = n) by (unfold sh_size; rewrite RN, map_length; apply slices_length).
  unfold has_rib, rib_at in HR. destruct (nth_error (sh_ribs s) i) as [x|] eqn:NE; [|discriminate]. injection HR as ->.
  assert (W : rb_width r = slice_width (sLy sp) n).
  { rewrite RN in NE. assert (LT : (i < n)%nat).
    { assert (L : nth_error (map frib (slices sp n)) i <> None) by congruence.
      apply nth_error_Some in L; now rewrite map_length, slices_length in L. }
    erewrite map_nth_error in NE; [|now apply slices_nth].
    assert (E' := f_equal (fun o => match o with Some x => x | None => frib r end) NE). cbv beta iota in E'. apply frib_inj in E'. now subst r. }
  assert (TOP : rb_radius r <= sRx sp) by (rewrite RR; apply radius_range; [exact GS|lra]).
  apply lt_0_INR in N. rewrite SZ. unfold half_rib. rewrite W. unfold slice_width.
  replace (INR n * (PI * (rb_radius r * rb_radius r) / 2 * (2 * sLy sp / INR n))) with (PI * (rb_radius r * rb_radius r) * sLy sp) by (field; lra).
  destruct GS as (_ & _ & _ & L & _). pose proof PI_RGT_0. apply Rmult_le_compat_r; [lra|]. apply Rmult_le_compat_l; [lra|].
  apply Rmult_le_compat; lra.
Qed.
Lemma total_bound : forall (f : output R -> R) c os, (forall o, In o os -> f o <= c) -> total f os <= INR (List.length os) * c.
Proof.
  intros f c. induction os as [|o os IH]; intros H; [cbn; lra|]. cbn [total List.length]. rewrite S_INR.
  pose proof (H o (or_introl eq_refl)). pose proof (IH (fun x i => H x (or_intror i))). lra.
Qed.
Lemma sum_half : forall sp s s' os, real_shell sp s -> sh_size s' = sh_size s -> (0 < sh_size s')%nat -> rib_data s' os ->
  (forall i o, nth_error os i = Some o -> exists r, has_rib s i r /\ 0 <= o_volume o <= half_rib r) ->
  exists v, contact_volume s' = Ret (Fin v) /\ 0 <= v <= PI * (sRx sp * sRx sp) * sLy sp.
Proof.
  intros sp s s' os RS SZ HN RD H. exists (total o_volume os). split; [exact (total_volume s' os RD)|].
  assert (HI : forall o, In o os -> 0 <= o_volume o /\ INR (sh_size s') * o_volume o <= PI * (sRx sp * sRx sp) * sLy sp).
  { intros o Ho. apply In_nth_error in Ho. destruct Ho as [i Hi]. destruct (H i o Hi) as (r & HR & V). split; [lra|].
    apply Rle_trans with (INR (sh_size s') * half_rib r); [apply Rmult_le_compat_l; [apply pos_INR|lra]|].
    rewrite SZ. now apply (rib_share sp s i). }
  split; [apply total_nonneg; intros o Ho; apply (HI o Ho)|]. apply lt_0_INR in HN.
  set (c := PI * (sRx sp * sRx sp) * sLy sp) in *.
  replace c with (INR (List.length os) * (c / INR (sh_size s'))) by (rewrite (proj1 RD); field; lra).
  apply total_bound. intros o Ho. apply (Rmult_le_reg_l (INR (sh_size s'))); [exact HN|].
  replace (INR (sh_size s') * (c / INR (sh_size s'))) with c by (field; lra). now apply HI.
Qed.
Lemma flat_half : forall gb sp s gp f a m s' b, real_shell sp s -> rigid a -> is_unit (pnormal gp) -> valid_method m ->
  setup_flat gb s (fflat gp f) (fa a) m = Ok s' b ->
  exists v, contact_volume s' = Ret (Fin v) /\ 0 <= v <= PI * (sRx sp * sRx sp) * sLy sp.
Proof.
  intros gb sp s gp f a m s' b HS HA HG HM H.
  destruct (ProofLight.flat_shell_data gb sp s gp f a m s' b HS HA HG HM H) as (os & RD & HN & _).
  destruct (setup_flat_reports _ _ _ _ _ _ _ H) as (RB & _ & flags & LF & HR & _).
  apply (sum_half sp s s' os HS); [unfold sh_size; now rewrite RB|exact HN|exact RD|]. intros i o Hi.
  assert (L : (i < sh_size s')%nat) by (rewrite <- (proj1 RD); apply nth_error_Some; congruence).
  destruct (nth_error flags i) as [c|] eqn:E; [|apply nth_error_None in E; lia].
  destruct (HR i c E) as (x & o2 & NX & EF & EO).
  destruct (proj2 RD i o Hi) as (_ & _ & _ & _ & _ & A1). unfold contact_volume_i in A1. rewrite EO in A1. cbn [obind] in A1.
  pose proof HS as (RC & ES & GS). destruct (reach_slices s RC sp ES GS) as (n & _ & RN). rewrite RB, RN, nth_error_map in NX.
  destruct (nth_error (slices sp n) i) as [r|] eqn:NR; [|discriminate]. cbn in NX. injection NX as <-.
  assert (HRB : has_rib s i r) by (unfold has_rib, rib_at; rewrite RN, nth_error_map, NR; reflexivity).
  destruct (has_rib_axial sp s i r HS HRB) as (_ & GD & _). exists r. split; [exact HRB|].
  destruct (flat_volume (gb i) r a gp f m c o2 GD HA HG HM EF) as (v & V & B). rewrite V in A1.
  assert (Q : v = o_volume o) by congruence. now subst v.
Qed.
Lemma mesh_half : forall gb sp s m ts a s' b, real_shell sp s -> rigid a -> grounds ts (me_tris m) ->
  setup_mesh gb s m (fa a) "sampling" = Ok s' b ->
  exists v, contact_volume s' = Ret (Fin v) /\ 0 <= v <= PI * (sRx sp * sRx sp) * sLy sp.
Proof.
  intros gb sp s m ts a s' b RS HA GR E. destruct (some_range ts) as (lo & hi & RG).
  pose proof (sampling_no_nan gb sp s m ts lo hi a s' b RS HA GR RG E) as NN.
  destruct (mesh_data gb sp s m ts lo hi a "sampling" s' b RS HA GR RG (or_intror eq_refl) E NN) as (os & RD & HN & HO).
  destruct (setup_mesh_reports _ _ _ _ _ _ _ E) as (RB & _).
  apply (sum_half sp s s' os RS); [unfold sh_size; now rewrite RB|exact HN|exact RD|]. intros i o Hi.
  assert (L : (i < sh_size s')%nat) by (rewrite <- (proj1 RD); apply nth_error_Some; congruence).
  destruct (mesh_rib_call gb sp s m a "sampling" s' b RS E i L) as (r & q & HR & EO & K).
  destruct (proj2 RD i o Hi) as (_ & _ & _ & _ & _ & A1). unfold contact_volume_i in A1. rewrite EO in A1. cbn [obind] in A1.
  destruct (has_rib_axial sp s i r RS HR) as (_ & GD & _). exists r. split; [exact HR|]. destruct K as [->|(cs & _ & F)].
  - cbn in A1. assert (Q : 0 = o_volume o) by (injection A1 as Q; exact Q). rewrite <- Q. pose proof (half_pos r GD). lra.
  - destruct (mesh_volume (gb i) r cs (fa a) q GD F) as (v & V & B). rewrite V in A1.
    assert (Q : v = o_volume o) by congruence. now subst v.
Qed.
