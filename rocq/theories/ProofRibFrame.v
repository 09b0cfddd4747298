(** * A rib in contact has a contact frame (for C131). *)
From Coq Require Import ZArith Bool Reals Lra Lia String List.
From Verif Require Import Base Num Vec Aabb Tree Geom Ground Shape Rib Str Mesh Shell ER SpecGeom SpecRib SpecShape SpecShell SpecPose SpecAvg SpecCut SpecFrame SpecRoof.
From Verif Require Import SpecTree SpecMesh ProofMesh.
From Verif Require Import ProofGeom ProofInt ProofSegArea ProofFlat ProofSample ProofShape ProofShapeFacts ProofShell ProofShellFacts ProofPose ProofRoof ProofAvg ProofSetupData ProofPaved ProofTerrain ProofUpward.
Import ListNotations.
Local Open Scope R_scope.

Lemma slanted_cross : forall y n : pt, is_unit y -> is_unit n -> pdot n y * pdot n y < 1 -> pcross y n <> V 0 0 0.
Proof.
  intros y n U N D C. assert (L : pdot (pcross y n) (pcross y n) = pdot y y * pdot n n - pdot n y * pdot n y).
  { destruct y, n. vunf. ring. }
  rewrite C in L. unfold is_unit in U, N. rewrite U, N in L. vunf. lra.
Qed.
Lemma rib_frame : forall gb sp s m ts a s' b i d, real_shell sp s -> rigid a -> grounds ts (me_tris m) ->
  setup_mesh gb s m (fa a) "sampling" = Ok s' b -> (i < sh_size s')%nat -> contact_depth_i s' i = Ret (Fin d) -> 0 < d ->
  exists p n A, contact_point_i s' i = Ret (fv p) /\ contact_normal_i s' i = Ret (fv n) /\ is_unit n /\
    contact_affine_i s' i = Ret (fa A) /\ frame_of (pcol1 (lin a)) p n A.
Proof.
  intros gb sp s m ts a s' b i d RS HA GR E Hi HD D.
  destruct (setup_mesh_reports _ _ _ _ _ _ _ E) as (_ & AF & _).
  destruct (mesh_rib_call gb sp s m a "sampling" s' b RS E i Hi) as (r & o & HR & EO & [->|(cs & SB & F)]).
  - unfold contact_depth_i in HD. rewrite EO in HD. cbn in HD. injection HD as <-. lra.
  - destruct (has_rib_axial sp s i r RS HR) as (_ & (R1 & R2 & R3) & _).
    destruct (sub_grounds ts (me_tris m) cs GR SB) as (ts' & G' & _).
    destruct (sampling_described (gb i) r a ts' cs o R1 R2 HA G' F) as (p0 & p1 & p2 & p3 & f0 & f1 & f2 & f3 & o' & P & -> & _ & _ & U & _ & DS & DP).
    assert (EP : contact_point_i s' i = Ret (fv (o_point o'))) by (unfold contact_point_i; rewrite EO; reflexivity).
    assert (EN : contact_normal_i s' i = Ret (fv (o_normal o'))) by (unfold contact_normal_i; rewrite EO; reflexivity).
    assert (C : pcross (pcol1 (lin a)) (o_normal o') <> V 0 0 0).
    { apply slanted_cross; [apply HA|exact U|]. rewrite DS in DP. unfold sink in DP.
      pose proof (pnorm_nonneg (psub (o_point o') (place a (rb_center r)))) as N0. fold (dist (o_point o') (place a (rb_center r))) in N0.
      destruct (Rlt_le_dec (pdot (o_normal o') (pcol1 (lin a)) * pdot (o_normal o') (pcol1 (lin a))) 1) as [|G]; [assumption|].
      rewrite sqrt_neg_0 in DP by lra. lra. }
    destruct (affine_i_frame s' a i _ _ AF EP EN U C) as (A & EA & FA). exists (o_point o'), (o_normal o'), A. auto.
Qed.
