(** * The normal of the wheel points to the side of the wheel (for C130). *)
From Coq Require Import ZArith Bool Reals Lra Lia String List.
From Verif Require Import Base Num Vec Aabb Tree Geom Ground Shape Rib Str Mesh Shell ER SpecGeom SpecRib SpecShape SpecShell SpecPose SpecAvg SpecCut SpecFrame SpecRoof.
From Verif Require Import SpecTree SpecMesh ProofMesh.
From Verif Require Import ProofGeom ProofInt ProofSegArea ProofFlat ProofSample ProofShape ProofShapeFacts ProofShell ProofShellFacts ProofPose ProofRoof ProofAvg ProofSetupData ProofPaved ProofTerrain.
From Verif Require ProofLight.
Import ListNotations.
Local Open Scope R_scope.

(** What the ribs of a wheel hold after a setup on a mesh. *)
Lemma mesh_rib_call : forall gb sp s m a meth s' b, real_shell sp s -> setup_mesh gb s m (fa a) meth = Ok s' b ->
  forall i, (i < sh_size s')%nat -> exists r o, has_rib s i r /\ out_at s' i = Ret o /\
  (o = fout (none_out r a) \/
   exists cs, (forall g, In g cs -> In g (me_tris m)) /\ envelop (gb i) (frib r) cs (fa a) meth = Ret (true, o)).
Proof.
  intros gb sp s m a meth s' b RS E i Hi. destruct (setup_mesh_reports _ _ _ _ _ _ _ E) as (RB & _ & local & Q & D).
  destruct RS as (RC & ES & GS). destruct (reach_slices s RC sp ES GS) as (n & _ & RN).
  assert (NX : exists r, nth_error (sh_ribs s') i = Some (frib r) /\ has_rib s i r).
  { destruct (nth_error (sh_ribs s') i) as [x|] eqn:NX; [|apply nth_error_None in NX; unfold sh_size in Hi; lia].
    rewrite RB, RN in NX. rewrite nth_error_map in NX. destruct (nth_error (slices sp n) i) as [r|] eqn:NR; [|discriminate].
    cbn in NX. injection NX as <-. exists r. split; [reflexivity|]. unfold has_rib, rib_at. rewrite RN, nth_error_map, NR. reflexivity. }
  destruct NX as (r & NX & HR). exists r.
  destruct D as [(_ & _ & F)|(NE & flags & FL & FR' & _)].
  - destruct (F i Hi) as (x & o & N' & F' & EO). rewrite NX in N'. injection N' as <-. unfold none_call in F'.
    exists o. split; [exact HR|]. split; [exact EO|]. left.
    assert (F2 : envelop_none (frib r) (fa a) = (false, o)) by congruence. injection F2 as <-. reflexivity.
  - destruct (nth_error flags i) as [c|] eqn:EF; [|apply nth_error_None in EF; lia].
    destruct (FR' i c EF) as (x & cs & N' & NC & x' & o & N'' & F & EO). rewrite NX in N', N''. injection N' as <-. injection N'' as <-.
    assert (NJ : nth_error (sh_ribs s) i = Some (frib r)) by (rewrite <- RB; exact NX).
    assert (QP := Q). rewrite (setup_bbox gb s (fa a) meth s' b) in QP by eauto.
    rewrite (setup_mesh_cands gb s m (fa a) meth s' b local E QP NE i (frib r) NJ) in NC. injection NC as NC.
    assert (SB : forall g, In g cs -> In g (me_tris m)).
    { intros g G. apply (query_sub m _ local Q). rewrite <- NC in G. now apply filter_In in G. }
    exists o. split; [exact HR|]. split; [exact EO|]. destruct c; [right; eauto|left].
    apply envelop_no_contact in F. destruct F as (H1 & H2 & H3 & H4 & H5 & H6).
    destruct o as [o1 o2 o3 o4 o5 o6]. cbn [o_point o_normal o_friction o_depth o_area o_volume] in *. subst. reflexivity.
Qed.

(** A unit vector on the same side of the horizontal as the wheel. *)
Definition upward (a : affine R) (n : pt) : Prop := is_unit n /\ 0 < vz n * m22 (lin a).
Lemma none_upward : forall r a, rigid a -> m22 (lin a) <> 0 -> upward a (o_normal (none_out r a)).
Proof.
  intros r a HA H. unfold none_out. cbn [o_normal]. split.
  - unfold is_unit. rewrite rotation_isometry by exact HA. vunf. ring.
  - unfold papply. cbn [vz vx vy]. replace (_ * m22 (lin a)) with (m22 (lin a) * m22 (lin a)) by (vunf; ring).
    pose proof (Rle_0_sqr (m22 (lin a))) as Q. unfold Rsqr in Q.
    destruct (Rtotal_order (m22 (lin a)) 0) as [|[|]]; nra.
Qed.
Lemma probed_upward : forall ts r a p0 p1 p2 p3 f0 f1 f2 f3 n, 0 < rb_radius r -> 0 < rb_width r -> rigid a -> m22 (lin a) <> 0 ->
  probed ts r a p0 p1 p2 p3 f0 f1 f2 f3 -> is_unit n -> along (pcross (psub p0 p1) (psub p2 p3)) n -> upward a n.
Proof.
  intros ts r a p0 p1 p2 p3 f0 f1 f2 f3 n HR HW HA HZ P U AL. split; [exact U|].
  destruct AL as [[_ Z]|(_ & k & K & E)]; [subst n; unfold is_unit in U; vunf; lra|].
  destruct P as [[[X0 Y0] _] [[X1 Y1] _] [[X2 Y2] _] [[X3 Y3] _]].
  destruct HA as (_ & _ & _ & _ & _ & _ & C). apply (f_equal vz) in C, E.
  assert (Q : vz (pcross (psub p0 p1) (psub p2 p3)) = 3 / 25 * (rb_radius r * rb_width r) * m22 (lin a)).
  { unfold pcross, psub. cbn [vx vy vz]. rewrite X0, X1, X2, X3, Y0, Y1, Y2, Y3. unfold probe, place, padd, papply. cbn [vx vy vz].
    replace (m22 (lin a)) with (vz (pcol2 (lin a))) by reflexivity. rewrite <- C. unfold pcross, pcol0, pcol1. cbn [vx vy vz].
    field. }
  rewrite Q in E. unfold pscale in E. cbn [vz] in E.
  set (w := 3 / 25 * (rb_radius r * rb_width r)) in *. assert (W : 0 < w) by (unfold w; pose proof (Rmult_lt_0_compat _ _ HR HW); lra).
  assert (G : 0 < k * vz n * m22 (lin a)).
  { rewrite <- E. rewrite Rmult_assoc. apply Rmult_lt_0_compat; [exact W|]. destruct (Rtotal_order (m22 (lin a)) 0) as [|[|]]; nra. }
  rewrite Rmult_assoc in G. apply (Rmult_lt_reg_l k); [exact K|]. now rewrite Rmult_0_r.
Qed.

Lemma least : forall (f : output R -> R) os, (forall o, In o os -> 0 < f o) -> exists c, 0 < c /\ forall o, In o os -> c <= f o.
Proof.
  intros f os. induction os as [|o os IH]; intros H; [exists 1; split; [lra|intros o []]|].
  destruct IH as (c & C & IH); [intros; apply H; now right|]. exists (Rmin c (f o)). split.
  - apply Rmin_glb_lt; [exact C|apply H; now left].
  - intros q [<-|I]; [apply Rmin_r|]. apply Rle_trans with c; [apply Rmin_l|auto].
Qed.
Lemma mean_upward : forall s' os a, rib_data s' os -> (0 < sh_size s')%nat ->
  (forall o, In o os -> 0 <= o_volume o /\ upward a (o_normal o)) -> exists n, contact_normal s' = Ret (fv n) /\ upward a n.
Proof.
  intros s' os a RD HN HO.
  destruct (least (fun o => vz (o_normal o) * m22 (lin a)) os) as (c & C & L); [intros o Ho; apply (HO o Ho)|].
  set (z := m22 (lin a)) in *.
  assert (Z : z <> 0).
  { intros Z. destruct os as [|o os]; [destruct RD as [RL _]; cbn in RL; lia|].
    destruct (HO o (or_introl eq_refl)) as (_ & _ & Q). fold z in Q. rewrite Z in Q. lra. }
  assert (SG : exists e, e * e = 1 /\ 0 < e * z).
  { destruct (Rtotal_order z 0) as [|[|]]; [exists (-1); lra|contradiction|exists 1; lra]. }
  destruct SG as (e & E1 & E2). assert (AE : z = e * (e * z)) by (rewrite <- Rmult_assoc, E1; ring).
  destruct (normal_side s' os RD HN (fun o Ho => proj1 (HO o Ho)) (V 0 0 e) (c / (e * z))) as (n & EN & U & D).
  - apply Rmult_lt_0_compat; [exact C|now apply Rinv_0_lt_compat].
  - unfold is_unit. vunf. lra.
  - intros o [Ho _]. specialize (L o Ho). cbn beta in L. unfold pdot. cbn [vx vy vz].
    apply (Rmult_le_reg_r (e * z)); [exact E2|]. unfold Rdiv. rewrite Rmult_assoc, Rinv_l by lra.
    apply Rle_trans with (vz (o_normal o) * z); [lra|]. right.
    replace ((0 * vx (o_normal o) + 0 * vy (o_normal o) + e * vz (o_normal o)) * (e * z)) with (e * e * (vz (o_normal o) * z)) by ring. rewrite E1. ring.
  - intros o [Ho _]. apply (HO o Ho).
  - exists n. split; [exact EN|]. split; [exact U|]. fold z. unfold pdot in D. cbn [vx vy vz] in D.
    assert (0 < c / (e * z)) by (apply Rmult_lt_0_compat; [exact C|now apply Rinv_0_lt_compat]).
    assert (G : 0 < e * vz n) by lra. rewrite AE. replace (vz n * (e * (e * z))) with (e * vz n * (e * z)) by ring. now apply Rmult_lt_0_compat.
Qed.

Lemma mesh_upward : forall gb sp s m ts a s' b, real_shell sp s -> rigid a -> m22 (lin a) <> 0 -> grounds ts (me_tris m) ->
  setup_mesh gb s m (fa a) "sampling" = Ok s' b -> exists n, contact_normal s' = Ret (fv n) /\ upward a n.
Proof.
  intros gb sp s m ts a s' b RS HA HZ GR E.
  pose proof (osize_zero _ (r_mesh_ok _ _ _ _ _ _ _ (proj1 RS) E)) as [_ HN].
  assert (W : forall i, (i < sh_size s')%nat -> exists o, out_at s' i = Ret (fout o) /\ 0 <= o_volume o /\ upward a (o_normal o)).
  { intros i Hi. destruct (mesh_rib_call gb sp s m a "sampling" s' b RS E i Hi) as (r & o & HR & EO & [->|(cs & SB & F)]).
    - exists (none_out r a). split; [exact EO|]. split; [cbn; lra|now apply none_upward].
    - destruct (has_rib_axial sp s i r RS HR) as (_ & (R1 & R2 & R3) & _). destruct (has_rib_width _ _ _ _ RS HR) as (WP & _).
      destruct (sub_grounds ts (me_tris m) cs GR SB) as (ts' & G' & _).
      destruct (sampling_described (gb i) r a ts' cs o R1 R2 HA G' F) as (p0 & p1 & p2 & p3 & f0 & f1 & f2 & f3 & o' & P & -> & _ & _ & U & AL & _).
      destruct (sampling_all_bounds (gb i) r cs (fa a) (fout o') R1 R2 F) as (d & ar & vol & _ & _ & _ & _ & V1 & V2).
      cbn [fout o_volume] in V1. injection V1 as V1. exists o'. split; [exact EO|]. split; [lra|].
      exact (probed_upward ts' r a p0 p1 p2 p3 f0 f1 f2 f3 _ R1 WP HA HZ P U AL). }
  destruct (list_choice _ _ _ W) as (os & L & HO). apply (mean_upward s' os a); [|exact HN|].
  - split; [exact L|]. intros i o N. destruct (HO i o N) as [EO _].
    unfold contact_point_i, contact_normal_i, contact_friction_i, contact_depth_i, contact_area_i, contact_volume_i.
    rewrite EO. repeat split; reflexivity.
  - intros o Ho. apply In_nth_error in Ho. destruct Ho as [i Hi]. now apply (HO i o).
Qed.
Lemma flat_upward : forall gb sp s gp f a s' b, real_shell sp s -> rigid a -> m22 (lin a) <> 0 -> is_unit (pnormal gp) ->
  setup_flat gb s (fflat gp f) (fa a) "sampling" = Ok s' b -> exists n, contact_normal s' = Ret (fv n) /\ upward a n.
Proof.
  intros gb sp s gp f a s' b HS HA HZ HG H.
  destruct (ProofLight.flat_shell_data gb sp s gp f a "sampling" s' b HS HA HG (or_intror eq_refl) H) as (os & RD & HN & HO).
  destruct (setup_flat_reports _ _ _ _ _ _ _ H) as (RB & _ & flags & LF & HR & _).
  pose proof HS as (RC & ES & GS). apply (mean_upward s' os a RD HN). intros o Ho. split.
  - destruct (HO o Ho) as [(V & _)|(V & _)]; lra.
  - apply In_nth_error in Ho. destruct Ho as [i Hi].
    assert (L : (i < sh_size s')%nat) by (rewrite <- (proj1 RD); apply nth_error_Some; congruence).
    destruct (nth_error flags i) as [c|] eqn:E; [|apply nth_error_None in E; lia].
    destruct (HR i c E) as (x & o2 & NX & EF & EO).
    destruct (proj2 RD i o Hi) as (_ & A1 & _). unfold contact_normal_i in A1. rewrite EO in A1. cbn [obind] in A1.
    destruct (reach_slices s RC sp ES GS) as (n & _ & RN). rewrite RB, RN, nth_error_map in NX.
    destruct (nth_error (slices sp n) i) as [r|] eqn:NR; [|discriminate]. cbn in NX. injection NX as <-.
    assert (HRB : has_rib s i r) by (unfold has_rib, rib_at; rewrite RN, nth_error_map, NR; reflexivity).
    destruct (has_rib_axial sp s i r HS HRB) as (_ & GD & _).
    assert (A2 : o_normal o2 = fv (o_normal o)) by congruence. destruct c.
    + destruct (flat_sampling_side (gb i) r a gp f o2 GD HA HG EF) as (n1 & N1 & N2).
      destruct (flat_sampling_geometry (gb i) r a gp f o2 GD HA HG EF) as (p & n' & d & _ & _ & N3 & N4 & _).
      rewrite A2 in N1, N3. apply fv_inj in N1, N3. subst n1 n'. split.
      * destruct N4 as [->| ->]; [exact HG|]. unfold is_unit in *. rewrite <- HG. destruct (pnormal gp). vunf. ring.
      * replace (m22 (lin a)) with (vz (papply (lin a) (V 0 0 1))) by (unfold papply; vunf; ring). exact N2.
    + apply envelop_flat_no_contact in EF. destruct EF as (_ & N1 & _). rewrite A2 in N1.
      assert (N2 : fv (o_normal o) = fv (o_normal (none_out r a))) by exact N1. apply fv_inj in N2. rewrite N2. now apply none_upward.
Qed.
