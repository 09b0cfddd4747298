(** * The depth of the geometric method (for C137). *)
From Coq Require Import ZArith Bool Reals Lra Lia String List.
From Verif Require Import Base Num Vec Aabb Tree Geom Ground Shape Rib Str Mesh Shell ER SpecGeom SpecRib SpecShape SpecShell SpecPose SpecAvg SpecCut SpecFrame SpecRoof SpecHull.
From Verif Require Import SpecTree SpecMesh ProofMesh.
From Verif Require Import ProofGeom ProofInt ProofTri ProofSegArea ProofFlat ProofSample ProofShape ProofShapeFacts ProofShell ProofShellFacts ProofPose ProofRoof ProofAvg ProofMeshGeo ProofMeshEval ProofSetupData ProofPaved ProofTerrain ProofUpward ProofHull ProofBisector.
Import ListNotations.
Local Open Scope R_scope.

Lemma dist_along : forall u p c, is_unit u -> pdot u c - pdot u p <= dist p c.
Proof.
  intros u p c U. pose proof (cauchy_schwarz u (psub p c)) as CS. unfold is_unit in U. rewrite U in CS. unfold dist.
  destruct (Rle_lt_dec (pdot u c - pdot u p) 0) as [H|H]; [pose proof (pnorm_nonneg (psub p c)); lra|].
  unfold pnorm. apply Rsqr_incr_0_var; [|apply sqrt_pos]. rewrite Rsqr_sqrt by apply pdot_pos.
  replace (pdot u (psub p c)) with (pdot u p - pdot u c) in CS by (unfold pdot, psub; cbn [vx vy vz]; ring). unfold Rsqr. nra.
Qed.
Lemma geo_depth : forall r a ts gs o v u lo hi, good_rib r -> rb_normal r = V 0 1 0 -> rigid a -> grounds ts gs -> below_hub a (rb_center r) ts ->
  envelop_geometric (frib r) gs (fa a) = Ret (true, o) -> o_volume o = Fin v -> v <> 0 ->
  is_unit u -> (forall t f, In (t, f) ts -> between u lo hi t) ->
  exists d, o_depth o = Fin d /\ d <= rb_radius r - (pdot u (place a (rb_center r)) - (hi + 3 * eps * (hi - lo))).
Proof.
  intros r a ts gs o v u lo hi HR HN HA G BH H HV NV U W. destruct (geo_slab r a ts gs o v HR HN HA G BH H HV NV) as (p & P & K).
  destruct (K u lo hi W) as [_ S]. destruct (some_range ts) as (fl & fh & RG).
  destruct (geometric_bounds r a HR HA gs o fl fh) as (o' & -> & _ & _ & _ & _ & D & _).
  - intros g I. destruct (grounds_in ts gs g G I) as (t & f & It & Gt). exists t, f. split; [exact Gt|now apply (RG t)].
  - exact H.
  - rewrite HV. intros Z. apply NV. now injection Z.
  - assert (E : o_point o' = p) by (apply fv_inj; exact P). exists (o_depth o'). split; [reflexivity|]. rewrite D, E.
    pose proof (dist_along u p (place a (rb_center r)) U). lra.
Qed.
Lemma wheel_geo_depth : forall gb sp s m ts a s' b v u lo hi k, real_shell sp s -> rigid a -> grounds ts (me_tris m) -> below_hub a (V 0 0 0) ts ->
  setup_mesh gb s m (fa a) "geometric" = Ok s' b -> (forall i, (i < sh_size s')%nat -> contact_friction_i s' i <> Ret Nan) ->
  contact_volume s' = Ret (Fin v) -> eps <= v ->
  is_unit u -> (forall t f, In (t, f) ts -> between u lo hi t) ->
  (forall y, Rabs y <= sLy sp -> hi + 3 * eps * (hi - lo) + k <= pdot u (place a (V 0 y 0))) ->
  exists d, contact_depth s' = Ret (Fin d) /\ 0 <= d <= sRx sp - k.
Proof.
  intros gb sp s m ts a s' b v u l h k RS HA GR BH E NN CV HV U W HK. destruct (some_range ts) as (lo & hi & RG).
  destruct (mesh_data gb sp s m ts lo hi a "geometric" s' b RS HA GR RG (or_introl eq_refl) E NN) as (os & RD & HN & HO).
  assert (NV : forall o, In o os -> 0 <= o_volume o) by (intros o Ho; apply (HO o Ho)).
  assert (TV : total o_volume os = v) by (pose proof (total_volume s' os RD) as T; rewrite CV in T; injection T as T; now symmetry).
  apply (depth_bounds s' os RD HN NV); [lra|]. intros o Ho VO. split; [apply (HO o Ho); exact VO|].
  apply In_nth_error in Ho. destruct Ho as [i Hi].
  assert (L : (i < sh_size s')%nat) by (rewrite <- (proj1 RD); apply nth_error_Some; congruence).
  destruct (mesh_rib_call gb sp s m a "geometric" s' b RS E i L) as (r & q & HR & EO & C).
  destruct (proj2 RD i o Hi) as (_ & _ & _ & A0 & _ & A1). unfold contact_volume_i in A1. rewrite EO in A1. cbn [obind] in A1.
  unfold contact_depth_i in A0. rewrite EO in A0. cbn [obind] in A0.
  destruct C as [->|(cs & SB & F)].
  - exfalso. cbn in A1. assert (Q : 0 = o_volume o) by (injection A1 as Q; exact Q). lra.
  - destruct (has_rib_axial sp s i r RS HR) as ((AX & X & Z) & GD & RR & LY). destruct (sub_grounds ts (me_tris m) cs GR SB) as (ts' & G' & S' & _).
    assert (BS : below_hub a (rb_center r) ts').
    { apply hub_slides; auto. destruct BH as (l0 & h0 & B0 & B1). exists l0, h0. split; [|exact B1]. intros t f I. apply (B0 t f). now apply S'. }
    assert (A1' : o_volume q = Fin (o_volume o)) by congruence.
    assert (F' : envelop_geometric (frib r) cs (fa a) = Ret (true, q)) by (destruct (gb i) as [[[? ?] ?] ?]; exact F).
    destruct (geo_depth r a ts' cs q (o_volume o) u l h GD AX HA G' BS F' A1' ltac:(lra) U) as (d & D1 & D2); [intros t f I; apply (W t f); now apply S'|].
    assert (Q : d = o_depth o) by (rewrite D1 in A0; injection A0 as A0; exact A0). rewrite <- Q.
    assert (RL : rb_radius r <= sRx sp) by (rewrite RR; apply radius_range; [apply RS|lra]).
    assert (CC : rb_center r = V 0 (vy (rb_center r)) 0) by (destruct (rb_center r) as [cx cy cz]; cbn in *; now subst).
    specialize (HK (vy (rb_center r)) (Rlt_le _ _ LY)). rewrite <- CC in HK. lra.
Qed.

(** ** The sampling method. *)
Lemma sam_depth : forall gb r a ts gs o u lo hi, good_rib r -> rigid a -> grounds ts gs ->
  envelop gb (frib r) gs (fa a) "sampling" = Ret (true, o) -> is_unit u -> (forall t f, In (t, f) ts -> between u lo hi t) ->
  exists d, o_depth o = Fin d /\ d <= rb_radius r - (pdot u (place a (rb_center r)) - (hi + 3 * eps * (hi - lo))).
Proof.
  intros gb r a ts gs o u lo hi HR HA G H U W. destruct (rib_slab gb r a ts gs o u lo hi HR HA G W H) as (p & P & [_ S]). destruct HR as (R1 & R2 & _).
  destruct (sampling_described gb r a ts gs o R1 R2 HA G H) as (p0 & p1 & p2 & p3 & f0 & f1 & f2 & f3 & o' & _ & -> & _ & _ & _ & _ & D & _).
  assert (E : o_point o' = p) by (apply fv_inj; exact P). exists (o_depth o'). split; [reflexivity|]. rewrite D, E. unfold sink.
  pose proof (dist_along u p (place a (rb_center r)) U) as DA.
  assert (SQ : sqrt (1 - pdot (o_normal o') (pcol1 (lin a)) * pdot (o_normal o') (pcol1 (lin a))) <= 1).
  { rewrite <- sqrt_1 at 2. apply sqrt_le_1_alt. pose proof (Rle_0_sqr (pdot (o_normal o') (pcol1 (lin a)))) as Q. unfold Rsqr in Q. lra. }
  apply (Rmult_le_compat_l (rb_radius r)) in SQ; [|lra]. lra.
Qed.
Lemma wheel_sam_depth : forall gb sp s m ts a s' b v u lo hi k, real_shell sp s -> rigid a -> grounds ts (me_tris m) ->
  setup_mesh gb s m (fa a) "sampling" = Ok s' b -> contact_volume s' = Ret (Fin v) -> eps <= v ->
  is_unit u -> (forall t f, In (t, f) ts -> between u lo hi t) ->
  (forall y, Rabs y <= sLy sp -> hi + 3 * eps * (hi - lo) + k <= pdot u (place a (V 0 y 0))) ->
  exists d, contact_depth s' = Ret (Fin d) /\ 0 <= d <= sRx sp - k.
Proof.
  intros gb sp s m ts a s' b v u l h k RS HA GR E CV HV U W HK. destruct (some_range ts) as (lo & hi & RG).
  pose proof (sampling_no_nan gb sp s m ts lo hi a s' b RS HA GR RG E) as NN.
  destruct (mesh_data gb sp s m ts lo hi a "sampling" s' b RS HA GR RG (or_intror eq_refl) E NN) as (os & RD & HN & HO).
  assert (NV : forall o, In o os -> 0 <= o_volume o) by (intros o Ho; apply (HO o Ho)).
  assert (TV : total o_volume os = v) by (pose proof (total_volume s' os RD) as T; rewrite CV in T; injection T as T; now symmetry).
  apply (depth_bounds s' os RD HN NV); [lra|]. intros o Ho VO. split; [apply (HO o Ho); exact VO|].
  apply In_nth_error in Ho. destruct Ho as [i Hi].
  assert (L : (i < sh_size s')%nat) by (rewrite <- (proj1 RD); apply nth_error_Some; congruence).
  destruct (mesh_rib_call gb sp s m a "sampling" s' b RS E i L) as (r & q & HR & EO & C).
  destruct (proj2 RD i o Hi) as (_ & _ & _ & A0 & _ & A1). unfold contact_volume_i in A1. rewrite EO in A1. cbn [obind] in A1.
  unfold contact_depth_i in A0. rewrite EO in A0. cbn [obind] in A0.
  destruct C as [->|(cs & SB & F)].
  - exfalso. cbn in A1. assert (Q : 0 = o_volume o) by (injection A1 as Q; exact Q). lra.
  - destruct (has_rib_axial sp s i r RS HR) as ((AX & X & Z) & GD & RR & LY). destruct (sub_grounds ts (me_tris m) cs GR SB) as (ts' & G' & S' & _).
    destruct (sam_depth (gb i) r a ts' cs q u l h GD HA G' F U) as (d & D1 & D2); [intros t f I; apply (W t f); now apply S'|].
    assert (Q : d = o_depth o) by (rewrite D1 in A0; injection A0 as A0; exact A0). rewrite <- Q.
    assert (RL : rb_radius r <= sRx sp) by (rewrite RR; apply radius_range; [apply RS|lra]).
    assert (CC : rb_center r = V 0 (vy (rb_center r)) 0) by (destruct (rb_center r) as [cx cy cz]; cbn in *; now subst).
    specialize (HK (vy (rb_center r)) (Rlt_le _ _ LY)). rewrite <- CC in HK. lra.
Qed.
