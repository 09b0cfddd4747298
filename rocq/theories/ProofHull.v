(** * The contact point is over the ground it was found on (for C135). *)
From Coq Require Import ZArith Bool Reals Lra Lia String List.
From Verif Require Import Base Num Vec Aabb Tree Geom Ground Shape Rib Str Mesh Shell ER SpecGeom SpecRib SpecShape SpecShell SpecPose SpecAvg SpecCut SpecFrame SpecRoof SpecHull.
From Verif Require Import SpecTree SpecMesh ProofMesh.
From Verif Require Import ProofGeom ProofInt ProofSegArea ProofFlat ProofSample ProofShape ProofShapeFacts ProofShell ProofShellFacts ProofPose ProofRoof ProofAvg ProofSetupData ProofPaved ProofTerrain ProofUpward.
From Verif Require ProofAbove.
Import ListNotations.
Local Open Scope R_scope.

Lemma near_slab : forall u lo hi t q, between u lo hi t -> near_triangle eps t q -> slab u lo hi q.
Proof.
  intros u lo hi t q (H0 & H1 & H2) (a & b & c & A & B & C & S & ->).
  assert (E : pdot u (bary t a b c) = a * pdot u (tv0 t) + b * pdot u (tv1 t) + c * pdot u (tv2 t)) by (unfold bary, padd, pscale, pdot; cbn [vx vy vz]; ring).
  unfold slab. rewrite E. clear E. set (x := pdot u (tv0 t)) in *. set (y := pdot u (tv1 t)) in *. set (z := pdot u (tv2 t)) in *.
  pose proof (ProofAbove.weight_low a _ _ _ A H0). pose proof (ProofAbove.weight_low b _ _ _ B H1). pose proof (ProofAbove.weight_low c _ _ _ C H2).
  assert (M : forall x, lo <= x <= hi -> - hi <= - x <= - lo) by (intros; lra).
  pose proof (ProofAbove.weight_low a _ _ _ A (M _ H0)). pose proof (ProofAbove.weight_low b _ _ _ B (M _ H1)). pose proof (ProofAbove.weight_low c _ _ _ C (M _ H2)).
  replace c with (1 - a - b) in * by lra. split; lra.
Qed.
Lemma rib_slab : forall gb r a ts gs o u lo hi, good_rib r -> rigid a -> grounds ts gs -> (forall t f, In (t, f) ts -> between u lo hi t) ->
  envelop gb (frib r) gs (fa a) "sampling" = Ret (true, o) -> exists p, o_point o = fv p /\ slab u lo hi p.
Proof.
  intros gb r a ts gs o u lo hi (R1 & R2 & _) HA G W H.
  destruct (sampling_described gb r a ts gs o R1 R2 HA G H) as (p0 & p1 & p2 & p3 & f0 & f1 & f2 & f3 & o' & P & -> & PT & _).
  destruct P as [[_ [(t0 & I0 & N0) _]] [_ [(t1 & I1 & N1) _]] [_ [(t2 & I2 & N2) _]] [_ [(t3 & I3 & N3) _]]].
  apply W in I0, I1, I2, I3. apply (near_slab u lo hi) in N0, N1, N2, N3; auto.
  exists (o_point o'). split; [reflexivity|]. rewrite PT. unfold slab in *.
  replace (pdot u (pscale (/ 4) (padd (padd (padd p0 p1) p2) p3))) with ((pdot u p0 + pdot u p1 + pdot u p2 + pdot u p3) / 4)
    by (unfold pscale, padd, pdot; cbn [vx vy vz]; field). lra.
Qed.
Lemma wheel_slab : forall gb sp s m ts a s' b v, real_shell sp s -> rigid a -> grounds ts (me_tris m) ->
  setup_mesh gb s m (fa a) "sampling" = Ok s' b -> contact_volume s' = Ret (Fin v) -> eps <= v ->
  exists p, contact_point s' = Ret (fv p) /\
    forall u lo hi, (forall t f, In (t, f) ts -> between u lo hi t) -> slab u lo hi p.
Proof.
  intros gb sp s m ts a s' b v RS HA GR E CV HV. destruct (some_range ts) as (lo & hi & RG).
  pose proof (sampling_no_nan gb sp s m ts lo hi a s' b RS HA GR RG E) as NN.
  destruct (mesh_data gb sp s m ts lo hi a "sampling" s' b RS HA GR RG (or_intror eq_refl) E NN) as (os & RD & HN & HO).
  assert (NV : forall o, In o os -> 0 <= o_volume o) by (intros o Ho; apply (HO o Ho)).
  assert (TV : total o_volume os = v) by (pose proof (total_volume s' os RD) as T; rewrite CV in T; injection T as T; now symmetry).
  destruct (point_hull s' os RD HN NV) as (p & EP & HP). exists p. split; [exact EP|]. intros u l h W.
  assert (K : forall o, (In o os /\ (total o_volume os < eps \/ 0 < o_volume o)) -> slab u l h (o_point o)).
  { intros o [Ho M]. assert (VO : 0 < o_volume o) by (destruct M; lra). apply In_nth_error in Ho. destruct Ho as [i Hi].
    assert (L : (i < sh_size s')%nat) by (rewrite <- (proj1 RD); apply nth_error_Some; congruence).
    destruct (mesh_rib_call gb sp s m a "sampling" s' b RS E i L) as (r & q & HR & EO & C).
    destruct (proj2 RD i o Hi) as (A0 & _ & _ & _ & _ & A1). unfold contact_volume_i in A1. rewrite EO in A1. cbn [obind] in A1.
    unfold contact_point_i in A0. rewrite EO in A0. cbn [obind] in A0.
    destruct C as [->|(cs & SB & F)].
    - exfalso. cbn in A1. assert (Q : 0 = o_volume o) by (injection A1 as Q; exact Q). lra.
    - destruct (has_rib_axial sp s i r RS HR) as (_ & GD & _). destruct (sub_grounds ts (me_tris m) cs GR SB) as (ts' & G' & S' & _).
      destruct (rib_slab (gb i) r a ts' cs q u l h GD HA G') as (p' & P1 & P2); [intros t f I; apply (W t f); now apply S'|exact F|].
      rewrite P1 in A0. assert (Q : p' = o_point o) by (apply fv_inj; congruence). now rewrite <- Q. }
  split.
  - apply HP. intros o M. apply (K o M).
  - assert (N : - (h + 3 * eps * (h - l)) <= pdot (pscale (-1) u) p).
    { apply HP. intros o M. destruct (K o M) as [_ Q]. replace (pdot (pscale (-1) u) (o_point o)) with (- pdot u (o_point o)) by (unfold pscale, pdot; cbn [vx vy vz]; ring). lra. }
    replace (pdot (pscale (-1) u) p) with (- pdot u p) in N by (unfold pscale, pdot; cbn [vx vy vz]; ring). lra.
Qed.
