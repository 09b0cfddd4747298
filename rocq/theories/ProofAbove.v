(** * A wheel above the mesh (for C134). *)
From Coq Require Import ZArith Bool Reals Lra Lia String List.
From Verif Require Import Base Num Vec Aabb Tree Geom Ground Shape Rib Str Mesh Shell ER SpecGeom SpecRib SpecShape SpecShell SpecPose SpecAvg SpecCut SpecFrame SpecRoof SpecAbove.
From Verif Require Import SpecTree SpecMesh ProofMesh.
From Verif Require Import ProofGeom ProofInt ProofTri ProofSegArea ProofFlat ProofSample ProofShape ProofShapeFacts ProofShell ProofShellFacts ProofPose ProofRoof ProofAvg ProofMeshGeo ProofMeshEval ProofSetupData ProofPaved ProofTerrain ProofUpward.
From Verif Require ProofSmooth.
Import ListNotations.
Local Open Scope R_scope.

Lemma weight_low : forall a x lo hi, - eps <= a -> lo <= x <= hi -> - (eps * (hi - lo)) <= a * (hi - x).
Proof.
  intros a x lo hi A X. pose proof eps_pos. apply Rle_trans with (- eps * (hi - x)); [|apply Rmult_le_compat_r; lra].
  assert (eps * (hi - x) <= eps * (hi - lo)) by (apply Rmult_le_compat_l; lra). lra.
Qed.
Lemma near_low : forall lo hi t q, within lo hi t -> near_triangle eps t q -> vz q <= top_of lo hi.
Proof.
  intros lo hi t q (H0 & H1 & H2) (a & b & c & A & B & C & S & ->). unfold bary, padd, pscale. cbn [vz].
  pose proof (weight_low a _ _ _ A H0). pose proof (weight_low b _ _ _ B H1). pose proof (weight_low c _ _ _ C H2).
  unfold top_of. replace c with (1 - a - b) in * by lra. lra.
Qed.
Lemma dist_drop : forall p c, vz c - vz p <= dist p c.
Proof.
  intros p c. unfold dist. destruct (Rle_lt_dec (vz c - vz p) 0) as [H|H]; [pose proof (pnorm_nonneg (psub p c)); lra|].
  unfold pnorm. apply Rsqr_incr_0_var; [|apply sqrt_pos]. rewrite Rsqr_sqrt by apply pdot_pos.
  unfold Rsqr, pdot, psub. cbn [vx vy vz]. pose proof (Rle_0_sqr (vx p - vx c)). pose proof (Rle_0_sqr (vy p - vy c)). unfold Rsqr in *. lra.
Qed.

Section Clear.
  Variables (r : rib R) (a : affine R) (lo hi : R).
  Hypothesis HR : good_rib r.
  Hypothesis HA : rigid a.
  Hypothesis HC : top_of lo hi + rb_radius r < vz (place a (rb_center r)).
  Lemma loop_clear : forall gs, (forall g, In g gs -> exists t f, ground_of t f g /\ within lo hi t) -> forall x,
    geo_loop (frib r) (fa a) gs (sums false []) = Ret x -> ga_int x = false.
  Proof.
    induction gs as [|g gs IH]; intros HG x H; [cbn in H; injection H as <-; reflexivity|].
    destruct (HG g (or_introl eq_refl)) as (t & f & G & W).
    destruct (int_triangle_disk (tg_tri g) (disk_grd (frib r) (fa a)) neps) as [[sg|]| |] eqn:EI.
    - assert (EI' := EI). destruct (ground_of_fields _ _ _ G) as (T1 & _). rewrite T1, f_disk in EI'.
      change (neps (Num := ER_Num)) with (Fin eps) in EI'.
      destruct (triangle_disk_sound t (posed_disk r a) eps sg eps_pos (Rlt_le _ _ (proj1 HR)) (posed_unit r a HR HA) EI')
        as (s & -> & _ & _ & N0 & _ & D).
      assert (DS : dropped r a s = true).
      { destruct s as [p q]. cbn [sv0 sv1] in *. assert (Q : p = q).
        { destruct (Req_dec (vx p) (vx q)) as [X|X]; [destruct (Req_dec (vy p) (vy q)) as [Y|Y]; [destruct (Req_dec (vz p) (vz q)) as [Z|Z]|]|].
          1:{ destruct p, q. cbn in *. congruence. }
          all: exfalso; assert (PQ : p <> q) by (intros ->; auto); destruct (D PQ) as [[_ DD] _];
            pose proof (near_low lo hi t p W N0); pose proof (dist_drop p (place a (rb_center r)));
            unfold posed_disk in DD; cbn [dplane dradius porigin] in DD; lra. }
        subst q. apply dropped_point. }
      rewrite (loop_drop r a g t f s gs false [] G EI DS) in H. injection H as <-. reflexivity.
    - cbn [geo_loop] in H. rewrite EI in H. cbn [obind] in H. apply IH; auto. intros g' I. apply HG. now right.
    - cbn [geo_loop] in H. rewrite EI in H. discriminate.
    - cbn [geo_loop] in H. rewrite EI in H. discriminate.
  Qed.
  Lemma geo_clear : forall gs o, (forall g, In g gs -> exists t f, ground_of t f g /\ within lo hi t) ->
    envelop_geometric (frib r) gs (fa a) <> Ret (true, o).
  Proof.
    intros gs o HG H. unfold envelop_geometric in H.
    destruct (geo_loop (frib r) (fa a) gs gacc0) as [x| |] eqn:EL; cbn [obind] in H; try discriminate.
    rewrite sums0 in EL. rewrite (loop_clear gs HG x EL) in H. cbn [andb] in H.
    apply (f_equal (fun q => match q with Ret (c, _) => c | _ => true end)) in H. discriminate.
  Qed.
  Lemma sam_clear : forall gb ts gs o, grounds ts gs -> (forall t f, In (t, f) ts -> within lo hi t) ->
    envelop gb (frib r) gs (fa a) "sampling" <> Ret (true, o).
  Proof.
    intros gb ts gs o G W H. pose proof HR as (R1 & R2 & _).
    destruct (sampling_described gb r a ts gs o R1 R2 HA G H) as (p0 & p1 & p2 & p3 & f0 & f1 & f2 & f3 & o' & P & _ & PT & _ & _ & _ & D & DP).
    destruct P as [[_ [(t0 & I0 & N0) _]] [_ [(t1 & I1 & N1) _]] [_ [(t2 & I2 & N2) _]] [_ [(t3 & I3 & N3) _]]].
    apply W in I0, I1, I2, I3. apply (near_low lo hi) in N0, N1, N2, N3; auto.
    pose proof (dist_drop (o_point o') (place a (rb_center r))) as Q. rewrite D in DP. unfold sink in DP.
    assert (Z : vz (o_point o') <= top_of lo hi) by (rewrite PT; unfold pscale, padd; cbn [vz]; lra).
    assert (SQ : sqrt (1 - pdot (o_normal o') (pcol1 (lin a)) * pdot (o_normal o') (pcol1 (lin a))) <= 1).
    { rewrite <- sqrt_1 at 2. apply sqrt_le_1_alt. pose proof (Rle_0_sqr (pdot (o_normal o') (pcol1 (lin a)))) as S. unfold Rsqr in S. lra. }
    apply (Rmult_le_compat_l (rb_radius r)) in SQ; [|lra]. lra.
  Qed.
End Clear.

Lemma wheel_above : forall gb sp s m ts lo hi a meth s' b, real_shell sp s -> rigid a -> grounds ts (me_tris m) -> valid_method meth ->
  (forall t f, In (t, f) ts -> within lo hi t) ->
  (forall y, Rabs y <= sLy sp -> top_of lo hi + sRx sp < vz (place a (V 0 y 0))) ->
  setup_mesh gb s m (fa a) meth = Ok s' b -> b = false.
Proof.
  intros gb sp s m ts lo hi a meth s' b RS HA GR HM W HC E. destruct b; [exfalso|reflexivity].
  destruct (setup_mesh_reports _ _ _ _ _ _ _ E) as (RB & _ & local & Q & D).
  pose proof RS as (RC & ES & GS). destruct (reach_slices s RC sp ES GS) as (n & _ & RN).
  destruct D as [(_ & F & _)|(NE & flags & FL & FR & FB)]; [discriminate|].
  destruct (In_nth_error _ _ (proj1 FB eq_refl)) as (i & EF).
  destruct (FR i true EF) as (x & cs & N' & NC & x' & o & N'' & F & _). rewrite N' in N''. injection N'' as <-.
  assert (NJ : nth_error (sh_ribs s) i = Some x) by (rewrite <- RB; exact N').
  assert (QP := Q). rewrite (setup_bbox gb s (fa a) meth s' true) in QP by eauto.
  rewrite (setup_mesh_cands gb s m (fa a) meth s' true local E QP NE i x NJ) in NC. injection NC as NC.
  assert (SB : forall g, In g cs -> In g (me_tris m)).
  { intros g G. apply (query_sub m _ local Q). rewrite <- NC in G. now apply filter_In in G. }
  assert (NX := NJ). rewrite RN, nth_error_map in NX. destruct (nth_error (slices sp n) i) as [r|] eqn:NR; [|discriminate].
  cbn in NX. injection NX as <-.
  assert (HRB : has_rib s i r) by (unfold has_rib, rib_at; rewrite RN, nth_error_map, NR; reflexivity).
  destruct (has_rib_axial sp s i r RS HRB) as ((_ & CX & CZ) & GD & RR & YY).
  assert (EC : rb_center r = V 0 (vy (rb_center r)) 0) by (destruct (rb_center r) as [cx cy cz]; cbn [vx vy vz] in *; now subst).
  assert (TOP : rb_radius r <= sRx sp) by (rewrite RR; apply radius_range; [exact GS|lra]).
  assert (H : top_of lo hi + rb_radius r < vz (place a (rb_center r))) by (rewrite EC; pose proof (HC (vy (rb_center r)) ltac:(lra)); lra).
  destruct HM as [->| ->].
  - revert F. unfold envelop. destruct (gb i) as [[[g0 g1] g2] g3]. change (String.eqb "geometric" "geometric") with true. cbv iota.
    apply (geo_clear r a lo hi GD HA H). intros g G. destruct (grounds_in _ _ _ GR (SB g G)) as (t & f & I & K). exists t, f. split; [exact K|now apply (W t f)].
  - destruct (sub_grounds ts (me_tris m) cs GR SB) as (ts' & G' & S' & _).
    revert F. apply (sam_clear r a lo hi GD HA H (gb i) ts'); [exact G'|]. intros t f I. apply (W t f). now apply S'.
Qed.

(** Flat ground. *)
Lemma sin2_le : forall u v, sin2 u v <= 1.
Proof. intros u v. unfold sin2. pose proof (Rle_0_sqr (pdot u v)) as S. unfold Rsqr in S. lra. Qed.
Lemma unit_vz : forall n, is_unit n -> Rabs (vz n) <= 1.
Proof.
  intros n U. unfold is_unit, pdot in U. rewrite <- (Rabs_R1). apply Rsqr_le_abs_0.
  unfold Rsqr. pose proof (Rle_0_sqr (vx n)). pose proof (Rle_0_sqr (vy n)). unfold Rsqr in *. lra.
Qed.
Lemma flat_clear : forall gb r a gp f m b o, good_rib r -> rigid a -> is_unit (pnormal gp) -> valid_method m ->
  rb_radius r <= Rabs (center_height r a gp) ->
  envelop_flat gb (frib r) (fflat gp f) (fa a) m = Ret (b, o) -> b = false.
Proof.
  intros gb r a gp f m b o HR HA HG HM HC H. destruct b; [exfalso|reflexivity]. pose proof eps_pos as EP. pose proof HR as (R1 & _).
  destruct HM as [->| ->].
  - apply flat_detection in H; auto. destruct (proj1 H eq_refl) as [_ Q]. pose proof (sin2_le (pnormal gp) (papply (lin a) (rb_normal r))) as S.
    assert (S1 : sin2 (pnormal gp) (papply (lin a) (rb_normal r)) * (rb_radius r * rb_radius r) <= 1 * (rb_radius r * rb_radius r))
      by (apply Rmult_le_compat_r; [apply Rmult_le_pos; lra|exact S]).
    assert (S2 : rb_radius r * rb_radius r <= center_height r a gp * center_height r a gp).
    { rewrite <- (Rabs_pos_eq (rb_radius r)) in HC by lra. now apply Rsqr_le_abs_1 in HC. }
    lra.
  - apply ProofSmooth.sampling_value in H; auto. destruct (proj1 (proj1 H) eq_refl) as (Q1 & _ & _ & Q4).
    pose proof (sin2_le (pnormal gp) (SpecSmooth.axle a)) as S. apply sqrt_le_1_alt in S. rewrite sqrt_1 in S.
    apply (Rmult_le_compat_l (rb_radius r)) in S; [|lra]. pose proof (unit_vz _ HG) as UV.
    assert (T : Rabs (center_height r a gp) <= Rabs (center_height r a gp) / Rabs (vz (pnormal gp))).
    { apply (Rmult_le_reg_r (Rabs (vz (pnormal gp)))); [lra|]. unfold Rdiv. rewrite Rmult_assoc, Rinv_l, Rmult_1_r by lra.
      rewrite <- (Rmult_1_r (Rabs (center_height r a gp))) at 2. apply Rmult_le_compat_l; [apply Rabs_pos|exact UV]. }
    lra.
Qed.
Lemma wheel_clear : forall gb sp s gp f a m s' b, real_shell sp s -> rigid a -> is_unit (pnormal gp) -> valid_method m ->
  (forall y, Rabs y <= sLy sp -> sRx sp <= Rabs (pdot (psub (place a (V 0 y 0)) (porigin gp)) (pnormal gp))) ->
  setup_flat gb s (fflat gp f) (fa a) m = Ok s' b ->
  b = false /\ forall i, (i < sh_size s')%nat -> exists r, rib_at s' i = Ret r /\ exists o, out_at s' i = Ret o /\ no_contact r (fa a) o.
Proof.
  intros gb sp s gp f a m s' b RS HA HG HM HC E. destruct (setup_flat_reports _ _ _ _ _ _ _ E) as (RB & _ & flags & FL & FR & FB).
  pose proof RS as (RC & ES & GS). destruct (reach_slices s RC sp ES GS) as (n & _ & RN).
  assert (K : forall i c, nth_error flags i = Some c -> c = false /\ exists r, rib_at s' i = Ret r /\ exists o, out_at s' i = Ret o /\ no_contact r (fa a) o).
  { intros i c EF. destruct (FR i c EF) as (x & o & NX & F & EO).
    assert (NJ := NX). rewrite RB, RN, nth_error_map in NJ. destruct (nth_error (slices sp n) i) as [r|] eqn:NR; [|discriminate].
    cbn in NJ. injection NJ as <-.
    assert (HRB : has_rib s i r) by (unfold has_rib, rib_at; rewrite RN, nth_error_map, NR; reflexivity).
    destruct (has_rib_axial sp s i r RS HRB) as ((_ & CX & CZ) & GD & RR & YY).
    assert (EC : rb_center r = V 0 (vy (rb_center r)) 0) by (destruct (rb_center r) as [cx cy cz]; cbn [vx vy vz] in *; now subst).
    assert (TOP : rb_radius r <= sRx sp) by (rewrite RR; apply radius_range; [exact GS|lra]).
    assert (CF : c = false).
    { apply (flat_clear (gb i) r a gp f m c o GD HA HG HM); [|exact F]. unfold center_height. rewrite EC.
      pose proof (HC (vy (rb_center r)) ltac:(lra)). lra. }
    split; [exact CF|]. exists (frib r). split; [unfold rib_at; now rewrite NX|]. exists o. split; [exact EO|].
    subst c. now apply envelop_flat_no_contact in F. }
  split.
  - rewrite FB. clear - K. assert (A : forall c, In c flags -> c = false) by (intros c I; apply In_nth_error in I as [i I]; now apply (K i)).
    clear K. induction flags as [|c [|d l] IH]; [reflexivity|cbn; apply A; now left|]. change (last (d :: l) false = false). apply IH. intros e I. apply A. now right.
  - intros i Hi. destruct (nth_error flags i) as [c|] eqn:EF; [|apply nth_error_None in EF; lia]. now apply (K i c).
Qed.
