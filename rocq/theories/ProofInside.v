(** * The contact point of the wheel is in the wheel (for C129). *)
From Coq Require Import ZArith Bool Reals Lra Lia String List.
From Verif Require Import Base Num Vec Aabb Geom Ground Shape Rib Str Mesh Shell ER SpecGeom SpecRib SpecShape SpecShell SpecPose SpecAvg.
From Verif Require Import ProofGeom ProofInt ProofSegArea ProofFlat ProofSample ProofShape ProofShell ProofShellFacts ProofPose ProofAvg ProofSetupData.
From Verif Require Import SpecSmooth ProofSmooth ProofTerrain.
From Verif Require ProofLight.
Import ListNotations.
Local Open Scope R_scope.

Lemma straight_dist : forall gp q, vz (pnormal gp) <> 0 ->
  dist (straight_below gp q) q = Rabs (pdot (psub q (porigin gp)) (pnormal gp)) / Rabs (vz (pnormal gp)).
Proof.
  intros gp q N. set (h := pdot (psub q (porigin gp)) (pnormal gp)). unfold dist, pnorm, straight_below. fold h.
  replace (pdot _ _) with (Rsqr (h / vz (pnormal gp))) by (destruct q; unfold Rsqr; vunf; ring).
  rewrite sqrt_Rsqr_abs. unfold Rdiv. now rewrite Rabs_mult, Rabs_inv.
Qed.
Lemma flat_near : forall gb r a gp f m b o, good_rib r -> rigid a -> is_unit (pnormal gp) ->
  valid_method m -> envelop_flat gb (frib r) (fflat gp f) (fa a) m = Ret (b, o) ->
  exists p, o_point o = fv p /\ dist p (place a (rb_center r)) <= rb_radius r.
Proof.
  intros gb r a gp f m b o HR HA HG HM H. destruct b.
  2: { apply envelop_flat_no_contact in H. exists (o_point (none_out r a)). split; [apply H|apply none_near; [apply Rlt_le, HR|exact HA]]. }
  destruct HM as [->| ->].
  - apply flat_geo_ret in H. destruct (flat_contact r a gp f HR HA HG o H) as (p & P1 & _ & _ & _ & _ & _ & P5 & _).
    exists p. split; [exact P1|]. lra.
  - destruct (sampling_value _ _ _ _ _ _ _ HR HA HG H) as [C V]. cbv zeta in C, V.
    destruct (proj1 C eq_refl) as (C1 & _ & _ & C4). destruct (V eq_refl) as [P _]. eexists. split; [exact P|].
    assert (NZ : vz (pnormal gp) <> 0) by (intros Z; rewrite Z, Rabs_R0 in C1; pose proof eps_pos; lra).
    rewrite straight_dist by exact NZ. fold (center_height r a gp).
    assert (SK : sqrt (sin2 (pnormal gp) (axle a)) <= 1).
    { apply Rle_trans with (sqrt 1); [apply sqrt_le_1_alt; unfold sin2|rewrite sqrt_1; lra].
      pose proof (Rle_0_sqr (pdot (pnormal gp) (axle a))) as Q. unfold Rsqr in Q. lra. }
    destruct HR as (R1 & _). pose proof (Rmult_le_compat_l (rb_radius r) _ _ (Rlt_le _ _ R1) SK). lra.
Qed.
Lemma flat_inside : forall gb sp s gp f a m s' b, real_shell sp s -> rigid a -> is_unit (pnormal gp) -> valid_method m ->
  setup_flat gb s (fflat gp f) (fa a) m = Ok s' b ->
  exists p, contact_point s' = Ret (fv p) /\ near_axle a (sLy sp) (sRx sp) p.
Proof.
  intros gb sp s gp f a m s' b HS HA HG HM H.
  destruct (ProofLight.flat_shell_data gb sp s gp f a m s' b HS HA HG HM H) as (os & RD & HN & HO).
  destruct (setup_flat_reports _ _ _ _ _ _ _ H) as (RB & _ & flags & LF & HR & _).
  pose proof HS as (RC & ES & GS). apply (hull_near s' os sp a RD HN GS HA). intros o Ho. split.
  - destruct (HO o Ho) as [(V & _)|(V & _)]; lra.
  - apply In_nth_error in Ho. destruct Ho as [i Hi].
    assert (L : (i < sh_size s')%nat) by (rewrite <- (proj1 RD); apply nth_error_Some; congruence).
    destruct (nth_error flags i) as [c|] eqn:E; [|apply nth_error_None in E; lia].
    destruct (HR i c E) as (x & o2 & NX & EF & EO).
    destruct (proj2 RD i o Hi) as (A1 & _). unfold contact_point_i in A1. rewrite EO in A1. cbn [obind] in A1.
    destruct (reach_slices s RC sp ES GS) as (n & _ & RN). rewrite RB, RN, nth_error_map in NX.
    destruct (nth_error (slices sp n) i) as [r|] eqn:NR; [|discriminate]. cbn in NX. injection NX as <-.
    assert (HRB : has_rib s i r) by (unfold has_rib, rib_at; rewrite RN, nth_error_map, NR; reflexivity).
    destruct (has_rib_axial sp s i r HS HRB) as ((_ & AX & AZ) & GD & RR & YY).
    destruct (flat_near (gb i) r a gp f m c o2 GD HA HG HM EF) as (p & P & D). rewrite P in A1.
    assert (Q : fv p = fv (o_point o)) by congruence. apply fv_inj in Q. subst p.
    assert (TOP : rb_radius r <= sRx sp) by (rewrite RR; apply radius_range; [exact GS|lra]).
    exists (vy (rb_center r)). split; [lra|]. replace (V 0 (vy (rb_center r)) 0) with (rb_center r); [lra|].
    destruct (rb_center r). cbn in *. now subst.
Qed.
