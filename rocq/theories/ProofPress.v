(** * Pressing the wheel into flat ground (for C133). *)
From Coq Require Import ZArith Bool Reals Lra Lia String List.
From Verif Require Import Base Num Vec Geom Ground Rib Shell ER SpecGeom SpecRib SpecShell ProofGeom ProofInt ProofSegArea ProofFlat
  ProofSample SpecSmooth.
From Verif Require Import ProofShell SpecAvg ProofAvg Shape SpecShape SpecPose SpecFrame SpecRoof ProofShape ProofShapeFacts ProofPose ProofSetupOk ProofSmooth.
Import ListNotations.
Local Open Scope R_scope.

Lemma rib_press : forall gb gb' r a v gp f m b b' o o', good_rib r -> rigid a -> is_unit (pnormal gp) -> valid_method m ->
  Rabs (center_height r (moved_by v a) gp) <= Rabs (center_height r a gp) ->
  envelop_flat gb (frib r) (fflat gp f) (fa a) m = Ret (b, o) ->
  envelop_flat gb' (frib r) (fflat gp f) (fa (moved_by v a)) m = Ret (b', o') ->
  (b = true -> b' = true) /\
  exists d d' V V', o_depth o = Fin d /\ o_depth o' = Fin d' /\ d <= d' /\
    o_volume o = Fin V /\ o_volume o' = Fin V' /\ V <= V'.
Proof.
  intros gb gb' r a v gp f m b b' o o' HR HA HG HM HH H H'.
  assert (HA' : rigid (moved_by v a)) by exact HA.
  destruct (flat_report _ _ _ _ _ _ _ _ HR HA HG H) as (d & B & D & _ & W).
  destruct (flat_report _ _ _ _ _ _ _ _ HR HA' HG H') as (d' & B' & D' & _ & W').
  assert (K : (b = true -> b' = true) /\ d <= d').
  { destruct HM as [->| ->].
    - pose proof (flat_detection _ _ _ _ _ _ _ HR HA HG H) as C. pose proof (flat_detection _ _ _ _ _ _ _ HR HA' HG H') as C'.
      cbv zeta in C, C'. change (lin (moved_by v a)) with (lin a) in C'.
      assert (FL : b = true -> b' = true).
      { intros Q. apply C'. apply C in Q as [Q1 Q2]. split; [exact Q1|]. apply Rsqr_le_abs_1 in HH. unfold Rsqr in HH. lra. }
      split; [exact FL|]. destruct b.
      + rewrite (FL eq_refl) in H'. pose proof (proj1 C eq_refl) as [S _]. apply geometric_value in H; auto. apply geometric_value in H'; auto.
        change (lin (moved_by v a)) with (lin a) in H'. rewrite D in H. rewrite D' in H'. injection H as ->. injection H' as ->.
        assert (0 < / sqrt (sin2 (pnormal gp) (papply (lin a) (rb_normal r)))) by (apply Rinv_0_lt_compat, sqrt_lt_R0; pose proof eps_pos; lra).
        apply Rplus_le_compat_l, Ropp_le_contravar, Rmult_le_compat_r; [lra|exact HH].
      + apply none_depth in H. rewrite D in H. injection H as ->. lra.
    - pose proof (sampling_value _ _ _ _ _ _ _ HR HA HG H) as [C P]. pose proof (sampling_value _ _ _ _ _ _ _ HR HA' HG H') as [C' P'].
      cbv zeta in C, C', P, P'. change (axle (moved_by v a)) with (axle a) in C', P'. change (lin (moved_by v a)) with (lin a) in C'.
      destruct b.
      + pose proof (proj1 C eq_refl) as (Q1 & Q2 & Q3 & Q4).
        assert (NI : 0 < / Rabs (vz (pnormal gp))) by (apply Rinv_0_lt_compat; pose proof eps_pos; lra).
        assert (T : Rabs (center_height r (moved_by v a) gp) / Rabs (vz (pnormal gp)) <= Rabs (center_height r a gp) / Rabs (vz (pnormal gp)))
          by (apply Rmult_le_compat_r; [lra|exact HH]).
        assert (FL : b' = true) by (apply C'; repeat split; auto; lra).
        split; [auto|]. destruct (P eq_refl) as [_ E]. destruct (P' FL) as [_ E']. rewrite D in E. rewrite D' in E'.
        injection E as ->. injection E' as ->. lra.
      + split; [discriminate|]. apply none_depth in H. rewrite D in H. injection H as ->. lra. }
  destruct K as [K1 K2]. split; [exact K1|]. do 4 eexists. split; [exact D|]. split; [exact D'|]. split; [exact K2|].
  split; [exact W|]. split; [exact W'|]. destruct HR as (R1 & R2 & _). apply rvol_mono; lra.
Qed.
Lemma total_pair : forall (rs : list (rib R)) vs vs', List.length vs = List.length rs -> List.length vs' = List.length rs ->
  (forall i r v v', nth_error rs i = Some r -> nth_error vs i = Some v -> nth_error vs' i = Some v' -> v <= v') ->
  total (fun v => v) vs <= total (fun v => v) vs'.
Proof.
  induction rs as [|r rs IH]; intros [|v vs] [|v' vs'] L L' H; try discriminate; cbn [total]; [lra|].
  assert (A := H 0%nat r v v' eq_refl eq_refl eq_refl).
  assert (B := IH vs vs' ltac:(now injection L) ltac:(now injection L') (fun i => H (S i))). lra.
Qed.
Lemma wheel_press : forall gb gb' sp s gp f a v m s1 s2 b b', real_shell sp s -> rigid a -> is_unit (pnormal gp) -> valid_method m ->
  pdot v (pnormal gp) <= 0 ->
  (forall y, Rabs y <= sLy sp -> 0 <= pdot (psub (place (moved_by v a) (V 0 y 0)) (porigin gp)) (pnormal gp)) ->
  setup_flat gb s (fflat gp f) (fa a) m = Ok s1 b -> setup_flat gb' s (fflat gp f) (fa (moved_by v a)) m = Ok s2 b' ->
  exists V V', contact_volume s1 = Ret (Fin V) /\ contact_volume s2 = Ret (Fin V') /\ V <= V'.
Proof.
  intros gb gb' sp s gp f a v m s1 s2 b b' RS HA HG HM HV HY H H'. pose proof RS as (RC & SH & G).
  destruct (reach_slices s RC sp SH G) as (n & N & RB).
  assert (GR : Forall good_rib (slices sp n)) by (apply Forall_forall; intros r Hr; exact (slices_good sp G n r Hr)).
  assert (HA' : rigid (moved_by v a)) by exact HA.
  destruct (flat_volumes _ _ _ _ _ _ _ _ _ RB GR HA HG H) as (vs & E & L & P).
  destruct (flat_volumes _ _ _ _ _ _ _ _ _ RB GR HA' HG H') as (vs' & E' & L' & P').
  do 2 eexists. split; [exact E|]. split; [exact E'|]. apply (total_pair (slices sp n)); auto. intros i r x x' ER EX EX'.
  destruct (P i r x ER EX) as (c & o & F & O). destruct (P' i r x' ER EX') as (c' & o' & F' & O').
  assert (GD : good_rib r) by (rewrite Forall_forall in GR; apply GR; eapply nth_error_In; eauto).
  assert (HR : has_rib s i r) by (unfold has_rib, rib_at; rewrite RB, nth_error_map, ER; reflexivity).
  destruct (has_rib_axial sp s i r RS HR) as ((_ & CX & CZ) & _ & _ & YY).
  assert (HH : Rabs (center_height r (moved_by v a) gp) <= Rabs (center_height r a gp)).
  { assert (EC : rb_center r = V 0 (vy (rb_center r)) 0) by (destruct (rb_center r) as [cx cy cz]; cbn [vx vy vz] in *; now subst).
    assert (Q : 0 <= center_height r (moved_by v a) gp) by (unfold center_height; rewrite EC; apply HY; lra).
    pose proof (moved_height v r a gp). rewrite (Rabs_pos_eq _ Q), Rabs_pos_eq by lra. lra. }
  destruct (rib_press _ _ _ _ _ _ _ _ _ _ _ _ GD HA HG HM HH F F') as (_ & _ & _ & W & W' & _ & _ & _ & V1 & V2 & LE).
  rewrite O in V1. rewrite O' in V2. injection V1 as <-. injection V2 as <-. exact LE.
Qed.
