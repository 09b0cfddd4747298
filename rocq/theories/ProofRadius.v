(** * The profile of the wheel in double precision: proofs for C123. *)
From Coq Require Import ZArith Reals Lra Lia Bool List Floats.SpecFloat.
From Flocq Require Import Core BinarySingleNaN.
From Verif Require Import Base Num Shape Rib Shell F64 SpecDouble ProofDouble ProofMean
  SpecPlaces ProofPlaces SpecRadius.
Import ListNotations.
Local Open Scope R_scope.

Lemma zero_val : ok (f_of 0 0) /\ rv (f_of 0 0) = 0.
Proof. split; [split|]; reflexivity. Qed.
Lemma one_val : ok (f_of 1 0) /\ rv (f_of 1 0) = 1.
Proof. exact (f_pow 0 ltac:(lia)). Qed.

Lemma in_unit_ok : forall x, is_double x -> in_unit x -> ok x /\ 0 <= rv x <= 1.
Proof.
  intros x Hd [H1 H2]. destruct zero_val as [Z1 Z2], one_val as [O1 O2].
  assert (O : ok x) by exact (ok_between x _ _ Hd Z1 O1 H1 H2).
  apply leb_rv in H1; [|assumption..]. apply leb_rv in H2; [|assumption..].
  rewrite Z2 in H1. rewrite O2 in H2. auto.
Qed.
Lemma ok_in_unit : forall x, ok x -> 0 <= rv x <= 1 -> is_double x /\ in_unit x.
Proof.
  intros x O H. destruct zero_val as [Z1 Z2], one_val as [O1 O2].
  split; [apply O|]. split; apply leb_rv; try assumption; rewrite ?Z2, ?O2; tauto.
Qed.
Lemma rnd_one : rnd 1 = 1.
Proof. exact (rnd_bpow 0 ltac:(lia)). Qed.

(** The place of [y] relative to [Ry]. *)
Lemma ratio_ok : forall ly ry y, ok ly -> ok ry -> 0 < rv ry -> rv ly <= rv ry ->
  is_double y -> SFleb (SFabs y) ly = true ->
  ok (SFabs y) /\ 0 <= rv (SFabs y) /\
  ok (SFdiv fprec femax (SFabs y) ry) /\
  rv (SFdiv fprec femax (SFabs y) ry) = rnd (rv (SFabs y) / rv ry) /\
  0 <= rv (SFdiv fprec femax (SFabs y) ry) <= 1.
Proof.
  intros ly ry y Ol Or Hp Hl Hd Hy. destruct ok_zero as [Z1 Z2].
  assert (A0 : SFleb (S754_zero false) (SFabs y) = true).
  { destruct y as [s|s| |s m e]; [reflexivity|reflexivity| |reflexivity].
    exfalso. revert Hy. clear. destruct ly as [|[]| |[]]; discriminate. }
  assert (A : ok (SFabs y)) by exact (ok_between _ _ _ (dbl_abs y Hd) Z1 Ol A0 Hy).
  apply leb_rv in Hy; [|assumption..]. apply leb_rv in A0; [|assumption..]. rewrite Z2 in A0.
  assert (Q : 0 <= rv (SFabs y) / rv ry <= 1).
  { split; [apply Rmult_le_pos; [lra|]; apply Rlt_le, Rinv_0_lt_compat; lra|].
    apply (Rmult_le_reg_r (rv ry)); [lra|]. unfold Rdiv. rewrite Rmult_assoc, Rinv_l by lra. lra. }
  destruct (op_div (SFabs y) ry A Or 0) as [D1 D2]; try lia; try lra.
  { change (bpow radix2 0) with 1. apply Rabs_le. lra. }
  repeat (split; [assumption|]); rewrite D2; split; [apply rnd_pos; lra|].
  rewrite <- rnd_one. apply rnd_le. lra.
Qed.

Lemma compl_ok : forall q, ok q -> 0 <= rv q <= 1 ->
  ok (SFsub fprec femax (f_of 1 0) q) /\
  rv (SFsub fprec femax (f_of 1 0) q) = rnd (1 - rv q) /\
  0 <= rv (SFsub fprec femax (f_of 1 0) q) <= 1.
Proof.
  intros q O H. destruct one_val as [O1 O2].
  destruct (op_sub (f_of 1 0) q O1 O 0) as [D1 D2]; try lia.
  { rewrite O2. change (bpow radix2 0) with 1. apply Rabs_le. lra. }
  rewrite O2 in D2. repeat (split; [assumption|]); rewrite D2; split; [apply rnd_pos; lra|].
  rewrite <- rnd_one at 2. apply rnd_le. lra.
Qed.

Lemma scale_ok : forall rx p, ok rx -> 0 <= rv rx -> rv rx <= bpow radix2 300 -> ok p -> 0 <= rv p <= 1 ->
  ok (SFmul fprec femax rx p) /\ rv (SFmul fprec femax rx p) = rnd (rv rx * rv p) /\
  0 <= rv (SFmul fprec femax rx p) <= rv rx.
Proof.
  intros rx p Ox H0 H1 Op Hp.
  assert (B : 0 <= rv rx * rv p <= rv rx).
  { split; [apply Rmult_le_pos; lra|]. rewrite <- (Rmult_1_r (rv rx)) at 2. apply Rmult_le_compat_l; lra. }
  destruct (op_mul rx p Ox Op 300) as [D1 D2]; try lia.
  { apply Rabs_le. lra. }
  repeat (split; [assumption|]); rewrite D2; split; [apply rnd_pos; lra|].
  rewrite <- (rnd_rv rx Ox) at 2. apply rnd_le. lra.
Qed.

Lemma power_ok : forall mx, sound_width mx ->
  is_double (SFdiv fprec femax (f_of 1 0) mx) /\ SFltb (f_of 0 0) (SFdiv fprec femax (f_of 1 0) mx) = true.
Proof.
  intros mx H. destruct (sound_width_ok mx H) as [O [L U]].
  destruct one_val as [O1 O2]. destruct zero_val as [Z1 Z2].
  assert (P : 0 < rv mx) by (apply Rlt_le_trans with (2 := L); apply bpow_gt_0).
  assert (B : bpow radix2 (-300) <= 1 / rv mx <= bpow radix2 300).
  { unfold Rdiv. rewrite Rmult_1_l. split.
    - change (-300)%Z with (- (300))%Z. rewrite bpow_opp. apply Rinv_le; assumption.
    - replace (bpow radix2 300) with (/ bpow radix2 (-300)).
      + apply Rinv_le; [apply bpow_gt_0|exact L].
      + change (-300)%Z with (- (300))%Z. rewrite bpow_opp. apply Rinv_inv. }
  pose proof (bpow_gt_0 radix2 (-300)) as G.
  destruct (op_div (f_of 1 0) mx O1 O 300) as [D1 D2]; try lia; [lra| |].
  { rewrite O2. apply Rabs_le. lra. }
  split; [apply D1|]. apply ltb_rv; try assumption. rewrite Z2, D2, O2.
  apply Rlt_le_trans with (bpow radix2 (-300)); [exact G|].
  rewrite <- (rnd_bpow (-300)) by lia. apply rnd_le. apply B.
Qed.

Section Radius.
  Variable lm : libm.
  Hypothesis LP : sound_pow lm.
  Variable s : shape f64.
  Hypothesis SS : sound_shape s.

  Definition inner (y : f64) : f64 := lm_pow lm (SFdiv fprec femax (SFabs y) (sRy s)) (sMy s).
  Definition outer (y : f64) : f64 :=
    lm_pow lm (SFsub fprec femax (f_of 1 0) (inner y)) (SFdiv fprec femax (f_of 1 0) (sMx s)).

  Lemma sizes : (ok (sRx s) /\ 0 < rv (sRx s) /\ rv (sRx s) <= bpow radix2 300) /\
    (ok (sRy s) /\ 0 < rv (sRy s)) /\ ok (sLy s) /\ rv (sLy s) <= rv (sRy s).
  Proof using SS.
    destruct (sound_width_ok _ (ss_rx s SS)) as [A1 [A2 A3]].
    destruct (sound_width_ok _ (ss_ry s SS)) as [B1 [B2 B3]].
    destruct (sound_width_ok _ (ss_ly s SS)) as [C1 [C2 C3]].
    pose proof (bpow_gt_0 radix2 (-300)) as G. pose proof (ss_in s SS) as I.
    apply leb_rv in I; [|assumption..].
    split; [split; [exact A1|split; [lra|exact A3]]|split; [split; [exact B1|lra]|split; [exact C1|exact I]]].
  Qed.

  Lemma width_check : forall y, is_double y -> SFleb (SFabs y) (sLy s) = true ->
    @surface_radius f64 (F64_Num lm) s y = Ret (SFmul fprec femax (sRx s) (outer y)).
  Proof using SS.
    intros y Hd H. destruct sizes as [_ [[B1 B2] [C1 C2]]].
    destruct (ratio_ok _ _ y C1 B1 B2 C2 Hd H) as [R1 _].
    unfold surface_radius, check_width_bound.
    change (nlt (sLy s) (nabs y)) with (SFltb (sLy s) (SFabs y)).
    destruct (SFltb (sLy s) (SFabs y)) eqn:E; [|reflexivity]. exfalso.
    apply ltb_rv in E; try assumption. apply leb_rv in H; try assumption. lra.
  Qed.

  Lemma inner_ok : forall y, is_double y -> SFleb (SFabs y) (sLy s) = true ->
    ok (inner y) /\ 0 <= rv (inner y) <= 1.
  Proof using LP SS.
    intros y Hd Hy. destruct sizes as [_ [[B1 B2] [C1 C2]]].
    destruct (ratio_ok _ _ y C1 B1 B2 C2 Hd Hy) as [_ [_ [R1 [_ R3]]]].
    destruct (ok_in_unit _ R1 R3) as [U1 U2].
    destruct (LP _ (sMy s) U1 U2 (proj1 (ss_my s SS)) (proj2 (ss_my s SS))) as [P1 P2].
    now apply in_unit_ok.
  Qed.

  Lemma outer_ok : forall y, is_double y -> SFleb (SFabs y) (sLy s) = true ->
    ok (outer y) /\ 0 <= rv (outer y) <= 1.
  Proof using LP SS.
    intros y Hd Hy. destruct (inner_ok y Hd Hy) as [I1 I2].
    destruct (compl_ok _ I1 I2) as [C1 [_ C3]]. destruct (ok_in_unit _ C1 C3) as [U1 U2].
    destruct (power_ok _ (ss_mx s SS)) as [E1 E2].
    destruct (LP _ _ U1 U2 E1 E2) as [P1 P2]. now apply in_unit_ok.
  Qed.

  Lemma radius_range : forall y, is_double y -> SFleb (SFabs y) (sLy s) = true ->
    exists r, @surface_radius f64 (F64_Num lm) s y = Ret r /\ is_double r /\
      SFleb (f_of 0 0) r = true /\ SFleb r (sRx s) = true.
  Proof using LP SS.
    intros y Hd Hy. destruct sizes as [[A1 [A2 A3]] _]. destruct (outer_ok y Hd Hy) as [O1 O2].
    destruct (scale_ok _ _ A1 (Rlt_le _ _ A2) A3 O1 O2) as [M1 [_ M3]].
    destruct zero_val as [Z1 Z2].
    eexists. split; [now apply width_check|]. split; [apply M1|].
    split; apply leb_rv; try assumption; rewrite ?Z2; tauto.
  Qed.

  Lemma radius_falls : rising_pow lm -> forall y y' r r', is_double y -> is_double y' ->
    SFleb (SFabs y') (sLy s) = true -> SFleb (SFabs y) (SFabs y') = true ->
    @surface_radius f64 (F64_Num lm) s y = Ret r -> @surface_radius f64 (F64_Num lm) s y' = Ret r' ->
    SFleb r' r = true.
  Proof using LP SS.
    intros RP y y' r r' Hd Hd' Hy' Hyy Er Er'.
    destruct sizes as [[A1 [A2 A3]] [[B1 B2] [C1 C2]]].
    destruct (ratio_ok _ _ y' C1 B1 B2 C2 Hd' Hy') as [Q1 [Q2 [Q3 [Q4 Q5]]]].
    assert (Hy : SFleb (SFabs y) (sLy s) = true).
    { assert (Oy : ok (SFabs y)).
      { destruct ok_zero as [Z1 _]. apply (ok_between _ (S754_zero false) (SFabs y') (dbl_abs y Hd) Z1 Q1); [|exact Hyy].
        destruct y as [|[]| |]; try reflexivity. exfalso. revert Hyy. clear.
        destruct (SFabs y') as [|[]| |[]]; discriminate. }
      apply leb_rv; try assumption. apply leb_rv in Hyy; try assumption. apply leb_rv in Hy'; try assumption. lra. }
    destruct (ratio_ok _ _ y C1 B1 B2 C2 Hd Hy) as [R1 [R2 [R3 [R4 R5]]]].
    rewrite (width_check y Hd Hy) in Er. rewrite (width_check y' Hd' Hy') in Er'.
    injection Er as <-. injection Er' as <-.
    apply leb_rv in Hyy; try assumption.
    (* the inner power rises *)
    destruct (ok_in_unit _ R3 R5) as [U1 U2]. destruct (ok_in_unit _ Q3 Q5) as [V1 V2].
    assert (I : SFleb (inner y) (inner y') = true).
    { apply RP; try assumption; try apply (ss_my s SS). apply leb_rv; try assumption. rewrite R4, Q4.
      apply rnd_le. apply Rmult_le_compat_r; [apply Rlt_le, Rinv_0_lt_compat; lra|exact Hyy]. }
    destruct (inner_ok y Hd Hy) as [I1 I2]. destruct (inner_ok y' Hd' Hy') as [J1 J2].
    apply leb_rv in I; try assumption.
    destruct (compl_ok _ I1 I2) as [D1 [D2 D3]]. destruct (compl_ok _ J1 J2) as [E1 [E2 E3]].
    assert (C : SFleb (SFsub fprec femax (f_of 1 0) (inner y')) (SFsub fprec femax (f_of 1 0) (inner y)) = true).
    { apply leb_rv; try assumption. rewrite D2, E2. apply rnd_le. lra. }
    destruct (ok_in_unit _ D1 D3) as [X1 X2]. destruct (ok_in_unit _ E1 E3) as [Y1 Y2].
    destruct (power_ok _ (ss_mx s SS)) as [F1 F2].
    assert (O : SFleb (outer y') (outer y) = true) by (apply RP; assumption).
    destruct (outer_ok y Hd Hy) as [G1 G2]. destruct (outer_ok y' Hd' Hy') as [H1 H2].
    apply leb_rv in O; try assumption.
    destruct (scale_ok _ _ A1 (Rlt_le _ _ A2) A3 G1 G2) as [M1 [M2 _]].
    destruct (scale_ok _ _ A1 (Rlt_le _ _ A2) A3 H1 H2) as [N1 [N2 _]].
    apply leb_rv; try assumption. rewrite M2, N2. apply rnd_le. apply Rmult_le_compat_l; lra.
  Qed.
End Radius.

(** ** The ribs of a wheel. *)
Lemma ribs_on_profile : forall lm s w m i y rs e,
  @make_ribs f64 (F64_Num lm) s w i m y = (rs, e) ->
  forall r, In r rs -> @surface_radius f64 (F64_Num lm) s (rb_y r) = Ret (rb_radius r) /\
    SFltb (f_of 0 0) (rb_radius r) = true.
Proof.
  intros lm s w m. induction m as [|m IH]; intros i y rs e H r Hr.
  - cbn [make_ribs] in H. apply pair_inj in H. destruct H as [<- <-]. destruct Hr.
  - cbn [make_ribs] in H. set (y' := nadd y w) in *.
    destruct (surface_radius s y') as [r0| |] eqn:E1;
      try (apply pair_inj in H; destruct H as [<- <-]; destruct Hr).
    destruct (surface_angle s y' neps) as [a0| |];
      try (apply pair_inj in H; destruct H as [<- <-]; destruct Hr).
    destruct (nlt (nofZ 0) r0) eqn:E2; cbn [andb] in H;
      [|apply pair_inj in H; destruct H as [<- <-]; destruct Hr].
    destruct (neq r0 r0 && neq a0 a0) eqn:E3; rewrite <- ?andb_assoc in H;
      [|apply pair_inj in H; destruct H as [<- <-]; destruct Hr].
    destruct (make_ribs s w (S i) m y') as [rs' e'] eqn:E4.
    apply pair_inj in H. destruct H as [<- <-].
    destruct Hr as [<-|Hr]; [|now apply (IH (S i) y' rs' e' E4)].
    split; [exact E1|exact E2].
Qed.

Lemma shell_radii : forall lm n rx mx r_y my ly s, sound_pow lm -> sound_shape (Shape rx mx r_y my ly) ->
  (Z.of_nat n <= 2 ^ 20)%Z -> @mk_shell f64 (F64_Num lm) n rx mx r_y my ly = Ret s ->
  forall r, In r (sh_ribs s) ->
    SFltb (f_of 0 0) (rb_radius r) = true /\ SFleb (rb_radius r) rx = true.
Proof.
  intros lm n rx mx r_y my ly s LP SS Hn H r Hr.
  destruct (shell_ribs_all lm n rx mx r_y my ly s (ss_ly _ SS) Hn H) as [_ HP].
  unfold mk_shell, resize in H. destruct n as [|n']; [discriminate H|].
  cbn [sh_shape] in H.
  match type of H with context [@make_ribs _ _ ?a ?b ?c ?d ?e] =>
    destruct (@make_ribs f64 (F64_Num lm) a b c d e) as [rs e0] eqn:ER end.
  destruct e0 as [x|]; [discriminate H|].
  assert (E : sh_ribs s = rs).
  { assert (X : forall (a b : shell f64), Ret a = Ret b -> a = b) by congruence.
    apply X in H. rewrite <- H. reflexivity. }
  rewrite E in *.
  destruct (ribs_on_profile _ _ _ _ _ _ _ _ ER r Hr) as [A B]. split; [exact B|].
  destruct (In_nth_error _ _ Hr) as [i Hi]. destruct (HP i r Hi) as [P1 [_ [P2 _]]].
  destruct (radius_range lm LP _ SS (rb_y r) P1 P2) as [r' [R1 [_ [_ R2]]]].
  rewrite A in R1. assert (X : forall (a b : f64), Ret a = Ret b -> a = b) by congruence.
  apply X in R1. rewrite R1. exact R2.
Qed.

Lemma radius_even : forall lm s y,
  @surface_radius f64 (F64_Num lm) s (SFopp y) = @surface_radius f64 (F64_Num lm) s y.
Proof. intros lm s [s0|s0| |s0 m e]; reflexivity. Qed.
