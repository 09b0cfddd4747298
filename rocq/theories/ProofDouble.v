(** * Rounding in double precision: proofs for C120.

    The operations of [Coq.Floats.SpecFloat] are linked to the rounding of
    real numbers by the Flocq library. *)
From Coq Require Import ZArith Reals Lra Lia Bool String List Floats.SpecFloat.
From Flocq Require Import Core BinarySingleNaN Mult_error.
From Verif Require Import Base Num Vec Geom Ground Rib F64 SpecDouble.
Import ListNotations.
Local Open Scope Z_scope.

#[local] Instance Hprec : FLX.Prec_gt_0 53 := eq_refl.
#[local] Instance Hmax : Prec_lt_emax 53 1024 := eq_refl.
Notation bf := (binary_float 53 1024).
Notation BP := (@Bplus 53 1024 Hprec Hmax mode_NE).
Notation BM := (@Bminus 53 1024 Hprec Hmax mode_NE).
Notation BX := (@Bmult 53 1024 Hprec Hmax mode_NE).
Notation BD := (@Bdiv 53 1024 Hprec Hmax mode_NE).
Notation BQ := (@Bsqrt 53 1024 Hprec Hmax mode_NE).
Notation rnd := (round radix2 (SpecFloat.fexp 53 1024) (round_mode mode_NE)).

(** ** The operations are those of Flocq. *)
Lemma rne_equiv s m l : round_nearest_even m l = choice_mode mode_NE s m l.
Proof.
  case l; [reflexivity|intro c]. case c; [|reflexivity..].
  now simpl; unfold Round.cond_incr; case Z.even.
Qed.

Lemma raux_equiv sx mx ex lx :
  SpecFloat.binary_round_aux 53 1024 sx mx ex lx
  = BinarySingleNaN.binary_round_aux 53 1024 mode_NE sx mx ex lx.
Proof.
  unfold SpecFloat.binary_round_aux, BinarySingleNaN.binary_round_aux.
  set (mrse' := shr_fexp _ _ _ _ _). case mrse'; intros mrs' e'; simpl.
  now rewrite (rne_equiv sx).
Qed.

Lemma bnorm_equiv m e sz :
  SpecFloat.binary_normalize 53 1024 m e sz
  = B2SF (BinarySingleNaN.binary_normalize 53 1024 Hprec Hmax mode_NE m e sz).
Proof.
  assert (H : forall s p e0, SpecFloat.binary_round 53 1024 s p e0
                             = BinarySingleNaN.binary_round 53 1024 mode_NE s p e0).
  { intros. unfold SpecFloat.binary_round, BinarySingleNaN.binary_round, shl_align_fexp.
    set (mez := shl_align _ _ _); case mez as [mz ez]. apply raux_equiv. }
  case m as [|p|p]; [reflexivity| |]; simpl; rewrite B2SF_SF2B; apply H.
Qed.

Lemma mul_equiv : forall x y : bf, SFmul 53 1024 (B2SF x) (B2SF y) = B2SF (BX x y).
Proof.
  intros [sx|sx| |sx mx ex Bx] [sy|sy| |sy my ey By]; [now trivial..|].
  simpl. rewrite B2SF_SF2B. apply raux_equiv.
Qed.

Lemma add_equiv : forall x y : bf, SFadd 53 1024 (B2SF x) (B2SF y) = B2SF (BP x y).
Proof.
  intros [sx|sx| |sx mx ex Bx] [sy|sy| |sy my ey By];
    [now (trivial || simpl; case Bool.eqb).. | ].
  apply bnorm_equiv.
Qed.

Lemma sub_equiv : forall x y : bf, SFsub 53 1024 (B2SF x) (B2SF y) = B2SF (BM x y).
Proof.
  intros [sx|sx| |sx mx ex Bx] [sy|sy| |sy my ey By];
    [now (trivial || simpl; case Bool.eqb).. | ].
  simpl. unfold Zminus. rewrite <- cond_Zopp_negb. apply bnorm_equiv.
Qed.

Lemma div_equiv : forall x y : bf, SFdiv 53 1024 (B2SF x) (B2SF y) = B2SF (BD x y).
Proof.
  intros [sx|sx| |sx mx ex Bx] [sy|sy| |sy my ey By];
    [now (trivial || simpl; case Bool.eqb).. | ].
  simpl. rewrite B2SF_SF2B.
  set (melz := SFdiv_core_binary _ _ _ _ _ _). case melz as [[mz ez] lz]. apply raux_equiv.
Qed.

Lemma sqrt_equiv : forall x : bf, SFsqrt 53 1024 (B2SF x) = B2SF (BQ x).
Proof.
  intros [sx|sx| |sx mx ex Bx]; [now (trivial || case sx).. | ].
  case sx; [reflexivity | ].
  simpl. rewrite B2SF_SF2B.
  set (melz := SFsqrt_core_binary _ _ _ _). case melz as [[mz ez] lz]. apply raux_equiv.
Qed.

(** ** Doubles are closed under the operations. *)
Lemma lift : forall x, is_double x -> exists b : bf, x = B2SF b.
Proof. intros x H. exists (SF2B x H). symmetry. apply B2SF_SF2B. Qed.

Lemma dbl_B : forall b : bf, is_double (B2SF b).
Proof. intros b. apply valid_binary_B2SF. Qed.

Ltac lift2 :=
  intros x y Hx Hy; destruct (lift x Hx) as [bx ->]; destruct (lift y Hy) as [b_y ->].

Lemma dbl_add : forall x y, is_double x -> is_double y -> is_double (SFadd fprec femax x y).
Proof. lift2. unfold fprec, femax. rewrite add_equiv. apply dbl_B. Qed.
Lemma dbl_sub : forall x y, is_double x -> is_double y -> is_double (SFsub fprec femax x y).
Proof. lift2. unfold fprec, femax. rewrite sub_equiv. apply dbl_B. Qed.
Lemma dbl_mul : forall x y, is_double x -> is_double y -> is_double (SFmul fprec femax x y).
Proof. lift2. unfold fprec, femax. rewrite mul_equiv. apply dbl_B. Qed.
Lemma dbl_div : forall x y, is_double x -> is_double y -> is_double (SFdiv fprec femax x y).
Proof. lift2. unfold fprec, femax. rewrite div_equiv. apply dbl_B. Qed.
Lemma dbl_sqrt : forall x, is_double x -> is_double (SFsqrt fprec femax x).
Proof.
  intros x Hx. destruct (lift x Hx) as [b ->]. unfold fprec, femax. rewrite sqrt_equiv. apply dbl_B.
Qed.
Lemma dbl_opp : forall x, is_double x -> is_double (SFopp x).
Proof. intros [s|s| |s m e]; unfold is_double; cbn; auto. Qed.
Lemma dbl_abs : forall x, is_double x -> is_double (SFabs x).
Proof. intros [s|s| |s m e]; unfold is_double; cbn; auto. Qed.
Lemma dbl_of : forall m e, is_double (f_of m e).
Proof. intros. unfold f_of, fprec, femax. rewrite bnorm_equiv. apply dbl_B. Qed.

(** ** Values. *)
Definition rv (x : f64) : R := SF2R radix2 x.
Definition ok (x : f64) : Prop := is_double x /\ SpecDouble.is_finite x = true.

Lemma ok_lift : forall x, ok x ->
  exists b : bf, x = B2SF b /\ BinarySingleNaN.is_finite b = true /\ rv x = B2R b.
Proof.
  intros x [Hd Hf]. destruct (lift x Hd) as [b ->]. exists b.
  split; [reflexivity|]. split; [destruct b; cbn in *; congruence|].
  unfold rv. apply SF2R_B2SF.
Qed.

Lemma ok_B : forall b : bf, BinarySingleNaN.is_finite b = true -> ok (B2SF b).
Proof. intros b H. split; [apply dbl_B|]. destruct b; cbn in *; congruence. Qed.

Lemma leb_rv : forall x y, ok x -> ok y -> SFleb x y = true <-> (rv x <= rv y)%R.
Proof.
  intros x y Hx Hy.
  destruct (ok_lift x Hx) as [bx [Ex [Fx Rx]]]. destruct (ok_lift y Hy) as [b_y [Ey [Fy Ry]]].
  rewrite Rx, Ry. subst. change (SFleb (B2SF bx) (B2SF b_y)) with (Bleb bx b_y).
  rewrite Bleb_correct by assumption.
  case Rle_bool_spec; intros; split; intros; try lra; congruence.
Qed.

Lemma ltb_rv : forall x y, ok x -> ok y -> SFltb x y = true <-> (rv x < rv y)%R.
Proof.
  intros x y Hx Hy.
  destruct (ok_lift x Hx) as [bx [Ex [Fx Rx]]]. destruct (ok_lift y Hy) as [b_y [Ey [Fy Ry]]].
  rewrite Rx, Ry. subst. change (SFltb (B2SF bx) (B2SF b_y)) with (Bltb bx b_y).
  rewrite Bltb_correct by assumption.
  case Rlt_bool_spec; intros; split; intros; try lra; congruence.
Qed.

(** A double between two finite ones is finite. *)
Lemma ok_between : forall x a b, is_double x -> ok a -> ok b ->
  SFleb a x = true -> SFleb x b = true -> ok x.
Proof.
  intros x a b Hd [_ Fa] [_ Fb] H1 H2. split; [exact Hd|].
  destruct x as [s|[]| |s m e]; try reflexivity; exfalso;
    destruct a as [s1|[]| |[] m1 e1]; destruct b as [s2|[]| |[] m2 e2]; cbn in *; try congruence.
Qed.

#[local] Instance fexp_valid : Valid_exp (SpecFloat.fexp 53 1024) := fexp_correct 53 1024 Hprec.

Lemma rnd_le : forall x y, (x <= y)%R -> (rnd x <= rnd y)%R.
Proof. intros x y H. apply round_le; try typeclasses eauto. exact H. Qed.

Lemma rnd_rv : forall x, ok x -> rnd (rv x) = rv x.
Proof.
  intros x Hx. destruct (ok_lift x Hx) as [b [_ [_ ->]]].
  apply round_generic; [typeclasses eauto|]. apply generic_format_B2R.
Qed.

Lemma rnd_bpow : forall e, (-1074 <= e)%Z -> rnd (bpow radix2 e) = bpow radix2 e.
Proof.
  intros e H. apply round_generic; [typeclasses eauto|].
  apply generic_format_bpow. unfold SpecFloat.fexp, SpecFloat.emin. lia.
Qed.

Lemma rnd_opp : forall x, rnd (- x) = (- rnd x)%R.
Proof. intros x. cbn [round_mode]. apply round_NE_opp. Qed.

Lemma rnd_abs_le : forall x e, (-1074 <= e)%Z -> (Rabs x <= bpow radix2 e)%R ->
  (Rabs (rnd x) <= bpow radix2 e)%R.
Proof.
  intros x e He H. pose proof (rnd_bpow e He) as B.
  assert (H1 : (rnd x <= bpow radix2 e)%R).
  { rewrite <- B. apply rnd_le. pose proof (Rle_abs x). lra. }
  assert (H2 : (- bpow radix2 e <= rnd x)%R).
  { rewrite <- B, <- rnd_opp. apply rnd_le. pose proof (Rle_abs (- x)). rewrite Rabs_Ropp in *. lra. }
  apply Rabs_le. lra.
Qed.

Lemma rnd_small : forall x e, (-1074 <= e <= 1023)%Z -> (Rabs x <= bpow radix2 e)%R ->
  Rlt_bool (Rabs (rnd x)) (bpow radix2 1024) = true.
Proof.
  intros x e He H. apply Rlt_bool_true.
  apply Rle_lt_trans with (bpow radix2 e); [apply rnd_abs_le; [lia|exact H]|].
  apply bpow_lt. lia.
Qed.

Section Ops.
  Variables x y : f64.
  Hypothesis Hx : ok x.
  Hypothesis Hy : ok y.

  Lemma op_mul : forall e, (-1074 <= e <= 1023)%Z -> (Rabs (rv x * rv y) <= bpow radix2 e)%R ->
    ok (SFmul fprec femax x y) /\ rv (SFmul fprec femax x y) = rnd (rv x * rv y).
  Proof.
    intros e He H.
    destruct (ok_lift x Hx) as [bx [Ex [Fx Rx]]]. destruct (ok_lift y Hy) as [b_y [Ey [Fy Ry]]].
    rewrite Rx, Ry in *. subst x y. unfold fprec, femax. rewrite mul_equiv.
    pose proof (Bmult_correct 53 1024 Hprec Hmax mode_NE bx b_y) as C.
    rewrite (rnd_small _ e He H) in C. destruct C as [C1 [C2 _]].
    rewrite Fx, Fy in C2. split; [now apply ok_B|]. unfold rv. now rewrite SF2R_B2SF.
  Qed.

  Lemma op_sub : forall e, (-1074 <= e <= 1023)%Z -> (Rabs (rv x - rv y) <= bpow radix2 e)%R ->
    ok (SFsub fprec femax x y) /\ rv (SFsub fprec femax x y) = rnd (rv x - rv y).
  Proof.
    intros e He H.
    destruct (ok_lift x Hx) as [bx [Ex [Fx Rx]]]. destruct (ok_lift y Hy) as [b_y [Ey [Fy Ry]]].
    rewrite Rx, Ry in *. subst x y. unfold fprec, femax. rewrite sub_equiv.
    pose proof (Bminus_correct 53 1024 Hprec Hmax mode_NE bx b_y Fx Fy) as C.
    rewrite (rnd_small _ e He H) in C. destruct C as [C1 [C2 _]].
    split; [now apply ok_B|]. unfold rv. now rewrite SF2R_B2SF.
  Qed.

  Lemma op_div : forall e, (-1074 <= e <= 1023)%Z -> rv y <> 0%R ->
    (Rabs (rv x / rv y) <= bpow radix2 e)%R ->
    ok (SFdiv fprec femax x y) /\ rv (SFdiv fprec femax x y) = rnd (rv x / rv y).
  Proof.
    intros e He Hn H.
    destruct (ok_lift x Hx) as [bx [Ex [Fx Rx]]]. destruct (ok_lift y Hy) as [b_y [Ey [Fy Ry]]].
    rewrite Rx, Ry in *. subst x y. unfold fprec, femax. rewrite div_equiv.
    pose proof (Bdiv_correct 53 1024 Hprec Hmax mode_NE bx b_y Hn) as C.
    rewrite (rnd_small _ e He H) in C. destruct C as [C1 [C2 _]].
    rewrite Fx in C2. split; [now apply ok_B|]. unfold rv. now rewrite SF2R_B2SF.
  Qed.

  Lemma op_sqrt : (0 <= rv x)%R ->
    ok (SFsqrt fprec femax x) /\ rv (SFsqrt fprec femax x) = rnd (sqrt (rv x)).
  Proof using Hx.
    intros H.
    destruct (ok_lift x Hx) as [bx [Ex [Fx Rx]]].
    rewrite Rx in *. subst x. unfold fprec, femax. rewrite sqrt_equiv.
    destruct (Bsqrt_correct 53 1024 Hprec Hmax mode_NE bx) as [C1 [C2 _]].
    split; [|unfold rv; now rewrite SF2R_B2SF].
    apply ok_B. rewrite C2. destruct bx as [s|s| |[] m e B]; cbn in *; try congruence.
    exfalso. clear - H. assert (F2R (Float radix2 (Zneg m) e) < 0)%R by (apply F2R_lt_0; cbn; lia).
    lra.
  Qed.
End Ops.

Lemma ok_of : forall z e, (Rabs (IZR z * bpow radix2 e) <= bpow radix2 1023)%R ->
  ok (f_of z e) /\ rv (f_of z e) = rnd (IZR z * bpow radix2 e).
Proof.
  intros z e H. unfold f_of, fprec, femax. rewrite bnorm_equiv.
  pose proof (binary_normalize_correct 53 1024 Hprec Hmax mode_NE z e false) as C.
  unfold F2R in C. cbn [Fnum Fexp] in C. cbv zeta in C.
  rewrite (rnd_small _ 1023 ltac:(lia) H) in C. destruct C as [C1 [C2 _]].
  split; [now apply ok_B|]. unfold rv. now rewrite SF2R_B2SF.
Qed.

Lemma f_of_small : forall z e, (Rabs (IZR z * bpow radix2 e) <= bpow radix2 1023)%R ->
  rnd (IZR z * bpow radix2 e) = (IZR z * bpow radix2 e)%R ->
  ok (f_of z e) /\ rv (f_of z e) = (IZR z * bpow radix2 e)%R.
Proof. intros z e H E. destruct (ok_of z e H) as [H1 H2]. rewrite E in H2. auto. Qed.

Lemma bp_le : forall e, (0 <= e <= 1023)%Z -> (1 <= bpow radix2 e <= bpow radix2 1023)%R.
Proof.
  intros e H. split; [|apply bpow_le; lia].
  change 1%R with (bpow radix2 0). apply bpow_le. lia.
Qed.

Lemma f_pow : forall e, (0 <= e <= 1023)%Z -> ok (f_of 1 e) /\ rv (f_of 1 e) = bpow radix2 e.
Proof.
  intros e He. pose proof (bp_le e He) as B.
  destruct (f_of_small 1 e) as [H1 H2].
  - rewrite Rmult_1_l, Rabs_right; lra.
  - rewrite Rmult_1_l. apply rnd_bpow. lia.
  - split; [exact H1|]. rewrite H2. lra.
Qed.

Lemma f_two : ok (f_of 2 0) /\ rv (f_of 2 0) = 2%R.
Proof.
  pose proof (bp_le 1 ltac:(lia)) as B. change (bpow radix2 1) with 2%R in B.
  destruct (f_of_small 2 0) as [H1 H2]; change (bpow radix2 0) with 1%R.
  - rewrite Rmult_1_r, Rabs_right; lra.
  - rewrite Rmult_1_r. apply (rnd_bpow 1). lia.
  - split; [exact H1|]. rewrite H2. change (bpow radix2 0) with 1%R. lra.
Qed.

Lemma f_four : ok (f_of 4 0) /\ rv (f_of 4 0) = 4%R.
Proof.
  pose proof (bp_le 2 ltac:(lia)) as B. change (bpow radix2 2) with 4%R in B.
  destruct (f_of_small 4 0) as [H1 H2]; change (bpow radix2 0) with 1%R.
  - rewrite Rmult_1_r, Rabs_right; lra.
  - rewrite Rmult_1_r. apply (rnd_bpow 2). lia.
  - split; [exact H1|]. rewrite H2. change (bpow radix2 0) with 1%R. lra.
Qed.

Lemma f_mone : ok (f_of (-1) 0) /\ rv (f_of (-1) 0) = (-1)%R.
Proof.
  pose proof (bp_le 0 ltac:(lia)) as B. change (bpow radix2 0) with 1%R in B.
  destruct (f_of_small (-1) 0) as [H1 H2]; change (bpow radix2 0) with 1%R.
  - rewrite Rmult_1_r. replace (-1)%R with (-(1))%R by ring. rewrite Rabs_Ropp, Rabs_right; lra.
  - rewrite Rmult_1_r. replace (-1)%R with (-(1))%R by ring. rewrite rnd_opp.
    pose proof (rnd_bpow 0 ltac:(lia)) as E. change (bpow radix2 0) with 1%R in E. now rewrite E.
  - split; [exact H1|]. rewrite H2. change (bpow radix2 0) with 1%R. lra.
Qed.

Lemma ok_zero : ok (S754_zero false) /\ rv (S754_zero false) = 0%R.
Proof. split; [split; reflexivity|reflexivity]. Qed.

Lemma rnd_pos : forall x, (0 <= x)%R -> (0 <= rnd x)%R.
Proof.
  intros x H. rewrite <- (round_0 radix2 (SpecFloat.fexp 53 1024) (round_mode mode_NE)).
  now apply rnd_le.
Qed.

(** Bounded products. *)
Lemma mul_bound : forall x y a b, ok x -> ok y -> (0 <= a)%Z -> (0 <= b)%Z -> (a + b <= 1023)%Z ->
  (Rabs (rv x) <= bpow radix2 a)%R -> (Rabs (rv y) <= bpow radix2 b)%R ->
  ok (SFmul fprec femax x y) /\ rv (SFmul fprec femax x y) = rnd (rv x * rv y) /\
  (Rabs (rv (SFmul fprec femax x y)) <= bpow radix2 (a + b))%R.
Proof.
  intros x y a b Hx Hy Ha Hb Hab Bx B_y.
  assert (B : (Rabs (rv x * rv y) <= bpow radix2 (a + b))%R).
  { rewrite Rabs_mult, bpow_plus. apply Rmult_le_compat; auto using Rabs_pos. }
  destruct (op_mul x y Hx Hy (a + b) ltac:(lia) B) as [H1 H2].
  split; [exact H1|]. split; [exact H2|]. rewrite H2. apply rnd_abs_le; [lia|exact B].
Qed.

Lemma sub_bound : forall x y a, ok x -> ok y -> (0 <= a)%Z -> (a + 1 <= 1023)%Z ->
  (Rabs (rv x) <= bpow radix2 a)%R -> (Rabs (rv y) <= bpow radix2 a)%R ->
  ok (SFsub fprec femax x y) /\ rv (SFsub fprec femax x y) = rnd (rv x - rv y) /\
  (Rabs (rv (SFsub fprec femax x y)) <= bpow radix2 (a + 1))%R.
Proof.
  intros x y a Hx Hy Ha Ha1 Bx B_y.
  assert (B : (Rabs (rv x - rv y) <= bpow radix2 (a + 1))%R).
  { rewrite bpow_plus. change (bpow radix2 1) with 2%R.
    pose proof (Rabs_triang (rv x) (- rv y)) as T. rewrite Rabs_Ropp in T.
    unfold Rminus. lra. }
  destruct (op_sub x y Hx Hy (a + 1) ltac:(lia) B) as [H1 H2].
  split; [exact H1|]. split; [exact H2|]. rewrite H2. apply rnd_abs_le; [lia|exact B].
Qed.

Lemma sqrt_bound : forall x a, ok x -> (0 <= rv x)%R -> (0 <= a)%Z -> (a + a <= 1023)%Z ->
  (rv x <= bpow radix2 (a + a))%R ->
  ok (SFsqrt fprec femax x) /\ (0 <= rv (SFsqrt fprec femax x) <= bpow radix2 a)%R.
Proof.
  intros x a Hx Hp Ha Haa B.
  destruct (op_sqrt x Hx Hp) as [H1 H2]. split; [exact H1|]. rewrite H2.
  split; [apply rnd_pos, sqrt_pos|].
  rewrite <- (rnd_bpow a) by lia. apply rnd_le.
  rewrite <- (sqrt_square (bpow radix2 a)) by apply bpow_ge_0.
  apply sqrt_le_1_alt. now rewrite <- bpow_plus.
Qed.

Section Formulas.
  Variable lm : libm.
  Variables r d w : f64.
  Hypothesis Hr : ok r.
  Hypothesis Hr0 : (0 < rv r)%R.
  Hypothesis Hr1 : (rv r <= bpow radix2 300)%R.
  Hypothesis Hd : ok d.
  Hypothesis Hd0 : (0 <= rv d)%R.
  Hypothesis Hd1 : (rv d <= 2 * rv r)%R.
  Hypothesis Hw : ok w.
  Hypothesis Hw0 : (0 <= rv w)%R.
  Hypothesis Hw1 : (rv w <= bpow radix2 300)%R.

  Let b301 : bpow radix2 301 = (2 * bpow radix2 300)%R.
  Proof. change 301%Z with (1 + 300)%Z. now rewrite bpow_plus. Qed.

  (** [2*radius] is exact. *)
  Lemma diameter : ok (SFmul fprec femax (f_of 2 0) r) /\
    rv (SFmul fprec femax (f_of 2 0) r) = (2 * rv r)%R.
  Proof using Hr Hr0 Hr1.
    destruct f_two as [H1 H2].
    destruct (mul_bound (f_of 2 0) r 1 300 H1 Hr) as [H3 [H4 _]]; try lia.
    - rewrite H2. change (bpow radix2 1) with 2%R. rewrite Rabs_right; lra.
    - rewrite Rabs_right; lra.
    - split; [exact H3|]. rewrite H4, H2.
      apply round_generic; [typeclasses eauto|].
      destruct (ok_lift r Hr) as [b [_ [_ ->]]].
      rewrite Rmult_comm. change 2%R with (bpow radix2 1).
      apply (mult_bpow_pos_exact_FLT radix2 (SpecFloat.emin 53 1024) 53); [|lia].
      exact (generic_format_B2R 53 1024 b).
  Qed.

  (** The chord: half its square and its root. *)
  Lemma chord : ok (SFmul fprec femax d (SFsub fprec femax (SFmul fprec femax (f_of 2 0) r) d)) /\
    ok (SFsqrt fprec femax (SFmul fprec femax d (SFsub fprec femax (SFmul fprec femax (f_of 2 0) r) d))) /\
    (0 <= rv (SFsqrt fprec femax (SFmul fprec femax d (SFsub fprec femax (SFmul fprec femax (f_of 2 0) r) d)))
       <= bpow radix2 302)%R.
  Proof using Hr Hr0 Hr1 Hd Hd0 Hd1.
    destruct diameter as [D1 D2].
    destruct (sub_bound (SFmul fprec femax (f_of 2 0) r) d 301 D1 Hd) as [S1 [S2 S3]]; try lia.
    { rewrite D2, b301, Rabs_right; lra. }
    { rewrite b301, Rabs_right; lra. }
    rewrite D2 in S2. change (301 + 1)%Z with 302%Z in S3.
    assert (Sp : (0 <= rv (SFsub fprec femax (SFmul fprec femax (f_of 2 0) r) d))%R)
      by (rewrite S2; apply rnd_pos; lra).
    destruct (mul_bound d (SFsub fprec femax (SFmul fprec femax (f_of 2 0) r) d) 302 302 Hd S1)
      as [M1 [M2 M3]]; try lia; try assumption.
    { change 302%Z with (1 + 301)%Z. rewrite bpow_plus, b301. change (bpow radix2 1) with 2%R.
      pose proof (bpow_ge_0 radix2 300). rewrite Rabs_right; lra. }
    split; [exact M1|].
    apply sqrt_bound; try lia; try assumption.
    - rewrite M2. apply rnd_pos. now apply Rmult_le_pos.
    - eapply Rle_trans; [apply Rle_abs|exact M3].
  Qed.

  Lemma area_ok : let a := @seg_area f64 (F64_Num lm) r d w in ok a /\ (0 <= rv a)%R.
  Proof using Hr Hr0 Hr1 Hd Hd0 Hd1 Hw Hw0 Hw1.
    cbv zeta. unfold seg_area. cbn [nmul nsub nsqrt nofZ F64_Num].
    destruct chord as [_ [C1 C2]].
    set (q := SFsqrt _ _ _) in *.
    destruct f_two as [T1 T2].
    destruct (mul_bound (f_of 2 0) q 1 302 T1 C1) as [M1 [M2 M3]]; try lia.
    { rewrite T2. change (bpow radix2 1) with 2%R. rewrite Rabs_right; lra. }
    { rewrite Rabs_right; lra. }
    assert (Mp : (0 <= rv (SFmul fprec femax (f_of 2 0) q))%R)
      by (rewrite M2, T2; apply rnd_pos; lra).
    destruct (mul_bound (SFmul fprec femax (f_of 2 0) q) w 303 300 M1 Hw) as [N1 [N2 N3]]; try lia; try assumption.
    { rewrite Rabs_right; lra. }
    split; [exact N1|]. rewrite N2. apply rnd_pos. now apply Rmult_le_pos.
  Qed.

  (** [radius - depth] and the argument of the arccosine. *)
  Lemma lever : ok (SFsub fprec femax r d) /\ (Rabs (rv (SFsub fprec femax r d)) <= rv r)%R.
  Proof using Hr Hr0 Hr1 Hd Hd0 Hd1.
    destruct (op_sub r d Hr Hd 300) as [S1 S2]; try lia.
    { apply Rabs_le. lra. }
    split; [exact S1|]. rewrite S2. rewrite <- (rnd_rv r Hr). apply Rabs_le.
    split; [rewrite <- rnd_opp|]; rewrite (rnd_rv r Hr) at 1 || idtac; apply rnd_le; rewrite ?(rnd_rv r Hr); lra.
  Qed.

  Lemma ratio : ok (SFdiv fprec femax (SFsub fprec femax r d) r) /\
    (-1 <= rv (SFdiv fprec femax (SFsub fprec femax r d) r) <= 1)%R.
  Proof using Hr Hr0 Hr1 Hd Hd0 Hd1.
    destruct lever as [L1 L2].
    assert (B : (Rabs (rv (SFsub fprec femax r d) / rv r) <= 1)%R).
    { unfold Rdiv. rewrite Rabs_mult, Rabs_inv, (Rabs_right (rv r)) by lra.
      apply Rmult_le_reg_r with (rv r); [lra|]. rewrite Rmult_assoc, Rinv_l by lra. lra. }
    destruct (op_div (SFsub fprec femax r d) r L1 Hr 0) as [D1 D2]; try lia; try lra.
    { exact B. }
    split; [exact D1|]. rewrite D2.
    pose proof (rnd_abs_le _ 0 ltac:(lia) B) as H. change (bpow radix2 0) with 1%R in H.
    pose proof (Rle_abs (rnd (rv (SFsub fprec femax r d) / rv r))).
    pose proof (Rle_abs (- rnd (rv (SFsub fprec femax r d) / rv r))) as H'. rewrite Rabs_Ropp in H'.
    lra.
  Qed.

  Lemma volume_ok : sound_acos lm -> ok (@seg_volume f64 (F64_Num lm) r d w).
  Proof using Hr Hr0 Hr1 Hd Hd0 Hd1 Hw Hw0 Hw1.
    intros HA. unfold seg_volume. cbn [nmul nsub nsqrt ndiv nacos nofZ F64_Num].
    destruct chord as [_ [C1 C2]]. set (q := SFsqrt _ _ _) in *.
    destruct lever as [L1 L2]. destruct ratio as [Q1 Q2].
    destruct f_mone as [Z1 Z2]. destruct (f_pow 0 ltac:(lia)) as [O1 O2]. change (bpow radix2 0) with 1%R in O2.
    destruct f_four as [F1 F2]. destruct ok_zero as [K1 K2].
    destruct (HA (SFdiv fprec femax (SFsub fprec femax r d) r)) as [A1 [A2 A3]].
    { apply Q1. }
    { apply leb_rv; [exact Z1|exact Q1|lra]. }
    { apply leb_rv; [exact Q1|exact O1|lra]. }
    set (ac := lm_acos lm _) in *.
    assert (A4 : ok ac) by (exact (ok_between ac (S754_zero false) (f_of 4 0) A1 K1 F1 A2 A3)).
    apply leb_rv in A2; [|assumption..]. apply leb_rv in A3; [|assumption..].
    rewrite K2 in A2. rewrite F2 in A3.
    destruct (mul_bound r r 300 300 Hr Hr) as [M1 [_ M2]]; try lia; try (rewrite Rabs_right; lra).
    destruct (mul_bound (SFmul fprec femax r r) ac (300 + 300) 2 M1 A4) as [N1 [_ N2]]; try lia; try assumption.
    { change (bpow radix2 2) with 4%R. rewrite Rabs_right; lra. }
    destruct (mul_bound (SFsub fprec femax r d) q 300 302 L1 C1) as [P1 [_ P2]]; try lia; try lra.
    { rewrite Rabs_right; lra. }
    destruct (sub_bound _ _ 602 N1 P1) as [R1 [_ R2]]; try lia; try assumption.
    destruct (mul_bound _ w (602 + 1) 300 R1 Hw) as [V1 _]; try lia; try assumption.
    rewrite Rabs_right; lra.
  Qed.
End Formulas.

(** ** Doubles are closed under the vector operations. *)
Section Closure.
  Variable lm : libm.
  #[local] Instance N : Num f64 := F64_Num lm.

  Lemma n_add : forall x y : f64, is_double x -> is_double y -> is_double (nadd x y).
  Proof. exact dbl_add. Qed.
  Lemma n_sub : forall x y : f64, is_double x -> is_double y -> is_double (nsub x y).
  Proof. exact dbl_sub. Qed.
  Lemma n_mul : forall x y : f64, is_double x -> is_double y -> is_double (nmul x y).
  Proof. exact dbl_mul. Qed.
  Lemma n_div : forall x y : f64, is_double x -> is_double y -> is_double (ndiv x y).
  Proof. exact dbl_div. Qed.
  Lemma n_opp : forall x : f64, is_double x -> is_double (nopp x).
  Proof. exact dbl_opp. Qed.
  Lemma n_abs : forall x : f64, is_double x -> is_double (nabs x).
  Proof. exact dbl_abs. Qed.
  Lemma n_sqrt : forall x : f64, is_double x -> is_double (nsqrt x).
  Proof. exact dbl_sqrt. Qed.
  Lemma n_of : forall z, is_double (nofZ z).
  Proof. intros. apply dbl_of. Qed.
  Lemma n_01 : is_double n01.
  Proof. apply dbl_of. Qed.
  Lemma n_03 : is_double n03.
  Proof. apply dbl_of. Qed.
  Hint Resolve n_add n_sub n_mul n_div n_opp n_abs n_sqrt n_of n_01 n_03 : dbl.

  Lemma v_add : forall a b, double_vec a -> double_vec b -> double_vec (vadd a b).
  Proof. intros a b [? [? ?]] [? [? ?]]. repeat split; apply n_add; assumption. Qed.
  Lemma v_sub : forall a b, double_vec a -> double_vec b -> double_vec (vsub a b).
  Proof. intros a b [? [? ?]] [? [? ?]]. repeat split; apply n_sub; assumption. Qed.
  Lemma v_opp : forall a, double_vec a -> double_vec (vopp a).
  Proof. intros a [? [? ?]]. repeat split; apply n_opp; assumption. Qed.
  Lemma v_mul : forall s a, is_double s -> double_vec a -> double_vec (vmul s a).
  Proof. intros s a ? [? [? ?]]. repeat split; apply n_mul; assumption. Qed.
  Lemma v_div : forall a s, is_double s -> double_vec a -> double_vec (vdiv a s).
  Proof. intros a s ? [? [? ?]]. repeat split; apply n_div; assumption. Qed.
  Lemma v_dot : forall a b, double_vec a -> double_vec b -> is_double (vdot a b).
  Proof. intros a b [? [? ?]] [? [? ?]]. unfold vdot. auto with dbl. Qed.
  Lemma v_cross : forall a b, double_vec a -> double_vec b -> double_vec (vcross a b).
  Proof. intros a b [? [? ?]] [? [? ?]]. unfold vcross. repeat split; cbn [vx vy vz]; auto with dbl. Qed.
  Lemma v_norm : forall a, double_vec a -> is_double (vnorm a).
  Proof. intros a H. unfold vnorm, vsqnorm. apply n_sqrt. now apply v_dot. Qed.
  Lemma v_normalized : forall a, double_vec a -> double_vec (vnormalized a).
  Proof.
    intros a H. unfold vnormalized. destruct (nlt _ _); [|exact H].
    apply v_div; [|exact H]. apply n_sqrt. now apply v_dot.
  Qed.
  Lemma v_mv : forall m a, double_mat m -> double_vec a -> double_vec (mvmul m a).
  Proof.
    intros m a [? [? ?]] Hv. unfold mvmul, row0, row1, row2.
    repeat split; cbn [vx vy vz]; now apply v_dot.
  Qed.
  Lemma v_ux : double_vec unit_x. Proof. repeat split; apply n_of. Qed.
  Lemma v_uy : double_vec unit_y. Proof. repeat split; apply n_of. Qed.
  Lemma v_uz : double_vec unit_z. Proof. repeat split; apply n_of. Qed.
  Lemma v_col1 : forall m, double_mat m -> double_vec (col1 m).
  Proof.
    intros m [[_ [H1 _]] [[_ [H2 _]] [_ [H3 _]]]]. repeat split; assumption.
  Qed.
  Hint Resolve v_add v_sub v_opp v_mul v_div v_dot v_cross v_norm v_normalized v_mv v_ux v_uy v_uz
    v_col1 : dbl.

  Variable r : rib f64.
  Variable pose : affine f64.
  Hypothesis Hr : sound_rib r.
  Hypothesis Hp : double_pose pose.

  Lemma center_double : double_vec (center_grd r pose).
  Proof using Hr Hp.
    destruct Hr, Hp. unfold center_grd, rb_center. auto with dbl.
  Qed.

  (** The norm of a vector of doubles, when finite, is not negative. *)
  Lemma norm_pos : forall a, double_vec a -> SpecDouble.is_finite (vnorm a) = true ->
    ok (vnorm a) /\ (0 <= rv (vnorm a))%R.
  Proof.
    intros a H Hf. pose proof (v_norm a H) as Hd.
    split; [split; assumption|].
    unfold vnorm, vsqnorm. pose proof (v_dot a a H H) as Hs.
    destruct (lift _ Hs) as [b Hb]. rewrite Hb. cbn [nsqrt N F64_Num]. unfold fprec, femax.
    rewrite sqrt_equiv. unfold rv. rewrite SF2R_B2SF.
    destruct (Bsqrt_correct 53 1024 Hprec Hmax mode_NE b) as [-> _].
    apply rnd_pos, sqrt_pos.
  Qed.

  (** What the formulas need of the depth. *)
  Lemma contact_data : forall d, sound_acos lm -> is_double d ->
    SFleb (S754_zero false) d = true ->
    SFleb d (SFmul 53 1024 (f_of 2 0) (dradius (rb_disk r))) = true ->
    let a := seg_area (rb_radius r) d (rb_width r) in
    let v := seg_volume (rb_radius r) d (rb_width r) in
    SpecDouble.is_finite d = true /\
    SpecDouble.is_finite a = true /\ SFleb (S754_zero false) a = true /\
    SpecDouble.is_finite v = true.
  Proof using Hr.
    intros d HA Hd H0 H1. cbv zeta. destruct Hr as [_ _ R1 R2 R3 W1 W2 W3].
    destruct ok_zero as [K1 K2]. destruct (f_pow 300 ltac:(lia)) as [P1 P2].
    assert (R2' : SFleb (S754_zero false) (dradius (rb_disk r)) = true).
    { revert R2. unfold SFltb, SFleb. destruct (SFcompare _ _) as [[]|]; congruence. }
    assert (Rok : ok (dradius (rb_disk r)))
      by (apply (ok_between _ (S754_zero false) (f_of 1 300)); assumption).
    assert (Wok : ok (rb_width r))
      by (apply (ok_between _ (S754_zero false) (f_of 1 300)); assumption).
    apply ltb_rv in R2; [|assumption..]. apply leb_rv in R3; [|assumption..].
    apply leb_rv in W2; [|assumption..]. apply leb_rv in W3; [|assumption..].
    rewrite K2 in *. rewrite P2 in *.
    destruct (diameter (dradius (rb_disk r)) Rok R2 R3) as [D1 D2].
    unfold fprec, femax in D1, D2.
    assert (Dok : ok d) by exact (ok_between d _ _ Hd K1 D1 H0 H1).
    apply leb_rv in H0; [|assumption..]. apply leb_rv in H1; [|assumption..].
    rewrite K2 in H0. rewrite D2 in H1.
    destruct (area_ok lm (dradius (rb_disk r)) d (rb_width r)) as [A1 A2]; try assumption.
    pose proof (volume_ok lm (dradius (rb_disk r)) d (rb_width r)) as V1.
    split; [apply Dok|]. split; [apply A1|]. split; [|apply V1; assumption].
    apply leb_rv; [exact K1|exact A1|]. rewrite K2. exact A2.
  Qed.

  (** The depth of the geometric method is at most the radius. *)
  Lemma geometric_depth : forall a, double_vec a ->
    let d := nsub (rb_radius r) (vnorm a) in
    is_double d /\ (SFleb (S754_zero false) d = true ->
      SFleb d (dradius (rb_disk r)) = true /\
      SFleb d (SFmul 53 1024 (f_of 2 0) (dradius (rb_disk r))) = true).
  Proof using Hr.
    intros a Ha. cbv zeta. destruct Hr as [_ _ R1 R2 R3 _ _ _].
    pose proof (v_norm a Ha) as Hn.
    split; [apply n_sub; [exact R1|exact Hn]|]. intros H0.
    destruct ok_zero as [K1 K2]. destruct (f_pow 300 ltac:(lia)) as [P1 P2].
    assert (R2' : SFleb (S754_zero false) (dradius (rb_disk r)) = true).
    { revert R2. unfold SFltb, SFleb. destruct (SFcompare _ _) as [[]|]; congruence. }
    assert (Rok : ok (dradius (rb_disk r)))
      by (apply (ok_between _ (S754_zero false) (f_of 1 300)); assumption).
    apply ltb_rv in R2; [|assumption..]. apply leb_rv in R3; [|assumption..].
    rewrite K2 in *. rewrite P2 in *.
    destruct (diameter (dradius (rb_disk r)) Rok R2 R3) as [D1 D2].
    unfold fprec, femax in D1, D2.
    unfold rb_radius in *. set (rd := dradius (rb_disk r)) in *.
    destruct (SpecDouble.is_finite (vnorm a)) eqn:Fn.
    - destruct (norm_pos a Ha Fn) as [N1 N2]. set (n := vnorm a) in *.
      assert (S : ok (nsub rd n) /\ rv (nsub rd n) = rnd (rv rd - rv n)).
      { change (nsub rd n) with (SFsub 53 1024 rd n).
        destruct (ok_lift rd Rok) as [bx [Ex [Fx Rx]]]. destruct (ok_lift n N1) as [b_y [Ey [Fy Ry]]].
        rewrite Rx, Ry in *. rewrite Ex, Ey, sub_equiv.
        pose proof (Bminus_correct 53 1024 Hprec Hmax mode_NE bx b_y Fx Fy) as C.
        rewrite Rlt_bool_true in C.
        - destruct C as [C1 [C2 _]]. split; [now apply ok_B|]. unfold rv. now rewrite SF2R_B2SF.
        - pose proof (abs_B2R_lt_emax 53 1024 bx) as Lx. pose proof (abs_B2R_lt_emax 53 1024 b_y) as Ly.
          rewrite Rabs_right in Lx by lra. rewrite Rabs_right in Ly by lra.
          assert (E1 : rnd (B2R bx) = B2R bx)
            by (apply round_generic; [typeclasses eauto|apply generic_format_B2R]).
          assert (E2 : rnd (B2R b_y) = B2R b_y)
            by (apply round_generic; [typeclasses eauto|apply generic_format_B2R]).
          assert (U : (rnd (B2R bx - B2R b_y) <= B2R bx)%R) by (rewrite <- E1 at 2; apply rnd_le; lra).
          assert (W : (- B2R b_y <= rnd (B2R bx - B2R b_y))%R)
            by (rewrite <- E2 at 1; rewrite <- rnd_opp; apply rnd_le; lra).
          unfold Rabs. destruct (Rcase_abs _); lra. }
      destruct S as [S1 S2].
      assert (L : (rv (nsub rd n) <= rv rd)%R).
      { rewrite S2, <- (rnd_rv rd Rok) at 1. rewrite (rnd_rv rd Rok). rewrite <- (rnd_rv rd Rok) at 2.
        apply rnd_le. lra. }
      split; apply leb_rv; try assumption. rewrite D2. lra.
    - exfalso. revert H0. destruct Rok as [_ Fr]. clearbody rd.
      cbn [nsub N F64_Num]. revert Fn.
      assert (Hneg : vnorm a <> S754_infinity true).
      { unfold vnorm. cbn [nsqrt N F64_Num]. destruct (lift _ (v_dot a a Ha Ha)) as [b Hb].
        unfold vsqnorm. rewrite Hb. unfold fprec, femax. rewrite sqrt_equiv.
        destruct (Bsqrt_correct 53 1024 Hprec Hmax mode_NE b) as [_ [C _]].
        assert (D : b = B754_infinity false \/ b = B754_infinity true \/ b = B754_nan \/
                    BinarySingleNaN.is_finite b = true)
          by (destruct b as [s|[]| |s m e B]; auto).
        destruct D as [-> | [-> | [-> | D]]]; try (cbn; discriminate).
        assert (Q : BinarySingleNaN.is_finite (BQ b) = true \/ BQ b = B754_nan).
        { destruct b as [s|s| |[] m e B]; try (left; exact C); try discriminate D. right. reflexivity. }
        intros E. destruct Q as [Q|Q]; [|rewrite Q in E; discriminate E].
        destruct (BQ b); cbn [B2SF BinarySingleNaN.is_finite] in E, Q; congruence. }
      set (n := vnorm a) in *. clearbody n.
      destruct n as [s|[]| |s m e]; cbn [SpecDouble.is_finite]; try discriminate; try congruence;
        intros _; destruct rd as [s'|s'| |s' m' e']; cbn in Fr |- *; discriminate.
  Qed.

  Lemma some_inj : forall {A} (a b : A), Some a = Some b -> a = b.
  Proof. congruence. Qed.
  Lemma pair_inj : forall {A B} (a a' : A) (b b' : B), (a, b) = (a', b') -> a = a' /\ b = b'.
  Proof. split; congruence. Qed.

  Definition double_line (l : line f64) : Prop := double_vec (lorigin l) /\ double_vec (ldir l).

  Lemma line_plane_double : forall l p q tol, double_line l -> double_plane p ->
    int_line_plane l p tol = Some q -> double_vec q.
  Proof.
    intros l p q tol [L1 L2] [P1 P2]. unfold int_line_plane.
    destruct (nlt _ _); [|discriminate]. intros E; apply some_inj in E; subst q. auto 10 with dbl.
  Qed.

  Lemma line_triangle_double : forall l t q tol, double_line l -> double_triangle t ->
    int_line_triangle l t tol = Some q -> double_vec q.
  Proof.
    intros l t q tol [L1 L2] [T1 [T2 T3]]. unfold int_line_triangle. cbv zeta.
    destruct (_ && _); [discriminate|]. destruct (_ || _); [discriminate|].
    destruct (_ || _); [discriminate|]. intros E; apply some_inj in E; subst q. auto 12 with dbl.
  Qed.

  Lemma sampling_line_double : forall ground l h, Forall (fun g => double_triangle (tg_tri g)) ground ->
    double_line l -> sampling_line ground l = Some h -> double_vec (fst h).
  Proof.
    intros ground l h HG HL. unfold sampling_line.
    assert (A : Forall (fun h => double_vec (fst h)) (sampling_hits ground l)).
    { unfold sampling_hits. induction HG as [|g gs H HG IH]; cbn [flat_map]; [constructor|].
      apply Forall_app. split; [|exact IH].
      destruct (int_line_triangle l (tg_tri g) neps) as [p|] eqn:E; [|constructor].
      constructor; [|constructor]. cbn [fst]. eapply line_triangle_double; eassumption. }
    destruct (sampling_hits ground l) as [|h0 hs]; [discriminate|]. intros EE; apply some_inj in EE; subst h.
    assert (A1 : double_vec (fst h0)) by exact (Forall_inv A).
    assert (A2 := Forall_inv_tail A). clear A. revert h0 A1.
    induction A2 as [|x xs X XS IH]; intros h0 A1; cbn [fold_left]; [exact A1|].
    apply IH. unfold higher. destruct (nlt _ _); assumption.
  Qed.

  Lemma sampling_lines_double : forall l0 l1 l2 l3, sampling_lines r pose = (l0, l1, l2, l3) ->
    double_line l0 /\ double_line l1 /\ double_line l2 /\ double_line l3.
  Proof using Hr Hp.
    intros l0 l1 l2 l3. unfold sampling_lines. intros E.
    apply pair_inj in E. destruct E as [E E3]. apply pair_inj in E. destruct E as [E E2].
    apply pair_inj in E. destruct E as [E0 E1]. subst l0 l1 l2 l3.
    destruct Hr as [C1 C2 R1 _ _ W1 _ _]. destruct Hp as [M T].
    unfold rb_center, rb_radius in *.
    repeat split; cbn [lorigin ldir];
      try (apply v_add; auto 10 with dbl); try (apply n_opp, n_of).
  Qed.

  Lemma sampling_contact : forall f g0 g1 g2 g3 out, sound_acos lm ->
    (forall l h, double_line l -> f l = Some h -> double_vec (fst h)) ->
    envelop_sampling_with f g0 g1 g2 g3 r pose = (true, out) ->
    SFltb (S754_zero false) (o_depth out) = true /\
    (SFleb (o_depth out) (SFmul 53 1024 (f_of 2 0) (dradius (rb_disk r))) = true ->
     SpecDouble.is_finite (o_depth out) = true /\
     SpecDouble.is_finite (o_area out) = true /\ SFleb (S754_zero false) (o_area out) = true /\
     SpecDouble.is_finite (o_volume out) = true).
  Proof using Hr Hp.
    intros f g0 g1 g2 g3 out HA Hf. unfold envelop_sampling_with.
    destruct (sampling_lines r pose) as [[[l0 l1] l2] l3] eqn:EL.
    destruct (sampling_lines_double _ _ _ _ EL) as [D0 [D1 [D2 D3]]].
    unfold sample.
    destruct (f l0) as [[p0 f0]|] eqn:E0; [|cbn [andb]; discriminate].
    destruct (f l1) as [[p1 f1]|] eqn:E1; [|cbn [andb]; discriminate].
    destruct (f l2) as [[p2 f2]|] eqn:E2; [|cbn [andb]; discriminate].
    destruct (f l3) as [[p3 f3]|] eqn:E3; [|cbn [andb]; discriminate].
    pose proof (Hf _ _ D0 E0) as V0. pose proof (Hf _ _ D1 E1) as V1.
    pose proof (Hf _ _ D2 E2) as V2. pose proof (Hf _ _ D3 E3) as V3.
    cbn [fst] in V0, V1, V2, V3.
    cbv zeta. cbn [andb].
    match goal with |- (if nlt _ ?d then _ else _) = _ -> _ => set (dp := d) end.
    destruct (nlt (nofZ 0) dp) eqn:EP; [|discriminate].
    intros E; apply pair_inj in E; destruct E as [_ E]; subst out; cbn [o_depth o_area o_volume].
    change (nlt (nofZ 0) dp) with (SFltb (S754_zero false) dp) in EP.
    split; [exact EP|]. intros H2.
    apply contact_data; try assumption.
    - subst dp. pose proof center_double as CD. destruct Hp as [HM HT]. destruct Hr as [_ _ R1 _ _ _ _ _].
      assert (VN : double_vec (vnormalized (vcross (vsub p0 p1) (vsub p2 p3)))) by auto with dbl.
      assert (VY : double_vec (vnormalized (col1 (lin pose)))) by auto with dbl.
      apply n_sub; [apply n_mul; [exact R1|]; apply n_abs; apply v_dot; auto with dbl|].
      apply v_norm, v_sub; [|exact CD]. apply v_div; [apply n_of|]. auto with dbl.
    - revert EP. unfold SFltb, SFleb. destruct (SFcompare _ _) as [[]|]; congruence.
  Qed.

  Lemma line_plane_line_double : forall p q l tol, double_plane p -> double_plane q ->
    int_plane_plane p q tol = Some l -> double_line l.
  Proof.
    intros p q l tol [P1 P2] [Q1 Q2]. unfold int_plane_plane, plane_d. cbv zeta.
    destruct (is_approx _ _ _); [discriminate|]. intros E; apply some_inj in E; subst l.
    split; cbn [lorigin ldir]; auto 14 with dbl.
  Qed.

  Lemma line_disk_double : forall l d s tol, double_line l -> double_plane (dplane d) ->
    is_double (dradius d) ->
    int_line_disk l d tol = Some s -> double_vec (sv0 s) /\ double_vec (sv1 s).
  Proof.
    intros l d s tol [L1 L2] [D1 D2] R. unfold int_line_disk. cbv zeta.
    assert (C : double_vec (dcenter d)) by exact D1.
    destruct (nlt _ _); [discriminate|].
    destruct (nlt _ _); intros E; apply some_inj in E; subst s; cbn [sv0 sv1]; split; auto 14 with dbl.
  Qed.

  Lemma geometric_contact : forall ground out, sound_acos lm -> double_plane (fl_plane ground) ->
    envelop_geometric_flat r ground pose = (true, out) ->
    SFleb (S754_zero false) (o_depth out) = true ->
    SFleb (o_depth out) (dradius (rb_disk r)) = true /\
    SpecDouble.is_finite (o_depth out) = true /\
    SpecDouble.is_finite (o_area out) = true /\ SFleb (S754_zero false) (o_area out) = true /\
    SpecDouble.is_finite (o_volume out) = true.
  Proof using Hr Hp.
    intros ground out HA HG. unfold envelop_geometric_flat, int_plane_disk.
    pose proof center_double as CD.
    assert (ND : double_vec (normal_grd r pose)).
    { destruct Hr, Hp. unfold normal_grd, rb_normal. auto with dbl. }
    assert (PD : double_plane (dplane (disk_grd r pose))) by (split; assumption).
    destruct (int_plane_plane _ _ _) as [l|] eqn:EL; [|discriminate].
    destruct (int_line_disk _ _ _) as [s|] eqn:ES; [|discriminate].
    pose proof (line_plane_line_double _ _ _ _ HG PD EL) as LD.
    assert (RD : is_double (dradius (disk_grd r pose))) by apply Hr.
    destruct (line_disk_double _ _ _ _ LD PD RD ES) as [S0 S1].
    destruct (nlt _ _); [|discriminate]. intros E; apply pair_inj in E; destruct E as [_ E]; subst out; cbn [o_depth o_area o_volume]. intros H0.
    assert (VD : double_vec (vsub (seg_centroid s) (center_grd r pose)))
      by (apply v_sub; [unfold seg_centroid; auto with dbl|exact CD]).
    destruct (geometric_depth _ VD) as [G1 G2]. destruct (G2 H0) as [G3 G4].
    split; [exact G3|]. apply contact_data; assumption.
  Qed.
End Closure.

Lemma sampling_flat_doubles : forall lm gb (r : rib f64) (ground : flat f64) pose out,
  sound_acos lm -> sound_rib r -> double_pose pose -> double_plane (fl_plane ground) ->
  @envelop_flat f64 (F64_Num lm) gb r ground pose "sampling" = Ret (true, out) ->
  SFltb (S754_zero false) (o_depth out) = true /\
  (SFleb (o_depth out) (SFmul 53 1024 (f_of 2 0) (dradius (rb_disk r))) = true ->
   SpecDouble.is_finite (o_depth out) = true /\ SpecDouble.is_finite (o_area out) = true /\
   SFleb (S754_zero false) (o_area out) = true /\ SpecDouble.is_finite (o_volume out) = true).
Proof.
  intros lm [[[g0 g1] g2] g3] r ground pose out HA HR HP HG H.
  apply (sampling_contact lm r pose HR HP (@sampling_line_flat f64 (F64_Num lm) ground) g0 g1 g2 g3);
    [exact HA| |].
  - intros l h HL. unfold sampling_line_flat.
    destruct (int_line_plane _ _ _) as [p|] eqn:E; [|discriminate].
    intros E'. apply some_inj in E'. subst h. cbn [fst]. eapply line_plane_double; eassumption.
  - unfold envelop_flat in H. cbn [String.eqb Ascii.eqb Bool.eqb] in H.
    assert (X : forall (a b : bool * output f64), Ret a = Ret b -> a = b) by congruence.
    exact (X _ _ H).
Qed.

Lemma sampling_triangles_doubles : forall lm gb (r : rib f64) (ground : list (tground f64)) pose out,
  sound_acos lm -> sound_rib r -> double_pose pose ->
  Forall (fun g => double_triangle (tg_tri g)) ground ->
  @envelop f64 (F64_Num lm) gb r ground pose "sampling" = Ret (true, out) ->
  SFltb (S754_zero false) (o_depth out) = true /\
  (SFleb (o_depth out) (SFmul 53 1024 (f_of 2 0) (dradius (rb_disk r))) = true ->
   SpecDouble.is_finite (o_depth out) = true /\ SpecDouble.is_finite (o_area out) = true /\
   SFleb (S754_zero false) (o_area out) = true /\ SpecDouble.is_finite (o_volume out) = true).
Proof.
  intros lm [[[g0 g1] g2] g3] r ground pose out HA HR HP HG H.
  apply (sampling_contact lm r pose HR HP (@sampling_line f64 (F64_Num lm) ground) g0 g1 g2 g3);
    [exact HA| |].
  - intros l h HL E. eapply sampling_line_double; eassumption.
  - unfold envelop in H. cbn [String.eqb Ascii.eqb Bool.eqb] in H.
    assert (X : forall (a b : bool * output f64), Ret a = Ret b -> a = b) by congruence.
    exact (X _ _ H).
Qed.

Lemma geometric_flat_doubles : forall lm gb (r : rib f64) (ground : flat f64) pose out,
  sound_acos lm -> sound_rib r -> double_pose pose -> double_plane (fl_plane ground) ->
  @envelop_flat f64 (F64_Num lm) gb r ground pose "geometric" = Ret (true, out) ->
  SFleb (S754_zero false) (o_depth out) = true ->
  SFleb (o_depth out) (dradius (rb_disk r)) = true /\
  SpecDouble.is_finite (o_depth out) = true /\ SpecDouble.is_finite (o_area out) = true /\
  SFleb (S754_zero false) (o_area out) = true /\ SpecDouble.is_finite (o_volume out) = true.
Proof.
  intros lm [[[g0 g1] g2] g3] r ground pose out HA HR HP HG H.
  apply (geometric_contact lm r pose HR HP ground out HA HG).
  unfold envelop_flat in H. cbn [String.eqb Ascii.eqb Bool.eqb] in H.
  assert (X : forall (a b : bool * output f64), Ret a = Ret b -> a = b) by congruence.
  exact (X _ _ H).
Qed.
