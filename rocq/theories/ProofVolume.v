(** * Area and volume of a contact in double precision: proofs for C125. *)
From Coq Require Import ZArith Reals Lra Lia Psatz Bool String List Floats.SpecFloat.
From Flocq Require Import Core BinarySingleNaN.
From Verif Require Import Base Num Vec Aabb Geom Ground Shape Rib F64 SpecGeom SpecDouble ProofDouble ProofMean
  SpecPlaces ProofPlaces SpecVolume ProofSegArea.
Local Open Scope R_scope.

(** ** The arccosine and the root change by at most the root of the change. *)
Lemma sin_third : forall x, 0 <= x <= PI / 2 -> x / 3 <= sin x.
Proof.
  intros x [H0 H1]. pose proof PI_4. pose proof PI_RGT_0.
  destruct (pre_sin_bound x 0 H0 ltac:(lra)) as [L _].
  unfold sin_approx, sin_term in L. cbn [sum_f_R0 Nat.mul Nat.add fact pow INR] in L.
  assert (E : x - x * x * x / 6 <= sin x) by (cbn in L; lra).
  assert (x * x <= 4) by nra. nra.
Qed.

Lemma acos_near : forall a b e, -1 <= a <= 1 -> -1 <= b <= 1 -> 0 <= e -> 18 * Rabs (a - b) <= e * e ->
  Rabs (acos a - acos b) <= e.
Proof.
  assert (W : forall a b e, -1 <= a <= 1 -> -1 <= b <= 1 -> 0 <= e -> 18 * Rabs (a - b) <= e * e ->
    acos b <= acos a -> acos a - acos b <= e).
  { intros a b e Ha Hb He H O.
    pose proof (acos_bound a) as A. pose proof (acos_bound b) as B.
    set (t := acos a) in *. set (p := acos b) in *.
    assert (Ca : cos t = a) by (apply cos_acos; exact Ha).
    assert (Cb : cos p = b) by (apply cos_acos; exact Hb).
    assert (F : b - a = 2 * sin ((t - p) / 2) * sin ((t + p) / 2)).
    { rewrite <- Ca, <- Cb. rewrite form2.
      replace ((p - t) / 2) with (- ((t - p) / 2)) by field. rewrite sin_neg.
      replace ((p + t) / 2) with ((t + p) / 2) by field. ring. }
    set (h := (t - p) / 2) in *.
    assert (Hh : 0 <= h <= PI / 2) by (unfold h; lra).
    assert (S1 : h / 3 <= sin h) by now apply sin_third.
    assert (S2 : sin h <= sin ((t + p) / 2)).
    { destruct (Rle_dec ((t + p) / 2) (PI / 2)) as [G|G].
      - apply sin_incr_1; unfold h in *; lra.
      - rewrite <- (sin_PI_x ((t + p) / 2)). apply sin_incr_1; unfold h in *; lra. }
    assert (Q : 2 * (h / 3) * (h / 3) <= b - a).
    { rewrite F. assert (0 <= h / 3) by lra.
      assert (h / 3 * (h / 3) <= sin h * sin ((t + p) / 2)) by (apply Rmult_le_compat; lra). lra. }
    assert (b - a <= Rabs (a - b)) by (rewrite Rabs_minus_sym; apply Rle_abs).
    replace (t - p) with (2 * h) by (unfold h; field).
    apply Rnot_lt_le. intros L. assert (e * e < 2 * h * (2 * h)) by (apply Rmult_le_0_lt_compat; lra). lra. }
  intros a b e Ha Hb He H. destruct (Rle_dec (acos b) (acos a)) as [O|O].
  - rewrite Rabs_right by lra. now apply W.
  - rewrite Rabs_minus_sym, Rabs_right by lra. apply W; try assumption; [|lra]. now rewrite Rabs_minus_sym.
Qed.

Lemma sqrt_near : forall a b e, 0 <= a -> 0 <= b -> 0 <= e -> Rabs (a - b) <= e * e ->
  Rabs (sqrt a - sqrt b) <= e.
Proof.
  assert (W : forall a b e, 0 <= a -> 0 <= b -> 0 <= e -> Rabs (a - b) <= e * e -> sqrt a - sqrt b <= e).
  { intros a b e Ha Hb He H. pose proof (Rle_abs (a - b)). pose proof (sqrt_pos b) as P.
    pose proof (sqrt_sqrt b Hb) as S. apply Rplus_le_reg_r with (sqrt b).
    replace (sqrt a - sqrt b + sqrt b) with (sqrt a) by ring.
    rewrite <- (sqrt_square (e + sqrt b)) by lra. apply sqrt_le_1; nra. }
  intros a b e Ha Hb He H. apply Rabs_le. split.
  - pose proof (W b a e Hb Ha He) as X. rewrite Rabs_minus_sym in H. specialize (X H). lra.
  - now apply W.
Qed.

(** ** Errors of products. *)
Lemma prod_err : forall x y x0 y0 X Y ex ey, Rabs x <= X -> Rabs y0 <= Y ->
  Rabs (x - x0) <= ex -> Rabs (y - y0) <= ey -> Rabs (x * y - x0 * y0) <= X * ey + ex * Y.
Proof.
  intros x y x0 y0 X Y ex ey H1 H2 H3 H4.
  replace (x * y - x0 * y0) with (x * (y - y0) + (x - x0) * y0) by ring.
  eapply Rle_trans; [apply Rabs_triang|]. rewrite !Rabs_mult.
  apply Rplus_le_compat; apply Rmult_le_compat; auto using Rabs_pos.
Qed.

Lemma abs_prod : forall x y X Y, Rabs x <= X -> Rabs y <= Y -> Rabs (x * y) <= X * Y.
Proof. intros. rewrite Rabs_mult. apply Rmult_le_compat; auto using Rabs_pos. Qed.

Lemma abs_near : forall x y e Y, Rabs (x - y) <= e -> Rabs y <= Y -> Rabs x <= Y + e.
Proof.
  intros x y e Y H1 H2. replace x with (y + (x - y)) by ring.
  eapply Rle_trans; [apply Rabs_triang|]. lra.
Qed.

Lemma abs_trans : forall x y z e f, Rabs (x - y) <= e -> Rabs (y - z) <= f -> Rabs (x - z) <= e + f.
Proof.
  intros x y z e f H1 H2. replace (x - z) with ((x - y) + (y - z)) by ring.
  eapply Rle_trans; [apply Rabs_triang|]. lra.
Qed.

Notation eta := (bpow radix2 (-1075)).

(** Rounding a number of size [X]. *)
Lemma rnd_near : forall x X, Rabs x <= X -> Rabs (rnd x - x) <= u * X + eta.
Proof.
  intros x X H. eapply Rle_trans; [apply rnd_err|]. apply Rplus_le_compat_r.
  apply Rmult_le_compat_l; [apply bpow_ge_0|exact H].
Qed.

(** ** The formulas. *)
Section Slice.
  Variable lm : libm.
  Variables r d w : f64.
  Hypothesis Hr : ok r.
  Hypothesis HrL : bpow radix2 (-300) <= rv r.
  Hypothesis Hr1 : rv r <= bpow radix2 300.
  Hypothesis Hd : ok d.
  Hypothesis Hd0 : 0 <= rv d.
  Hypothesis Hd1 : rv d <= 2 * rv r.
  Hypothesis Hw : ok w.
  Hypothesis HwL : bpow radix2 (-300) <= rv w.
  Hypothesis Hw1 : rv w <= bpow radix2 300.

  Let R0 := rv r.
  Let D := rv d.
  Let W := rv w.
  Let dv := SFsub fprec femax r d.
  Let cv := SFdiv fprec femax dv r.
  Let tv := SFsub fprec femax (SFmul fprec femax (f_of 2 0) r) d.
  Let pv := SFmul fprec femax d tv.
  Let qv := SFsqrt fprec femax pv.

  Lemma r_pos : 0 < R0.
  Proof using HrL. unfold R0. pose proof (bpow_gt_0 radix2 (-300)). lra. Qed.
  Lemma w_pos : 0 < W.
  Proof using HwL. unfold W. pose proof (bpow_gt_0 radix2 (-300)). lra. Qed.

  (** What is lost by underflow is far below what is lost by rounding. *)
  Lemma eta_small : eta <= u * R0 /\ eta <= u * (R0 * R0) /\ eta <= u * (R0 * W) /\ eta <= u * (R0 * R0 * W).
  Proof using HrL HwL.
    pose proof (bpow_gt_0 radix2 (-300)) as P. pose proof (bpow_gt_0 radix2 (-53)) as U.
    assert (B2 : bpow radix2 (-600) <= R0 * R0).
    { change (-600)%Z with (-300 + -300)%Z. rewrite bpow_plus. apply Rmult_le_compat; unfold R0; lra. }
    assert (B3 : bpow radix2 (-600) <= R0 * W).
    { change (-600)%Z with (-300 + -300)%Z. rewrite bpow_plus. apply Rmult_le_compat; unfold R0, W; lra. }
    assert (B4 : bpow radix2 (-900) <= R0 * R0 * W).
    { change (-900)%Z with (-600 + -300)%Z. rewrite bpow_plus. apply Rmult_le_compat; try (apply bpow_ge_0); [exact B2|exact HwL]. }
    assert (G : forall e x, (-1022 <= e)%Z -> bpow radix2 e <= x -> eta <= u * x).
    { intros e x He Hx. apply Rle_trans with (u * bpow radix2 e).
      - rewrite <- bpow_plus. apply bpow_le. lia.
      - apply Rmult_le_compat_l; lra. }
    repeat split; eapply G; try eassumption; lia.
  Qed.

  Lemma lever_near : ok dv /\ Rabs (rv dv) <= R0 /\ Rabs (rv dv - (R0 - D)) <= 2 * u * R0.
  Proof using Hr HrL Hr1 Hd Hd0 Hd1.
    pose proof r_pos as RP. destruct (lever r d Hr RP Hr1 Hd Hd0 Hd1) as [L1 L2].
    split; [exact L1|]. split; [exact L2|].
    destruct (op_sub r d Hr Hd 300) as [_ S]; [lia| |].
    { apply Rabs_le. unfold R0 in *. lra. }
    fold dv in S. rewrite S. eapply Rle_trans; [apply (rnd_near _ R0)|].
    { apply Rabs_le. unfold R0, D. lra. }
    assert (E : eta <= u * R0).
    { apply Rle_trans with (u * bpow radix2 (-300)); [rewrite <- bpow_plus; apply bpow_le; lia|].
      apply Rmult_le_compat_l; [apply bpow_ge_0|exact HrL]. }
    lra.
  Qed.

  Lemma ratio_near : ok cv /\ -1 <= rv cv <= 1 /\ Rabs (rv cv - (R0 - D) / R0) <= 4 * u.
  Proof using Hr HrL Hr1 Hd Hd0 Hd1.
    pose proof r_pos as RP. destruct (ratio r d Hr RP Hr1 Hd Hd0 Hd1) as [Q1 Q2].
    destruct lever_near as [L1 [L2 L3]].
    split; [exact Q1|]. split; [exact Q2|].
    assert (B : Rabs (rv dv / R0) <= 1).
    { unfold Rdiv. rewrite Rabs_mult, Rabs_inv, (Rabs_right R0) by lra.
      apply Rmult_le_reg_r with R0; [lra|]. rewrite Rmult_assoc, Rinv_l by lra. lra. }
    destruct (op_div dv r L1 Hr 0) as [_ V]; [lia|unfold R0 in *; lra|exact B|].
    fold cv in V. change (rv r) with R0 in V. rewrite V.
    replace (4 * u) with ((u * 1 + u) + 2 * u) by ring. apply abs_trans with (rv dv / R0).
    - eapply Rle_trans; [apply (rnd_near _ 1 B)|]. apply Rplus_le_compat_l. apply bpow_le. lia.
    - replace (rv dv / R0 - (R0 - D) / R0) with ((rv dv - (R0 - D)) / R0) by (field; lra).
      unfold Rdiv. rewrite Rabs_mult, Rabs_inv, (Rabs_right R0) by lra.
      apply Rmult_le_reg_r with R0; [lra|]. rewrite Rmult_assoc, Rinv_l by lra. lra.
  Qed.

  Lemma root_near : ok qv /\ 0 <= rv qv /\ rv qv <= 3 * R0 /\
    Rabs (rv qv - sqrt (D * (2 * R0 - D))) <= / 2 ^ 24 * R0 + 4 * u * R0.
  Proof using Hr HrL Hr1 Hd Hd0 Hd1.
    pose proof r_pos as RP.
    destruct (chord r d Hr RP Hr1 Hd Hd0 Hd1) as [C1 [C2 [C3 _]]].
    fold tv in C1, C2, C3. fold pv in C1, C2, C3. fold qv in C2, C3.
    destruct (diameter r Hr RP Hr1) as [D1 D2].
    assert (U0 : 0 < u) by apply bpow_gt_0.
    assert (U1 : u <= / 9007199254740992) by (change u with (/ IZR (Zpower_pos 2 53)); apply Rle_refl).
    assert (E1 : eta <= u * R0).
    { apply Rle_trans with (u * bpow radix2 (-300)); [rewrite <- bpow_plus; apply bpow_le; lia|].
      apply Rmult_le_compat_l; [lra|exact HrL]. }
    assert (UP : 0 < u * R0) by (now apply Rmult_lt_0_compat).
    assert (E2 : eta <= u * (R0 * R0)).
    { apply Rle_trans with (u * (bpow radix2 (-300) * bpow radix2 (-300))).
      - rewrite <- !bpow_plus. apply bpow_le. lia.
      - apply Rmult_le_compat_l; [lra|]. apply Rmult_le_compat; try apply bpow_ge_0; exact HrL. }
    assert (B301 : bpow radix2 301 = 2 * bpow radix2 300) by (change 301%Z with (1 + 300)%Z; now rewrite bpow_plus).
    destruct (op_sub (SFmul fprec femax (f_of 2 0) r) d D1 Hd 301) as [T1 T2]; [lia| |].
    { rewrite D2, B301. apply Rabs_le. unfold R0, D in *. lra. }
    fold tv in T1, T2. rewrite D2 in T2. change (rv r) with R0 in T2. change (rv d) with D in T2.
    assert (D0 : 0 <= D <= 2 * R0) by (unfold D, R0; lra).
    assert (T3 : 0 <= rv tv) by (rewrite T2; apply rnd_pos; lra).
    assert (T4 : rv tv <= 2 * R0).
    { rewrite T2. apply Rle_trans with (rnd (2 * R0)); [apply rnd_le; lra|].
      unfold R0. rewrite <- D2. rewrite rnd_rv by exact D1. lra. }
    assert (T5 : Rabs (rv tv - (2 * R0 - D)) <= 3 * u * R0).
    { rewrite T2. eapply Rle_trans; [apply (rnd_near _ (2 * R0))|lra]. apply Rabs_le. lra. }
    assert (P0 : Rabs (D * rv tv) <= 2 * R0 * (2 * R0)).
    { apply abs_prod; rewrite Rabs_right; lra. }
    destruct (op_mul d tv Hd T1 602) as [_ P2]; [lia| |].
    { change (rv d) with D. eapply Rle_trans; [exact P0|].
      change 602%Z with (301 + 301)%Z. rewrite bpow_plus, B301. apply Rmult_le_compat; unfold R0; lra. }
    fold pv in P2. change (rv d) with D in P2.
    assert (P3 : Rabs (rv pv - D * rv tv) <= 5 * u * (R0 * R0)).
    { rewrite P2. eapply Rle_trans; [apply (rnd_near _ _ P0)|].
      replace (u * (2 * R0 * (2 * R0))) with (4 * u * (R0 * R0)) by ring. lra. }
    assert (P4 : Rabs (D * rv tv - D * (2 * R0 - D)) <= 2 * R0 * (3 * u * R0) + 0 * (2 * R0)).
    { apply prod_err; [rewrite Rabs_right; lra|rewrite Rabs_right; lra| |exact T5]. rewrite Rminus_diag_eq by reflexivity. rewrite Rabs_R0. lra. }
    assert (P5 : Rabs (rv pv - D * (2 * R0 - D)) <= (/ 2 ^ 24 * R0) * (/ 2 ^ 24 * R0)).
    { eapply Rle_trans; [exact (abs_trans _ _ _ _ _ P3 P4)|].
      replace (5 * u * (R0 * R0) + (2 * R0 * (3 * u * R0) + 0 * (2 * R0))) with (11 * u * (R0 * R0)) by ring.
      replace (/ 2 ^ 24 * R0 * (/ 2 ^ 24 * R0)) with (/ 2 ^ 24 * / 2 ^ 24 * (R0 * R0)) by ring.
      apply Rmult_le_compat_r; [apply Rmult_le_pos; lra|]. lra. }
    assert (P6 : 0 <= rv pv) by (rewrite P2; apply rnd_pos; apply Rmult_le_pos; lra).
    assert (P7 : 0 <= D * (2 * R0 - D)) by (apply Rmult_le_pos; lra).
    assert (Q1 : Rabs (sqrt (rv pv) - sqrt (D * (2 * R0 - D))) <= / 2 ^ 24 * R0).
    { apply sqrt_near; try assumption. lra. }
    assert (Q2 : sqrt (D * (2 * R0 - D)) <= R0).
    { apply Rle_trans with (sqrt (R0 * R0)); [|rewrite sqrt_square by lra; lra].
      apply sqrt_le_1; [exact P7|apply Rmult_le_pos; lra|]. pose proof (Rle_0_sqr (R0 - D)) as Y. unfold Rsqr in Y. lra. }
    pose proof (sqrt_pos (D * (2 * R0 - D))) as Q3. pose proof (sqrt_pos (rv pv)) as Q4.
    pose proof (Rabs_def2b _ _ Q1) as Q5.
    destruct (op_sqrt pv C1 P6) as [_ S]. fold qv in S.
    assert (Q6 : Rabs (sqrt (rv pv)) <= 2 * R0) by (rewrite Rabs_right; lra).
    pose proof (rnd_near _ _ Q6) as Q7. rewrite <- S in Q7.
    assert (Q8 : Rabs (rv qv - sqrt (D * (2 * R0 - D))) <= / 2 ^ 24 * R0 + 4 * u * R0).
    { eapply Rle_trans; [exact (abs_trans _ _ _ _ _ Q7 Q1)|]. lra. }
    split; [exact C2|]. split; [exact C3|]. split; [|exact Q8].
    apply Rabs_def2b in Q8. pose proof (Rmult_le_compat_r R0 _ _ (Rlt_le _ _ RP) U1). lra.
  Qed.

  (** The area. *)
  Lemma area_near : let a := @seg_area f64 (F64_Num lm) r d w in
    Rabs (rv a - slice_area R0 W D) <= / 2 ^ 22 * (R0 * W).
  Proof using Hr HrL Hr1 Hd Hd0 Hd1 Hw HwL Hw1.
    cbv zeta. unfold seg_area. cbn [nmul nsub nsqrt nofZ F64_Num].
    pose proof r_pos as RP. pose proof w_pos as WP. destruct root_near as [Q1 [Q2 [Q3 Q4]]].
    destruct eta_small as [E1 [_ [E3 _]]].
    fold tv. fold pv. fold qv.
    assert (U0 : 0 < u) by apply bpow_gt_0.
    assert (U1 : u <= / 9007199254740992) by (change u with (/ IZR (Zpower_pos 2 53)); apply Rle_refl).
    destruct f_two as [T1 T2].
    assert (B302 : bpow radix2 302 = 4 * bpow radix2 300) by (change 302%Z with (2 + 300)%Z; now rewrite bpow_plus).
    assert (Q5 : Rabs (2 * rv qv) <= 6 * R0) by (rewrite Rabs_right; lra).
    destruct (op_mul (f_of 2 0) qv T1 Q1 303) as [M1 M2]; [lia| |].
    { rewrite T2. eapply Rle_trans; [exact Q5|]. change 303%Z with (1 + 302)%Z. rewrite bpow_plus, B302.
      change (bpow radix2 1) with 2. unfold R0. lra. }
    rewrite T2 in M2. set (m := SFmul fprec femax (f_of 2 0) qv) in *.
    pose proof (rnd_near _ _ Q5) as M3. rewrite <- M2 in M3.
    pose proof (Rmult_le_compat_r R0 _ _ (Rlt_le _ _ RP) U1) as UR.
    assert (UP : 0 < u * R0) by (now apply Rmult_lt_0_compat).
    assert (M4 : Rabs (rv m) <= 7 * R0) by (eapply Rle_trans; [exact (abs_near _ _ _ _ M3 Q5)|lra]).
    assert (M5 : Rabs (2 * rv qv - 2 * sqrt (D * (2 * R0 - D))) <= 2 * (/ 2 ^ 24 * R0 + 4 * u * R0)).
    { rewrite <- Rmult_minus_distr_l, Rabs_mult, (Rabs_right 2) by lra. lra. }
    pose proof (abs_trans _ _ _ _ _ M3 M5) as M6.
    assert (N0 : Rabs (rv m * W) <= 7 * R0 * W).
    { apply abs_prod; [exact M4|rewrite Rabs_right; lra]. }
    destruct (op_mul m w M1 Hw 604) as [_ N1]; [lia| |].
    { change (rv w) with W. eapply Rle_trans; [exact N0|].
      apply Rle_trans with (8 * bpow radix2 300 * bpow radix2 300).
      - apply Rmult_le_compat; unfold W, R0 in *; lra.
      - change 604%Z with (4 + 300 + 300)%Z. rewrite !bpow_plus. change (bpow radix2 4) with 16.
        pose proof (bpow_gt_0 radix2 300) as P. apply Rmult_le_compat_r; lra. }
    change (rv w) with W in N1. rewrite N1.
    pose proof (rnd_near _ _ N0) as N2.
    assert (N3 : Rabs (rv m * W - 2 * sqrt (D * (2 * R0 - D)) * W) <= (u * (6 * R0) + eta + 2 * (/ 2 ^ 24 * R0 + 4 * u * R0)) * W).
    { rewrite <- Rmult_minus_distr_r, Rabs_mult, (Rabs_right W) by lra. apply Rmult_le_compat_r; lra. }
    unfold slice_area, SpecGeom.chord. replace (R0 * R0 - (R0 - D) * (R0 - D)) with (D * (2 * R0 - D)) by ring.
    eapply Rle_trans; [exact (abs_trans _ _ _ _ _ N2 N3)|].
    assert (E4 : eta * W <= u * R0 * W) by (apply Rmult_le_compat_r; lra).
    assert (RW : 0 < R0 * W) by (now apply Rmult_lt_0_compat).
    pose proof (Rmult_le_compat_r (R0 * W) _ _ (Rlt_le _ _ RW) U1) as UW.
    set (x := R0 * W) in *. assert (VP : 0 < u * x) by (now apply Rmult_lt_0_compat).
    replace (u * (7 * R0 * W) + eta + (u * (6 * R0) + eta + 2 * (/ 2 ^ 24 * R0 + 4 * u * R0)) * W)
      with (21 * (u * x) + eta + eta * W + 2 * / 2 ^ 24 * x) by (unfold x; ring).
    assert (E5 : eta * W <= u * x) by (unfold x; lra). lra.
  Qed.

  (** The volume. *)
  Lemma volume_near_slice : near_acos lm -> let v := @seg_volume f64 (F64_Num lm) r d w in
    ok v /\ Rabs (rv v - slice_volume R0 W D) <= / 2 ^ 22 * (R0 * R0 * W).
  Proof using Hr HrL Hr1 Hd Hd0 Hd1 Hw HwL Hw1.
    intros HA. cbv zeta. unfold seg_volume. cbn [nmul nsub nsqrt ndiv nacos nofZ F64_Num].
    pose proof r_pos as RP. pose proof w_pos as WP. destruct root_near as [Q1 [Q2 [Q3 Q4]]].
    destruct lever_near as [L1 [L2 L3]]. destruct ratio_near as [C1 [C2 C3]].
    destruct eta_small as [E1 [E2 [_ E4]]].
    fold tv. fold pv. fold qv. fold dv. fold cv.
    assert (U0 : 0 < u) by apply bpow_gt_0.
    assert (U1 : u <= / 9007199254740992) by (change u with (/ IZR (Zpower_pos 2 53)); apply Rle_refl).
    destruct f_mone as [Z1 Z2]. destruct (f_pow 0 ltac:(lia)) as [O1 O2]. change (bpow radix2 0) with 1 in O2.
    destruct (HA cv) as [A1 [A2 A3]].
    { apply C1. }
    { apply leb_rv; [exact Z1|exact C1|lra]. }
    { apply leb_rv; [exact C1|exact O1|lra]. }
    rewrite !value_rv in A3. set (ac := lm_acos lm cv) in *.
    assert (AO : ok ac) by (split; assumption).
    set (c0 := (R0 - D) / R0) in *.
    assert (D0 : 0 <= D <= 2 * R0) by (unfold D, R0; lra).
    assert (C4 : -1 <= c0 <= 1) by (now apply ratio_bound).
    assert (A4 : Rabs (acos (rv cv) - acos c0) <= / 2 ^ 23).
    { apply acos_near; try assumption; [lra|]. lra. }
    pose proof (abs_trans _ _ _ _ _ A3 A4) as A5.
    pose proof (acos_bound c0) as A6. pose proof PI_4 as PI4.
    assert (A7 : Rabs (acos c0) <= 4) by (rewrite Rabs_right; lra).
    assert (A8 : Rabs (rv ac) <= 5) by (eapply Rle_trans; [exact (abs_near _ _ _ _ A5 A7)|lra]).
    set (x := R0 * R0) in *.
    assert (XP : 0 < x) by (now apply Rmult_lt_0_compat).
    pose proof (Rmult_le_compat_r x _ _ (Rlt_le _ _ XP) U1) as UX.
    assert (VP : 0 < u * x) by (now apply Rmult_lt_0_compat).
    assert (BX : x <= bpow radix2 600).
    { change 600%Z with (300 + 300)%Z. rewrite bpow_plus. apply Rmult_le_compat; unfold R0 in *; lra. }
    (* the square *)
    assert (M0 : Rabs (rv r * rv r) <= x) by (change (rv r) with R0; fold x; rewrite Rabs_right; lra).
    destruct (op_mul r r Hr Hr 600) as [M1 M2]; [lia|lra|].
    change (rv r * rv r) with x in M0, M2. set (m := SFmul fprec femax r r) in *.
    pose proof (rnd_near _ _ M0) as M3. rewrite <- M2 in M3.
    assert (M4 : Rabs (rv m) <= 9 / 8 * x) by (eapply Rle_trans; [exact (abs_near _ _ _ _ M3 M0)|lra]).
    (* times the angle *)
    assert (N0 : Rabs (rv m * rv ac) <= 9 / 8 * x * 5) by (now apply abs_prod).
    destruct (op_mul m ac M1 AO 604) as [N1 N2]; [lia| |].
    { change 604%Z with (4 + 600)%Z. rewrite bpow_plus. change (bpow radix2 4) with 16. lra. }
    set (n := SFmul fprec femax m ac) in *.
    pose proof (rnd_near _ _ N0) as N3. rewrite <- N2 in N3.
    pose proof (prod_err _ _ _ _ _ _ _ _ M4 A7 M3 A5) as N4.
    pose proof (abs_trans _ _ _ _ _ N3 N4) as N5.
    (* the triangle *)
    assert (Q5 : Rabs (rv qv) <= 3 * R0) by (rewrite Rabs_right; lra).
    assert (P0 : Rabs (rv dv * rv qv) <= R0 * (3 * R0)) by (now apply abs_prod).
    replace (R0 * (3 * R0)) with (3 * x) in P0 by (unfold x; ring).
    destruct (op_mul dv qv L1 Q1 602) as [P1 P2]; [lia| |].
    { change 602%Z with (2 + 600)%Z. rewrite bpow_plus. change (bpow radix2 2) with 4. lra. }
    set (t := SFmul fprec femax dv qv) in *.
    pose proof (rnd_near _ _ P0) as P3. rewrite <- P2 in P3.
    assert (Q6 : Rabs (sqrt (D * (2 * R0 - D))) <= R0).
    { rewrite Rabs_right by (apply Rle_ge, sqrt_pos). apply Rle_trans with (sqrt (R0 * R0)); [|rewrite sqrt_square by lra; lra].
      apply sqrt_le_1; [apply Rmult_le_pos; lra|apply Rmult_le_pos; lra|]. pose proof (Rle_0_sqr (R0 - D)) as Y. unfold Rsqr in Y. lra. }
    pose proof (prod_err _ _ _ _ _ _ _ _ L2 Q6 L3 Q4) as P4.
    replace (R0 * (/ 2 ^ 24 * R0 + 4 * u * R0) + 2 * u * R0 * R0) with (/ 2 ^ 24 * x + 6 * (u * x)) in P4 by (unfold x; ring).
    pose proof (abs_trans _ _ _ _ _ P3 P4) as P5.
    (* the difference *)
    assert (N6 : Rabs (rv n) <= 11 * x) by (eapply Rle_trans; [exact (abs_near _ _ _ _ N3 N0)|lra]).
    assert (P6 : Rabs (rv t) <= 4 * x) by (eapply Rle_trans; [exact (abs_near _ _ _ _ P3 P0)|lra]).
    assert (Z0 : Rabs (rv n - rv t) <= 15 * x).
    { unfold Rminus. eapply Rle_trans; [apply Rabs_triang|]. rewrite Rabs_Ropp. lra. }
    destruct (op_sub n t N1 P1 604) as [Y1 Y2]; [lia| |].
    { change 604%Z with (4 + 600)%Z. rewrite bpow_plus. change (bpow radix2 4) with 16. lra. }
    set (z := SFsub fprec femax n t) in *.
    pose proof (rnd_near _ _ Z0) as Y3. rewrite <- Y2 in Y3.
    set (z0 := x * acos c0 - (R0 - D) * sqrt (D * (2 * R0 - D))).
    assert (Y4 : Rabs (rv n - rv t - z0) <= (u * (9 / 8 * x * 5) + eta + (9 / 8 * x * (/ 2 ^ 50 + / 2 ^ 23) + (u * x + eta) * 4))
                                     + (u * (3 * x) + eta + (/ 2 ^ 24 * x + 6 * (u * x)))).
    { unfold z0. replace (rv n - rv t - (x * acos c0 - (R0 - D) * sqrt (D * (2 * R0 - D))))
        with ((rv n - x * acos c0) + - (rv t - (R0 - D) * sqrt (D * (2 * R0 - D)))) by ring.
      eapply Rle_trans; [apply Rabs_triang|]. rewrite Rabs_Ropp. lra. }
    pose proof (abs_trans _ _ _ _ _ Y3 Y4) as Y5.
    assert (Y6 : Rabs (rv z - z0) <= 7 / 4 * / 2 ^ 23 * x) by lra.
    assert (Y7 : Rabs (rv z) <= 16 * x) by (eapply Rle_trans; [exact (abs_near _ _ _ _ Y3 Z0)|lra]).
    (* times the width *)
    assert (V0 : Rabs (rv z * W) <= 16 * x * W) by (apply abs_prod; [exact Y7|rewrite Rabs_right; lra]).
    destruct (op_mul z w Y1 Hw 904) as [V1 V2]; [lia| |].
    { change (rv w) with W. eapply Rle_trans; [exact V0|].
      change 904%Z with (4 + 600 + 300)%Z. rewrite !bpow_plus. change (bpow radix2 4) with 16.
      apply Rmult_le_compat; unfold W in *; lra. }
    change (rv w) with W in V2. split; [exact V1|]. rewrite V2.
    pose proof (rnd_near _ _ V0) as V3.
    assert (V4 : Rabs (rv z * W - z0 * W) <= 7 / 4 * / 2 ^ 23 * x * W).
    { rewrite <- Rmult_minus_distr_r, Rabs_mult, (Rabs_right W) by lra. apply Rmult_le_compat_r; lra. }
    assert (XW : 0 < x * W) by (now apply Rmult_lt_0_compat).
    pose proof (Rmult_le_compat_r (x * W) _ _ (Rlt_le _ _ XW) U1) as UXW.
    unfold slice_volume. fold c0. change (R0 * R0) with x. fold z0.
    eapply Rle_trans; [exact (abs_trans _ _ _ _ _ V3 V4)|].
    replace (u * (16 * x * W)) with (16 * (u * (x * W))) by ring.
    replace (7 / 4 * / 2 ^ 23 * x * W) with (7 / 4 * / 2 ^ 23 * (x * W)) by ring. lra.
  Qed.
End Slice.

(** ** Ribs. *)
Lemma contact_slice : forall lm (r : rib f64) p n f dp, near_acos lm -> thick_rib r -> is_double dp ->
  SFleb (S754_zero false) dp = true ->
  SFleb dp (SFmul 53 1024 (f_of 2 0) (dradius (rb_disk r))) = true ->
  near_slice r (Output p n f dp (@seg_area f64 (F64_Num lm) (rb_radius r) dp (rb_width r))
                               (@seg_volume f64 (F64_Num lm) (rb_radius r) dp (rb_width r))).
Proof.
  intros lm r p n f dp HA [[_ _ R1 R2 R3 W1 W2 W3] [R4 W4]] Hd H0 H1.
  destruct ok_zero as [K1 K2].
  destruct (sound_width_ok (dradius (rb_disk r)) (conj R1 (conj R4 R3))) as [Rok [R5 R6]].
  destruct (sound_width_ok (rb_width r) (conj W1 (conj W4 W3))) as [Wok [W5 W6]].
  assert (RP : 0 < rv (dradius (rb_disk r))) by (pose proof (bpow_gt_0 radix2 (-300)); lra).
  assert (WP : 0 < rv (rb_width r)) by (pose proof (bpow_gt_0 radix2 (-300)); lra).
  destruct (diameter (dradius (rb_disk r)) Rok RP R6) as [D1 D2]. unfold fprec, femax in D1, D2.
  assert (Dok : ok dp) by exact (ok_between dp _ _ Hd K1 D1 H0 H1).
  apply leb_rv in H0; [|assumption..]. apply leb_rv in H1; [|assumption..].
  rewrite K2 in H0. rewrite D2 in H1.
  unfold near_slice. cbn [o_depth o_area o_volume]. rewrite !value_rv.
  pose proof (area_near lm (rb_radius r) dp (rb_width r) Rok R5 R6 Dok H0 H1 Wok W5 W6) as A.
  destruct (volume_near_slice lm (rb_radius r) dp (rb_width r) Rok R5 R6 Dok H0 H1 Wok W5 W6 HA) as [_ V].
  split; [exact A|]. split; [exact V|].
  pose proof (rvol_bounds (rv (dradius (rb_disk r))) (rv (rb_width r)) (rv dp) RP (Rlt_le _ _ WP) (conj H0 H1)) as [B _].
  apply Rabs_def2b in V. unfold rb_radius in *. unfold slice_volume in V. unfold rvol in B. lra.
Qed.

Section Methods.
  Variable lm : libm.
  #[local] Instance N : Num f64 := F64_Num lm.
  Variable r : rib f64.
  Variable pose : affine f64.
  Hypothesis HR : thick_rib r.
  Hypothesis Hp : double_pose pose.
  Hypothesis HA : near_acos lm.

  Lemma sampling_slice : forall f g0 g1 g2 g3 out,
    (forall l h, double_line l -> f l = Some h -> double_vec (fst h)) ->
    envelop_sampling_with f g0 g1 g2 g3 r pose = (true, out) ->
    SFleb (o_depth out) (SFmul 53 1024 (f_of 2 0) (dradius (rb_disk r))) = true ->
    near_slice r out.
  Proof using HR Hp HA.
    intros f g0 g1 g2 g3 out Hf. destruct HR as [Hr _]. unfold envelop_sampling_with.
    destruct (sampling_lines r pose) as [[[l0 l1] l2] l3] eqn:EL.
    destruct (sampling_lines_double lm r pose Hr Hp _ _ _ _ EL) as [D0 [D1 [D2 D3]]].
    unfold sample.
    destruct (f l0) as [[p0 f0]|] eqn:E0; [|cbn [andb]; discriminate].
    destruct (f l1) as [[p1 f1]|] eqn:E1; [|cbn [andb]; discriminate].
    destruct (f l2) as [[p2 f2]|] eqn:E2; [|cbn [andb]; discriminate].
    destruct (f l3) as [[p3 f3]|] eqn:E3; [|cbn [andb]; discriminate].
    pose proof (Hf _ _ D0 E0) as V0. pose proof (Hf _ _ D1 E1) as V1.
    pose proof (Hf _ _ D2 E2) as V2. pose proof (Hf _ _ D3 E3) as V3.
    cbn [fst] in V0, V1, V2, V3.
    cbv zeta. cbn [andb].
    match goal with |- (if nlt _ ?d then _ else _) = _ -> _ => set (dp := d) end.
    destruct (nlt (nofZ 0) dp) eqn:EP; [|discriminate].
    intros E; apply pair_inj in E; destruct E as [_ E]; subst out; cbn [o_depth].
    change (nlt (nofZ 0) dp) with (SFltb (S754_zero false) dp) in EP.
    intros H2. apply contact_slice; try assumption.
    - subst dp. pose proof (center_double lm r pose Hr Hp) as CD. destruct Hp as [HM HT]. destruct Hr as [_ _ R1 _ _ _ _ _].
      assert (VN : double_vec (vnormalized (vcross (vsub p0 p1) (vsub p2 p3)))) by (apply v_normalized, v_cross; apply v_sub; assumption).
      assert (VY : double_vec (vnormalized (col1 (lin pose)))) by (apply v_normalized, v_col1; assumption).
      apply n_sub; [apply n_mul; [exact R1|]; apply n_abs; apply v_dot; [exact VN|apply v_normalized, v_cross; [exact VY|apply v_normalized, v_cross; assumption]]|].
      apply v_norm, v_sub; [|exact CD]. apply v_div; [apply n_of|]. repeat apply v_add; assumption.
    - revert EP. unfold SFltb, SFleb. destruct (SFcompare _ _) as [[]|]; congruence.
  Qed.

  Lemma geometric_slice : forall ground out, double_plane (fl_plane ground) ->
    envelop_geometric_flat r ground pose = (true, out) ->
    SFleb (S754_zero false) (o_depth out) = true -> near_slice r out.
  Proof using HR Hp HA.
    intros ground out HG. destruct HR as [Hr _]. unfold envelop_geometric_flat, int_plane_disk.
    pose proof (center_double lm r pose Hr Hp) as CD.
    assert (ND : double_vec (normal_grd r pose)).
    { destruct Hr, Hp. unfold normal_grd, rb_normal. apply v_mv; assumption. }
    assert (PD : double_plane (dplane (disk_grd r pose))) by (split; assumption).
    destruct (int_plane_plane _ _ _) as [l|] eqn:EL; [|discriminate].
    destruct (int_line_disk _ _ _) as [s|] eqn:ES; [|discriminate].
    pose proof (line_plane_line_double lm _ _ _ _ HG PD EL) as LD.
    assert (RD : is_double (dradius (disk_grd r pose))) by apply Hr.
    destruct (line_disk_double lm _ _ _ _ LD PD RD ES) as [S0 S1].
    destruct (nlt _ _); [|discriminate]. intros E; apply pair_inj in E; destruct E as [_ E]; subst out; cbn [o_depth]. intros H0.
    assert (VD : double_vec (vsub (seg_centroid s) (center_grd r pose))).
    { apply v_sub; [|exact CD]. unfold seg_centroid. apply v_div; [apply n_of|now apply v_add]. }
    destruct (geometric_depth lm r Hr _ VD) as [G1 G2]. destruct (G2 H0) as [G3 G4].
    apply contact_slice; assumption.
  Qed.
End Methods.

Lemma sampling_flat_slice : forall lm gb (r : rib f64) (ground : flat f64) pose out,
  near_acos lm -> thick_rib r -> double_pose pose -> double_plane (fl_plane ground) ->
  @envelop_flat f64 (F64_Num lm) gb r ground pose "sampling" = Ret (true, out) ->
  SFleb (o_depth out) (SFmul 53 1024 (f_of 2 0) (dradius (rb_disk r))) = true -> near_slice r out.
Proof.
  intros lm [[[g0 g1] g2] g3] r ground pose out HA HR HP HG H.
  apply (sampling_slice lm r pose HR HP HA (@sampling_line_flat f64 (F64_Num lm) ground) g0 g1 g2 g3).
  - intros l h HL. unfold sampling_line_flat.
    destruct (int_line_plane _ _ _) as [p|] eqn:E; [|discriminate].
    intros E'. apply some_inj in E'. subst h. cbn [fst]. eapply line_plane_double; eassumption.
  - unfold envelop_flat in H. cbn [String.eqb Ascii.eqb Bool.eqb] in H.
    assert (X : forall (a b : bool * output f64), Ret a = Ret b -> a = b) by congruence.
    exact (X _ _ H).
Qed.

Lemma sampling_triangles_slice : forall lm gb (r : rib f64) (ground : list (tground f64)) pose out,
  near_acos lm -> thick_rib r -> double_pose pose -> Forall (fun g => double_triangle (tg_tri g)) ground ->
  @envelop f64 (F64_Num lm) gb r ground pose "sampling" = Ret (true, out) ->
  SFleb (o_depth out) (SFmul 53 1024 (f_of 2 0) (dradius (rb_disk r))) = true -> near_slice r out.
Proof.
  intros lm [[[g0 g1] g2] g3] r ground pose out HA HR HP HG H.
  apply (sampling_slice lm r pose HR HP HA (@sampling_line f64 (F64_Num lm) ground) g0 g1 g2 g3).
  - intros l h HL E. eapply sampling_line_double; eassumption.
  - unfold envelop in H. cbn [String.eqb Ascii.eqb Bool.eqb] in H.
    assert (X : forall (a b : bool * output f64), Ret a = Ret b -> a = b) by congruence.
    exact (X _ _ H).
Qed.

Lemma geometric_flat_slice : forall lm gb (r : rib f64) (ground : flat f64) pose out,
  near_acos lm -> thick_rib r -> double_pose pose -> double_plane (fl_plane ground) ->
  @envelop_flat f64 (F64_Num lm) gb r ground pose "geometric" = Ret (true, out) ->
  SFleb (S754_zero false) (o_depth out) = true -> near_slice r out.
Proof.
  intros lm [[[g0 g1] g2] g3] r ground pose out HA HR HP HG H.
  apply (geometric_slice lm r pose HR HP HA ground out HG).
  unfold envelop_flat in H. cbn [String.eqb Ascii.eqb Bool.eqb] in H.
  assert (X : forall (a b : bool * output f64), Ret a = Ret b -> a = b) by congruence.
  exact (X _ _ H).
Qed.

(** ** The arccosine of 1 - 2^-53, rounded to nearest, is 2^-26. *)
Lemma acos_there : Rabs (acos (1 - / 2 ^ 53) - / 2 ^ 26) <= / 2 ^ 80.
Proof.
  assert (B : forall x, 0 <= x <= 1 -> 1 - x * x / 2 <= cos x <= 1 - x * x / 2 + x * x * x * x / 24).
  { intros x [H0 H1]. destruct (pre_cos_bound x 0 ltac:(lra) ltac:(lra)) as [L U].
    unfold cos_approx, cos_term in L, U. cbn in L, U. lra. }
  pose proof PI2_3_2 as P.
  pose proof (acos_bound (1 - / 2 ^ 53)) as A.
  pose proof (cos_acos (1 - / 2 ^ 53) ltac:(lra)) as C.
  set (t := acos (1 - / 2 ^ 53)) in *.
  assert (L : / 2 ^ 26 <= t).
  { apply Rnot_lt_le. intros H. pose proof (cos_decreasing_1 t (/ 2 ^ 26)) as D.
    assert (cos (/ 2 ^ 26) < cos t) by (apply D; lra). pose proof (B (/ 2 ^ 26) ltac:(lra)). lra. }
  assert (U : t <= / 2 ^ 26 + / 2 ^ 80).
  { apply Rnot_lt_le. intros H. pose proof (cos_decreasing_1 (/ 2 ^ 26 + / 2 ^ 80) t) as D.
    assert (cos t < cos (/ 2 ^ 26 + / 2 ^ 80)) by (apply D; lra).
    pose proof (B (/ 2 ^ 26 + / 2 ^ 80) ltac:(lra)). lra. }
  rewrite Rabs_right; lra.
Qed.

(** ** A C library that rounds the arccosine to multiples of 2^-50, and to
    nearest at [1 - 2^-53]. *)
Definition below_one : f64 := f_of 9007199254740991 (-53).
Definition round_acos (x : f64) : f64 := f_of (ZnearestE (acos (value x) * 2 ^ 50)) (-50).
Definition near_libm : libm :=
  Libm (fun x => x) (fun x => x) (fun x => x)
       (fun x => if SFeqb x below_one then f_of 1 (-26) else round_acos x) (fun _ x => x) (fun x _ => x).
Lemma round_acos_near : forall x, is_double (round_acos x) /\ is_finite (round_acos x) = true /\
  Rabs (value (round_acos x) - acos (value x)) <= / 2 ^ 50.
Proof.
  intros x. unfold round_acos. rewrite !value_rv.
  set (a := acos (rv x)). pose proof (acos_bound (rv x)) as B. fold a in B. pose proof PI_4 as P.
  set (n := ZnearestE (a * 2 ^ 50)).
  pose proof (Znearest_half (fun z => negb (Z.even z)) (a * 2 ^ 50)) as H. fold n in H. change (ZnearestE (a * 2 ^ 50)) with n in H.
  apply Rabs_def2b in H.
  assert (N0 : (0 <= n)%Z).
  { apply le_IZR. assert (IZR (-1) < IZR n) by lra. apply lt_IZR in H0. apply IZR_le. lia. }
  assert (N1 : (n < 2 ^ 53)%Z) by (apply lt_IZR; change (IZR (2 ^ 53)) with 9007199254740992; lra).
  assert (E50 : bpow radix2 (-50) = / 2 ^ 50) by (rewrite pow_IZR; reflexivity).
  destruct (f_of_small n (-50)) as [F1 F2].
  - assert (0 <= IZR n < 9007199254740992).
    { split; [now apply IZR_le|]. change 9007199254740992 with (IZR (2 ^ 53)). now apply IZR_lt. }
    apply Rle_trans with (bpow radix2 3); [|apply bpow_le; lia]. change (bpow radix2 3) with 8.
    rewrite E50, Rabs_right; lra.
  - apply fmt_int; lia.
  - split; [apply F1|]. split; [apply F1|]. rewrite F2, E50. apply Rabs_le. lra.
Qed.

Lemma below_one_val : ok below_one /\ rv below_one = 1 - / 2 ^ 53.
Proof.
  split; [split; vm_compute; reflexivity|]. rewrite <- value_rv.
  replace below_one with (S754_finite false 9007199254740991 (-53)) by (vm_compute; reflexivity).
  unfold value. change (powerRZ 2 (-53)) with (/ 2 ^ 53). lra.
Qed.
Lemma near_libm_acos : near_acos near_libm.
Proof.
  intros x X L G. cbn [near_libm lm_acos].
  destruct (SFeqb x below_one) eqn:E; [|apply round_acos_near].
  split; [vm_compute; reflexivity|]. split; [vm_compute; reflexivity|].
  destruct f_mone as [Z1 _]. destruct (f_pow 0 ltac:(lia)) as [O1 _]. destruct below_one_val as [B1 B2].
  assert (Ox : ok x) by exact (ok_between x _ _ X Z1 O1 L G).
  assert (V : rv x = 1 - / 2 ^ 53).
  { rewrite <- B2. apply Rle_antisym; apply leb_rv; try assumption;
      revert E; unfold SFeqb, SFleb.
    - destruct (SFcompare x below_one) as [[]|]; congruence.
    - assert (S : SFcompare x below_one = Some Eq -> SFcompare below_one x = Some Eq).
      { intros Q. assert (Q1 : SFleb x below_one = true) by (unfold SFleb; now rewrite Q).
        apply leb_rv in Q1; [|assumption..].
        destruct (SFcompare below_one x) as [[]|] eqn:Y; [reflexivity| | |].
        - assert (T : SFltb below_one x = true) by (unfold SFltb; now rewrite Y). apply ltb_rv in T; [|assumption..]. lra.
        - assert (T : SFleb below_one x = false) by (unfold SFleb; now rewrite Y).
          assert (T' : ~ rv below_one <= rv x) by (intros T'; apply leb_rv in T'; [congruence|assumption..]).
          assert (T2 : SFltb x below_one = true) by (apply ltb_rv; [assumption..|lra]).
          unfold SFltb in T2. rewrite Q in T2. discriminate T2.
        - exfalso. assert (T : ~ rv below_one <= rv x) by (intros T'; apply leb_rv in T'; [unfold SFleb in T'; rewrite Y in T'; discriminate|assumption..]).
          assert (T2 : SFltb x below_one = true) by (apply ltb_rv; [assumption..|lra]).
          unfold SFltb in T2. rewrite Q in T2. discriminate T2. }
      destruct (SFcompare x below_one) as [[]|]; try discriminate. intros _. now rewrite S. }
  rewrite !value_rv, V. destruct (f_of_small 1 (-26)) as [F1 F2].
  - rewrite Rmult_1_l, Rabs_right by (apply Rle_ge, bpow_ge_0). apply bpow_le. lia.
  - rewrite Rmult_1_l. apply rnd_bpow. lia.
  - rewrite F2, Rmult_1_l. replace (bpow radix2 (-26)) with (/ 2 ^ 26) by (rewrite pow_IZR; reflexivity).
    rewrite Rabs_minus_sym. eapply Rle_trans; [exact acos_there|]. lra.
Qed.
