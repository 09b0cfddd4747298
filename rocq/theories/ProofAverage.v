(** * Averages over the ribs in double precision: proofs for C124. *)
From Coq Require Import ZArith Reals Lra Lia Psatz Bool String List Floats.SpecFloat.
From Flocq Require Import Core BinarySingleNaN Relative Plus_error.
From Verif Require Import Base Num Vec Aabb Geom Ground Shape Rib Shell F64 SpecDouble ProofDouble ProofMean
  SpecPlaces ProofPlaces SpecRadius ProofRadius SpecAverage ProofShell.
Import ListNotations.
Local Open Scope R_scope.

Lemma u_val : u = / 9007199254740992.
Proof. change u with (/ IZR (Zpower_pos 2 53)). reflexivity. Qed.

Lemma measure_ok : forall x, sound_measure x -> ok x /\ 0 <= rv x <= bpow radix2 300.
Proof.
  intros x [Hd [H1 H2]]. destruct zero_val as [Z1 Z2]. destruct (f_pow 300 ltac:(lia)) as [P1 P2].
  assert (O : ok x) by exact (ok_between x _ _ Hd Z1 P1 H1 H2).
  apply leb_rv in H1; [|assumption..]. apply leb_rv in H2; [|assumption..].
  rewrite Z2 in H1. rewrite P2 in H2. auto.
Qed.

Lemma rv_format : forall x, ok x -> generic_format radix2 (FLT_exp (-1074) 53) (rv x).
Proof. intros x Hx. destruct (ok_lift x Hx) as [b [_ [_ ->]]]. apply (generic_format_B2R 53 1024). Qed.

(** Rounding a sum of doubles has no absolute error. *)
Lemma plus_err : forall x y, ok x -> ok y -> 0 <= rv x + rv y ->
  (1 - u) * (rv x + rv y) <= rnd (rv x + rv y) <= (1 + u) * (rv x + rv y).
Proof.
  intros x y Hx Hy H.
  destruct (@FLT_plus_error_N_ex radix2 (-1074) 53 (eq_refl : Prec_gt_0 53) (fun z => negb (Z.even z)) (rv x) (rv y)
              (rv_format x Hx) (rv_format y Hy)) as [e [H1 H2]].
  change (rnd (rv x + rv y)) with
    (round radix2 (FLT_exp (-1074) 53) (Znearest (fun z => negb (Z.even z))) (rv x + rv y)).
  rewrite H2.
  assert (E : Rabs e <= u).
  { eapply Rle_trans; [exact H1|]. unfold u_ro. change (- (53) + 1)%Z with (-52)%Z.
    replace (/ 2 * bpow radix2 (-52)) with u.
    - apply Rmult_le_reg_r with (1 + u); [rewrite u_val; lra|].
      unfold Rdiv. rewrite Rmult_assoc, Rinv_l by (rewrite u_val; lra). rewrite u_val. lra.
    - change (-52)%Z with (1 + -53)%Z. rewrite bpow_plus. change (bpow radix2 1) with 2. lra. }
  apply Rabs_def2b in E. split; rewrite (Rmult_comm _ (rv x + rv y)); apply Rmult_le_compat_l; lra.
Qed.

Definition total (l : list R) : R := fold_right Rplus 0 l.

Lemma pow_up : forall n, (Z.of_nat n <= 2 ^ 20)%Z -> (1 + u) ^ n * (1 - INR n * u) <= 1.
Proof.
  intros n Hn.
  assert (B : 1 - INR n * u <= (1 - u) ^ n).
  { clear. rewrite u_val. induction n as [|n IH]; [cbn; lra|]. rewrite S_INR. cbn [pow].
    pose proof (pos_INR n). nra. }
  assert (P : 0 <= (1 + u) ^ n) by (apply pow_le; rewrite u_val; lra).
  apply Rle_trans with ((1 + u) ^ n * (1 - u) ^ n); [now apply Rmult_le_compat_l|].
  rewrite <- Rpow_mult_distr. apply Rle_trans with (1 ^ n); [|rewrite pow1; lra].
  apply pow_incr. rewrite u_val. lra.
Qed.

Lemma size_bound : forall n, (Z.of_nat n <= 2 ^ 20)%Z -> 0 <= INR n * u <= / 8589934592.
Proof.
  intros n Hn. assert (B : 0 <= INR n <= 1048576).
  { split; [apply pos_INR|]. rewrite INR_IZR_INZ. now apply IZR_le. }
  rewrite u_val. lra.
Qed.

Lemma pow_up' : forall n, (Z.of_nat n <= 2 ^ 20)%Z -> (1 + u) ^ n <= 1 + 5 / 4 * (INR n * u).
Proof.
  intros n Hn. pose proof (pow_up n Hn) as P. pose proof (size_bound n Hn) as B.
  set (t := INR n * u) in *. set (p := (1 + u) ^ n) in *.
  assert (0 <= p) by (apply pow_le; rewrite u_val; lra).
  assert (1 <= (1 + 5 / 4 * t) * (1 - t)) by nra.
  nra.
Qed.
Lemma pow_down : forall n, (Z.of_nat n <= 2 ^ 20)%Z -> 1 - INR n * u <= (1 - u) ^ n.
Proof.
  intros n _. rewrite u_val. induction n as [|n IH]; [cbn; lra|]. rewrite S_INR. cbn [pow].
  pose proof (pos_INR n). nra.
Qed.

(** ** The running sum of measures. *)
Lemma sum_run : forall xs k a, (Z.of_nat (k + List.length xs) <= 2 ^ 20)%Z -> ok a ->
  0 <= rv a <= INR k * bpow radix2 602 ->
  (forall x, In x xs -> ok x /\ 0 <= rv x <= bpow radix2 601) ->
  ok (fold_left (SFadd fprec femax) xs a) /\
  (1 - u) ^ (List.length xs) * (rv a + total (map rv xs)) <= rv (fold_left (SFadd fprec femax) xs a)
    <= (1 + u) ^ (List.length xs) * (rv a + total (map rv xs)).
Proof.
  induction xs as [|x xs IH]; intros k a Hk Ha Hr HX; cbn [fold_left List.length map total fold_right pow].
  - split; [exact Ha|]. lra.
  - destruct (HX x (or_introl eq_refl)) as [X1 X2].
    assert (K : 0 <= INR k <= 1048575).
    { split; [apply pos_INR|]. rewrite INR_IZR_INZ. apply IZR_le. cbn [List.length] in Hk. lia. }
    assert (Q : bpow radix2 602 = 2 * bpow radix2 601).
    { change 602%Z with (1 + 601)%Z. rewrite bpow_plus. reflexivity. }
    pose proof (bpow_gt_0 radix2 601) as G.
    assert (KB : INR k * bpow radix2 602 <= 1048575 * bpow radix2 602) by (apply Rmult_le_compat_r; lra).
    destruct (op_add a x 630 Ha X1) as [A1 A2]; try lia.
    { apply Rabs_le. change 630%Z with (28 + 602)%Z. rewrite bpow_plus.
      change (bpow radix2 28) with 268435456. lra. }
    destruct (plus_err a x Ha X1 ltac:(lra)) as [E1 E2]. rewrite <- A2 in E1, E2.
    assert (U : 0 < u <= / 9007199254740992) by (rewrite u_val; lra).
    destruct (IH (S k) (SFadd fprec femax a x)) as [I1 [I2 I3]].
    + cbn [List.length] in Hk. lia.
    + exact A1.
    + split; [nra|]. rewrite S_INR. eapply Rle_trans; [exact E2|].
      assert (u * (rv a + rv x) <= / 9007199254740992 * (1048576 * bpow radix2 602)).
      { apply Rmult_le_compat; lra. }
      nra.
    + intros z Hz. apply HX. now right.
    + split; [exact I1|]. fold (total (map rv xs)). set (T := total (map rv xs)) in *.
      assert (TP : 0 <= T).
      { unfold T. clear -HX. induction xs as [|z xs IHx]; cbn; [lra|].
        destruct (HX z) as [_ B]; [now right; left|]. apply Rplus_le_le_0_compat; [lra|].
        apply IHx. intros w [->|Hw]; apply HX; [now left|now right; right]. }
      pose proof (pow_le (1 + u) (List.length xs) ltac:(lra)) as PU.
      pose proof (pow_le (1 - u) (List.length xs) ltac:(lra)) as PD.
      split.
      * eapply Rle_trans; [|exact I2].
        rewrite (Rmult_comm (1 - u)), Rmult_assoc. apply Rmult_le_compat_l; [exact PD|]. nra.
      * eapply Rle_trans; [exact I3|].
        rewrite (Rmult_comm (1 + u)), Rmult_assoc. apply Rmult_le_compat_l; [exact PU|]. nra.
Qed.

Lemma fold_map : forall A (f : A -> f64) os a,
  fold_left (fun a o => SFadd fprec femax a (f o)) os a = fold_left (SFadd fprec femax) (map f os) a.
Proof. intros A f os. induction os as [|o os IH]; intros a; cbn; auto. Qed.

Lemma sum_all : forall xs, (Z.of_nat (List.length xs) <= 2 ^ 20)%Z ->
  (forall x, In x xs -> ok x /\ 0 <= rv x <= bpow radix2 601) ->
  let s := fold_left (SFadd fprec femax) xs (S754_zero false) in
  let t := INR (List.length xs) * u in
  ok s /\ 0 <= rv s /\ 0 <= total (map rv xs) /\
  (1 - t) * total (map rv xs) <= rv s <= (1 + 5 / 4 * t) * total (map rv xs).
Proof.
  intros xs Hn HX s t. destruct ok_zero as [Z1 Z2].
  destruct (sum_run xs 0 (S754_zero false) Hn Z1) as [A [B C]].
  - rewrite Z2. cbn [INR]. lra.
  - exact HX.
  - rewrite Z2, Rplus_0_l in B, C. fold s in A, B, C.
    assert (T : 0 <= total (map rv xs)).
    { clear -HX. induction xs as [|z xs IHx]; cbn; [lra|].
      destruct (HX z) as [_ B]; [now left|]. apply Rplus_le_le_0_compat; [lra|].
      apply IHx. intros w Hw. apply HX. now right. }
    pose proof (pow_up' _ Hn) as PU. pose proof (pow_down _ Hn) as PD. fold t in PU, PD.
    assert (D : (1 - t) * total (map rv xs) <= rv s).
    { eapply Rle_trans; [|exact B]. now apply Rmult_le_compat_r. }
    split; [exact A|]. split; [|split; [exact T|split; [exact D|]]].
    + pose proof (size_bound _ Hn) as SB. fold t in SB. eapply Rle_trans; [|exact D].
      apply Rmult_le_pos; lra.
    + eapply Rle_trans; [exact C|]. now apply Rmult_le_compat_r.
Qed.

Notation h := (bpow radix2 (-1075)).

Lemma product : forall f v lo hi, ok f -> 0 <= rv f <= bpow radix2 300 -> ok v -> 0 <= rv v <= bpow radix2 300 ->
  0 <= lo -> lo <= rv f <= hi ->
  ok (SFmul fprec femax f v) /\ 0 <= rv (SFmul fprec femax f v) <= bpow radix2 601 /\
  (1 - u) * (lo * rv v) - h <= rv (SFmul fprec femax f v) <= (1 + u) * (hi * rv v) + h.
Proof.
  intros f v lo hi Of Bf Ov Bv Hl Hr.
  assert (P : 0 <= rv f * rv v <= bpow radix2 600).
  { split; [apply Rmult_le_pos; lra|]. change 600%Z with (300 + 300)%Z. rewrite bpow_plus.
    apply Rmult_le_compat; lra. }
  destruct (op_mul f v Of Ov 600) as [M1 M2]; try lia; [apply Rabs_le; lra|].
  split; [exact M1|]. rewrite M2.
  assert (A : 0 <= rnd (rv f * rv v)) by (apply rnd_pos; lra).
  assert (B : rnd (rv f * rv v) <= bpow radix2 600).
  { rewrite <- (rnd_bpow 600) by lia. apply rnd_le. lra. }
  split.
  - split; [exact A|]. eapply Rle_trans; [exact B|]. apply bpow_le. lia.
  - pose proof (rnd_err (rv f * rv v)) as E. rewrite (Rabs_right (rv f * rv v)) in E by lra.
    apply Rabs_def2b in E.
    assert (U : 0 < u < 1) by (rewrite u_val; lra).
    assert (L : lo * rv v <= rv f * rv v) by (apply Rmult_le_compat_r; lra).
    assert (H : rv f * rv v <= hi * rv v) by (apply Rmult_le_compat_r; lra).
    set (x := rv f * rv v) in *. set (lv := lo * rv v) in *. set (hv := hi * rv v) in *.
    split; [nra|nra].
Qed.

Lemma weighted_total : forall A (f v : A -> f64) os lo hi, 0 <= lo ->
  (forall o, In o os -> ok (f o) /\ 0 <= rv (f o) <= bpow radix2 300 /\ ok (v o) /\
     0 <= rv (v o) <= bpow radix2 300 /\ lo <= rv (f o) <= hi) ->
  let S := total (map rv (map v os)) in
  let T := total (map rv (map (fun o => SFmul fprec femax (f o) (v o)) os)) in
  (1 - u) * (lo * S) - INR (List.length os) * h <= T <= (1 + u) * (hi * S) + INR (List.length os) * h.
Proof.
  intros A f v os lo hi Hl. induction os as [|o os IH]; intros HX S T.
  - unfold S, T. cbn. lra.
  - destruct (HX o (or_introl eq_refl)) as [F1 [F2 [V1 [V2 R]]]].
    destruct (product _ _ lo hi F1 F2 V1 V2 Hl R) as [_ [_ P]].
    specialize (IH (fun z Hz => HX z (or_intror Hz))). cbv zeta in IH.
    unfold S, T. cbn [map total fold_right]. cbn [List.length]. rewrite S_INR.
    fold (total (map rv (map v os))). 
    fold (total (map rv (map (fun o => SFmul fprec femax (f o) (v o)) os))).
    set (S' := total (map rv (map v os))) in *. set (T' := total _) in *.
    set (w := rv (v o)) in *. set (p := rv (SFmul _ _ _ _)) in *. split; [|]; nra.
Qed.

Lemma plain_total : forall xs lo hi, (forall x, In x xs -> lo <= rv x <= hi) ->
  INR (List.length xs) * lo <= total (map rv xs) <= INR (List.length xs) * hi.
Proof.
  induction xs as [|x xs IH]; intros lo hi H.
  - cbn. lra.
  - cbn [map total fold_right List.length]. fold (total (map rv xs)). rewrite S_INR.
    pose proof (H x (or_introl eq_refl)). pose proof (IH lo hi (fun z Hz => H z (or_intror Hz))). lra.
Qed.

Lemma slack_val : forall n, slack n = 4 * (INR n * u) + 4 * u.
Proof.
  intros n. unfold slack, Rdiv. replace (/ 2 ^ 53) with u; [ring|].
  rewrite pow_IZR. reflexivity.
Qed.

Lemma eps_val : ok (f_of 1 (-26)) /\ rv (f_of 1 (-26)) = bpow radix2 (-26).
Proof.
  destruct (f_of_small 1 (-26)) as [A B].
  - rewrite Rmult_1_l, Rabs_right by (apply Rle_ge, bpow_ge_0). apply bpow_le. lia.
  - rewrite Rmult_1_l. apply rnd_bpow. lia.
  - split; [exact A|]. rewrite B. ring.
Qed.

Lemma tail_small : forall n, (Z.of_nat n <= 2 ^ 20)%Z ->
  2 * (536870912 * (INR n * h)) + h <= powerRZ 2 (-1000) /\ 0 <= INR n * h.
Proof.
  intros n Hn. assert (B : 0 <= INR n <= 1048576).
  { split; [apply pos_INR|]. rewrite INR_IZR_INZ. now apply IZR_le. }
  pose proof (bpow_gt_0 radix2 (-1075)) as P.
  split; [|apply Rmult_le_pos; lra].
  replace (powerRZ 2 (-1000)) with (bpow radix2 (-1000)).
  - apply Rle_trans with (bpow radix2 (51 + -1075)); [|apply bpow_le; lia].
    rewrite bpow_plus. change (bpow radix2 51) with 2251799813685248.
    assert (INR n * h <= 1048576 * h) by (apply Rmult_le_compat_r; lra). lra.
  - now rewrite bpow_powerRZ.
Qed.

Lemma quotient : forall a v lo hi, ok a -> ok v -> 0 <= rv a -> 0 < rv v ->
  lo <= rv a / rv v <= hi -> rv a / rv v <= bpow radix2 1000 ->
  ok (SFdiv fprec femax a v) /\
  (1 - u) * lo - h <= rv (SFdiv fprec femax a v) <= (1 + u) * hi + h.
Proof.
  intros a v lo hi Oa Ov Ha Hv H Hb.
  assert (Q : 0 <= rv a / rv v) by (apply Rmult_le_pos; [lra|]; apply Rlt_le, Rinv_0_lt_compat; lra).
  destruct (op_div a v Oa Ov 1000) as [D1 D2]; try lia; [lra| |].
  - rewrite Rabs_right by lra. exact Hb.
  - split; [exact D1|]. rewrite D2. pose proof (rnd_err (rv a / rv v)) as E.
    rewrite (Rabs_right (rv a / rv v)) in E by lra. apply Rabs_def2b in E.
    assert (U : 0 < u < 1) by (rewrite u_val; lra). set (q := rv a / rv v) in *. split; nra.
Qed.

Lemma div_le : forall a b c, 0 < b -> a <= c * b -> a / b <= c.
Proof.
  intros a b c Hb H. apply Rmult_le_reg_r with b; [exact Hb|]. unfold Rdiv.
  rewrite Rmult_assoc, Rinv_l by lra. lra.
Qed.
Lemma le_div : forall a b c, 0 < b -> c * b <= a -> c <= a / b.
Proof.
  intros a b c Hb H. apply Rmult_le_reg_r with b; [exact Hb|]. unfold Rdiv.
  rewrite Rmult_assoc, Rinv_l by lra. lra.
Qed.

(** Bounds of the quotient of the two sums. *)
Lemma ratio_real : forall t E lo hi S A V, 0 <= t <= / 8589934592 -> 0 <= E -> 0 <= lo <= hi -> 0 <= S ->
  bpow radix2 (-26) <= V -> (1 - t) * S <= V <= (1 + 5 / 4 * t) * S ->
  (1 - t) * ((1 - u) * (lo * S) - E) <= A <= (1 + 5 / 4 * t) * ((1 + u) * (hi * S) + E) ->
  lo * (1 - 3 * t - 2 * u) - 536870912 * E <= A / V <= hi * (1 + 3 * t + 2 * u) + 536870912 * E.
Proof.
  intros t E lo hi S A V Ht HE Hl HS HV HVS HA.
  change (bpow radix2 (-26)) with (/ 67108864) in HV.
  assert (U : 0 < u <= / 9007199254740992) by (rewrite u_val; lra).
  assert (TU : 0 <= t * u <= t * / 9007199254740992) by (split; [apply Rmult_le_pos|apply Rmult_le_compat_l]; lra).
  assert (TT : 0 <= t * t <= t * / 8589934592) by (split; [apply Rmult_le_pos|apply Rmult_le_compat_l]; lra).
  assert (EV : 8 * E <= 536870912 * E * V).
  { replace (8 * E) with (536870912 * E * / 67108864) by lra. apply Rmult_le_compat_l; lra. }
  assert (TE : 0 <= t * E <= E) by (split; [apply Rmult_le_pos; lra|]; nra).
  assert (C1 : (1 + 5 / 4 * t) * (1 + u) <= (1 + 3 * t + 2 * u) * (1 - t)) by nra.
  assert (C2 : (1 - 3 * t - 2 * u) * (1 + 5 / 4 * t) <= (1 - t) * (1 - u)) by nra.
  assert (LS : 0 <= lo * S) by (apply Rmult_le_pos; lra).
  assert (HSS : 0 <= hi * S) by (apply Rmult_le_pos; lra).
  split.
  - apply le_div; [lra|]. eapply Rle_trans; [|apply HA].
    assert (X : lo * (1 - 3 * t - 2 * u) * V <= (1 - t) * (1 - u) * (lo * S)).
    { apply Rle_trans with (lo * (1 - 3 * t - 2 * u) * ((1 + 5 / 4 * t) * S)).
      - apply Rmult_le_compat_l; [apply Rmult_le_pos; lra|lra].
      - replace (lo * (1 - 3 * t - 2 * u) * ((1 + 5 / 4 * t) * S))
          with ((1 - 3 * t - 2 * u) * (1 + 5 / 4 * t) * (lo * S)) by ring.
        now apply Rmult_le_compat_r. }
    lra.
  - apply div_le; [lra|]. eapply Rle_trans; [apply HA|].
    assert (X : (1 + 5 / 4 * t) * (1 + u) * (hi * S) <= hi * (1 + 3 * t + 2 * u) * V).
    { apply Rle_trans with (hi * (1 + 3 * t + 2 * u) * ((1 - t) * S)).
      - replace (hi * (1 + 3 * t + 2 * u) * ((1 - t) * S))
          with ((1 + 3 * t + 2 * u) * (1 - t) * (hi * S)) by ring.
        now apply Rmult_le_compat_r.
      - apply Rmult_le_compat_l; [apply Rmult_le_pos; lra|lra]. }
    lra.
Qed.

Lemma near_from : forall n lo hi x E, (Z.of_nat n <= 2 ^ 20)%Z -> 0 <= lo <= hi ->
  E = INR n * h ->
  (1 - u) * (lo * (1 - 3 * (INR n * u) - 2 * u) - 536870912 * E) - h <= x
    <= (1 + u) * (hi * (1 + 3 * (INR n * u) + 2 * u) + 536870912 * E) + h ->
  near_range n lo hi x.
Proof.
  intros n lo hi x E Hn Hl -> H. pose proof (tail_small n Hn) as [T TP]. pose proof (size_bound n Hn) as B.
  unfold near_range. rewrite slack_val. set (t := INR n * u) in *. set (q := INR n * h) in *.
  assert (U : 0 < u <= / 9007199254740992) by (rewrite u_val; lra).
  assert (TU : 0 <= t * u <= t * / 9007199254740992) by (split; [apply Rmult_le_pos|apply Rmult_le_compat_l]; lra).
  assert (UU : 0 <= u * u <= u * / 9007199254740992) by (split; [apply Rmult_le_pos|apply Rmult_le_compat_l]; lra).
  assert (UQ : 0 <= u * q <= q) by (split; [apply Rmult_le_pos; lra|]; nra).
  assert (C1 : (1 + u) * (1 + 3 * t + 2 * u) <= 1 + (4 * t + 4 * u)) by nra.
  assert (C2 : 1 - (4 * t + 4 * u) <= (1 - u) * (1 - 3 * t - 2 * u)) by nra.
  pose proof (Rmult_le_compat_l hi _ _ ltac:(lra) C1) as D1.
  pose proof (Rmult_le_compat_l lo _ _ ltac:(lra) C2) as D2.
  split; lra.
Qed.

Lemma le_601 : bpow radix2 300 <= bpow radix2 601.
Proof. apply bpow_le. lia. Qed.

Section Wheel.
  Variable lm : libm.
  #[local] Instance NA : Num f64 := F64_Num lm.
  Variable f : output f64 -> f64.
  Variables lo hi : R.
  Hypothesis Hlo : 0 <= lo.
  Variable os : list (output f64).
  Hypothesis Hn0 : os <> [].
  Hypothesis Hn : (Z.of_nat (List.length os) <= 2 ^ 20)%Z.
  Hypothesis HO : forall o, In o os -> rib_data f lo hi o.

  Lemma data_ok : forall o, In o os ->
    ok (f o) /\ 0 <= rv (f o) <= bpow radix2 300 /\ ok (o_volume o) /\
    0 <= rv (o_volume o) <= bpow radix2 300 /\ lo <= rv (f o) <= hi.
  Proof using HO Hlo Hn Hn0.
    intros o Ho. destruct (HO o Ho) as [H1 [H2 H3]]. rewrite value_rv in H3.
    destruct (measure_ok _ H1) as [V1 V2]. destruct (measure_ok _ H2) as [F1 F2]. auto.
  Qed.

  Lemma lo_hi : 0 <= lo <= hi.
  Proof using Hlo Hn Hn0 HO.
    destruct os as [|o l]; [now destruct Hn0|]. destruct (HO o) as [_ [_ H]]; [now left|]. lra.
  Qed.

  Lemma volumes_in : forall x, In x (map o_volume os) -> ok x /\ 0 <= rv x <= bpow radix2 601.
  Proof using HO Hlo Hn Hn0.
    intros x Hx. apply in_map_iff in Hx. destruct Hx as [o [<- Ho]].
    destruct (data_ok o Ho) as [_ [_ [A [B _]]]]. pose proof le_601. split; [exact A|lra].
  Qed.
  Lemma values_in : forall x, In x (map f os) -> ok x /\ 0 <= rv x <= bpow radix2 601.
  Proof using HO Hlo Hn Hn0.
    intros x Hx. apply in_map_iff in Hx. destruct Hx as [o [<- Ho]].
    destruct (data_ok o Ho) as [A [B _]]. pose proof le_601. split; [exact A|lra].
  Qed.
  Lemma products_in : forall x, In x (map (fun o => SFmul fprec femax (f o) (o_volume o)) os) ->
    ok x /\ 0 <= rv x <= bpow radix2 601.
  Proof using HO Hlo Hn Hn0.
    intros x Hx. apply in_map_iff in Hx. destruct Hx as [o [<- Ho]].
    destruct (data_ok o Ho) as [A [B [C [D R]]]].
    destruct (product _ _ lo hi A B C D Hlo R) as [P1 [P2 _]]. split; assumption.
  Qed.

  Definition vol : f64 := sum_by o_volume os.

  Lemma weighted_near : SFltb vol (f_of 1 (-26)) = false ->
    let x := SFdiv fprec femax (sum_by (fun o => nmul (f o) (o_volume o)) os) vol in
    ok x /\ near_range (List.length os) lo hi (value x).
  Proof using HO Hlo Hn Hn0.
    intros HV x.
    pose proof (sum_all (map o_volume os)) as SV. rewrite map_length in SV.
    destruct (SV Hn volumes_in) as [V1 [V2 [V3 V4]]]. clear SV.
    pose proof (sum_all (map (fun o => SFmul fprec femax (f o) (o_volume o)) os)) as SP. rewrite map_length in SP.
    destruct (SP Hn products_in) as [P1 [P2 [P3 P4]]]. clear SP.
    assert (EV : vol = fold_left (SFadd fprec femax) (map o_volume os) (S754_zero false)).
    { unfold vol, sum_by. exact (fold_map _ o_volume os (S754_zero false)). }
    assert (EP : sum_by (fun o => nmul (f o) (o_volume o)) os =
                 fold_left (SFadd fprec femax) (map (fun o => SFmul fprec femax (f o) (o_volume o)) os) (S754_zero false)).
    { unfold sum_by. exact (fold_map _ (fun o => SFmul fprec femax (f o) (o_volume o)) os (S754_zero false)). }
    rewrite <- EV in V1, V2, V4. rewrite <- EP in P1, P2, P4.
    set (A := sum_by (fun o => nmul (f o) (o_volume o)) os) in *.
    pose proof (weighted_total _ f o_volume os lo hi Hlo data_ok) as WT. cbv zeta in WT.
    set (S := total (map rv (map o_volume os))) in *.
    set (T := total (map rv (map (fun o => SFmul fprec femax (f o) (o_volume o)) os))) in *.
    destruct eps_val as [E1 E2].
    assert (VB : bpow radix2 (-26) <= rv vol).
    { rewrite <- E2. apply Rnot_lt_le. intros C. apply ltb_rv in C; [congruence|assumption..]. }
    pose proof (size_bound _ Hn) as SB. pose proof (tail_small _ Hn) as [_ TP]. pose proof lo_hi as LH.
    assert (R : lo * (1 - 3 * (INR (List.length os) * u) - 2 * u) - 536870912 * (INR (List.length os) * h)
                <= rv A / rv vol
                <= hi * (1 + 3 * (INR (List.length os) * u) + 2 * u) + 536870912 * (INR (List.length os) * h)).
    { apply (ratio_real _ _ lo hi S); try assumption. split.
      - eapply Rle_trans; [|apply P4]. apply Rmult_le_compat_l; [lra|apply WT].
      - eapply Rle_trans; [apply P4|]. apply Rmult_le_compat_l; [lra|apply WT]. }
    pose proof (bpow_gt_0 radix2 (-26)) as G.
    destruct (quotient A vol _ _ P1 V1 P2 (Rlt_le_trans _ _ _ G VB) R) as [Q1 Q2].
    - apply div_le; [lra|].
      apply Rle_trans with (bpow radix2 974 * bpow radix2 (-26)).
      + rewrite <- bpow_plus. change (974 + -26)%Z with (22 + (325 + 601))%Z. rewrite !bpow_plus.
        change (bpow radix2 22) with 4194304.
        assert (TB : T <= INR (List.length os) * bpow radix2 601).
        { pose proof (plain_total (map (fun o => SFmul fprec femax (f o) (o_volume o)) os) 0 (bpow radix2 601)
                        (fun z Hz => proj2 (products_in z Hz))) as PT. rewrite map_length in PT. apply PT. }
        pose proof (bpow_gt_0 radix2 601) as G6.
        assert (NB : INR (List.length os) <= 1048576) by (rewrite INR_IZR_INZ; now apply IZR_le).
        assert (TB' : T <= 1048576 * bpow radix2 601).
        { eapply Rle_trans; [exact TB|]. apply Rmult_le_compat_r; lra. }
        assert (B3 : 1 <= bpow radix2 325) by (change 1 with (bpow radix2 0); apply bpow_le; lia).
        assert (AB : rv A <= 2 * (1048576 * bpow radix2 601)).
        { eapply Rle_trans; [apply P4|]. apply Rmult_le_compat; lra. }
        assert (bpow radix2 601 <= bpow radix2 325 * bpow radix2 601) by nra.
        lra.
      + apply Rmult_le_compat; try lra; [apply bpow_ge_0|]. apply bpow_le. lia.
    - split; [exact Q1|]. rewrite value_rv. apply (near_from _ lo hi _ _ Hn LH eq_refl). exact Q2.
  Qed.

  Lemma mean_near :
    let x := SFdiv fprec femax (sum_by f os) (@nofsize f64 NA (List.length os)) in
    ok x /\ near_range (List.length os) lo hi (value x).
  Proof using HO Hlo Hn Hn0.
    pose proof (sum_all (map f os)) as SV. rewrite map_length in SV.
    destruct (SV Hn values_in) as [V1 [V2 [V3 V4]]]. clear SV.
    assert (EV : sum_by f os = fold_left (SFadd fprec femax) (map f os) (S754_zero false)).
    { unfold sum_by. exact (fold_map _ f os (S754_zero false)). }
    rewrite <- EV in V1, V2, V4. set (A := sum_by f os) in *.
    assert (N1 : (1 <= List.length os)%nat) by (destruct os; [now destruct Hn0|cbn; lia]).
    assert (NB : 1 <= INR (List.length os) <= 1048576).
    { rewrite INR_IZR_INZ. split; apply IZR_le; [lia|exact Hn]. }
    destruct (size_ok lm (f_of 1 0) (List.length os)) as [S1 S2]; try assumption.
    { apply one_val. }
    { rewrite (proj2 one_val). change 1 with (bpow radix2 0). apply bpow_le. lia. }
    { rewrite (proj2 one_val). change 1 with (bpow radix2 0). apply bpow_le. lia. }
    assert (S3 : ok (@nofsize f64 NA (List.length os))) by exact S1.
    assert (S4 : rv (@nofsize f64 NA (List.length os)) = INR (List.length os)) by exact S2.
    clear S1 S2. rename S3 into S1. rename S4 into S2.
    set (z := @nofsize f64 NA (List.length os)) in *.
    pose proof (plain_total (map f os) lo hi) as PT. rewrite map_length in PT.
    assert (PT' : INR (List.length os) * lo <= total (map rv (map f os)) <= INR (List.length os) * hi).
    { apply PT. intros w Hw. apply in_map_iff in Hw; destruct Hw as [o [<- Ho]].
      now destruct (data_ok o Ho) as [_ [_ [_ [_ R]]]]. }
    pose proof (plain_total (map f os) 0 (bpow radix2 300)) as PB. rewrite map_length in PB.
    assert (PB' : total (map rv (map f os)) <= INR (List.length os) * bpow radix2 300).
    { apply PB. intros w Hw. apply in_map_iff in Hw; destruct Hw as [o [<- Ho]].
      now destruct (data_ok o Ho) as [_ [R _]]. }
    pose proof (size_bound _ Hn) as SB. pose proof (tail_small _ Hn) as [_ TP]. pose proof lo_hi as LH.
    assert (U : 0 < u <= / 9007199254740992) by (rewrite u_val; lra).
    set (n := INR (List.length os)) in *. set (t := n * u) in *.
    assert (R : lo * (1 - 3 * t - 2 * u) - 536870912 * (n * h)
                <= rv A / rv z
                <= hi * (1 + 3 * t + 2 * u) + 536870912 * (n * h)).
    { rewrite S2. split.
      - apply le_div; [lra|].
        assert (X : (1 - t) * (n * lo) <= rv A) by (eapply Rle_trans; [|apply V4]; apply Rmult_le_compat_l; lra).
        assert (0 <= n * lo) by (apply Rmult_le_pos; lra).
        assert (0 <= n * (n * h)) by (apply Rmult_le_pos; lra).
        assert (0 <= (n * lo) * t) by (apply Rmult_le_pos; lra).
        assert (0 <= (n * lo) * u) by (apply Rmult_le_pos; lra).
        lra.
      - apply div_le; [lra|].
        assert (X : rv A <= (1 + 5 / 4 * t) * (n * hi)) by (eapply Rle_trans; [apply V4|]; apply Rmult_le_compat_l; lra).
        assert (0 <= n * hi) by (apply Rmult_le_pos; lra).
        assert (0 <= n * (n * h)) by (apply Rmult_le_pos; lra).
        assert (0 <= (n * hi) * t) by (apply Rmult_le_pos; lra).
        assert (0 <= (n * hi) * u) by (apply Rmult_le_pos; lra).
        lra. }
    assert (SP : 0 < rv z) by (rewrite S2; lra).
    destruct (quotient A z _ _ V1 S1 V2 SP R) as [Q1 Q2].
    - rewrite S2. apply div_le; [lra|].
      apply Rle_trans with (2 * (1048576 * bpow radix2 300)).
      + eapply Rle_trans; [apply V4|]. pose proof (bpow_gt_0 radix2 300) as G.
        apply Rmult_le_compat; try lra. eapply Rle_trans; [exact PB'|]. apply Rmult_le_compat_r; lra.
      + apply Rle_trans with (bpow radix2 1000); [|rewrite <- (Rmult_1_r (bpow radix2 1000)) at 1;
          apply Rmult_le_compat_l; [apply bpow_ge_0|lra]].
        apply Rle_trans with (bpow radix2 (21 + 300)); [|apply bpow_le; lia].
        rewrite bpow_plus. change (bpow radix2 21) with 2097152. lra.
    - split; [exact Q1|]. rewrite value_rv. apply (near_from _ lo hi _ _ Hn LH eq_refl). exact Q2.
  Qed.
End Wheel.

(** ** The accessors. *)
Lemma friction_near : forall lm (s : shell f64) os lo hi, 0 <= lo ->
  @outs f64 s = Ret os -> os <> [] -> (Z.of_nat (List.length os) <= 2 ^ 20)%Z ->
  (forall o, In o os -> rib_data o_friction lo hi o) ->
  exists x, @contact_friction f64 (F64_Num lm) s = Ret x /\ ok x /\
    near_range (List.length os) lo hi (value x).
Proof.
  intros lm s os lo hi Hl EO H0 Hn HO.
  assert (SZ : sh_size s = List.length os) by (symmetry; exact (proj1 (outs_inv s os EO))).
  unfold contact_friction. rewrite EO. cbn [obind]. rewrite SZ.
  pose proof (weighted_near lm o_friction lo hi Hl os H0 Hn HO) as W.
  pose proof (mean_near lm o_friction lo hi Hl os H0 Hn HO) as M. cbv zeta in *.
  change (nlt (sum_by o_volume os) neps) with (SFltb (vol lm os) (f_of 1 (-26))).
  destruct (SFltb (vol lm os) (f_of 1 (-26))) eqn:E.
  - eexists. split; [reflexivity|]. exact M.
  - eexists. split; [reflexivity|]. exact (W eq_refl).
Qed.

Lemma depth_near : forall lm (s : shell f64) os lo hi, 0 <= lo ->
  @outs f64 s = Ret os -> os <> [] -> (Z.of_nat (List.length os) <= 2 ^ 20)%Z ->
  (forall o, In o os -> rib_data o_depth lo hi o) ->
  (forall v, @contact_volume f64 (F64_Num lm) s = Ret v -> SFltb v (f_of 1 (-26)) = false) ->
  exists x, @contact_depth f64 (F64_Num lm) s = Ret x /\ ok x /\
    near_range (List.length os) lo hi (value x).
Proof.
  intros lm s os lo hi Hl EO H0 Hn HO HV.
  assert (SZ : sh_size s = List.length os) by (symmetry; exact (proj1 (outs_inv s os EO))).
  unfold contact_volume in HV. rewrite EO in HV. specialize (HV _ eq_refl).
  unfold contact_depth. rewrite EO. cbn [obind]. rewrite SZ.
  change (nlt (sum_by o_volume os) neps) with (SFltb (vol lm os) (f_of 1 (-26))).
  change (SFltb (vol lm os) (f_of 1 (-26)) = false) in HV. rewrite HV.
  eexists. split; [reflexivity|]. exact (weighted_near lm o_depth lo hi Hl os H0 Hn HO HV).
Qed.

Lemma volume_near : forall lm (s : shell f64) os,
  @outs f64 s = Ret os -> (Z.of_nat (List.length os) <= 2 ^ 20)%Z ->
  (forall o, In o os -> sound_measure (o_volume o)) ->
  exists v, @contact_volume f64 (F64_Num lm) s = Ret v /\ ok v /\
    Rabs (value v - exact_volume os) <= slack (List.length os) * exact_volume os.
Proof.
  intros lm s os EO Hn HO.
  unfold contact_volume. rewrite EO. cbn [obind]. eexists. split; [reflexivity|].
  pose proof (sum_all (map o_volume os)) as SV. rewrite map_length in SV. cbv zeta in SV.
  assert (HX : forall x, In x (map o_volume os) -> ok x /\ 0 <= rv x <= bpow radix2 601).
  { intros x Hx. apply in_map_iff in Hx. destruct Hx as [o [<- Ho]].
    destruct (measure_ok _ (HO o Ho)) as [A B]. pose proof le_601. split; [exact A|lra]. }
  destruct (SV Hn HX) as [V1 [V2 [V3 V4]]].
  assert (EV : @sum_by f64 (F64_Num lm) o_volume os =
               fold_left (SFadd fprec femax) (map o_volume os) (S754_zero false)).
  { exact (fold_map _ o_volume os (S754_zero false)). }
  rewrite <- EV in V1, V2, V4. split; [exact V1|].
  assert (ET : exact_volume os = total (map rv (map o_volume os))).
  { unfold exact_volume, total. rewrite map_map. f_equal. apply map_ext. intros o. apply value_rv. }
  rewrite ET, value_rv, slack_val. set (T := total _) in *. pose proof (size_bound _ Hn) as SB.
  set (t := INR (List.length os) * u) in *.
  assert (0 < u) by (rewrite u_val; lra).
  assert (0 <= t * T) by (apply Rmult_le_pos; lra).
  assert (0 <= u * T) by (apply Rmult_le_pos; lra).
  apply Rabs_le. lra.
Qed.

Lemma up_to_one : forall x, sound_measure x -> SFleb x (f_of 1 0) = true -> 0 <= value x <= 1.
Proof.
  intros x H H1. destruct (measure_ok x H) as [A B]. destruct one_val as [O1 O2].
  apply leb_rv in H1; [|assumption..]. rewrite O2 in H1. rewrite value_rv. lra.
Qed.
