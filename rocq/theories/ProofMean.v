(** * The mean of four numbers in double precision: proofs for C121. *)
From Coq Require Import ZArith Reals Lra Lia Bool String List Floats.SpecFloat.
From Flocq Require Import Core BinarySingleNaN Mult_error.
From Verif Require Import Base Num Vec Geom Ground Rib F64 SpecDouble ProofDouble.
Import ListNotations.
Local Open Scope Z_scope.

Notation fx := (SpecFloat.fexp 53 1024).

(** Rounding an integer multiple of a power of two. *)
Lemma rnd_int : forall n e j, 0 <= j -> -1074 <= e ->
  2 ^ (52 + j) <= n < 2 ^ (53 + j) ->
  rnd (IZR n * bpow radix2 e) = (IZR (ZnearestE (IZR n * bpow radix2 (- j))) * bpow radix2 (e + j))%R.
Proof.
  intros n e j Hj He Hn.
  assert (M : mag radix2 (IZR n * bpow radix2 e) = (53 + j + e) :> Z).
  { apply mag_unique. rewrite Rabs_mult, (Rabs_right (bpow radix2 e)) by (apply Rle_ge, bpow_ge_0).
    rewrite Rabs_right by (apply Rle_ge, IZR_le; lia).
    replace (53 + j + e - 1) with (52 + j + e) by lia. rewrite 2!(bpow_plus radix2 _ e).
    pose proof (bpow_gt_0 radix2 e).
    rewrite <- (IZR_Zpower radix2 (52 + j)), <- (IZR_Zpower radix2 (53 + j)) by lia.
    split; [apply Rmult_le_compat_r; [lra|]; apply IZR_le, Hn|].
    apply Rmult_lt_compat_r; [lra|]. apply IZR_lt, Hn. }
  unfold round, F2R, scaled_mantissa, cexp. cbn [Fnum Fexp]. rewrite M.
  replace (fx (53 + j + e)) with (e + j)
    by (unfold SpecFloat.fexp, SpecFloat.emin; lia).
  f_equal. f_equal. cbn [round_mode]. f_equal.
  rewrite Rmult_assoc, <- bpow_plus. f_equal. f_equal. lia.
Qed.

(** Rounding to even at half way. *)
Lemma ne_half : forall n (d : R), (- (1 / 2) <= d <= 1 / 2)%R ->
  (- (1 / 2) < d < 1 / 2)%R \/ Z.even n = true -> ZnearestE (IZR n + d) = n.
Proof.
  intros n d Hd [H|H].
  - apply Znearest_imp. replace (IZR n + d - IZR n)%R with d by ring. apply Rabs_def1; lra.
  - destruct (Req_dec d (1 / 2)) as [-> |N1].
    + unfold Znearest.
      assert (F : Zfloor (IZR n + 1 / 2) = n) by (apply Zfloor_imp; rewrite plus_IZR; lra).
      rewrite F. replace (IZR n + 1 / 2 - IZR n)%R with (/ 2)%R by lra. rewrite Rcompare_Eq by reflexivity.
      now rewrite H.
    + destruct (Req_dec d (- (1 / 2))) as [-> |N2].
      * unfold Znearest.
        assert (F : Zfloor (IZR n + - (1 / 2)) = n - 1)
          by (apply Zfloor_imp; rewrite plus_IZR, minus_IZR; lra).
        rewrite F. replace (IZR n + - (1 / 2) - IZR (n - 1))%R with (/ 2)%R by (rewrite minus_IZR; lra).
        rewrite Rcompare_Eq by reflexivity.
        replace (Z.even (n - 1)) with false
          by (rewrite Z.even_sub, H; reflexivity).
        cbn [negb]. apply Zceil_imp. rewrite minus_IZR. lra.
      * apply Znearest_imp. replace (IZR n + d - IZR n)%R with d by ring. apply Rabs_def1; lra.
Qed.

Lemma fmt_int : forall n e, Z.abs n < 2 ^ 53 -> -1074 <= e ->
  rnd (IZR n * bpow radix2 e) = (IZR n * bpow radix2 e)%R.
Proof.
  intros n e Hn He. apply round_generic; [typeclasses eauto|].
  apply (generic_format_FLT radix2 (-1074) 53).
  exists (Float radix2 n e); [reflexivity|exact Hn|exact He].
Qed.

Lemma bp1 : bpow radix2 (-1) = (/ 2)%R. Proof. reflexivity. Qed.
Lemma bp2 : bpow radix2 (-2) = (/ 4)%R. Proof. reflexivity. Qed.

(** The nearest multiple of [2^j], as integers. *)
Lemma Rabs_def2b : forall x a, (Rabs x <= a)%R -> (- a <= x <= a)%R.
Proof. intros x a H. unfold Rabs in H. destruct (Rcase_abs x); lra. Qed.
Lemma ne_near1 : forall n, Z.abs (2 * ZnearestE (IZR n * bpow radix2 (- (1))) - n) <= 1.
Proof.
  intros n. change (bpow radix2 (- (1))) with (/ 2)%R.
  pose proof (Znearest_half (fun x => negb (Z.even x)) (IZR n * / 2)) as H.
  apply Rabs_def2b in H. generalize dependent (Znearest (fun x => negb (Z.even x)) (IZR n * / 2)).
  intros k H. apply Z.abs_le. split; apply le_IZR; rewrite ?opp_IZR, minus_IZR, mult_IZR; lra.
Qed.
Lemma ne_near2 : forall n, Z.abs (4 * ZnearestE (IZR n * bpow radix2 (- (2))) - n) <= 2.
Proof.
  intros n. change (bpow radix2 (- (2))) with (/ 4)%R.
  pose proof (Znearest_half (fun x => negb (Z.even x)) (IZR n * / 4)) as H.
  apply Rabs_def2b in H. generalize dependent (Znearest (fun x => negb (Z.even x)) (IZR n * / 4)).
  intros k H. apply Z.abs_le. split; apply le_IZR; rewrite ?opp_IZR, minus_IZR, mult_IZR; lra.
Qed.

Lemma times_pow : forall n e j, 0 <= j ->
  (IZR n * bpow radix2 (e + j) = IZR (n * 2 ^ j) * bpow radix2 e)%R.
Proof.
  intros n e j Hj. rewrite mult_IZR. change (2 ^ j) with (radix2 ^ j). rewrite (IZR_Zpower radix2 j Hj), bpow_plus. ring.
Qed.

(** Adding a number four times, rounding each time, is exact. *)
Lemma four_int : forall m e, 0 < m < 2 ^ 53 -> -1074 <= e -> 2 ^ 52 <= m \/ e = -1074 ->
  let x := (IZR m * bpow radix2 e)%R in
  rnd (rnd (3 * x) + x) = (4 * x)%R.
Proof.
  intros m e Hm He Hc. cbv zeta.
  replace (3 * (IZR m * bpow radix2 e))%R with (IZR (3 * m) * bpow radix2 e)%R by (rewrite mult_IZR; ring).
  replace (4 * (IZR m * bpow radix2 e))%R with (IZR (4 * m) * bpow radix2 e)%R by (rewrite mult_IZR; ring).
  assert (A : forall k, rnd (IZR k * bpow radix2 e + IZR m * bpow radix2 e) = rnd (IZR (k + m) * bpow radix2 e)).
  { intros k. f_equal. rewrite plus_IZR. ring. }
  (* the last rounding, given the error of the first *)
  assert (L1 : forall d, 2 ^ 53 <= 4 * m + d < 2 ^ 54 -> Z.abs d <= 1 ->
    rnd (IZR (4 * m + d) * bpow radix2 e) = (IZR (4 * m) * bpow radix2 e)%R).
  { intros d Hr Hd. rewrite (rnd_int _ e 1) by (try lia; exact Hr).
    change (bpow radix2 (- (1))) with (/ 2)%R.
    replace (IZR (4 * m + d) * / 2)%R with (IZR (2 * m) + IZR d / 2)%R
      by (rewrite plus_IZR, !mult_IZR; lra).
    assert (Ha : (IZR (-1) <= IZR d)%R) by (apply IZR_le; lia).
    assert (Hb : (IZR d <= 1)%R) by (apply IZR_le; lia).
    rewrite ne_half.
    - rewrite times_pow by lia. f_equal. f_equal. change (2 ^ 1) with 2. ring.
    - lra.
    - right. rewrite Z.even_mul. reflexivity. }
  assert (L2 : forall d, 2 ^ 54 <= 4 * m + d < 2 ^ 55 -> Z.abs d <= 2 -> Z.abs d < 2 \/ Z.even m = true ->
    rnd (IZR (4 * m + d) * bpow radix2 e) = (IZR (4 * m) * bpow radix2 e)%R).
  { intros d Hr Hd Ht. rewrite (rnd_int _ e 2) by (try lia; exact Hr).
    change (bpow radix2 (- (2))) with (/ 4)%R.
    replace (IZR (4 * m + d) * / 4)%R with (IZR m + IZR d / 4)%R
      by (rewrite plus_IZR, !mult_IZR; lra).
    assert (Ha : (IZR (-2) <= IZR d)%R) by (apply IZR_le; lia).
    assert (Hb : (IZR d <= 2)%R) by (apply IZR_le; lia).
    rewrite ne_half.
    - rewrite times_pow by lia. f_equal. f_equal. change (2 ^ 2) with 4. ring.
    - lra.
    - destruct Ht as [Ht|Ht]; [left|right; exact Ht].
      assert (B : -1 <= d <= 1) by lia. destruct B as [B1 B2]. apply IZR_le in B1, B2. lra. }
  assert (P : 2 ^ 54 = 2 * 2 ^ 53 /\ 2 ^ 55 = 4 * 2 ^ 53 /\ 2 ^ 53 = 2 * 2 ^ 52) by (vm_compute; auto).
  destruct P as [P1 [P2 P3]].
  destruct (Z_lt_ge_dec (3 * m) (2 ^ 53)) as [C1|C1].
  - rewrite (fmt_int (3 * m) e) by lia. rewrite A.
    replace (3 * m + m) with (4 * m + 0) by ring.
    destruct (Z_lt_ge_dec (4 * m) (2 ^ 53)) as [D1|D1].
    + rewrite Z.add_0_r. apply fmt_int; lia.
    + destruct (Z_lt_ge_dec (4 * m) (2 ^ 54)) as [D2|D2]; [apply L1; lia|apply L2; lia].
  - destruct (Z_lt_ge_dec (3 * m) (2 ^ 54)) as [C2|C2].
    + rewrite (rnd_int (3 * m) e 1) by (change (52 + 1) with 53; change (53 + 1) with 54; lia).
      pose proof (ne_near1 (3 * m)) as N. set (k := ZnearestE _) in *.
      rewrite times_pow by lia. rewrite A. change (2 ^ 1) with 2.
      replace (k * 2 + m) with (4 * m + (2 * k - 3 * m)) by ring.
      destruct (Z_lt_ge_dec m (2 ^ 52)) as [D|D]; [apply L1; lia|].
      apply L2; try lia.
    + rewrite (rnd_int (3 * m) e 2) by (change (52 + 2) with 54; change (53 + 2) with 55; lia).
      pose proof (ne_near2 (3 * m)) as N. set (k := ZnearestE _) in *.
      rewrite times_pow by lia. rewrite A. change (2 ^ 2) with 4.
      replace (k * 4 + m) with (4 * m + (4 * k - 3 * m)) by ring.
      apply L2; try lia.
      destruct (Z.eq_dec (Z.abs (4 * k - 3 * m)) 2) as [E|E]; [right|left; lia].
      rewrite Z.even_spec. assert (E' : 4 * k - 3 * m = 2 \/ 4 * k - 3 * m = -2) by lia.
      destruct E' as [E'|E'].
      * exists (2 * k - m - 1). lia.
      * exists (2 * k - m + 1). lia.
Qed.

Lemma four_pos : forall m e, bounded 53 1024 m e = true ->
  let x := (IZR (Zpos m) * bpow radix2 e)%R in
  rnd (rnd (3 * x) + x) = (4 * x)%R.
Proof.
  intros m e B. unfold bounded in B. apply andb_prop in B. destruct B as [B _].
  unfold canonical_mantissa in B. apply Zeq_bool_eq in B.
  rewrite Zpos_digits2_pos in B. unfold SpecFloat.fexp, SpecFloat.emin in B.
  pose proof (Zdigits_correct radix2 (Zpos m)) as D. rewrite Z.abs_eq in D by lia.
  set (g := Zdigits radix2 (Zpos m)) in *. change (radix_val radix2) with 2 in D.
  assert (0 < g) by (apply Zdigits_gt_0; lia).
  apply four_int.
  - split; [lia|]. apply Z.lt_le_trans with (2 ^ g); [lia|]. apply Z.pow_le_mono_r; lia.
  - lia.
  - destruct (Z_lt_ge_dec g 53); [right; lia|left].
    apply Z.le_trans with (2 ^ (g - 1)); [apply Z.pow_le_mono_r; lia|lia].
Qed.

Lemma four_real : forall x, ok x ->
  rnd (rnd (rnd (rv x + rv x) + rv x) + rv x) = (4 * rv x)%R.
Proof.
  intros x Hx. destruct (ok_lift x Hx) as [b [_ [F ->]]].
  assert (T : rnd (B2R b + B2R b) = (2 * B2R b)%R).
  { replace (B2R b + B2R b)%R with (B2R b * bpow radix2 1)%R by (change (bpow radix2 1) with 2%R; ring).
    rewrite round_generic; [change (bpow radix2 1) with 2%R; ring|typeclasses eauto|].
    apply (mult_bpow_pos_exact_FLT radix2 (SpecFloat.emin 53 1024) 53); [|lia].
    exact (generic_format_B2R 53 1024 b). }
  rewrite T. replace (2 * B2R b + B2R b)%R with (3 * B2R b)%R by ring.
  destruct b as [s|s| |s m e B]; try discriminate F.
  - cbn [B2R]. rewrite Rmult_0_r, round_0 by typeclasses eauto. rewrite Rplus_0_r, round_0 by typeclasses eauto. ring.
  - clear F T. cbn [B2R]. unfold F2R. cbn [Fnum Fexp].
    pose proof (four_pos m e B) as P. cbv zeta in P. destruct s; cbn [cond_Zopp]; [|exact P].
    rewrite Pos2Z.opp_pos || idtac.
    replace (IZR (Zneg m)) with (- IZR (Zpos m))%R by (rewrite <- opp_IZR; reflexivity).
    replace (3 * (- IZR (Zpos m) * bpow radix2 e))%R with (- (3 * (IZR (Zpos m) * bpow radix2 e)))%R by ring.
    rewrite rnd_opp.
    replace (- rnd (3 * (IZR (Zpos m) * bpow radix2 e)) + - IZR (Zpos m) * bpow radix2 e)%R
      with (- (rnd (3 * (IZR (Zpos m) * bpow radix2 e)) + IZR (Zpos m) * bpow radix2 e))%R by ring.
    rewrite rnd_opp, P. ring.
Qed.

Lemma op_add : forall x y e, ok x -> ok y -> (-1074 <= e <= 1023)%Z ->
  (Rabs (rv x + rv y) <= bpow radix2 e)%R ->
  ok (SFadd fprec femax x y) /\ rv (SFadd fprec femax x y) = rnd (rv x + rv y).
Proof.
  intros x y e Hx Hy He H.
  destruct (ok_lift x Hx) as [bx [Ex [Fx Rx]]]. destruct (ok_lift y Hy) as [b_y [Ey [Fy Ry]]].
  rewrite Rx, Ry in *. subst x y. unfold fprec, femax. rewrite add_equiv.
  pose proof (Bplus_correct 53 1024 Hprec Hmax mode_NE bx b_y Fx Fy) as C.
  rewrite (rnd_small _ e He H) in C. destruct C as [C1 [C2 _]].
  split; [now apply ok_B|]. unfold rv. now rewrite SF2R_B2SF.
Qed.

Lemma add_bound : forall x y a, ok x -> ok y -> (0 <= a)%Z -> (a + 1 <= 1023)%Z ->
  (Rabs (rv x) <= bpow radix2 a)%R -> (Rabs (rv y) <= bpow radix2 a)%R ->
  ok (SFadd fprec femax x y) /\ rv (SFadd fprec femax x y) = rnd (rv x + rv y) /\
  (Rabs (rv (SFadd fprec femax x y)) <= bpow radix2 (a + 1))%R.
Proof.
  intros x y a Hx Hy Ha Ha1 Bx B_y.
  assert (B : (Rabs (rv x + rv y) <= bpow radix2 (a + 1))%R).
  { rewrite bpow_plus. change (bpow radix2 1) with 2%R.
    pose proof (Rabs_triang (rv x) (rv y)) as T. lra. }
  destruct (op_add x y (a + 1) Hx Hy ltac:(lia) B) as [H1 H2].
  split; [exact H1|]. split; [exact H2|]. rewrite H2. apply rnd_abs_le; [lia|exact B].
Qed.

Definition mean4 (f0 f1 f2 f3 : f64) : f64 :=
  SFdiv fprec femax (SFadd fprec femax (SFadd fprec femax (SFadd fprec femax f0 f1) f2) f3) (f_of 4 0).

Lemma mean4_value : forall f0 f1 f2 f3, ok f0 -> ok f1 -> ok f2 -> ok f3 ->
  (Rabs (rv f0) <= bpow radix2 1000)%R -> (Rabs (rv f1) <= bpow radix2 1000)%R ->
  (Rabs (rv f2) <= bpow radix2 1000)%R -> (Rabs (rv f3) <= bpow radix2 1000)%R ->
  ok (mean4 f0 f1 f2 f3) /\
  rv (mean4 f0 f1 f2 f3) = rnd (rnd (rnd (rnd (rv f0 + rv f1) + rv f2) + rv f3) / 4).
Proof.
  intros f0 f1 f2 f3 H0 H1 H2 H3 B0 B1 B2 B3. unfold mean4.
  assert (G : forall x a, (1000 <= a)%Z -> (Rabs x <= bpow radix2 1000)%R -> (Rabs x <= bpow radix2 a)%R).
  { intros x a Ha Hx. eapply Rle_trans; [exact Hx|]. now apply bpow_le. }
  destruct (add_bound f0 f1 1000 H0 H1) as [S1 [E1 G1]]; try lia; try assumption.
  destruct (add_bound _ f2 (1000 + 1) S1 H2) as [S2 [E2 G2]]; try lia; try assumption; try (apply G; [lia|assumption]).
  destruct (add_bound _ f3 (1000 + 1 + 1) S2 H3) as [S3 [E3 G3]]; try lia; try assumption; try (apply G; [lia|assumption]).
  destruct f_four as [K1 K2].
  destruct (op_div _ (f_of 4 0) S3 K1 (1000 + 1 + 1 + 1)) as [D1 D2]; try lia.
  - rewrite K2. lra.
  - rewrite K2. unfold Rdiv. rewrite Rabs_mult, (Rabs_right (/ 4)) by lra.
    pose proof (Rabs_pos (rv (SFadd fprec femax (SFadd fprec femax (SFadd fprec femax f0 f1) f2) f3))). lra.
  - split; [exact D1|]. rewrite D2, E3, E2, E1, K2. reflexivity.
Qed.

Lemma between_ok : forall lo hi f, ok lo -> ok hi ->
  (Rabs (rv lo) <= bpow radix2 1000)%R -> (Rabs (rv hi) <= bpow radix2 1000)%R ->
  is_double f -> SFleb lo f = true -> SFleb f hi = true ->
  ok f /\ (rv lo <= rv f <= rv hi)%R /\ (Rabs (rv f) <= bpow radix2 1000)%R.
Proof.
  intros lo hi f Hl Hh Bl Bh Hf H1 H2.
  assert (O : ok f) by exact (ok_between f lo hi Hf Hl Hh H1 H2).
  apply leb_rv in H1; [|assumption..]. apply leb_rv in H2; [|assumption..].
  split; [exact O|]. split; [lra|].
  apply Rabs_def2b in Bl. apply Rabs_def2b in Bh. apply Rabs_le. lra.
Qed.

Lemma mean4_between : forall lo hi f0 f1 f2 f3, ok lo -> ok hi ->
  (Rabs (rv lo) <= bpow radix2 1000)%R -> (Rabs (rv hi) <= bpow radix2 1000)%R ->
  Forall (fun f => is_double f /\ SFleb lo f = true /\ SFleb f hi = true) [f0; f1; f2; f3] ->
  SFleb lo (mean4 f0 f1 f2 f3) = true /\ SFleb (mean4 f0 f1 f2 f3) hi = true.
Proof.
  intros lo hi f0 f1 f2 f3 Hl Hh Bl Bh HF.
  assert (X : forall f, In f [f0; f1; f2; f3] ->
    ok f /\ (rv lo <= rv f <= rv hi)%R /\ (Rabs (rv f) <= bpow radix2 1000)%R).
  { intros f Hin. rewrite Forall_forall in HF. destruct (HF f Hin) as [A [B C]].
    exact (between_ok lo hi f Hl Hh Bl Bh A B C). }
  destruct (X f0) as [O0 [R0 A0]]; [cbn; auto|]. destruct (X f1) as [O1 [R1 A1]]; [cbn; auto|].
  destruct (X f2) as [O2 [R2 A2]]; [cbn; auto|]. destruct (X f3) as [O3 [R3 A3]]; [cbn; auto|].
  destruct (mean4_value f0 f1 f2 f3) as [M1 M2]; try assumption.
  split; apply leb_rv; try assumption; rewrite M2.
  - rewrite <- (rnd_rv lo Hl) at 1. apply rnd_le.
    apply Rmult_le_reg_r with 4%R; [lra|].
    replace (rv lo * 4)%R with (4 * rv lo)%R by ring. rewrite <- (four_real lo Hl).
    unfold Rdiv. rewrite Rmult_assoc, Rinv_l, Rmult_1_r by lra.
    apply rnd_le. apply Rplus_le_compat; [|lra]. apply rnd_le. apply Rplus_le_compat; [|lra].
    apply rnd_le. lra.
  - rewrite <- (rnd_rv hi Hh). apply rnd_le.
    apply Rmult_le_reg_r with 4%R; [lra|].
    replace (rv hi * 4)%R with (4 * rv hi)%R by ring. rewrite <- (four_real hi Hh).
    unfold Rdiv. rewrite Rmult_assoc, Rinv_l, Rmult_1_r by lra.
    apply rnd_le. apply Rplus_le_compat; [|lra]. apply rnd_le. apply Rplus_le_compat; [|lra].
    apply rnd_le. lra.
Qed.

Lemma f_mpow : forall e, (0 <= e <= 1023)%Z -> ok (f_of (-1) e) /\ rv (f_of (-1) e) = (- bpow radix2 e)%R.
Proof.
  intros e He. pose proof (bp_le e He) as B.
  destruct (f_of_small (-1) e) as [H1 H2].
  - replace (-1 * bpow radix2 e)%R with (- bpow radix2 e)%R by ring. rewrite Rabs_Ropp, Rabs_right; lra.
  - replace (-1 * bpow radix2 e)%R with (- bpow radix2 e)%R by ring. rewrite rnd_opp, rnd_bpow by lia.
    reflexivity.
  - split; [exact H1|]. rewrite H2. ring.
Qed.

Lemma moderate_ok : forall x, moderate x -> ok x /\ (Rabs (rv x) <= bpow radix2 1000)%R.
Proof.
  intros x [H [H1 H2]].
  destruct (f_pow 1000 ltac:(lia)) as [P1 P2]. destruct (f_mpow 1000 ltac:(lia)) as [N1 N2].
  assert (O : ok x) by exact (ok_between x _ _ H N1 P1 H1 H2).
  apply leb_rv in H1; [|assumption..]. apply leb_rv in H2; [|assumption..].
  split; [exact O|]. apply Rabs_le. lra.
Qed.

Lemma leb_antisym_eqb : forall x y, SFleb x y = true -> SFleb y x = true -> SFeqb y x = true.
Proof.
  intros x y. unfold SFleb, SFeqb. pose proof (f64_cmp x y) as A. pose proof (f64_cmp y x) as B.
  destruct (SFcompare x y) as [[]|], (SFcompare y x) as [[]|]; try discriminate; auto.
  all: intros _ _; exfalso; destruct A as [_ [_ A]], B as [_ [_ B]]; lia.
Qed.

Section Friction.
  Variable lm : libm.
  #[local] Instance NF : Num f64 := F64_Num lm.

  Lemma sampling_friction : forall f g0 g1 g2 g3 (r : rib f64) pose lo hi out,
    moderate lo -> moderate hi ->
    (forall l h, f l = Some h -> is_double (snd h) /\ SFleb lo (snd h) = true /\ SFleb (snd h) hi = true) ->
    envelop_sampling_with f g0 g1 g2 g3 r pose = (true, out) ->
    SFleb lo (o_friction out) = true /\ SFleb (o_friction out) hi = true.
  Proof.
    intros f g0 g1 g2 g3 r pose lo hi out Hl Hh Hf. unfold envelop_sampling_with.
    destruct (moderate_ok lo Hl) as [L1 L2]. destruct (moderate_ok hi Hh) as [U1 U2].
    destruct (sampling_lines r pose) as [[[l0 l1] l2] l3].
    unfold sample.
    destruct (f l0) as [[p0 f0]|] eqn:E0; [|cbn [andb]; discriminate].
    destruct (f l1) as [[p1 f1]|] eqn:E1; [|cbn [andb]; discriminate].
    destruct (f l2) as [[p2 f2]|] eqn:E2; [|cbn [andb]; discriminate].
    destruct (f l3) as [[p3 f3]|] eqn:E3; [|cbn [andb]; discriminate].
    pose proof (Hf _ _ E0) as V0. pose proof (Hf _ _ E1) as V1.
    pose proof (Hf _ _ E2) as V2. pose proof (Hf _ _ E3) as V3.
    cbn [snd] in V0, V1, V2, V3.
    cbv zeta. cbn [andb].
    match goal with |- (if ?b then _ else _) = _ -> _ => destruct b; [|discriminate] end.
    intros E; apply pair_inj in E; destruct E as [_ E]; subst out. cbn [o_friction].
    apply (mean4_between lo hi f0 f1 f2 f3); try assumption.
    repeat constructor; tauto.
  Qed.

  Lemma sampling_line_friction : forall (P : f64 -> Prop) ground l h,
    Forall (fun g => P (tg_friction g)) ground -> sampling_line ground l = Some h -> P (snd h).
  Proof.
    intros P ground l h HG. unfold sampling_line.
    assert (A : Forall (fun h => P (snd h)) (sampling_hits ground l)).
    { unfold sampling_hits. induction HG as [|g gs H HG IH]; cbn [flat_map]; [constructor|].
      apply Forall_app. split; [|exact IH].
      destruct (int_line_triangle l (tg_tri g) neps) as [p|]; [|constructor].
      constructor; [exact H|constructor]. }
    destruct (sampling_hits ground l) as [|h0 hs]; [discriminate|]. intros E; apply some_inj in E; subst h.
    assert (A1 : P (snd h0)) by exact (Forall_inv A).
    assert (A2 := Forall_inv_tail A). clear A. revert h0 A1.
    induction A2 as [|x xs X XS IH]; intros h0 A1; cbn [fold_left]; [exact A1|].
    apply IH. unfold higher. destruct (nlt _ _); assumption.
  Qed.
End Friction.

Lemma friction_triangles : forall lm gb (r : rib f64) (ground : list (tground f64)) pose lo hi out,
  moderate lo -> moderate hi ->
  Forall (fun g => is_double (tg_friction g) /\ SFleb lo (tg_friction g) = true /\
                   SFleb (tg_friction g) hi = true) ground ->
  @envelop f64 (F64_Num lm) gb r ground pose "sampling" = Ret (true, out) ->
  SFleb lo (o_friction out) = true /\ SFleb (o_friction out) hi = true.
Proof.
  intros lm [[[g0 g1] g2] g3] r ground pose lo hi out Hl Hh HG H.
  apply (sampling_friction lm (@sampling_line f64 (F64_Num lm) ground) g0 g1 g2 g3 r pose lo hi out Hl Hh).
  - intros l h E. 
    exact (sampling_line_friction lm (fun f => is_double f /\ SFleb lo f = true /\ SFleb f hi = true)
             ground l h HG E).
  - unfold envelop in H. cbn [String.eqb Ascii.eqb Bool.eqb] in H.
    assert (X : forall (a b : bool * output f64), Ret a = Ret b -> a = b) by congruence.
    exact (X _ _ H).
Qed.

Lemma leb_refl : forall x, ok x -> SFleb x x = true.
Proof. intros x H. apply leb_rv; auto. lra. Qed.

Lemma friction_uniform : forall lm gb (r : rib f64) (ground : list (tground f64)) pose f out,
  moderate f -> Forall (fun g => tg_friction g = f) ground ->
  @envelop f64 (F64_Num lm) gb r ground pose "sampling" = Ret (true, out) ->
  SFeqb (o_friction out) f = true.
Proof.
  intros lm gb r ground pose f out Hf HG H.
  destruct (moderate_ok f Hf) as [O _].
  destruct (friction_triangles lm gb r ground pose f f out Hf Hf) as [A B]; [|exact H|].
  - eapply Forall_impl; [|exact HG]. intros g ->. split; [apply O|]. split; now apply leb_refl.
  - now apply leb_antisym_eqb.
Qed.

Lemma friction_flat : forall lm gb (r : rib f64) (ground : flat f64) pose out,
  moderate (fl_friction ground) ->
  @envelop_flat f64 (F64_Num lm) gb r ground pose "sampling" = Ret (true, out) ->
  SFeqb (o_friction out) (fl_friction ground) = true.
Proof.
  intros lm [[[g0 g1] g2] g3] r ground pose out Hf H.
  destruct (moderate_ok _ Hf) as [O _].
  destruct (sampling_friction lm (@sampling_line_flat f64 (F64_Num lm) ground) g0 g1 g2 g3 r pose
              (fl_friction ground) (fl_friction ground) out Hf Hf) as [A B].
  - intros l h. unfold sampling_line_flat. destruct (int_line_plane _ _ _); [|discriminate].
    intros E; apply some_inj in E; subst h. cbn [snd].
    split; [apply O|]. split; now apply leb_refl.
  - unfold envelop_flat in H. cbn [String.eqb Ascii.eqb Bool.eqb] in H.
    assert (X : forall (a b : bool * output f64), Ret a = Ret b -> a = b) by congruence.
    exact (X _ _ H).
  - now apply leb_antisym_eqb.
Qed.
