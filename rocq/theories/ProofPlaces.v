(** * Places of the ribs in double precision: proofs for C122. *)
From Coq Require Import ZArith Reals Lra Lia Bool String List Floats.SpecFloat.
From Flocq Require Import Core BinarySingleNaN Mult_error Relative.
From Verif Require Import Base Num Vec Aabb Geom Ground Shape Rib Shell F64 SpecDouble ProofDouble ProofMean SpecPlaces.
Import ListNotations.
Local Open Scope R_scope.

Lemma value_rv : forall x, value x = rv x.
Proof.
  intros [s|s| |s m e]; try reflexivity. unfold value, rv, SF2R, F2R. cbn [Fnum Fexp].
  rewrite bpow_powerRZ. change (IZR radix2) with 2.
  destruct s; cbn [cond_Zopp]; [|ring].
  replace (IZR (- Z.pos m)) with (- IZR (Z.pos m)) by (now rewrite <- opp_IZR). ring.
Qed.

Notation u := (bpow radix2 (-53)).

Lemma rnd_err : forall x, Rabs (rnd x - x) <= u * Rabs x + bpow radix2 (-1075).
Proof.
  intros x.
  destruct (error_N_FLT radix2 (-1074) 53 ltac:(lia) (fun z => negb (Z.even z)) x)
    as [e [h [H1 [H2 [_ H3]]]]].
  change (/ 2 * bpow radix2 (-53 + 1)) with (/ 2 * bpow radix2 (1 + -53)) in H1.
  rewrite bpow_plus in H1. change (bpow radix2 1) with 2 in H1.
  change (/ 2 * bpow radix2 (-1074)) with (/ 2 * bpow radix2 (1 + -1075)) in H2.
  rewrite bpow_plus in H2. change (bpow radix2 1) with 2 in H2.
  change (bpow radix2 (- (53))) with u in H1.
  change (rnd x) with (round radix2 (FLT_exp (-1074) 53) (Znearest (fun z => negb (Z.even z))) x).
  rewrite H3. replace (x * (1 + e) + h - x) with (x * e + h) by ring.
  eapply Rle_trans; [apply Rabs_triang|]. rewrite Rabs_mult.
  apply Rplus_le_compat; [|lra]. rewrite (Rmult_comm u). apply Rmult_le_compat_l; [apply Rabs_pos|lra].
Qed.

Section Places.
  Variable lm : libm.
  #[local] Instance NP : Num f64 := F64_Num lm.
  Variable ly : f64.
  Variable n : nat.
  Hypothesis HL : ok ly.
  Hypothesis HL0 : bpow radix2 (-300) <= rv ly.
  Hypothesis HL1 : rv ly <= bpow radix2 300.
  Hypothesis Hn0 : (1 <= n)%nat.
  Hypothesis Hn1 : (Z.of_nat n <= 2 ^ 20)%Z.

  Notation L := (rv ly).
  Definition dl : R := u * L.
  Definition N : R := INR n.

  Lemma L_pos : 0 < L.
  Proof using HL HL0 HL1 Hn0 Hn1. pose proof (bpow_gt_0 radix2 (-300)). lra. Qed.

  Lemma N_bounds : 1 <= N <= 1048576.
  Proof using HL HL0 HL1 Hn0 Hn1.
    unfold N. rewrite INR_IZR_INZ. split; apply IZR_le; [lia|]. exact Hn1.
  Qed.

  Lemma dl_pos : 0 < dl.
  Proof using HL HL0 HL1 Hn0 Hn1. unfold dl. apply Rmult_lt_0_compat; [apply bpow_gt_0|exact L_pos]. Qed.

  Lemma tiny : bpow radix2 (-1075) <= dl / 100.
  Proof using HL HL0 HL1 Hn0 Hn1.
    unfold dl. replace (-1075)%Z with (-53 + (-300 + -722))%Z by lia. rewrite !bpow_plus.
    pose proof (bpow_gt_0 radix2 (-53)). pose proof (bpow_gt_0 radix2 (-300)).
    assert (B : bpow radix2 (-722) <= / 100).
    { apply Rle_trans with (bpow radix2 (-7)); [apply bpow_le; lia|].
      change (bpow radix2 (-7)) with (/ 128). lra. }
    unfold Rdiv. rewrite Rmult_assoc. apply Rmult_le_compat_l; [lra|].
    pose proof (bpow_gt_0 radix2 (-722)).
    apply Rmult_le_compat; lra.
  Qed.

  Lemma small : 8388608 * dl <= L / N /\ 100 * dl <= L.
  Proof using HL HL0 HL1 Hn0 Hn1.
    pose proof N_bounds as B. pose proof L_pos as P.
    assert (U : u = / 9007199254740992).
    { change u with (/ IZR (Zpower_pos 2 53)). reflexivity. }
    unfold dl. rewrite U. split.
    - apply Rmult_le_reg_r with N; [lra|].
      replace (L / N * N) with L by (field; lra).
      apply Rle_trans with (8388608 * (/ 9007199254740992 * L) * 1048576).
      + apply Rmult_le_compat_l; [lra|lra].
      + lra.
    - lra.
  Qed.

  (** The error of one rounding, in units of [dl]. *)
  Lemma err : forall c x, Rabs x <= c * L -> Rabs (rnd x - x) <= c * dl + dl / 100.
  Proof using HL HL0 HL1 Hn0 Hn1.
    intros c x H. eapply Rle_trans; [apply rnd_err|]. apply Rplus_le_compat; [|exact tiny].
    unfold dl. replace (c * (u * L)) with (u * (c * L)) by ring.
    apply Rmult_le_compat_l; [apply bpow_ge_0|exact H].
  Qed.

  Lemma big : forall x, Rabs x <= 4 * L -> Rabs x <= bpow radix2 302.
  Proof using HL HL0 HL1 Hn0 Hn1.
    intros x H. change 302%Z with (2 + 300)%Z. rewrite bpow_plus. change (bpow radix2 2) with 4. lra.
  Qed.

  Definition wf : f64 := ndiv (nmul (nofZ 2) ly) (nofsize n).
  Definition y0 : f64 := nsub (nopp ly) (ndiv wf (nofZ 2)).

  Lemma size_ok : ok (nofsize n) /\ rv (nofsize n) = N.
  Proof using HL HL0 HL1 Hn0 Hn1.
    pose proof N_bounds as B.
    assert (E : IZR (Z.of_nat n) = N) by (unfold N; now rewrite INR_IZR_INZ).
    destruct (f_of_small (Z.of_nat n) 0) as [H1 H2].
    - change (bpow radix2 0) with 1. rewrite E, Rmult_1_r, Rabs_right by lra.
      apply Rle_trans with (bpow radix2 20); [change (bpow radix2 20) with 1048576; lra|apply bpow_le; lia].
    - apply fmt_int; [|lia]. rewrite Z.abs_eq by lia. apply Z.le_lt_trans with (2 ^ 20)%Z; [exact Hn1|reflexivity].
    - split; [exact H1|]. change (rv (nofsize n)) with (rv (f_of (Z.of_nat n) 0)). rewrite H2, E.
      change (bpow radix2 0) with 1. ring.
  Qed.

  Lemma inv_le : 0 < L / N <= L.
  Proof using HL HL0 HL1 Hn0 Hn1.
    pose proof N_bounds. pose proof L_pos. split; [apply Rdiv_lt_0_compat; lra|].
    apply Rmult_le_reg_r with N; [lra|]. replace (L / N * N) with L by (field; lra).
    rewrite <- (Rmult_1_r L) at 1. apply Rmult_le_compat_l; lra.
  Qed.

  Lemma width_value : ok wf /\ rv wf = rnd (2 * L / N).
  Proof using HL HL0 HL1 Hn0 Hn1.
    pose proof L_pos as P. pose proof inv_le as I. pose proof N_bounds as B.
    destruct (diameter ly HL P HL1) as [D1 D2]. destruct size_ok as [S1 S2].
    unfold wf. change (nmul (nofZ 2) ly) with (SFmul fprec femax (f_of 2 0) ly).
    destruct (op_div _ _ D1 S1 302) as [W1 W2]; try lia.
    - rewrite S2. lra.
    - rewrite D2, S2. apply big. replace (2 * L / N) with (2 * (L / N)) by (field; lra).
      rewrite Rabs_right; lra.
    - split; [exact W1|]. rewrite D2, S2 in W2. exact W2.
  Qed.

  Lemma width_err : Rabs (rv wf - 2 * (L / N)) <= 201 / 100 * dl.
  Proof using HL HL0 HL1 Hn0 Hn1.
    destruct width_value as [_ ->]. pose proof inv_le as I. pose proof N_bounds as B.
    replace (2 * L / N) with (2 * (L / N)) by (field; lra).
    pose proof (err 2 (2 * (L / N))) as E. rewrite Rabs_right in E by lra.
    specialize (E ltac:(lra)). lra.
  Qed.

  (** Relative error of the width. *)
  Lemma width_rel : Rabs (rv wf - 2 * L / N) <= bpow radix2 (-52) * (2 * L / N).
  Proof using HL HL0 HL1 Hn0 Hn1.
    destruct width_value as [_ ->]. pose proof inv_le as I. pose proof N_bounds as B. pose proof L_pos.
    eapply Rle_trans; [apply rnd_err|].
    replace (2 * L / N) with (2 * (L / N)) by (field; lra). rewrite Rabs_right by lra.
    change (-52)%Z with (1 + -53)%Z. rewrite bpow_plus. change (bpow radix2 1) with 2.
    assert (T : bpow radix2 (-1075) <= u * (2 * (L / N))); [|lra].
    replace (-1075)%Z with (-53 + (-300 + (-702 + -20)))%Z by lia. rewrite !bpow_plus.
    apply Rmult_le_compat_l; [apply bpow_ge_0|].
    apply Rle_trans with (bpow radix2 (-300) * bpow radix2 (-20)).
    - apply Rmult_le_compat_l; [apply bpow_ge_0|].
      rewrite <- (Rmult_1_l (bpow radix2 (-20))) at 2. apply Rmult_le_compat_r; [apply bpow_ge_0|].
      change 1 with (bpow radix2 0). apply bpow_le. lia.
    - change (bpow radix2 (-20)) with (/ 1048576).
      assert (Q : / 1048576 <= / N) by (apply Rinv_le_contravar; lra).
      unfold Rdiv. pose proof (bpow_gt_0 radix2 (-300)).
      apply Rle_trans with (L * / N); [apply Rmult_le_compat; lra|].
      unfold Rdiv in I. lra.
  Qed.

  Lemma abs_le : forall x a, Rabs x <= a -> - a <= x <= a.
  Proof. exact Rabs_def2b. Qed.

  Lemma start_ok : ok y0 /\ Rabs (rv y0 - (- L - L / N)) <= 5 * dl.
  Proof using HL HL0 HL1 Hn0 Hn1.
    destruct width_value as [W1 _]. pose proof width_err as W2. pose proof inv_le as I.
    pose proof L_pos as P. pose proof small as [_ SM]. pose proof dl_pos as DP.
    destruct f_two as [T1 T2]. unfold y0.
    change (ndiv wf (nofZ 2)) with (SFdiv fprec femax wf (f_of 2 0)).
    apply abs_le in W2.
    destruct (op_div wf (f_of 2 0) W1 T1 302) as [H1 H2]; try lia.
    { rewrite T2. lra. }
    { rewrite T2. apply big. apply Rabs_le. lra. }
    rewrite T2 in H2.
    pose proof (err (11 / 10) (rv wf / 2)) as E1.
    specialize (E1 ltac:(apply Rabs_le; lra)). rewrite <- H2 in E1. apply abs_le in E1.
    assert (O : ok (SFopp ly) /\ rv (SFopp ly) = - L).
    { destruct HL as [A B]. split; [split; [now apply dbl_opp|]|].
      - destruct ly; cbn in *; congruence.
      - unfold rv. destruct ly as [s|s| |s m e]; cbn [SFopp SF2R]; try lra.
        unfold F2R. cbn [Fnum Fexp]. destruct s; cbn [negb cond_Zopp].
        + replace (IZR (- Z.pos m)) with (- IZR (Z.pos m)) by (now rewrite <- opp_IZR). ring.
        + replace (IZR (- Z.pos m)) with (- IZR (Z.pos m)) by (now rewrite <- opp_IZR). ring. }
    destruct O as [O1 O2].
    change (nopp ly) with (SFopp ly).
    set (h := SFdiv fprec femax wf (f_of 2 0)) in *.
    change (nsub (SFopp ly) h) with (SFsub fprec femax (SFopp ly) h).
    destruct (op_sub (SFopp ly) h O1 H1 302) as [G1 G2]; try lia.
    { rewrite O2. apply big. apply Rabs_le. lra. }
    split; [exact G1|]. rewrite G2, O2.
    pose proof (err (22 / 10) (- L - rv h)) as E2. specialize (E2 ltac:(apply Rabs_le; lra)).
    apply abs_le in E2. apply Rabs_le. lra.
  Qed.

  (** One rib further. *)
  Lemma step : forall i y, (i < n)%nat -> ok y ->
    Rabs (rv y - (- L - L / N + INR i * (2 * (L / N)))) <= (5 + 4 * INR i) * dl ->
    let y' := nadd y wf in
    ok y' /\ Rabs (rv y' - band_middle L n i) <= (9 + 4 * INR i) * dl /\ Rabs (rv y') <= L.
  Proof using HL HL0 HL1 Hn0 Hn1.
    intros i y Hi Hy H. cbv zeta.
    destruct width_value as [W1 _]. pose proof width_err as W2. pose proof inv_le as I.
    pose proof L_pos as P. pose proof small as [SM SM']. pose proof dl_pos as DP. pose proof N_bounds as NB.
    assert (B1 : 0 <= INR i <= N - 1).
    { split; [apply pos_INR|]. unfold N. replace (INR n - 1) with (INR (n - 1)) by (rewrite minus_INR by lia; reflexivity).
      apply le_INR. lia. }
    set (k := INR i) in *. set (q := L / N) in *.
    assert (NQ : N * q = L) by (unfold q; field; lra).
    assert (KQ : 0 <= k * q <= L - q).
    { split; [apply Rmult_le_pos; lra|]. rewrite <- NQ. replace (N * q - q) with ((N - 1) * q) by ring.
      apply Rmult_le_compat_r; lra. }
    assert (KD : 0 <= k * dl /\ 4 * (k * dl) + 20 * dl <= q).
    { split; [apply Rmult_le_pos; lra|].
      apply Rle_trans with (8388608 * dl); [|exact SM].
      assert (k * dl <= 1048576 * dl) by (apply Rmult_le_compat_r; lra). lra. }
    apply abs_le in H. apply abs_le in W2.
    replace (k * (2 * q)) with (2 * (k * q)) in H by ring.
    replace ((5 + 4 * k) * dl) with (5 * dl + 4 * (k * dl)) in H by ring.
    change (nadd y wf) with (SFadd fprec femax y wf).
    destruct (op_add y wf 302 Hy W1) as [A1 A2]; try lia.
    { apply big. apply Rabs_le. lra. }
    pose proof (err (11 / 10) (rv y + rv wf)) as E. specialize (E ltac:(apply Rabs_le; lra)).
    rewrite <- A2 in E. apply abs_le in E.
    split; [exact A1|]. unfold band_middle. fold N. fold k. fold q.
    replace ((2 * k + 1) * q) with (2 * (k * q) + q) by ring.
    replace ((9 + 4 * k) * dl) with (9 * dl + 4 * (k * dl)) by ring.
    split; apply Rabs_le; lra.
  Qed.

  Lemma next_nominal : forall i, - L - L / N + INR (S i) * (2 * (L / N)) = band_middle L n i.
  Proof. intros i. unfold band_middle, N. rewrite S_INR. ring. Qed.

  Lemma in_width : forall y, ok y -> Rabs (rv y) <= L -> SFleb (SFabs y) ly = true.
  Proof using HL HL0 HL1 Hn0 Hn1.
    intros y Hy H. apply leb_rv; [|exact HL|].
    - destruct Hy as [A B]. split; [now apply dbl_abs|]. destruct y; cbn in *; congruence.
    - replace (rv (SFabs y)) with (Rabs (rv y)); [exact H|].
      unfold rv. destruct y as [s|s| |s m e]; cbn [SFabs SF2R]; try apply Rabs_R0.
      rewrite <- F2R_Zabs. f_equal. destruct s; reflexivity.
  Qed.

  Definition placed (i : nat) (r : rib f64) : Prop :=
    is_double (rb_y r) /\ SFleb (SFabs (rb_y r)) ly = true /\
    Rabs (rv (rb_y r) - band_middle L n i) <= (9 + 4 * INR i) * dl /\
    rb_width r = wf /\ rb_center r = V (f_of 0 0) (rb_y r) (f_of 0 0).

  Lemma ribs_placed : forall s m i y rs e, (i + m = n)%nat -> ok y ->
    Rabs (rv y - (- L - L / N + INR i * (2 * (L / N)))) <= (5 + 4 * INR i) * dl ->
    make_ribs s wf i m y = (rs, e) ->
    (forall j r, nth_error rs j = Some r -> placed (i + j) r) /\
    (e = None -> List.length rs = m).
  Proof using HL HL0 HL1 Hn0 Hn1.
    intros s m. induction m as [|m IH]; intros i y rs e Hm Hy H.
    - cbn [make_ribs]. intros E. apply pair_inj in E. destruct E as [<- <-].
      split; [intros [|j] r; discriminate|reflexivity].
    - cbn [make_ribs].
      destruct (step i y ltac:(lia) Hy H) as [A1 [A2 A3]].
      set (y' := nadd y wf) in *.
      assert (X : forall rs' e', (rs', e') = (rs, e) -> rs' = [] -> e' <> None ->
        (forall j r, nth_error rs j = Some r -> placed (i + j) r) /\ (e = None -> List.length rs = S m)).
      { intros rs' e' E -> N0. apply pair_inj in E. destruct E as [<- <-].
        split; [intros [|j] r; discriminate|congruence]. }
      destruct (surface_radius s y') as [r0| |]; try (intros E; eapply X; [exact E|reflexivity|discriminate]).
      destruct (surface_angle s y' neps) as [a0| |]; try (intros E; eapply X; [exact E|reflexivity|discriminate]).
      destruct ((nlt _ _ && _) && _); [|intros E; eapply X; [exact E|reflexivity|discriminate]].
      destruct (make_ribs s wf (S i) m y') as [rs' e'] eqn:ER.
      intros E. apply pair_inj in E. destruct E as [<- <-].
      destruct (IH (S i) y' rs' e' ltac:(lia) A1) as [J1 J2]; [|exact ER|].
      { rewrite next_nominal, S_INR. replace (5 + 4 * (INR i + 1)) with (9 + 4 * INR i) by ring. exact A2. }
      split.
      + intros [|j] r Hr; cbn [nth_error] in Hr.
        * apply some_inj in Hr. subst r. rewrite Nat.add_0_r.
          split; [apply A1|]. split; [now apply in_width|]. split; [exact A2|split; reflexivity].
        * replace (i + S j)%nat with (S i + j)%nat by lia. now apply J1.
      + intros He. cbn [List.length]. now rewrite J2.
  Qed.

  Lemma ribs_built : forall s m i y, sLy s = ly -> sound_profile lm s -> (i + m = n)%nat -> ok y ->
    Rabs (rv y - (- L - L / N + INR i * (2 * (L / N)))) <= (5 + 4 * INR i) * dl ->
    snd (make_ribs s wf i m y) = None.
  Proof using HL HL0 HL1 Hn0 Hn1.
    intros s m. induction m as [|m IH]; intros i y Es HS Hm Hy H; [reflexivity|].
    cbn [make_ribs].
    destruct (step i y ltac:(lia) Hy H) as [A1 [A2 A3]].
    set (y' := nadd y wf) in *.
    destruct (HS y') as [r [a [E1 [E2 [E3 [E4 E5]]]]]]; [apply A1|rewrite Es; now apply in_width|].
    change (surface_radius s y') with (@surface_radius f64 (F64_Num lm) s y'). rewrite E1.
    change (surface_angle s y' neps) with (@surface_angle f64 (F64_Num lm) s y' (f_of 1 (-26))). rewrite E2.
    change (nlt (nofZ 0) r) with (SFltb (S754_zero false) r). rewrite E3.
    assert (Q : forall x : f64, x <> S754_nan -> neq x x = true).
    { intros x Hx. cbn [neq NP F64_Num]. unfold SFeqb. pose proof (f64_cmp x x) as C.
      destruct (SFcompare x x) as [[]|]; try reflexivity; exfalso; [| |tauto];
        destruct C as [_ [_ C]]; lia. }
    rewrite (Q r E4), (Q a E5). cbn [andb].
    destruct (make_ribs s wf (S i) m y') as [rs' e'] eqn:ER. cbn [snd].
    change e' with (snd (rs', e')). rewrite <- ER. apply IH; try assumption; [lia|].
    rewrite next_nominal, S_INR. replace (5 + 4 * (INR i + 1)) with (9 + 4 * INR i) by ring. exact A2.
  Qed.
End Places.

Lemma sound_width_ok : forall ly, sound_width ly ->
  ok ly /\ bpow radix2 (-300) <= rv ly /\ rv ly <= bpow radix2 300.
Proof.
  intros ly [H [H1 H2]].
  destruct (f_pow 300 ltac:(lia)) as [P1 P2].
  assert (Q : ok (f_of 1 (-300)) /\ rv (f_of 1 (-300)) = bpow radix2 (-300)).
  { destruct (f_of_small 1 (-300)) as [A B].
    - rewrite Rmult_1_l, Rabs_right by (apply Rle_ge, bpow_ge_0). apply bpow_le. lia.
    - rewrite Rmult_1_l. apply rnd_bpow. lia.
    - split; [exact A|]. rewrite B. ring. }
  destruct Q as [Q1 Q2].
  assert (O : ok ly) by exact (ok_between ly _ _ H Q1 P1 H1 H2).
  apply leb_rv in H1; [|assumption..]. apply leb_rv in H2; [|assumption..].
  rewrite Q2 in H1. rewrite P2 in H2. auto.
Qed.

Lemma start_step : forall lm ly n, ok ly -> bpow radix2 (-300) <= rv ly -> rv ly <= bpow radix2 300 ->
  (1 <= n)%nat -> (Z.of_nat n <= 2 ^ 20)%Z ->
  Rabs (rv (y0 lm ly n) - (- rv ly - rv ly / N n + INR 0 * (2 * (rv ly / N n)))) <= (5 + 4 * INR 0) * dl ly.
Proof.
  intros lm ly n H0 H1 H2 H3 H4. cbn [INR].
  replace (- rv ly - rv ly / N n + 0 * (2 * (rv ly / N n))) with (- rv ly - rv ly / N n) by ring.
  replace ((5 + 4 * 0) * dl ly) with (5 * dl ly) by ring.
  now apply start_ok.
Qed.

Lemma shell_ribs_all : forall lm n rx mx r_y my ly s,
  sound_width ly -> (Z.of_nat n <= 2 ^ 20)%Z ->
  @mk_shell f64 (F64_Num lm) n rx mx r_y my ly = Ret s ->
  List.length (sh_ribs s) = n /\
  forall i r, nth_error (sh_ribs s) i = Some r ->
    is_double (rb_y r) /\ rb_center r = V (f_of 0 0) (rb_y r) (f_of 0 0) /\
    SFleb (SFabs (rb_y r)) ly = true /\
    Rabs (value (rb_y r) - band_middle (value ly) n i) <= (4 * INR i + 9) * (/ 2 ^ 53 * value ly) /\
    Rabs (value (rb_width r) - 2 * value ly / INR n) <= / 2 ^ 52 * (2 * value ly / INR n).
Proof.
  intros lm n rx mx r_y my ly s HW Hn H.
  destruct (sound_width_ok ly HW) as [L1 [L2 L3]].
  unfold mk_shell, resize in H. destruct n as [|n']; [discriminate H|].
  set (n := S n') in *. assert (Hn0 : (1 <= n)%nat) by (unfold n; lia).
  cbn [sh_shape] in H.
  match type of H with context [@make_ribs _ _ ?a ?b ?c ?d ?e] =>
    change (@make_ribs _ _ a b c d e) with
      (@make_ribs f64 (F64_Num lm) (Shape rx mx r_y my ly) (wf lm ly n) 0 n (y0 lm ly n)) in H end.
  destruct (@make_ribs f64 (F64_Num lm) (Shape rx mx r_y my ly) (wf lm ly n) 0 n (y0 lm ly n)) as [rs e] eqn:ER.
  destruct e as [x|]; [discriminate H|].
  assert (E : sh_ribs s = rs).
  { assert (X : forall (a b : shell f64), Ret a = Ret b -> a = b) by congruence.
    apply X in H. rewrite <- H. reflexivity. }
  rewrite E. 
  destruct (start_ok lm ly n L1 L2 L3 Hn0 Hn) as [Y1 _].
  destruct (ribs_placed lm ly n L1 L2 L3 Hn0 Hn (Shape rx mx r_y my ly) n 0 (y0 lm ly n) rs None eq_refl Y1
              (start_step lm ly n L1 L2 L3 Hn0 Hn) ER) as [A B].
  split; [now apply B|]. intros i r Hr. destruct (A i r Hr) as [A1 [A2 [A3 [A4 A5]]]].
  cbn [Nat.add] in A3. rewrite !value_rv.
  split; [exact A1|]. split; [exact A5|]. split; [exact A2|]. split.
  - unfold dl in A3. replace (/ 2 ^ 53) with u; [replace (4 * INR i + 9) with (9 + 4 * INR i) by ring; exact A3|].
    rewrite pow_IZR. reflexivity.
  - rewrite A4. pose proof (width_rel lm ly n L1 L2 L3 Hn0 Hn) as W. unfold N in W.
    replace (/ 2 ^ 52) with (bpow radix2 (-52)); [exact W|].
    rewrite pow_IZR. reflexivity.
Qed.

Lemma shell_ribs_placed : forall lm n rx mx r_y my ly s,
  sound_width ly -> (Z.of_nat n <= 2 ^ 20)%Z ->
  @mk_shell f64 (F64_Num lm) n rx mx r_y my ly = Ret s ->
  List.length (sh_ribs s) = n /\
  forall i r, nth_error (sh_ribs s) i = Some r ->
    rb_center r = V (f_of 0 0) (rb_y r) (f_of 0 0) /\
    SFleb (SFabs (rb_y r)) ly = true /\
    Rabs (value (rb_y r) - band_middle (value ly) n i) <= (4 * INR i + 9) * (/ 2 ^ 53 * value ly) /\
    Rabs (value (rb_width r) - 2 * value ly / INR n) <= / 2 ^ 52 * (2 * value ly / INR n).
Proof.
  intros lm n rx mx r_y my ly s HW Hn H.
  destruct (shell_ribs_all lm n rx mx r_y my ly s HW Hn H) as [A B].
  split; [exact A|]. intros i r Hr. apply (B i r Hr).
Qed.

Lemma shell_built : forall lm n rx mx r_y my ly,
  sound_width ly -> (1 <= n)%nat -> (Z.of_nat n <= 2 ^ 20)%Z ->
  sound_profile lm (Shape rx mx r_y my ly) ->
  exists s, @mk_shell f64 (F64_Num lm) n rx mx r_y my ly = Ret s.
Proof.
  intros lm n rx mx r_y my ly HW Hn0 Hn HS.
  destruct (sound_width_ok ly HW) as [L1 [L2 L3]].
  destruct (start_ok lm ly n L1 L2 L3 Hn0 Hn) as [Y1 _].
  pose proof (ribs_built lm ly n L1 L2 L3 Hn0 Hn (Shape rx mx r_y my ly) n 0 (y0 lm ly n) eq_refl HS eq_refl Y1
                (start_step lm ly n L1 L2 L3 Hn0 Hn)) as B.
  unfold mk_shell, resize. destruct n as [|n']; [lia|]. set (n := S n') in *. cbn [sh_shape].
  match goal with |- context [@make_ribs _ _ ?a ?b ?c ?d ?e] =>
    change (@make_ribs _ _ a b c d e) with
      (@make_ribs f64 (F64_Num lm) (Shape rx mx r_y my ly) (wf lm ly n) 0 n (y0 lm ly n)) end.
  change (NP lm) with (F64_Num lm) in B.
  destruct (@make_ribs f64 (F64_Num lm) (Shape rx mx r_y my ly) (wf lm ly n) 0 n (y0 lm ly n)) as [rs e].
  cbn [snd] in B. subst e. eexists. reflexivity.
Qed.
