(** * [std::stoi] reads decimal integers. *)
From Coq Require Import ZArith Bool Lia List Ascii.
From Verif Require Import Base Str SpecLoad SpecInt.
Import ListNotations.
Local Open Scope Z_scope.

Lemma is_space_white : forall c, is_space c = true <-> white c.
Proof.
  intros c. unfold is_space, white. rewrite orb_true_iff, andb_true_iff, Nat.eqb_eq, !Nat.leb_le. split; intros [H|H]; auto; left.
  - rewrite <- (ascii_nat_embedding c), H. reflexivity.
  - subst c. reflexivity.
Qed.
Lemma digit_some : forall c, decimal c -> digit c = Some (digit_value c).
Proof.
  intros c H. unfold digit, decimal, digit_value in *. change (nat_of_ascii "0") with 48%nat in *. change (nat_of_ascii "9") with 57%nat in *.
  destruct H as [H1 H2]. apply Nat.leb_le in H1, H2. now rewrite H1, H2.
Qed.
Lemma digit_none : forall c, ~ decimal c -> digit c = None.
Proof.
  intros c H. unfold digit, decimal in *. change (nat_of_ascii "0") with 48%nat in *. change (nat_of_ascii "9") with 57%nat in *.
  destruct (Nat.leb 48 (nat_of_ascii c) && Nat.leb (nat_of_ascii c) 57) eqn:E; [|reflexivity]. exfalso. apply H.
  apply andb_true_iff in E. rewrite !Nat.leb_le in E. exact E.
Qed.
Lemma decimal_dec : forall c, {decimal c} + {~ decimal c}.
Proof.
  intros c. unfold decimal. destruct (le_dec (nat_of_ascii "0") (nat_of_ascii c)); [|right; tauto].
  destruct (le_dec (nat_of_ascii c) (nat_of_ascii "9")); [left|right]; tauto.
Qed.
Lemma decimal_not_white : forall c, decimal c -> is_space c = false.
Proof.
  intros c H. destruct (is_space c) eqn:E; [|reflexivity]. apply is_space_white in E. unfold decimal in H.
  change (nat_of_ascii "0") with 48%nat in H. destruct E as [->|E]; [cbn in H|]; lia.
Qed.
Lemma decimal_not_sign : forall c, decimal c -> Ascii.eqb c "-" = false /\ Ascii.eqb c "+" = false.
Proof.
  intros c H. unfold decimal in H. change (nat_of_ascii "0") with 48%nat in H. split; apply Ascii.eqb_neq; intros ->; cbn in H; lia.
Qed.
Lemma drop_blanks : forall bs s, Forall white bs -> drop_spaces (bs ++ s) = drop_spaces s.
Proof.
  intros bs s. induction bs as [|c bs IH]; intros H; [reflexivity|]. apply Forall_cons_iff in H. destruct H as [H F].
  cbn. apply is_space_white in H. rewrite H. auto.
Qed.
Lemma drop_split : forall s, exists bs, Forall white bs /\ s = bs ++ drop_spaces s.
Proof.
  induction s as [|c s (bs & F & E)]; [now exists []|]. cbn. destruct (is_space c) eqn:W.
  - exists (c :: bs). split; [constructor; [now apply is_space_white|exact F]|]. cbn. now f_equal.
  - now exists [].
Qed.
Lemma run_decimal : forall ds v, run_value ds v -> Forall decimal ds.
Proof. intros ds v H. induction H; [now constructor|]. apply Forall_app. split; [assumption|now constructor]. Qed.
Lemma run_nonempty : forall ds v, run_value ds v -> exists c ds', ds = c :: ds' /\ decimal c.
Proof.
  intros ds v H. pose proof (run_decimal _ _ H) as F. destruct ds as [|c ds]; [exfalso|exists c, ds; split; [reflexivity|now inversion F]].
  inversion H. now destruct ds.
Qed.
Lemma read_over : forall ds rest acc n, Forall decimal ds -> (forall c r, rest = c :: r -> ~ decimal c) ->
  read_digits (ds ++ rest) acc n = (fold_left (fun v c => v * 10 + digit_value c) ds acc, (n + length ds)%nat).
Proof.
  intros ds rest. induction ds as [|d ds IH]; intros acc n F N.
  - cbn [app length fold_left]. rewrite Nat.add_0_r. destruct rest as [|c r]; [reflexivity|]. cbn. now rewrite (digit_none c (N c r eq_refl)).
  - apply Forall_cons_iff in F. destruct F as [D F]. cbn [app read_digits fold_left length]. rewrite (digit_some d D), IH by assumption. f_equal. lia.
Qed.
Lemma run_fold : forall ds v, run_value ds v -> fold_left (fun v c => v * 10 + digit_value c) ds 0 = v.
Proof. intros ds v H. induction H; [reflexivity|]. rewrite fold_left_app. cbn [fold_left]. rewrite IHrun_value. lia. Qed.
Lemma fold_run : forall ds, ds <> [] -> Forall decimal ds -> run_value ds (fold_left (fun v c => v * 10 + digit_value c) ds 0).
Proof.
  intros ds. induction ds as [|c ds IH] using rev_ind; intros N F; [congruence|]. apply Forall_app in F. destruct F as [F D].
  apply Forall_inv in D. rewrite fold_left_app. cbn [fold_left]. rewrite Z.mul_comm. destruct ds as [|d ds]; [now constructor|].
  apply rv_more; [apply IH; [discriminate|assumption]|exact D].
Qed.
Lemma digits_split : forall s, exists ds rest, s = ds ++ rest /\ Forall decimal ds /\ (forall c r, rest = c :: r -> ~ decimal c).
Proof.
  induction s as [|c s (ds & rest & E & F & N)]; [now exists [], []|]. destruct (decimal_dec c) as [D|D].
  - exists (c :: ds), rest. split; [cbn; now f_equal|]. split; [now constructor|exact N].
  - exists [], (c :: s). repeat split; auto. intros c' r H. now injection H as <- _.
Qed.
Lemma stoi_value : forall s z, reads_int s z -> stoi s = if (int_min <=? z) && (z <=? int_max) then Ret z else Throw OutOfRange.
Proof.
  intros s z (bs & sg & ds & rest & k & v & -> & W & S & R & N & ->). unfold stoi. rewrite drop_blanks by exact W.
  destruct (run_nonempty _ _ R) as (c & ds' & E & D). pose proof (run_decimal _ _ R) as F. pose proof (run_fold _ _ R) as V.
  destruct S.
  - subst ds. cbn [app]. cbn [drop_spaces]. rewrite (decimal_not_white c D). destruct (decimal_not_sign c D) as [M P]. rewrite M, P.
    change (c :: ds' ++ rest) with ((c :: ds') ++ rest). rewrite read_over, V by assumption. cbn [length]. cbn [Nat.add]. now rewrite Z.mul_1_l.
  - cbn [app drop_spaces]. change (is_space "+") with false. cbn iota. change (Ascii.eqb "+" "-") with false. change (Ascii.eqb "+" "+") with true. cbn iota.
    rewrite read_over, V by assumption. subst ds. cbn [length]. cbn [Nat.add]. now rewrite Z.mul_1_l.
  - cbn [app drop_spaces]. change (is_space "-") with false. cbn iota. change (Ascii.eqb "-" "-") with true. cbn iota.
    rewrite read_over, V by assumption. subst ds. cbn [length]. cbn [Nat.add]. now replace (-1 * v) with (- v) by lia.
Qed.
Lemma stoi_nothing : forall s, stoi s = Throw InvalidArgument \/ exists z, reads_int s z.
Proof.
  intros s. destruct (drop_split s) as (bs & W & E). unfold stoi. set (u := drop_spaces s) in *. clearbody u. subst s.
  assert (G : exists sg k t neg, u = sg ++ t /\ sign sg k /\
    (match u with c :: s' => if Ascii.eqb c "-"%char then (true, s') else if Ascii.eqb c "+"%char then (false, s') else (false, u) | [] => (false, []) end) = (neg, t)).
  { destruct u as [|c u]; [exists [], 1, [], false; repeat split; constructor|].
    destruct (Ascii.eqb c "-") eqn:M; [apply Ascii.eqb_eq in M; subst c; exists ["-"%char], (-1), u, true; repeat split; constructor|].
    destruct (Ascii.eqb c "+") eqn:P; [apply Ascii.eqb_eq in P; subst c; exists ["+"%char], 1, u, false; repeat split; constructor|].
    exists [], 1, (c :: u), false. repeat split; constructor. }
  destruct G as (sg & k & t & neg & -> & S & ->). destruct (digits_split t) as (ds & rest & -> & F & N).
  destruct ds as [|d ds].
  - left. cbn [app]. destruct rest as [|c r]; [reflexivity|]. cbn [read_digits]. now rewrite (digit_none c (N c r eq_refl)).
  - right. exists (k * fold_left (fun v c => v * 10 + digit_value c) (d :: ds) 0). exists bs, sg, (d :: ds), rest, k, (fold_left (fun v c => v * 10 + digit_value c) (d :: ds) 0).
    repeat (split; [assumption || reflexivity|]). split; [apply fold_run; [discriminate|assumption]|]. split; [exact N|reflexivity].
Qed.
Lemma stoi_spec : forall s,
  (forall z, stoi s = Ret z <-> reads_int s z /\ int_min <= z <= int_max) /\
  (stoi s = Throw OutOfRange <-> exists z, reads_int s z /\ ~ int_min <= z <= int_max) /\
  (stoi s = Throw InvalidArgument <-> ~ exists z, reads_int s z) /\
  stoi s <> UB /\ stoi s <> Throw RuntimeError.
Proof.
  intros s. destruct (stoi_nothing s) as [E|[z R]].
  - assert (NR : forall z, ~ reads_int s z). { intros z R. apply stoi_value in R. rewrite E in R. destruct (_ && _); discriminate. }
    rewrite E. repeat split; try discriminate; try (intros [z [R _]]; now apply NR in R); try (intros [R _]; now apply NR in R).
    intros _ [z R]. now apply NR in R.
  - pose proof (stoi_value s z R) as E. assert (U : forall z', reads_int s z' -> ~ int_min <= z <= int_max \/ z' = z).
    { intros z' R'. apply stoi_value in R'. destruct ((int_min <=? z) && (z <=? int_max)) eqn:B; [right|left].
      - rewrite E in R'. destruct ((int_min <=? z') && _); congruence.
      - intros [B1 B2]. apply Z.leb_le in B1, B2. now rewrite B1, B2 in B. }
    destruct ((int_min <=? z) && (z <=? int_max)) eqn:B; rewrite E.
    + apply andb_true_iff in B. rewrite !Z.leb_le in B. split; [|split; [|split; [|split; discriminate]]].
      * intros z'. split; [intros H; injection H as <-; auto|]. intros [R' _]. destruct (U z' R') as [? | ->]; [tauto|reflexivity].
      * split; [discriminate|]. intros (z' & R' & NB). destruct (U z' R') as [? | ->]; tauto.
      * split; [discriminate|]. intros H. exfalso. apply H. now exists z.
    + assert (NB : ~ int_min <= z <= int_max). { intros [B1 B2]. apply Z.leb_le in B1, B2. now rewrite B1, B2 in B. }
      split; [|split; [|split; [|split; discriminate]]].
      * intros z'. split; [discriminate|]. intros [R' B']. apply stoi_value in R'. rewrite E in R'. destruct B' as [B1 B2]. apply Z.leb_le in B1, B2. rewrite B1, B2 in R'. discriminate.
      * split; [intros _; now exists z|reflexivity].
      * split; [discriminate|]. intros H. exfalso. apply H. now exists z.
Qed.
