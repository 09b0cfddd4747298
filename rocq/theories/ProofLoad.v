(** * Proofs about the mesh loaders. *)
From Coq Require Import ZArith Bool Lia Ascii String Permutation List.
From Verif Require Import Base Num Vec Aabb Tree Geom Ground Str Mesh SpecLoad.
Import ListNotations.

(** ** Strings. *)
Lemma str_eqb_eq : forall a b, str_eqb a b = true <-> a = b.
Proof.
  induction a as [|x a IH]; destruct b as [|y b]; cbn; split; intros H; auto; try discriminate.
  - apply andb_true_iff in H. destruct H as [H1 H2].
    apply Ascii.eqb_eq in H1. apply IH in H2. now subst.
  - inversion H; subst. rewrite Ascii.eqb_refl. cbn. now apply IH.
Qed.
Lemma str_eqb_neq : forall a b, str_eqb a b = false <-> a <> b.
Proof.
  intros a b. rewrite <- str_eqb_eq. destruct (str_eqb a b); split; intros; congruence.
Qed.

Lemma is_blank_eq : forall c, is_blank c = blank2 c.
Proof. reflexivity. Qed.
Lemma is_blank4_eq : forall c, is_blank4 c = blank4 c.
Proof. reflexivity. Qed.

Lemma take_drop : forall p s, take_while p s ++ drop_while p s = s.
Proof. intros p s. induction s as [|c s IH]; cbn; [reflexivity|]. destruct (p c); cbn; congruence. Qed.

Lemma drop_while_ext : forall p q s, (forall c, p c = q c) -> drop_while p s = drop_while q s.
Proof. intros p q s H. induction s as [|c s IH]; cbn; [reflexivity|]. rewrite <- H. now destruct (p c). Qed.
Lemma take_while_ext : forall p q s, (forall c, p c = q c) -> take_while p s = take_while q s.
Proof. intros p q s H. induction s as [|c s IH]; cbn; [reflexivity|]. rewrite <- H. destruct (p c); congruence. Qed.
Lemma no_no : forall p c, no (no p) c = p c.
Proof. intros. unfold no. apply negb_involutive. Qed.

Lemma index_of_some : forall p s n, index_of p s = Some n ->
  firstn n s = take_while (no p) s /\ skipn n s = drop_while (no p) s /\ skipn n s <> [].
Proof.
  intros p s. induction s as [|c s IH]; cbn; intros n H; [discriminate|].
  assert (EN : no p c = negb (p c)) by reflexivity. rewrite EN.
  destruct (p c) eqn:E; cbn.
  - inversion H; subst. cbn. repeat split; auto; discriminate.
  - destruct (index_of p s) as [k|]; [|discriminate]. cbn in H. inversion H; subst. cbn.
    destruct (IH k eq_refl) as (H1 & H2 & H3). repeat split; auto. congruence.
Qed.
Lemma index_of_none : forall p s, index_of p s = None ->
  take_while (no p) s = s /\ drop_while (no p) s = [].
Proof.
  intros p s. induction s as [|c s IH]; cbn; intros H; [auto|].
  assert (EN : no p c = negb (p c)) by reflexivity. rewrite EN.
  destruct (p c) eqn:E; cbn; [discriminate|].
  destruct (index_of p s) as [k|]; [discriminate|].
  destruct IH as [H1 H2]; auto. split; congruence.
Qed.

Lemma first_token_word : forall l, first_token l = first_word l.
Proof.
  intros l. unfold first_token, first_word. destruct l as [|c0 l0]; [reflexivity|].
  set (l := c0 :: l0). unfold find_first at 1. cbn [skipn].
  assert (ED : drop_while (no (fun c => negb (is_blank4 c))) l = drop_while blank4 l)
    by (apply drop_while_ext; intros c; unfold no; now rewrite negb_involutive).
  destruct (index_of (fun c => negb (is_blank4 c)) l) as [a|] eqn:E; cbn [option_map].
  - destruct (index_of_some _ _ _ E) as (_ & H2 & _). rewrite ED in H2.
    cbn [Nat.add]. unfold find_first. rewrite H2.
    destruct (index_of is_blank4 (drop_while blank4 l)) as [k|] eqn:E2; cbn [option_map].
    + destruct (index_of_some _ _ _ E2) as (H3 & _ & _).
      unfold sub. replace (a + k - a) with k by lia. rewrite H2, H3. reflexivity.
    + destruct (index_of_none _ _ E2) as (H3 & _).
      symmetry. exact H3.
  - destruct (index_of_none _ _ E) as (_ & H2). rewrite ED in H2. now rewrite H2.
Qed.

Lemma find_last_nonempty : forall p s, drop_while (no p) s <> [] ->
  exists n, find_last p s = Some n.
Proof.
  intros p s. induction s as [|c s IH]; cbn; intros H; [congruence|].
  unfold no at 1 in H. destruct (p c) eqn:E; cbn in H.
  - destruct (find_last p s); eauto.
  - destruct IH as [n Hn]; auto. rewrite Hn. eauto.
Qed.

Lemma drop_while_app : forall p a b, drop_while p (a ++ b) =
  match drop_while p a with [] => drop_while p b | d => d ++ b end.
Proof.
  intros p a b. induction a as [|c a IH]; cbn; [reflexivity|].
  destruct (p c); [exact IH|reflexivity].
Qed.

Lemma rtrim_find_last : forall p s,
  rev (drop_while (no p) (rev s)) =
    match find_last p s with Some n => firstn (S n) s | None => [] end.
Proof.
  intros p s. induction s as [|c s IH]; [reflexivity|].
  cbn [rev find_last]. rewrite drop_while_app.
  destruct (find_last p s) as [n|] eqn:Ef.
  - assert (HS : s <> []).
    { intros ->. cbn in Ef. discriminate. }
    destruct (drop_while (no p) (rev s)) as [|d ds] eqn:E.
    { destruct s; [congruence|]. discriminate IH. }
    rewrite rev_app_distr, IH. reflexivity.
  - destruct (drop_while (no p) (rev s)) as [|d ds] eqn:E.
    + cbn. unfold no. destruct (p c); reflexivity.
    + exfalso. cbn in IH. apply app_eq_nil in IH. destruct IH; discriminate.
Qed.

Lemma find_last_app : forall p a b n, find_last p b = Some n ->
  find_last p (a ++ b) = Some (length a + n).
Proof.
  intros p a b n H. induction a as [|c a IH]; cbn; [exact H|]. now rewrite IH.
Qed.

Lemma skipn_skipn' : forall A a b (l : list A), skipn a (skipn b l) = skipn (b + a) l.
Proof.
  intros A a b. induction b as [|b IH]; intros l; cbn; [reflexivity|].
  destruct l; [now rewrite skipn_nil|apply IH].
Qed.

Lemma tail_after_first : forall l, tail l = after_first l.
Proof.
  intros l. unfold tail, after_first.
  set (nb := fun c => negb (is_blank c)).
  assert (ED : forall s, drop_while (no nb) s = drop_while blank2 s)
    by (intros s; apply drop_while_ext; intros c; unfold no, nb; now rewrite negb_involutive).
  unfold find_first. cbn [skipn].
  destruct (index_of nb l) as [a|] eqn:E; cbn [option_map].
  2:{ destruct (index_of_none _ _ E) as (_ & H). rewrite ED in H. rewrite H. reflexivity. }
  destruct (index_of_some _ _ _ E) as (_ & H2 & _). rewrite ED in H2.
  cbn [Nat.add]. rewrite H2. rewrite <- (drop_while_ext (no is_blank) (no blank2)) by reflexivity.
  destruct (index_of is_blank (drop_while blank2 l)) as [k|] eqn:E2; cbn [option_map].
  2:{ destruct (index_of_none _ _ E2) as (_ & H). rewrite H. reflexivity. }
  destruct (index_of_some _ _ _ E2) as (_ & H3 & _).
  assert (S2 : skipn (a + k) l = drop_while (no is_blank) (drop_while blank2 l)).
  { rewrite <- H3, <- H2. rewrite skipn_skipn'. reflexivity. }
  rewrite S2.
  set (T := drop_while (no is_blank) (drop_while blank2 l)) in *.
  destruct (index_of nb T) as [m|] eqn:E3; cbn [option_map].
  2:{ destruct (index_of_none _ _ E3) as (_ & H). rewrite ED in H. rewrite H. reflexivity. }
  destruct (index_of_some _ _ _ E3) as (_ & H4 & H5). rewrite ED in H4.
  set (t := a + k + m).
  assert (S3 : skipn t l = drop_while blank2 T).
  { unfold t. rewrite <- H4, <- S2. rewrite skipn_skipn'. reflexivity. }
  rewrite H4 in H5.
  assert (HN : drop_while (no nb) (drop_while blank2 T) <> []).
  { rewrite ED. clear - H5. induction T as [|c s IH]; cbn in *; [congruence|].
    destruct (blank2 c) eqn:Eb; [auto|]. cbn. now rewrite Eb. }
  destruct (find_last_nonempty _ _ HN) as [n Hn].
  assert (HL : find_last nb l = Some (length (firstn t l) + n)).
  { rewrite <- (firstn_skipn t l) at 1. apply find_last_app. now rewrite S3. }
  rewrite HL.
  assert (Hlen : length (firstn t l) = t).
  { apply firstn_length_le. destruct (Nat.le_gt_cases t (length l)); auto.
    exfalso. apply H5. rewrite <- S3. apply skipn_all2. lia. }
  rewrite Hlen. unfold sub. replace (t + n - t + 1) with (S n) by lia.
  rewrite S3. rewrite <- (ED (rev (drop_while blank2 T))).
  rewrite rtrim_find_last. now rewrite Hn.
Qed.

(** ** Words. *)
Lemma span_unique : forall (sep : ascii -> bool) w w' s s',
  forallb (no sep) w = true -> forallb (no sep) w' = true ->
  match s with [] => True | c :: _ => sep c = true end ->
  match s' with [] => True | c :: _ => sep c = true end ->
  w ++ s = w' ++ s' -> w = w' /\ s = s'.
Proof.
  intros sep w. induction w as [|c w IH]; intros w' s s' F F' Hs Hs' E.
  - destruct w' as [|c' w']; [auto|].
    cbn in *. subst s. apply andb_true_iff in F'. destruct F' as [F' _].
    unfold no in F'. rewrite Hs in F'. discriminate.
  - destruct w' as [|c' w']; cbn in *.
    + subst s'. apply andb_true_iff in F. destruct F as [F _].
      unfold no in F. rewrite Hs' in F. discriminate.
    + inversion E; subst. apply andb_true_iff in F. apply andb_true_iff in F'.
      destruct (IH w' s s') as [-> ->]; tauto.
Qed.

Lemma words_unique : forall sep s ws, words sep s ws -> forall ws', words sep s ws' -> ws = ws'.
Proof.
  intros sep s ws H. induction H as [|c s ws Hc Hw IH|w s ws Hne Hf Hs Hw IH]; intros ws' H'.
  - inversion H' as [| |w s ws Hne Hf Hs Hw E]; subst; auto.
    destruct w; [congruence|discriminate].
  - inversion H' as [|c' s' ws'' Hc' Hw' E1 E2|w s' ws'' Hne Hf Hs Hw' E1 E2]; subst.
    + auto.
    + destruct w as [|c' w]; [congruence|]. cbn in *. inversion E1; subst.
      apply andb_true_iff in Hf. destruct Hf as [Hf _]. unfold no in Hf.
      rewrite Hc in Hf. discriminate.
  - inversion H' as [E1|c' s' ws'' Hc' Hw' E1 E2|w' s' ws'' Hne' Hf' Hs' Hw' E1 E2]; subst.
    + destruct w; [congruence|discriminate].
    + destruct w as [|c'' w]; [congruence|]. cbn in *. inversion E1; subst.
      apply andb_true_iff in Hf. destruct Hf as [Hf _]. unfold no in Hf.
      rewrite Hc' in Hf. discriminate.
    + destruct (span_unique sep w' w s' s) as [-> ->]; auto. f_equal. auto.
Qed.

Lemma split_loop_words : forall s tmp out,
  forallb (no space1) tmp = true -> (tmp = [] \/ s <> []) ->
  exists ws, split_loop (length s) [c_space] s tmp out = out ++ ws /\
             words space1 (tmp ++ s) ws.
Proof.
  induction s as [|c s IH]; intros tmp out Hf Ht.
  - destruct Ht as [->|]; [|congruence]. exists []. cbn. rewrite app_nil_r. split; auto. constructor.
  - cbn [length split_loop]. unfold sub. cbn [skipn firstn length str_eqb].
    rewrite andb_true_r.
    destruct (Ascii.eqb c c_space) eqn:Ec.
    + destruct tmp as [|d tmp].
      * destruct (IH [] out) as (ws & E & W); auto. exists ws. split; auto.
        cbn. apply words_sep; auto.
      * destruct (IH [] (out ++ [d :: tmp])) as (ws & E & W); auto.
        exists ((d :: tmp) :: ws). split.
        { etransitivity; [exact E|]. now rewrite <- app_assoc. }
        apply words_word; auto; try discriminate.
        apply words_sep; auto.
    + assert (Hf' : forallb (no space1) (tmp ++ [c]) = true).
      { rewrite forallb_app, Hf. cbn. unfold no, space1. change sp with c_space. now rewrite Ec. }
      destruct s as [|c2 s].
      * cbn. exists [tmp ++ [c]]. split; auto.
        rewrite <- (app_nil_r (tmp ++ [c])) at 1. apply words_word; auto.
        -- destruct tmp; discriminate.
        -- constructor.
      * cbn [length Nat.leb]. destruct (IH (tmp ++ [c]) out) as (ws & E & W); auto.
        { right; discriminate. }
        exists ws. split; auto. rewrite <- app_assoc in W. exact W.
Qed.

Lemma split_words : forall s, words space1 s (split s (lit " ")).
Proof.
  intros s. destruct (split_loop_words s [] []) as (ws & E & W); auto.
  unfold split. change (lit " ") with [c_space]. rewrite E. exact W.
Qed.

Lemma split_iff : forall s ws, split s (lit " ") = ws <-> words space1 s ws.
Proof.
  intros s ws. split.
  - intros <-. apply split_words.
  - intros H. eapply words_unique; [apply split_words|exact H].
Qed.

(** ** Lines. *)
Lemma getlines_aux_lines : forall s cur, ~ In nl cur -> 
  lines (rev cur ++ s) (getlines_aux s cur).
Proof.
  induction s as [|c s IH]; intros cur Hc; cbn.
  - rewrite app_nil_r. destruct cur as [|d cur]; [constructor|].
    apply lines_last.
    + intros E. apply (f_equal (@length _)) in E. rewrite rev_length in E. discriminate.
    + rewrite <- in_rev. exact Hc.
  - destruct (Ascii.eqb c c_nl) eqn:E.
    + apply Ascii.eqb_eq in E. subst c. apply lines_cons.
      * rewrite <- in_rev. exact Hc.
      * apply (IH []). auto.
    + specialize (IH (c :: cur)). cbn [rev] in IH. rewrite <- app_assoc in IH. apply IH.
      intros [H|H]; auto. subst c. now rewrite Ascii.eqb_refl in E.
Qed.
Lemma getlines_lines : forall s, lines s (getlines s).
Proof. intros s. apply (getlines_aux_lines s []). auto. Qed.

Lemma lines_unique : forall s ls, lines s ls -> forall ls', lines s ls' -> ls = ls'.
Proof.
  assert (HU : forall l l' s s', ~ In nl l -> ~ In nl l' -> l ++ nl :: s = l' ++ nl :: s' ->
            l = l' /\ s = s').
  { induction l as [|c l IH]; destruct l' as [|c' l']; cbn; intros s s' H1 H2 E.
    - inversion E. auto.
    - inversion E; subst. exfalso. auto.
    - inversion E; subst. exfalso. auto.
    - inversion E; subst. destruct (IH l' s s') as [-> ->]; auto. }
  intros s ls H. induction H as [|l Hl Hn|l s ls Hn Hs IH]; intros ls' H'.
  - inversion H' as [|l' Hl'|l' s' ls'' Hn' Hs' E]; subst; auto; try congruence.
    destruct l'; discriminate.
  - inversion H' as [E|l' Hl'|l' s' ls'' Hn' Hs' E]; subst; auto; try congruence.
    exfalso. apply Hn. rewrite in_app_iff. cbn. auto.
  - inversion H' as [E|l' Hl' Hn'|l' s' ls'' Hn' Hs' E]; subst.
    + destruct l; discriminate.
    + exfalso. apply Hn'. rewrite in_app_iff. cbn. auto.
    + destruct (HU _ _ _ _ Hn' Hn E) as [-> ->]. f_equal. auto.
Qed.

Lemma getlines_iff : forall s ls, getlines s = ls <-> lines s ls.
Proof.
  intros s ls. split.
  - intros <-. apply getlines_lines.
  - intros H. eapply lines_unique; [apply getlines_lines|exact H].
Qed.

Lemma lines_file_of : forall ls, (forall l, In l ls -> ~ In nl l) -> lines (file_of ls) ls.
Proof.
  induction ls as [|l ls IH]; intros H; cbn.
  - constructor.
  - rewrite <- app_assoc. cbn. apply lines_cons.
    + apply H. now left.
    + apply IH. intros l' Hl'. apply H. now right.
Qed.

(** ** Layouts. *)
Lemma words_spaces : forall n s ws, words space1 s ws -> words space1 (spaces n ++ s) ws.
Proof. induction n as [|n IH]; cbn; intros s ws H; auto. apply words_sep; auto. Qed.

Lemma word_no_space : forall w, forallb (no blank4) w = true -> forallb (no space1) w = true.
Proof.
  induction w as [|c w IH]; cbn; intros H; auto.
  apply andb_true_iff in H. destruct H as [H1 H2]. rewrite IH by auto.
  unfold no, blank4, space1 in *. destruct (Ascii.eqb c sp); auto.
Qed.
Lemma word_no_blank : forall w, forallb (no blank4) w = true -> forallb (no blank2) w = true.
Proof.
  induction w as [|c w IH]; cbn; intros H; auto.
  apply andb_true_iff in H. destruct H as [H1 H2]. rewrite IH by auto.
  unfold no, blank4, blank2 in *. destruct (Ascii.eqb c sp), (Ascii.eqb c tab); auto.
Qed.

Definition seps_ok (ws : list (nat * text)) : Prop :=
  match ws with [] => True | _ :: ws' => Forall (fun nw => fst nw <> 0) ws' end.

Lemma words_layout : forall ws m,
  seps_ok ws -> Forall (fun nw => word (snd nw)) ws ->
  words space1 (layout ws m) (map snd ws).
Proof.
  induction ws as [|[n w] ws IH]; intros m Hs Hw.
  - cbn. rewrite <- (app_nil_r (spaces m)). apply words_spaces. constructor.
  - cbn [layout map snd]. apply words_spaces.
    inversion Hw as [|? ? [Hne Hb] Hw']; subst. cbn in Hne, Hb.
    apply words_word; auto.
    + now apply word_no_space.
    + destruct ws as [|[n2 w2] ws]; cbn.
      * destruct m; cbn; auto.
      * cbn in Hs. inversion Hs as [|? ? Hn _]; subst. cbn in Hn.
        destruct n2; [congruence|]. reflexivity.
    + apply IH; auto. cbn in Hs. destruct ws as [|x ws]; cbn; auto. now inversion Hs.
Qed.

(** ** The loops. *)
Definition int_size_id : forall n, (Z.of_nat n < 2 ^ 31)%Z -> int_of_size n = Z.of_nat n.
Proof.
  intros n H. unfold int_of_size, int_max.
  rewrite Z.mod_small by lia.
  destruct (Z.leb_spec (Z.of_nat n) (2 ^ 31 - 1)); lia.
Qed.

Section Loops.
  Context {K : Type} {NK : Num K}.
  Variable stod : str -> outcome K.

  Definition mkt (k : nat) (t : face) : tground K :=
    let '(p, q, r, f) := t in
    TGround (Triangle p q r) (int_of_size k) f
      (tg_update_normal (Triangle p q r)) (tg_update_bbox (int_of_size k) (Triangle p q r)).
  Fixpoint number (k : nat) (ts : list face) : list (tground K) :=
    match ts with [] => [] | t :: ts' => mkt k t :: number (S k) ts' end.

  Lemma number_app : forall a b k, number k (a ++ b) = number k a ++ number (k + length a) b.
  Proof.
    induction a as [|x a IH]; intros b k; cbn; [now rewrite Nat.add_0_r|].
    rewrite IH. do 3 f_equal. lia.
  Qed.
  Lemma number_length : forall a k, length (number k a) = length a.
  Proof. induction a; intros; cbn; congruence. Qed.
  Lemma number_nth : forall a k i, nth_error (number k a) i = option_map (mkt (k + i)) (nth_error a i).
  Proof.
    induction a as [|x a IH]; intros k i; destruct i; cbn; auto.
    - now rewrite Nat.add_0_r.
    - rewrite IH. now replace (k + S i) with (S k + i) by lia.
  Qed.

  Definition flags (s : section) (st : lstate (K:=K)) : Prop :=
    match s with
    | NoSection => ls_np st = false /\ ls_ep st = false
    | InNodes => ls_np st = true /\ ls_ep st = false
    | InElements => ls_np st = false /\ ls_ep st = true
    end.

  (** Effect of some lines: nodes now [ns], triangles [ts] appended. *)
  Definition adds (st st' : lstate (K:=K)) (ns : list (vec3 K)) (ts : list face) : Prop :=
    ls_nodes st' = ns /\
    ls_tris st' = ls_tris st ++ number (ls_ecount st) ts /\
    ls_ecount st' = ls_ecount st + length ts /\
    ls_ncount st' + length (ls_nodes st) = ls_ncount st + length ns.

  Lemma adds_trans : forall a b c ns1 ns2 ts1 ts2,
    adds a b ns1 ts1 -> adds b c ns2 ts2 -> adds a c ns2 (ts1 ++ ts2).
  Proof.
    intros a b c ns1 ns2 ts1 ts2 (A1 & A2 & A3 & A4) (B1 & B2 & B3 & B4).
    unfold adds. subst ns1 ns2. rewrite B2, A2, A3, number_app, app_assoc, app_length.
    repeat split; auto; lia.
  Qed.
  Lemma adds_refl : forall st, adds st st (ls_nodes st) [].
  Proof. intros st. unfold adds. cbn. rewrite app_nil_r. repeat split; auto; lia. Qed.

  (** First-token tests. *)
  Definition is_nodes (l : str) : bool :=
    str_eqb (first_token l) (lit "[NODES]") || str_eqb (first_token l) (lit "NODES").
  Definition is_elements (l : str) : bool :=
    str_eqb (first_token l) (lit "[ELEMENTS]") || str_eqb (first_token l) (lit "ELEMENTS").
  Definition is_comment (l : str) : bool :=
    Ascii.eqb (char0 (first_token l)) "{" ||
    (Ascii.eqb (char0 (first_token l)) "%" || Ascii.eqb (char0 (first_token l)) "#"
            || Ascii.eqb (char0 (first_token l)) c_cr).

  Lemma is_nodes_iff : forall l, is_nodes l = true <-> nodes_header l.
  Proof.
    intros l. unfold is_nodes, nodes_header. rewrite first_token_word, orb_true_iff, !str_eqb_eq.
    reflexivity.
  Qed.
  Lemma is_elements_iff : forall l, is_elements l = true <-> elements_header l.
  Proof.
    intros l. unfold is_elements, elements_header. rewrite first_token_word, orb_true_iff, !str_eqb_eq.
    reflexivity.
  Qed.
  Lemma char0_head : forall c w, c <> c_nul -> (Ascii.eqb (char0 w) c = true <-> head_is c w).
  Proof.
    intros c w Hc. rewrite Ascii.eqb_eq. unfold head_is. destruct w as [|d w]; cbn; split; intros H.
    - congruence.
    - destruct H as [w' E]. discriminate.
    - exists w. congruence.
    - destruct H as [w' E]. congruence.
  Qed.
  Lemma first_word_head : forall l c w, first_word l = c :: w -> blank4 c = false.
  Proof.
    intros l c w. unfold first_word. destruct (drop_while blank4 l) as [|d s]; cbn; [discriminate|].
    unfold no at 1. destruct (blank4 d) eqn:E; cbn; [discriminate|]. intros H. inversion H; subst. exact E.
  Qed.
  Lemma is_comment_iff : forall l, is_comment l = true <-> rdf_comment l.
  Proof.
    clear.
    intros l. unfold is_comment, rdf_comment. rewrite first_token_word, !orb_true_iff.
    rewrite !char0_head by discriminate.
    split; [|tauto]. intros [H|[[H|H]|H]]; auto.
    exfalso. destruct H as [w E]. apply first_word_head in E. discriminate.
  Qed.
  Lemma bool_false_iff : forall (b : bool) P, (b = true <-> P) -> (b = false <-> ~ P).
  Proof. intros b P H. rewrite <- H. destruct b; split; intros; congruence. Qed.

  Lemma rdf_line_eq : forall pose l st, rdf_line stod pose l st =
    if is_nodes l then Ret (LState (ls_nodes st) (ls_tris st) (ls_ncount st) (ls_ecount st) true false)
    else if is_elements l then
      Ret (LState (ls_nodes st) (ls_tris st) (ls_ncount st) (ls_ecount st) false true)
    else if is_comment l then Ret st
    else
      let* st := (if ls_np st then read_node stod pose l st else Ret st) in
      if ls_ep st then read_element stod l st else Ret st.
  Proof.
    intros pose l st. unfold rdf_line, is_nodes, is_elements, is_comment.
    destruct (_ || _); [reflexivity|]. destruct (_ || _); [reflexivity|].
    destruct (Ascii.eqb (char0 (first_token l)) "{"); reflexivity.
  Qed.

  Lemma node_at_ret : forall (ns : list (vec3 K)) i p, node_at ns i = Ret p <-> node_is ns i p.
  Proof.
    intros ns i p. unfold node_at, node_is. destruct (Z.ltb_spec i 0).
    - split; [discriminate|]. intros [H1 _]. lia.
    - destruct (nth_error ns (Z.to_nat i)); split; intros H0; try discriminate.
      + inversion H0. auto.
      + destruct H0 as [_ H0]. congruence.
      + destruct H0; discriminate.
  Qed.
  Lemma node_at_ub : forall (ns : list (vec3 K)) i, (0 <= i)%Z ->
    (exists p, node_at ns i = Ret p /\ (i < Z.of_nat (length ns))%Z) \/
    (node_at ns i = UB /\ (Z.of_nat (length ns) <= i)%Z).
  Proof.
    intros ns i Hi. unfold node_at. destruct (Z.ltb_spec i 0); [lia|].
    destruct (nth_error ns (Z.to_nat i)) as [p|] eqn:E.
    - left. exists p. split; auto.
      assert (Z.to_nat i < length ns) by (apply nth_error_Some; congruence). lia.
    - right. split; auto. apply nth_error_None in E. lia.
  Qed.

  Lemma mk_tground_mkt : forall k f p q r, nle (nofZ 0) f = true ->
    mk_tground (int_of_size k) f p q r = Ret (mkt k (p, q, r, f)).
  Proof. intros k f p q r H. unfold mk_tground. rewrite H. reflexivity. Qed.
  Lemma mk_tground_inv : forall k f p q r t, mk_tground (int_of_size k) f p q r = Ret t ->
    nle (nofZ 0) f = true /\ t = mkt k (p, q, r, f).
  Proof.
    intros k f p q r t. unfold mk_tground. destruct (nle (nofZ 0) f); intros H; inversion H; auto.
  Qed.

  Lemma obind_ret : forall A B (x : outcome A) (g : A -> outcome B) b,
    obind x g = Ret b <-> exists a, x = Ret a /\ g a = Ret b.
  Proof.
    intros A B x g b. destruct x; cbn; split; intros H; try discriminate; eauto.
    - destruct H as (a0 & E & H). inversion E; subst. exact H.
    - destruct H as (a0 & E & H). discriminate.
    - destruct H as (a0 & E & H). discriminate.
  Qed.
  Lemma assert_ret : forall b u, assert b = Ret u <-> b = true.
  Proof. intros [] []; cbn; split; intros; congruence. Qed.

  Lemma push_tri_ret : forall i j k f st st', push_tri i j k f st = Ret st' <->
    exists p q r, node_is (ls_nodes st) i p /\ node_is (ls_nodes st) j q /\ node_is (ls_nodes st) k r /\
      nle (nofZ 0) f = true /\
      st' = LState (ls_nodes st) (ls_tris st ++ [mkt (ls_ecount st) (p, q, r, f)])
                   (ls_ncount st) (S (ls_ecount st)) (ls_np st) (ls_ep st).
  Proof.
    intros i j k f st st'. unfold push_tri. split.
    - intros H. apply obind_ret in H. destruct H as (p & Hp & H).
      apply obind_ret in H. destruct H as (q & Hq & H).
      apply obind_ret in H. destruct H as (r & Hr & H).
      apply obind_ret in H. destruct H as (t & Ht & H).
      apply node_at_ret in Hp. apply node_at_ret in Hq. apply node_at_ret in Hr.
      apply mk_tground_inv in Ht. destruct Ht as [Hf ->].
      inversion H. exists p, q, r. auto.
    - intros (p & q & r & Hp & Hq & Hr & Hf & ->).
      apply node_at_ret in Hp. apply node_at_ret in Hq. apply node_at_ret in Hr.
      rewrite Hp, Hq, Hr. cbn [obind]. rewrite mk_tground_mkt by exact Hf. reflexivity.
  Qed.

  Lemma read_element_ret : forall l st st', read_element stod l st = Ret st' <->
    exists i j k f p q r, element_line stod stoi l i j k f /\
      node_is (ls_nodes st) i p /\ node_is (ls_nodes st) j q /\ node_is (ls_nodes st) k r /\
      nle (nofZ 0) f = true /\
      st' = LState (ls_nodes st) (ls_tris st ++ [mkt (ls_ecount st) (p, q, r, f)])
                   (ls_ncount st) (S (ls_ecount st)) (ls_np st) (ls_ep st).
  Proof.
    intros l st st'. unfold read_element, element_line. split.
    - destruct (split l (lit " ")) as [|a [|b [|c [|d [|e es]]]]] eqn:E; try discriminate.
      apply split_iff in E. intros H.
      apply obind_ret in H. destruct H as (i & Hi & H).
      apply obind_ret in H. destruct H as (j & Hj & H).
      apply obind_ret in H. destruct H as (k & Hk & H).
      apply obind_ret in H. destruct H as (f & Hf & H).
      do 4 (apply obind_ret in H; destruct H as (? & _ & H)).
      apply push_tri_ret in H. destruct H as (p & q & r & H).
      exists i, j, k, f, p, q, r. split; auto. exists a, b, c, d. auto.
    - intros (i & j & k & f & p & q & r & (a & b & c & d & W & Hi & Hj & Hk & Hf) & Np & Nq & Nr & F & E).
      apply split_iff in W. rewrite W, Hi, Hj, Hk, Hf. cbn [obind].
      destruct Np as [Zi Np]. destruct Nq as [Zj Nq]. destruct Nr as [Zk Nr].
      rewrite (proj2 (Z.leb_le 0 i) Zi), (proj2 (Z.leb_le 0 j) Zj), (proj2 (Z.leb_le 0 k) Zk), F.
      cbn [obind assert]. apply push_tri_ret. exists p, q, r. repeat split; auto.
  Qed.

  Lemma placed_eq : forall pose x y z, aapply pose (V x y z) = placed pose x y z.
  Proof. reflexivity. Qed.

  Lemma read_node_ret : forall pose l st st', read_node stod pose l st = Ret st' <->
    exists x y z, node_line stod l x y z /\
      st' = LState (ls_nodes st ++ [placed pose x y z]) (ls_tris st)
                  (S (ls_ncount st)) (ls_ecount st) (ls_np st) (ls_ep st).
  Proof.
    intros pose l st st'. unfold read_node, node_line. rewrite tail_after_first. split.
    - destruct (split (after_first l) (lit " ")) as [|a [|b [|c [|d ds]]]] eqn:E; try discriminate.
      apply split_iff in E. intros H.
      apply obind_ret in H. destruct H as (x & Hx & H).
      apply obind_ret in H. destruct H as (y & Hy & H).
      apply obind_ret in H. destruct H as (z & Hz & H).
      inversion H. exists x, y, z. split; auto. exists a, b, c. auto.
    - intros (x & y & z & (a & b & c & W & Hx & Hy & Hz) & E).
      apply split_iff in W. rewrite W, Hx, Hy, Hz. cbn. subst. reflexivity.
  Qed.

  (** One line, both directions. *)
  Lemma rdf_line_sound : forall pose l s st st', flags s st ->
    rdf_line stod pose l st = Ret st' ->
    exists s1 fs, flags s1 st' /\ adds st st' (ls_nodes st') fs /\
      forall ls ts s' ns', rdf_file stod stoi pose s1 (ls_nodes st') ls ts s' ns' ->
        rdf_file stod stoi pose s (ls_nodes st) (l :: ls) (fs ++ ts) s' ns'.
  Proof.
    intros pose l s st st' Hs. rewrite rdf_line_eq.
    destruct (is_nodes l) eqn:EN.
    { apply is_nodes_iff in EN. intros H. inversion H; subst. exists InNodes, [].
      unfold adds. cbn. repeat split; try rewrite app_nil_r; auto; try lia.
      intros. now apply rf_nodes. }
    destruct (is_elements l) eqn:EE.
    { apply is_elements_iff in EE. intros H. inversion H; subst. exists InElements, [].
      unfold adds. cbn. repeat split; try rewrite app_nil_r; auto; try lia.
      intros. now apply rf_elements. }
    apply (bool_false_iff _ _ (is_nodes_iff l)) in EN.
    apply (bool_false_iff _ _ (is_elements_iff l)) in EE.
    destruct (is_comment l) eqn:EC.
    { apply is_comment_iff in EC. intros H. inversion H; subst. exists s, [].
      split; [exact Hs|]. split; [apply adds_refl|].
      intros. now apply rf_comment. }
    apply (bool_false_iff _ _ (is_comment_iff l)) in EC.
    assert (HD : rdf_data l) by (unfold rdf_data; auto).
    destruct s; cbn in Hs; destruct Hs as [Hn He]; rewrite Hn.
    - cbn [obind]. rewrite He. intros H. inversion H; subst. exists NoSection, [].
      split; [split; auto|]. split; [apply adds_refl|].
      intros. now apply rf_preamble.
    - intros H. apply obind_ret in H. destruct H as (st1 & H1 & H2).
      apply read_node_ret in H1. destruct H1 as (x & y & z & HL & ->).
      cbn [ls_ep] in H2. rewrite He in H2. inversion H2; subst. exists InNodes, [].
      unfold adds. cbn. repeat split; try rewrite app_nil_r; auto.
      + rewrite app_length. cbn. lia.
      + intros. eapply rf_node; eauto.
    - cbn [obind]. rewrite He. intros H. apply read_element_ret in H.
      destruct H as (i & j & k & f & p & q & r & HL & Hp & Hq & Hr & Hf & ->).
      exists InElements, [(p, q, r, f)]. unfold adds. cbn. repeat split; auto; try lia.
      intros. eapply rf_element; eauto.
  Qed.

  Lemma rdf_loop_sound : forall pose ls s st st', flags s st ->
    line_loop (rdf_line stod pose) ls st = Ok st' tt ->
    exists ts s', rdf_file stod stoi pose s (ls_nodes st) ls ts s' (ls_nodes st') /\
      flags s' st' /\ adds st st' (ls_nodes st') ts.
  Proof.
    induction ls as [|l ls IH]; intros s st st' Hs; cbn.
    - intros H. inversion H; subst. exists [], s.
      split; [constructor|]. split; auto. apply adds_refl.
    - destruct (rdf_line stod pose l st) as [st1|e|] eqn:E; try discriminate.
      intros H. destruct (rdf_line_sound _ _ _ _ _ Hs E) as (s1 & fs & F1 & A1 & R1).
      destruct (IH _ _ _ F1 H) as (ts & s' & R2 & F2 & A2).
      exists (fs ++ ts), s'. split; [now apply R1|]. split; auto.
      eapply adds_trans; eauto.
  Qed.

  Lemma rdf_loop_complete : forall pose s ns ls ts s' ns',
    rdf_file stod stoi pose s ns ls ts s' ns' ->
    forall st, flags s st -> ls_nodes st = ns ->
    exists st', line_loop (rdf_line stod pose) ls st = Ok st' tt /\ flags s' st' /\ adds st st' ns' ts.
  Proof.
    intros pose s ns ls ts s' ns' H.
    induction H as [s ns|s ns l ls ts s' ns' HN H IH|s ns l ls ts s' ns' HE H IH
      |s ns l ls ts s' ns' HN HE HC H IH|ns l ls ts s' ns' HD H IH
      |ns l ls ts s' ns' x y z HD HL H IH
      |ns l ls ts s' ns' i j k f p q r HD HL Hp Hq Hr Hf H IH]; intros st Hs Hns; cbn [line_loop].
    - exists st. subst ns. split; auto. split; auto. apply adds_refl.
    - rewrite rdf_line_eq. apply is_nodes_iff in HN. rewrite HN.
      edestruct IH as (st' & E & F & A); [| |exists st'; split; [exact E|split; [exact F|]]].
      + split; reflexivity.
      + exact Hns.
      + exact A.
    - rewrite rdf_line_eq.
      destruct (is_nodes l) eqn:EN.
      { exfalso. apply is_nodes_iff in EN. unfold nodes_header, elements_header in *.
        destruct EN as [EN|EN], HE as [HE|HE]; rewrite EN in HE; discriminate. }
      apply is_elements_iff in HE. rewrite HE.
      edestruct IH as (st' & E & F & A); [| |exists st'; split; [exact E|split; [exact F|]]].
      + split; reflexivity.
      + exact Hns.
      + exact A.
    - rewrite rdf_line_eq.
      apply (bool_false_iff _ _ (is_nodes_iff l)) in HN.
      apply (bool_false_iff _ _ (is_elements_iff l)) in HE.
      apply is_comment_iff in HC. rewrite HN, HE, HC. apply IH; auto.
    - destruct HD as (HN & HE & HC). rewrite rdf_line_eq.
      apply (bool_false_iff _ _ (is_nodes_iff l)) in HN.
      apply (bool_false_iff _ _ (is_elements_iff l)) in HE.
      apply (bool_false_iff _ _ (is_comment_iff l)) in HC. rewrite HN, HE, HC.
      destruct Hs as [Hn He]. rewrite Hn. cbn [obind]. rewrite He. apply IH; auto. split; auto.
    - destruct HD as (HN & HE & HC). rewrite rdf_line_eq.
      apply (bool_false_iff _ _ (is_nodes_iff l)) in HN.
      apply (bool_false_iff _ _ (is_elements_iff l)) in HE.
      apply (bool_false_iff _ _ (is_comment_iff l)) in HC. rewrite HN, HE, HC.
      destruct Hs as [Hn He]. rewrite Hn.
      assert (HR : exists st1, read_node stod pose l st = Ret st1 /\
                 st1 = LState (ls_nodes st ++ [placed pose x y z]) (ls_tris st)
                  (S (ls_ncount st)) (ls_ecount st) (ls_np st) (ls_ep st)).
      { eexists; split; [|reflexivity]. apply read_node_ret. eauto. }
      destruct HR as (st1 & -> & E1). cbn [obind].
      assert (He1 : ls_ep st1 = false) by (subst st1; exact He). rewrite He1.
      destruct (IH st1) as (st' & E & F & A).
      + subst st1. split; auto.
      + subst st1 ns. reflexivity.
      + exists st'. split; auto. split; auto.
        change ts with ([] ++ ts). eapply adds_trans; [|exact A].
        subst st1 ns. unfold adds. cbn. rewrite app_nil_r. repeat split; auto; try rewrite app_length; cbn; lia.
    - destruct HD as (HN & HE & HC). rewrite rdf_line_eq.
      apply (bool_false_iff _ _ (is_nodes_iff l)) in HN.
      apply (bool_false_iff _ _ (is_elements_iff l)) in HE.
      apply (bool_false_iff _ _ (is_comment_iff l)) in HC. rewrite HN, HE, HC.
      destruct Hs as [Hn He]. rewrite Hn. cbn [obind]. rewrite He. subst ns.
      assert (HR : exists st1, read_element stod l st = Ret st1 /\
                 st1 = LState (ls_nodes st) (ls_tris st ++ [mkt (ls_ecount st) (p, q, r, f)])
                   (ls_ncount st) (S (ls_ecount st)) (ls_np st) (ls_ep st)).
      { eexists; split; [|reflexivity]. apply read_element_ret.
        exists i, j, k, f, p, q, r. repeat split; auto; try apply Hp; try apply Hq; apply Hr. }
      destruct HR as (st1 & -> & E1).
      destruct (IH st1) as (st' & E & F & A).
      + subst st1. split; auto.
      + subst st1. reflexivity.
      + exists st'. split; auto. split; auto.
        change ((p, q, r, f) :: ts) with ([(p, q, r, f)] ++ ts). eapply adds_trans; [|exact A].
        subst st1. unfold adds. cbn. repeat split; auto; lia.
  Qed.

  (** OBJ. *)
  Lemma stoi_range : forall s z, stoi s = Ret z -> (int_min <= z <= int_max)%Z.
  Proof.
    intros s z. unfold stoi.
    destruct (match drop_spaces s with [] => _ | _ => _ end) as [neg s1].
    destruct (read_digits s1 0 0) as [v n]. destruct n; [discriminate|].
    destruct ((int_min <=? _)%Z && _) eqn:E; [|discriminate].
    intros H. inversion H; subst. apply andb_true_iff in E. destruct E as [E1 E2].
    apply Z.leb_le in E1. apply Z.leb_le in E2. auto.
  Qed.
  Lemma stoi_minus1_ret : forall a i, (0 <= i)%Z ->
    (stoi_minus1 a = Ret i <-> stoi a = Ret (i + 1)%Z).
  Proof.
    intros a i Hi. unfold stoi_minus1. rewrite obind_ret. split.
    - intros (z & E & H). destruct (Z.eqb_spec z int_min); [discriminate|].
      inversion H; subst. rewrite E. f_equal. lia.
    - intros E. exists (i + 1)%Z. split; auto.
      destruct (Z.eqb_spec (i + 1) int_min) as [E2|]; [unfold int_min in E2; lia|].
      f_equal. lia.
  Qed.

  Lemma read_face_ret : forall f l st st', read_face f l st = Ret st' <->
    exists i j k p q r, face_line stoi l i j k /\
      node_is (ls_nodes st) (i - 1) p /\ node_is (ls_nodes st) (j - 1) q /\
      node_is (ls_nodes st) (k - 1) r /\ nle (nofZ 0) f = true /\
      st' = LState (ls_nodes st) (ls_tris st ++ [mkt (ls_ecount st) (p, q, r, f)])
                   (ls_ncount st) (S (ls_ecount st)) (ls_np st) (ls_ep st).
  Proof.
    intros f l st st'. unfold read_face, face_line. rewrite tail_after_first. split.
    - destruct (split (after_first l) (lit " ")) as [|a [|b [|c [|d ds]]]] eqn:E; try discriminate.
      apply split_iff in E. intros H.
      apply obind_ret in H. destruct H as (i & Hi & H).
      apply obind_ret in H. destruct H as (j & Hj & H).
      apply obind_ret in H. destruct H as (k & Hk & H).
      apply obind_ret in H. destruct H as (? & Ai & H).
      apply obind_ret in H. destruct H as (? & Aj & H).
      apply obind_ret in H. destruct H as (? & Ak & H).
      apply assert_ret in Ai, Aj, Ak. apply Z.leb_le in Ai, Aj, Ak.
      apply stoi_minus1_ret in Hi; [|auto]. apply stoi_minus1_ret in Hj; [|auto].
      apply stoi_minus1_ret in Hk; [|auto].
      apply push_tri_ret in H. destruct H as (p & q & r & H).
      exists (i + 1)%Z, (j + 1)%Z, (k + 1)%Z, p, q, r.
      replace (i + 1 - 1)%Z with i by lia. replace (j + 1 - 1)%Z with j by lia.
      replace (k + 1 - 1)%Z with k by lia. split; auto. exists a, b, c. auto.
    - intros (i & j & k & p & q & r & (a & b & c & W & Hi & Hj & Hk) & Np & Nq & Nr & F & E).
      apply split_iff in W. rewrite W.
      assert (Zi := proj1 Np). assert (Zj := proj1 Nq). assert (Zk := proj1 Nr).
      rewrite (proj2 (stoi_minus1_ret a (i - 1)%Z Zi)) by (rewrite Hi; f_equal; lia).
      rewrite (proj2 (stoi_minus1_ret b (j - 1)%Z Zj)) by (rewrite Hj; f_equal; lia).
      rewrite (proj2 (stoi_minus1_ret c (k - 1)%Z Zk)) by (rewrite Hk; f_equal; lia).
      cbn [obind].
      rewrite (proj2 (Z.leb_le _ _) Zi), (proj2 (Z.leb_le _ _) Zj), (proj2 (Z.leb_le _ _) Zk).
      cbn [obind assert]. apply push_tri_ret. exists p, q, r. auto.
  Qed.

  Lemma obj_line_eq : forall f pose l st, obj_line stod f pose l st =
    if str_eqb (first_word l) (txt "v") then read_node stod pose l st
    else if str_eqb (first_word l) (txt "f") then read_face f l st else Ret st.
  Proof. intros. unfold obj_line. rewrite first_token_word. reflexivity. Qed.

  Lemma obj_loop_sound : forall f pose ls st st',
    line_loop (obj_line stod f pose) ls st = Ok st' tt ->
    exists ts, obj_file stod stoi pose f (ls_nodes st) ls ts (ls_nodes st') /\
      adds st st' (ls_nodes st') ts.
  Proof.
    intros f pose. induction ls as [|l ls IH]; intros st st'; cbn [line_loop].
    - intros H. inversion H; subst. exists []. split; [constructor|]. apply adds_refl.
    - rewrite obj_line_eq.
      destruct (str_eqb (first_word l) (txt "v")) eqn:EV.
      { apply str_eqb_eq in EV.
        destruct (read_node stod pose l st) as [st1|e|] eqn:E; try discriminate.
        intros H. destruct (IH _ _ H) as (ts & R & A).
        apply read_node_ret in E. destruct E as (x & y & z & HL & ->).
        exists ts. split; [eapply of_vertex; eauto|].
        change ts with ([] ++ ts). eapply adds_trans; [|exact A].
        unfold adds. cbn. rewrite app_nil_r. repeat split; auto; try rewrite app_length; cbn; lia. }
      apply str_eqb_neq in EV.
      destruct (str_eqb (first_word l) (txt "f")) eqn:EF.
      { apply str_eqb_eq in EF.
        destruct (read_face f l st) as [st1|e|] eqn:E; try discriminate.
        intros H. destruct (IH _ _ H) as (ts & R & A).
        apply read_face_ret in E.
        destruct E as (i & j & k & p & q & r & HL & Hp & Hq & Hr & Hf & ->).
        exists ((p, q, r, f) :: ts). split; [eapply of_face; eauto|].
        change ((p, q, r, f) :: ts) with ([(p, q, r, f)] ++ ts). eapply adds_trans; [|exact A].
        unfold adds. cbn. repeat split; auto; lia. }
      apply str_eqb_neq in EF.
      intros H. destruct (IH _ _ H) as (ts & R & A). exists ts. split; auto. now apply of_other.
  Qed.

  Lemma obj_loop_complete : forall f pose ns ls ts ns',
    obj_file stod stoi pose f ns ls ts ns' ->
    forall st, ls_nodes st = ns ->
    exists st', line_loop (obj_line stod f pose) ls st = Ok st' tt /\ adds st st' ns' ts.
  Proof.
    intros f pose ns ls ts ns' H.
    induction H as [ns|ns l ls ts ns' HV HF H IH|ns l ls ts ns' x y z HV HL H IH
      |ns l ls ts ns' i j k p q r HF HL Hp Hq Hr Hf H IH]; intros st Hns; cbn [line_loop];
      try rewrite obj_line_eq.
    - exists st. subst ns. split; auto. apply adds_refl.
    - apply str_eqb_neq in HV. apply str_eqb_neq in HF. rewrite HV, HF. apply IH; auto.
    - apply str_eqb_eq in HV. rewrite HV.
      assert (HR : exists st1, read_node stod pose l st = Ret st1 /\
                 st1 = LState (ls_nodes st ++ [placed pose x y z]) (ls_tris st)
                  (S (ls_ncount st)) (ls_ecount st) (ls_np st) (ls_ep st)).
      { eexists; split; [|reflexivity]. apply read_node_ret. eauto. }
      destruct HR as (st1 & -> & E1).
      destruct (IH st1) as (st' & E & A); [subst st1 ns; reflexivity|].
      exists st'. split; auto. change ts with ([] ++ ts). eapply adds_trans; [|exact A].
      subst st1 ns. unfold adds. cbn. rewrite app_nil_r. repeat split; auto; try rewrite app_length; cbn; lia.
    - assert (HV : str_eqb (first_word l) (txt "v") = false)
        by (apply str_eqb_neq; rewrite HF; discriminate).
      apply str_eqb_eq in HF. rewrite HV, HF. subst ns.
      assert (HR : exists st1, read_face f l st = Ret st1 /\
                 st1 = LState (ls_nodes st) (ls_tris st ++ [mkt (ls_ecount st) (p, q, r, f)])
                   (ls_ncount st) (S (ls_ecount st)) (ls_np st) (ls_ep st)).
      { eexists; split; [|reflexivity]. apply read_face_ret.
        exists i, j, k, p, q, r. split; auto. }
      destruct HR as (st1 & -> & E1).
      destruct (IH st1) as (st' & E & A); [subst st1; reflexivity|].
      exists st'. split; auto.
      change ((p, q, r, f) :: ts) with ([(p, q, r, f)] ++ ts). eapply adds_trans; [|exact A].
      subst st1. unfold adds. cbn. repeat split; auto; lia.
  Qed.

  (** Sequencing of the loop. *)
  Lemma loop_app : forall g a b (st st1 : lstate (K:=K)),
    line_loop g a st = Ok st1 tt -> line_loop g (a ++ b) st = line_loop g b st1.
  Proof.
    intros g a. induction a as [|l a IH]; intros b st st1; cbn.
    - intros H. now inversion H.
    - destruct (g l st); try discriminate. apply IH.
  Qed.
End Loops.
