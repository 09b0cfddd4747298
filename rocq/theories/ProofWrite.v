(** * Files as written are files as read. *)
From Coq Require Import ZArith Bool Lia Ascii String Permutation List.
From Verif Require Import Base Num Vec Aabb Tree Geom Ground Str Mesh.
From Verif Require Import SpecTree SpecLoad SpecMesh ProofLoad ProofMesh.
Import ListNotations.

(** ** Numerals. *)
Lemma digit_of_char : forall d, d < 10 -> digit (digit_char d) = Some (Z.of_nat d).
Proof. intros d H. do 10 (destruct d; [reflexivity|]). lia. Qed.
Lemma digit_char_plain : forall d, d < 10 ->
  is_space (digit_char d) = false /\ blank4 (digit_char d) = false /\
  digit_char d <> "-"%char /\ digit_char d <> "+"%char /\
  digit_char d <> "{"%char /\ digit_char d <> "%"%char /\ digit_char d <> "#"%char /\
  digit_char d <> "["%char /\ digit_char d <> "N"%char /\ digit_char d <> "E"%char.
Proof. intros d H. do 10 (destruct d; [repeat split; try reflexivity; discriminate|]). lia. Qed.

Lemma read_digits_app : forall s acc n v d, d < 10 ->
  read_digits s acc n = (v, n + length s) -> 
  read_digits (s ++ [digit_char d]) acc n = ((v * 10 + Z.of_nat d)%Z, n + length (s ++ [digit_char d])).
Proof.
  assert (HB : forall s acc n, snd (read_digits s acc n) <= n + length s).
  { induction s as [|c s IH]; intros acc n; cbn; [lia|].
    destruct (digit c); cbn; [|lia]. specialize (IH (acc * 10 + z)%Z (S n)). lia. }
  induction s as [|c s IH]; intros acc n v d Hd H; cbn [read_digits app length] in *.
  - inversion H; subst. cbn [read_digits]. rewrite digit_of_char by auto. f_equal. lia.
  - destruct (digit c) as [e|].
    + replace (n + S (length s)) with (S n + length s) in H by lia.
      rewrite (IH _ _ _ _ Hd H). f_equal. lia.
    + inversion H; subst. lia.
Qed.
Lemma numeral_digits : forall s v, numeral s v -> read_digits s 0 0 = (v, length s) /\ (0 <= v)%Z.
Proof.
  intros s v H. induction H as [d Hd|s v d H [IH IHv] Hd].
  - cbn [read_digits]. rewrite digit_of_char by auto. cbn. split; [f_equal; lia|lia].
  - split; [|lia].
    rewrite (read_digits_app s 0%Z 0 v d Hd IH). cbn [Nat.add]. f_equal. lia.
Qed.
Lemma numeral_chars : forall s v, numeral s v ->
  s <> [] /\ Forall (fun c => exists d, d < 10 /\ c = digit_char d) s.
Proof.
  intros s v H. induction H as [d Hd|s v d H [IH1 IH2] Hd].
  - split; [discriminate|]. constructor; eauto.
  - split; [destruct s; discriminate|]. apply Forall_app. split; auto. constructor; eauto.
Qed.
Lemma numeral_stoi : forall s v, numeral s v -> (v < 2 ^ 31)%Z -> stoi s = Ret v.
Proof.
  intros s v H Hv. destruct (numeral_digits _ _ H) as [HD Hp].
  destruct (numeral_chars _ _ H) as [Hne HF].
  destruct s as [|c s]; [congruence|].
  inversion HF as [|? ? (d & Hd & ->) _]; subst.
  destruct (digit_char_plain d Hd) as (P1 & _ & P3 & P4 & _).
  unfold stoi. cbn [drop_spaces]. rewrite P1.
  apply Ascii.eqb_neq in P3, P4. rewrite P3, P4. rewrite HD. cbn [length].
  destruct (Z.leb_spec int_min v); [|unfold int_min in *; lia].
  destruct (Z.leb_spec v int_max); [|unfold int_max in *; lia]. reflexivity.
Qed.
Lemma numeral_word : forall s v, numeral s v -> word s /\
  (forall c, In c s -> c <> "{"%char /\ c <> "%"%char /\ c <> "#"%char /\ c <> "["%char /\
     c <> "N"%char /\ c <> "E"%char).
Proof.
  intros s v H. destruct (numeral_chars _ _ H) as [Hne HF]. split.
  - split; auto. apply forallb_forall. intros c Hc. rewrite Forall_forall in HF.
    destruct (HF _ Hc) as (d & Hd & ->). unfold no. now rewrite (proj1 (proj2 (digit_char_plain d Hd))).
  - intros c Hc. rewrite Forall_forall in HF. destruct (HF _ Hc) as (d & Hd & ->).
    destruct (digit_char_plain d Hd) as (_ & _ & _ & _ & P). tauto.
Qed.

(** ** Layouts. *)
Lemma drop_spaces2 : forall p n s, p sp = true -> drop_while p (spaces n ++ s) = drop_while p s.
Proof. intros p n s H. induction n as [|n IH]; cbn [spaces repeat app drop_while]; auto. now rewrite H. Qed.
Lemma drop_while_word : forall p w s, forallb p w = true ->
  match s with [] => True | c :: _ => p c = false end -> drop_while p (w ++ s) = s.
Proof.
  intros p w s H Hs. induction w as [|c w IH]; cbn.
  - destruct s as [|c s]; auto. cbn. now rewrite Hs.
  - cbn in H. apply andb_true_iff in H. destruct H as [-> H]. auto.
Qed.
Lemma take_while_word : forall p w s, forallb p w = true ->
  match s with [] => True | c :: _ => p c = false end -> take_while p (w ++ s) = w.
Proof.
  intros p w s H Hs. induction w as [|c w IH]; cbn.
  - destruct s as [|c s]; auto. cbn. now rewrite Hs.
  - cbn in H. apply andb_true_iff in H. destruct H as [-> H]. f_equal. auto.
Qed.
Lemma word_head : forall w, word w -> exists c w', w = c :: w' /\ blank4 c = false.
Proof.
  intros [|c w] [H1 H2]; [congruence|]. exists c, w. split; auto.
  cbn in H2. apply andb_true_iff in H2. destruct H2 as [H2 _]. unfold no in H2.
  now apply negb_true_iff in H2.
Qed.
Lemma blank4_2 : forall c, blank4 c = false -> blank2 c = false.
Proof. intros c. unfold blank4, blank2. destruct (Ascii.eqb c sp), (Ascii.eqb c tab); auto. Qed.

Lemma layout_starts : forall ws m, Forall (fun nw => fst nw <> 0) ws ->
  match layout ws m with [] => True | c :: _ => c = sp end.
Proof.
  intros [|[n w] ws] m H; cbn.
  - destruct m; cbn; auto.
  - inversion H as [|? ? Hn _]; subst. cbn in Hn. destruct n; [congruence|]. reflexivity.
Qed.

Lemma first_word_layout : forall n w ws m, word w -> Forall (fun nw => fst nw <> 0) ws ->
  first_word (layout ((n, w) :: ws) m) = w.
Proof.
  intros n w ws m Hw Hs. unfold first_word. cbn [layout].
  rewrite drop_spaces2 by reflexivity.
  destruct (word_head _ Hw) as (c & w' & -> & Hc). cbn [app drop_while]. rewrite Hc.
  change (c :: w' ++ layout ws m) with ((c :: w') ++ layout ws m).
  apply take_while_word; [apply Hw|].
  pose proof (layout_starts ws m Hs) as HL. destruct (layout ws m); auto. subst. reflexivity.
Qed.

Lemma layout_zero : forall ws m, layout ws m = layout ws 0 ++ spaces m.
Proof.
  induction ws as [|[n w] ws IH]; intros m; cbn; [reflexivity|].
  rewrite IH. now rewrite !app_assoc.
Qed.
Lemma layout_last : forall ws, ws <> [] -> Forall (fun nw => word (snd nw)) ws ->
  exists s c, layout ws 0 = s ++ [c] /\ blank2 c = false.
Proof.
  induction ws as [|[n w] ws IH]; intros Hne HF; [congruence|].
  inversion HF as [|? ? Hw HF']; subst. cbn in Hw. destruct ws as [|x ws].
  - cbn. rewrite app_nil_r. destruct (exists_last (proj1 Hw)) as (w' & c & ->).
    exists (spaces n ++ w'), c. rewrite app_assoc. split; auto.
    destruct Hw as [_ Hb]. rewrite forallb_app in Hb. apply andb_true_iff in Hb.
    destruct Hb as [_ Hb]. cbn in Hb. rewrite andb_true_r in Hb. unfold no in Hb.
    apply negb_true_iff in Hb. now apply blank4_2.
  - destruct IH as (s & c & E & Hc); [discriminate|auto|].
    cbn [layout] in *. rewrite E. exists (spaces n ++ w ++ s), c. rewrite !app_assoc. auto.
Qed.
Lemma rtrim_layout : forall ws m, ws <> [] -> Forall (fun nw => word (snd nw)) ws ->
  rev (drop_while blank2 (rev (layout ws m))) = layout ws 0.
Proof.
  intros ws m Hne HF. rewrite layout_zero.
  destruct (layout_last ws Hne HF) as (s & c & -> & Hc).
  rewrite !rev_app_distr.
  assert (HR : rev (spaces m) = spaces m).
  { unfold spaces. induction m as [|m IH]; cbn; auto. rewrite IH.
    clear. induction m as [|m IH]; cbn; auto. now rewrite IH. }
  rewrite HR, drop_spaces2 by reflexivity. cbn [rev app drop_while]. rewrite Hc.
  cbn. now rewrite rev_involutive.
Qed.

Lemma after_first_layout : forall n w ws m, word w -> ws <> [] ->
  Forall (fun nw => word (snd nw)) ws -> Forall (fun nw => fst nw <> 0) ws ->
  words space1 (after_first (layout ((n, w) :: ws) m)) (map snd ws).
Proof.
  intros n w ws m Hw Hne HF Hs. unfold after_first. cbn [layout].
  rewrite drop_spaces2 by reflexivity.
  assert (E1 : drop_while blank2 (w ++ layout ws m) = w ++ layout ws m).
  { destruct (word_head _ Hw) as (c & w' & -> & Hc). cbn. now rewrite (blank4_2 _ Hc). }
  rewrite E1. rewrite drop_while_word.
  2:{ apply word_no_blank, Hw. }
  2:{ pose proof (layout_starts ws m Hs) as HL. destruct (layout ws m); auto. subst. reflexivity. }
  destruct ws as [|[n2 w2] ws]; [congruence|]. cbn [layout].
  rewrite drop_spaces2 by reflexivity. inversion HF as [|? ? Hw2 HF2]; subst. cbn in Hw2.
  assert (E2 : drop_while blank2 (w2 ++ layout ws m) = layout ((0, w2) :: ws) m).
  { destruct (word_head _ Hw2) as (c & w' & -> & Hc). cbn. now rewrite (blank4_2 _ Hc). }
  rewrite E2. rewrite rtrim_layout; [|discriminate|constructor; auto].
  change (map snd ((n2, w2) :: ws)) with (map snd ((0, w2) :: ws)).
  apply words_layout; [|constructor; auto]. cbn. now inversion Hs.
Qed.

Lemma word_no_nl : forall w, word w -> ~ In nl w.
Proof.
  intros w [_ H] Hin. rewrite forallb_forall in H. specialize (H _ Hin). discriminate.
Qed.
Lemma layout_no_nl : forall ws m, Forall (fun nw => word (snd nw)) ws -> ~ In nl (layout ws m).
Proof.
  assert (HS : forall n, ~ In nl (spaces n)).
  { intros n H. apply repeat_spec in H. discriminate. }
  induction ws as [|[n w] ws IH]; intros m HF; cbn; auto.
  inversion HF; subst. rewrite !in_app_iff. intros [H|[H|H]].
  - now apply HS in H.
  - eapply word_no_nl; eauto.
  - eapply IH; eauto.
Qed.

Section Written.
  Context {K : Type} {NK : Num K}.
  Variable stod : text -> outcome K.

  Lemma comment_no_nl : forall l, comment_text l -> ~ In nl l.
  Proof. intros l [H _]. exact H. Qed.
  Lemma comment_rdf : forall l, comment_text l ->
    ~ nodes_header l /\ ~ elements_header l /\ rdf_comment l.
  Proof.
    intros l (_ & c & l' & -> & Hc).
    assert (HB : blank4 c = false) by (destruct Hc as [->|[->| ->]]; reflexivity).
    assert (HF : exists w, first_word (c :: l') = c :: w).
    { unfold first_word. cbn [drop_while]. rewrite HB. cbn [take_while].
      assert (EN : no blank4 c = true) by (unfold no; now rewrite HB). rewrite EN. eauto. }
    destruct HF as [w HF]. unfold nodes_header, elements_header, rdf_comment, head_is. rewrite HF.
    destruct Hc as [->|[->| ->]]; (split; [intros [H|H]; discriminate|]; split; [intros [H|H]; discriminate|]); eauto.
  Qed.

  Lemma node_written_ok : forall l x y z, node_written stod l (x, y, z) ->
    ~ In nl l /\ rdf_data l /\ node_line stod l x y z.
  Proof.
    intros l x y z (s0 & s1 & s2 & s3 & s4 & w & a & b & c & x' & y' & z' & -> & E & Ww & Wa & Wb & Wc & Hh & H1 & H2 & H3 & Rx & Ry & Rz).
    inversion E; subst x' y' z'. clear E.
    assert (F0 : Forall (fun nw : nat * text => fst nw <> 0) [(S s1, a); (S s2, b); (S s3, c)])
      by (repeat constructor; discriminate).
    assert (F1 : Forall (fun nw : nat * text => word (snd nw)) [(S s1, a); (S s2, b); (S s3, c)])
      by (repeat constructor; auto; apply Wa || apply Wb || apply Wc).
    split; [apply layout_no_nl; constructor; auto|]. split.
    - unfold rdf_data, nodes_header, elements_header, rdf_comment.
      rewrite first_word_layout by auto. cbn in Hh. intuition.
    - exists a, b, c. split; auto.
      change [a; b; c] with (map snd [(S s1, a); (S s2, b); (S s3, c)]).
      apply after_first_layout; auto. discriminate.
  Qed.

  Lemma element_written_ok : forall l i j k f, element_written stod l (i, j, k, f) ->
    ~ In nl l /\ rdf_data l /\ element_line stod stoi l i j k f.
  Proof.
    intros l i j k f (s0 & s1 & s2 & s3 & s4 & a & b & c & d & i' & j' & k' & f' & -> & E & Na & Nb & Nc & Wd & Rf & Li & Lj & Lk).
    inversion E; subst i' j' k' f'. clear E.
    destruct (numeral_word _ _ Na) as [Wa Pa]. destruct (numeral_word _ _ Nb) as [Wb _].
    destruct (numeral_word _ _ Nc) as [Wc _].
    assert (F0 : Forall (fun nw : nat * text => fst nw <> 0) [(S s1, b); (S s2, c); (S s3, d)])
      by (repeat constructor; discriminate).
    assert (F1 : Forall (fun nw : nat * text => word (snd nw)) [(s0, a); (S s1, b); (S s2, c); (S s3, d)])
      by (repeat constructor; auto; apply Wa || apply Wb || apply Wc || apply Wd).
    split; [now apply layout_no_nl|]. split.
    - unfold rdf_data, nodes_header, elements_header, rdf_comment, head_is.
      rewrite first_word_layout by auto.
      destruct a as [|ca a']; [destruct Wa; congruence|].
      specialize (Pa ca (or_introl eq_refl)).
      repeat split; intros H.
      + destruct H as [H|H]; inversion H; subst; intuition.
      + destruct H as [H|H]; inversion H; subst; intuition.
      + destruct H as [[w' H]|[[w' H]|[w' H]]]; inversion H; subst; intuition.
    - exists a, b, c, d. split.
      + change [a; b; c; d] with (map snd [(s0, a); (S s1, b); (S s2, c); (S s3, d)]).
        apply words_layout; auto.
      + repeat split; auto; apply numeral_stoi; auto.
  Qed.

  Definition place (pose : affine K) (n : K * K * K) : vec3 K :=
    let '(x, y, z) := n in placed pose x y z.

  Lemma block_lines : forall {A} (written : text -> A -> Prop) ls xs,
    (forall l x, written l x -> ~ In nl l) -> block written ls xs ->
    forall l, In l ls -> ~ In nl l.
  Proof.
    intros A written ls xs HW H. induction H; intros l0 Hin; [destruct Hin| |]; destruct Hin as [<-|Hin]; eauto.
    now apply comment_no_nl.
  Qed.

  Lemma nodes_block : forall pose ls nodes, block (node_written stod) ls nodes ->
    forall ns ls2 ts s' ns',
      rdf_file stod stoi pose InNodes (ns ++ map (place pose) nodes) ls2 ts s' ns' ->
      rdf_file stod stoi pose InNodes ns (ls ++ ls2) ts s' ns'.
  Proof.
    intros pose ls nodes H. induction H as [|l ls xs HC H IH|l x ls xs HW H IH]; intros ns ls2 ts s' ns' HR; cbn in *.
    - now rewrite app_nil_r in HR.
    - destruct (comment_rdf l HC) as (H1 & H2 & H3). apply rf_comment; auto.
    - destruct x as [[x y] z]. destruct (node_written_ok _ _ _ _ HW) as (_ & HD & HL).
      eapply rf_node; eauto. apply IH. now rewrite <- app_assoc.
  Qed.

  Lemma vertex_node : forall pose nodes i p, vertex_of pose nodes i p ->
    node_is (map (place pose) nodes) i p.
  Proof.
    intros pose nodes i p (Hi & x & y & z & E & ->). split; auto.
    now rewrite nth_error_map, E.
  Qed.

  Lemma elements_block : forall pose nodes ls es, block (element_written stod) ls es ->
    forall ts, Forall2 (face_of pose nodes) es ts ->
      Forall (fun t : face => nle (nofZ 0) (snd t) = true) ts ->
      rdf_file stod stoi pose InElements (map (place pose) nodes) ls ts InElements (map (place pose) nodes).
  Proof.
    intros pose nodes ls es H. induction H as [|l ls xs HC H IH|l x ls xs HW H IH]; intros ts HF2 HFr.
    - inversion HF2; subst. constructor.
    - destruct (comment_rdf l HC) as (H1 & H2 & H3). apply rf_comment; auto.
    - inversion HF2 as [|e t es' ts' Hf Hfs E1 E2]; subst. inversion HFr; subst.
      destruct x as [[[i j] k] f]. destruct t as [[[p q] r] g].
      destruct Hf as (V1 & V2 & V3 & ->).
      destruct (element_written_ok _ _ _ _ _ HW) as (_ & HD & HL).
      eapply rf_element; eauto using vertex_node.
  Qed.

  Lemma node_no_nl : forall l n, node_written stod l n -> ~ In nl l.
  Proof. intros l [[x y] z] H. now destruct (node_written_ok _ _ _ _ H). Qed.
  Lemma element_no_nl : forall l e, element_written stod l e -> ~ In nl l.
  Proof. intros l [[[i j] k] f] H. now destruct (element_written_ok _ _ _ _ _ H). Qed.

  Lemma rdf_written : forall pose ls1 ls2 nodes es ts,
    block (node_written stod) ls1 nodes -> block (element_written stod) ls2 es ->
    Forall2 (face_of pose nodes) es ts ->
    Forall (fun t : face => nle (nofZ 0) (snd t) = true) ts ->
    let ls := txt "[NODES]" :: ls1 ++ txt "[ELEMENTS]" :: ls2 in
    lines (file_of ls) ls /\
    rdf_file stod stoi pose NoSection [] ls ts InElements (map (place pose) nodes).
  Proof.
    intros pose ls1 ls2 nodes es ts H1 H2 HF HFr ls. split.
    - apply lines_file_of. intros l [<-|Hin].
      + intros H. repeat (destruct H as [H|H]; [discriminate|]). destruct H.
      + apply in_app_iff in Hin. destruct Hin as [Hin|[<-|Hin]].
        * exact (block_lines (node_written stod) _ _ node_no_nl H1 _ Hin).
        * intros H. repeat (destruct H as [H|H]; [discriminate|]). destruct H.
        * exact (block_lines (element_written stod) _ _ element_no_nl H2 _ Hin).
    - apply rf_nodes; [now left|]. eapply nodes_block; eauto.
      apply rf_elements; [now left|]. cbn [app]. eapply elements_block; eauto.
  Qed.

  Lemma obj_written_ok : forall pose f, nle (nofZ 0) f = true -> forall ns ls ts,
    obj_written stod pose f ns ls ts ->
    (forall l, In l ls -> ~ In nl l) /\
    exists ns', obj_file stod stoi pose f (map (place pose) ns) ls ts ns'.
  Proof.
    intros pose f Hf ns ls ts H.
    induction H as [ns|ns l ls ts Hn Hv Hw H [IH1 [ns' IH2]]
      |ns s0 s1 s2 s3 s4 a b c x y z ls ts Wa Wb Wc Rx Ry Rz H [IH1 [ns' IH2]]
      |ns s0 s1 s2 s3 s4 a b c i j k p q r ls ts Na Nb Nc Li Lj Lk Vp Vq Vr H [IH1 [ns' IH2]]].
    - split; [intros l []|]. eexists. constructor.
    - split; [intros l0 [<-|Hin]; auto|]. exists ns'. now apply of_other.
    - assert (F0 : Forall (fun nw : nat * text => fst nw <> 0) [(S s1, a); (S s2, b); (S s3, c)])
        by (repeat constructor; discriminate).
      assert (F1 : Forall (fun nw : nat * text => word (snd nw)) [(S s1, a); (S s2, b); (S s3, c)])
        by (repeat constructor; auto; apply Wa || apply Wb || apply Wc).
      assert (Wv : word (txt "v")) by (split; [discriminate|reflexivity]).
      split.
      + intros l [<-|Hin]; auto. apply layout_no_nl. constructor; auto.
      + exists ns'. eapply of_vertex.
        * now apply first_word_layout.
        * exists a, b, c. split; [|repeat split; eassumption].
          change [a; b; c] with (map snd [(S s1, a); (S s2, b); (S s3, c)]).
          apply after_first_layout; auto. discriminate.
        * rewrite map_app in IH2. exact IH2.
    - destruct (numeral_word _ _ Na) as [Wa Pa]. destruct (numeral_word _ _ Nb) as [Wb _].
      destruct (numeral_word _ _ Nc) as [Wc _].
      assert (F0 : Forall (fun nw : nat * text => fst nw <> 0) [(S s1, a); (S s2, b); (S s3, c)])
        by (repeat constructor; discriminate).
      assert (F1 : Forall (fun nw : nat * text => word (snd nw)) [(S s1, a); (S s2, b); (S s3, c)])
        by (repeat constructor; auto; apply Wa || apply Wb || apply Wc).
      assert (Wv : word (txt "f")) by (split; [discriminate|reflexivity]).
      split.
      + intros l [<-|Hin]; auto. apply layout_no_nl. constructor; auto.
      + exists ns'. eapply of_face; eauto using vertex_node.
        * now apply first_word_layout.
        * exists a, b, c. split; [|repeat split; apply numeral_stoi; auto].
          change [a; b; c] with (map snd [(S s1, a); (S s2, b); (S s3, c)]).
          apply after_first_layout; auto. discriminate.
  Qed.
End Written.
