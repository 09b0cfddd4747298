(** * Collection queries by kind. *)
From Coq Require Import ZArith Bool Lia List.
From Verif Require Import Base Num Vec Aabb Tree Geom Acme AcmeEntity AcmeCollection SpecEntity SpecCollection ProofEntity ProofCollection.
Import ListNotations.

Section Kinds.
  Context {K : Type} {NK : Num K}.
  Lemma ent_is_spec : forall k tol (e : entity K), ent_is k tol e = true <-> of_kind k tol e.
  Proof.
    intros k tol e. destruct k; cbn [of_kind ent_is]; try tauto; try apply clampable_flag;
      destruct e; cbn; split; intros H; try discriminate; try reflexivity; try tauto; try (eexists; reflexivity);
      try (destruct H as (? & H); discriminate H); try (split; [discriminate|reflexivity]); (let H1 := fresh in let H2 := fresh in destruct H as [H1 H2]; congruence).
  Qed.
  Lemma ent_is_not : forall k tol (e : entity K), ent_is k tol e = false -> ~ of_kind k tol e.
  Proof. intros k tol e H G. apply ent_is_spec in G. congruence. Qed.
  Lemma number_filter : forall (P : entity K -> Prop) p es, (forall e, p e = true <-> P e) -> number_of P es (length (filter p es)).
  Proof.
    intros P p es S. induction es as [|e es IH]; [constructor|]. cbn [filter]. destruct (p e) eqn:E.
    - apply no_yes; [now apply S|exact IH].
    - apply no_no; [intros G; apply S in G; congruence|exact IH].
  Qed.
  Lemma number_unique : forall A (P : A -> Prop) l n m, number_of P l n -> number_of P l m -> n = m.
  Proof.
    intros A P l n m H. revert m. induction H as [|a l n Pa H IH|a l n Pa H IH]; intros m G; inversion G; subst; try contradiction; auto.
  Qed.
  Lemma contain_kind : forall k tol es t, k <> KDegenerated ->
    exists b, co_contain k tol (holding es t) = Ret b /\ (b = true <-> exists e, In e es /\ of_kind k tol e).
  Proof.
    intros k tol es t N. destruct (proj1 (proj2 (queries_ok (ent_is k tol) es t))) as (b & E & S). exists b. split.
    - destruct k; try exact E. now elim N.
    - rewrite S. split; intros (e & I & G); exists e; (split; [exact I|]); now apply ent_is_spec.
  Qed.
  Lemma are_kind : forall k tol es t, k <> KSegment ->
    exists b, co_are k tol (holding es t) = Ret b /\ (b = true <-> forall e, In e es -> of_kind k tol e).
  Proof.
    intros k tol es t N. destruct (proj2 (proj2 (queries_ok (ent_is k tol) es t))) as (b & E & S). exists b. split.
    - destruct k; try exact E. now elim N.
    - rewrite S. split; intros G e I; apply ent_is_spec; now apply G.
  Qed.
  Lemma count_kind : forall k tol es t, k <> KNonClampable ->
    exists n, co_count k tol (holding es t) = Ret n /\ number_of (of_kind k tol) es n.
  Proof.
    intros k tol es t N. exists (length (filter (ent_is k tol) es)). split; [|apply number_filter; intros e; apply ent_is_spec].
    destruct k; try (apply count_ok). now elim N.
  Qed.
  Lemma is_kind : forall k tol es t n e, nth_error es n = Some e ->
    exists b, co_is k tol (holding es t) (Z.of_nat n) = Ret b /\ (b = true <-> of_kind k tol e).
  Proof.
    intros k tol es t n e H. exists (ent_is k tol e). split; [|apply ent_is_spec]. unfold co_is, co_nth, holding. cbn [co_entities].
    destruct (Z.ltb_spec (Z.of_nat n) 0); [lia|]. rewrite Nat2Z.id, nth_error_map, H. reflexivity.
  Qed.
  (** What the three odd methods do instead. *)
  Lemma odd_contain : forall tol es t,
    exists b, co_contain KDegenerated tol (holding es t) = Ret b /\ (b = true <-> forall e, In e es -> of_kind KDegenerated tol e).
  Proof. intros tol es t. exact (are_kind KDegenerated tol es t ltac:(discriminate)). Qed.
  Lemma odd_are : forall tol es t,
    exists b, co_are KSegment tol (holding es t) = Ret b /\ (b = true <-> forall e, In e es -> of_kind KBall tol e).
  Proof. intros tol es t. exact (are_kind KBall tol es t ltac:(discriminate)). Qed.
  Lemma odd_count : forall tol es t,
    exists n, co_count KNonClampable tol (holding es t) = Ret n /\ number_of (fun e => ~ of_kind KNonClampable tol e) es n.
  Proof.
    intros tol es t. exists (length (filter (fun e => negb (is_non_clampable e)) es)). split; [apply count_ok|]. apply number_filter. intros e.
    rewrite <- (ent_is_spec KNonClampable tol e). cbn [ent_is]. destruct (is_non_clampable e); cbn; split; intros H; congruence.
  Qed.
  (** The nine classes partition a collection. *)
  Definition classes : list kind := [KNone; KPoint; KLine; KRay; KPlane; KSegment; KTriangle; KDisk; KBall].
  Lemma classes_sum : forall tol (es : list (entity K)),
    fold_right plus 0%nat (map (fun k => length (filter (ent_is k tol) es)) classes) = length es.
  Proof.
    intros tol es. induction es as [|e es IH]; [reflexivity|]. cbn [length]. rewrite <- IH. unfold classes. cbn [map fold_right].
    destruct e; cbn [filter ent_is is_none is_point is_line is_ray is_plane is_segment is_triangle is_disk is_ball length]; lia.
  Qed.
  Lemma counts_partition : forall tol es t, exists l, co_counts tol (holding es t) = Ret l /\
    fold_right plus 0%nat (map snd (firstn 9 l)) = co_size (holding es t) /\
    forall k n, k <> KNonClampable -> In (k, n) l -> number_of (of_kind k tol) es n.
  Proof.
    intros tol es t.
    exists (map (fun k => (k, length (filter (match k with KNonClampable => fun e => negb (is_non_clampable e) | _ => ent_is k tol end) es)))
      [KNone; KPoint; KLine; KRay; KPlane; KSegment; KTriangle; KDisk; KBall; KDegenerated; KClampable; KNonClampable]).
    split.
    - unfold co_counts. cbn [omap]. unfold co_count, holding. cbn [co_entities]. rewrite !count_ok. cbn [obind]. reflexivity.
    - split.
      + unfold co_size, holding. cbn [co_entities]. rewrite map_length. rewrite <- (classes_sum tol es). reflexivity.
      + intros k n N I. apply in_map_iff in I. destruct I as (k' & E & _).
        assert (k' = k) as -> by now apply (f_equal fst) in E. apply (f_equal snd) in E. cbn [snd] in E. subst n.
        destruct k; try (now elim N); apply number_filter; intros e; apply (ent_is_spec _ tol e).
  Qed.
  Lemma without_filter : forall (P : entity K -> Prop) p es, (forall e, p e = true <-> P e) -> without P es (filter (fun e => negb (p e)) es).
  Proof.
    intros P p es S. induction es as [|e es IH]; [constructor|]. cbn [filter]. destruct (p e) eqn:E; cbn [negb].
    - apply wo_drop; [now apply S|exact IH].
    - apply wo_keep; [intros G; apply S in G; congruence|exact IH].
  Qed.
  Lemma remove_kind : forall k tol junk es t, exists c kept tail,
    co_remove_kind k tol junk (holding es t) = Ret c /\ co_tree c = t /\
    co_entities c = map Some kept ++ tail /\ without (of_kind k tol) es kept /\
    number_of (of_kind k tol) es (length tail) /\
    forall i, i < length tail -> nth_error tail i = Some (junk (length kept + i)).
  Proof.
    intros k tol junk es t. unfold co_remove_kind, co_remove, holding. cbn [co_entities co_tree]. rewrite keep_ok. cbn [obind].
    rewrite !map_length. set (kept := filter (fun e => negb (ent_is k tol e)) es).
    assert (L : length kept + length (filter (ent_is k tol) es) = length es).
    { unfold kept. clear. induction es as [|e es IH]; [reflexivity|]. cbn. destruct (ent_is k tol e); cbn; lia. }
    eexists. exists kept, (map junk (seq (length kept) (length es - length kept))).
    split; [reflexivity|]. cbn [co_tree co_entities]. split; [reflexivity|]. split; [reflexivity|].
    split; [apply without_filter; intros e; apply ent_is_spec|].
    assert (T : length (map junk (seq (length kept) (length es - length kept))) = length (filter (ent_is k tol) es)).
    { rewrite map_length, seq_length. lia. }
    split; [rewrite T; apply number_filter; intros e; apply ent_is_spec|].
    intros i Hi. rewrite T in Hi. rewrite nth_error_map.
    assert (N : nth_error (seq (length kept) (length es - length kept)) i = Some (length kept + i)).
    { rewrite (nth_error_nth' _ 0) by (rewrite seq_length; lia). now rewrite seq_nth by lia. }
    now rewrite N.
  Qed.
  Lemma without_unique : forall A (P : A -> Prop) l r r', without P l r -> without P l r' -> r = r'.
  Proof.
    intros A P l r r' H. revert r'. induction H as [|a l r Na H IH|a l r Pa H IH]; intros r' G; inversion G; subst; try contradiction; auto.
    f_equal. auto.
  Qed.
  Lemma count_null : forall k tol (c : collection K), In None (co_entities c) -> co_count k tol c = UB.
  Proof.
    intros k tol c I. unfold co_count. destruct k; now apply null_counted.
  Qed.
  Lemma remove_then_count : forall k k' tol junk es t, (exists e, In e es /\ of_kind k tol e) ->
    (forall i, junk i = None) -> exists c, co_remove_kind k tol junk (holding es t) = Ret c /\ co_count k' tol c = UB.
  Proof.
    intros k k' tol junk es t (e & I & O) J. destruct (remove_kind k tol junk es t) as (c & kept & tail & E & _ & CE & _ & N & T).
    exists c. split; [exact E|]. apply count_null. rewrite CE. apply in_or_app. right.
    assert (0 < length tail).
    { clear - I O N. revert I. induction N as [|a l n Pa N IH|a l n Na N IH]; intros I; [destruct I|lia|].
      destruct I as [->|I]; [contradiction|auto]. }
    apply (nth_error_In tail 0). rewrite (T 0) by assumption. now rewrite J.
  Qed.
End Kinds.
