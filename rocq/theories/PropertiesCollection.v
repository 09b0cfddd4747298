(** * C85, queries of a collection by kind of entity. *)
From Coq Require Import ZArith Bool Reals Lra Lia List.
From Verif Require Import Base Num Vec Aabb Tree Geom Acme AcmeEntity AcmeCollection ER SpecEntity SpecCollection ProofKinds.
Import ListNotations.

(** isX(i) answers for the i-th entity. *)
Theorem C85_is : forall K (NK : Num K) k tol es t n e, nth_error es n = Some e ->
  exists b, co_is k tol (holding es t) (Z.of_nat n) = Ret b /\ (b = true <-> of_kind k tol e).
Proof. intros K NK. exact is_kind. Qed.
Print Assumptions C85_is.

(** containX: some entity is an X. *)
Theorem C85_contain : forall K (NK : Num K) k tol es t, k <> KDegenerated ->
  exists b, co_contain k tol (holding es t) = Ret b /\ (b = true <-> exists e, In e es /\ of_kind k tol e).
Proof. intros K NK. exact contain_kind. Qed.
Print Assumptions C85_contain.
(** The full statement is false for containDegenerated, which answers true
    for an empty collection and false for a degenerated entity beside a good point. *)
Theorem C85_contain_refuted : forall K (NK : Num K) tol (q : vec3 K) t,
  (co_contain KDegenerated tol (holding [] t) = Ret true /\ ~ exists e, In e [] /\ of_kind KDegenerated tol e) /\
  (co_contain KDegenerated tol (holding [ENone; EPoint q] t) = Ret false /\
   exists e, In e [ENone; EPoint q] /\ of_kind KDegenerated tol e).
Proof.
  intros K NK tol q t. split; split; try reflexivity.
  - now intros (e & [] & _).
  - exists ENone. split; [now left|reflexivity].
Qed.
Print Assumptions C85_contain_refuted.

(** areX: every entity is an X. *)
Theorem C85_are : forall K (NK : Num K) k tol es t, k <> KSegment ->
  exists b, co_are k tol (holding es t) = Ret b /\ (b = true <-> forall e, In e es -> of_kind k tol e).
Proof. intros K NK. exact are_kind. Qed.
Print Assumptions C85_are.
(** The full statement is false for areSegment, which tests isBall. *)
Theorem C85_are_refuted : forall K (NK : Num K) tol (s : segment K) (b : ball K) t,
  (co_are KSegment tol (holding [ESegment s] t) = Ret false /\ forall e, In e [ESegment s] -> of_kind KSegment tol e) /\
  (co_are KSegment tol (holding [EBall b] t) = Ret true /\ ~ forall e, In e [EBall b] -> of_kind KSegment tol e).
Proof.
  intros K NK tol s b t. split; split; try reflexivity.
  - intros e [<-|[]]. now exists s.
  - intros H. destruct (H (EBall b) (or_introl eq_refl)) as (s' & E). discriminate E.
Qed.
Print Assumptions C85_are_refuted.

(** countX: how many entities are an X. *)
Theorem C85_count : forall K (NK : Num K) k tol es t, k <> KNonClampable ->
  exists n, co_count k tol (holding es t) = Ret n /\ number_of (of_kind k tol) es n.
Proof. intros K NK. exact count_kind. Qed.
Print Assumptions C85_count.
(** The full statement is false for countNonClampable, which counts the
    entities that are not non-clampable. *)
Theorem C85_count_refuted : forall K (NK : Num K) tol (q : vec3 K) (l : line K) t,
  (co_count KNonClampable tol (holding [EPoint q] t) = Ret 1%nat /\ number_of (of_kind KNonClampable tol) [EPoint q] 0) /\
  (co_count KNonClampable tol (holding [ELine l] t) = Ret 0%nat /\ number_of (of_kind KNonClampable tol) [ELine l] 1).
Proof.
  intros K NK tol q l t. split; split; try reflexivity.
  - apply no_no; [intros [_ H]; discriminate H|constructor].
  - apply no_yes; [split; [discriminate|reflexivity]|constructor].
Qed.
Print Assumptions C85_count_refuted.

(** What the three methods compute instead, for every collection. *)
Theorem C85_odd_methods : forall K (NK : Num K) tol es t,
  (exists b, co_contain KDegenerated tol (holding es t) = Ret b /\ (b = true <-> forall e, In e es -> of_kind KDegenerated tol e)) /\
  (exists b, co_are KSegment tol (holding es t) = Ret b /\ (b = true <-> forall e, In e es -> of_kind KBall tol e)) /\
  (exists n, co_count KNonClampable tol (holding es t) = Ret n /\ number_of (fun e => ~ of_kind KNonClampable tol e) es n).
Proof. intros K NK tol es t. exact (conj (odd_contain tol es t) (conj (odd_are tol es t) (odd_count tol es t))). Qed.
Print Assumptions C85_odd_methods.

(** The map of counts: its first nine entries, the classes, add up to the
    size; every entry but the last is the number it names. *)
Theorem C85_counts : forall K (NK : Num K) tol es t, exists l, co_counts tol (holding es t) = Ret l /\
  fold_right plus 0%nat (map snd (firstn 9 l)) = co_size (holding es t) /\
  forall k n, k <> KNonClampable -> In (k, n) l -> number_of (of_kind k tol) es n.
Proof. intros K NK. exact counts_partition. Qed.
Print Assumptions C85_counts.
(** The number is determined by the contents. *)
Theorem C85_number_unique : forall A (P : A -> Prop) l n m, number_of P l n -> number_of P l m -> n = m.
Proof. exact number_unique. Qed.
Print Assumptions C85_number_unique.

(** removeX: the others come first, in order and unchanged; as many places as
    there were X follow, with contents that the standard does not specify. *)
Theorem C85_remove_kind : forall K (NK : Num K) k tol junk es t, exists c kept tail,
  co_remove_kind k tol junk (holding es t) = Ret c /\ co_tree c = t /\
  co_entities c = map Some kept ++ tail /\ without (of_kind k tol) es kept /\
  number_of (of_kind k tol) es (length tail) /\
  forall i, (i < length tail)%nat -> nth_error tail i = Some (junk (length kept + i)%nat).
Proof. intros K NK. exact remove_kind. Qed.
Print Assumptions C85_remove_kind.
Theorem C85_without_unique : forall A (P : A -> Prop) l r r', without P l r -> without P l r' -> r = r'.
Proof. exact without_unique. Qed.
Print Assumptions C85_without_unique.
(** A collection is not usable after removeX: when something was removed and
    the places left are null, every count is undefined. *)
Theorem C85_remove_then_count_refuted : forall K (NK : Num K) k k' tol junk es t, (exists e, In e es /\ of_kind k tol e) ->
  (forall i, junk i = None) -> exists c, co_remove_kind k tol junk (holding es t) = Ret c /\ co_count k' tol c = UB.
Proof. intros K NK. exact remove_then_count. Qed.
Print Assumptions C85_remove_then_count_refuted.
Example C85_remove_example : forall K (NK : Num K) tol (q : vec3 K) (l : line K) junk t, exists c,
  co_remove_kind KPoint tol junk (holding [EPoint q; ELine l] t) = Ret c /\ co_entities c = [Some (ELine l); junk 1%nat].
Proof. intros K NK tol q l junk t. eexists. split; reflexivity. Qed.

(** A mixed collection. *)
Example C85_kinds_example : forall tol,
  co_counts tol (holding [EPoint (V (Fin 1) (Fin 2) (Fin 3)); ELine (Line (V (Fin 0) (Fin 0) (Fin 0)) (V (Fin 1) (Fin 0) (Fin 0)));
                          EPoint (V (Fin 0) (Fin 0) (Fin 1))] tempty) <> UB /\
  co_count KPoint tol (holding [EPoint (V (Fin 1) (Fin 2) (Fin 3)); ELine (Line (V (Fin 0) (Fin 0) (Fin 0)) (V (Fin 1) (Fin 0) (Fin 0)));
                          EPoint (V (Fin 0) (Fin 0) (Fin 1))] tempty) = Ret 2%nat.
Proof.
  intros tol. split; [|reflexivity]. match goal with |- co_counts tol (holding ?es tempty) <> UB => destruct (counts_partition tol es tempty) as (l & E & _) end.
  rewrite E. discriminate.
Qed.
