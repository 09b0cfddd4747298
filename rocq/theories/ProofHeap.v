(** * Proofs about collections as pointers. *)
From Coq Require Import ZArith Bool Lia Permutation List.
From Verif Require Import Base Num Vec Aabb Tree Geom Acme AcmeEntity AcmeHeap Shell SpecEntity SpecHeap ProofShell.
Import ListNotations.

Section Heap.
  Context {K : Type} {NK : Num K}.
  Implicit Types (h : heap K) (es fs : list (entity K)).

  Lemma set_nth_over : forall A n (x y : A) l, set_nth n x (set_nth n y l) = set_nth n x l.
  Proof. intros A n x y. induction n as [|n IH]; intros [|z l]; cbn; try reflexivity. now rewrite IH. Qed.
  Lemma lt_of_nth : forall A (l : list A) n x, nth_error l n = Some x -> n < length l.
  Proof. intros A l n x H. apply nth_error_Some. congruence. Qed.

  Lemma iter_in : forall A (f : A -> A) n x, Nat.iter (S n) f x = Nat.iter n f (f x).
  Proof. intros A f. induction n as [|n IH]; intros x; [reflexivity|]. change (f (Nat.iter (S n) f x) = f (Nat.iter n f (f x))). now rewrite IH. Qed.

  (** ** Moving. *)
  Lemma map_through_ok : forall (f : entity K -> entity K) ads es, Forall (fun a => a < length es) ads ->
    exists es', map_through f (map Some ads) es = Ret es' /\ length es' = length es /\
      forall a e, nth_error es a = Some e -> nth_error es' a = Some (Nat.iter (occurrences ads a) f e).
  Proof.
    intros f. induction ads as [|b ads IH]; intros es H.
    - exists es. repeat split. intros a e E. exact E.
    - apply Forall_cons_iff in H. destruct H as [Hb H]. cbn [map map_through].
      destruct (nth_error es b) as [eb|] eqn:Eb; [|apply nth_error_None in Eb; lia].
      destruct (IH (set_nth b (f eb) es)) as (es' & E' & L & N). { now rewrite set_nth_length. }
      rewrite set_nth_length in L. exists es'. split; [exact E'|]. split; [exact L|]. intros a e E. unfold occurrences in *. cbn [count_occ].
      destruct (Nat.eq_dec b a) as [<-|NE].
      + assert (e = eb) as -> by congruence. rewrite (N b (f eb)); [|now apply set_nth_same].
        f_equal. symmetry. apply iter_in.
      + apply N. rewrite set_nth_other by exact NE. exact E.
  Qed.
  Lemma stored_bounds : forall h ads es, stored h ads es -> Forall (fun a => a < length (h_ents h)) ads.
  Proof. intros h ads es H. induction H as [|a e ads es E H IH]; constructor; [now apply lt_of_nth in E|exact IH]. Qed.
  Lemma stored_length : forall h ads es, stored h ads es -> length ads = length es.
  Proof. intros h ads es H. induction H as [|a e ads es E H IH]; [reflexivity|]. cbn. now rewrite IH. Qed.
  Lemma map_counts : forall (f : entity K -> entity K) h c ads t es, refers h c ads t -> stored h ads es ->
    exists h', h_map f c h = Ret h' /\ h_trees h' = h_trees h /\ h_colls h' = h_colls h /\ length (h_ents h') = length (h_ents h) /\
      forall a e, nth_error (h_ents h) a = Some e -> nth_error (h_ents h') a = Some (Nat.iter (occurrences ads a) f e).
  Proof.
    intros f h c ads t es R S. unfold h_map, h_coll. rewrite R. cbn [obind pc_ents].
    destruct (map_through_ok f ads (h_ents h) (stored_bounds h ads es S)) as (es' & -> & L & N). cbn [obind]. eexists. split; [reflexivity|]. auto.
  Qed.
  Lemma map_once : forall (f : entity K -> entity K) h c ads t es, refers h c ads t -> stored h ads es -> NoDup ads ->
    exists h', h_map f c h = Ret h' /\ refers h' c ads t /\ stored h' ads (map f es).
  Proof.
    intros f h c ads t es R S D. destruct (map_counts f h c ads t es R S) as (h' & E & _ & C & _ & N). exists h'. split; [exact E|].
    split; [unfold refers; now rewrite C|].
    assert (G : forall ads1 es1, stored h ads1 es1 -> incl ads1 ads -> stored h' ads1 (map f es1)).
    { intros ads1 es1 S1. induction S1 as [|a e ads1 es1 E1 S1 IH]; intros I; cbn [map]; constructor.
      - rewrite (N a e E1). unfold occurrences. rewrite (proj1 (NoDup_count_occ' Nat.eq_dec ads) D); [reflexivity|]. apply I. now left.
      - apply IH. intros x Hx. apply I. now right. }
    apply G; [exact S|apply incl_refl].
  Qed.
  Lemma map_frame : forall (f : entity K -> entity K) h c ads t es h' bds fs, refers h c ads t -> stored h ads es -> h_map f c h = Ret h' ->
    stored h bds fs -> (forall a, In a ads -> In a bds -> False) -> stored h' bds fs.
  Proof.
    intros f h c ads t es h' bds fs R S E B D. destruct (map_counts f h c ads t es R S) as (h1 & E1 & _ & _ & _ & N).
    assert (h1 = h') as -> by congruence. induction B as [|a e bds fs Ea B IH]; constructor.
    - rewrite (N a e Ea). unfold occurrences. rewrite (proj1 (count_occ_not_In Nat.eq_dec ads a)); [reflexivity|]. intros H. apply (D a H). now left.
    - apply IH. intros x Hx Hy. apply (D x Hx). now right.
  Qed.
  Lemma map_null : forall (f : entity K -> entity K) h c x, nth_error (h_colls h) c = Some x -> In None (pc_ents x) -> h_map f c h = UB.
  Proof.
    intros f h c x E H. unfold h_map, h_coll. rewrite E. cbn [obind]. generalize (h_ents h). induction (pc_ents x) as [|[a|] ps IH]; intros l; [destruct H| |reflexivity].
    destruct H as [H|H]; [discriminate H|]. cbn [map_through]. destruct (nth_error l a); [|reflexivity]. now apply IH.
  Qed.

  (** ** Building. *)
  Lemma clamp_through_eq : forall h ads es i, stored h ads es -> clamp_through h i (map Some ads) = clamp_from i (map Some es).
  Proof.
    intros h ads es i S. revert i. induction S as [|a e ads es E S IH]; intros i; [reflexivity|].
    cbn [map clamp_through clamp_from h_ent deref]. rewrite E. cbn [obind]. destruct (ent_clamp e) as [[mn mx]|]; [|reflexivity]. now rewrite IH.
  Qed.
  Lemma build_view : forall h c ads a es t, refers h c ads a -> stored h ads es -> nth_error (h_trees h) a = Some t ->
    h_build c h = obind (co_build (holding es t)) (fun d => Ret (Heap (h_ents h) (set_nth a (co_tree d) (h_trees h)) (h_colls h))).
  Proof.
    intros h c ads a es t R S T. unfold h_build, h_coll, co_build, co_clamp, holding. rewrite R. cbn [obind pc_ents pc_tree co_entities].
    rewrite (clamp_through_eq h ads es 0%Z S). destruct (clamp_from 0 (map Some es)) as [bs| |]; [|reflexivity|reflexivity]. cbn [obind].
    destruct (build bs) as [u| |]; [|reflexivity|reflexivity]. cbn [obind co_tree]. apply lt_of_nth in T. now apply Nat.ltb_lt in T as ->.
  Qed.

  (** ** Reading and writing one collection. *)
  Lemma set_coll : forall h c x y, nth_error (h_colls h) c = Some y -> h_coll (h_set h c x) c = Ret x.
  Proof. intros h c x y H. unfold h_coll, h_set. cbn [h_colls]. rewrite set_nth_same; [reflexivity|]. now apply lt_of_nth in H. Qed.
  Lemma set_other : forall h c d x, d <> c -> h_coll (h_set h c x) d = h_coll h d.
  Proof. intros h c d x H. unfold h_coll, h_set. cbn [h_colls]. rewrite set_nth_other by congruence. reflexivity. Qed.
  Lemma set_set : forall h c x y, h_set (h_set h c x) c y = h_set h c y.
  Proof. intros h c x y. unfold h_set. cbn. now rewrite set_nth_over. Qed.
  Lemma only_set : forall h c x, only_collection c h (h_set h c x).
  Proof.
    intros h c x. unfold only_collection, h_set. cbn. split; [reflexivity|]. split; [reflexivity|]. split; [apply set_nth_length|].
    intros d H. apply set_nth_other. congruence.
  Qed.

  (** ** Candidates. *)
  (** The pointers a query stores. *)
  Definition at_id (ads : list nat) (id : Z) : outcome nat :=
    if (id <? 0)%Z then UB else match nth_error ads (Z.to_nat id) with Some a => Ret a | None => UB end.
  Lemma slot_eq : forall h c ads t id, refers h c ads t -> h_slot h c id = obind (at_id ads id) (fun a => Ret (Some a)).
  Proof.
    intros h c ads t id R. unfold h_slot, h_coll, at_id. rewrite R. cbn [obind pc_ents]. destruct (id <? 0)%Z; [reflexivity|].
    rewrite nth_error_map. destruct (nth_error ads (Z.to_nat id)); reflexivity.
  Qed.
  Lemma at_stored : forall h ads es t id, stored h ads es ->
    co_nth (holding es t) id = match at_id ads id with
                               | Ret a => match nth_error (h_ents h) a with Some e => Ret (Some e) | None => UB end
                               | Throw x => Throw x | UB => UB end.
  Proof.
    intros h ads es t id S. unfold co_nth, at_id, holding. cbn [co_entities]. destruct (id <? 0)%Z; [reflexivity|]. rewrite nth_error_map.
    generalize (Z.to_nat id) as n. induction S as [|a e ads es E S IH]; intros [|n]; try reflexivity.
    - cbn. now rewrite E.
    - cbn [nth_error]. apply IH.
  Qed.
  Lemma refers_set : forall h c d x ads t, d <> c -> refers h d ads t -> refers (h_set h c x) d ads t.
  Proof. intros h c d x ads t N R. unfold refers, h_set. cbn [h_colls]. rewrite set_nth_other by congruence. exact R. Qed.

  Definition pair_ptrs (ads bds : list nat) (l : list (aabb K * aabb K)) : outcome (list nat) :=
    let* r := omap (fun p => let* a := at_id ads (bid (fst p)) in let* b := at_id bds (bid (snd p)) in Ret [a; b]) l in Ret (concat r).
  Lemma cand_loop_eq : forall this other cand l ads bds t u h x, this <> cand -> other <> cand ->
    refers h this ads t -> refers h other bds u -> nth_error (h_colls h) cand = Some x ->
    cand_loop this other cand l h = obind (pair_ptrs ads bds l) (fun ps => Ret (h_set h cand (PColl (pc_ents x ++ map Some ps) (pc_tree x)))).
  Proof.
    intros this other cand l ads bds t u. unfold pair_ptrs. induction l as [|p l IH]; intros h x N1 N2 R1 R2 X.
    - cbn. rewrite app_nil_r. destruct x as [ps o]. cbn [pc_ents pc_tree]. f_equal. destruct h as [e tr cs]. unfold h_set. cbn [h_ents h_trees h_colls] in *. f_equal.
      clear -X. revert cand X. induction cs as [|y cs IH]; intros [|n] X; cbn in *; try congruence. f_equal. now apply IH.
    - cbn [cand_loop omap]. rewrite (slot_eq h this ads t _ R1). destruct (at_id ads (bid (fst p))) as [a| |]; [|reflexivity|reflexivity]. cbn [obind].
      unfold h_push at 1. unfold h_coll at 1. rewrite X. cbn [obind].
      set (h1 := h_set h cand (PColl (pc_ents x ++ [Some a]) (pc_tree x))).
      assert (R2' : refers h1 other bds u) by now apply refers_set.
      rewrite (slot_eq h1 other bds u _ R2'). destruct (at_id bds (bid (snd p))) as [b| |]; [|reflexivity|reflexivity]. cbn [obind].
      unfold h_push. unfold h1. rewrite (set_coll _ _ _ _ X). cbn [obind pc_ents pc_tree]. rewrite set_set. rewrite <- app_assoc. cbn [app].
      erewrite IH; [|exact N1|exact N2|apply refers_set; eassumption|apply refers_set; eassumption|].
      2:{ unfold h_set. cbn [h_colls]. apply set_nth_same. now apply lt_of_nth in X. }
      cbn [pc_ents pc_tree]. destruct (omap _ l) as [r| |]; cbn [obind]; try reflexivity. rewrite set_set, <- app_assoc. reflexivity.
  Qed.
  (** ... and the entities they point to. *)
  Lemma pair_ptrs_view : forall h ads bds es fs t u l, stored h ads es -> stored h bds fs ->
    match pair_ptrs ads bds l with
    | Ret ps => exists gs, stored h ps gs /\
        obind (omap (fun p => let* a := co_nth (holding es t) (bid (fst p)) in let* b := co_nth (holding fs u) (bid (snd p)) in Ret [a; b]) l)
              (fun r => Ret (concat r)) = Ret (map Some gs) /\ incl ps (ads ++ bds)
    | Throw e => False
    | UB => obind (omap (fun p => let* a := co_nth (holding es t) (bid (fst p)) in let* b := co_nth (holding fs u) (bid (snd p)) in Ret [a; b]) l)
              (fun r => Ret (concat r)) = UB
    end.
  Proof.
    intros h ads bds es fs t u l S1 S2. unfold pair_ptrs. induction l as [|p l IH].
    - cbn. exists []. split; [constructor|]. split; [reflexivity|]. intros x [].
    - cbn [omap]. rewrite (at_stored h ads es t _ S1), (at_stored h bds fs u _ S2).
      assert (A : forall q bs gs, stored h bs gs -> match at_id bs q with Ret a => In a bs /\ exists e, nth_error (h_ents h) a = Some e | Throw _ => False | UB => True end).
      { intros q bs gs S. unfold at_id. destruct (q <? 0)%Z; [exact I|]. destruct (nth_error bs (Z.to_nat q)) as [a|] eqn:E; [|exact I].
        apply nth_error_In in E. split; [exact E|]. clear -S E. induction S as [|b g bs gs Eg S IH]; [destruct E|]. destruct E as [->|E]; eauto. }
      pose proof (A (bid (fst p)) ads es S1) as A1. pose proof (A (bid (snd p)) bds fs S2) as A2.
      destruct (at_id ads (bid (fst p))) as [a|x|]; [|destruct A1|reflexivity]. destruct A1 as (I1 & e & E1). rewrite E1. cbn [obind].
      destruct (at_id bds (bid (snd p))) as [b|x|]; [|destruct A2|reflexivity]. destruct A2 as (I2 & f & E2). rewrite E2. cbn [obind].
      destruct (omap (fun p0 => let* a0 := at_id ads (bid (fst p0)) in let* b0 := at_id bds (bid (snd p0)) in Ret [a0; b0]) l) as [r|x|]; cbn [obind] in *.
      + destruct IH as (gs & S & E & I). exists (e :: f :: gs). split; [cbn [concat app]; now repeat constructor|].
        split.
        * destruct (omap (fun p0 => let* a0 := co_nth (holding es t) (bid (fst p0)) in let* b0 := co_nth (holding fs u) (bid (snd p0)) in Ret [a0; b0]) l) as [r'| |]; cbn [obind] in *; try discriminate.
          injection E as E. cbn [concat app map]. now rewrite E.
        * cbn [concat app]. intros y [<-|[<-|H]]; [apply in_or_app; now left|apply in_or_app; now right|now apply I].
      + destruct IH.
      + destruct (omap (fun p0 => let* a0 := co_nth (holding es t) (bid (fst p0)) in let* b0 := co_nth (holding fs u) (bid (snd p0)) in Ret [a0; b0]) l) as [r'| |]; cbn [obind] in *; try discriminate. reflexivity.
  Qed.
  Lemma nonempty_flag : forall A (l : list A), (0 <? length l)%nat = match l with [] => false | _ => true end.
  Proof. now intros A [|a l]. Qed.
  Lemma tree_eq : forall h a t, nth_error (h_trees h) a = Some t -> h_tree h (Some a) = Ret t.
  Proof. intros h a t H. unfold h_tree. now rewrite H. Qed.
  Lemma candidates_view : forall h this other cand ads a bds b es fs t u x, this <> cand -> other <> cand ->
    refers h this ads a -> stored h ads es -> nth_error (h_trees h) a = Some t ->
    refers h other bds b -> stored h bds fs -> nth_error (h_trees h) b = Some u ->
    nth_error (h_colls h) cand = Some x ->
    match co_candidates (holding es t) (holding fs u) with
    | Ret l => exists h' ps gs, h_candidates this other cand h = Ret (match l with [] => false | _ => true end, h') /\
        only_collection cand h h' /\ nth_error (h_colls h') cand = Some (PColl (map Some ps) (pc_tree x)) /\
        stored h' ps gs /\ l = map Some gs /\ incl ps (ads ++ bds)
    | Throw e => h_candidates this other cand h = Throw e
    | UB => h_candidates this other cand h = UB
    end.
  Proof.
    intros h this other cand ads a bds b es fs t u x N1 N2 R1 S1 T1 R2 S2 T2 X.
    assert (Q : h_candidates this other cand h = let* l := tree_intersection t u in let* ps := pair_ptrs ads bds l in
                  Ret ((0 <? length ps)%nat, h_set h cand (PColl (map Some ps) (pc_tree x)))).
    { unfold h_candidates, h_clear. unfold h_coll at 1. rewrite X. cbn [obind]. set (h1 := h_set h cand (PColl [] (pc_tree x))).
      assert (R1' : refers h1 this ads a) by now apply refers_set. assert (R2' : refers h1 other bds b) by now apply refers_set.
      unfold h_coll at 1 2. rewrite R1', R2'. cbn [obind pc_tree]. unfold h1 at 1 2. rewrite (tree_eq (h_set h cand _) a t T1), (tree_eq (h_set h cand _) b u T2). cbn [obind].
      destruct (tree_intersection t u) as [l| |]; [|reflexivity|reflexivity]. cbn [obind].
      assert (X1 : nth_error (h_colls h1) cand = Some (PColl [] (pc_tree x))).
      { unfold h1, h_set. cbn [h_colls]. apply set_nth_same. now apply lt_of_nth in X. }
      rewrite (cand_loop_eq this other cand l ads bds a b h1 _ N1 N2 R1' R2' X1). cbn [pc_ents pc_tree app].
      destruct (pair_ptrs ads bds l) as [ps| |]; [|reflexivity|reflexivity]. cbn [obind]. unfold h_size. rewrite (set_coll _ _ _ _ X1). cbn [obind pc_ents].
      unfold h1. now rewrite map_length, set_set. }
    rewrite Q. unfold co_candidates. change (co_tree (holding es t)) with t. change (co_tree (holding fs u)) with u.
    destruct (tree_intersection t u) as [l| |]; [|reflexivity|reflexivity]. cbn [obind].
    pose proof (pair_ptrs_view h ads bds es fs t u l S1 S2) as P. destruct (pair_ptrs ads bds l) as [ps| |]; [|destruct P|rewrite P; reflexivity].
    destruct P as (gs & S & -> & I). cbn [obind]. rewrite (stored_length _ _ _ S), nonempty_flag.
    eexists _, ps, gs. split; [|split; [apply only_set|split; [|split; [exact S|split; [reflexivity|exact I]]]]].
    - destruct gs; reflexivity.
    - unfold h_set. cbn [h_colls]. apply set_nth_same. now apply lt_of_nth in X.
  Qed.

  (** The result is the collection that is queried. *)
  Lemma candidates_this : forall h this other ads a bds b t u p l, this <> other ->
    refers h this ads a -> nth_error (h_trees h) a = Some t ->
    refers h other bds b -> nth_error (h_trees h) b = Some u ->
    tree_intersection t u = Ret (p :: l) -> h_candidates this other this h = UB.
  Proof.
    intros h this other ads a bds b t u p l N R1 T1 R2 T2 E. unfold h_candidates, h_clear. unfold h_coll at 1. rewrite R1. cbn [obind pc_tree].
    rewrite (set_coll _ _ _ _ R1). rewrite set_other by congruence. unfold h_coll at 1. rewrite R2. cbn [obind pc_tree].
    rewrite (tree_eq (h_set h this _) a t T1), (tree_eq (h_set h this _) b u T2). cbn [obind]. rewrite E. cbn [obind cand_loop].
    unfold h_slot. rewrite (set_coll _ _ _ _ R1). cbn [obind pc_ents]. destruct (bid (fst p) <? 0)%Z; [reflexivity|]. now destruct (Z.to_nat (bid (fst p))).
  Qed.

  (** ** Candidates for boxes. *)
  Definition box_ptrs (ads : list nat) (l : list (aabb K * aabb K)) : outcome (list nat) := omap (fun p => at_id ads (bid (fst p))) l.
  Lemma box_loop_eq : forall this cand l ads t h x, this <> cand ->
    refers h this ads t -> nth_error (h_colls h) cand = Some x ->
    box_loop this cand l h = obind (box_ptrs ads l) (fun ps => Ret (h_set h cand (PColl (pc_ents x ++ map Some ps) (pc_tree x)))).
  Proof.
    intros this cand l ads t. unfold box_ptrs. induction l as [|p l IH]; intros h x N R X.
    - cbn. rewrite app_nil_r. destruct x as [ps o]. cbn [pc_ents pc_tree]. f_equal. destruct h as [e tr cs]. unfold h_set. cbn [h_ents h_trees h_colls] in *. f_equal.
      clear -X. revert cand X. induction cs as [|y cs IH]; intros [|n] X; cbn in *; try congruence. f_equal. now apply IH.
    - cbn [box_loop omap]. rewrite (slot_eq h this ads t _ R). destruct (at_id ads (bid (fst p))) as [a| |]; [|reflexivity|reflexivity]. cbn [obind].
      unfold h_push. unfold h_coll. rewrite X. cbn [obind].
      erewrite IH; [|exact N|apply refers_set; eassumption|].
      2:{ unfold h_set. cbn [h_colls]. apply set_nth_same. now apply lt_of_nth in X. }
      cbn [pc_ents pc_tree]. destruct (omap _ l) as [r| |]; cbn [obind]; try reflexivity. rewrite set_set, <- app_assoc. reflexivity.
  Qed.
  Lemma box_ptrs_view : forall h ads es t l, stored h ads es ->
    match box_ptrs ads l with
    | Ret ps => exists gs, stored h ps gs /\ omap (fun p => co_nth (holding es t) (bid (fst p))) l = Ret (map Some gs) /\ incl ps ads
    | Throw e => False
    | UB => omap (fun p => co_nth (holding es t) (bid (fst p))) l = UB
    end.
  Proof.
    intros h ads es t l S1. unfold box_ptrs. induction l as [|p l IH].
    - cbn. exists []. split; [constructor|]. split; [reflexivity|]. intros x [].
    - cbn [omap]. rewrite (at_stored h ads es t _ S1).
      assert (A : match at_id ads (bid (fst p)) with Ret a => In a ads /\ exists e, nth_error (h_ents h) a = Some e | Throw _ => False | UB => True end).
      { unfold at_id. destruct (bid (fst p) <? 0)%Z; [exact I|]. destruct (nth_error ads (Z.to_nat (bid (fst p)))) as [a|] eqn:E; [|exact I].
        apply nth_error_In in E. split; [exact E|]. clear -S1 E. induction S1 as [|b g bs gs Eg S IH]; [destruct E|]. destruct E as [->|E]; eauto. }
      destruct (at_id ads (bid (fst p))) as [a|x|]; [|destruct A|reflexivity]. destruct A as (I1 & e & E1). rewrite E1. cbn [obind].
      destruct (omap (fun p0 => at_id ads (bid (fst p0))) l) as [r|x|]; cbn [obind] in *.
      + destruct IH as (gs & S & E & I). exists (e :: gs). split; [now constructor|]. split; [rewrite E; reflexivity|].
        intros y [<-|H]; [exact I1|now apply I].
      + destruct IH.
      + rewrite IH. reflexivity.
  Qed.
  Lemma boxes_view : forall h this cand ads a es t x bs, this <> cand ->
    refers h this ads a -> stored h ads es -> nth_error (h_trees h) a = Some t -> nth_error (h_colls h) cand = Some x ->
    match co_candidates_boxes (holding es t) bs with
    | Ret l => exists h' ps gs, h_candidates_boxes this bs cand h = Ret (match l with [] => false | _ => true end, h') /\
        only_collection cand h h' /\ nth_error (h_colls h') cand = Some (PColl (map Some ps) (pc_tree x)) /\
        stored h' ps gs /\ l = map Some gs /\ incl ps ads
    | Throw e => h_candidates_boxes this bs cand h = Throw e
    | UB => h_candidates_boxes this bs cand h = UB
    end.
  Proof.
    intros h this cand ads a es t x bs N R S0 T X. unfold h_candidates_boxes, co_candidates_boxes. destruct (build bs) as [u| |]; [|reflexivity|reflexivity]. cbn [obind].
    assert (Q : h_candidates_tree this u cand h = let* l := tree_intersection t u in let* ps := box_ptrs ads l in
                  Ret ((0 <? length ps)%nat, h_set h cand (PColl (map Some ps) (pc_tree x)))).
    { unfold h_candidates_tree, h_clear. unfold h_coll at 1. rewrite X. cbn [obind]. set (h1 := h_set h cand (PColl [] (pc_tree x))).
      assert (R' : refers h1 this ads a) by now apply refers_set.
      unfold h_coll at 1. rewrite R'. cbn [obind pc_tree]. unfold h1 at 1. rewrite (tree_eq (h_set h cand _) a t T). cbn [obind].
      destruct (tree_intersection t u) as [l| |]; [|reflexivity|reflexivity]. cbn [obind].
      assert (X1 : nth_error (h_colls h1) cand = Some (PColl [] (pc_tree x))).
      { unfold h1, h_set. cbn [h_colls]. apply set_nth_same. now apply lt_of_nth in X. }
      rewrite (box_loop_eq this cand l ads a h1 _ N R' X1). cbn [pc_ents pc_tree app].
      destruct (box_ptrs ads l) as [ps| |]; [|reflexivity|reflexivity]. cbn [obind]. unfold h_size. rewrite (set_coll _ _ _ _ X1). cbn [obind pc_ents].
      unfold h1. now rewrite map_length, set_set. }
    rewrite Q. unfold co_candidates_tree. change (co_tree (holding es t)) with t.
    destruct (tree_intersection t u) as [l| |]; [|reflexivity|reflexivity]. cbn [obind].
    pose proof (box_ptrs_view h ads es t l S0) as P. destruct (box_ptrs ads l) as [ps| |]; [|destruct P|rewrite P; reflexivity].
    destruct P as (gs & S & -> & I). cbn [obind]. rewrite (stored_length _ _ _ S), nonempty_flag.
    eexists _, ps, gs. split; [|split; [apply only_set|split; [|split; [exact S|split; [reflexivity|exact I]]]]].
    - destruct gs; reflexivity.
    - unfold h_set. cbn [h_colls]. apply set_nth_same. now apply lt_of_nth in X.
  Qed.

  (** ** All intersections. *)
  Lemma upper_indices_S : forall n, upper_indices (S n) = map (pair 0) (seq 0 (S n)) ++ map (fun p => (S (fst p), S (snd p))) (upper_indices n).
  Proof.
    intros n. unfold upper_indices. change (seq 0 (S n)) with (0 :: seq 1 n) at 1. cbn [flat_map]. f_equal.
    rewrite <- seq_shift. generalize (seq 0 n). induction l as [|i l IH]; [reflexivity|]. cbn [map flat_map]. rewrite IH, map_app. f_equal.
    replace (S n - S i) with (n - i) by lia. rewrite <- seq_shift, !map_map. reflexivity.
  Qed.
  Lemma upper_pairs_indices : forall A (d : A) l, upper_pairs l = map (fun p => (nth (fst p) l d, nth (snd p) l d)) (upper_indices (length l)).
  Proof.
    intros A d. induction l as [|a l IH]; [reflexivity|]. change (length (a :: l)) with (S (length l)). rewrite upper_indices_S, map_app, map_map.
    cbn [upper_pairs]. f_equal.
    - cbn [fst snd nth seq map]. f_equal. rewrite <- seq_shift, map_map. cbn [nth].
      assert (G : map (fun x => nth x l d) (seq 0 (length l)) = l).
      { clear. induction l as [|b l IH]; [reflexivity|]. cbn [length seq map nth]. f_equal. rewrite <- seq_shift, map_map. exact IH. }
      rewrite <- G at 1. rewrite map_map. reflexivity.
    - rewrite IH, map_map. reflexivity.
  Qed.
  Lemma upper_bounds : forall n, Forall (fun p => fst p <= snd p /\ snd p < n) (upper_indices n).
  Proof.
    intros n. apply Forall_forall. intros [i j] H. unfold upper_indices in H. apply in_flat_map in H. destruct H as (k & Hk & H).
    apply in_map_iff in H. destruct H as (m & E & H). injection E as <- <-. apply in_seq in Hk, H. cbn [fst snd]. lia.
  Qed.
  Lemma upper_length : forall n, 2 * length (upper_indices n) = n * (n + 1).
  Proof. induction n as [|n IH]; [reflexivity|]. rewrite upper_indices_S, app_length, !map_length, seq_length. lia. Qed.
  Lemma row_start_S : forall n i, row_start (S n) (S i) = S n + row_start n i.
  Proof. intros n. induction i as [|i IH]; [cbn; lia|]. change (row_start (S n) (S (S i))) with (row_start (S n) (S i) + (S n - S i)). rewrite IH. cbn [row_start]. lia. Qed.
  Lemma upper_nth : forall n i j, i <= j -> j < n -> nth_error (upper_indices n) (row_start n i + (j - i)) = Some (i, j).
  Proof.
    induction n as [|n IH]; intros i j L1 L2; [lia|]. rewrite upper_indices_S. destruct i as [|i].
    - cbn [row_start]. rewrite nth_error_app1 by (rewrite map_length, seq_length; lia). rewrite Nat.sub_0_r. change (0 + j) with j. rewrite nth_error_map.
      rewrite (nth_error_nth' _ 0) by (rewrite seq_length; lia). rewrite seq_nth by lia. reflexivity.
    - destruct j as [|j]; [lia|]. rewrite row_start_S. rewrite nth_error_app2 by (rewrite map_length, seq_length; lia). rewrite map_length, seq_length.
      replace (S n + row_start n i + (S j - S i) - S n) with (row_start n i + (j - i)) by lia. rewrite nth_error_map, IH by lia. reflexivity.
  Qed.
  Definition pair_result (es : list (entity K)) (tol : K) (p : nat * nat) : outcome (entity K) :=
    match nth_error es (fst p), nth_error es (snd p) with Some a, Some b => ent_intersection a b tol | _, _ => UB end.
  Lemma omap_map : forall A B C (f : B -> outcome C) (g : A -> B) l, omap f (map g l) = omap (fun a => f (g a)) l.
  Proof. intros A B C f g l. induction l as [|a l IH]; [reflexivity|]. cbn. now rewrite IH. Qed.
  Lemma intersections_indices : forall es t tol, co_intersections (holding es t) tol = omap (pair_result es tol) (upper_indices (length es)).
  Proof.
    intros es t tol. unfold co_intersections, holding. cbn [co_entities]. rewrite (upper_pairs_indices _ None), omap_map, map_length. apply omap_ext.
    intros [i j] H. pose proof (upper_bounds (length es)) as U. rewrite Forall_forall in U. specialize (U _ H). cbn [fst snd] in *. unfold pair_result. cbn [fst snd].
    destruct (nth_error es i) as [a|] eqn:Ea; [|apply nth_error_None in Ea; lia]. destruct (nth_error es j) as [b|] eqn:Eb; [|apply nth_error_None in Eb; lia].
    apply (map_nth_error Some) in Ea, Eb. apply (nth_error_nth _ _ None) in Ea, Eb. now rewrite Ea, Eb.
  Qed.
  Lemma omap_all : forall A B (f : A -> outcome B) l, (exists r, omap f l = Ret r) <-> forall a, In a l -> exists b, f a = Ret b.
  Proof.
    intros A B f l. induction l as [|a l IH]; cbn [omap].
    - split; [intros _ a []|intros _; now exists []].
    - split.
      + intros [r E] x [<-|H].
        * destruct (f a) as [b| |]; [eauto|discriminate E|discriminate E].
        * apply IH; [|exact H]. destruct (f a); try discriminate E. cbn [obind] in E. destruct (omap f l); try discriminate E. eauto.
      + intros H. destruct (H a (or_introl eq_refl)) as [b ->]. destruct (proj2 IH (fun x Hx => H x (or_intror Hx))) as [r ->]. cbn. eauto.
  Qed.
  Lemma omap_nth : forall A B (f : A -> outcome B) l r, omap f l = Ret r -> length r = length l /\ forall n a, nth_error l n = Some a -> exists b, f a = Ret b /\ nth_error r n = Some b.
  Proof.
    intros A B f l. induction l as [|a l IH]; intros r E; cbn [omap] in E.
    - injection E as <-. split; [reflexivity|]. intros [|n] a H; discriminate H.
    - destruct (f a) as [b| |] eqn:Eb; try discriminate E. cbn [obind] in E. destruct (omap f l) as [r'| |] eqn:Er; try discriminate E. injection E as <-.
      destruct (IH r' eq_refl) as [L N]. split; [cbn; now rewrite L|]. intros [|n] x H; [injection H as <-; eauto|]. now apply N.
  Qed.
  Lemma intersections_ok : forall es t tol rs, co_intersections (holding es t) tol = Ret rs ->
    2 * length rs = length es * (length es + 1) /\
    forall i j a b, i <= j -> nth_error es i = Some a -> nth_error es j = Some b ->
      exists r, ent_intersection a b tol = Ret r /\ nth_error rs (row_start (length es) i + (j - i)) = Some r.
  Proof.
    intros es t tol rs E. rewrite intersections_indices in E. apply omap_nth in E. destruct E as [L N]. split; [rewrite L; apply upper_length|].
    intros i j a b Hij Ea Eb. assert (Hj := lt_of_nth _ _ _ _ Eb). destruct (N _ _ (upper_nth (length es) i j Hij Hj)) as (r & Er & Nr).
    exists r. split; [|exact Nr]. unfold pair_result in Er. cbn [fst snd] in Er. now rewrite Ea, Eb in Er.
  Qed.
  Lemma intersections_return : forall es t tol, (exists rs, co_intersections (holding es t) tol = Ret rs) <->
    forall i j a b, i <= j -> nth_error es i = Some a -> nth_error es j = Some b -> exists r, ent_intersection a b tol = Ret r.
  Proof.
    intros es t tol. rewrite intersections_indices, omap_all. split.
    - intros H i j a b Hij Ea Eb. assert (Hj := lt_of_nth _ _ _ _ Eb). destruct (H (i, j)) as (r & Er); [exact (nth_error_In _ _ (upper_nth (length es) i j Hij Hj))|].
      unfold pair_result in Er. cbn [fst snd] in Er. rewrite Ea, Eb in Er. eauto.
    - intros H [i j] I. pose proof (upper_bounds (length es)) as U. rewrite Forall_forall in U. specialize (U _ I). cbn [fst snd] in U. unfold pair_result. cbn [fst snd].
      destruct (nth_error es i) as [a|] eqn:Ea; [|apply nth_error_None in Ea; lia]. destruct (nth_error es j) as [b|] eqn:Eb; [|apply nth_error_None in Eb; lia].
      now apply (H i j a b).
  Qed.
  Lemma stored_nth : forall h ads es i, stored h ads es -> nth_error es i = match nth_error ads i with Some a => nth_error (h_ents h) a | None => None end.
  Proof.
    intros h ads es i S. revert i. induction S as [|a e ads es E S IH]; intros [|i]; try reflexivity; cbn [nth_error]; [now rewrite E|apply IH].
  Qed.
  Lemma stored_more : forall h ads es h', stored h ads es -> (exists new, h_ents h' = h_ents h ++ new) -> stored h' ads es.
  Proof.
    intros h ads es h' S [new E]. induction S as [|a e ads es Ea S IH]; constructor; [|exact IH]. rewrite E, nth_error_app1; [exact Ea|]. now apply lt_of_nth in Ea.
  Qed.
  Lemma inter_loop_eq : forall this out tol l ads a es h x, this <> out -> refers h this ads a -> stored h ads es -> nth_error (h_colls h) out = Some x ->
    Forall (fun p => fst p < length es /\ snd p < length es) l ->
    inter_loop this out tol l h = let* rs := omap (pair_result es tol) l in
      Ret (h_set (Heap (h_ents h ++ rs) (h_trees h) (h_colls h)) out
             (PColl (pc_ents x ++ map Some (seq (length (h_ents h)) (length rs))) (pc_tree x))).
  Proof.
    intros this out tol l ads a es. induction l as [|[i j] l IH]; intros h x N R S X F.
    - cbn. rewrite !app_nil_r. destruct x as [ps o]. cbn [pc_ents pc_tree]. f_equal. destruct h as [e tr cs]. unfold h_set. cbn [h_ents h_trees h_colls] in *. f_equal.
      clear -X. revert out X. induction cs as [|y cs IH]; intros [|n] X; cbn in *; try congruence. f_equal. now apply IH.
    - apply Forall_cons_iff in F. destruct F as [[F1 F2] F]. cbn [fst snd] in F1, F2. cbn [inter_loop omap]. unfold pair_result at 1. cbn [fst snd].
      assert (G : forall k, k < length es -> exists b e, h_slot h this (Z.of_nat k) = Ret (Some b) /\ h_ent h (Some b) = Ret e /\ nth_error es k = Some e).
      { intros k Hk. destruct (nth_error es k) as [e|] eqn:Ee; [|apply nth_error_None in Ee; lia]. assert (Ee' := Ee). rewrite (stored_nth h ads es k S) in Ee'.
        rewrite (slot_eq h this ads a _ R). unfold at_id. assert ((Z.of_nat k <? 0)%Z = false) as -> by (apply Z.ltb_ge; lia). rewrite Nat2Z.id.
        destruct (nth_error ads k) as [b|]; [|discriminate Ee']. exists b, e. split; [reflexivity|]. split; [|reflexivity]. unfold h_ent. now rewrite Ee'. }
      destruct (G i F1) as (p & e & G1 & G2 & G3), (G j F2) as (q & f & G4 & G5 & G6). rewrite G1, G4. cbn [obind]. rewrite G2, G5, G3, G6. cbn [obind].
      destruct (ent_intersection e f tol) as [r| |]; [|reflexivity|reflexivity]. cbn [obind h_new_entity].
      set (h0 := Heap (h_ents h ++ [r]) (h_trees h) (h_colls h)). unfold h_push, h_coll. change (h_colls h0) with (h_colls h). rewrite X. cbn [obind].
      set (h1 := h_set h0 out (PColl (pc_ents x ++ [Some (length (h_ents h))]) (pc_tree x))).
      rewrite (IH h1 (PColl (pc_ents x ++ [Some (length (h_ents h))]) (pc_tree x))).
      + destruct (omap (pair_result es tol) l) as [rs| |]; cbn [obind]; try reflexivity. f_equal. unfold h1, h0, h_set. cbn [h_ents h_trees h_colls pc_ents pc_tree].
        rewrite set_nth_over, <- !app_assoc, app_length. cbn [app length seq map]. now rewrite Nat.add_1_r.
      + exact N.
      + unfold h1. apply refers_set; [congruence|]. exact R.
      + apply (stored_more h); [exact S|]. exists [r]. reflexivity.
      + unfold h1, h_set. cbn [h_colls]. apply set_nth_same. now apply lt_of_nth in X.
      + exact F.
  Qed.
  Lemma intersections_view : forall h this out tol ads a es t x, this <> out -> refers h this ads a -> stored h ads es -> nth_error (h_colls h) out = Some x ->
    match co_intersections (holding es t) tol with
    | Ret rs => exists h', h_intersections this out tol h = Ret h' /\ only_collection_and_new out h h' /\
        exists ps, nth_error (h_colls h') out = Some (PColl (map Some ps) (pc_tree x)) /\ stored h' ps rs /\
          NoDup ps /\ forall p, In p ps -> length (h_ents h) <= p
    | Throw e => h_intersections this out tol h = Throw e
    | UB => h_intersections this out tol h = UB
    end.
  Proof.
    intros h this out tol ads a es t x N R S X. rewrite intersections_indices.
    assert (Q : h_intersections this out tol h = let* rs := omap (pair_result es tol) (upper_indices (length es)) in
                 Ret (h_set (Heap (h_ents h ++ rs) (h_trees h) (h_colls h)) out (PColl (map Some (seq (length (h_ents h)) (length rs))) (pc_tree x)))).
    { unfold h_intersections, h_size, h_coll at 1. rewrite R. cbn [obind pc_ents]. rewrite map_length, (stored_length _ _ _ S).
      unfold h_clear, h_coll. rewrite X. cbn [obind]. rewrite (inter_loop_eq this out tol _ ads a es _ (PColl [] (pc_tree x))).
      - destruct (omap (pair_result es tol) (upper_indices (length es))) as [rs| |]; cbn [obind]; try reflexivity. unfold h_set. cbn [h_ents h_trees h_colls pc_ents pc_tree app]. now rewrite set_nth_over.
      - exact N.
      - now apply refers_set.
      - exact S.
      - unfold h_set. cbn [h_colls]. apply set_nth_same. now apply lt_of_nth in X.
      - eapply Forall_impl; [|apply upper_bounds]. intros p. cbn beta. lia. }
    rewrite Q. destruct (omap (pair_result es tol) (upper_indices (length es))) as [rs| |]; [|reflexivity|reflexivity]. cbn [obind]. eexists. split; [reflexivity|]. split.
    - unfold only_collection_and_new, h_set. cbn [h_ents h_trees h_colls]. split; [now exists rs|]. split; [reflexivity|]. split; [apply set_nth_length|].
      intros d H. apply set_nth_other. congruence.
    - exists (seq (length (h_ents h)) (length rs)). split; [|split; [|split]].
      + unfold h_set. cbn [h_colls]. apply set_nth_same. now apply lt_of_nth in X.
      + unfold stored, h_set. cbn [h_ents]. clear. generalize (h_ents h). intros l. revert l. induction rs as [|r rs IH]; intros l; [constructor|]. cbn [length seq]. constructor.
        * rewrite nth_error_app2 by lia. now rewrite Nat.sub_diag.
        * specialize (IH (l ++ [r])). rewrite app_length, <- app_assoc in IH. cbn [length app] in IH. now rewrite Nat.add_1_r in IH.
      + apply seq_NoDup.
      + intros p H. apply in_seq in H. lia.
  Qed.
  Lemma intersections_this : forall h this tol x, nth_error (h_colls h) this = Some x -> pc_ents x <> [] -> h_intersections this this tol h = UB.
  Proof.
    intros h this tol x X NE. unfold h_intersections, h_size, h_clear. unfold h_coll at 1 2. rewrite X. cbn [obind].
    destruct (pc_ents x) as [|p ps]; [now destruct NE|]. cbn [length]. rewrite upper_indices_S. cbn [seq map app inter_loop].
    unfold h_slot. rewrite (set_coll _ _ _ _ X). reflexivity.
  Qed.

  (** ** Copies. *)
  Lemma copy_ok : forall h c x, nth_error (h_colls h) c = Some x ->
    exists h', h_copy c h = Ret (length (h_colls h), h') /\ h_ents h' = h_ents h /\ h_trees h' = h_trees h /\
      nth_error (h_colls h') (length (h_colls h)) = Some x /\
      (forall d, d < length (h_colls h) -> nth_error (h_colls h') d = nth_error (h_colls h) d).
  Proof.
    intros h c x X. unfold h_copy, h_coll. rewrite X. cbn [obind]. eexists. split; [reflexivity|]. cbn [h_ents h_trees h_colls]. split; [reflexivity|]. split; [reflexivity|]. split.
    - rewrite nth_error_app2 by lia. now rewrite Nat.sub_diag.
    - intros d H. now apply nth_error_app1.
  Qed.
  Lemma copies_alike : forall h c d, nth_error (h_colls h) c = nth_error (h_colls h) d -> forall es t, contains h c es t <-> contains h d es t.
  Proof. intros h c d E es t. unfold contains, refers. now rewrite E. Qed.
  Lemma map_build_same : forall h c h', ((exists f, h_map f c h = Ret h') \/ h_build c h = Ret h') -> h_colls h' = h_colls h.
  Proof.
    intros h c h' [[f E]|E].
    - unfold h_map in E. destruct (h_coll h c) as [x| |]; try discriminate E. cbn [obind] in E. destruct (map_through f (pc_ents x) (h_ents h)); try discriminate E. now injection E as <-.
    - unfold h_build in E. destruct (h_coll h c) as [x| |]; try discriminate E. cbn [obind] in E. destruct (clamp_through h 0 (pc_ents x)) as [bs| |]; try discriminate E. cbn [obind] in E.
      destruct (build bs) as [t| |]; try discriminate E. cbn [obind] in E. destruct (pc_tree x) as [a|]; [|discriminate E]. destruct (a <? length (h_trees h)); [|discriminate E]. now injection E as <-.
  Qed.
  Lemma push_ok : forall h c p x, nth_error (h_colls h) c = Some x -> exists h', h_push c p h = Ret h' /\ only_collection c h h' /\ nth_error (h_colls h') c = Some (PColl (pc_ents x ++ [p]) (pc_tree x)).
  Proof.
    intros h c p x X. unfold h_push, h_coll. rewrite X. cbn [obind]. eexists. split; [reflexivity|]. split; [apply only_set|]. unfold h_set. cbn [h_colls]. apply set_nth_same. now apply lt_of_nth in X.
  Qed.
  Lemma clear_ok : forall h c x, nth_error (h_colls h) c = Some x -> exists h', h_clear c h = Ret h' /\ only_collection c h h' /\ nth_error (h_colls h') c = Some (PColl [] (pc_tree x)).
  Proof.
    intros h c x X. unfold h_clear, h_coll. rewrite X. cbn [obind]. eexists. split; [reflexivity|]. split; [apply only_set|]. unfold h_set. cbn [h_colls]. apply set_nth_same. now apply lt_of_nth in X.
  Qed.

  (** ** Moved-from collections. *)
  Lemma move_ok : forall h c x, nth_error (h_colls h) c = Some x ->
    exists h', h_move c h = Ret (length (h_colls h), h') /\ h_ents h' = h_ents h /\ h_trees h' = h_trees h /\
      nth_error (h_colls h') (length (h_colls h)) = Some x /\ nth_error (h_colls h') c = Some (PColl [] None) /\
      (forall d, d < length (h_colls h) -> d <> c -> nth_error (h_colls h') d = nth_error (h_colls h) d).
  Proof.
    intros h c x X. unfold h_move, h_coll. rewrite X. cbn [obind]. assert (L := lt_of_nth _ _ _ _ X). eexists. split; [reflexivity|]. cbn [h_ents h_trees h_colls]. split; [reflexivity|]. split; [reflexivity|]. split; [|split].
    - rewrite nth_error_app2 by (rewrite set_nth_length; lia). rewrite set_nth_length. now rewrite Nat.sub_diag.
    - rewrite nth_error_app1 by (rewrite set_nth_length; lia). now apply set_nth_same.
    - intros d H NE. rewrite nth_error_app1 by (rewrite set_nth_length; lia). apply set_nth_other. congruence.
  Qed.

  (** ** Editing, in terms of the contents. *)
  Definition seen (h : heap K) (p : option nat) : outcome (option (entity K)) :=
    match p with Some _ => let* e := h_ent h p in Ret (Some e) | None => Ret None end.
  Lemma view_split : forall h c v, h_view h c = Ret v -> exists x, nth_error (h_colls h) c = Some x /\
    omap (seen h) (pc_ents x) = Ret (co_entities v) /\ h_tree h (pc_tree x) = Ret (co_tree v).
  Proof.
    intros h c v E. unfold h_view, h_coll in E. destruct (nth_error (h_colls h) c) as [x|] eqn:X; [|discriminate]. cbn [obind] in E.
    exists x. split; [reflexivity|]. change ((let* es := omap (seen h) (pc_ents x) in let* t := h_tree h (pc_tree x) in Ret (Collection es t)) = Ret v) in E.
    destruct (omap (seen h) (pc_ents x)) as [es| |]; try discriminate. cbn [obind] in E.
    destruct (h_tree h (pc_tree x)) as [t| |]; try discriminate. cbn [obind] in E. injection E as <-. now split.
  Qed.
  Lemma view_join : forall h h' c x (os : list (option (entity K))) t, only_collection c h h' -> nth_error (h_colls h') c = Some x ->
    omap (seen h) (pc_ents x) = Ret os -> h_tree h (pc_tree x) = Ret t -> h_view h' c = Ret (Collection os t).
  Proof.
    intros h h' c x os t (E1 & E2 & _) X Es Et. unfold h_view, h_coll. rewrite X. cbn [obind].
    change ((let* es := omap (seen h') (pc_ents x) in let* t := h_tree h' (pc_tree x) in Ret (Collection es t)) = Ret (Collection os t)).
    assert (S1 : forall p, seen h' p = seen h p) by (intros [a|]; [unfold seen, h_ent; now rewrite E1|reflexivity]).
    assert (S2 : omap (seen h') (pc_ents x) = Ret os). { rewrite <- Es. clear Es. induction (pc_ents x) as [|p l IH]; [reflexivity|]. cbn [omap]. now rewrite S1, IH. }
    rewrite S2. cbn [obind]. replace (h_tree h' (pc_tree x)) with (h_tree h (pc_tree x)) by (unfold h_tree; now rewrite E2). now rewrite Et.
  Qed.
  Lemma omap_app' : forall {A B} (f : A -> outcome B) l l' r r', omap f l = Ret r -> omap f l' = Ret r' -> omap f (l ++ l') = Ret (r ++ r').
  Proof.
    intros A B f. induction l as [|a l IH]; intros l' r r' H H'; cbn [omap] in H.
    - injection H as <-. exact H'.
    - cbn [app omap]. destruct (f a) as [b| |]; try discriminate. cbn [obind] in H |- *. destruct (omap f l) as [r0| |]; try discriminate. cbn [obind] in H. injection H as <-.
      now rewrite (IH l' r0 r' eq_refl H').
  Qed.
  Lemma omap_firstn : forall {A B} (f : A -> outcome B) l r n, omap f l = Ret r -> omap f (firstn n l) = Ret (firstn n r).
  Proof.
    intros A B f. induction l as [|a l IH]; intros r n H; cbn [omap] in H.
    - injection H as <-. now destruct n.
    - destruct (f a) as [b| |] eqn:Ea; try discriminate. cbn [obind] in H. destruct (omap f l) as [r0| |]; try discriminate. cbn [obind] in H. injection H as <-.
      destruct n as [|n]; [reflexivity|]. cbn [firstn omap]. now rewrite Ea, (IH r0 n eq_refl).
  Qed.
  Lemma omap_len : forall {A B} (f : A -> outcome B) l r, omap f l = Ret r -> length r = length l.
  Proof.
    intros A B f. induction l as [|a l IH]; intros r H; cbn [omap] in H; [now injection H as <-|].
    destruct (f a) as [b| |]; try discriminate. cbn [obind] in H. destruct (omap f l) as [r0| |]; try discriminate. cbn [obind] in H. injection H as <-. cbn. now rewrite (IH r0).
  Qed.
  Lemma seen_nulls : forall h n, omap (seen h) (repeat None n) = Ret (repeat None n).
  Proof. intros h. induction n as [|n IH]; [reflexivity|]. cbn [repeat omap]. now rewrite IH. Qed.
  Lemma edit_view : forall h c v, h_view h c = Ret v ->
    (forall a e, nth_error (h_ents h) a = Some e ->
       exists h', h_push c (Some a) h = Ret h' /\ only_collection c h h' /\
         h_view h' c = Ret (Collection (co_entities v ++ [Some e]) (co_tree v))) /\
    (forall n, exists h' os, h_resize c n h = Ret h' /\ only_collection c h h' /\
       h_view h' c = Ret (Collection os (co_tree v)) /\ length os = n /\
       forall i, i < n -> nth_error os i =
         match nth_error (co_entities v) i with Some e => Some e | None => Some None end) /\
    (exists h', h_clear c h = Ret h' /\ only_collection c h h' /\ h_view h' c = Ret (Collection [] (co_tree v))).
  Proof.
    intros h c v E. destruct (view_split h c v E) as (x & X & Es & Et). split; [|split].
    - intros a e A. destruct (push_ok h c (Some a) x X) as (h' & P & O & N). exists h'. split; [exact P|]. split; [exact O|].
      apply (view_join h h' c _ _ _ O N); [|exact Et]. cbn [pc_ents]. apply omap_app'; [exact Es|]. cbn. now rewrite A.
    - intros n. set (x' := PColl (firstn n (pc_ents x) ++ repeat None (n - length (pc_ents x))) (pc_tree x)).
      exists (h_set h c x'), (firstn n (co_entities v) ++ repeat None (n - length (pc_ents x))).
      assert (O : only_collection c h (h_set h c x')) by apply only_set.
      split; [unfold h_resize, h_coll; now rewrite X|]. split; [exact O|]. assert (L := omap_len _ _ _ Es). split; [|split].
      + apply (view_join h _ c x' _ _ O); [unfold h_set; cbn [h_colls]; apply set_nth_same; now apply lt_of_nth in X| |exact Et].
        unfold x'. cbn [pc_ents]. apply omap_app'; [now apply omap_firstn|apply seen_nulls].
      + rewrite app_length, firstn_length, repeat_length. lia.
      + intros i Hi. destruct (Nat.lt_ge_cases i (length (co_entities v))) as [H|H].
        * rewrite nth_error_app1 by (rewrite firstn_length; lia). rewrite <- (firstn_skipn n (co_entities v)) at 2.
          rewrite (nth_error_app1 (firstn n (co_entities v))) by (rewrite firstn_length; lia).
          destruct (nth_error (firstn n (co_entities v)) i) eqn:Q; [reflexivity|]. apply nth_error_None in Q. rewrite firstn_length in Q. lia.
        * rewrite (proj2 (nth_error_None (co_entities v) i) H). rewrite nth_error_app2 by (rewrite firstn_length; lia).
          rewrite firstn_length, Nat.min_r by lia. apply nth_error_repeat. lia.
    - destruct (clear_ok h c x X) as (h' & P & O & N). exists h'. split; [exact P|]. split; [exact O|]. apply (view_join h h' c _ _ _ O N); [reflexivity|exact Et].
  Qed.
End Heap.
