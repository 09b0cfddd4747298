(** * Queries of a collection by boxes, and queries after building. *)
From Coq Require Import ZArith Bool Reals Lra Lia Permutation List.
From Verif Require Import Base Num Vec Aabb Tree Geom Acme AcmeEntity AcmeHeap Shell ER SpecGeom SpecAcme SpecEntity SpecTree SpecLoad SpecMesh SpecHeap.
From Verif Require Import ProofTree ProofMesh ProofQuery ProofMeshFacts ProofGeom ProofBox ProofEntity ProofCollection ProofShell ProofHeap.
Import ListNotations.
Local Open Scope R_scope.

Lemma overlap_box_at : forall i e b, good e -> (overlap (box_at (i, e)) b <-> box_meets e b).
Proof.
  intros i e b [C W]. destruct (box_at_spec i e C W) as (_ & _ & l & h & E & I). unfold overlap, box_meets. rewrite f_clamp, E. split.
  - intros (p & H & H'). apply I in H. destruct H as (q & -> & H). exists l, h, q. auto.
  - intros (l0 & h0 & q & H0 & A & B). assert (l0 = l) as -> by (apply fv_inj; congruence). assert (h0 = h) as -> by (apply fv_inj; congruence).
    exists (fv q). split; [apply I; exists q; auto|exact B].
Qed.
Lemma boxes_exact : forall es t bs, es <> [] -> bs <> [] -> Forall good es -> Forall proper_box bs ->
  exists c ps, co_build (holding (map fent es) t) = Ret c /\ co_candidates_boxes c bs = Ret (firsts ps) /\
    exactly (fun p => box_meets (fst p) (snd p)) (list_prod es bs) ps.
Proof.
  intros es t bs NE NB GE PB.
  assert (CE : Forall (fun e => is_clampable (fent e) = true) es) by (eapply Forall_impl; [|exact GE]; now intros e []).
  rewrite Forall_forall in GE.
  assert (IE : forall x, In x (placed es) -> good (snd x)).
  { intros x H. apply GE. rewrite <- (placed_snd es). apply in_map. exact H. }
  assert (PE : Forall proper_box (map box_at (placed es))).
  { apply Forall_forall. intros b H. apply in_map_iff in H. destruct H as ([i e] & <- & H). destruct (IE _ H) as [C W]. now apply box_at_spec. }
  assert (N1 : map box_at (placed es) <> []). { intros H. apply NE. rewrite <- (placed_snd es). apply map_eq_nil in H. now rewrite H. }
  destruct (trees_pairs _ _ N1 NB PE PB) as (ta & tb & r & Ea & Eb & Er & keep & KP & PM).
  rewrite <- (map_id bs) in PM at 1. rewrite list_prod_map, filter_map_comm in PM.
  set (F := fun p : (nat * entity R) * aabb er => (box_at (fst p), snd p)) in PM.
  apply Permutation_map_inv in PM. destruct PM as (xs & -> & PM).
  exists (holding (map fent es) ta), (map (fun p => (snd (fst p), snd p)) xs).
  assert (IN : forall p, In p xs -> In p (list_prod (placed es) bs)).
  { intros p H. apply (Permutation_in _ (Permutation_sym PM)) in H. apply filter_In in H. tauto. }
  split. { unfold co_build, co_clamp, holding. cbn [co_entities]. rewrite clamp_boxes by exact CE. cbn [obind]. rewrite Ea. reflexivity. }
  split.
  - unfold co_candidates_boxes, co_candidates_tree. rewrite Eb. cbn [obind]. change (co_tree (holding (map fent es) ta)) with ta. rewrite Er. cbn [obind].
    unfold firsts. rewrite map_map. clear PM Er. induction xs as [|p xs IH]; [reflexivity|]. cbn [map omap]. rewrite IH by (intros; apply IN; now right).
    destruct p as [[i e] b]. assert (H := IN _ (or_introl eq_refl)). apply in_prod_iff in H. destruct H as [H1 H2].
    unfold F. cbn [fst snd]. rewrite co_nth_at; [reflexivity|exact (IE _ H1)|exact H1].
  - exists (fun p => intersects (box_at (0%nat, fst p)) (snd p)). rewrite Forall_forall in PB.
    assert (IO : forall i e b, good e -> In b bs -> (intersects (box_at (i, e)) b = true <-> box_meets e b)).
    { intros i e b Ge Hb. rewrite intersects_overlap; [now apply overlap_box_at| |now apply PB]. apply box_at_spec; apply Ge. }
    split.
    + intros [e b] H. apply in_prod_iff in H. destruct H as [H1 H2]. cbn [fst snd]. apply IO; auto.
    + rewrite <- (placed_snd es) at 1. rewrite <- (map_id bs). rewrite list_prod_map, filter_map_comm. apply Permutation_map.
      symmetry. etransitivity; [|exact PM]. match goal with |- Permutation ?x ?y => assert (EQ : x = y); [|rewrite EQ; apply Permutation_refl] end.
      apply filter_ext_in'. intros [[i e] b] H. apply in_prod_iff in H. destruct H as [H1 H2]. unfold F. cbn [fst snd].
      pose proof (IE _ H1) as G1. cbn [snd] in G1. apply eq_true_iff_eq. rewrite (IO 0%nat e b G1 H2).
      rewrite <- (overlap_box_at i e b G1). symmetry. apply (KP (box_at (i, e), b)). apply in_prod; [now apply in_map|exact H2].
Qed.
Lemma in_box_meets : forall e b q, good e -> in_entity e q -> in_box (fv q) b -> box_meets e b.
Proof.
  intros e b q [C W] H Hb. destruct (clampable_rclamp e C) as (l & h & E). exists l, h, q. rewrite f_clamp, E. split; [reflexivity|]. split; [|exact Hb].
  apply (rclamp_encloses e l h E q H).
Qed.
Lemma boxes_complete : forall es t bs, es <> [] -> bs <> [] -> Forall good es -> Forall proper_box bs ->
  exists c l, co_build (holding (map fent es) t) = Ret c /\ co_candidates_boxes c bs = Ret l /\
    forall e b q, In e es -> In b bs -> in_entity e q -> in_box (fv q) b -> In (Some (fent e)) l.
Proof.
  intros es t bs NE NB GE PB. destruct (boxes_exact es t bs NE NB GE PB) as (c & ps & Ec & El & keep & KP & PM). exists c, (firsts ps).
  split; [exact Ec|]. split; [exact El|]. intros e b q He Hb Q B. rewrite Forall_forall in GE.
  unfold firsts. apply (in_map (fun p => Some (fent (fst p))) _ (e, b)). apply (Permutation_in _ (Permutation_sym PM)), filter_In.
  assert (I : In (e, b) (list_prod es bs)) by now apply in_prod. split; [exact I|]. apply (KP (e, b) I). cbn [fst snd]. apply (in_box_meets e b q); auto.
Qed.
Lemma one_box_once : forall es t b, es <> [] -> Forall good es -> proper_box b ->
  exists c fs, co_build (holding (map fent es) t) = Ret c /\ co_candidates_boxes c [b] = Ret (map (fun e => Some (fent e)) fs) /\
    exactly (fun e => box_meets e b) es fs.
Proof.
  intros es t b NE GE PB. destruct (boxes_exact es t [b] NE ltac:(discriminate) GE (Forall_cons _ PB (Forall_nil _))) as (c & ps & Ec & El & keep & KP & PM).
  exists c, (map fst ps). split; [exact Ec|]. split; [rewrite El; unfold firsts; now rewrite map_map|]. exists (fun e => keep (e, b)). split.
  - intros e H. apply (KP (e, b)). apply in_prod; [exact H|now left].
  - apply (Permutation_map fst) in PM. rewrite PM. clear. match goal with |- Permutation ?x ?y => assert (EQ : x = y); [|rewrite EQ; apply Permutation_refl] end.
    induction es as [|e es IH]; [reflexivity|]. cbn [list_prod map app filter]. destruct (keep (e, b)); cbn [map fst]; now rewrite IH.
Qed.
Lemma no_boxes : forall K (NK : Num K) (c : collection K), co_candidates_boxes c [] = UB.
Proof.
  intros K NK c. unfold co_candidates_boxes, co_candidates_tree. change (build (K := K) []) with (Ret (@tempty K)). cbn [obind].
  unfold tree_intersection. destruct (co_tree c) as [[b|] ts]; cbn [tsize tempty]; rewrite Nat.add_succ_l; reflexivity.
Qed.

(** Build two collections and query them. *)
Lemma built_candidates : forall (h : heap er) c d cand ads a bds b es fs t u x, c <> cand -> d <> cand -> a <> b ->
  refers h c ads a -> stored h ads (map fent es) -> nth_error (h_trees h) a = Some t ->
  refers h d bds b -> stored h bds (map fent fs) -> nth_error (h_trees h) b = Some u ->
  nth_error (h_colls h) cand = Some x ->
  es <> [] -> fs <> [] -> Forall good es -> Forall good fs ->
  exists h1 h2 h3 found ads' ps, h_build c h = Ret h1 /\ h_build d h1 = Ret h2 /\ h_candidates c d cand h2 = Ret (found, h3) /\
    nth_error (h_colls h3) cand = Some (PColl (map Some ads') (pc_tree x)) /\ incl ads' (ads ++ bds) /\
    Forall2 (fun p e => nth_error (h_ents h3) p = e) ads' (listed ps) /\
    exactly (fun p => boxes_meet (fst p) (snd p)) (list_prod es fs) ps /\
    (found = true <-> ps <> []) /\ h_ents h3 = h_ents h.
Proof.
  intros h c d cand ads a bds b es fs t u x N1 N2 NT R1 S1 T1 R2 S2 T2 X NE NF GE GF.
  destruct (candidates_exact es fs t u NE NF GE GF) as (c' & d' & ps & Ec & Ed & El & EX).
  assert (C' : exists tc, c' = holding (map fent es) tc).
  { unfold co_build in Ec. destruct (co_clamp _); try discriminate Ec. cbn [obind] in Ec. destruct (build _) as [tc| |]; try discriminate Ec. injection Ec as <-. now exists tc. }
  assert (D' : exists td, d' = holding (map fent fs) td).
  { unfold co_build in Ed. destruct (co_clamp _); try discriminate Ed. cbn [obind] in Ed. destruct (build _) as [td| |]; try discriminate Ed. injection Ed as <-. now exists td. }
  destruct C' as [tc ->], D' as [td ->].
  pose proof (build_view h c ads a _ t R1 S1 T1) as B1. rewrite Ec in B1. cbn [obind] in B1. change (co_tree (holding (map fent es) tc)) with tc in B1.
  set (h1 := Heap (h_ents h) (set_nth a tc (h_trees h)) (h_colls h)) in *.
  assert (T2' : nth_error (h_trees h1) b = Some u) by (unfold h1; cbn [h_trees]; rewrite set_nth_other by exact NT; exact T2).
  pose proof (build_view h1 d bds b _ u R2 S2 T2') as B2. rewrite Ed in B2. cbn [obind] in B2. change (co_tree (holding (map fent fs) td)) with td in B2.
  set (h2 := Heap (h_ents h1) (set_nth b td (h_trees h1)) (h_colls h1)) in *.
  assert (A1 : nth_error (h_trees h2) a = Some tc).
  { unfold h2, h1. cbn [h_trees]. rewrite set_nth_other by congruence. apply set_nth_same. now apply lt_of_nth in T1. }
  assert (A2 : nth_error (h_trees h2) b = Some td).
  { unfold h2, h1. cbn [h_trees]. apply set_nth_same. rewrite set_nth_length. now apply lt_of_nth in T2. }
  pose proof (candidates_view h2 c d cand ads a bds b (map fent es) (map fent fs) tc td x N1 N2 R1 S1 A1 R2 S2 A2 X) as V. rewrite El in V.
  destruct V as (h3 & qs & gs & Q & (O1 & O2 & O3 & O4) & P3 & S3 & L & I).
  exists h1, h2, h3, (match listed ps with [] => false | _ => true end), qs, ps. split; [exact B1|]. split; [exact B2|]. split; [exact Q|]. split; [exact P3|]. split; [exact I|].
  split; [|split; [exact EX|split; [|exact O1]]].
  - rewrite L. clear -S3. induction S3 as [|p e qs gs E S IH]; cbn [map]; constructor; assumption.
  - destruct ps as [|p ps]; cbn; intuition discriminate.
Qed.
