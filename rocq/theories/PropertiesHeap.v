(** * C103, box queries and all intersections of a collection; C104, sharing. *)
From Coq Require Import ZArith Bool Reals Lra Lia Permutation List.
From Verif Require Import Base Num Vec Aabb Tree Geom Acme AcmeEntity AcmeHeap ER F64 SpecGeom SpecAcme SpecTree SpecEntity SpecHeap.
From Verif Require Import ProofTree ProofGeom ProofPred ProofDispatch ProofCollection ProofShell ProofHeap ProofBoxes SampleMesh.
Import ListNotations.

(** ** C103 *)
(** Asking with boxes lists the entities whose boxes overlap one, once for
    every box it overlaps. *)
Theorem C103_boxes : forall es t bs, es <> [] -> bs <> [] ->
  Forall (fun e => is_clampable (fent e) = true /\ well_posed e) es -> Forall proper_box bs ->
  exists c ps, co_build (holding (map fent es) t) = Ret c /\ co_candidates_boxes c bs = Ret (firsts ps) /\
    exactly (fun p => box_meets (fst p) (snd p)) (list_prod es bs) ps.
Proof. exact boxes_exact. Qed.
Print Assumptions C103_boxes.
(** With one box every entity is listed at most once. *)
Theorem C103_one_box : forall es t b, es <> [] ->
  Forall (fun e => is_clampable (fent e) = true /\ well_posed e) es -> proper_box b ->
  exists c fs, co_build (holding (map fent es) t) = Ret c /\ co_candidates_boxes c [b] = Ret (map (fun e => Some (fent e)) fs) /\
    exactly (fun e => box_meets e b) es fs.
Proof. exact one_box_once. Qed.
Print Assumptions C103_one_box.
(** No entity with a point in a box is lost. *)
Theorem C103_boxes_complete : forall es t bs, es <> [] -> bs <> [] ->
  Forall (fun e => is_clampable (fent e) = true /\ well_posed e) es -> Forall proper_box bs ->
  exists c l, co_build (holding (map fent es) t) = Ret c /\ co_candidates_boxes c bs = Ret l /\
    forall e b q, In e es -> In b bs -> in_entity e q -> in_box (fv q) b -> In (Some (fent e)) l.
Proof. exact boxes_complete. Qed.
Print Assumptions C103_boxes_complete.
(** Asking with no boxes is undefined. *)
Theorem C103_no_boxes_refuted : forall K (NK : Num K) (c : collection K), co_candidates_boxes c [] = UB.
Proof. exact no_boxes. Qed.
Print Assumptions C103_no_boxes_refuted.
(** All intersections: one entry for every pair [i <= j], row by row. *)
Theorem C103_intersections : forall K (NK : Num K) (es : list (entity K)) t tol rs, co_intersections (holding es t) tol = Ret rs ->
  2 * length rs = length es * (length es + 1) /\
  forall i j a b, i <= j -> nth_error es i = Some a -> nth_error es j = Some b ->
    exists r, ent_intersection a b tol = Ret r /\ nth_error rs (row_start (length es) i + (j - i)) = Some r.
Proof. intros K NK. exact intersections_ok. Qed.
Print Assumptions C103_intersections.
(** ... which is returned when the intersection of every pair is. *)
Theorem C103_intersections_return : forall K (NK : Num K) (es : list (entity K)) t tol,
  (exists rs, co_intersections (holding es t) tol = Ret rs) <->
  forall i j a b, i <= j -> nth_error es i = Some a -> nth_error es j = Some b -> exists r, ent_intersection a b tol = Ret r.
Proof. intros K NK. exact intersections_return. Qed.
Print Assumptions C103_intersections_return.
(** The pair of an entity with itself is among them, so that a collection with
    a ball or a [none] has no intersections: the call never returns. *)
Theorem C103_intersections_refuted : forall K (NK : Num K) (es : list (entity K)) t tol,
  (In ENone es \/ exists b, In (EBall b) es) -> ~ exists rs, co_intersections (holding es t) tol = Ret rs.
Proof.
  intros K NK es t tol H G.
  rewrite C103_intersections_return in G.
  assert (B : exists e, In e es /\ either_way never_answered e e).
  { destruct H as [H|[b H]]; [exists ENone|exists (EBall b)]; (split; [exact H|left; exact I]). }
  destruct B as (e & I & N). apply In_nth_error in I. destruct I as [i Ei]. destruct (G i i e e (Nat.le_refl i) Ei Ei) as [r E].
  rewrite (never e e tol N) in E. discriminate E.
Qed.
Print Assumptions C103_intersections_refuted.
Example C103_example :
  Forall (fun e => is_clampable (fent e) = true /\ well_posed e) [EBall (Ball 1 (V 0 0 0)); EPoint (V 5 5 5)]%R /\
  proper_box (Box (fv (V 0 0 0)) (fv (V 1 1 1)) 7%Z)%R /\
  exists rs, co_intersections (K := f64) (holding [EPoint (V (fz 1) (fz 2) (fz 3)); ESegment (Segment (V (fz 1) (fz 2) (fz 3)) (V (fz 1) (fz 5) (fz 3)))] tempty) (fz 0) = Ret rs.
Proof.
  split; [repeat constructor; cbn; lra|]. split.
  - unfold proper_box. cbn. repeat split; cbn; try (apply rleb_true; lra).
  - eexists. vm_compute. reflexivity.
Qed.

(** ** C104 *)
(** Translating, rotating or transforming a collection moves the object at an
    address as often as the collection refers to it, and nothing else. *)
Theorem C104_move_counts : forall K (f : entity K -> entity K) (h : heap K) c ads t es, refers h c ads t -> stored h ads es ->
  exists h', h_map f c h = Ret h' /\ h_trees h' = h_trees h /\ h_colls h' = h_colls h /\ length (h_ents h') = length (h_ents h) /\
    forall a e, nth_error (h_ents h) a = Some e -> nth_error (h_ents h') a = Some (Nat.iter (occurrences ads a) f e).
Proof. intros K. exact map_counts. Qed.
Print Assumptions C104_move_counts.
(** When no two places refer to the same object, every entity moves once, as C85_map says. *)
Theorem C104_move_once : forall K (f : entity K -> entity K) (h : heap K) c ads t es, refers h c ads t -> stored h ads es -> NoDup ads ->
  exists h', h_map f c h = Ret h' /\ refers h' c ads t /\ stored h' ads (map f es).
Proof. intros K. exact map_once. Qed.
Print Assumptions C104_move_once.
(** Entities that the collection does not refer to stay. *)
Theorem C104_move_frame : forall K (f : entity K -> entity K) (h : heap K) c ads t es h' bds fs, refers h c ads t -> stored h ads es ->
  h_map f c h = Ret h' -> stored h bds fs -> (forall a, In a ads -> In a bds -> False) -> stored h' bds fs.
Proof. intros K. exact map_frame. Qed.
Print Assumptions C104_move_frame.

(** A program: three points at the origin, one in the first collection and two
    in the second, both built, candidates in the third. *)
Definition origin64 : entity f64 := EPoint (V (fz 0) (fz 0) (fz 0)).
Definition one_two : outcome (bool * heap f64) :=
  let (_, h) := h_new_entity origin64 (Heap [] [] []) in
  let (_, h) := h_new_entity origin64 h in
  let (_, h) := h_new_entity origin64 h in
  let (_, h) := h_new [Some 0] h in
  let (_, h) := h_new [Some 1; Some 2] h in
  let (_, h) := h_new [] h in
  let* h := h_build 0 h in
  let* h := h_build 1 h in
  h_candidates 0 1 2 h.
Definition step_x : vec3 f64 := V (fz 1) (fz 0) (fz 0).
(** The candidates refer to the objects of the collections that were queried,
    and to the first point twice: translating the candidates by one moves it,
    and the first collection, by two. *)
Theorem C104_move_refuted : exists h h' t t', one_two = Ret (true, h) /\ h_map (ent_translate step_x) 2 h = Ret h' /\
  contains h 0 [origin64] t /\ contains h' 0 [ent_translate step_x (ent_translate step_x origin64)] t' /\
  ent_translate step_x (ent_translate step_x origin64) <> ent_translate step_x origin64.
Proof.
  destruct one_two as [[f h]| |] eqn:E; [|vm_compute in E; discriminate E|vm_compute in E; discriminate E].
  destruct (h_map (ent_translate step_x) 2 h) as [h'| |] eqn:E'; vm_compute in E; injection E as <- <-; vm_compute in E'; try discriminate E'. injection E' as <-.
  eexists _, _, _, _. split; [reflexivity|]. split; [reflexivity|]. split; [|split].
  - exists [0], 0. repeat split. repeat constructor.
  - exists [0], 0. repeat split. repeat constructor.
  - vm_compute. discriminate.
Qed.
Print Assumptions C104_move_refuted.
(** A null pointer in the collection makes the move undefined. *)
Theorem C104_move_null : forall K (f : entity K -> entity K) (h : heap K) c x,
  nth_error (h_colls h) c = Some x -> In None (pc_ents x) -> h_map f c h = UB.
Proof. intros K. exact map_null. Qed.
Print Assumptions C104_move_null.

(** Two collections with trees of their own are built and asked for
    candidates in a third: the third refers to objects of the two, to exactly
    the pairs whose boxes overlap, and no entity changes. *)
Theorem C104_candidates : forall (h : heap er) c d cand ads a bds b es fs t u x, c <> cand -> d <> cand -> a <> b ->
  refers h c ads a -> stored h ads (map fent es) -> nth_error (h_trees h) a = Some t ->
  refers h d bds b -> stored h bds (map fent fs) -> nth_error (h_trees h) b = Some u ->
  nth_error (h_colls h) cand = Some x -> es <> [] -> fs <> [] ->
  Forall (fun e => is_clampable (fent e) = true /\ well_posed e) es -> Forall (fun e => is_clampable (fent e) = true /\ well_posed e) fs ->
  exists h1 h2 h3 found ads' ps, h_build c h = Ret h1 /\ h_build d h1 = Ret h2 /\ h_candidates c d cand h2 = Ret (found, h3) /\
    nth_error (h_colls h3) cand = Some (PColl (map Some ads') (pc_tree x)) /\ incl ads' (ads ++ bds) /\
    Forall2 (fun p e => nth_error (h_ents h3) p = e) ads' (listed ps) /\
    exactly (fun p => boxes_meet (fst p) (snd p)) (list_prod es fs) ps /\
    (found = true <-> ps <> []) /\ h_ents h3 = h_ents h.
Proof. exact built_candidates. Qed.
Print Assumptions C104_candidates.
(** A query changes only the collection for the result, and agrees with the
    query on values. *)
Theorem C104_query : forall K (NK : Num K) (h : heap K) this other cand ads a bds b es fs t u x, this <> cand -> other <> cand ->
  refers h this ads a -> stored h ads es -> nth_error (h_trees h) a = Some t ->
  refers h other bds b -> stored h bds fs -> nth_error (h_trees h) b = Some u ->
  nth_error (h_colls h) cand = Some x ->
  match co_candidates (holding es t) (holding fs u) with
  | Ret l => exists h' ps gs, h_candidates this other cand h = Ret (match l with [] => false | _ => true end, h') /\
      only_collection cand h h' /\ nth_error (h_colls h') cand = Some (PColl (map Some ps) (pc_tree x)) /\
      stored h' ps gs /\ l = map Some gs /\ incl ps (ads ++ bds)
  | Throw e => h_candidates this other cand h = Throw e
  | UB => h_candidates this other cand h = UB
  end.
Proof. intros K NK. exact candidates_view. Qed.
Print Assumptions C104_query.
Theorem C104_query_boxes : forall K (NK : Num K) (h : heap K) this cand ads a es t x bs, this <> cand ->
  refers h this ads a -> stored h ads es -> nth_error (h_trees h) a = Some t -> nth_error (h_colls h) cand = Some x ->
  match co_candidates_boxes (holding es t) bs with
  | Ret l => exists h' ps gs, h_candidates_boxes this bs cand h = Ret (match l with [] => false | _ => true end, h') /\
      only_collection cand h h' /\ nth_error (h_colls h') cand = Some (PColl (map Some ps) (pc_tree x)) /\
      stored h' ps gs /\ l = map Some gs /\ incl ps ads
  | Throw e => h_candidates_boxes this bs cand h = Throw e
  | UB => h_candidates_boxes this bs cand h = UB
  end.
Proof. intros K NK. exact boxes_view. Qed.
Print Assumptions C104_query_boxes.
(** With the queried collection for the result the call is undefined as soon
    as there is a candidate. *)
Theorem C104_query_this : forall K (NK : Num K) (h : heap K) this other ads a bds b t u p l, this <> other ->
  refers h this ads a -> nth_error (h_trees h) a = Some t ->
  refers h other bds b -> nth_error (h_trees h) b = Some u ->
  tree_intersection t u = Ret (p :: l) -> h_candidates this other this h = UB.
Proof. intros K NK. exact candidates_this. Qed.
Print Assumptions C104_query_this.
(** With the other collection for the result the call can return a wrong pair:
    a point in the first, a ball around it in the second; the answer is the
    point twice. *)
Definition ball64 : entity f64 := EBall (Ball (fz 1) (V (fz 0) (fz 0) (fz 0))).
Definition into_other : outcome (bool * heap f64) :=
  let (_, h) := h_new_entity origin64 (Heap [] [] []) in
  let (_, h) := h_new_entity ball64 h in
  let (_, h) := h_new [Some 0] h in
  let (_, h) := h_new [Some 1] h in
  let* h := h_build 0 h in
  let* h := h_build 1 h in
  h_candidates 0 1 1 h.
Theorem C104_query_other_refuted : exists h t, into_other = Ret (true, h) /\ contains h 1 [origin64; origin64] t.
Proof.
  destruct into_other as [[f h]| |] eqn:E; vm_compute in E; try discriminate E. injection E as <- <-. eexists _, _. split; [reflexivity|].
  exists [0; 0], 1. repeat split. repeat constructor.
Qed.
Print Assumptions C104_query_other_refuted.

(** All intersections are stored as new objects, in the collection for the
    result only; into the collection itself the call is undefined. *)
Theorem C104_intersections : forall K (NK : Num K) (h : heap K) this out tol ads a es t x, this <> out ->
  refers h this ads a -> stored h ads es -> nth_error (h_colls h) out = Some x ->
  match co_intersections (holding es t) tol with
  | Ret rs => exists h', h_intersections this out tol h = Ret h' /\ only_collection_and_new out h h' /\
      exists ps, nth_error (h_colls h') out = Some (PColl (map Some ps) (pc_tree x)) /\ stored h' ps rs /\
        NoDup ps /\ forall p, In p ps -> length (h_ents h) <= p
  | Throw e => h_intersections this out tol h = Throw e
  | UB => h_intersections this out tol h = UB
  end.
Proof. intros K NK. exact intersections_view. Qed.
Print Assumptions C104_intersections.
Theorem C104_intersections_this : forall K (NK : Num K) (h : heap K) this tol x,
  nth_error (h_colls h) this = Some x -> pc_ents x <> [] -> h_intersections this this tol h = UB.
Proof. intros K NK. exact intersections_this. Qed.
Print Assumptions C104_intersections_this.

(** A copy refers to the same entities and to the same tree.  The two contain
    the same after any moves and builds of either. *)
Theorem C104_copy : forall K (NK : Num K) (h : heap K) c x, nth_error (h_colls h) c = Some x ->
  exists d h1, h_copy c h = Ret (d, h1) /\ d <> c /\
    (forall es t, contains h c es t <-> contains h1 d es t) /\
    forall h2, moves_and_builds c d h1 h2 -> forall es t, contains h2 c es t <-> contains h2 d es t.
Proof.
  intros K NK h c x X. destruct (copy_ok h c x X) as (h1 & E & E1 & E2 & N & F). exists (length (h_colls h)), h1. assert (L := lt_of_nth _ _ _ _ X).
  split; [exact E|]. split; [lia|]. split.
  - intros es t. unfold contains, refers, stored. rewrite N, E1, E2, X. reflexivity.
  - intros h2 M. assert (S : nth_error (h_colls h1) c = nth_error (h_colls h1) (length (h_colls h))) by (rewrite N, F by lia; exact X).
    clear -M S. induction M as [h0|h0 h1 h2 f e He Hm M IH|h0 h1 h2 e He Hb M IH].
    + exact (copies_alike h0 c _ S).
    + apply IH. rewrite (map_build_same h0 e h1); [exact S|]. left. now exists f.
    + apply IH. rewrite (map_build_same h0 e h1); [exact S|]. now right.
Qed.
Print Assumptions C104_copy.
(** Adding to a copy or clearing it leaves the original and every object. *)
Theorem C104_copy_frame : forall K (h : heap K) c x, nth_error (h_colls h) c = Some x ->
  (forall p, exists h', h_push c p h = Ret h' /\ only_collection c h h' /\ nth_error (h_colls h') c = Some (PColl (pc_ents x ++ [p]) (pc_tree x))) /\
  (exists h', h_clear c h = Ret h' /\ only_collection c h h' /\ nth_error (h_colls h') c = Some (PColl [] (pc_tree x))).
Proof. intros K h c x X. split; [intros p; now apply push_ok|now apply clear_ok]. Qed.
Print Assumptions C104_copy_frame.
(** Adding, resizing and clearing, in terms of what the collection contains:
    the new entity comes last, resizing keeps the first ones and fills up with
    null pointers, and the tree is kept. *)
Theorem C104_edit : forall K (h : heap K) c v, h_view h c = Ret v ->
  (forall a e, nth_error (h_ents h) a = Some e ->
     exists h', h_push c (Some a) h = Ret h' /\ only_collection c h h' /\
       h_view h' c = Ret (Collection (co_entities v ++ [Some e]) (co_tree v))) /\
  (forall n, exists h' es, h_resize c n h = Ret h' /\ only_collection c h h' /\
     h_view h' c = Ret (Collection es (co_tree v)) /\ length es = n /\
     forall i, i < n -> nth_error es i =
       match nth_error (co_entities v) i with Some e => Some e | None => Some None end) /\
  (exists h', h_clear c h = Ret h' /\ only_collection c h h' /\ h_view h' c = Ret (Collection [] (co_tree v))).
Proof. intros K. exact edit_view. Qed.
Print Assumptions C104_edit.
(** A copy is not a collection of its own: after adding a point to it and
    building it, asking the original with a box around that point is
    undefined. *)
Definition away64 : entity f64 := EPoint (V (fz 9) (fz 0) (fz 0)).
Definition box_away : aabb f64 := Box (V (fz 8) (fz (-1)) (fz (-1))) (V (fz 10) (fz 1) (fz 1)) 0.
Definition box_origin : aabb f64 := Box (V (fz (-1)) (fz (-1)) (fz (-1))) (V (fz 1) (fz 1) (fz 1)) 0.
Definition built_copy : outcome (heap f64) :=
  let (_, h) := h_new_entity origin64 (Heap [] [] []) in
  let (_, h) := h_new_entity away64 h in
  let (_, h) := h_new [Some 0] h in
  let (_, h) := h_new [] h in
  let* h := h_build 0 h in
  let* r := h_copy 0 h in
  let (d, h) := r : nat * heap f64 in
  let* h := h_push d (Some 1) h in
  h_build d h.
Theorem C104_copy_refuted : exists h t, built_copy = Ret h /\ contains h 0 [origin64] t /\
  h_candidates_box 0 box_away 1 h = UB.
Proof.
  destruct built_copy as [h| |] eqn:E; vm_compute in E; try discriminate E. injection E as <-. eexists _, _. split; [reflexivity|]. split.
  - exists [0], 0. repeat split. repeat constructor.
  - vm_compute. reflexivity.
Qed.
Print Assumptions C104_copy_refuted.

(** A move leaves the source without entities and without a tree: building it
    or asking it is undefined. *)
Theorem C104_moved_from : forall K (NK : Num K) (h : heap K) c x, nth_error (h_colls h) c = Some x ->
  exists d h', h_move c h = Ret (d, h') /\ d <> c /\ (forall es t, contains h c es t <-> contains h' d es t) /\
    h_build c h' = UB /\ forall bs cand, h_candidates_boxes c bs cand h' = UB.
Proof.
  intros K NK h c x X. destruct (move_ok h c x X) as (h1 & E & E1 & E2 & N & C & F). assert (L := lt_of_nth _ _ _ _ X). exists (length (h_colls h)), h1.
  split; [exact E|]. split; [lia|]. split; [intros es t; unfold contains, refers, stored; rewrite N, E1, E2, X; reflexivity|]. split.
  - unfold h_build, h_coll. rewrite C. reflexivity.
  - intros bs cand. unfold h_candidates_boxes. destruct (build_spec bs) as (u & -> & _). cbn [obind]. unfold h_candidates_tree, h_clear, h_coll at 1.
    destruct (nth_error (h_colls h1) cand) as [y|] eqn:Y; [|reflexivity]. cbn [obind]. destruct (Nat.eq_dec c cand) as [<-|NE].
    + rewrite (set_coll _ _ _ _ Y). assert (y = PColl [] None) as -> by congruence. reflexivity.
    + rewrite set_other by exact NE. unfold h_coll. rewrite C. reflexivity.
Qed.
Print Assumptions C104_moved_from.

(** The tree is kept by moves: until it is built again, queries answer for the
    old places. *)
Definition moved_away : outcome (heap f64) :=
  let (_, h) := h_new_entity origin64 (Heap [] [] []) in
  let (_, h) := h_new [Some 0] h in
  let (_, h) := h_new [] h in
  let* h := h_build 0 h in
  h_map (ent_translate (V (fz 9) (fz 0) (fz 0))) 0 h.
Theorem C104_stale_refuted : exists h h1 h2 t, moved_away = Ret h /\ contains h 0 [away64] t /\
  h_candidates_box 0 box_away 1 h = Ret (false, h1) /\ h_candidates_box 0 box_origin 1 h = Ret (true, h2) /\
  exists h3 h4, h_build 0 h = Ret h3 /\ h_candidates_box 0 box_away 1 h3 = Ret (true, h4).
Proof.
  destruct moved_away as [h| |] eqn:E; vm_compute in E; try discriminate E. injection E as <-. eexists _, _, _, _. split; [reflexivity|]. split.
  - exists [0], 0. repeat split. repeat constructor.
  - split; [vm_compute; reflexivity|]. split; [vm_compute; reflexivity|]. eexists _, _. split; vm_compute; reflexivity.
Qed.
Print Assumptions C104_stale_refuted.

(** Two collections with a ball and two points, an empty one for the result;
    and a query into itself that has a candidate. *)
Definition three : list (entity R) := [EBall (Ball 1 (V 0 0 0)); EPoint (V 5 5 5); EPoint (V 0 0 0)]%R.
Definition heap3 : heap er :=
  Heap (map fent three) [tempty; tempty; tempty]
       [PColl [Some 0] (Some 0); PColl [Some 1; Some 2] (Some 1); PColl [] (Some 2)].
Definition into_itself : outcome (bool * heap f64) :=
  let (_, h) := h_new_entity origin64 (Heap [] [] []) in
  let (_, h) := h_new_entity ball64 h in
  let (_, h) := h_new [Some 0] h in
  let (_, h) := h_new [Some 1] h in
  let* h := h_build 0 h in
  let* h := h_build 1 h in
  h_candidates 0 1 0 h.
Example C104_example :
  refers heap3 0 [0] 0 /\ stored heap3 [0] (map fent [EBall (Ball 1 (V 0 0 0))])%R /\
  refers heap3 1 [1; 2] 1 /\ stored heap3 [1; 2] (map fent [EPoint (V 5 5 5); EPoint (V 0 0 0)])%R /\
  nth_error (h_trees heap3) 0 = Some tempty /\ nth_error (h_trees heap3) 1 = Some tempty /\
  nth_error (h_colls heap3) 2 = Some (PColl [] (Some 2)) /\
  Forall (fun e => is_clampable (fent e) = true /\ well_posed e) three /\
  boxes_meet (EBall (Ball 1 (V 0 0 0)))%R (EPoint (V 0 0 0))%R /\ NoDup [1; 2] /\ into_itself = UB.
Proof.
  split; [reflexivity|]. split; [repeat constructor|]. split; [reflexivity|]. split; [repeat constructor|].
  do 3 (split; [reflexivity|]). split; [repeat constructor; cbn; lra|]. split; [|split; [repeat constructor; cbn; intuition lia|vm_compute; reflexivity]].
  apply meet_boxes; [split; [reflexivity|cbn; lra]|split; [reflexivity|exact I]|]. exists (V 0 0 0)%R. split; [|reflexivity].
  unfold in_entity, in_ball. cbn [bl_radius bl_center]. unfold dist. rewrite (proj2 (pnorm_eq _ 0 ltac:(lra)))%R; [lra|]. vunf. ring.
Qed.
