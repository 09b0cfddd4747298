(** * Collections of entities. *)
From Coq Require Import ZArith Bool Reals Lra Lia Permutation List.
From Verif Require Import Base Num Vec Aabb Tree Geom Acme AcmeEntity ER SpecGeom SpecAcme SpecEntity SpecTree SpecLoad SpecMesh.
From Verif Require Import ProofTree ProofMesh ProofQuery ProofMeshFacts ProofGeom ProofBox ProofEntity.
Import ListNotations.

(** ** Loops over the entities. *)
Section Loops.
  Context {K : Type} {NK : Num K}.
  Lemma count_ok : forall (p : entity K -> bool) es, count_if p (map Some es) = Ret (length (filter p es)).
  Proof.
    intros p es. induction es as [|e es IH]; [reflexivity|]. cbn [map count_if deref obind]. rewrite IH. cbn [obind filter].
    now destruct (p e).
  Qed.
  Lemma contain_ok : forall (p : entity K -> bool) es, contain_if p (map Some es) = Ret (existsb p es).
  Proof. intros p es. induction es as [|e es IH]; [reflexivity|]. cbn. destruct (p e); [reflexivity|exact IH]. Qed.
  Lemma all_ok : forall (p : entity K -> bool) es, all_if p (map Some es) = Ret (forallb p es).
  Proof. intros p es. induction es as [|e es IH]; [reflexivity|]. cbn. destruct (p e); [exact IH|reflexivity]. Qed.
  Lemma keep_ok : forall (p : entity K -> bool) es, keep_if_not p (map Some es) = Ret (map Some (filter (fun e => negb (p e)) es)).
  Proof.
    intros p es. induction es as [|e es IH]; [reflexivity|]. cbn [map keep_if_not deref obind]. rewrite IH. cbn [obind filter].
    now destruct (p e).
  Qed.
  Lemma queries_ok : forall (p : entity K -> bool) es t,
    count_if p (co_entities (holding es t)) = Ret (length (filter p es)) /\
    (exists b, contain_if p (co_entities (holding es t)) = Ret b /\ (b = true <-> exists e, In e es /\ p e = true)) /\
    (exists b, all_if p (co_entities (holding es t)) = Ret b /\ (b = true <-> forall e, In e es -> p e = true)).
  Proof.
    intros p es t. unfold holding. cbn [co_entities]. split; [apply count_ok|]. split.
    - exists (existsb p es). split; [apply contain_ok|apply existsb_exists].
    - exists (forallb p es). split; [apply all_ok|apply forallb_forall].
  Qed.
  Lemma null_counted : forall (p : entity K -> bool) es, In None es -> count_if p es = UB.
  Proof.
    intros p es H. induction es as [|[e|] es IH]; [destruct H| |reflexivity].
    cbn [count_if deref obind]. destruct H as [H|H]; [discriminate H|]. now rewrite IH.
  Qed.
  Lemma map_ok : forall (f : entity K -> entity K) es t, co_map f (holding es t) = Ret (holding (map f es) t).
  Proof.
    intros f es t. unfold co_map, holding. cbn [co_entities co_tree].
    assert (E : omap (fun e => deref e f) (map Some es) = Ret (map f es)).
    { induction es as [|e es IH]; [reflexivity|]. cbn [map omap deref obind]. rewrite IH. reflexivity. }
    now rewrite E.
  Qed.
  Lemma remove_keeps_size : forall (p : entity K -> bool) junk es t, exists c,
    co_remove p junk (holding es t) = Ret c /\ length (co_entities c) = length es /\ co_tree c = t /\
    firstn (length (filter (fun e => negb (p e)) es)) (co_entities c) = map Some (filter (fun e => negb (p e)) es).
  Proof.
    intros p junk es t. unfold co_remove, holding. cbn [co_entities co_tree]. rewrite keep_ok. cbn [obind].
    eexists. split; [reflexivity|]. cbn [co_entities co_tree].
    assert (L : length (filter (fun e => negb (p e)) es) <= length es).
    { induction es as [|e es IH]; [reflexivity|]. cbn. destruct (negb (p e)); cbn; lia. }
    rewrite app_length, !map_length, seq_length. split; [lia|]. split; [reflexivity|].
    rewrite <- (map_length Some (filter (fun e => negb (p e)) es)) at 1.
    rewrite firstn_app, Nat.sub_diag, firstn_O, app_nil_r. apply firstn_all.
  Qed.
  (** collection::clamp *)
  Lemma clamp_ok : forall es i bs, clamp_from i (map Some es) = Ret bs ->
    length bs = length es /\
    forall n e, nth_error es n = Some e -> exists mn mx, ent_clamp e = Some (mn, mx) /\ nth_error bs n = Some (mk_aabb mn mx (i + Z.of_nat n)).
  Proof.
    induction es as [|e es IH]; intros i bs H; cbn [map clamp_from] in H.
    - injection H as <-. split; [reflexivity|]. intros [|n] e; discriminate.
    - cbn [deref obind] in H. destruct (ent_clamp e) as [[mn mx]|] eqn:E; [|discriminate H].
      destruct (clamp_from (i + 1) (map Some es)) as [bs'|x|] eqn:E'; try discriminate H. cbn [obind] in H.
      assert (bs = mk_aabb mn mx i :: bs') as -> by congruence. destruct (IH _ _ E') as [L N]. split; [cbn; congruence|].
      intros [|n] e' H'.
      + cbn in H'. assert (e' = e) as -> by congruence. exists mn, mx. split; [exact E|]. cbn. do 2 f_equal. lia.
      + cbn in H'. destruct (N n e' H') as (mn' & mx' & A & B). exists mn', mx'. split; [exact A|]. cbn [nth_error]. rewrite B. do 2 f_equal. lia.
  Qed.
  Lemma clamp_outcome : forall es i,
    (Forall (fun e => is_clampable e = true) es -> exists bs, clamp_from i (map Some es) = Ret bs) /\
    (~ Forall (fun e => is_clampable e = true) es -> clamp_from i (map Some es) = Throw RuntimeError).
  Proof.
    induction es as [|e es IH]; intros i.
    - split; [intros _; now exists []|intros H; exfalso; apply H; constructor].
    - cbn [map clamp_from deref obind]. destruct (IH (i + 1)%Z) as [IH1 IH2]. pose proof (clampable_flag e) as C. split.
      + intros H. apply Forall_cons_iff in H. destruct H as [He Hes]. destruct (IH1 Hes) as [bs ->].
        apply C in He. destruct (ent_clamp e) as [[mn mx]|]; [|now destruct He]. cbn [obind]. eauto.
      + intros H. destruct (ent_clamp e) as [[mn mx]|]; [|reflexivity]. rewrite IH2; [reflexivity|]. intros F. apply H. constructor; [|exact F].
        apply C. discriminate.
  Qed.
End Loops.

(** ** Candidates. *)
Local Open Scope R_scope.
(** The entity with its position. *)
Definition box_at (x : nat * entity R) : aabb er :=
  match rclamp (snd x) with Some (l, h) => mk_aabb (fv l) (fv h) (Z.of_nat (fst x)) | None => Box nan_vec nan_vec 0%Z end.
Definition placed (es : list (entity R)) : list (nat * entity R) := combine (seq 0 (length es)) es.
Lemma placed_snd : forall es, map snd (placed es) = es.
Proof.
  intros es. unfold placed. generalize 0%nat. induction es as [|e es IH]; intros n; [reflexivity|]. cbn. f_equal. apply IH.
Qed.
Lemma placed_nth : forall es i e, In (i, e) (placed es) -> nth_error es i = Some e.
Proof.
  intros es. unfold placed. enough (G : forall n i e, In (i, e) (combine (seq n (length es)) es) -> (n <= i)%nat /\ nth_error es (i - n) = Some e).
  { intros i e H. destruct (G 0%nat i e H) as [_ N]. now rewrite Nat.sub_0_r in N. }
  induction es as [|e' es IH]; intros n i e H; [destruct H|]. cbn in H. destruct H as [H|H].
  - injection H as <- <-. split; [lia|]. rewrite Nat.sub_diag. reflexivity.
  - destruct (IH (S n) i e H) as [L N]. split; [lia|]. replace (i - n)%nat with (S (i - S n)) by lia. exact N.
Qed.
Lemma placed_in : forall es e, In e es -> exists i, In (i, e) (placed es).
Proof.
  intros es e H. rewrite <- (placed_snd es) in H. apply in_map_iff in H. destruct H as ([i e'] & <- & H). now exists i.
Qed.
Lemma clampable_rclamp : forall e, is_clampable (fent e) = true -> exists l h, rclamp e = Some (l, h).
Proof.
  intros e H. apply clampable_flag in H. rewrite f_clamp in H. destruct (rclamp e) as [[l h]|]; [eauto|now destruct H].
Qed.
Lemma clamp_boxes : forall es, Forall (fun e => is_clampable (fent e) = true) es ->
  clamp_from 0 (map Some (map fent es)) = Ret (map box_at (placed es)).
Proof.
  intros es. unfold placed. enough (G : forall n, Forall (fun e => is_clampable (fent e) = true) es ->
    clamp_from (Z.of_nat n) (map Some (map fent es)) = Ret (map box_at (combine (seq n (length es)) es))) by exact (G 0%nat).
  induction es as [|e es IH]; intros n F; [reflexivity|]. apply Forall_cons_iff in F. destruct F as [C F].
  destruct (clampable_rclamp e C) as (l & h & E). cbn [map clamp_from deref obind length seq combine]. rewrite f_clamp, E.
  replace (Z.of_nat n + 1)%Z with (Z.of_nat (S n)) by lia. rewrite IH by exact F. cbn [obind map]. unfold box_at at 2. cbn [fst snd]. now rewrite E.
Qed.
Lemma vnum_fv : forall p, vnum (fv p).
Proof. intros p. unfold vnum, isnum, fv. cbn [vx vy vz nle ER_Num eleb]. rewrite !rleb_true. lra. Qed.
Lemma rclamp_ordered : forall e l h, well_posed e -> rclamp e = Some (l, h) -> vx l <= vx h /\ vy l <= vy h /\ vz l <= vz h.
Proof.
  intros e l h W H.
  assert (M2 : forall a b, Rmin a b <= Rmax a b) by (intros; unfold Rmin, Rmax; destruct (Rle_dec a b); lra).
  assert (M3 : forall a b c, Rmin a (Rmin b c) <= Rmax a (Rmax b c)).
  { intros a b c. destruct (Rmin3_le a b c), (Rmax3_le a b c). lra. }
  destruct e; cbn [rclamp] in H; try discriminate H.
  - injection H as <- <-. lra.
  - destruct s. injection H; intros <- <-. cbn [vx vy vz]. auto.
  - destruct t. injection H; intros <- <-. cbn [vx vy vz]. auto.
  - destruct d as [r [c n]]. injection H; intros <- <-. cbn [vx vy vz]. cbn in W. lra.
  - destruct b as [r c]. injection H; intros <- <-. cbn [vx vy vz]. cbn in W. lra.
Qed.
Lemma between_fin : forall a b q, a <= b -> between (Fin a) (Fin b) q -> exists r, q = Fin r /\ a <= r <= b.
Proof.
  intros a b q L H. unfold between in H. destruct q as [r|[]|]; cbn in H; try (intuition discriminate).
  exists r. split; [reflexivity|]. rewrite !rleb_true in H. lra.
Qed.
Lemma box_at_spec : forall i e, is_clampable (fent e) = true -> well_posed e ->
  proper_box (box_at (i, e)) /\ bid (box_at (i, e)) = Z.of_nat i /\
  exists l h, rclamp e = Some (l, h) /\ forall q, in_box q (box_at (i, e)) <-> exists p, q = fv p /\ within l h p.
Proof.
  intros i e C W. destruct (clampable_rclamp e C) as (l & h & E). unfold box_at. cbn [fst snd]. rewrite E.
  destruct (corners_box (fv l) (fv h) (Z.of_nat i) (vnum_fv l) (vnum_fv h)) as (P & B & I).
  split; [exact P|]. split; [exact B|]. exists l, h. split; [reflexivity|]. destruct (rclamp_ordered e l h W E) as (L1 & L2 & L3).
  intros q. rewrite I. unfold fv at 1 2 3 4 5 6. cbn [vx vy vz]. split.
  - intros (H1 & H2 & H3). apply between_fin in H1; [|exact L1]. apply between_fin in H2; [|exact L2]. apply between_fin in H3; [|exact L3].
    destruct H1 as (x & X & Hx), H2 as (y & Y & Hy), H3 as (z & Z & Hz). exists (V x y z). destruct q as [qx qy qz]. cbn [vx vy vz] in *. subst.
    split; [reflexivity|]. unfold within. cbn [vx vy vz]. auto.
  - intros (p & -> & H1 & H2 & H3). unfold between, fv. cbn [vx vy vz nle ER_Num eleb]. rewrite !rleb_true. lra.
Qed.
Definition good (e : entity R) : Prop := is_clampable (fent e) = true /\ well_posed e.
Lemma overlap_at : forall i j e f, good e -> good f -> (overlap (box_at (i, e)) (box_at (j, f)) <-> boxes_meet e f).
Proof.
  intros i j e f [C W] [C' W']. destruct (box_at_spec i e C W) as (_ & _ & l & h & E & I). destruct (box_at_spec j f C' W') as (_ & _ & l' & h' & E' & I').
  unfold overlap, boxes_meet. rewrite !f_clamp, E, E'. split.
  - intros (p & H & H'). apply I in H. apply I' in H'. destruct H as (q & -> & H), H' as (q' & Q & H'). apply fv_inj in Q. subst q'.
    exists l, h, l', h', q. auto.
  - intros (l0 & h0 & l1 & h1 & q & H0 & H1 & A & B).
    assert (l0 = l) as -> by (apply fv_inj; congruence). assert (h0 = h) as -> by (apply fv_inj; congruence).
    assert (l1 = l') as -> by (apply fv_inj; congruence). assert (h1 = h') as -> by (apply fv_inj; congruence).
    exists (fv q). split; [apply I|apply I']; exists q; auto.
Qed.
Lemma filter_map_comm : forall A B (f : A -> B) (k : B -> bool) l, filter k (map f l) = map f (filter (fun a => k (f a)) l).
Proof. intros A B f k l. induction l as [|a l IH]; [reflexivity|]. cbn. destruct (k (f a)); cbn; now rewrite IH. Qed.
Lemma list_prod_map : forall A A' B B' (f : A -> A') (g : B -> B') l m,
  list_prod (map f l) (map g m) = map (fun p => (f (fst p), g (snd p))) (list_prod l m).
Proof.
  intros A A' B B' f g l m. induction l as [|a l IH]; [reflexivity|]. cbn. rewrite map_app, IH, !map_map. reflexivity.
Qed.
Lemma filter_ext_in' : forall A (f g : A -> bool) l, (forall a, In a l -> f a = g a) -> filter f l = filter g l.
Proof. intros A f g l H. now apply filter_ext_in. Qed.
Lemma co_nth_at : forall es t i e, good e -> In (i, e) (placed es) -> co_nth (holding (map fent es) t) (bid (box_at (i, e))) = Ret (Some (fent e)).
Proof.
  intros es t i e [C W] H. destruct (box_at_spec i e C W) as (_ & -> & _). unfold co_nth.
  assert ((Z.of_nat i <? 0)%Z = false) as -> by (apply Z.ltb_ge; lia). rewrite Nat2Z.id. unfold holding. cbn [co_entities].
  rewrite !nth_error_map, (placed_nth es i e H). reflexivity.
Qed.
Lemma candidates_exact : forall es fs t u, es <> [] -> fs <> [] -> Forall good es -> Forall good fs ->
  exists c d ps, co_build (holding (map fent es) t) = Ret c /\ co_build (holding (map fent fs) u) = Ret d /\
    co_candidates c d = Ret (listed ps) /\ exactly (fun p => boxes_meet (fst p) (snd p)) (list_prod es fs) ps.
Proof.
  intros es fs t u NE NF GE GF.
  assert (CE : Forall (fun e => is_clampable (fent e) = true) es) by (eapply Forall_impl; [|exact GE]; now intros e []).
  assert (CF : Forall (fun e => is_clampable (fent e) = true) fs) by (eapply Forall_impl; [|exact GF]; now intros e []).
  rewrite Forall_forall in GE, GF.
  assert (IE : forall x, In x (placed es) -> good (snd x)).
  { intros x H. apply GE. rewrite <- (placed_snd es). apply in_map. exact H. }
  assert (IF : forall x, In x (placed fs) -> good (snd x)).
  { intros x H. apply GF. rewrite <- (placed_snd fs). apply in_map. exact H. }
  assert (PE : Forall proper_box (map box_at (placed es))).
  { apply Forall_forall. intros b H. apply in_map_iff in H. destruct H as ([i e] & <- & H). destruct (IE _ H) as [C W]. now apply box_at_spec. }
  assert (PF : Forall proper_box (map box_at (placed fs))).
  { apply Forall_forall. intros b H. apply in_map_iff in H. destruct H as ([i e] & <- & H). destruct (IF _ H) as [C W]. now apply box_at_spec. }
  assert (N1 : map box_at (placed es) <> []). { intros H. apply NE. rewrite <- (placed_snd es). apply map_eq_nil in H. now rewrite H. }
  assert (N2 : map box_at (placed fs) <> []). { intros H. apply NF. rewrite <- (placed_snd fs). apply map_eq_nil in H. now rewrite H. }
  destruct (trees_pairs _ _ N1 N2 PE PF) as (ta & tb & r & Ea & Eb & Er & keep & KP & PM).
  rewrite list_prod_map, filter_map_comm in PM. set (F := fun p : (nat * entity R) * (nat * entity R) => (box_at (fst p), box_at (snd p))) in PM.
  apply Permutation_map_inv in PM. destruct PM as (xs & -> & PM).
  exists (holding (map fent es) ta), (holding (map fent fs) tb), (map (fun p => (snd (fst p), snd (snd p))) xs).
  assert (IN : forall p, In p xs -> In p (list_prod (placed es) (placed fs))).
  { intros p H. apply (Permutation_in _ (Permutation_sym PM)) in H. apply filter_In in H. tauto. }
  split. { unfold co_build, co_clamp, holding. cbn [co_entities]. rewrite clamp_boxes by exact CE. cbn [obind]. rewrite Ea. reflexivity. }
  split. { unfold co_build, co_clamp, holding. cbn [co_entities]. rewrite clamp_boxes by exact CF. cbn [obind]. rewrite Eb. reflexivity. }
  split.
  - unfold co_candidates. change (co_tree (holding (map fent es) ta)) with ta. change (co_tree (holding (map fent fs) tb)) with tb.
    rewrite Er. cbn [obind].
    assert (O : omap (fun p => let* a := co_nth (holding (map fent es) ta) (bid (fst p)) in
                               let* b := co_nth (holding (map fent fs) tb) (bid (snd p)) in Ret [a; b]) (map F xs)
                = Ret (map (fun p => [Some (fent (snd (fst p))); Some (fent (snd (snd p)))]) xs)).
    { clear PM Er. induction xs as [|p xs IH]; [reflexivity|]. cbn [map omap]. rewrite IH by (intros; apply IN; now right).
      destruct p as [[i e] [j f]]. assert (H := IN _ (or_introl eq_refl)). apply in_prod_iff in H. destruct H as [H1 H2].
      unfold F. cbn [fst snd]. rewrite co_nth_at; [|exact (IE _ H1)|exact H1]. cbn [obind]. rewrite co_nth_at; [|exact (IF _ H2)|exact H2]. reflexivity. }
    rewrite O. cbn [obind]. f_equal. unfold listed. rewrite flat_map_concat_map, map_map. reflexivity.
  - exists (fun p => intersects (box_at (0%nat, fst p)) (box_at (0%nat, snd p))).
    assert (IO : forall i j e f, good e -> good f -> (intersects (box_at (i, e)) (box_at (j, f)) = true <-> boxes_meet e f)).
    { intros i j e f Ge Gf. rewrite intersects_overlap; [now apply overlap_at| |]; apply box_at_spec; apply Ge || apply Gf. }
    split.
    + intros [e f] H. apply in_prod_iff in H. destruct H as [H1 H2]. cbn [fst snd]. apply IO; auto.
    + rewrite <- (placed_snd es) at 1. rewrite <- (placed_snd fs) at 1. rewrite list_prod_map, filter_map_comm. apply Permutation_map.
      symmetry. etransitivity; [|exact PM]. match goal with |- Permutation ?x ?y => assert (EQ : x = y); [|rewrite EQ; apply Permutation_refl] end.
      apply filter_ext_in'. intros [[i e] [j f]] H. assert (H' := H). apply in_prod_iff in H. destruct H as [H1 H2]. unfold F. cbn [fst snd].
      pose proof (IE _ H1) as G1. pose proof (IF _ H2) as G2. cbn [snd] in G1, G2. apply eq_true_iff_eq. rewrite (IO 0%nat 0%nat e f G1 G2).
      rewrite <- (overlap_at i j e f G1 G2). symmetry. apply (KP (box_at (i, e), box_at (j, f))). apply in_prod; apply in_map; assumption.
Qed.
Lemma meet_boxes : forall e f, good e -> good f -> meet e f -> boxes_meet e f.
Proof.
  intros e f [C W] [C' W'] (q & H & H'). destruct (clampable_rclamp e C) as (l & h & E). destruct (clampable_rclamp f C') as (l' & h' & E').
  exists l, h, l', h', q. rewrite !f_clamp, E, E'. repeat split; try reflexivity; try (apply (rclamp_encloses e l h E q H)); try (apply (rclamp_encloses f l' h' E' q H')).
Qed.
Lemma candidates_complete : forall es fs t u, es <> [] -> fs <> [] -> Forall good es -> Forall good fs ->
  exists c d ps, co_build (holding (map fent es) t) = Ret c /\ co_build (holding (map fent fs) u) = Ret d /\
    co_candidates c d = Ret (listed ps) /\
    (forall e f, In (e, f) ps -> In e es /\ In f fs) /\
    (forall e f, In e es -> In f fs -> meet e f -> In (e, f) ps).
Proof.
  intros es fs t u NE NF GE GF. destruct (candidates_exact es fs t u NE NF GE GF) as (c & d & ps & Ec & Ed & Ep & keep & KP & PM).
  exists c, d, ps. repeat (split; [assumption|]). rewrite Forall_forall in GE, GF. split.
  - intros e f H. apply (Permutation_in _ PM), filter_In in H. now apply in_prod_iff.
  - intros e f H1 H2 M. apply (Permutation_in _ (Permutation_sym PM)), filter_In. assert (I : In (e, f) (list_prod es fs)) by now apply in_prod.
    split; [exact I|]. apply (KP (e, f) I). cbn [fst snd]. apply meet_boxes; auto.
Qed.
