(** * Mesh properties assembled from the loader and query proofs. *)
From Coq Require Import ZArith Bool Lia Ascii String Permutation List.
From Verif Require Import Base Num Vec Aabb Tree Geom Ground Str Mesh.
From Verif Require Import SpecTree SpecLoad SpecMesh ProofTree ProofLoad ProofMesh ProofQuery ProofWrite.
Import ListNotations.

Section Facts.
  Context {K : Type} {NK : Num K}.
  Variable stod : text -> outcome K.
  Variable fs : text -> option text.

  (** ** Round trips. *)
  Lemma rdf_round_trip : forall path pose ls1 ls2 nodes es ts (m : mesh K),
    ends_with path (txt ".rdf") ->
    fs path = Some (file_of (txt "[NODES]" :: ls1 ++ txt "[ELEMENTS]" :: ls2)) ->
    block (node_written stod) ls1 nodes -> block (element_written stod) ls2 es ->
    Forall2 (face_of pose nodes) es ts ->
    Forall (fun t : face => nle (nofZ 0) (snd t) = true) ts ->
    ts <> [] -> (Z.of_nat (length ts) <= 2 ^ 31)%Z -> me_tris m = [] ->
    exists m', load_rdf stod fs path pose m = Ok m' true /\ describes m' ts.
  Proof.
    intros path pose ls1 ls2 nodes es ts m HE HF H1 H2 HF2 HFr Hne Hlen HM.
    destruct (rdf_written stod pose ls1 ls2 nodes es ts H1 H2 HF2 HFr) as [HL HR].
    destruct (load_rdf_complete stod fs path pose m _ _ ts _ _ HE HF HL HR HM Hne) as (m' & E & ET & _).
    exists m'. split; auto. now apply describes_number.
  Qed.
  Lemma rdf_any_file : forall path pose content ls ts s' ns' (m : mesh K),
    ends_with path (txt ".rdf") -> fs path = Some content -> lines content ls ->
    rdf_file stod stoi pose NoSection [] ls ts s' ns' ->
    ts <> [] -> (Z.of_nat (length ts) <= 2 ^ 31)%Z -> me_tris m = [] ->
    exists m', load_rdf stod fs path pose m = Ok m' true /\ describes m' ts.
  Proof.
    intros path pose content ls ts s' ns' m HE HF HL HR Hne Hlen HM.
    destruct (load_rdf_complete stod fs path pose m _ _ ts _ _ HE HF HL HR HM Hne) as (m' & E & ET & _).
    exists m'. split; auto. now apply describes_number.
  Qed.
  Lemma obj_round_trip : forall path pose f ls ts (m : mesh K),
    ends_with path (txt ".obj") -> fs path = Some (file_of ls) ->
    obj_written stod pose f [] ls ts -> nle (nofZ 0) f = true ->
    ts <> [] -> (Z.of_nat (length ts) <= 2 ^ 31)%Z -> me_tris m = [] ->
    exists m', load_obj stod fs path f pose m = Ok m' true /\ describes m' ts.
  Proof.
    intros path pose f ls ts m HE HF HW Hf Hne Hlen HM.
    destruct (obj_written_ok stod pose f Hf _ _ _ HW) as [HN [ns' HR]].
    destruct (load_obj_complete stod fs path pose m _ _ ts f _ HE HF (lines_file_of _ HN) HR HM Hne)
      as (m' & E & ET & _).
    exists m'. split; auto. now apply describes_number.
  Qed.

  (** ** Success means well formed. *)
  Lemma rdf_file_data : forall pose s ns ls ts s' ns',
    rdf_file stod stoi pose s ns ls ts s' ns' ->
    exists a b, data_lines s ls a b /\ Forall three_fields a /\ Forall four_fields b /\
      length b = length ts.
  Proof.
    intros pose s ns ls ts s' ns' H.
    induction H as [s ns|s ns l ls ts s' ns' H1 H IH|s ns l ls ts s' ns' H1 H IH|s ns l ls ts s' ns' H1 H2 H3 H IH
      |ns l ls ts s' ns' H1 H IH|ns l ls ts s' ns' x y z H1 H2 H IH
      |ns l ls ts s' ns' i j k f p q r H1 H2 H3 H4 H5 H6 H IH];
      try (destruct IH as (a & b & D & Fa & Fb & L)).
    - exists [], []. repeat split; constructor.
    - exists a, b. repeat split; auto. now apply dl_nodes.
    - exists a, b. repeat split; auto. now apply dl_elements.
    - exists a, b. repeat split; auto. now apply dl_comment.
    - exists a, b. repeat split; auto. now apply dl_preamble.
    - exists (l :: a), b. repeat split; auto; [now apply dl_node|]. constructor; auto.
      destruct H2 as (u & v & w & W & _). exists u, v, w. exact W.
    - exists a, (l :: b). repeat split; auto; [now apply dl_element| |cbn; now f_equal].
      constructor; auto. destruct H2 as (u & v & w & g & W & _). exists u, v, w, g. exact W.
  Qed.
  Lemma number_size : forall (m : mesh K) ts, me_tris m = number 0 ts -> mesh_size m = length ts.
  Proof. intros m ts E. unfold mesh_size. rewrite E. apply number_length. Qed.

  Lemma rdf_success : forall path pose (m m' : mesh K) b,
    load_rdf stod fs path pose m = Ok m' b ->
    b = true /\ exists content ls nls els,
      fs path = Some content /\ lines content ls /\ data_lines NoSection ls nls els /\
      Forall three_fields nls /\ Forall four_fields els /\ mesh_size m' = length els.
  Proof.
    intros path pose m m' b H. apply load_rdf_sound in H.
    destruct H as (Hb & _ & _ & content & ls & ts & s' & ns' & HF & HL & HR & _ & ET & _).
    split; auto. destruct (rdf_file_data _ _ _ _ _ _ _ HR) as (nls & els & D & Fa & Fb & L).
    exists content, ls, nls, els. repeat split; auto. rewrite L. now apply number_size.
  Qed.
  Lemma rdf_success_meaning : forall path pose (m m' : mesh K) b,
    load_rdf stod fs path pose m = Ok m' b -> (Z.of_nat (mesh_size m') <= 2 ^ 31)%Z ->
    exists content ls ts s' ns',
      fs path = Some content /\ lines content ls /\
      rdf_file stod stoi pose NoSection [] ls ts s' ns' /\ describes m' ts.
  Proof.
    intros path pose m m' b H Hs. apply load_rdf_sound in H.
    destruct H as (_ & _ & _ & content & ls & ts & s' & ns' & HF & HL & HR & _ & ET & _).
    exists content, ls, ts, s', ns'. do 3 (split; [assumption|]). apply describes_number; [|exact ET].
    rewrite (number_size m' ts ET) in Hs. exact Hs.
  Qed.

  (** ** Loaded meshes. *)
  Lemma load_succeeds_facts : forall m m' : mesh K, load_succeeds stod fs m m' ->
    me_tris m = [] /\ exists ts, ts <> [] /\ me_tris m' = number 0 ts /\ built m' /\
      Forall (fun t : face => nle (nofZ 0) (snd t) = true) ts.
  Proof.
    intros m m' [(path & pose & H)|(path & f & pose & H)].
    - apply load_rdf_sound in H.
      destruct H as (_ & HM & _ & content & ls & ts & s' & ns' & HF & HL & HR & Hne & ET & HB).
      split; auto. exists ts. repeat (split; auto). eapply rdf_faces_friction; eauto.
    - apply load_obj_sound in H.
      destruct H as (_ & HM & _ & content & ls & ts & ns' & HF & HL & HR & Hne & ET & HB).
      split; auto. exists ts. repeat (split; auto). eapply obj_faces_friction; eauto.
  Qed.
  Lemma number_nonempty : forall ts, ts <> [] -> @number K NK 0 ts <> [].
  Proof.
    intros ts H E. apply (f_equal (@length _)) in E. rewrite number_length in E.
    destruct ts; [congruence|discriminate].
  Qed.
  Lemma load_succeeds_good : forall m m' : mesh K, load_succeeds stod fs m m' ->
    (Z.of_nat (mesh_size m') <= 2 ^ 31)%Z ->
    built m' /\ numbered m' /\ me_tris m' <> [] /\ Forall sealed (me_tris m').
  Proof.
    intros m m' H Hs. apply load_succeeds_facts in H. destruct H as (_ & ts & Hne & ET & HB & Fr).
    rewrite (number_size m' ts ET) in Hs. split; auto. split; [eapply number_numbered; eauto|].
    rewrite ET. split; [now apply number_nonempty|now apply number_sealed].
  Qed.
  Lemma loaded_friction : forall m m' : mesh K, load_succeeds stod fs m m' ->
    Forall (fun t => nle (nofZ 0) (tg_friction t) = true) (me_tris m').
  Proof.
    intros m m' H. apply load_succeeds_facts in H. destruct H as (_ & ts & _ & ET & _ & Fr).
    rewrite ET. apply (number_sealed ts 0) in Fr. rewrite Forall_forall in *.
    intros t Ht. apply Fr in Ht. apply Ht.
  Qed.
  Lemma loaded_ids : forall m m' : mesh K, load_succeeds stod fs m m' ->
    (Z.of_nat (mesh_size m') <= 2 ^ 31)%Z ->
    forall i t, nth_error (me_tris m') i = Some t -> tg_id t = Z.of_nat i /\ bid (tg_bbox t) = Z.of_nat i.
  Proof.
    intros m m' H Hs i t Hi. destruct (load_succeeds_good m m' H Hs) as (_ & HN & _ & HS).
    pose proof (HN i t Hi) as E. rewrite Forall_forall in HS.
    destruct (HS t (nth_error_In _ _ Hi)) as (EB & _). rewrite EB in E. cbn in E.
    split; [exact E|]. rewrite EB. exact E.
  Qed.

  (** ** Blank lines. *)
  Lemma blank_line_throws : forall path pose (m : mesh K) content pre l post ts s ns,
    ends_with path (txt ".rdf") -> fs path = Some content -> lines content (pre ++ l :: post) ->
    rdf_file stod stoi pose NoSection [] pre ts s ns -> s <> NoSection -> blank_line l ->
    exists m', load_rdf stod fs path pose m = Exn m' RuntimeError.
  Proof.
    intros path pose m content pre l post ts s ns HE HF HL HR Hs HB.
    assert (HD : rdf_data l).
    { destruct HB as [->| ->]; (split; [|split]); intros H.
      all: try (destruct H as [H|H]; discriminate).
      all: destruct H as [[w H]|[[w H]|[w H]]]; discriminate. }
    assert (W1 : exists ws, words space1 (after_first l) ws /\ length ws <> 3).
    { destruct HB as [->| ->]; exists []; (split; [constructor|discriminate]). }
    assert (W2 : exists ws, words space1 l ws /\ length ws <> 4).
    { destruct HB as [->| ->].
      - exists []. split; [constructor|discriminate].
      - exists [[cr]]. split; [|discriminate]. apply (words_word space1 [cr] [] []); [discriminate|reflexivity|exact I|constructor]. }
    destruct s; [congruence| |].
    - destruct W1 as (ws & W & Hn).
      eapply load_rdf_malformed; eauto.
    - destruct W2 as (ws & W & Hn).
      eapply load_rdf_malformed; eauto.
  Qed.
  Lemma loop_skip_at : forall g a l b (st : lstate (K:=K)),
    (forall st', line_loop g a st = Ok st' tt -> g l st' = Ret st') ->
    line_loop g (a ++ l :: b) st = line_loop g (a ++ b) st.
  Proof.
    intros g a l b st. revert st. induction a as [|x a IH]; intros st H; cbn in *.
    - now rewrite (H st eq_refl).
    - destruct (g x st); auto.
  Qed.
  Lemma load_with_skip_at : forall ext body path path' (m : mesh K) content content' a l b,
    (forall st', line_loop body a (start m) = Ok st' tt -> body l st' = Ret st') ->
    fs path = Some content -> fs path' = Some content' -> extension path = extension path' ->
    lines content (a ++ b) -> lines content' (a ++ l :: b) ->
    load_with fs ext body path' m = load_with fs ext body path m.
  Proof.
    intros ext body path path' m content content' a l b HS HF HF' HE HL HL'.
    unfold load_with. rewrite HE, HF, HF'.
    apply getlines_iff in HL, HL'. rewrite HL, HL'. fold (start m).
    now rewrite (loop_skip_at _ _ _ _ _ HS).
  Qed.
  Lemma extension_same : forall path path' ext, length ext = 4 ->
    ends_with path ext -> ends_with path' ext -> extension path = extension path'.
  Proof.
    intros path path' ext H H1 H2.
    apply (extension_iff _ _ H) in H1. apply (extension_iff _ _ H) in H2. congruence.
  Qed.
  Lemma no_header_section : forall pose s ns ls ts s' ns',
    rdf_file stod stoi pose s ns ls ts s' ns' ->
    (forall l, In l ls -> ~ nodes_header l /\ ~ elements_header l) -> s' = s.
  Proof.
    intros pose s ns ls ts s' ns' H. induction H; intros HN; auto.
    - exfalso. destruct (HN l (or_introl eq_refl)). tauto.
    - exfalso. destruct (HN l (or_introl eq_refl)). tauto.
    - apply IHrdf_file. intros l0 Hl. apply HN. now right.
    - apply IHrdf_file. intros l0 Hl. apply HN. now right.
    - apply IHrdf_file. intros l0 Hl. apply HN. now right.
    - apply IHrdf_file. intros l0 Hl. apply HN. now right.
  Qed.
  Lemma rdf_ignored_line : forall path path' pose (m : mesh K) content content' a l b,
    ends_with path (txt ".rdf") -> ends_with path' (txt ".rdf") ->
    fs path = Some content -> fs path' = Some content' ->
    lines content (a ++ b) -> lines content' (a ++ l :: b) ->
    ~ nodes_header l -> ~ elements_header l ->
    rdf_comment l \/ (forall x, In x a -> ~ nodes_header x /\ ~ elements_header x) ->
    load_rdf stod fs path' pose m = load_rdf stod fs path pose m.
  Proof.
    intros path path' pose m content content' a l b HE HE' HF HF' HL HL' N1 N2 HC.
    unfold load_rdf. eapply load_with_skip_at; eauto.
    - intros st' HP. rewrite rdf_line_eq.
      assert (E1 : is_nodes l = false) by (apply (bool_false_iff _ _ (is_nodes_iff l)); auto).
      assert (E2 : is_elements l = false) by (apply (bool_false_iff _ _ (is_elements_iff l)); auto).
      rewrite E1, E2. destruct HC as [HC|HC].
      + apply is_comment_iff in HC. now rewrite HC.
      + destruct (is_comment l); auto.
        destruct (rdf_loop_sound stod pose _ _ _ _ (rdf_starts m) HP) as (ts & s' & R & Fl & _).
        apply no_header_section in R; [|exact HC]. subst s'. destruct Fl as [F1 F2].
        rewrite F1. cbn. now rewrite F2.
    - eapply (extension_same path path' (txt ".rdf")); auto.
  Qed.
  Lemma obj_ignored_line : forall path path' f pose (m : mesh K) content content' a l b,
    ends_with path (txt ".obj") -> ends_with path' (txt ".obj") ->
    fs path = Some content -> fs path' = Some content' ->
    lines content (a ++ b) -> lines content' (a ++ l :: b) ->
    first_word l <> txt "v" -> first_word l <> txt "f" ->
    load_obj stod fs path' f pose m = load_obj stod fs path f pose m.
  Proof.
    intros path path' f pose m content content' a l b HE HE' HF HF' HL HL' N1 N2.
    unfold load_obj. eapply load_with_skip_at; eauto.
    - intros st' _. rewrite obj_line_eq. apply str_eqb_neq in N1, N2. now rewrite N1, N2.
    - eapply (extension_same path path' (txt ".obj")); auto.
  Qed.

  (** ** Histories. *)
  Lemma second_load_fails : forall m : mesh K, me_tris m <> [] ->
    ~ exists m', load_succeeds stod fs m m'.
  Proof. intros m H [m' HL]. apply load_succeeds_facts in HL. tauto. Qed.

  Lemma loaded_keeps : forall m m' : mesh K, me_tris m <> [] -> loaded stod fs m m' ->
    (exists extra, me_tris m' = me_tris m ++ extra) /\ me_tree m' = me_tree m.
  Proof.
    intros m m' Hne H. destruct H as [path pose m m' b H|path pose m m' e H|path f pose m m' b H|path f pose m m' e H].
    - exfalso. apply load_rdf_sound in H. tauto.
    - apply load_rdf_exn in H. tauto.
    - exfalso. apply load_obj_sound in H. tauto.
    - apply load_obj_exn in H. tauto.
  Qed.
  Lemma many_loads_keeps : forall m m' : mesh K, many_loads stod fs m m' -> me_tris m <> [] ->
    (exists extra, me_tris m' = me_tris m ++ extra) /\ me_tree m' = me_tree m.
  Proof.
    intros m m' H. induction H as [m|m m1 m2 H1 H IH]; intros Hne.
    - split; auto. exists []. now rewrite app_nil_r.
    - destruct (loaded_keeps _ _ Hne H1) as [[x Ex] Et]. destruct IH as [[y Ey] Et'].
      + rewrite Ex. destruct (me_tris m); [congruence|discriminate].
      + split; [|congruence]. exists (x ++ y). now rewrite Ey, Ex, app_assoc.
  Qed.
  Lemma failed_load_answers : forall (m m' : mesh K) q r, me_tris m <> [] -> loaded stod fs m m' ->
    mesh_intersection m q = Ret r -> mesh_intersection m' q = Ret r.
  Proof.
    intros m m' q r Hne HL HQ. destruct (loaded_keeps _ _ Hne HL) as [HX HT].
    eapply query_prefix; eauto.
  Qed.
  Lemma history_query : forall m0 m1 m2 m3 : mesh K,
    many_loads stod fs m0 m1 -> load_succeeds stod fs m1 m2 -> many_loads stod fs m2 m3 ->
    (Z.of_nat (mesh_size m2) <= 2 ^ 31)%Z -> forall q, exists r,
      mesh_intersection m3 q = Ret r /\ mesh_intersection m2 q = Ret r /\
      Forall (fun t => In t (me_tris m3)) r.
  Proof.
    intros m0 m1 m2 m3 _ HS H Hs q.
    destruct (load_succeeds_good _ _ HS Hs) as (HB & HN & Hne & _).
    destruct (query_defined m2 q HB HN Hne) as (r & E & F).
    destruct (many_loads_keeps _ _ H Hne) as [[x Ex] Et]. exists r.
    split; [eapply query_prefix; eauto|]. split; auto.
    rewrite Forall_forall in *. intros t Ht. rewrite Ex. apply in_or_app. left. now apply F.
  Qed.
  Lemma empty_tree_query : forall (m : mesh K) q, me_tree m = tempty -> mesh_intersection m q = UB.
  Proof. intros m q H. unfold mesh_intersection. rewrite build_one, H. reflexivity. Qed.

  Lemma made_sealed : forall t : tground K, made t -> sealed t.
  Proof. intros t (p & q & r & H). eapply mk_tground_sealed; eauto. Qed.
  Lemma of_triangles_built : forall ts (m : mesh K), mesh_of_triangles ts = Ret m ->
    me_tris m = ts /\ built m.
  Proof.
    intros ts m H. unfold mesh_of_triangles in H.
    destruct (mesh_build_ret (Mesh ts [] tempty)) as (t & E & Eb). rewrite Eb in H. cbn [me_tris me_bboxes me_tree] in *.
    inversion H; subst m. cbn. split; auto. split; auto.
  Qed.
End Facts.

Section Ordered.
  Context {K : Type} {NK : Num K} {OK : OrdNum K}.
  Variable stod : text -> outcome K.
  Variable fs : text -> option text.

  Lemma exactly_flag : forall (P : tground K -> Prop) all r, exactly P all r ->
    (mesh_intersection_flag r = true <-> exists t, In t all /\ P t).
  Proof.
    intros P all r (keep & HK & HP). unfold mesh_intersection_flag.
    rewrite (Permutation_length HP). rewrite Nat.ltb_lt. split.
    - intros H. destruct (filter keep all) as [|t l] eqn:E; [cbn in H; lia|].
      assert (Ht : In t (filter keep all)) by (rewrite E; now left).
      apply filter_In in Ht. exists t. split; [tauto|]. apply HK; tauto.
    - intros (t & Ht & HPt). apply HK in HPt; auto.
      assert (In t (filter keep all)) by (apply filter_In; auto).
      destruct (filter keep all); [easy|cbn; lia].
  Qed.

  Lemma loaded_query_exact : forall (m m' : mesh K) q, load_succeeds stod fs m m' ->
    (Z.of_nat (mesh_size m') <= 2 ^ 31)%Z -> Forall tri_num (me_tris m') -> proper_box q ->
    exists r, mesh_intersection m' q = Ret r /\
      exactly (fun t => overlap (tg_bbox t) q) (me_tris m') r /\
      (mesh_intersection_flag r = true <-> exists t, In t (me_tris m') /\ overlap (tg_bbox t) q).
  Proof.
    intros m m' q HL Hs HT Hq. destruct (load_succeeds_good _ _ _ _ HL Hs) as (HB & HN & Hne & HS).
    destruct (query_exact m' q HB HN Hne HS HT Hq) as (r & E & X). exists r.
    split; auto. split; auto. now apply exactly_flag.
  Qed.
  Lemma loaded_query_perm : forall (a m1 b m2 : mesh K) q,
    load_succeeds stod fs a m1 -> load_succeeds stod fs b m2 ->
    (Z.of_nat (mesh_size m1) <= 2 ^ 31)%Z -> Forall tri_num (me_tris m1) -> proper_box q ->
    Permutation (map content (me_tris m1)) (map content (me_tris m2)) ->
    exists r1 r2, mesh_intersection m1 q = Ret r1 /\ mesh_intersection m2 q = Ret r2 /\
      Permutation (map content r1) (map content r2).
  Proof.
    intros a m1 b m2 q H1 H2 Hs HT Hq HP.
    assert (Hs2 : (Z.of_nat (mesh_size m2) <= 2 ^ 31)%Z).
    { unfold mesh_size in *. apply Permutation_length in HP. rewrite !map_length in HP. now rewrite <- HP. }
    destruct (load_succeeds_good _ _ _ _ H1 Hs) as (B1 & N1 & E1 & S1).
    destruct (load_succeeds_good _ _ _ _ H2 Hs2) as (B2 & N2 & _ & S2).
    apply query_perm; auto.
  Qed.
  Lemma vector_query_exact : forall (ts : list (tground K)) m q,
    mesh_of_triangles ts = Ret m -> ts <> [] -> Forall made ts -> Forall tri_num ts -> proper_box q ->
    (forall i t, nth_error ts i = Some t -> tg_id t = Z.of_nat i) ->
    exists r, mesh_intersection m q = Ret r /\ exactly (fun t => overlap (tg_bbox t) q) ts r.
  Proof.
    intros ts m q HM Hne HF HT Hq HI. apply of_triangles_built in HM. destruct HM as [E HB].
    assert (HS : Forall sealed ts) by (eapply Forall_impl; [|exact HF]; intros; now apply made_sealed).
    rewrite <- E in *. apply query_exact; auto.
    intros i t Hi. rewrite Forall_forall in HS.
    destruct (HS t (nth_error_In _ _ Hi)) as (EB & _). rewrite EB. cbn. now apply HI.
  Qed.

  Lemma triangle_bbox : forall id f p q r (t : tground K), mk_tground id f p q r = Ret t ->
    tight (tg_bbox t) p q r /\ bid (tg_bbox t) = id /\
    (vnum p -> vnum q -> vnum r -> encloses (tg_bbox t) p q r).
  Proof.
    intros id f p q r t H. unfold mk_tground in H. destruct (nle (nofZ 0) f); [|discriminate].
    inversion H; subst t. cbn [tg_bbox]. split; [apply clamp_tight|]. split; [reflexivity|].
    intros Hp Hq Hr. now apply clamp_encloses.
  Qed.

  (** Trees of boxes. *)
  Lemma trees_pairs : forall A B : list (aabb K), A <> [] -> B <> [] ->
    Forall proper_box A -> Forall proper_box B ->
    exists ta tb r, build A = Ret ta /\ build B = Ret tb /\ tree_intersection ta tb = Ret r /\
      exactly (fun p => overlap (fst p) (snd p)) (list_prod A B) r.
  Proof.
    intros A B HA HB FA FB.
    destruct (build_spec A) as (ta & Ea & Pa & _). pose proof (build_wf A ta HA FA Ea) as Wa.
    destruct (build_spec B) as (tb & Eb & Pb & _). pose proof (build_wf B tb HB FB Eb) as Wb.
    destruct (tree_intersection_spec ta tb Wa Wb) as (r & E & P).
    exists ta, tb, r. repeat (split; auto). exists hit. split.
    - intros [a b] Hin. apply in_prod_iff in Hin. rewrite Forall_forall in FA, FB.
      cbn. unfold hit. cbn. apply intersects_overlap; [apply FA|apply FB]; tauto.
    - rewrite P. apply filter_perm. now apply list_prod_perm.
  Qed.
  Lemma trees_collide : forall (A B : list (aabb K)) (f : aabb K -> aabb K -> bool), A <> [] -> B <> [] ->
    Forall proper_box A -> Forall proper_box B ->
    exists ta tb c, build A = Ret ta /\ build B = Ret tb /\ tree_collision f ta tb = Ret c /\
      (c = true <-> exists a b, In a A /\ In b B /\ overlap a b /\ f a b = true).
  Proof.
    intros A B f HA HB FA FB.
    destruct (build_spec A) as (ta & Ea & Pa & _). pose proof (build_wf A ta HA FA Ea) as Wa.
    destruct (build_spec B) as (tb & Eb & Pb & _). pose proof (build_wf B tb HB FB Eb) as Wb.
    exists ta, tb. eexists. split; [exact Ea|]. split; [exact Eb|].
    split; [now apply tree_collision_spec|]. rewrite existsb_exists. split.
    - intros ([a b] & Hin & Hf). apply filter_In in Hin. destruct Hin as [Hin Hh].
      apply in_prod_iff in Hin. destruct Hin as [H1 H2].
      apply (Permutation_in _ Pa) in H1. apply (Permutation_in _ Pb) in H2.
      exists a, b. rewrite Forall_forall in FA, FB. repeat (split; auto).
      apply intersects_overlap; auto.
    - intros (a & b & H1 & H2 & Ho & Hf). exists (a, b). split; auto.
      rewrite Forall_forall in FA, FB.
      apply filter_In. split.
      + apply in_prod_iff. split.
        * apply (Permutation_in _ (Permutation_sym Pa)). auto.
        * apply (Permutation_in _ (Permutation_sym Pb)). auto.
      + unfold hit. cbn. apply intersects_overlap; auto.
  Qed.
End Ordered.
