(** * Proofs about meshes: loading and querying. *)
From Coq Require Import ZArith Bool Lia Ascii String Permutation List.
From Verif Require Import Base Num Vec Aabb Tree Geom Ground Str Mesh.
From Verif Require Import SpecTree SpecLoad SpecMesh ProofTree ProofLoad.
Import ListNotations.

(** ** Loading: the whole function. *)
Lemma extension_iff : forall path ext, length ext = 4 ->
  (extension path = Ret ext <-> ends_with path ext).
Proof.
  intros path ext H4. unfold extension, ends_with, sub. split.
  - destruct (Nat.ltb_spec (length path) 4); [discriminate|].
    intros H0. assert (H1 : firstn 4 (skipn (length path - 4) path) = ext) by congruence.
    clear H0. exists (firstn (length path - 4) path).
    etransitivity; [symmetry; apply (firstn_skipn (length path - 4) path)|]. f_equal.
    rewrite <- H1. symmetry. apply firstn_all2. rewrite skipn_length. lia.
  - intros [base ->]. rewrite app_length, H4.
    destruct (Nat.ltb_spec (length base + 4) 4); [lia|].
    replace (length base + 4 - 4) with (length base) by lia.
    rewrite skipn_app, skipn_all, Nat.sub_diag. cbn [skipn app].
    rewrite firstn_all2 by lia. reflexivity.
Qed.

Section Load.
  Context {K : Type} {NK : Num K}.
  Variable stod : str -> outcome K.
  Variable fs : str -> option str.

  Lemma mesh_build_ret : forall m : mesh K, exists t,
    build (map tg_bbox (me_tris m)) = Ret t /\
    mesh_build m = Ret (Mesh (me_tris m) (map tg_bbox (me_tris m)) t).
  Proof.
    intros m. destruct (build_spec (map tg_bbox (me_tris m))) as (t & E & _).
    exists t. split; auto. unfold mesh_build. rewrite E. reflexivity.
  Qed.

  (** Mesh whose tree was built from its present triangles. *)
  Definition built (m : mesh K) : Prop :=
    build (map tg_bbox (me_tris m)) = Ret (me_tree m) /\
    me_bboxes m = map tg_bbox (me_tris m).

  Definition start (m : mesh K) : lstate (K:=K) := LState [] (me_tris m) 0 0 false false.

  (** What load_with does, given the outcome of the loop. *)
  Lemma load_with_ok : forall ext body path m content st ts,
    length ext = 4 -> ends_with path ext -> fs path = Some content ->
    line_loop body (getlines content) (start m) = Ok st tt ->
    adds (start m) st (ls_nodes st) ts ->
    me_tris m = [] -> ts <> [] ->
    exists m', load_with fs ext body path m = Ok m' true /\
      me_tris m' = number 0 ts /\ built m'.
  Proof.
    intros ext body path m content st ts H4 HE HF HL (A1 & A2 & A3 & A4) HM Hts.
    unfold load_with. rewrite (proj2 (extension_iff path ext H4) HE).
    rewrite (proj2 (str_eqb_eq ext ext) eq_refl). cbn [negb]. rewrite HF.
    fold (start m). rewrite HL. cbn in A2, A3, A4. rewrite HM in A2. cbn in A2.
    replace (ls_ncount st) with (length (ls_nodes st)) by lia.
    rewrite A2, A3, number_length, !Nat.eqb_refl. cbn [andb].
    destruct ts as [|t0 ts]; [congruence|].
    destruct (mesh_build_ret (Mesh (number 0 (t0 :: ts)) (me_bboxes m) (me_tree m))) as (t & ET & EB).
    cbn [me_tris] in *. cbn [number] in *.
    rewrite EB. eexists. split; [reflexivity|]. cbn. split; auto. split; auto.
  Qed.

  Lemma load_with_inv : forall ext body path m m' b,
    length ext = 4 ->
    (forall st ls, line_loop body ls (start m) = Ok st tt ->
       exists ts, adds (start m) st (ls_nodes st) ts) ->
    load_with fs ext body path m = Ok m' b ->
    b = true /\ me_tris m = [] /\ ends_with path ext /\
    exists content st ts, fs path = Some content /\
      line_loop body (getlines content) (start m) = Ok st tt /\
      adds (start m) st (ls_nodes st) ts /\ ts <> [] /\
      me_tris m' = number 0 ts /\ built m'.
  Proof.
    intros ext body path m m' b H4 HS. unfold load_with.
    destruct (extension path) as [x|e|] eqn:EX; try discriminate.
    destruct (str_eqb x ext) eqn:ES; cbn [negb]; [|discriminate].
    apply str_eqb_eq in ES. subst x.
    apply (extension_iff path ext H4) in EX.
    destruct (fs path) as [content|] eqn:EF; [|discriminate].
    fold (start m).
    destruct (line_loop body (getlines content) (start m)) as [st []|st e|] eqn:EL; try discriminate.
    destruct (HS _ _ EL) as (ts & A).
    destruct A as (A1 & A2 & A3 & A4). cbn in A2, A3, A4.
    destruct (_ && _) eqn:EC; [|discriminate].
    apply andb_true_iff in EC. destruct EC as [_ EC]. apply Nat.eqb_eq in EC.
    rewrite A2, app_length, number_length, A3 in EC.
    assert (HM : me_tris m = []) by (destruct (me_tris m); [auto|cbn in EC; lia]).
    rewrite HM in A2. cbn in A2. rewrite A2.
    destruct ts as [|t0 ts]; [discriminate|]. cbn [number].
    destruct (mesh_build_ret (Mesh (mkt 0 t0 :: number 1 ts) (me_bboxes m) (me_tree m))) as (t & ET & EB).
    cbn [me_tris] in *. rewrite EB. intros H. inversion H; subst.
    split; auto. split; auto. split; auto. exists content, st, (t0 :: ts).
    split; auto. split; auto. split.
    { unfold adds. cbn [start ls_tris ls_ecount ls_nodes ls_ncount]. rewrite HM. cbn [app].
      split; [reflexivity|]. split; [exact A2|]. split; [exact A3|exact A4]. }
    split; [discriminate|]. split; [reflexivity|]. split; auto.
  Qed.

  Lemma describes_number : forall (m : mesh K) ts,
    (Z.of_nat (length ts) <= 2 ^ 31)%Z -> me_tris m = number 0 ts -> describes m ts.
  Proof.
    intros m ts Hlen E. split.
    - unfold mesh_size. rewrite E. apply number_length.
    - intros i p q r f Hi.
      assert (Hlt : i < length ts) by (apply nth_error_Some; congruence).
      exists (mkt i (p, q, r, f)). rewrite E, number_nth, Hi. cbn.
      split; auto. rewrite int_size_id by lia. repeat split.
  Qed.

  Lemma rdf_starts : forall m, flags NoSection (start m).
  Proof. intros m. split; reflexivity. Qed.

  (** Successful loads, both directions. *)
  Lemma load_rdf_complete : forall path pose m content ls ts s' ns',
    ends_with path (txt ".rdf") -> fs path = Some content -> lines content ls ->
    rdf_file stod stoi pose NoSection [] ls ts s' ns' ->
    me_tris m = [] -> ts <> [] ->
    exists m', load_rdf stod fs path pose m = Ok m' true /\ me_tris m' = number 0 ts /\ built m'.
  Proof.
    intros path pose m content ls ts s' ns' HE HF HL HR HM Hts.
    apply getlines_iff in HL.
    destruct (rdf_loop_complete stod pose _ _ _ _ _ _ HR (start m) (rdf_starts m) eq_refl)
      as (st & EL & _ & A).
    pose proof (proj1 A) as A1. rewrite <- A1 in A. unfold load_rdf.
    eapply load_with_ok; eauto. now rewrite HL.
  Qed.

  Lemma load_rdf_sound : forall path pose m m' b,
    load_rdf stod fs path pose m = Ok m' b ->
    b = true /\ me_tris m = [] /\ ends_with path (txt ".rdf") /\
    exists content ls ts s' ns', fs path = Some content /\ lines content ls /\
      rdf_file stod stoi pose NoSection [] ls ts s' ns' /\ ts <> [] /\
      me_tris m' = number 0 ts /\ built m'.
  Proof.
    intros path pose m m' b H. unfold load_rdf in H. apply load_with_inv in H; [|reflexivity|].
    - destruct H as (Hb & HM & HE & content & st & ts & HF & HL & HA & Hts & HT & HB).
      split; auto. split; auto. split; auto.
      destruct (rdf_loop_sound stod pose _ _ _ _ (rdf_starts m) HL) as (ts2 & s' & R & _ & A2).
      assert (E2 : ts2 = ts \/ True) by auto.
      exists content, (getlines content), ts2, s', (ls_nodes st).
      split; auto. split; [apply getlines_lines|]. split; [exact R|].
      destruct HA as (_ & T1 & C1 & _). destruct A2 as (_ & T2 & C2 & _).
      cbn in T1, T2, C1, C2. rewrite HM in T1, T2. cbn in T1, T2.
      split; [|split; [congruence|auto]].
      intros ->. cbn in C2. destruct ts; [congruence|cbn in C1; lia].
    - intros st ls HL. destruct (rdf_loop_sound stod pose _ _ _ _ (rdf_starts m) HL) as (ts & s' & _ & _ & A).
      eauto.
  Qed.

  Lemma load_obj_complete : forall path pose m content ls ts f ns',
    ends_with path (txt ".obj") -> fs path = Some content -> lines content ls ->
    obj_file stod stoi pose f [] ls ts ns' ->
    me_tris m = [] -> ts <> [] ->
    exists m', load_obj stod fs path f pose m = Ok m' true /\ me_tris m' = number 0 ts /\ built m'.
  Proof.
    intros path pose m content ls ts f ns' HE HF HL HR HM Hts.
    apply getlines_iff in HL.
    destruct (obj_loop_complete stod f pose _ _ _ _ HR (start m) eq_refl) as (st & EL & A).
    pose proof (proj1 A) as A1. rewrite <- A1 in A. unfold load_obj.
    eapply load_with_ok; eauto. now rewrite HL.
  Qed.

  Lemma load_obj_sound : forall path f pose m m' b,
    load_obj stod fs path f pose m = Ok m' b ->
    b = true /\ me_tris m = [] /\ ends_with path (txt ".obj") /\
    exists content ls ts ns', fs path = Some content /\ lines content ls /\
      obj_file stod stoi pose f [] ls ts ns' /\ ts <> [] /\
      me_tris m' = number 0 ts /\ built m'.
  Proof.
    intros path f pose m m' b H. unfold load_obj in H. apply load_with_inv in H; [|reflexivity|].
    - destruct H as (Hb & HM & HE & content & st & ts & HF & HL & HA & Hts & HT & HB).
      split; auto. split; auto. split; auto.
      destruct (obj_loop_sound stod f pose _ _ _ HL) as (ts2 & R & A2).
      exists content, (getlines content), ts2, (ls_nodes st).
      split; auto. split; [apply getlines_lines|]. split; [exact R|].
      destruct HA as (_ & T1 & C1 & _). destruct A2 as (_ & T2 & C2 & _).
      cbn in T1, T2, C1, C2. rewrite HM in T1, T2. cbn in T1, T2.
      split; [|split; [congruence|auto]].
      intros ->. cbn in C2. destruct ts; [congruence|cbn in C1; lia].
    - intros st ls HL. destruct (obj_loop_sound stod f pose _ _ _ HL) as (ts & _ & A). eauto.
  Qed.

  (** A line on which the body throws stops the load. *)
  Lemma load_with_throws : forall ext body path m content pre l post st e,
    length ext = 4 -> ends_with path ext -> fs path = Some content ->
    lines content (pre ++ l :: post) ->
    line_loop body pre (start m) = Ok st tt -> body l st = Throw e ->
    load_with fs ext body path m = Exn (Mesh (ls_tris st) (me_bboxes m) (me_tree m)) e.
  Proof.
    intros ext body path m content pre l post st e H4 HE HF HL HP HT.
    unfold load_with. rewrite (proj2 (extension_iff path ext H4) HE).
    rewrite (proj2 (str_eqb_eq ext ext) eq_refl). cbn [negb]. rewrite HF.
    apply getlines_iff in HL. rewrite HL. fold (start m).
    rewrite (loop_app _ _ _ _ _ HP). cbn [line_loop]. now rewrite HT.
  Qed.
  Lemma load_with_undef : forall ext body path m content pre l post st,
    length ext = 4 -> ends_with path ext -> fs path = Some content ->
    lines content (pre ++ l :: post) ->
    line_loop body pre (start m) = Ok st tt -> body l st = UB ->
    load_with fs ext body path m = Undef.
  Proof.
    intros ext body path m content pre l post st H4 HE HF HL HP HT.
    unfold load_with. rewrite (proj2 (extension_iff path ext H4) HE).
    rewrite (proj2 (str_eqb_eq ext ext) eq_refl). cbn [negb]. rewrite HF.
    apply getlines_iff in HL. rewrite HL. fold (start m).
    rewrite (loop_app _ _ _ _ _ HP). cbn [line_loop]. now rewrite HT.
  Qed.
  Lemma loop_undef : forall g ls (st : lstate (K:=K)), line_loop g ls st = Undef ->
    exists pre l post st1, ls = pre ++ l :: post /\ line_loop g pre st = Ok st1 tt /\ g l st1 = UB.
  Proof.
    intros g ls. induction ls as [|l ls IH]; intros st; cbn; [discriminate|].
    destruct (g l st) as [st1|e|] eqn:E; try discriminate.
    - intros H. destruct (IH _ H) as (pre & l2 & post & st2 & -> & HP & HU).
      exists (l :: pre), l2, post, st2. cbn. rewrite E. auto.
    - intros _. exists [], l, ls, st. auto.
  Qed.
  Lemma loop_exn : forall g ls (st st' : lstate (K:=K)) e, line_loop g ls st = Exn st' e ->
    exists pre l post, ls = pre ++ l :: post /\ line_loop g pre st = Ok st' tt /\ g l st' = Throw e.
  Proof.
    intros g ls. induction ls as [|l ls IH]; intros st st' e; cbn; [discriminate|].
    destruct (g l st) as [st1|e1|] eqn:E; try discriminate.
    - intros H. destruct (IH _ _ _ H) as (pre & l2 & post & -> & HP & HU).
      exists (l :: pre), l2, post. cbn. rewrite E. auto.
    - intros H. inversion H; subst. exists [], l, ls. auto.
  Qed.
  Lemma load_with_undef_inv : forall ext body path m,
    length ext = 4 -> load_with fs ext body path m = Undef ->
    ends_with path ext /\ exists content pre l post st,
      fs path = Some content /\ lines content (pre ++ l :: post) /\
      line_loop body pre (start m) = Ok st tt /\ body l st = UB.
  Proof.
    intros ext body path m H4. unfold load_with.
    destruct (extension path) as [x|e|] eqn:EX; try discriminate.
    2:{ unfold extension in EX. destruct (Nat.ltb _ _); discriminate. }
    destruct (str_eqb x ext) eqn:ES; cbn [negb]; [|discriminate].
    apply str_eqb_eq in ES. subst x.
    apply (extension_iff path ext H4) in EX.
    destruct (fs path) as [content|] eqn:EF; [|discriminate].
    fold (start m).
    destruct (line_loop body (getlines content) (start m)) as [st []|st e|] eqn:EL; try discriminate.
    - destruct (_ && _); [|discriminate]. destruct (ls_tris st) as [|t0 ts]; [discriminate|].
      destruct (mesh_build_ret (Mesh (t0 :: ts) (me_bboxes m) (me_tree m))) as (t & _ & EB).
      rewrite EB. discriminate.
    - intros _. split; auto. destruct (loop_undef _ _ _ EL) as (pre & l & post & st & E1 & E2 & E3).
      exists content, pre, l, post, st. split; [reflexivity|].
      split; [|auto]. apply getlines_iff. exact E1.
  Qed.

  (** RDF element lines that are rejected. *)
  Lemma rdf_data_line : forall pose l st, rdf_data l -> flags InElements st ->
    rdf_line stod pose l st = read_element stod l st.
  Proof.
    intros pose l st (HN & HE & HC) [Hn He]. rewrite rdf_line_eq.
    apply (bool_false_iff _ _ (is_nodes_iff l)) in HN.
    apply (bool_false_iff _ _ (is_elements_iff l)) in HE.
    apply (bool_false_iff _ _ (is_comment_iff l)) in HC. rewrite HN, HE, HC, Hn. cbn [obind].
    now rewrite He.
  Qed.
  Lemma rdf_data_node_line : forall pose l st, rdf_data l -> flags InNodes st ->
    rdf_line stod pose l st = read_node stod pose l st.
  Proof.
    intros pose l st (HN & HE & HC) [Hn He]. rewrite rdf_line_eq.
    apply (bool_false_iff _ _ (is_nodes_iff l)) in HN.
    apply (bool_false_iff _ _ (is_elements_iff l)) in HE.
    apply (bool_false_iff _ _ (is_comment_iff l)) in HC. rewrite HN, HE, HC, Hn.
    destruct (read_node stod pose l st) as [st1|e|] eqn:E; cbn; auto.
    apply read_node_ret in E. destruct E as (x & y & z & _ & ->). cbn. now rewrite He.
  Qed.

  Lemma read_element_bad : forall l st i j k f,
    element_line stod stoi l i j k f ->
    (i < 0 \/ j < 0 \/ k < 0)%Z \/ nle (nofZ 0) f = false ->
    read_element stod l st = Throw RuntimeError.
  Proof.
    intros l st i j k f (a & b & c & d & W & Hi & Hj & Hk & Hf) HB.
    unfold read_element. apply split_iff in W. rewrite W, Hi, Hj, Hk, Hf. cbn [obind].
    destruct (Z.leb_spec 0 i); [|reflexivity]. destruct (Z.leb_spec 0 j); [|reflexivity].
    destruct (Z.leb_spec 0 k); [|reflexivity]. cbn [obind assert].
    destruct HB as [HB|HB]; [lia|]. rewrite HB. reflexivity.
  Qed.

  Lemma stoi_not_ub : forall s, stoi s <> UB.
  Proof.
    intros s. unfold stoi. destruct (match drop_spaces s with [] => _ | _ => _ end) as [neg s1].
    destruct (read_digits s1 0 0) as [v n]. destruct n; [discriminate|].
    destruct (_ && _); discriminate.
  Qed.

  Lemma push_tri_ub : forall i j k f (st : lstate (K:=K)),
    (0 <= i -> 0 <= j -> 0 <= k ->
    (push_tri i j k f st = UB <->
     Z.of_nat (length (ls_nodes st)) <= i \/ Z.of_nat (length (ls_nodes st)) <= j \/
     Z.of_nat (length (ls_nodes st)) <= k))%Z.
  Proof.
    intros i j k f st Zi Zj Zk. unfold push_tri.
    destruct (node_at_ub (ls_nodes st) i Zi) as [(p & -> & Hi)|[-> Hi]]; cbn [obind]; [|tauto].
    destruct (node_at_ub (ls_nodes st) j Zj) as [(q & -> & Hj)|[-> Hj]]; cbn [obind]; [|tauto].
    destruct (node_at_ub (ls_nodes st) k Zk) as [(r & -> & Hk)|[-> Hk]]; cbn [obind]; [|tauto].
    unfold mk_tground. destruct (nle _ f); cbn; split; try discriminate; lia.
  Qed.

  Lemma read_element_ub : forall l st, defined_reader stod ->
    (read_element stod l st = UB <->
     exists i j k f, element_line stod stoi l i j k f /\ (0 <= i /\ 0 <= j /\ 0 <= k)%Z /\
       nle (nofZ 0) f = true /\
       (Z.of_nat (length (ls_nodes st)) <= i \/ Z.of_nat (length (ls_nodes st)) <= j \/
        Z.of_nat (length (ls_nodes st)) <= k)%Z).
  Proof.
    intros l st HD. unfold read_element, element_line. split.
    - destruct (split l (lit " ")) as [|a [|b [|c [|d [|e es]]]]] eqn:E; try discriminate.
      apply split_iff in E.
      destruct (stoi a) as [i|?|] eqn:Ea; cbn [obind]; try discriminate; [|now apply stoi_not_ub in Ea].
      destruct (stoi b) as [j|?|] eqn:Eb; cbn [obind]; try discriminate; [|now apply stoi_not_ub in Eb].
      destruct (stoi c) as [k|?|] eqn:Ec; cbn [obind]; try discriminate; [|now apply stoi_not_ub in Ec].
      destruct (stod d) as [f|?|] eqn:Ed; cbn [obind]; try discriminate; [|now apply HD in Ed].
      destruct (Z.leb_spec 0 i); cbn [obind assert]; [|discriminate].
      destruct (Z.leb_spec 0 j); cbn [obind assert]; [|discriminate].
      destruct (Z.leb_spec 0 k); cbn [obind assert]; [|discriminate].
      destruct (nle (nofZ 0) f) eqn:Ef; cbn [obind assert]; [|discriminate].
      intros HP. apply push_tri_ub in HP; auto.
      exists i, j, k, f. split; [exists a, b, c, d; auto|]. auto.
    - intros (i & j & k & f & (a & b & c & d & W & Hi & Hj & Hk & Hf) & (Zi & Zj & Zk) & F & HB).
      apply split_iff in W. rewrite W, Hi, Hj, Hk, Hf. cbn [obind].
      rewrite (proj2 (Z.leb_le 0 i) Zi), (proj2 (Z.leb_le 0 j) Zj), (proj2 (Z.leb_le 0 k) Zk), F.
      cbn [obind assert]. now apply push_tri_ub.
  Qed.

  Lemma read_node_not_ub : forall pose l st, defined_reader stod -> read_node stod pose l st <> UB.
  Proof.
    intros pose l st HD. unfold read_node.
    destruct (split (tail l) (lit " ")) as [|a [|b [|c [|d ds]]]]; try discriminate.
    destruct (stod a) eqn:E1; cbn; try discriminate; [|now apply HD in E1].
    destruct (stod b) eqn:E2; cbn; try discriminate; [|now apply HD in E2].
    destruct (stod c) eqn:E3; cbn; try discriminate. now apply HD in E3.
  Qed.

  (** Undefined behaviour of the RDF loader, exactly. *)
  Lemma load_rdf_undef_iff : forall path pose m, defined_reader stod ->
    (load_rdf stod fs path pose m = Undef <->
     ends_with path (txt ".rdf") /\
     exists content pre l post ts ns i j k f,
       fs path = Some content /\ lines content (pre ++ l :: post) /\
       rdf_file stod stoi pose NoSection [] pre ts InElements ns /\
       rdf_data l /\ element_line stod stoi l i j k f /\
       (0 <= i /\ 0 <= j /\ 0 <= k)%Z /\ nle (nofZ 0) f = true /\
       (Z.of_nat (length ns) <= i \/ Z.of_nat (length ns) <= j \/ Z.of_nat (length ns) <= k)%Z).
  Proof.
    intros path pose m HD. split.
    - intros H. unfold load_rdf in H. apply load_with_undef_inv in H; [|reflexivity].
      destruct H as (HE & content & pre & l & post & st & HF & HL & HP & HU).
      split; auto.
      destruct (rdf_loop_sound stod pose _ _ _ _ (rdf_starts m) HP) as (ts & s' & R & Fl & A).
      pose proof HU as HU'. rewrite rdf_line_eq in HU.
      destruct (is_nodes l) eqn:EN; [discriminate|].
      destruct (is_elements l) eqn:EE; [discriminate|].
      destruct (is_comment l) eqn:EC; [discriminate|].
      apply (bool_false_iff _ _ (is_nodes_iff l)) in EN.
      apply (bool_false_iff _ _ (is_elements_iff l)) in EE.
      apply (bool_false_iff _ _ (is_comment_iff l)) in EC.
      assert (HDa : rdf_data l) by (unfold rdf_data; auto).
      destruct s'.
      + destruct Fl as [F1 F2]. rewrite F1 in HU. cbn in HU. rewrite F2 in HU. discriminate.
      + rewrite (rdf_data_node_line pose l st HDa Fl) in HU'.
        now apply read_node_not_ub in HU'.
      + rewrite (rdf_data_line pose l st HDa Fl) in HU'.
        apply read_element_ub in HU'; [|auto].
        destruct HU' as (i & j & k & f & H1 & H2 & H3 & H4).
        exists content, pre, l, post, ts, (ls_nodes st), i, j, k, f.
        repeat (split; auto).
    - intros (HE & content & pre & l & post & ts & ns & i & j & k & f & HF & HL & HR & HDa & HEl & HZ & Hf & HB).
      destruct (rdf_loop_complete stod pose _ _ _ _ _ _ HR (start m) (rdf_starts m) eq_refl)
        as (st & EL & Fl & A).
      unfold load_rdf. eapply load_with_undef; eauto.
      rewrite rdf_data_line by auto. apply read_element_ub; auto.
      pose proof (proj1 A) as A1. rewrite A1. exists i, j, k, f. auto.
  Qed.

  Lemma load_rdf_bad : forall path pose m content pre l post ts ns i j k f,
    ends_with path (txt ".rdf") -> fs path = Some content -> lines content (pre ++ l :: post) ->
    rdf_file stod stoi pose NoSection [] pre ts InElements ns ->
    rdf_data l -> element_line stod stoi l i j k f ->
    (i < 0 \/ j < 0 \/ k < 0)%Z \/ nle (nofZ 0) f = false ->
    exists m', load_rdf stod fs path pose m = Exn m' RuntimeError.
  Proof.
    intros path pose m content pre l post ts ns i j k f HE HF HL HR HDa HEl HB.
    destruct (rdf_loop_complete stod pose _ _ _ _ _ _ HR (start m) (rdf_starts m) eq_refl)
        as (st & EL & Fl & A).
    eexists. unfold load_rdf. eapply load_with_throws; eauto.
    rewrite rdf_data_line by auto. eapply read_element_bad; eauto.
  Qed.

  (** Any malformed data line stops the load. *)
  Lemma load_rdf_malformed : forall path pose m content pre l post ts ns s ws,
    ends_with path (txt ".rdf") -> fs path = Some content -> lines content (pre ++ l :: post) ->
    rdf_file stod stoi pose NoSection [] pre ts s ns -> rdf_data l ->
    (s = InNodes /\ words space1 (after_first l) ws /\ length ws <> 3 \/
     s = InElements /\ words space1 l ws /\ length ws <> 4) ->
    exists m', load_rdf stod fs path pose m = Exn m' RuntimeError.
  Proof.
    intros path pose m content pre l post ts ns s ws HE HF HL HR HDa HB.
    destruct (rdf_loop_complete stod pose _ _ _ _ _ _ HR (start m) (rdf_starts m) eq_refl)
        as (st & EL & Fl & A).
    eexists. unfold load_rdf. eapply load_with_throws; eauto.
    destruct HB as [(-> & W & Hn)|(-> & W & Hn)]; apply split_iff in W.
    - rewrite rdf_data_node_line by auto. unfold read_node. rewrite tail_after_first, W.
      destruct ws as [|a [|b [|c [|d ws]]]]; auto. now cbn in Hn.
    - rewrite rdf_data_line by auto. unfold read_element. rewrite W.
      destruct ws as [|a [|b [|c [|d [|e ws]]]]]; auto. now cbn in Hn.
  Qed.

  (** After a failed load: the triangles of before are still there, the
      search structure is the one of before. *)
  Lemma load_with_exn_inv : forall ext body path m m' e,
    (forall ls st, line_loop body ls (start m) = Ok st tt ->
       exists extra, ls_tris st = me_tris m ++ extra) ->
    load_with fs ext body path m = Exn m' e ->
    (exists extra, me_tris m' = me_tris m ++ extra) /\ me_tree m' = me_tree m /\ me_bboxes m' = me_bboxes m.
  Proof.
    intros ext body path m m' e HS. unfold load_with.
    assert (H0 : exists extra, me_tris m = me_tris m ++ extra) by (exists []; now rewrite app_nil_r).
    destruct (extension path) as [x|e1|] eqn:EX; try discriminate.
    2:{ intros H; inversion H; subst. auto. }
    destruct (str_eqb x ext) eqn:ES; cbn [negb]; [|intros H; inversion H; subst; auto].
    destruct (fs path) as [content|] eqn:EF; [|intros H; inversion H; subst; auto].
    fold (start m).
    destruct (line_loop body (getlines content) (start m)) as [st []|st e1|] eqn:EL; try discriminate.
    - destruct (HS _ _ EL) as (extra & HX).
      destruct (_ && _); [|intros H; inversion H; subst; cbn; eauto].
      destruct (ls_tris st) as [|t0 ts] eqn:ET; [intros H; inversion H; subst; cbn; eauto|].
      destruct (mesh_build_ret (Mesh (t0 :: ts) (me_bboxes m) (me_tree m))) as (t & _ & EB).
      rewrite EB. discriminate.
    - intros H; inversion H; subst. cbn.
      destruct (loop_exn _ _ _ _ _ EL) as (pre & l & post & _ & HP & _).
      destruct (HS _ _ HP) as (extra & HX). eauto.
  Qed.
  Lemma load_rdf_exn : forall path pose m m' e, load_rdf stod fs path pose m = Exn m' e ->
    (exists extra, me_tris m' = me_tris m ++ extra) /\ me_tree m' = me_tree m /\ me_bboxes m' = me_bboxes m.
  Proof.
    intros path pose m m' e. apply load_with_exn_inv. intros ls st HL.
    destruct (rdf_loop_sound stod pose _ _ _ _ (rdf_starts m) HL) as (ts & s' & _ & _ & A).
    exists (number 0 ts). apply A.
  Qed.
  Lemma load_obj_exn : forall path f pose m m' e, load_obj stod fs path f pose m = Exn m' e ->
    (exists extra, me_tris m' = me_tris m ++ extra) /\ me_tree m' = me_tree m /\ me_bboxes m' = me_bboxes m.
  Proof.
    intros path f pose m m' e. apply load_with_exn_inv. intros ls st HL.
    destruct (obj_loop_sound stod f pose _ _ _ HL) as (ts & _ & A).
    exists (number 0 ts). apply A.
  Qed.

  (** OBJ: rejected faces, ignored lines. *)
  Lemma read_face_bad : forall f l st i j k, face_line stoi l i j k ->
    (int_min < i /\ int_min < j /\ int_min < k)%Z ->
    (i < 1 \/ j < 1 \/ k < 1)%Z \/
    (nle (nofZ 0) f = false /\ (i <= Z.of_nat (length (ls_nodes st)))%Z /\
      (j <= Z.of_nat (length (ls_nodes st)))%Z /\ (k <= Z.of_nat (length (ls_nodes st)))%Z) ->
    read_face f l st = Throw RuntimeError.
  Proof.
    intros f l st i j k (a & b & c & W & Hi & Hj & Hk) (Mi & Mj & Mk) HB.
    unfold read_face. apply split_iff in W. rewrite tail_after_first, W.
    unfold stoi_minus1. rewrite Hi, Hj, Hk. cbn [obind].
    destruct (Z.eqb_spec i int_min); [lia|]. destruct (Z.eqb_spec j int_min); [lia|].
    destruct (Z.eqb_spec k int_min); [lia|]. cbn [obind].
    destruct (Z.leb_spec 0 (i - 1)); [|reflexivity]. destruct (Z.leb_spec 0 (j - 1)); [|reflexivity].
    destruct (Z.leb_spec 0 (k - 1)); [|reflexivity]. cbn [obind assert].
    destruct HB as [HB|(HB & Ni & Nj & Nk)]; [lia|]. unfold push_tri.
    destruct (node_at_ub (ls_nodes st) (i - 1)) as [(p & -> & _)|[_ ?]]; [lia| |lia].
    destruct (node_at_ub (ls_nodes st) (j - 1)) as [(q & -> & _)|[_ ?]]; [lia| |lia].
    destruct (node_at_ub (ls_nodes st) (k - 1)) as [(r & -> & _)|[_ ?]]; [lia| |lia].
    cbn [obind]. unfold mk_tground. rewrite HB. reflexivity.
  Qed.
  Lemma load_obj_bad : forall path f pose m content pre l post ts ns i j k,
    ends_with path (txt ".obj") -> fs path = Some content -> lines content (pre ++ l :: post) ->
    obj_file stod stoi pose f [] pre ts ns ->
    first_word l = txt "f" -> face_line stoi l i j k ->
    (int_min < i /\ int_min < j /\ int_min < k)%Z ->
    (i < 1 \/ j < 1 \/ k < 1)%Z \/
    (nle (nofZ 0) f = false /\ (i <= Z.of_nat (length ns))%Z /\
      (j <= Z.of_nat (length ns))%Z /\ (k <= Z.of_nat (length ns))%Z) ->
    exists m', load_obj stod fs path f pose m = Exn m' RuntimeError.
  Proof.
    intros path f pose m content pre l post ts ns i j k HE HF HL HR HW HFl HM HB.
    destruct (obj_loop_complete stod f pose _ _ _ _ HR (start m) eq_refl) as (st & EL & A).
    eexists. unfold load_obj. eapply load_with_throws; eauto.
    rewrite obj_line_eq.
    assert (HV : str_eqb (first_word l) (txt "v") = false)
        by (apply str_eqb_neq; rewrite HW; discriminate).
    rewrite HV. rewrite HW. change (str_eqb (txt "f") (txt "f")) with true. cbn iota.
    eapply read_face_bad; eauto. pose proof (proj1 A) as A1. now rewrite A1.
  Qed.

  Lemma loop_skip : forall g a l b (st : lstate (K:=K)), (forall st, g l st = Ret st) ->
    line_loop g (a ++ l :: b) st = line_loop g (a ++ b) st.
  Proof.
    intros g a l b st H. revert st. induction a as [|x a IH]; intros st; cbn.
    - now rewrite H.
    - destruct (g x st); auto.
  Qed.
  Lemma load_with_skip : forall ext body path path' m content content' a l b,
    (forall st, body l st = Ret st) ->
    fs path = Some content -> fs path' = Some content' -> extension path = extension path' ->
    lines content (a ++ b) -> lines content' (a ++ l :: b) ->
    load_with fs ext body path' m = load_with fs ext body path m.
  Proof.
    intros ext body path path' m content content' a l b HS HF HF' HE HL HL'.
    unfold load_with. rewrite HE, HF, HF'.
    apply getlines_iff in HL, HL'. rewrite HL, HL'. fold (start m).
    now rewrite (loop_skip _ _ _ _ _ HS).
  Qed.
End Load.
