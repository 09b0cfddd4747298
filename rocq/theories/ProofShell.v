(** * Shell proofs valid for any number type. *)
From Coq Require Import ZArith Bool Lia String List.
From Verif Require Import Base Num Vec Aabb Tree Geom Ground Shape Rib Str Mesh Shell SpecShell.
Import ListNotations.
Local Open Scope num_scope.

Lemma set_nth_length : forall A n (x : A) l, length (set_nth n x l) = length l.
Proof. intros A n x l. revert n. induction l as [|y l IH]; intros [|n]; cbn; auto. Qed.
Lemma set_nth_same : forall A n (x : A) l, n < length l -> nth_error (set_nth n x l) n = Some x.
Proof.
  intros A n x l. revert n. induction l as [|y l IH]; intros [|n] H; cbn in *; try lia; auto.
  apply IH. lia.
Qed.
Lemma set_nth_other : forall A n m (x : A) l, n <> m -> nth_error (set_nth n x l) m = nth_error l m.
Proof.
  intros A n m x l. revert n m. induction l as [|y l IH]; intros [|n] [|m] H; cbn; auto; try lia.
Qed.

Section Runs.
  Context {K : Type} {NK : Num K}.
  Implicit Type cells : list (option (output K)).

  (** The rib loop: all calls succeed, every cell is written. *)
  Lemma run_ok : forall f comb ribs i cells acc cells' b,
    run_ribs f comb i ribs cells acc = Ok cells' b ->
    length cells' = length cells /\ (ribs <> [] -> i + length ribs <= length cells) /\
    (forall j, j < i \/ i + length ribs <= j -> nth_error cells' j = nth_error cells j) /\
    exists bs, length bs = length ribs /\ b = fold_left (fun a c => comb c a) bs acc /\
      forall j r, nth_error ribs j = Some r -> exists c o,
        nth_error bs j = Some c /\ f (i + j)%nat r = Ret (c, o) /\
        nth_error cells' (i + j) = Some (Some o).
  Proof.
    intros f comb ribs. induction ribs as [|r rs IH]; intros i cells acc cells' b H; cbn in H.
    - inversion H; subst. split; auto. split; [congruence|]. split; auto.
      exists []. repeat split. intros j r Hj. destruct j; discriminate.
    - destruct (f i r) as [[c o]|e|] eqn:Ef; try discriminate.
      unfold write_cell in H. destruct (Nat.ltb_spec i (length cells)) as [Hi|]; [|discriminate].
      apply IH in H. destruct H as (L & HL & HO & bs & Lb & Eb & HB).
      rewrite set_nth_length in *. split; auto. split.
      { intros _. cbn. destruct rs as [|r2 rs]; [cbn; lia|]. specialize (HL ltac:(discriminate)). lia. }
      split.
      { intros j Hj. cbn in Hj. rewrite HO by lia. apply set_nth_other. lia. }
      exists (c :: bs). cbn. split; [now f_equal|]. split; auto.
      intros [|j] r' Hj; cbn in Hj.
      + inversion Hj; subst r'. exists c, o. split; auto. rewrite Nat.add_0_r. split; auto.
        rewrite HO by lia. now apply set_nth_same.
      + destruct (HB j r' Hj) as (c' & o' & B1 & B2 & B3). exists c', o'.
        replace (i + S j)%nat with (S i + j)%nat by lia. auto.
  Qed.

  (** The loop on two storages of the same length behaves in the same way. *)
  Definition same_loop (x y : result (list (option (output K))) bool) : Prop :=
    match x, y with
    | Ok c1 b1, Ok c2 b2 => b1 = b2
    | Exn _ e, Exn _ f => e = f
    | Undef, Undef => True
    | _, _ => False
    end.
  Lemma run_same : forall f g comb ribs i c1 c2 acc,
    (forall j r, nth_error ribs j = Some r -> f (i + j)%nat r = g (i + j)%nat r) ->
    length c1 = length c2 ->
    same_loop (run_ribs f comb i ribs c1 acc) (run_ribs g comb i ribs c2 acc).
  Proof.
    intros f g comb ribs. induction ribs as [|r rs IH]; intros i c1 c2 acc HF HL; cbn; [reflexivity|].
    pose proof (HF 0 r eq_refl) as E. rewrite Nat.add_0_r in E. rewrite <- E.
    destruct (f i r) as [[c o]|e|]; [|reflexivity|exact I].
    unfold write_cell. rewrite <- HL. destruct (Nat.ltb_spec i (length c1)); [|exact I].
    apply IH.
    - intros j r' Hj. replace (S i + j)%nat with (i + S j)%nat by lia. now apply HF.
    - now rewrite !set_nth_length.
  Qed.
  Lemma run_exn : forall f comb ribs i cells acc cells' e,
    run_ribs f comb i ribs cells acc = Exn cells' e -> length cells' = length cells.
  Proof.
    intros f comb ribs. induction ribs as [|r rs IH]; intros i cells acc cells' e H; cbn in H; [discriminate|].
    destruct (f i r) as [[c o]|e'|] eqn:Ef; try discriminate.
    - unfold write_cell in H. destruct (Nat.ltb i (length cells)); [|discriminate].
      apply IH in H. now rewrite set_nth_length in H.
    - now inversion H; subst.
  Qed.
  (** Undefined behaviour: a call, or no room. *)
  Lemma run_undef : forall f comb ribs i cells acc,
    run_ribs f comb i ribs cells acc = Undef ->
    (exists j r, nth_error ribs j = Some r /\ f (i + j)%nat r = UB) \/ length cells < i + length ribs.
  Proof.
    intros f comb ribs. induction ribs as [|r rs IH]; intros i cells acc H; cbn in H; [discriminate|].
    destruct (f i r) as [[c o]|e|] eqn:Ef; try discriminate.
    - unfold write_cell in H. destruct (Nat.ltb_spec i (length cells)) as [Hi|Hi].
      + apply IH in H. rewrite set_nth_length in H. destruct H as [(j & r' & H1 & H2)|H].
        * left. exists (S j), r'. split; auto. now replace (i + S j)%nat with (S i + j)%nat by lia.
        * right. cbn. lia.
      + right. cbn. lia.
    - left. exists 0, r. rewrite Nat.add_0_r. auto.
  Qed.
  (** A run where every call returns: defined iff there is room. *)
  Lemma run_total : forall f comb ribs i cells acc,
    (forall j r, nth_error ribs j = Some r -> exists x, f (i + j)%nat r = Ret x) ->
    (i + length ribs <= length cells -> exists c b, run_ribs f comb i ribs cells acc = Ok c b) /\
    (i <= length cells < i + length ribs -> run_ribs f comb i ribs cells acc = Undef).
  Proof.
    intros f comb ribs. induction ribs as [|r rs IH]; intros i cells acc HF; cbn.
    - split; [eauto|lia].
    - destruct (HF 0 r eq_refl) as [[c o] E]. rewrite Nat.add_0_r in E. rewrite E.
      unfold write_cell. destruct (IH (S i) (set_nth i (Some o) cells) (comb c acc)) as [I1 I2].
      { intros j r' Hj. replace (S i + j)%nat with (i + S j)%nat by lia. now apply HF. }
      rewrite set_nth_length in *. split; intros H.
      + destruct (Nat.ltb_spec i (length cells)); [|lia]. apply I1. lia.
      + destruct (Nat.ltb_spec i (length cells)); [|reflexivity]. apply I2. lia.
  Qed.

  (** ** Ribs. *)
  Lemma make_ribs_length : forall sh w n i y rs, make_ribs sh w i n y = (rs, None) -> length rs = n.
  Proof.
    intros sh w n. induction n as [|n IH]; intros i y rs H; cbn in H.
    - now inversion H.
    - destruct (surface_radius sh (y + w)) as [r|e|]; try discriminate.
      destruct (surface_angle sh (y + w) neps) as [a|e|]; try discriminate.
      destruct ((#0 <? r) && (r =? r) && (a =? a)); try discriminate.
      destruct (make_ribs sh w (S i) n (y + w)) as [rs' e] eqn:E. inversion H; subst. cbn. f_equal. eapply IH; eauto.
  Qed.
  Definition ribs_of (sh : shape K) (n : nat) : list (rib K) * option exn :=
    let width := surface_width sh in
    let w := #2 * width / nofsize n in
    make_ribs sh w 0 n (- width - w / #2).

  Lemma resize_eq : forall s n, n <> 0 -> resize s n =
    match snd (ribs_of (sh_shape s) n) with
    | None => Ok (Shell (sh_affine s) (sh_shape s) (sh_bbox s) (fst (ribs_of (sh_shape s) n)) 0
                   (sh_cells s) (repeat [] n)) tt
    | Some x => Exn (Shell (sh_affine s) (sh_shape s) (sh_bbox s) (fst (ribs_of (sh_shape s) n)) 0
                   (sh_cells s) (repeat [] n)) x
    end.
  Proof.
    intros s [|n] H; [congruence|]. unfold resize, ribs_of.
    destruct (make_ribs _ _ _ _ _) as [rs [e|]]; reflexivity.
  Qed.
  Lemma resize_ok : forall s n s', resize s n = Ok s' tt ->
    n <> 0 /\ ribs_of (sh_shape s) n = (sh_ribs s', None) /\ length (sh_ribs s') = n /\
    sh_affine s' = sh_affine s /\ sh_shape s' = sh_shape s /\ sh_bbox s' = sh_bbox s /\
    sh_cells s' = sh_cells s /\ sh_osize s' = 0.
  Proof.
    intros s n s' H. assert (Hn : n <> 0) by (intros ->; discriminate).
    rewrite resize_eq in H by auto. destruct (ribs_of (sh_shape s) n) as [rs [e|]] eqn:E; cbn in H; [discriminate|].
    inversion H; subst s'. cbn. repeat (split; auto). eapply make_ribs_length. exact E.
  Qed.

  (** ** Reachable shells. *)
  Definition inv (s : shell K) : Prop :=
    sh_osize s = 0 /\ length (sh_cells s) = capacity /\ bid (sh_bbox s) = 0%Z /\
    sh_ribs s <> [] /\ ribs_of (sh_shape s) (sh_size s) = (sh_ribs s, None).

  Lemma with_cells_ok : forall (s : shell K) cs r s' b, with_cells s cs r = Ok s' b ->
    exists cells, r = Ok cells b /\
      s' = Shell (sh_affine s) (sh_shape s) (sh_bbox s) (sh_ribs s) (sh_osize s) cells cs.
  Proof. intros s cs [c b0|c e|] s' b H; cbn in H; inversion H; subst. eauto. Qed.
  Lemma with_cells_exn : forall (s : shell K) cs r s' e, with_cells s cs r = Exn s' e ->
    exists cells, r = Exn cells e /\
      s' = Shell (sh_affine s) (sh_shape s) (sh_bbox s) (sh_ribs s) (sh_osize s) cells cs.
  Proof. intros s cs [c b0|c e0|] s' e H; cbn in H; inversion H; subst. eauto. Qed.

  Definition posed (s : shell K) (pose : affine K) : shell K := update_bbox (transform s pose).
  Lemma inv_cells : forall s cells cs, inv s -> length cells = capacity ->
    inv (Shell (sh_affine s) (sh_shape s) (sh_bbox s) (sh_ribs s) (sh_osize s) cells cs).
  Proof. intros s cells cs (H1 & H2 & H3 & H4 & H5) HC. repeat split; auto. Qed.
  Lemma inv_posed : forall s pose, inv s -> inv (posed s pose).
  Proof. intros s pose (H1 & H2 & H3 & H4 & H5). repeat split; auto. Qed.

  (** The call made for each rib by the mesh setup. *)
  Definition mesh_cands (s : shell K) (local : list (tground K)) (method : string) :=
    refine_intersection s local (String.eqb method "geometric" && Nat.ltb 3 (List.length local)).
  Definition mesh_call (gb : nat -> garbage4 K) (cands : list (list (tground K)))
    (pose : affine K) (method : string) (i : nat) (r : rib K) : outcome (bool * output K) :=
    match nth_error cands i with
    | Some c => envelop (gb i) r c pose method
    | None => UB
    end.
  Definition none_call (pose : affine K) (i : nat) (r : rib K) : outcome (bool * output K) :=
    Ret (envelop_none r pose).

  Lemma setup_mesh_eq : forall gb s m pose method,
    setup_mesh gb s m pose method =
    match mesh_intersection m (sh_bbox (posed s pose)) with
    | UB => Undef
    | Throw e => Exn (posed s pose) e
    | Ret [] =>
      match run_ribs (none_call pose) (fun _ acc => acc) 0 (sh_ribs s) (sh_cells s) false with
      | Ok cells _ => with_cells (posed s pose) (sh_cands s) (Ok cells false)
      | x => with_cells (posed s pose) (sh_cands s) x
      end
    | Ret (t :: ts) =>
      let cands := mesh_cands (posed s pose) (t :: ts) method in
      with_cells (posed s pose) cands
        (run_ribs (mesh_call gb cands pose method) (fun b acc => b || acc) 0
           (sh_ribs s) (sh_cells s) false)
    end.
  Proof. intros. unfold setup_mesh. fold (posed s pose). destruct (mesh_intersection _ _) as [[|t ts]|e|]; reflexivity. Qed.

  Lemma inv_setup_mesh : forall gb s m pose method, inv s ->
    match setup_mesh gb s m pose method with
    | Ok s' _ | Exn s' _ => inv s'
    | Undef => True
    end.
  Proof.
    intros gb s m pose method HI. rewrite setup_mesh_eq.
    pose proof (inv_posed s pose HI) as HP. pose proof HI as (_ & HC & _).
    destruct (mesh_intersection m (sh_bbox (posed s pose))) as [[|t ts]|e|]; auto.
    - destruct (run_ribs _ _ _ _ _ _) as [c b|c e|] eqn:E; cbn [with_cells]; auto; apply (inv_cells (posed s pose)); auto.
      + apply run_ok in E. destruct E as [-> _]. exact HC.
      + apply run_exn in E. now rewrite E.
    - cbn zeta. destruct (run_ribs _ _ _ _ _ _) as [c b|c e|] eqn:E; cbn [with_cells]; auto; apply (inv_cells (posed s pose)); auto.
      + apply run_ok in E. destruct E as [-> _]. exact HC.
      + apply run_exn in E. now rewrite E.
  Qed.
  Lemma inv_setup_flat : forall gb s g pose method, inv s ->
    match setup_flat gb s g pose method with
    | Ok s' _ | Exn s' _ => inv s'
    | Undef => True
    end.
  Proof.
    intros gb s g pose method HI. unfold setup_flat. fold (posed s pose).
    pose proof (inv_posed s pose HI) as HP. pose proof HI as (_ & HC & _).
    change (sh_ribs (posed s pose)) with (sh_ribs s). change (sh_cells (posed s pose)) with (sh_cells s).
    destruct (run_ribs _ _ _ _ _ _) as [c b|c e|] eqn:E; cbn [with_cells]; auto; apply (inv_cells (posed s pose)); auto.
    + apply run_ok in E. destruct E as [-> _]. exact HC.
    + apply run_exn in E. now rewrite E.
  Qed.
  Lemma reach_inv : forall s, reach s -> inv s.
  Proof.
    intros s H. induction H.
    - unfold mk_shell in H.
      match type of H with match resize ?z n with _ => _ end = _ => set (s0 := z) in * end.
      destruct (resize s0 n) as [s1 []|s1 e|] eqn:E; try discriminate. inversion H; subst s.
      apply resize_ok in E. destruct E as (Hn & ER & EL & E1 & E2 & E3 & E4 & E5).
      split; [exact E5|]. split; [cbn [update_bbox sh_cells]; rewrite E4; apply repeat_length|].
      split; [cbn [update_bbox sh_bbox bid update_max_min]; rewrite E3; reflexivity|].
      cbn [update_bbox sh_ribs sh_shape]. split; [destruct (sh_ribs s1); [cbn in EL; congruence|discriminate]|].
      unfold sh_size. cbn [update_bbox sh_ribs]. rewrite EL, E2. exact ER.
    - destruct IHreach as (I1 & I2 & I3 & I4 & I5).
      apply resize_ok in H0. destruct H0 as (Hn & ER & EL & E1 & E2 & E3 & E4 & E5).
      split; [exact E5|]. split; [now rewrite E4|]. split; [now rewrite E3|].
      split; [destruct (sh_ribs s'); [cbn in EL; congruence|discriminate]|].
      unfold sh_size. rewrite EL, E2. exact ER.
    - destruct IHreach as (I1 & I2 & I3 & I4 & I5). repeat split; auto.
    - destruct IHreach as (I1 & I2 & I3 & I4 & I5). repeat split; auto.
    - destruct IHreach as (I1 & I2 & I3 & I4 & I5). repeat split; auto.
    - pose proof (inv_setup_mesh gb s m p meth IHreach) as HI. now rewrite H0 in HI.
    - pose proof (inv_setup_mesh gb s m p meth IHreach) as HI. now rewrite H0 in HI.
    - pose proof (inv_setup_flat gb s g p meth IHreach) as HI. now rewrite H0 in HI.
    - pose proof (inv_setup_flat gb s g p meth IHreach) as HI. now rewrite H0 in HI.
  Qed.

  (** ** Uninitialised temporaries. *)
  Lemma sampling_garbage : forall f g0 g1 g2 g3 h0 h1 h2 h3 (r : rib K) pose,
    envelop_sampling_with f g0 g1 g2 g3 r pose = envelop_sampling_with f h0 h1 h2 h3 r pose.
  Proof.
    intros. unfold envelop_sampling_with. destruct (sampling_lines r pose) as [[[l0 l1] l2] l3].
    unfold sample. destruct (f l0) as [[p0 f0]|]; [|reflexivity].
    destruct (f l1) as [[p1 f1]|]; [|reflexivity].
    destruct (f l2) as [[p2 f2]|]; [|reflexivity].
    destruct (f l3) as [[p3 f3]|]; reflexivity.
  Qed.
  Lemma envelop_garbage : forall gb gb' (r : rib K) c pose method,
    envelop gb r c pose method = envelop gb' r c pose method.
  Proof.
    intros [[[g0 g1] g2] g3] [[[h0 h1] h2] h3] r c pose method. unfold envelop, envelop_sampling.
    destruct (String.eqb method "geometric"); auto. destruct (String.eqb method "sampling"); auto.
    f_equal. apply sampling_garbage.
  Qed.
  Lemma envelop_flat_garbage : forall gb gb' (r : rib K) g pose method,
    envelop_flat gb r g pose method = envelop_flat gb' r g pose method.
  Proof.
    intros [[[g0 g1] g2] g3] [[[h0 h1] h2] h3] r g pose method. unfold envelop_flat, envelop_sampling_flat.
    destruct (String.eqb method "geometric"); auto. destruct (String.eqb method "sampling"); auto.
    f_equal. apply sampling_garbage.
  Qed.

  (** ** No contact. *)
  Lemma envelop_none_spec : forall (r : rib K) pose, fst (envelop_none r pose) = false /\
    no_contact r pose (snd (envelop_none r pose)).
  Proof. intros. split; [reflexivity|]. repeat split. Qed.
  Lemma sampling_no_contact : forall f g0 g1 g2 g3 (r : rib K) pose o,
    envelop_sampling_with f g0 g1 g2 g3 r pose = (false, o) -> no_contact r pose o.
  Proof.
    intros f g0 g1 g2 g3 r pose o H. unfold envelop_sampling_with in H.
    destruct (sampling_lines r pose) as [[[l0 l1] l2] l3].
    repeat match type of H with context [sample ?f ?a ?b ?c] => destruct (sample f a b c) as [? [? ?]] end.
    match type of H with (if ?c then _ else _) = _ => destruct c end; [discriminate|].
    replace o with (snd (envelop_none r pose)) by now rewrite H. apply envelop_none_spec.
  Qed.
  Lemma envelop_no_contact : forall gb (r : rib K) c pose method o,
    envelop gb r c pose method = Ret (false, o) -> no_contact r pose o.
  Proof.
    intros [[[g0 g1] g2] g3] r c pose method o H. unfold envelop in H.
    destruct (String.eqb method "geometric").
    - unfold envelop_geometric in H. destruct (geo_loop r pose c gacc0) as [a|e|]; cbn in H; try discriminate.
      destruct (ga_int a && _); [discriminate|]. inversion H as [E].
      replace o with (snd (envelop_none r pose)) by (unfold envelop_none; cbn; congruence). apply envelop_none_spec.
    - destruct (String.eqb method "sampling"); [|discriminate]. inversion H as [E]. 
      eapply sampling_no_contact. unfold envelop_sampling in E. exact E.
  Qed.
  Lemma envelop_flat_no_contact : forall gb (r : rib K) g pose method o,
    envelop_flat gb r g pose method = Ret (false, o) -> no_contact r pose o.
  Proof.
    intros [[[g0 g1] g2] g3] r g pose method o H. unfold envelop_flat in H.
    destruct (String.eqb method "geometric").
    - unfold envelop_geometric_flat in H. inversion H as [E]. clear H.
      destruct (int_plane_disk _ _ _) as [s|].
      + destruct (neps <? seg_length s); [discriminate|].
        replace o with (snd (envelop_none r pose)) by now rewrite E. apply envelop_none_spec.
      + replace o with (snd (envelop_none r pose)) by now rewrite E. apply envelop_none_spec.
    - destruct (String.eqb method "sampling"); [|discriminate]. inversion H as [E].
      eapply sampling_no_contact. unfold envelop_sampling_flat in E. exact E.
  Qed.

  (** ** Methods. *)
  Lemma envelop_method : forall gb (r : rib K) c g pose method, ~ valid_method method ->
    envelop gb r c pose method = Throw RuntimeError /\ envelop_flat gb r g pose method = Throw RuntimeError.
  Proof.
    intros [[[g0 g1] g2] g3] r c g pose method H. unfold envelop, envelop_flat.
    destruct (String.eqb_spec method "geometric"); [exfalso; apply H; now left|].
    destruct (String.eqb_spec method "sampling"); [exfalso; apply H; now right|]. auto.
  Qed.

  (** ** Outputs. *)
  Lemma omap_ext : forall A B (f g : A -> outcome B) l, (forall a, In a l -> f a = g a) -> omap f l = omap g l.
  Proof.
    intros A B f g l H. induction l as [|a l IH]; cbn; auto.
    rewrite (H a) by now left. destruct (g a); cbn; auto. rewrite IH; auto. intros b Hb. apply H. now right.
  Qed.
  Lemma outs_same : forall s t : shell K, sh_size s = sh_size t ->
    (forall i, i < sh_size s -> out_at s i = out_at t i) -> outs s = outs t.
  Proof.
    intros s t HS H. unfold outs. rewrite <- HS. apply omap_ext.
    intros i Hi. apply in_seq in Hi. apply H. lia.
  Qed.
  Lemma same_answers_intro : forall s t : shell K, sh_ribs s = sh_ribs t -> sh_affine s = sh_affine t ->
    sh_bbox s = sh_bbox t -> (forall i, i < sh_size s -> out_at s i = out_at t i) -> same_answers s t.
  Proof.
    intros s t HR HA HB HO. assert (HS : sh_size s = sh_size t) by (unfold sh_size; now rewrite HR).
    assert (HOs : outs s = outs t) by now apply outs_same.
    assert (P : contact_point s = contact_point t) by (unfold contact_point; now rewrite HOs, HS).
    assert (N : contact_normal s = contact_normal t) by (unfold contact_normal; now rewrite HOs, HS).
    assert (A : contact_affine s = contact_affine t) by (unfold contact_affine, sh_y; now rewrite P, N, HA).
    unfold same_answers. repeat (split; auto).
    - unfold contact_friction. now rewrite HOs, HS.
    - unfold contact_depth. now rewrite HOs, HS.
    - unfold contact_area. now rewrite HOs.
    - unfold contact_volume. now rewrite HOs.
    - unfold relative_angles. now rewrite A, HA.
  Qed.

  Lemma cells_same : forall (f g : nat -> rib K -> outcome (bool * output K)) comb comb' ribs c1 c2 acc acc' c1' c2' b1 b2,
    (forall j r, nth_error ribs j = Some r -> f j r = g j r) ->
    run_ribs f comb 0 ribs c1 acc = Ok c1' b1 -> run_ribs g comb' 0 ribs c2 acc' = Ok c2' b2 ->
    forall i, i < length ribs -> nth_error c1' i = nth_error c2' i.
  Proof.
    intros f g comb comb' ribs c1 c2 acc acc' c1' c2' b1 b2 HF H1 H2 i Hi.
    apply run_ok in H1. apply run_ok in H2.
    destruct H1 as (_ & _ & _ & bs1 & _ & _ & B1). destruct H2 as (_ & _ & _ & bs2 & _ & _ & B2).
    destruct (nth_error ribs i) as [r|] eqn:E; [|apply nth_error_None in E; lia].
    destruct (B1 i r E) as (x1 & o1 & _ & F1 & N1). destruct (B2 i r E) as (x2 & o2 & _ & F2 & N2).
    cbn in *. rewrite N1, N2. rewrite (HF i r E) in F1. congruence.
  Qed.

  Lemma inv_same_ribs : forall s t, inv s -> inv t -> sh_shape s = sh_shape t -> sh_size s = sh_size t ->
    sh_ribs s = sh_ribs t.
  Proof.
    intros s t (_ & _ & _ & _ & H1) (_ & _ & _ & _ & H2) HS HN. rewrite HS, HN in H1. congruence.
  Qed.
  Lemma posed_bbox_same : forall s t pose, inv s -> inv t -> sh_shape s = sh_shape t ->
    sh_bbox (posed s pose) = sh_bbox (posed t pose).
  Proof.
    intros s t pose (_ & _ & H1 & _) (_ & _ & H2 & _) HS. unfold posed, update_bbox. cbn.
    now rewrite HS, H1, H2.
  Qed.

  Lemma with_same : forall (s t : shell K) cs ct f g comb c1 c2 acc,
    sh_ribs s = sh_ribs t -> sh_affine s = sh_affine t -> sh_bbox s = sh_bbox t ->
    length c1 = length c2 ->
    (forall j r, nth_error (sh_ribs s) j = Some r -> f j r = g j r) ->
    same_run (with_cells s cs (run_ribs f comb 0 (sh_ribs s) c1 acc))
             (with_cells t ct (run_ribs g comb 0 (sh_ribs t) c2 acc)).
  Proof.
    intros s t cs ct f g comb c1 c2 acc HR HA HB HL HF. rewrite <- HR.
    pose proof (run_same f g comb (sh_ribs s) 0 c1 c2 acc HF HL) as HS.
    destruct (run_ribs f comb 0 (sh_ribs s) c1 acc) as [c1' b1|c1' e1|] eqn:E1;
    destruct (run_ribs g comb 0 (sh_ribs s) c2 acc) as [c2' b2|c2' e2|] eqn:E2; cbn in *; try contradiction; auto.
    split; auto. apply same_answers_intro; cbn; auto.
    intros i Hi. unfold out_at. cbn. unfold sh_size in Hi. cbn in Hi.
    now rewrite (cells_same f g comb comb _ _ _ _ _ _ _ _ _ HF E1 E2 i Hi).
  Qed.

  Lemma setup_flat_same : forall gb gb' s t g pose method, inv s -> inv t ->
    sh_shape s = sh_shape t -> sh_size s = sh_size t ->
    same_run (setup_flat gb s g pose method) (setup_flat gb' t g pose method).
  Proof.
    intros gb gb' s t g pose method HI HJ HS HN. unfold setup_flat.
    fold (posed s pose). fold (posed t pose).
    apply with_same; auto.
    - exact (inv_same_ribs s t HI HJ HS HN).
    - now apply posed_bbox_same.
    - destruct HI as (_ & H1 & _). destruct HJ as (_ & H2 & _).
      change (length (sh_cells s) = length (sh_cells t)). now rewrite H1, H2.
    - intros j r _. apply envelop_flat_garbage.
  Qed.

  Lemma refine_nth : forall (s : shell K) local b i r, nth_error (sh_ribs s) i = Some r ->
    nth_error (refine_intersection s local b) i = Some (filter (is_candidate s b r) local).
  Proof.
    intros s local b i r H. unfold refine_intersection. rewrite nth_error_app1.
    - rewrite nth_error_map, H. reflexivity.
    - rewrite map_length. apply nth_error_Some. congruence.
  Qed.

  Lemma setup_mesh_same : forall gb gb' s t m pose method, inv s -> inv t ->
    sh_shape s = sh_shape t -> sh_size s = sh_size t ->
    same_run (setup_mesh gb s m pose method) (setup_mesh gb' t m pose method).
  Proof.
    intros gb gb' s t m pose method HI HJ HS HN. rewrite !setup_mesh_eq.
    rewrite <- (posed_bbox_same s t pose HI HJ HS).
    pose proof (inv_same_ribs s t HI HJ HS HN) as HR.
    assert (HL : length (sh_cells s) = length (sh_cells t)).
    { destruct HI as (_ & H1 & _). destruct HJ as (_ & H2 & _). now rewrite H1, H2. }
    pose proof (posed_bbox_same s t pose HI HJ HS) as HB.
    destruct (mesh_intersection m (sh_bbox (posed s pose))) as [[|x xs]|e|]; [| |reflexivity|exact I].
    - pose proof (with_same (posed s pose) (posed t pose) (sh_cands s) (sh_cands t)
        (none_call pose) (none_call pose) (fun _ acc => acc) (sh_cells s) (sh_cells t) false
        HR eq_refl HB HL (fun _ _ _ => eq_refl)) as HW.
      change (sh_ribs (posed s pose)) with (sh_ribs s) in HW.
      change (sh_ribs (posed t pose)) with (sh_ribs t) in HW.
      destruct (run_ribs (none_call pose) (fun _ acc : bool => acc) 0 (sh_ribs s) (sh_cells s) false);
      destruct (run_ribs (none_call pose) (fun _ acc : bool => acc) 0 (sh_ribs t) (sh_cells t) false);
        cbn in HW |- *; auto. tauto.
    - cbn zeta. apply (with_same (posed s pose) (posed t pose)); auto.
      intros j r Hj. unfold mesh_call, mesh_cands.
      rewrite (refine_nth (posed s pose) _ _ j r Hj).
      assert (Hj' : nth_error (sh_ribs (posed t pose)) j = Some r) by (rewrite <- Hj; cbn; now rewrite HR).
      rewrite (refine_nth (posed t pose) _ _ j r Hj').
      unfold is_candidate. apply envelop_garbage.
  Qed.

  (** ** What a setup reports. *)
  Lemma fold_or : forall bs a, fold_left (fun x c => c || x) bs a = existsb (fun c => c) bs || a.
  Proof.
    induction bs as [|c bs IH]; intros a; cbn; auto. rewrite IH.
    destruct c, a, (existsb (fun c => c) bs); reflexivity.
  Qed.
  Lemma fold_last : forall bs (a : bool), fold_left (fun x c => c) bs a = last bs a.
  Proof.
    induction bs as [|c bs IH]; intros a; cbn [fold_left]; auto. rewrite IH.
    destruct bs; auto. cbn. clear. revert b. induction bs; intros; cbn; auto.
  Qed.

  Lemma setup_mesh_reports : forall gb s m pose method s' b,
    setup_mesh gb s m pose method = Ok s' b ->
    sh_ribs s' = sh_ribs s /\ sh_affine s' = pose /\
    exists local, mesh_intersection m (sh_bbox s') = Ret local /\
      ((local = [] /\ b = false /\
        forall i, i < sh_size s' -> rib_result (none_call pose) s' i false) \/
       (local <> [] /\
        exists flags, length flags = sh_size s' /\
          (forall i c, nth_error flags i = Some c ->
             exists r cs, nth_error (sh_ribs s') i = Some r /\
               nth_error (sh_cands s') i = Some cs /\
               rib_result (fun _ r => envelop (gb i) r cs pose method) s' i c) /\
          (b = true <-> In true flags))).
  Proof.
    intros gb s m pose method s' b H. rewrite setup_mesh_eq in H.
    destruct (mesh_intersection m (sh_bbox (posed s pose))) as [[|t ts]|e|] eqn:EM; try discriminate.
    - destruct (run_ribs _ _ _ _ _ _) as [cells b0|c e|] eqn:ER; cbn in H; try discriminate.
      inversion H; subst s' b. cbn. split; auto. split; auto. exists []. split; auto. left.
      split; auto. split; auto. intros i Hi.
      destruct (nth_error (sh_ribs s) i) as [r|] eqn:E; [|apply nth_error_None in E; unfold sh_size in Hi; cbn in Hi; lia].
      apply run_ok in ER. destruct ER as (_ & _ & _ & bs & _ & _ & B).
      destruct (B i r E) as (c & o & _ & F & N). cbn in F, N.
      exists r, o. split; auto. split; [|unfold out_at; cbn; now rewrite N].
      rewrite F. inversion F. reflexivity.
    - cbn zeta in H. set (cands := mesh_cands (posed s pose) (t :: ts) method) in *. clearbody cands.
      destruct (run_ribs _ _ _ _ _ _) as [cells b0|c e|] eqn:ER; cbn in H; try discriminate.
      inversion H; subst s' b. cbn. split; auto. split; auto. exists (t :: ts). split; auto. right.
      split; [discriminate|].
      apply run_ok in ER. destruct ER as (_ & _ & _ & bs & Lb & Eb & B). exists bs. split; [exact Lb|].
      split.
      + intros i c Hc.
        destruct (nth_error (sh_ribs s) i) as [r|] eqn:E.
        2:{ apply nth_error_None in E. assert (i < length bs) by (apply nth_error_Some; congruence). lia. }
        destruct (B i r E) as (c' & o & Hc' & F & N). cbn in F, N.
        unfold mesh_call in F. destruct (nth_error cands i) as [cs|] eqn:EC; [|discriminate F].
        exists r, cs. split; auto. split; auto. exists r, o. split; auto. split; [congruence|].
        unfold out_at. cbn. now rewrite N.
      + rewrite Eb, fold_or, orb_false_r, existsb_exists. split.
        * intros (x & Hx & ->). exact Hx.
        * intros Hx. exists true. auto.
  Qed.

  Lemma setup_flat_reports : forall gb s g pose method s' b,
    setup_flat gb s g pose method = Ok s' b ->
    sh_ribs s' = sh_ribs s /\ sh_affine s' = pose /\
    exists flags, length flags = sh_size s' /\
      (forall i c, nth_error flags i = Some c ->
         rib_result (fun i r => envelop_flat (gb i) r g pose method) s' i c) /\
      b = last flags false.
  Proof.
    intros gb s g pose method s' b H. unfold setup_flat in H. fold (posed s pose) in H.
    apply with_cells_ok in H. destruct H as (cells & ER & ->). cbn. split; auto. split; auto.
    apply run_ok in ER. destruct ER as (_ & _ & _ & bs & Lb & Eb & B). exists bs. split; [exact Lb|].
    split; [|rewrite Eb; apply fold_last].
    intros i c Hc.
    destruct (nth_error (sh_ribs s) i) as [r|] eqn:E.
    2:{ apply nth_error_None in E. assert (i < length bs) by (apply nth_error_Some; congruence).
        cbn in Lb. lia. }
    destruct (B i r E) as (c' & o & Hc' & F & N). cbn in F, N.
    exists r, o. split; auto. split; [congruence|]. unfold out_at. cbn. now rewrite N.
  Qed.

  (** ** Storage. *)
  Lemma flat_total : forall gb (r : rib K) g pose method, valid_method method ->
    exists x, envelop_flat gb r g pose method = Ret x.
  Proof.
    intros [[[g0 g1] g2] g3] r g pose method [->| ->]; unfold envelop_flat; cbn; eauto.
  Qed.
  Lemma setup_flat_total : forall gb s g pose method, inv s -> valid_method method ->
    (sh_size s <= capacity -> exists s' b, setup_flat gb s g pose method = Ok s' b) /\
    (capacity < sh_size s -> setup_flat gb s g pose method = Undef).
  Proof.
    intros gb s g pose method (_ & HC & _) HM. unfold setup_flat. fold (posed s pose).
    change (sh_ribs (posed s pose)) with (sh_ribs s). change (sh_cells (posed s pose)) with (sh_cells s).
    destruct (run_total (fun i r => envelop_flat (gb i) r g pose method) (fun b _ => b) (sh_ribs s) 0 (sh_cells s) false)
      as [R1 R2].
    { intros j r _. now apply flat_total. }
    rewrite HC in *. unfold sh_size. split; intros H.
    - destruct (R1 H) as (c & b & E). rewrite E. cbn. eauto.
    - rewrite R2 by lia. reflexivity.
  Qed.
  Lemma flat_not_ub : forall gb (r : rib K) g pose method, envelop_flat gb r g pose method <> UB.
  Proof.
    intros [[[g0 g1] g2] g3] r g pose method. unfold envelop_flat.
    destruct (String.eqb method "geometric"); [discriminate|].
    destruct (String.eqb method "sampling"); discriminate.
  Qed.
  Lemma int_plane_triangle_not_ub : forall p (t : triangle K) tol, int_plane_triangle p t tol <> UB.
  Proof.
    intros p t tol. unfold int_plane_triangle. destruct (int_plane_plane p (tri_plane t) tol); [|discriminate].
    unfold int_line_triangle_seg.
    destruct (int_line_segment l (tri_edge0 t) tol); destruct (int_line_segment l (tri_edge1 t) tol);
    destruct (int_line_segment l (tri_edge2 t) tol); try discriminate.
    destruct (vis_approx v v0 tol); [discriminate|]. destruct (vis_approx v0 v1 tol); [discriminate|].
    destruct (vis_approx v v1 tol); discriminate.
  Qed.
  Lemma geo_loop_not_ub : forall (r : rib K) pose gs acc, geo_loop r pose gs acc <> UB.
  Proof.
    intros r pose gs. induction gs as [|g gs IH]; intros acc; cbn; [discriminate|].
    unfold int_triangle_disk. pose proof (int_plane_triangle_not_ub (dplane (disk_grd r pose)) (tg_tri g) neps) as HU.
    destruct (int_plane_triangle _ _ _) as [[s|]|e|]; cbn; [|apply IH|discriminate|congruence].
    destruct (int_segment_disk s _ neps); auto. destruct (geo_contrib _ _ _ _ _); [auto|discriminate].
  Qed.
  Lemma envelop_not_ub : forall gb (r : rib K) c pose method, envelop gb r c pose method <> UB.
  Proof.
    intros [[[g0 g1] g2] g3] r c pose method. unfold envelop.
    destruct (String.eqb method "geometric").
    - unfold envelop_geometric. pose proof (geo_loop_not_ub r pose c gacc0) as HU.
      destruct (geo_loop r pose c gacc0) as [a|e|]; cbn; try discriminate; try congruence.
      destruct (_ && _); discriminate.
    - destruct (String.eqb method "sampling"); discriminate.
  Qed.
  (** With room for every rib, a setup is undefined only if the query is. *)
  Lemma setup_mesh_defined : forall gb s m pose method, inv s -> sh_size s <= capacity ->
    setup_mesh gb s m pose method = Undef ->
    mesh_intersection m (sh_bbox (update_bbox (transform s pose))) = UB.
  Proof.
    intros gb s m pose method (_ & HC & _) HS H. rewrite setup_mesh_eq in H. unfold posed in *.
    destruct (mesh_intersection _ _) as [[|t ts]|e|]; try discriminate; auto.
    - destruct (run_ribs _ _ _ _ _ _) as [c b|c e|] eqn:E; try discriminate.
      apply run_undef in E. destruct E as [(j & r & _ & E)|E]; [discriminate|].
      unfold sh_size in HS. cbn in E. rewrite HC in E. lia.
    - cbn zeta in H. destruct (run_ribs _ _ _ _ _ _) as [c b|c e|] eqn:E; try discriminate.
      apply run_undef in E. destruct E as [(j & r & Hj & E)|E].
      + unfold mesh_call, mesh_cands in E. cbn [Nat.add] in E.
        rewrite (refine_nth (update_bbox (transform s pose)) _ _ j r Hj) in E.
        exfalso. revert E. apply envelop_not_ub.
      + unfold sh_size in HS. cbn in E. rewrite HC in E. lia.
  Qed.
  Lemma setup_flat_defined : forall gb s g pose method, inv s -> sh_size s <= capacity ->
    setup_flat gb s g pose method <> Undef.
  Proof.
    intros gb s g pose method (_ & HC & _) HS H. unfold setup_flat in H. fold (posed s pose) in H.
    destruct (run_ribs _ _ _ _ _ _) as [c b|c e|] eqn:E; try discriminate.
    apply run_undef in E. destruct E as [(j & r & Hj & E)|E].
    - revert E. apply flat_not_ub.
    - unfold sh_size in HS. cbn in E. rewrite HC in E. lia.
  Qed.

  (** After a setup that returned, every rib has data. *)
  Lemma omap_outs : forall (s : shell K) n k, (forall i, k <= i < k + n -> exists o, out_at s i = Ret o) ->
    exists os, omap (out_at s) (seq k n) = Ret os /\ length os = n /\
      forall i o, nth_error os i = Some o -> out_at s (k + i) = Ret o.
  Proof.
    intros s n. induction n as [|n IH]; intros k H; cbn.
    - exists []. repeat split. intros [|i] o Ho; discriminate.
    - destruct (H k) as [o Ho]; [lia|]. rewrite Ho. cbn.
      destruct (IH (S k)) as (os & E & L & N); [intros i Hi; apply H; lia|]. rewrite E. cbn.
      exists (o :: os). split; auto. cbn. split; [now f_equal|].
      intros [|i] o' Ho'; cbn in Ho'.
      + inversion Ho'; subst. now rewrite Nat.add_0_r.
      + replace (k + S i)%nat with (S k + i)%nat by lia. now apply N.
  Qed.
  Definition all_written (s : shell K) : Prop := forall i, i < sh_size s -> exists o, out_at s i = Ret o.
  Lemma setup_mesh_written : forall gb s m pose method s' b,
    setup_mesh gb s m pose method = Ok s' b -> all_written s'.
  Proof.
    intros gb s m pose method s' b H i Hi. apply setup_mesh_reports in H.
    destruct H as (_ & _ & local & _ & [(_ & _ & HR)|(_ & flags & LF & HR & _)]).
    - destruct (HR i Hi) as (r & o & _ & _ & HO). eauto.
    - destruct (nth_error flags i) as [c|] eqn:E; [|apply nth_error_None in E; lia].
      destruct (HR i c E) as (r & cs & _ & _ & r' & o & _ & _ & HO). eauto.
  Qed.
  Lemma setup_flat_written : forall gb s g pose method s' b,
    setup_flat gb s g pose method = Ok s' b -> all_written s'.
  Proof.
    intros gb s g pose method s' b H i Hi. apply setup_flat_reports in H.
    destruct H as (_ & _ & flags & LF & HR & _).
    destruct (nth_error flags i) as [c|] eqn:E; [|apply nth_error_None in E; lia].
    destruct (HR i c E) as (r & o & _ & _ & HO). eauto.
  Qed.
  Lemma written_outs : forall s : shell K, all_written s ->
    exists os, outs s = Ret os /\ length os = sh_size s /\
      forall i o, nth_error os i = Some o -> out_at s i = Ret o.
  Proof.
    intros s H. unfold outs. destruct (omap_outs s (sh_size s) 0) as (os & E & L & N).
    - intros i Hi. apply H. lia.
    - exists os. auto.
  Qed.

  (** ** Accessors. *)
  Lemma omap_inv : forall A B (f : A -> outcome B) l r, omap f l = Ret r ->
    length r = length l /\ forall i a, nth_error l i = Some a -> exists b, nth_error r i = Some b /\ f a = Ret b.
  Proof.
    intros A B f l. induction l as [|a l IH]; intros r H; cbn in H.
    - inversion H; subst. split; auto. intros [|i] a Ha; discriminate.
    - destruct (f a) as [b|e|] eqn:Ef; cbn in H; try discriminate.
      destruct (omap f l) as [bs|e|] eqn:El; cbn in H; try discriminate. inversion H; subst r.
      destruct (IH bs eq_refl) as [L N]. cbn. split; [now f_equal|].
      intros [|i] x Hx; cbn in Hx.
      + inversion Hx; subst. exists b. auto.
      + now apply N.
  Qed.
  Lemma outs_inv : forall (s : shell K) os, outs s = Ret os ->
    length os = sh_size s /\ forall i, i < sh_size s -> exists o, nth_error os i = Some o /\ out_at s i = Ret o.
  Proof.
    intros s os H. apply omap_inv in H. destruct H as [L N]. rewrite seq_length in L. split; auto.
    intros i Hi. destruct (N i i) as (o & H1 & H2); eauto.
    rewrite nth_error_nth' with (d := 0) by (rewrite seq_length; auto). now rewrite seq_nth.
  Qed.
  Lemma accessor_agree : forall B (f : output K -> B) (s : shell K) v,
    (let* os := outs s in Ret (map f os)) = Ret v ->
    length v = sh_size s /\ forall i, i < sh_size s -> exists b,
      nth_error v i = Some b /\ (let* o := out_at s i in Ret (f o)) = Ret b.
  Proof.
    intros B f s v H. destruct (outs s) as [os|e|] eqn:E; cbn in H; try discriminate. inversion H; subst v.
    apply outs_inv in E. destruct E as [L N]. rewrite map_length. split; auto.
    intros i Hi. destruct (N i Hi) as (o & H1 & H2). exists (f o). rewrite nth_error_map, H1, H2. auto.
  Qed.

  (** [fill]. *)
  Lemma fill_spec : forall A (f : nat -> outcome A) n i v r, fill f n i v = Ret r ->
    n <= length v /\ length r = length v /\
    (forall j, j < n -> exists a, nth_error r j = Some a /\ f (i + j)%nat = Ret a) /\
    (forall j, n <= j -> nth_error r j = nth_error v j).
  Proof.
    intros A f n. induction n as [|n IH]; intros i v r H; cbn in H.
    - inversion H; subst. repeat split; auto; intros; lia.
    - destruct v as [|x v]; [discriminate|]. destruct (f i) as [a|e|] eqn:Ef; cbn in H; try discriminate.
      destruct (fill f n (S i) v) as [r'|e|] eqn:E; cbn in H; try discriminate. inversion H; subst r.
      apply IH in E. destruct E as (H1 & H2 & H3 & H4). cbn. split; [lia|]. split; [now f_equal|]. split.
      + intros [|j] Hj.
        * exists a. rewrite Nat.add_0_r. auto.
        * destruct (H3 j) as (b & B1 & B2); [lia|]. exists b. split; auto.
          now replace (i + S j)%nat with (S i + j)%nat by lia.
      + intros [|j] Hj; [lia|]. cbn. apply H4. lia.
  Qed.
  Lemma fill_short : forall A (f : nat -> outcome A) n i v, length v < n ->
    (forall j, j < length v -> exists a, f (i + j)%nat = Ret a) -> fill f n i v = UB.
  Proof.
    intros A f n. induction n as [|n IH]; intros i v H HF; [lia|]. cbn.
    destruct v as [|x v]; auto. destruct (HF 0) as [a Ha]; [cbn; lia|]. rewrite Nat.add_0_r in Ha.
    rewrite Ha. cbn. rewrite IH; auto.
    - cbn in H. lia.
    - intros j Hj. replace (S i + j)%nat with (i + S j)%nat by lia. apply HF. cbn. lia.
  Qed.
  Lemma fill_enough : forall A (f : nat -> outcome A) n i v, n <= length v ->
    (forall j, j < n -> exists a, f (i + j)%nat = Ret a) -> exists r, fill f n i v = Ret r.
  Proof.
    intros A f n. induction n as [|n IH]; intros i v H HF; cbn; [eauto|].
    destruct v as [|x v]; [cbn in H; lia|]. destruct (HF 0) as [a Ha]; [lia|]. rewrite Nat.add_0_r in Ha.
    rewrite Ha. cbn. destruct (IH (S i) v) as [r E].
    - cbn in H. lia.
    - intros j Hj. replace (S i + j)%nat with (i + S j)%nat by lia. apply HF. lia.
    - rewrite E. cbn. eauto.
  Qed.
End Runs.

(** ** The highest hit. *)
Section Highest.
  Context {K : Type} {NK : Num K} {OK : OrdNum K}.
  Notation hz h := (vz (fst h)).
  Lemma lt_le : forall x y : K, x <? y = true -> x <=? y = true.
  Proof.
    intros x y H. pose proof (ord_lt_num x y H) as [A B]. rewrite (ord_lt x y A B) in H.
    destruct (ord_total x y A B) as [C|C]; auto. rewrite C in H. discriminate.
  Qed.
  Lemma le_lt_trans : forall x y z : K, x <=? y = true -> y <? z = true -> x <? z = true.
  Proof.
    intros x y z H1 H2. pose proof (ord_lt_num y z H2) as [A B]. pose proof (ord_le_num x y H1) as [C _].
    rewrite (ord_lt x z C B). rewrite (ord_lt y z A B) in H2. destruct (z <=? x) eqn:E; auto.
    rewrite (ord_trans z x y E H1) in H2. discriminate.
  Qed.
  Lemma not_lt_le : forall x y : K, isnum x -> isnum y -> x <? y = false -> y <=? x = true.
  Proof. intros x y A B H. rewrite (ord_lt x y A B) in H. now destruct (y <=? x). Qed.
  Lemma fold_higher : forall hs (h : vec3 K * K), isnum (hz h) -> Forall (fun x => isnum (hz x)) hs ->
    exists l1 l2, h :: hs = l1 ++ fold_left higher hs h :: l2 /\
      Forall (fun x => hz x <? hz (fold_left higher hs h) = true) l1 /\
      Forall (fun x => hz x <=? hz (fold_left higher hs h) = true) l2.
  Proof.
    intros hs. induction hs as [|x hs IH] using rev_ind; intros h Hh HF.
    - exists [], []. repeat split; constructor.
    - rewrite fold_left_app. cbn [fold_left]. apply Forall_app in HF. destruct HF as [HF HX].
      inversion HX as [|? ? Hx _]; subst. destruct (IH h Hh HF) as (l1 & l2 & E & F1 & F2).
      remember (fold_left higher hs h) as b eqn:Eb. clear Eb IH.
      assert (Hb : isnum (hz b)).
      { assert (In b (h :: hs)) by (rewrite E; apply in_or_app; right; now left).
        destruct H as [<-|H]; auto. rewrite Forall_forall in HF. now apply HF. }
      unfold higher. destruct (hz b <? hz x) eqn:EL.
      + exists (h :: hs), []. split; [reflexivity|]. split; [|constructor].
        rewrite E. apply Forall_app. split.
        * eapply Forall_impl; [|exact F1]. intros a Ha. cbn in *. eapply le_lt_trans; [|exact EL]. now apply lt_le.
        * constructor; [exact EL|]. eapply Forall_impl; [|exact F2]. intros a Ha. cbn in *. eapply le_lt_trans; eauto.
      + exists l1, (l2 ++ [x]). split; [rewrite app_comm_cons, E, <- app_assoc; reflexivity|]. split; auto.
        apply Forall_app. split; auto. constructor; auto. now apply not_lt_le.
  Qed.
  Lemma flat_map_split : forall A B (f : A -> option B) l l1 x l2,
    flat_map (fun a => match f a with Some b => [b] | None => [] end) l = l1 ++ x :: l2 ->
    exists pre a post, l = pre ++ a :: post /\ f a = Some x /\
      (forall a' b, In a' pre -> f a' = Some b -> In b l1) /\
      (forall a' b, In a' post -> f a' = Some b -> In b l2).
  Proof.
    intros A B f l. induction l as [|a l IH]; intros l1 x l2 H; cbn in H.
    - destruct l1; discriminate.
    - destruct (f a) as [b|] eqn:Ef; cbn in H.
      + destruct l1 as [|y l1]; cbn in H; inversion H; subst.
        * exists [], a, l. split; auto. split; auto. split; [intros ? ? []|].
          intros a' b Ha Hb. apply in_flat_map. exists a'. rewrite Hb. split; auto. now left.
        * destruct (IH _ _ _ H2) as (pre & c & post & E & Fc & P1 & P2).
          exists (a :: pre), c, post. split; [now rewrite E|]. split; auto. split; auto.
          intros a' b Ha Hb. destruct Ha as [<-|Ha].
          -- left. congruence.
          -- right. eauto.
      + destruct (IH _ _ _ H) as (pre & c & post & E & Fc & P1 & P2).
        exists (a :: pre), c, post. split; [now rewrite E|]. split; auto. split; auto.
        intros a' b Ha Hb. destruct Ha as [<-|Ha]; [congruence|eauto].
  Qed.
  Definition hit_of (l : line K) (g : tground K) : option (vec3 K * K) :=
    match int_line_triangle l (tg_tri g) neps with Some p => Some (p, tg_friction g) | None => None end.
  Lemma hits_eq : forall ground (l : line K), sampling_hits ground l =
    flat_map (fun a => match hit_of l a with Some b => [b] | None => [] end) ground.
  Proof.
    intros ground l. unfold sampling_hits. apply flat_map_ext. intros g. unfold hit_of.
    now destruct (int_line_triangle l (tg_tri g) neps).
  Qed.
  Lemma highest_hit : forall ground (l : line K) p f,
    (forall g q, In g ground -> int_line_triangle l (tg_tri g) neps = Some q -> isnum (vz q)) ->
    sampling_line ground l = Some (p, f) ->
    exists pre g post, ground = pre ++ g :: post /\
      int_line_triangle l (tg_tri g) neps = Some p /\ f = tg_friction g /\
      (forall g' q, In g' pre -> int_line_triangle l (tg_tri g') neps = Some q -> vz q <? vz p = true) /\
      (forall g' q, In g' post -> int_line_triangle l (tg_tri g') neps = Some q -> vz q <=? vz p = true).
  Proof.
    intros ground l p f HN H. unfold sampling_line in H.
    destruct (sampling_hits ground l) as [|h hs] eqn:EH; [discriminate|].
    assert (HF : Forall (fun x => isnum (hz x)) (h :: hs)).
    { apply Forall_forall. intros x Hx. rewrite <- EH in Hx. unfold sampling_hits in Hx.
      apply in_flat_map in Hx. destruct Hx as (g & Hg & Hx).
      destruct (int_line_triangle l (tg_tri g) neps) as [q|] eqn:E; [|destruct Hx].
      destruct Hx as [<-|[]]. cbn. eauto. }
    inversion HF; subst. destruct (fold_higher hs h) as (l1 & l2 & E & F1 & F2); auto.
    inversion H as [Eb]. rewrite Eb in *. rewrite E, hits_eq in EH.
    apply flat_map_split in EH. destruct EH as (pre & g & post & EG & Hg & P1 & P2).
    unfold hit_of in Hg. destruct (int_line_triangle l (tg_tri g) neps) as [q|] eqn:EI; [|discriminate].
    inversion Hg; subst q f. exists pre, g, post. split; auto. split; auto. split; auto.
    rewrite Forall_forall in F1, F2. split.
    - intros g' q Hg' Hq. apply (F1 (q, tg_friction g')). eapply P1; eauto. unfold hit_of. now rewrite Hq.
    - intros g' q Hg' Hq. apply (F2 (q, tg_friction g')). eapply P2; eauto. unfold hit_of. now rewrite Hq.
  Qed.
  Lemma no_hit : forall ground (l : line K), sampling_line ground l = None <->
    forall g, In g ground -> int_line_triangle l (tg_tri g) neps = None.
  Proof.
    clear OK. intros ground l. unfold sampling_line, sampling_hits. split.
    - intros H g Hg. destruct (flat_map _ ground) as [|h hs] eqn:E; [|discriminate].
      destruct (int_line_triangle l (tg_tri g) neps) as [q|] eqn:EI; auto. exfalso.
      assert (HI : In (q, tg_friction g) []); [|destruct HI]. rewrite <- E. apply in_flat_map.
      exists g. rewrite EI. split; auto. now left.
    - intros H. replace (flat_map _ ground) with (@nil (vec3 K * K)); auto.
      induction ground as [|g gs IH]; cbn; auto. rewrite (H g) by now left. apply IH.
      intros g' Hg'. apply H. now right.
  Qed.
End Highest.
