(** * Proofs about mesh queries. *)
From Coq Require Import ZArith Bool Lia Ascii String Permutation List.
From Verif Require Import Base Num Vec Aabb Tree Geom Ground Str Mesh.
From Verif Require Import SpecTree SpecLoad SpecMesh ProofTree ProofLoad ProofMesh.
Import ListNotations.

Lemma omap_ret : forall A B (f : A -> outcome B) (g : A -> B) l,
  (forall a, In a l -> f a = Ret (g a)) -> omap f l = Ret (map g l).
Proof.
  intros A B f g l. induction l as [|a l IH]; cbn; intros H; [reflexivity|].
  rewrite H by auto. cbn. rewrite IH by auto. reflexivity.
Qed.

Section Query.
  Context {K : Type} {NK : Num K}.

  (** Triangles numbered by their position. *)
  Definition numbered (m : mesh K) : Prop :=
    forall i t, nth_error (me_tris m) i = Some t -> bid (tg_bbox t) = Z.of_nat i.

  Definition tri_of (d : tground K) (m : mesh K) (b : aabb K) : tground K :=
    nth (Z.to_nat (bid b)) (me_tris m) d.

  Lemma mesh_nth_bbox : forall m d t, numbered m -> In t (me_tris m) ->
    mesh_nth m (bid (tg_bbox t)) = Ret t /\ tri_of d m (tg_bbox t) = t.
  Proof.
    intros m d t HN Hin. apply In_nth_error in Hin. destruct Hin as [i Hi].
    unfold mesh_nth, tri_of. rewrite (HN _ _ Hi).
    destruct (Z.ltb_spec (Z.of_nat i) 0); [lia|]. rewrite Nat2Z.id, Hi. split; auto.
    now apply nth_error_nth.
  Qed.

  Lemma map_tri_of_filter : forall d m (P : aabb K -> bool) l, numbered m ->
    (forall t, In t l -> In t (me_tris m)) ->
    map (tri_of d m) (filter P (map tg_bbox l)) = filter (fun t => P (tg_bbox t)) l.
  Proof.
    intros d m P l HN. induction l as [|t l IH]; cbn; intros H; [reflexivity|].
    destruct (P (tg_bbox t)); cbn; rewrite IH by auto; auto.
    f_equal. apply mesh_nth_bbox; auto.
  Qed.

  Lemma build_one : forall b : aabb K, build [b] = Ret (Tree (Some b) []).
  Proof. reflexivity. Qed.

  (** Any tree with two children per node: the search is defined and only
      returns overlapping pairs of leaves, in order. *)
  Lemma oconcat_all : forall {A} (Q : A -> Prop) (l : list (outcome (list A))),
    (forall o, In o l -> exists r, o = Ret r /\ Forall Q r) ->
    exists r, oconcat l = Ret r /\ Forall Q r.
  Proof.
    intros A Q l. induction l as [|o l IH]; cbn; intros H; [eauto|].
    destruct (H o) as (r & -> & F); auto. cbn.
    destruct IH as (r' & -> & F'); auto. cbn. eexists. split; [reflexivity|].
    apply Forall_app. auto.
  Qed.

  Definition pair_of (this t : tree K) (swap : bool) (p : aabb K * aabb K) : Prop :=
    let (a, b) := if swap then (snd p, fst p) else p in
    In a (leaves this) /\ In b (leaves t) /\ intersects b a = true.

  Lemma inter_sym : forall a b : aabb K, intersects a b = intersects b a.
  Proof.
    intros a b. unfold intersects. apply eq_true_iff_eq. rewrite !andb_true_iff. tauto.
  Qed.

  Lemma tinter_total : forall fuel this t swap, binary this -> binary t ->
    tsize this + tsize t <= fuel ->
    exists r, tinter_fuel fuel this t swap = Ret r /\ Forall (pair_of this t swap) r.
  Proof.
    assert (HL : forall b (l r x : tree K), (x = l \/ x = r) ->
              forall a, In a (leaves x) -> In a (leaves (Tree (Some b) [l; r]))).
    { intros b l r x Hx a Ha. cbn. rewrite app_nil_r, in_app_iff. destruct Hx; subst; auto. }
    induction fuel as [|fuel IH]; intros this t swap B1 B2 Hf.
    - destruct this; cbn in Hf; lia.
    - destruct B1 as [b1|b1 l1 r1 Bl1 Br1], B2 as [b2|b2 l2 r2 Bl2 Br2]; cbn [tinter_fuel tbox tchildren];
        (destruct (intersects b2 b1) eqn:EI; cbn [negb]; [|eexists; split; [reflexivity|constructor]]).
      + eexists. split; [reflexivity|]. constructor; [|constructor].
        destruct swap; cbn; auto.
      + apply oconcat_all. intros o Ho. apply in_map_iff in Ho. destruct Ho as (c & <- & Hc).
        destruct (IH (Tree (Some b1) []) c swap) as (r & E & F).
        { constructor. }
        { destruct Hc as [<-|[<-|[]]]; auto. }
        { destruct Hc as [<-|[<-|[]]]; cbn [tsize map list_sum fold_right] in *; lia. }
        exists r. split; auto. eapply Forall_impl; [|exact F].
        intros p Hp. unfold pair_of in *. destruct swap, p as [x y]; cbn [fst snd] in *;
          destruct Hp as (P1 & P2 & P3); repeat split; auto;
          apply (HL _ _ _ c); auto; destruct Hc as [<-|[<-|[]]]; auto.
      + apply oconcat_all. intros o Ho. apply in_map_iff in Ho. destruct Ho as (c & <- & Hc).
        destruct (IH (Tree (Some b2) []) c (negb swap)) as (r & E & F).
        { constructor. }
        { destruct Hc as [<-|[<-|[]]]; auto. }
        { destruct Hc as [<-|[<-|[]]]; cbn [tsize map list_sum fold_right] in *; lia. }
        exists r. split; auto. eapply Forall_impl; [|exact F].
        intros p Hp. unfold pair_of in *. destruct swap, p as [x y]; cbn [fst snd negb] in *;
          destruct Hp as (P1 & P2 & P3); rewrite inter_sym; repeat split; auto;
          apply (HL _ _ _ c); auto; destruct Hc as [<-|[<-|[]]]; auto.
      + apply oconcat_all. intros o Ho. apply in_flat_map in Ho. destruct Ho as (c & Hc & Ho).
        apply in_map_iff in Ho. destruct Ho as (d & <- & Hd).
        destruct (IH c d swap) as (r & E & F).
        { destruct Hc as [<-|[<-|[]]]; auto. }
        { destruct Hd as [<-|[<-|[]]]; auto. }
        { destruct Hc as [<-|[<-|[]]], Hd as [<-|[<-|[]]]; cbn [tsize map list_sum fold_right] in *; lia. }
        exists r. split; auto. eapply Forall_impl; [|exact F].
        intros p Hp. unfold pair_of in *. destruct swap, p as [x y]; cbn [fst snd] in *;
          destruct Hp as (P1 & P2 & P3); repeat split; auto;
          solve [apply (HL _ _ _ c); auto; destruct Hc as [<-|[<-|[]]]; auto
                |apply (HL _ _ _ d); auto; destruct Hd as [<-|[<-|[]]]; auto].
  Qed.

  (** Any query on a built, numbered, non-empty mesh is defined and returns
      only triangles of the mesh whose box test succeeds. *)
  Lemma query_defined : forall m q, built m -> numbered m -> me_tris m <> [] ->
    exists r, mesh_intersection m q = Ret r /\
      Forall (fun t => In t (me_tris m) /\ intersects (tg_bbox t) q = true) r.
  Proof.
    intros m q [HB _] HN Hne. unfold mesh_intersection. rewrite build_one. cbn [obind].
    destruct (build_spec (map tg_bbox (me_tris m))) as (t & E & HP & _ & H2).
    rewrite HB in E. inversion E; subst t. clear E.
    destruct H2 as [Hbin _]. { destruct (me_tris m); [congruence|discriminate]. }
    destruct (tinter_total (tsize (me_tree m) + tsize (Tree (Some q) [])) (me_tree m)
                (Tree (Some q) []) false Hbin (bin_leaf q) (Nat.le_refl _)) as (r & E & F).
    unfold tree_intersection. rewrite E. cbn [obind].
    destruct (me_tris m) as [|d ts] eqn:Et; [congruence|]. rewrite <- Et in *.
    assert (HR : forall p, In p r -> exists t, In t (me_tris m) /\ fst p = tg_bbox t /\
               intersects (tg_bbox t) q = true).
    { intros [a b] Hp. rewrite Forall_forall in F. specialize (F _ Hp). cbn in F.
      destruct F as (F1 & [<-|[]] & F3).
      eapply Permutation_in in F1; [|exact HP]. apply in_map_iff in F1.
      destruct F1 as (t & <- & Ht). exists t. rewrite inter_sym. auto. }
    rewrite (omap_ret _ _ _ (fun pr => tri_of d m (fst pr))).
    - eexists. split; [reflexivity|]. apply Forall_forall. intros t Ht.
      apply in_map_iff in Ht. destruct Ht as (p & <- & Hp).
      destruct (HR _ Hp) as (t & H1 & H3 & H4). rewrite H3.
      rewrite (proj2 (mesh_nth_bbox m d t HN H1)). auto.
    - intros p Hp. destruct (HR _ Hp) as (t & H1 & H3 & H4). rewrite H3.
      destruct (mesh_nth_bbox m d t HN H1) as [-> ->]. reflexivity.
  Qed.

  (** Failed loads do not change the answers. *)
  Lemma query_prefix : forall m m' q r, me_tree m' = me_tree m ->
    (exists extra, me_tris m' = me_tris m ++ extra) ->
    mesh_intersection m q = Ret r -> mesh_intersection m' q = Ret r.
  Proof.
    intros m m' q r HT [extra HX]. unfold mesh_intersection. rewrite build_one, HT. cbn [obind].
    destruct (tree_intersection (me_tree m) (Tree (Some q) [])) as [ps|e|]; cbn [obind]; try discriminate.
    revert r. induction ps as [|p ps IH]; intros r; cbn; auto.
    intros H. apply obind_ret in H. destruct H as (t & H1 & H).
    apply obind_ret in H. destruct H as (ts & H2 & H). rewrite (IH _ H2).
    assert (HN : mesh_nth m' (bid (fst p)) = Ret t).
    { unfold mesh_nth in *. destruct (bid (fst p) <? 0)%Z; [discriminate|].
      destruct (nth_error (me_tris m) (Z.to_nat (bid (fst p)))) as [t'|] eqn:E; [|discriminate].
      rewrite HX. rewrite nth_error_app1; [now rewrite E|].
      apply nth_error_Some. congruence. }
    rewrite HN. cbn. exact H.
  Qed.

  (** Loaded meshes. *)
  Lemma number_numbered : forall m ts, (Z.of_nat (length ts) <= 2 ^ 31)%Z ->
    me_tris m = number 0 ts -> numbered m.
  Proof.
    intros m ts Hl E i t Hi. rewrite E, number_nth in Hi.
    destruct (nth_error ts i) as [[[[p q] r] f]|] eqn:En; [|discriminate].
    cbn in Hi. inversion Hi; subst. cbn. apply int_size_id.
    assert (i < length ts) by (apply nth_error_Some; congruence). lia.
  Qed.

  (** Triangles as the constructor leaves them. *)
  Definition sealed (t : tground K) : Prop :=
    tg_bbox t = tg_update_bbox (tg_id t) (tg_tri t) /\ tg_normal t = tg_update_normal (tg_tri t) /\
    nle (nofZ 0) (tg_friction t) = true.
  Lemma mk_tground_sealed : forall id f p q r t, mk_tground id f p q r = Ret t -> sealed t.
  Proof.
    intros id f p q r t. unfold mk_tground. destruct (nle (nofZ 0) f) eqn:E; intros H; inversion H.
    repeat split. exact E.
  Qed.
  Definition bbox_of (t : triangle K) : aabb K := tg_update_bbox 0 t.
  Lemma sealed_intersects : forall t q, sealed t ->
    intersects (tg_bbox t) q = intersects (bbox_of (tg_tri t)) q.
  Proof. intros t q [-> _]. reflexivity. Qed.

  Lemma rdf_faces_friction : forall (rr : text -> outcome K) ri pose s ns ls ts s' ns',
    rdf_file rr ri pose s ns ls ts s' ns' ->
    Forall (fun t : face => nle (nofZ 0) (snd t) = true) ts.
  Proof. intros rr ri pose s ns ls ts s' ns' H. induction H; auto. Qed.
  Lemma obj_faces_friction : forall (rr : text -> outcome K) ri pose f ns ls ts ns',
    obj_file rr ri pose f ns ls ts ns' ->
    Forall (fun t : face => nle (nofZ 0) (snd t) = true) ts.
  Proof. intros rr ri pose f ns ls ts ns' H. induction H; auto. Qed.
  Lemma number_sealed : forall ts k, Forall (fun t : face => nle (nofZ 0) (snd t) = true) ts ->
    Forall sealed (number (NK:=NK) k ts).
  Proof.
    induction ts as [|[[[p q] r] f] ts IH]; intros k H; cbn; constructor.
    - inversion H; subst. repeat split. assumption.
    - apply IH. now inversion H.
  Qed.
End Query.

Section QueryOrd.
  Context {K : Type} {NK : Num K} {OK : OrdNum K}.

  Lemma query_filter : forall m q, built m -> numbered m -> me_tris m <> [] ->
    Forall proper_box (map tg_bbox (me_tris m)) -> proper_box q ->
    exists r, mesh_intersection m q = Ret r /\
      Permutation r (filter (fun t => intersects (tg_bbox t) q) (me_tris m)).
  Proof.
    intros m q [HB _] HN Hne HF Hq. unfold mesh_intersection. rewrite build_one. cbn [obind].
    assert (Hne' : map tg_bbox (me_tris m) <> []) by (destruct (me_tris m); [congruence|discriminate]).
    pose proof (build_wf _ _ Hne' HF HB) as W.
    destruct (build_spec (map tg_bbox (me_tris m))) as (t & E & HP & _).
    rewrite HB in E. inversion E; subst t. clear E.
    destruct (tree_intersection_spec (me_tree m) (Tree (Some q) []) W (wf_leaf q Hq)) as (r & E & P).
    rewrite E. cbn [obind].
    destruct (me_tris m) as [|d ts] eqn:Et; [congruence|]. rewrite <- Et in *.
    assert (P2 : Permutation r (filter hit (list_prod (map tg_bbox (me_tris m)) [q]))).
    { rewrite P. apply filter_perm. apply list_prod_perm; auto. }
    rewrite (omap_ret _ _ _ (fun pr => tri_of d m (fst pr))).
    - eexists. split; [reflexivity|].
      rewrite (Permutation_map _ P2).
      rewrite <- (map_tri_of_filter d m (fun b => intersects b q) (me_tris m) HN) by auto.
      generalize (map tg_bbox (me_tris m)) as l. intros l. clear.
      induction l as [|b l IH]; cbn; [constructor|].
      unfold hit at 1. cbn [fst snd].
      destruct (intersects b q); cbn; auto.
    - intros p Hp. eapply Permutation_in in Hp; [|exact P2].
      apply filter_In in Hp. destruct Hp as [Hp _]. destruct p as [a b].
      apply in_prod_iff in Hp. destruct Hp as [Hp _]. apply in_map_iff in Hp.
      destruct Hp as (t & <- & Ht). cbn [fst].
      destruct (mesh_nth_bbox m d t HN Ht) as [-> ->]. reflexivity.
  Qed.

  Lemma nmin_case : forall a b : K, nmin a b = a \/ nmin a b = b.
  Proof. intros a b. unfold nmin. destruct (nlt b a); auto. Qed.
  Lemma nmax_case : forall a b : K, nmax a b = a \/ nmax a b = b.
  Proof. intros a b. unfold nmax. destruct (nlt a b); auto. Qed.
  Lemma nmin_le : forall a b : K, isnum a -> isnum b ->
    nle (nmin a b) a = true /\ nle (nmin a b) b = true /\ isnum (nmin a b).
  Proof.
    intros a b Ha Hb. unfold nmin. destruct (nlt b a) eqn:E.
    - repeat split; auto. now apply lt_le.
    - repeat split; auto. rewrite ord_lt in E by auto. now apply negb_false_iff in E.
  Qed.
  Lemma nmax_le : forall a b : K, isnum a -> isnum b ->
    nle a (nmax a b) = true /\ nle b (nmax a b) = true /\ isnum (nmax a b).
  Proof.
    intros a b Ha Hb. unfold nmax. destruct (nlt a b) eqn:E.
    - repeat split; auto. now apply lt_le.
    - repeat split; auto. rewrite ord_lt in E by auto. now apply negb_false_iff in E.
  Qed.
  Lemma nmin3 : forall a b c : K, isnum a -> isnum b -> isnum c ->
    nle (nmin a (nmin b c)) a = true /\ nle (nmin a (nmin b c)) b = true /\
    nle (nmin a (nmin b c)) c = true.
  Proof.
    intros a b c Ha Hb Hc. destruct (nmin_le b c Hb Hc) as (H1 & H2 & H3).
    destruct (nmin_le a (nmin b c) Ha H3) as (H4 & H5 & H6).
    split; [exact H4|]. split; [exact (ord_trans _ _ _ H5 H1)|exact (ord_trans _ _ _ H5 H2)].
  Qed.
  Lemma nmax3 : forall a b c : K, isnum a -> isnum b -> isnum c ->
    nle a (nmax a (nmax b c)) = true /\ nle b (nmax a (nmax b c)) = true /\
    nle c (nmax a (nmax b c)) = true.
  Proof.
    intros a b c Ha Hb Hc. destruct (nmax_le b c Hb Hc) as (H1 & H2 & H3).
    destruct (nmax_le a (nmax b c) Ha H3) as (H4 & H5 & H6).
    split; [exact H4|]. split; [exact (ord_trans _ _ _ H1 H5)|exact (ord_trans _ _ _ H2 H5)].
  Qed.
  Lemma clamp_encloses : forall (b : aabb K) p q r, vnum p -> vnum q -> vnum r ->
    encloses (clamp b p q r) p q r.
  Proof.
    intros b p q r (P1 & P2 & P3) (Q1 & Q2 & Q3) (R1 & R2 & R3).
    destruct (nmin3 _ _ _ P1 Q1 R1) as (A1 & A2 & A3).
    destruct (nmin3 _ _ _ P2 Q2 R2) as (B1 & B2 & B3).
    destruct (nmin3 _ _ _ P3 Q3 R3) as (C1 & C2 & C3).
    destruct (nmax3 _ _ _ P1 Q1 R1) as (D1 & D2 & D3).
    destruct (nmax3 _ _ _ P2 Q2 R2) as (E1 & E2 & E3).
    destruct (nmax3 _ _ _ P3 Q3 R3) as (F1 & F2 & F3).
    unfold encloses, in_box. cbn. repeat split; assumption.
  Qed.
  Lemma clamp_tight : forall (b : aabb K) p q r, tight (clamp b p q r) p q r.
  Proof.
    intros b p q r. unfold tight, one_of. cbn.
    repeat split;
      match goal with
      | |- context [nmin ?a (nmin ?b ?c)] =>
        destruct (nmin_case a (nmin b c)) as [->| ->]; [auto|destruct (nmin_case b c) as [->| ->]; auto]
      | |- context [nmax ?a (nmax ?b ?c)] =>
        destruct (nmax_case a (nmax b c)) as [->| ->]; [auto|destruct (nmax_case b c) as [->| ->]; auto]
      end.
  Qed.
  Lemma encloses_proper : forall (b : aabb K) p q r, encloses b p q r -> proper_box b.
  Proof.
    intros b p q r ((H1 & H2 & H3 & H4 & H5 & H6) & _).
    repeat split; eapply ord_trans; eauto.
  Qed.
  Lemma sealed_proper : forall t : tground K, sealed t -> tri_num t -> proper_box (tg_bbox t).
  Proof.
    intros t (HB & _) (H0 & H1 & H2). rewrite HB. unfold tg_update_bbox.
    eapply encloses_proper. apply clamp_encloses; eauto.
  Qed.

  Lemma query_exact : forall m q, built m -> numbered m -> me_tris m <> [] ->
    Forall sealed (me_tris m) -> Forall tri_num (me_tris m) -> proper_box q ->
    exists r, mesh_intersection m q = Ret r /\
      exactly (fun t => overlap (tg_bbox t) q) (me_tris m) r.
  Proof.
    intros m q HB HN Hne HS HT Hq.
    assert (HP : Forall proper_box (map tg_bbox (me_tris m))).
    { rewrite Forall_map. rewrite Forall_forall in *. intros t Ht. apply sealed_proper; auto. }
    destruct (query_filter m q HB HN Hne HP Hq) as (r & E & P).
    exists r. split; auto. exists (fun t => intersects (tg_bbox t) q). split; auto.
    intros t Ht. apply intersects_overlap; auto.
    rewrite Forall_map in HP. rewrite Forall_forall in HP. auto.
  Qed.

  (** Order of the triangles. *)
  Lemma query_perm : forall m1 m2 q,
    built m1 -> numbered m1 -> me_tris m1 <> [] -> Forall sealed (me_tris m1) ->
    built m2 -> numbered m2 -> Forall sealed (me_tris m2) ->
    Forall tri_num (me_tris m1) -> proper_box q ->
    Permutation (map content (me_tris m1)) (map content (me_tris m2)) ->
    exists r1 r2, mesh_intersection m1 q = Ret r1 /\ mesh_intersection m2 q = Ret r2 /\
      Permutation (map content r1) (map content r2).
  Proof.
    intros m1 m2 q B1 N1 Hne S1 B2 N2 S2 T1 Hq HP.
    assert (Hne2 : me_tris m2 <> []).
    { intros E. rewrite E in HP. cbn in HP. symmetry in HP. apply Permutation_nil in HP.
      destruct (me_tris m1); [congruence|discriminate]. }
    assert (T2 : Forall tri_num (me_tris m2)).
    { rewrite Forall_forall in *. intros t Ht.
      assert (Hc : In (content t) (map content (me_tris m1))).
      { eapply Permutation_in; [symmetry; exact HP|]. now apply in_map. }
      apply in_map_iff in Hc. destruct Hc as (t1 & E & Ht1). specialize (T1 _ Ht1).
      unfold content in E. inversion E as [[E1 E2]]. unfold tri_num. now rewrite <- E1. }
    assert (P1 : Forall proper_box (map tg_bbox (me_tris m1))).
    { rewrite Forall_map. rewrite Forall_forall in *. intros t Ht. apply sealed_proper; auto. }
    assert (P2 : Forall proper_box (map tg_bbox (me_tris m2))).
    { rewrite Forall_map. rewrite Forall_forall in *. intros t Ht. apply sealed_proper; auto. }
    destruct (query_filter m1 q B1 N1 Hne P1 Hq) as (r1 & E1 & R1).
    destruct (query_filter m2 q B2 N2 Hne2 P2 Hq) as (r2 & E2 & R2).
    exists r1, r2. split; auto. split; auto.
    rewrite (Permutation_map content R1), (Permutation_map content R2).
    assert (HF : forall l, Forall sealed l ->
       map content (filter (fun t => intersects (tg_bbox t) q) l) =
       filter (fun c => intersects (bbox_of (fst c)) q) (map content l)).
    { induction l as [|t l IH]; cbn; intros HS; auto. inversion HS; subst.
      rewrite sealed_intersects by auto. destruct (intersects (bbox_of (tg_tri t)) q); cbn; rewrite IH; auto. }
    rewrite !HF by auto. now apply filter_perm.
  Qed.

  (** A NaN in the first triangle makes every query empty. *)
  Lemma merge_fold_nan : forall (bs : list (aabb K)) mn mx, ~ isnum (vx mn) ->
    ~ isnum (vx (fst (fold_left merge_step bs (mn, mx)))).
  Proof.
    induction bs as [|b bs IH]; intros mn mx H; cbn [fold_left]; auto.
    cbn [merge_step]. apply IH. cbn.
    destruct (nlt (vx (bmin b)) (vx mn)) eqn:E; auto.
    apply ord_lt_num in E. tauto.
  Qed.
  Lemma nan_not_le : forall x y : K, ~ isnum x -> nle x y = false.
  Proof. intros x y H. destruct (nle x y) eqn:E; auto. apply ord_le_num in E. tauto. Qed.
  Lemma nan_not_le_r : forall x y : K, ~ isnum y -> nle x y = false.
  Proof. intros x y H. destruct (nle x y) eqn:E; auto. apply ord_le_num in E. tauto. Qed.

  Lemma nan_first_hides : forall t1 t2 ts (q : aabb K) m, sealed t1 ->
    ~ isnum (vx (tv0 (tg_tri t1))) ->
    mesh_of_triangles (t1 :: t2 :: ts) = Ret m ->
    mesh_intersection m q = Ret [].
  Proof.
    intros t1 t2 ts q m HS Hnan HM. unfold mesh_of_triangles, mesh_build in HM. cbn [me_tris] in HM.
    set (boxes := map tg_bbox (t1 :: t2 :: ts)) in *.
    assert (H2 : 2 <= length boxes) by (cbn; lia).
    destruct (split_step boxes H2) as (neg & pos & E & _ & _ & _ & Ln & Lp & _).
    unfold build in HM. rewrite (build_step (length boxes) boxes neg pos H2 E) in HM.
    destruct (build_fuel_spec (length boxes) neg Ln) as (tn & En & _).
    destruct (build_fuel_spec (length boxes) pos Lp) as (tp & Ep & _).
    rewrite En in HM. cbn [obind] in HM. rewrite Ep in HM. cbn [obind] in HM. inversion HM; subst m.
    unfold mesh_intersection. rewrite build_one. cbn [obind me_tree].
    unfold tree_intersection. cbn [tsize]. rewrite Nat.add_succ_l. cbn [tinter_fuel tbox].
    assert (HI : intersects q (aabb_of_boxes boxes) = false).
    { assert (HNx : ~ isnum (vx (bmin (aabb_of_boxes boxes)))).
      { unfold aabb_of_boxes. cbn [update_max_min bmin vx].
        assert (HM2 : ~ isnum (vx (fst (merged boxes)))).
        { unfold boxes. cbn [map merged]. apply merge_fold_nan.
          destruct HS as [-> _]. cbn.
          unfold nmin. destruct (nlt _ (vx (tv0 (tg_tri t1)))) eqn:EL; auto.
          apply ord_lt_num in EL. tauto. }
        unfold swap_min. destruct (nlt _ _) eqn:EL; auto.
        apply ord_lt_num in EL. tauto. }
      unfold intersects. rewrite (nan_not_le _ _ HNx). rewrite !andb_false_r. reflexivity. }
    rewrite HI. reflexivity.
  Qed.
End QueryOrd.
