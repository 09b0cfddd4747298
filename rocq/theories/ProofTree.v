(** * Proofs about the AABB tree. *)
From Coq Require Import ZArith Bool List Lia Permutation.
From Verif Require Import Base Num Vec Aabb Tree SpecTree.
Import ListNotations.

(** ** Lists. *)
Section Lists.
  Context {A B C : Type}.

  Lemma filter_partition_perm : forall (p : A -> bool) (l : list A),
    Permutation (filter (fun c => negb (p c)) l ++ filter p l) l.
  Proof.
    intros p l. induction l as [|a l IH]; cbn; [constructor|].
    destruct (p a); cbn.
    - rewrite <- Permutation_middle. now constructor.
    - now constructor.
  Qed.

  Lemma filter_all_false : forall (p : A -> bool) (l : list A),
    (forall a, In a l -> p a = false) -> filter p l = [].
  Proof.
    intros p l. induction l as [|a l IH]; cbn; intros H; [reflexivity|].
    rewrite (H a) by auto. apply IH. auto.
  Qed.

  Lemma filter_perm : forall (p : A -> bool) (l l' : list A),
    Permutation l l' -> Permutation (filter p l) (filter p l').
  Proof.
    intros p l l' H. induction H; cbn.
    - constructor.
    - destruct (p x); auto.
    - destruct (p x), (p y); auto. constructor.
    - etransitivity; eauto.
  Qed.

  Lemma list_prod_app_l : forall (a b : list A) (c : list B),
    list_prod (a ++ b) c = list_prod a c ++ list_prod b c.
  Proof.
    intros a b c. induction a as [|x a IH]; cbn; [reflexivity|].
    now rewrite IH, app_assoc.
  Qed.

  Lemma list_prod_app_r : forall (a : list A) (b c : list B),
    Permutation (list_prod a (b ++ c)) (list_prod a b ++ list_prod a c).
  Proof.
    intros a b c. induction a as [|x a IH]; cbn; [constructor|].
    rewrite IH, map_app, <- !app_assoc. apply Permutation_app_head.
    rewrite !app_assoc. apply Permutation_app_tail. apply Permutation_app_comm.
  Qed.

  Lemma list_prod_nil_r : forall (a : list A), list_prod a (@nil B) = [].
  Proof. intros a. induction a; cbn; auto. Qed.

  Lemma list_prod_perm : forall (a a' : list A) (b b' : list B),
    Permutation a a' -> Permutation b b' -> Permutation (list_prod a b) (list_prod a' b').
  Proof.
    intros a a' b b' Ha Hb. transitivity (list_prod a' b).
    - clear Hb. induction Ha; cbn.
      + constructor.
      + now apply Permutation_app_head.
      + rewrite !app_assoc. apply Permutation_app_tail, Permutation_app_comm.
      + etransitivity; eauto.
    - clear Ha. induction a' as [|x a' IH]; cbn; [constructor|].
      apply Permutation_app; auto. now apply Permutation_map.
  Qed.
End Lists.

Section Flat.
  Context {A B C D : Type}.
  Lemma list_prod_flat_map_l : forall (f : C -> list A) (cs : list C) (b : list B),
    list_prod (flat_map f cs) b = flat_map (fun c => list_prod (f c) b) cs.
  Proof.
    intros f cs b. induction cs as [|c cs IH]; cbn; [reflexivity|].
    now rewrite list_prod_app_l, IH.
  Qed.
  Lemma list_prod_flat_map_r : forall (g : D -> list B) (ds : list D) (a : list A),
    Permutation (list_prod a (flat_map g ds)) (flat_map (fun d => list_prod a (g d)) ds).
  Proof.
    intros g ds a. induction ds as [|d ds IH]; cbn.
    - rewrite list_prod_nil_r. constructor.
    - rewrite list_prod_app_r. now apply Permutation_app_head.
  Qed.
  Lemma filter_flat_map : forall (p : A -> bool) (f : C -> list A) (cs : list C),
    filter p (flat_map f cs) = flat_map (fun c => filter p (f c)) cs.
  Proof.
    intros p f cs. induction cs as [|c cs IH]; cbn; [reflexivity|].
    now rewrite filter_app, IH.
  Qed.
  Lemma map_flat_map : forall (h : A -> B) (f : C -> list A) (cs : list C),
    map h (flat_map f cs) = flat_map (fun c => map h (f c)) cs.
  Proof.
    intros h f cs. induction cs as [|c cs IH]; cbn; [reflexivity|].
    now rewrite map_app, IH.
  Qed.
  Lemma flat_map_perm_ext : forall (f g : C -> list A) (cs : list C),
    (forall c, In c cs -> Permutation (f c) (g c)) ->
    Permutation (flat_map f cs) (flat_map g cs).
  Proof.
    intros f g cs. induction cs as [|c cs IH]; cbn; intros H; [constructor|].
    apply Permutation_app; auto.
  Qed.
End Flat.

(** ** Sequencing. *)
Section Seq.
  Context {A C : Type}.

  Lemma oconcat_map : forall (f : C -> outcome (list A)) (g : C -> list A) (cs : list C),
    (forall c, In c cs -> exists r, f c = Ret r /\ Permutation r (g c)) ->
    exists r, oconcat (map f cs) = Ret r /\ Permutation r (flat_map g cs).
  Proof.
    intros f g cs. induction cs as [|c cs IH]; cbn; intros H.
    - exists []. auto.
    - destruct (H c) as (r & E & P); auto. rewrite E. cbn.
      destruct IH as (r' & E' & P'); [auto|]. rewrite E'. cbn.
      exists (r ++ r'). split; auto. now apply Permutation_app.
  Qed.

  Lemma oconcat_app : forall (l1 l2 : list (outcome (list A))) r1 r2,
    oconcat l1 = Ret r1 -> oconcat l2 = Ret r2 -> oconcat (l1 ++ l2) = Ret (r1 ++ r2).
  Proof.
    induction l1 as [|x l1 IH]; cbn; intros l2 r1 r2 E1 E2.
    - inversion E1. now subst.
    - destruct x; try discriminate. cbn in *.
      destruct (oconcat l1) eqn:E; try discriminate. cbn in *.
      inversion E1; subst. rewrite (IH _ _ _ eq_refl E2). cbn.
      now rewrite app_assoc.
  Qed.

  Lemma oconcat_flat_map : forall {D} (f : C -> D -> outcome (list A)) (g : C -> D -> list A)
    (ds : list D) (cs : list C),
    (forall c d, In c cs -> In d ds -> exists r, f c d = Ret r /\ Permutation r (g c d)) ->
    exists r, oconcat (flat_map (fun c => map (f c) ds) cs) = Ret r /\
      Permutation r (flat_map (fun c => flat_map (g c) ds) cs).
  Proof.
    intros D f g ds cs. induction cs as [|c cs IH]; cbn; intros H.
    - exists []. auto.
    - destruct IH as (r' & E' & P'); [auto|].
      assert (HH : exists r, oconcat (map (f c) ds) = Ret r /\ Permutation r (flat_map (g c) ds)).
      { clear r' E' P'. assert (Hc : forall d, In d ds -> exists r, f c d = Ret r /\ Permutation r (g c d)) by auto.
        clear H. induction ds as [|d ds IHd]; cbn.
        - exists []. auto.
        - destruct (Hc d) as (r & E & P); [now left|]. rewrite E. cbn.
          destruct IHd as (r' & E' & P'); [intros; apply Hc; now right|]. rewrite E'. cbn.
          exists (r ++ r'). split; auto. now apply Permutation_app. }
      destruct HH as (r & E & P).
      exists (r ++ r'). split; [now apply oconcat_app|now apply Permutation_app].
  Qed.
End Seq.

(** ** Building: any number type. *)
Section Build.
  Context {K : Type} {NK : Num K}.

  Lemma rebalance_spec : forall neg pos : list (aabb K),
    let np := rebalance (neg, pos) in
    Permutation (fst np ++ snd np) (neg ++ pos) /\
    (2 <= length (neg ++ pos) ->
     1 <= length (fst np) /\ 1 <= length (snd np)).
  Proof.
    intros neg pos. unfold rebalance.
    assert (Hhalf : forall n, 2 <= n -> 1 <= Nat.div2 n /\ Nat.div2 n < n).
    { intros n Hn. destruct n as [|[|n]]; try lia. cbn.
      pose proof (Nat.div2_decr n n). lia. }
    destruct neg as [|x neg]; destruct pos as [|y pos]; cbn [fst snd app].
    - cbn. split; [constructor|lia].
    - split.
      + etransitivity; [apply Permutation_app_comm|]. now rewrite firstn_skipn.
      + intros H. rewrite firstn_length, skipn_length.
        pose proof (Hhalf _ H). lia.
    - rewrite app_nil_r. split.
      + rewrite firstn_skipn. reflexivity.
      + intros H. rewrite firstn_length, skipn_length.
        pose proof (Hhalf _ H). lia.
    - split; [reflexivity|cbn; rewrite app_length; cbn; lia].
  Qed.

  Lemma split_rebalance : forall b (boxes : list (aabb K)),
    let np := rebalance (split_boxes b boxes) in
    Permutation (fst np ++ snd np) boxes /\
    (2 <= length boxes -> 1 <= length (fst np) /\ 1 <= length (snd np) /\
                          length (fst np) + length (snd np) = length boxes).
  Proof.
    intros b boxes.
    assert (HE : exists P, split_boxes b boxes = (filter (fun c => negb (P c)) boxes, filter P boxes))
      by (unfold split_boxes; eexists; reflexivity).
    destruct HE as [P HE]. rewrite HE.
    destruct (rebalance_spec (filter (fun c => negb (P c)) boxes) (filter P boxes)) as [H1 H2].
    pose proof (filter_partition_perm P boxes) as HP.
    cbn zeta. split.
    - etransitivity; eauto.
    - intros Hl. apply Permutation_length in HP. apply Permutation_length in H1.
      rewrite !app_length in *. destruct H2 as [Ha Hb]; [lia|].
      split; [exact Ha|split; [exact Hb|]]. lia.
  Qed.

  Lemma leaves_binary_nonempty : forall t : tree K, binary t -> tis_empty t = false.
  Proof. intros t H. destruct H; reflexivity. Qed.

  Lemma build_step : forall fuel (boxes neg pos : list (aabb K)),
    2 <= length boxes ->
    rebalance (split_boxes (aabb_of_boxes boxes) boxes) = (neg, pos) ->
    build_fuel (S fuel) boxes =
      (let* tn := build_fuel fuel neg in
       let* tp := build_fuel fuel pos in
       Ret (Tree (Some (aabb_of_boxes boxes))
              ((if tis_empty tn then [] else [tn]) ++ (if tis_empty tp then [] else [tp])))).
  Proof.
    intros fuel boxes neg pos Hl E.
    destruct boxes as [|b1 [|b2 bs]]; [cbn in Hl; lia|cbn in Hl; lia|].
    cbn [build_fuel]. rewrite E. reflexivity.
  Qed.

  Lemma split_step : forall (boxes : list (aabb K)), 2 <= length boxes ->
    exists neg pos,
      rebalance (split_boxes (aabb_of_boxes boxes) boxes) = (neg, pos) /\
      Permutation (neg ++ pos) boxes /\ neg <> [] /\ pos <> [] /\
      length neg < length boxes /\ length pos < length boxes /\
      length neg + length pos = length boxes.
  Proof.
    intros boxes Hl.
    destruct (split_rebalance (aabb_of_boxes boxes) boxes) as [HP HL].
    destruct (rebalance (split_boxes (aabb_of_boxes boxes) boxes)) as [neg pos].
    cbn [fst snd] in *. destruct (HL Hl) as (H1 & H2 & H3).
    exists neg, pos. repeat split; auto; try lia.
    - intros ->. cbn in H1. lia.
    - intros ->. cbn in H2. lia.
  Qed.

  (** Size of the subtree and leaves: total, lossless, binary. *)
  Lemma build_fuel_spec : forall fuel (boxes : list (aabb K)),
    length boxes < fuel ->
    exists t, build_fuel fuel boxes = Ret t /\
      Permutation (leaves t) boxes /\
      (boxes = [] -> t = tempty) /\
      (boxes <> [] -> binary t /\ tsize t + 1 = 2 * length boxes).
  Proof.
    induction fuel as [|fuel IH]; [lia|].
    intros boxes Hl.
    destruct (Nat.le_gt_cases 2 (length boxes)) as [H2|H2].
    - destruct (split_step boxes H2) as (neg & pos & E & HP & Hn & Hp & Ln & Lp & LL).
      destruct (IH neg) as (tn & En & Pn & _ & Nn); [lia|].
      destruct (IH pos) as (tp & Ep & Pp & _ & Np); [lia|].
      destruct (Nn Hn) as [Bn Sn]. destruct (Np Hp) as [Bp Sp].
      rewrite (build_step fuel boxes neg pos H2 E).
      rewrite En. cbn [obind]. rewrite Ep. cbn [obind].
      rewrite !leaves_binary_nonempty by assumption. cbn [app].
      eexists. split; [reflexivity|]. split.
      { cbn [leaves flat_map]. rewrite app_nil_r. rewrite Pn, Pp. exact HP. }
      split.
      { intros ->. cbn in H2. lia. }
      intros _. split; [now constructor|].
      cbn [tsize map list_sum fold_right]. lia.
    - destruct boxes as [|b1 [|b2 bs]].
      + exists tempty. cbn. repeat split; auto; congruence.
      + exists (Tree (Some b1) []). cbn. repeat split; auto; try discriminate. constructor.
      + cbn in H2. lia.
  Qed.

  Lemma build_spec : forall boxes : list (aabb K),
    exists t, build boxes = Ret t /\
      Permutation (leaves t) boxes /\
      (boxes = [] -> t = tempty) /\
      (boxes <> [] -> binary t /\ tsize t + 1 = 2 * length boxes).
  Proof. intros boxes. apply build_fuel_spec. lia. Qed.
End Build.

(** ** Order. *)
Section Order.
  Context {K : Type} {NK : Num K} {OK : OrdNum K}.

  Lemma nle_num_l : forall x y : K, nle x y = true -> isnum x.
  Proof. intros x y H. apply (ord_le_num x y H). Qed.
  Lemma nle_num_r : forall x y : K, nle x y = true -> isnum y.
  Proof. intros x y H. apply (ord_le_num x y H). Qed.

  Lemma lt_le : forall x y : K, nlt x y = true -> nle x y = true.
  Proof.
    intros x y H. destruct (ord_lt_num _ _ H) as [Hx Hy].
    rewrite (ord_lt _ _ Hx Hy) in H. destruct (ord_total _ _ Hx Hy) as [|E]; auto.
    rewrite E in H. discriminate.
  Qed.
  Lemma not_lt_le : forall x y : K, isnum x -> isnum y -> nlt x y = false -> nle y x = true.
  Proof.
    intros x y Hx Hy H. rewrite (ord_lt _ _ Hx Hy) in H.
    destruct (nle y x); auto; discriminate.
  Qed.

  (** [if b < a then b else a]. *)
  Lemma pick_min : forall a b : K, isnum a -> isnum b ->
    nle (if nlt b a then b else a) a = true /\ nle (if nlt b a then b else a) b = true.
  Proof.
    intros a b Ha Hb. destruct (nlt b a) eqn:E.
    - split; [now apply lt_le|exact Hb].
    - split; [exact Ha|now apply not_lt_le].
  Qed.
  Lemma pick_max : forall a b : K, isnum a -> isnum b ->
    nle a (if nlt a b then b else a) = true /\ nle b (if nlt a b then b else a) = true.
  Proof.
    intros a b Ha Hb. destruct (nlt a b) eqn:E.
    - split; [now apply lt_le|exact Hb].
    - split; [exact Ha|now apply not_lt_le].
  Qed.

  Definition vle (a b : vec3 K) : Prop :=
    nle (vx a) (vx b) = true /\ nle (vy a) (vy b) = true /\ nle (vz a) (vz b) = true.

  Lemma vle_trans : forall a b c, vle a b -> vle b c -> vle a c.
  Proof.
    intros a b c (H1 & H2 & H3) (H4 & H5 & H6).
    repeat split; eapply ord_trans; eauto.
  Qed.

  Lemma vle_refl_l : forall a b, vle a b -> vle a a.
  Proof. intros a b (H1 & H2 & H3). repeat split; eapply nle_num_l; eauto. Qed.
  Lemma vle_refl_r : forall a b, vle a b -> vle b b.
  Proof. intros a b (H1 & H2 & H3). repeat split; eapply nle_num_r; eauto. Qed.

  (** Box inclusion by corners. *)
  Definition covers (big small : aabb K) : Prop :=
    vle (bmin big) (bmin small) /\ vle (bmax small) (bmax big).

  Lemma proper_vle : forall b : aabb K, proper_box b <-> vle (bmin b) (bmax b).
  Proof. intros b. reflexivity. Qed.

  Lemma merge_fold : forall (bs : list (aabb K)) mn mx,
    vle mn mx -> Forall proper_box bs ->
    let r := fold_left merge_step bs (mn, mx) in
    vle (fst r) mn /\ vle mx (snd r) /\
    Forall (fun b => vle (fst r) (bmin b) /\ vle (bmax b) (snd r)) bs.
  Proof.
    induction bs as [|c bs IH]; intros mn mx Hm HF; cbn.
    - repeat split; try constructor; try apply (vle_refl_l _ _ Hm); apply (vle_refl_r _ _ Hm).
    - inversion HF as [|? ? Hc HF']; subst.
      pose proof (vle_refl_l _ _ Hm) as (Ax & Ay & Az).
      pose proof (vle_refl_r _ _ Hm) as (Bx & By & Bz).
      apply proper_vle in Hc.
      pose proof (vle_refl_l _ _ Hc) as (Cx & Cy & Cz).
      pose proof (vle_refl_r _ _ Hc) as (Dx & Dy & Dz).
      set (mn' := V (if nlt (vx (bmin c)) (vx mn) then vx (bmin c) else vx mn)
                    (if nlt (vy (bmin c)) (vy mn) then vy (bmin c) else vy mn)
                    (if nlt (vz (bmin c)) (vz mn) then vz (bmin c) else vz mn)).
      set (mx' := V (if nlt (vx mx) (vx (bmax c)) then vx (bmax c) else vx mx)
                    (if nlt (vy mx) (vy (bmax c)) then vy (bmax c) else vy mx)
                    (if nlt (vz mx) (vz (bmax c)) then vz (bmax c) else vz mx)).
      assert (M1 : vle mn' mn) by (repeat split; cbn; apply pick_min; auto).
      assert (M2 : vle mn' (bmin c)) by (repeat split; cbn; apply pick_min; auto).
      assert (M3 : vle mx mx') by (repeat split; cbn; apply pick_max; auto).
      assert (M4 : vle (bmax c) mx') by (repeat split; cbn; apply pick_max; auto).
      destruct (IH mn' mx') as (R1 & R2 & R3); auto.
      { eapply vle_trans; [exact M1|]. eapply vle_trans; [exact Hm|exact M3]. }
      repeat split.
      all: try (eapply vle_trans; [exact R1|exact M1]).
      all: try (eapply vle_trans; [exact M3|exact R2]).
      constructor; auto. split.
      + eapply vle_trans; [exact R1|exact M2].
      + eapply vle_trans; [exact M4|exact R2].
  Qed.

  Lemma swap_noop : forall b : aabb K, proper_box b ->
    bmin (update_max_min b) = bmin b /\ bmax (update_max_min b) = bmax b.
  Proof.
    intros b (Hx & Hy & Hz). unfold update_max_min, swap_min, swap_max. cbn.
    assert (HH : forall x y : K, nle x y = true -> nlt y x = false).
    { intros x y H. destruct (ord_le_num _ _ H). rewrite ord_lt by auto. now rewrite H. }
    rewrite !HH by auto. destruct b as [[] [] ?]; cbn; auto.
  Qed.

  Lemma aabb_of_boxes_covers : forall boxes : list (aabb K),
    boxes <> [] -> Forall proper_box boxes ->
    proper_box (aabb_of_boxes boxes) /\ Forall (covers (aabb_of_boxes boxes)) boxes.
  Proof.
    intros boxes Hne HF. destruct boxes as [|b bs]; [congruence|].
    inversion HF as [|? ? Hb HF']; subst.
    unfold aabb_of_boxes, merged.
    destruct (merge_fold bs (bmin b) (bmax b) Hb HF') as (R1 & R2 & R3).
    cbn zeta in *.
    set (r := fold_left merge_step bs (bmin b, bmax b)) in *.
    assert (HP : proper_box (Box (fst r) (snd r) 0%Z)).
    { apply proper_vle. cbn. eapply vle_trans; [exact R1|]. eapply vle_trans; [exact Hb|exact R2]. }
    destruct (swap_noop _ HP) as [E1 E2].
    split.
    - unfold proper_box. rewrite E1, E2. exact HP.
    - assert (HC : forall c, (vle (fst r) (bmin c) /\ vle (bmax c) (snd r)) ->
                             covers (update_max_min (Box (fst r) (snd r) 0%Z)) c).
      { intros c [C1 C2]. unfold covers. rewrite E1, E2. cbn. auto. }
      constructor; [apply HC; auto|].
      eapply Forall_impl; [|exact R3]. auto.
  Qed.

  (** Search tree invariant: every node's box covers the leaves below. *)
  Inductive wf : tree K -> Prop :=
  | wf_leaf : forall b, proper_box b -> wf (Tree (Some b) [])
  | wf_node : forall b l r, wf l -> wf r ->
      Forall (covers b) (leaves l ++ leaves r) -> wf (Tree (Some b) [l; r]).

  Lemma build_fuel_wf : forall fuel (boxes : list (aabb K)) t,
    boxes <> [] -> length boxes < fuel -> Forall proper_box boxes ->
    build_fuel fuel boxes = Ret t -> wf t.
  Proof.
    induction fuel as [|fuel IH]; [lia|].
    intros boxes t Hne Hl HF HB.
    destruct (Nat.le_gt_cases 2 (length boxes)) as [H2|H2].
    - destruct (split_step boxes H2) as (neg & pos & E & HP & Hn & Hp & Ln & Lp & LL).
      rewrite (build_step fuel boxes neg pos H2 E) in HB.
      destruct (build_fuel_spec fuel neg) as (tn & En & Pn & _ & Nn); [lia|].
      destruct (build_fuel_spec fuel pos) as (tp & Ep & Pp & _ & Np); [lia|].
      destruct (Nn Hn) as [Bn _]. destruct (Np Hp) as [Bp _].
      rewrite En in HB. cbn [obind] in HB. rewrite Ep in HB. cbn [obind] in HB.
      rewrite !leaves_binary_nonempty in HB by auto. inversion HB; subst.
      assert (HF2 : Forall proper_box (neg ++ pos))
        by (eapply Permutation_Forall; [symmetry; exact HP|exact HF]).
      apply Forall_app in HF2. destruct HF2.
      constructor.
      + apply (IH neg tn); auto. lia.
      + apply (IH pos tp); auto. lia.
      + destruct (aabb_of_boxes_covers boxes) as [_ HC]; [exact Hne|exact HF|].
        eapply Permutation_Forall; [|exact HC].
        rewrite Pn, Pp. now symmetry.
    - destruct boxes as [|b1 [|b2 bs]]; [congruence| |cbn in H2; lia].
      cbn in HB. inversion HB; subst. constructor. now inversion HF.
  Qed.

  Lemma build_wf : forall (boxes : list (aabb K)) t,
    boxes <> [] -> Forall proper_box boxes -> build boxes = Ret t -> wf t.
  Proof. intros. eapply build_fuel_wf; eauto. Qed.

  Lemma wf_box : forall t, wf t ->
    exists b, tbox t = Some b /\ Forall (covers b) (leaves t).
  Proof.
    intros t H. destruct H as [b Hb|b l r Hl Hr HF].
    - exists b. split; auto. cbn. constructor; auto. split.
      + exact (vle_refl_l _ _ Hb).
      + exact (vle_refl_r _ _ Hb).
    - exists b. split; auto. cbn. now rewrite app_nil_r.
  Qed.

  Lemma intersects_spec : forall a b : aabb K,
    intersects a b = true <-> vle (bmin a) (bmax b) /\ vle (bmin b) (bmax a).
  Proof.
    intros a b. unfold intersects, vle. rewrite !andb_true_iff. tauto.
  Qed.
  Lemma intersects_sym : forall a b : aabb K, intersects a b = intersects b a.
  Proof.
    intros a b. apply eq_true_iff_eq. rewrite !intersects_spec. tauto.
  Qed.

  Lemma intersects_mono : forall a a' b b' : aabb K,
    covers a a' -> covers b b' -> intersects a' b' = true -> intersects a b = true.
  Proof.
    intros a a' b b' [A1 A2] [B1 B2]. rewrite !intersects_spec. intros [I1 I2].
    split.
    - eapply vle_trans; [exact A1|]. eapply vle_trans; [exact I1|exact B2].
    - eapply vle_trans; [exact B1|]. eapply vle_trans; [exact I2|exact A2].
  Qed.

  (** [intersects] on proper boxes is having a common point. *)
  Lemma intersects_overlap : forall a b : aabb K,
    proper_box a -> proper_box b -> (intersects a b = true <-> overlap a b).
  Proof.
    intros a b Ha Hb. rewrite intersects_spec.
    pose proof (vle_refl_l _ _ Ha) as (A1 & A2 & A3).
    pose proof (vle_refl_l _ _ Hb) as (B1 & B2 & B3).
    destruct Ha as (Ha1 & Ha2 & Ha3), Hb as (Hb1 & Hb2 & Hb3).
    split.
    - intros [(P1 & P2 & P3) (Q1 & Q2 & Q3)].
      set (mx := fun u v : K => if nlt u v then v else u).
      assert (HM : forall u v w : K, nle u w = true -> nle v w = true -> nle (mx u v) w = true).
      { intros u v w Hu Hv. unfold mx. now destruct (nlt u v). }
      exists (V (mx (vx (bmin a)) (vx (bmin b))) (mx (vy (bmin a)) (vy (bmin b)))
                (mx (vz (bmin a)) (vz (bmin b)))).
      unfold in_box; cbn.
      repeat split; try apply pick_max; auto.
    - intros [p [(I1 & I2 & I3 & I4 & I5 & I6) (J1 & J2 & J3 & J4 & J5 & J6)]].
      repeat split; eapply ord_trans; eauto.
  Qed.

  (** ** The two-tree recursion. *)
  Definition orient (swap : bool) (p : aabb K * aabb K) : aabb K * aabb K :=
    if swap then (snd p, fst p) else p.
  Definition hit (p : aabb K * aabb K) : bool := intersects (fst p) (snd p).
  Definition expected (swap : bool) (this t : tree K) : list (aabb K * aabb K) :=
    map (orient swap) (filter hit (list_prod (leaves this) (leaves t))).

  Lemma expected_swap : forall swap t c b, leaves t = [b] ->
    expected (negb swap) t c = expected swap c t.
  Proof.
    intros swap t c b Ht. unfold expected. rewrite Ht.
    generalize (leaves c) as l. induction l as [|y l IH]; [reflexivity|].
    cbn in *. rewrite app_nil_r in *.
    change (hit (b, y)) with (intersects b y). change (hit (y, b)) with (intersects y b).
    rewrite (intersects_sym b y). destruct (intersects y b); cbn.
    - f_equal; [destruct swap; reflexivity|apply IH].
    - apply IH.
  Qed.

  Lemma leaves_node : forall (b : option (aabb K)) l r,
    leaves (Tree b [l; r]) = flat_map leaves [l; r].
  Proof. intros [?|] ? ?; reflexivity. Qed.

  Lemma expected_children : forall swap (b1 b2 : option (aabb K)) l1 r1 l2 r2,
    Permutation
      (flat_map (fun c1 => flat_map (fun c2 => expected swap c1 c2) [l2; r2]) [l1; r1])
      (expected swap (Tree b1 [l1; r1]) (Tree b2 [l2; r2])).
  Proof.
    intros. unfold expected.
    pose proof leaves_node as HL.
    rewrite !HL.
    rewrite list_prod_flat_map_l, filter_flat_map, map_flat_map.
    apply flat_map_perm_ext. intros c1 _.
    rewrite <- map_flat_map. rewrite <- filter_flat_map.
    apply Permutation_map, filter_perm. symmetry. apply list_prod_flat_map_r.
  Qed.

  Lemma expected_children_l : forall swap (b1 : option (aabb K)) l1 r1 t,
    flat_map (fun c1 => expected swap c1 t) [l1; r1] = expected swap (Tree b1 [l1; r1]) t.
  Proof.
    intros. unfold expected.
    pose proof leaves_node as HL.
    rewrite HL, list_prod_flat_map_l, filter_flat_map, map_flat_map. reflexivity.
  Qed.

  Lemma expected_children_r : forall swap (b2 : option (aabb K)) l2 r2 t,
    Permutation (flat_map (fun c2 => expected swap t c2) [l2; r2])
                (expected swap t (Tree b2 [l2; r2])).
  Proof.
    intros. unfold expected.
    pose proof leaves_node as HL.
    rewrite HL. rewrite <- map_flat_map, <- filter_flat_map.
    apply Permutation_map, filter_perm. symmetry. apply list_prod_flat_map_r.
  Qed.

  Lemma expected_pruned : forall swap this t b1 b2,
    Forall (covers b1) (leaves this) -> Forall (covers b2) (leaves t) ->
    intersects b2 b1 = false -> expected swap this t = [].
  Proof.
    intros swap this t b1 b2 F1 F2 HI. unfold expected.
    rewrite filter_all_false; [reflexivity|].
    intros [x y] Hin. apply in_prod_iff in Hin. destruct Hin as [Hx Hy].
    rewrite Forall_forall in F1, F2. unfold hit. cbn.
    destruct (intersects x y) eqn:E; auto.
    rewrite intersects_sym in HI.
    rewrite (intersects_mono b1 x b2 y) in HI; auto.
  Qed.

  Lemma tinter_fuel_spec : forall fuel this t swap,
    wf this -> wf t -> tsize this + tsize t <= fuel ->
    exists r, tinter_fuel fuel this t swap = Ret r /\
      Permutation r (expected swap this t).
  Proof.
    induction fuel as [|fuel IH]; intros this t swap W1 W2 Hf.
    - destruct this; cbn in Hf; lia.
    - destruct (wf_box _ W1) as (b1 & E1 & F1).
      destruct (wf_box _ W2) as (b2 & E2 & F2).
      cbn [tinter_fuel]. rewrite E1, E2.
      destruct (intersects b2 b1) eqn:EI; cbn [negb].
      2:{ exists []. split; auto. erewrite expected_pruned; eauto. }
      destruct W1 as [x Hx|x l1 r1 Wl1 Wr1 FF1], W2 as [y Hy|y l2 r2 Wl2 Wr2 FF2];
        cbn in E1, E2; inversion E1; inversion E2; subst.
      + cbn. eexists. split; [reflexivity|].
        unfold expected. cbn. unfold hit. cbn. rewrite intersects_sym, EI.
        destruct swap; cbn; reflexivity.
      + cbn [tchildren].
        destruct (oconcat_map (fun c => tinter_fuel fuel (Tree (Some b1) []) c swap)
                    (fun c => expected swap (Tree (Some b1) []) c) [l2; r2]) as (r & E & P).
        { intros c [<-|[<-|[]]]; apply IH; auto; try (now constructor);
            cbn [tsize map list_sum fold_right] in *; lia. }
        exists r. split; [exact E|]. rewrite P. apply expected_children_r.
      + cbn [tchildren].
        destruct (oconcat_map (fun c => tinter_fuel fuel (Tree (Some b2) []) c (negb swap))
                    (fun c => expected swap c (Tree (Some b2) [])) [l1; r1]) as (r & E & P).
        { intros c [<-|[<-|[]]].
          all: erewrite <- expected_swap by reflexivity.
          all: apply IH; auto; try (now constructor);
            cbn [tsize map list_sum fold_right] in *; lia. }
        exists r. split; [exact E|]. rewrite P. now rewrite <- expected_children_l.
      + cbn [tchildren].
        destruct (oconcat_flat_map (fun c1 c2 => tinter_fuel fuel c1 c2 swap)
                    (fun c1 c2 => expected swap c1 c2) [l2; r2] [l1; r1]) as (r & E & P).
        { intros c d [<-|[<-|[]]] [<-|[<-|[]]]; apply IH; auto;
            cbn [tsize map list_sum fold_right] in *; lia. }
        exists r. split; [exact E|]. rewrite P. apply expected_children.
  Qed.

  Lemma tree_intersection_spec : forall this t, wf this -> wf t ->
    exists r, tree_intersection this t = Ret r /\
      Permutation r (filter hit (list_prod (leaves this) (leaves t))).
  Proof.
    intros this t W1 W2.
    destruct (tinter_fuel_spec (tsize this + tsize t) this t false W1 W2) as (r & E & P); [lia|].
    exists r. split; auto. rewrite P. unfold expected, orient. now rewrite map_id.
  Qed.

  (** ** Collision. *)
  Definition coll (f : aabb K -> aabb K -> bool) (swap : bool) (this t : tree K) : bool :=
    existsb (fun p => if swap then f (snd p) (fst p) else f (fst p) (snd p))
      (filter hit (list_prod (leaves this) (leaves t))).

  Lemma oexists_map : forall {C} (g : C -> bool) (h : C -> unit -> outcome bool) (cs : list C),
    (forall c, In c cs -> h c tt = Ret (g c)) ->
    oexists (map h cs) = Ret (existsb g cs).
  Proof.
    intros C g h cs. induction cs as [|c cs IH]; cbn; intros H; [reflexivity|].
    rewrite (H c) by auto. cbn. destruct (g c); cbn; auto.
  Qed.

  Lemma oexists_app : forall l1 l2 b1 b2,
    oexists l1 = Ret b1 -> oexists l2 = Ret b2 -> oexists (l1 ++ l2) = Ret (b1 || b2).
  Proof.
    induction l1 as [|x l1 IH]; cbn; intros l2 b1 b2 E1 E2.
    - inversion E1; subst. now rewrite E2.
    - destruct (x tt) as [[]| |]; cbn in *; try discriminate.
      + inversion E1; subst. reflexivity.
      + now apply IH.
  Qed.

  Lemma existsb_perm : forall {A} (p : A -> bool) (l l' : list A),
    Permutation l l' -> existsb p l = existsb p l'.
  Proof.
    intros A p l l' H. apply eq_true_iff_eq. rewrite !existsb_exists.
    split; intros (x & Hx & Hp); exists x; split; auto.
    - eapply Permutation_in; eauto.
    - eapply Permutation_in; [symmetry|]; eauto.
  Qed.

  Lemma coll_expected : forall f swap this t,
    coll f swap this t = existsb (fun p => f (fst p) (snd p)) (expected swap this t).
  Proof.
    intros f swap this t. unfold coll, expected.
    generalize (filter hit (list_prod (leaves this) (leaves t))) as l.
    induction l as [|[a b] l IH]; cbn; [reflexivity|].
    rewrite IH. destruct swap; reflexivity.
  Qed.

  Lemma existsb_flat_map : forall {A C} (p : A -> bool) (f : C -> list A) cs,
    existsb p (flat_map f cs) = existsb (fun c => existsb p (f c)) cs.
  Proof.
    intros A C p f cs. induction cs as [|c cs IH]; cbn; [reflexivity|].
    now rewrite existsb_app, IH.
  Qed.

  Lemma tcoll_fuel_spec : forall f fuel this t swap,
    wf this -> wf t -> tsize this + tsize t <= fuel ->
    tcoll_fuel f fuel this t swap =
      Ret (existsb (fun p => f (fst p) (snd p)) (expected swap this t)).
  Proof.
    intros f. induction fuel as [|fuel IH]; intros this t swap W1 W2 Hf.
    - destruct this; cbn in Hf; lia.
    - destruct (wf_box _ W1) as (b1 & E1 & F1).
      destruct (wf_box _ W2) as (b2 & E2 & F2).
      cbn [tcoll_fuel]. rewrite E1, E2.
      destruct (intersects b2 b1) eqn:EI; cbn [negb].
      2:{ erewrite expected_pruned; eauto. }
      destruct W1 as [x Hx|x l1 r1 Wl1 Wr1 FF1], W2 as [y Hy|y l2 r2 Wl2 Wr2 FF2];
        cbn in E1, E2; inversion E1; inversion E2; subst.
      + cbn. f_equal. unfold expected. cbn. unfold hit. cbn. rewrite intersects_sym, EI.
        destruct swap; cbn; now rewrite orb_false_r.
      + cbn [tchildren].
        rewrite (oexists_map (fun c => existsb (fun p => f (fst p) (snd p))
                                         (expected swap (Tree (Some b1) []) c))).
        * f_equal. rewrite <- existsb_flat_map.
          apply existsb_perm. apply expected_children_r.
        * intros c [<-|[<-|[]]]; apply IH; auto; try (now constructor);
            cbn [tsize map list_sum fold_right] in *; lia.
      + cbn [tchildren].
        rewrite (oexists_map (fun c => existsb (fun p => f (fst p) (snd p))
                                         (expected swap c (Tree (Some b2) [])))).
        * f_equal. rewrite <- existsb_flat_map. now rewrite <- expected_children_l.
        * intros c [<-|[<-|[]]].
          all: erewrite <- expected_swap by reflexivity.
          all: apply IH; auto; try (now constructor);
            cbn [tsize map list_sum fold_right] in *; lia.
      + cbn [tchildren flat_map]. rewrite app_nil_r.
        assert (HH : forall c, In c [l1; r1] ->
          oexists (map (fun c2 _ => tcoll_fuel f fuel c c2 swap) [l2; r2]) =
          Ret (existsb (fun p => f (fst p) (snd p)) (flat_map (fun c2 => expected swap c c2) [l2; r2]))).
        { intros c Hc.
          rewrite (oexists_map (fun c2 => existsb (fun p => f (fst p) (snd p)) (expected swap c c2))).
          - now rewrite <- existsb_flat_map.
          - intros d Hd. destruct Hc as [<-|[<-|[]]], Hd as [<-|[<-|[]]]; apply IH; auto;
              cbn [tsize map list_sum fold_right] in *; lia. }
        rewrite (oexists_app _ _ _ _ (HH l1 (or_introl eq_refl))
                                     (HH r1 (or_intror (or_introl eq_refl)))).
        f_equal. rewrite <- existsb_app.
        apply existsb_perm. rewrite <- (expected_children swap (Some b1) (Some b2)).
        cbn [flat_map]. now rewrite !app_nil_r.
  Qed.

  Lemma tree_collision_spec : forall f this t, wf this -> wf t ->
    tree_collision f this t =
      Ret (existsb (fun p => f (fst p) (snd p)) (filter hit (list_prod (leaves this) (leaves t)))).
  Proof.
    intros f this t W1 W2. unfold tree_collision.
    rewrite tcoll_fuel_spec; auto. unfold expected, orient. now rewrite map_id.
  Qed.
End Order.
