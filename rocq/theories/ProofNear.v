(** * The distance queries on a tree. *)
From Coq Require Import ZArith Bool List Permutation Reals Lra Lia.
From Verif Require Import Base Num Vec Aabb Tree NearTree Geom Acme ER SpecGeom SpecTree SpecMesh SpecAcme SpecNear.
From Verif Require Import ProofTree ProofGeom ProofInt ProofBox.
Import ListNotations.
Local Open Scope R_scope.

(** ** Boxes with real corners stay so in the tree. *)
Definition fin_box (b : aabb er) : Prop := exists lo hi, bmin b = fv lo /\ bmax b = fv hi.
Inductive tall (P : aabb er -> Prop) : tree er -> Prop :=
| tall_leaf : forall b, P b -> tall P (Tree (Some b) [])
| tall_node : forall b l r, P b -> tall P l -> tall P r -> tall P (Tree (Some b) [l; r]).

Lemma merge_fin : forall bs lo hi, Forall fin_box bs ->
  exists lo' hi', fold_left merge_step bs (fv lo, fv hi) = (fv lo', fv hi').
Proof.
  induction bs as [|b bs IH]; intros lo hi H; [now exists lo, hi|].
  inversion H as [|? ? (l & h & E1 & E2) H']; subst. cbn [fold_left]. unfold merge_step at 2. cbn [fst snd].
  rewrite E1, E2.
  assert (S : forall (c : bool) (x y : R), exists z, (if c then Fin x else Fin y) = Fin z)
    by (intros [] x y; eauto).
  cbn [fv vx vy vz].
  repeat match goal with
  | |- context [if ?c then Fin ?x else Fin ?y] =>
    let z := fresh "z" in let E := fresh "E" in destruct (S c x y) as [z E]; rewrite E; clear E
  end.
  match goal with |- context [(V (Fin ?a) (Fin ?b) (Fin ?c), V (Fin ?d) (Fin ?e) (Fin ?f))] =>
    exact (IH (V a b c) (V d e f) H') end.
Qed.
Lemma boxes_fin : forall boxes, boxes <> [] -> Forall fin_box boxes -> fin_box (aabb_of_boxes boxes).
Proof.
  intros [|b bs] Hne H; [congruence|]. inversion H as [|? ? (l & h & E1 & E2) H']; subst.
  unfold aabb_of_boxes, merged. rewrite E1, E2. destruct (merge_fin bs l h H') as (lo & hi & E). rewrite E.
  unfold update_max_min, swap_min, swap_max. cbn [fst snd bmin bmax bid fv vx vy vz].
  assert (S : forall (c : bool) (x y : R), exists z, (if c then Fin x else Fin y) = Fin z)
    by (intros [] x y; eauto).
  repeat match goal with
  | |- context [if ?c then Fin ?x else Fin ?y] =>
    let z := fresh "z" in let E := fresh "E" in destruct (S c x y) as [z E]; rewrite E; clear E
  end.
  match goal with |- context [Box (V (Fin ?a) (Fin ?b) (Fin ?c)) (V (Fin ?d) (Fin ?e) (Fin ?f)) _] =>
    exists (V a b c), (V d e f) end. now split.
Qed.
Lemma build_fuel_fin : forall fuel boxes t, boxes <> [] -> (length boxes < fuel)%nat ->
  Forall fin_box boxes -> build_fuel fuel boxes = Ret t -> tall fin_box t.
Proof.
  induction fuel as [|fuel IH]; [lia|]. intros boxes t Hne Hl HF HB.
  destruct (Nat.le_gt_cases 2 (length boxes)) as [H2|H2].
  - destruct (split_step boxes H2) as (neg & pos & E & HP & Hn & Hp & Ln & Lp & LL).
    rewrite (build_step fuel boxes neg pos H2 E) in HB.
    destruct (build_fuel_spec fuel neg) as (tn & En & Pn & _ & Nn); [lia|].
    destruct (build_fuel_spec fuel pos) as (tp & Ep & Pp & _ & Np); [lia|].
    destruct (Nn Hn) as [Bn _]. destruct (Np Hp) as [Bp _].
    rewrite En in HB. cbn [obind] in HB. rewrite Ep in HB. cbn [obind] in HB.
    rewrite !leaves_binary_nonempty in HB by auto. inversion HB; subst.
    assert (HF2 : Forall fin_box (neg ++ pos))
      by (eapply Permutation_Forall; [symmetry; exact HP|exact HF]).
    apply Forall_app in HF2. destruct HF2. constructor.
    + now apply boxes_fin.
    + apply (IH neg tn); auto. lia.
    + apply (IH pos tp); auto. lia.
  - destruct boxes as [|b1 [|b2 bs]]; [congruence| |cbn in H2; lia].
    cbn in HB. inversion HB; subst. constructor. now inversion HF.
Qed.

(** ** The distances of a box. *)
Lemma thick_fin : forall b, thick_box b -> fin_box b.
Proof. intros b (lo & hi & id & -> & _). now exists lo, hi. Qed.
Lemma thick_proper : forall b, thick_box b -> proper_box b.
Proof.
  intros b (lo & hi & id & -> & H1 & H2 & H3). unfold proper_box, fbox, fv. cbn.
  repeat split; apply rleb_true; lra.
Qed.
Lemma in_fbox : forall lo hi id q, in_box (fv q) (fbox lo hi id) <-> within lo hi q.
Proof.
  intros lo hi id q. unfold in_box, within, fbox, fv. cbn [bmin bmax vx vy vz nle ER_Num eleb].
  rewrite !rleb_true. tauto.
Qed.
Lemma covers_thick : forall b c, fin_box b -> thick_box c -> covers b c -> thick_box b.
Proof.
  intros [mn mx id] c (lo & hi & E1 & E2) (l & h & i & -> & H1 & H2 & H3) [(A1 & A2 & A3) (B1 & B2 & B3)].
  cbn [bmin bmax] in *. subst. unfold fbox, fv in *. cbn in *. rewrite rleb_true in *.
  exists lo, hi, id. repeat split; lra.
Qed.
Lemma covers_in : forall b c q, covers b c -> in_box q c -> in_box q b.
Proof.
  intros b c q [(A1 & A2 & A3) (B1 & B2 & B3)] (Q1 & Q2 & Q3 & Q4 & Q5 & Q6).
  unfold in_box. repeat split; eapply ord_trans; eassumption.
Qed.
Lemma near_exists : forall b p, thick_box b -> exists d, center_distance b (fv p) = Fin d /\
  (exists q, in_box (fv q) b /\ dist p q = d) /\ forall q, in_box (fv q) b -> d <= dist p q.
Proof.
  intros b p (lo & hi & id & -> & H1 & H2 & H3).
  destruct (center_distance_exact lo hi id p H1 H2 H3) as (d & E & (q & Q & D) & L).
  exists d. split; [exact E|]. split; [exists q; split; auto; now apply in_fbox|].
  intros x Hx. apply L. now apply in_fbox in Hx.
Qed.
Lemma far_exists : forall b p, thick_box b -> exists d, exterior_distance b (fv p) = Fin d /\ farthest_at p b d.
Proof.
  intros b p (lo & hi & id & -> & H1 & H2 & H3).
  destruct (exterior_distance_exact lo hi id p) as (d & E & (q & Q & D) & L); try lra.
  exists d. split; [exact E|]. split; [exists q; split; auto; now apply in_fbox|].
  intros x Hx. apply L. now apply in_fbox in Hx.
Qed.

(** ** Walking the tree. *)
Inductive good : tree er -> Prop :=
| good_leaf : forall b, thick_box b -> good (Tree (Some b) [])
| good_node : forall b l r, thick_box b -> good l -> good r ->
    Forall (covers b) (leaves l ++ leaves r) -> good (Tree (Some b) [l; r]).

Lemma good_leaves : forall t, good t -> Forall thick_box (leaves t) /\ leaves t <> [].
Proof.
  intros t H. induction H as [b Hb|b l r Hb Hl [IHl Nl] Hr [IHr Nr] HC]; cbn.
  - split; [now repeat constructor|congruence].
  - rewrite app_nil_r. split; [now apply Forall_app|]. destruct (leaves l); [congruence|discriminate].
Qed.
Lemma good_of : forall t, wf t -> tall fin_box t -> Forall thick_box (leaves t) -> good t.
Proof.
  intros t H. induction H as [b Hb|b l r Hl IHl Hr IHr HC]; intros HT HF.
  - constructor. cbn in HF. now inversion HF.
  - inversion HT; subst. cbn in HF. rewrite app_nil_r in HF. apply Forall_app in HF as [F1 F2].
    assert (Gl : good l) by auto. assert (Gr : good r) by auto.
    constructor; auto. destruct (good_leaves l Gl) as [_ N]. destruct (leaves l) as [|c cs]; [congruence|].
    inversion F1; subst. inversion HC; subst. eapply covers_thick; eauto.
Qed.
Lemma build_good : forall boxes t, boxes <> [] -> Forall thick_box boxes -> build boxes = Ret t ->
  good t /\ Permutation (leaves t) boxes.
Proof.
  intros boxes t Hne HF HB. destruct (build_spec boxes) as (t' & E & P & _). rewrite HB in E.
  injection E as <-. split; [|exact P]. apply good_of.
  - eapply build_wf; eauto. eapply Forall_impl; [|exact HF]. exact thick_proper.
  - eapply build_fuel_fin; [exact Hne| |eapply Forall_impl; [|exact HF]; exact thick_fin|exact HB]. lia.
  - eapply Permutation_Forall; [symmetry; exact P|exact HF].
Qed.

Lemma covers_near : forall b c p, thick_box b -> thick_box c -> covers b c ->
  nle (center_distance b (fv p)) (center_distance c (fv p)) = true.
Proof.
  intros b c p Hb Hc HC. destruct (near_exists b p Hb) as (d & -> & _ & L).
  destruct (near_exists c p Hc) as (e & -> & (q & Q & <-) & _). cbn. apply rleb_true. apply L.
  eapply covers_in; eauto.
Qed.
Lemma near_far : forall b p, thick_box b ->
  nle (center_distance b (fv p)) (exterior_distance b (fv p)) = true.
Proof.
  intros b p Hb. destruct (near_exists b p Hb) as (d & -> & (q & Q & <-) & _).
  destruct (far_exists b p Hb) as (e & -> & _ & L). cbn. apply rleb_true. now apply L.
Qed.

Definition keep (p : pt) (d : er) (b : aabb er) : bool := nle (center_distance b (fv p)) d.
Lemma filter_none : forall A (f : A -> bool) l, (forall a, In a l -> f a = false) -> filter f l = [].
Proof.
  intros A f. induction l as [|a l IH]; intros H; cbn; auto. rewrite (H a) by (now left). apply IH.
  intros x Hx. apply H. now right.
Qed.
Lemma perm_filter : forall A (f : A -> bool) l l', Permutation l l' -> Permutation (filter f l) (filter f l').
Proof.
  intros A f l l' P. induction P as [|x l l' P IH|x y l|l l' l'' P1 IH1 P2 IH2]; cbn [filter].
  - constructor.
  - destruct (f x); [now constructor|exact IH].
  - destruct (f x), (f y); try reflexivity. constructor.
  - etransitivity; eauto.
Qed.
Lemma select_less_filter : forall p d t, good t -> select_less (fv p) d t = Ret (filter (keep p d) (leaves t)).
Proof.
  intros p d t H. induction H as [b Hb|b l r Hb Hl IHl Hr IHr HC].
  - cbn [select_less leaves filter]. unfold keep. now destruct (nle _ _).
  - cbn [select_less]. destruct (nle (center_distance b (fv p)) d) eqn:E.
    + cbn [map oconcat]. rewrite IHl, IHr. cbn [obind oconcat leaves flat_map].
      rewrite !app_nil_r. now rewrite filter_app.
    + rewrite filter_none; [reflexivity|]. intros c Hc. unfold keep.
      cbn [leaves flat_map] in Hc. rewrite app_nil_r in Hc.
      destruct (nle (center_distance c (fv p)) d) eqn:E2; auto. rewrite <- E. symmetry.
      eapply ord_trans; [|exact E2]. apply covers_near; auto.
      * destruct (good_leaves l Hl) as [F1 _]. destruct (good_leaves r Hr) as [F2 _].
        assert (F : Forall thick_box (leaves l ++ leaves r)) by (now apply Forall_app).
        rewrite Forall_forall in F. now apply F.
      * rewrite Forall_forall in HC. now apply HC.
Qed.

Lemma min_exterior_spec : forall p t d, good t -> nle (Fin 0) d = true ->
  exists e, min_exterior (fv p) t d = Ret e /\ nle e d = true /\
    (e = d \/ exists b, In b (leaves t) /\ e = exterior_distance b (fv p)) /\
    forall b, In b (leaves t) -> nle e (exterior_distance b (fv p)) = true.
Proof.
  intros p t d H. revert d. induction H as [b Hb|b l r Hb Hl IHl Hr IHr HC]; intros d Hd.
  - cbn [min_exterior]. destruct (far_exists b p Hb) as (f & E & _). rewrite E.
    assert (N1 : isnum (Fin f)) by (unfold isnum; cbn; apply rleb_true; lra).
    assert (N2 : isnum d) by (eapply nle_num_r; eauto).
    unfold nmin. destruct (nlt d (Fin f)) eqn:L; eexists; (split; [reflexivity|]).
    + split; [exact N2|]. split; [now left|]. intros c [<-|[]]. rewrite E. now apply lt_le.
    + split; [now apply not_lt_le|]. split; [right; exists b; cbn; auto|]. intros c [<-|[]]. now rewrite E.
  - assert (F : Forall thick_box (leaves l ++ leaves r)).
    { destruct (good_leaves l Hl) as [F1 _]. destruct (good_leaves r Hr) as [F2 _]. now apply Forall_app. }
    rewrite Forall_forall in F, HC.
    assert (N2 : isnum d) by (eapply nle_num_r; eauto).
    cbn [min_exterior leaves flat_map]. rewrite app_nil_r.
    destruct (nlt d (center_distance b (fv p))) eqn:L.
    + exists d. split; [reflexivity|]. split; [exact N2|]. split; [now left|]. intros c Hc.
      destruct (near_exists b p Hb) as (f & E & _).
      apply ord_trans with (center_distance b (fv p)).
      { now apply lt_le. }
      apply ord_trans with (center_distance c (fv p)); [apply covers_near; auto|apply near_far; auto].
    + destruct (IHl d Hd) as (e1 & E1 & L1 & O1 & A1). rewrite E1. cbn [obind].
      assert (P1 : nle (Fin 0) e1 = true).
      { destruct O1 as [->|(c & Hc & ->)]; auto.
        destruct (far_exists c p) as (f & -> & (y & _ & <-) & _); [apply F; apply in_or_app; auto|].
        cbn. apply rleb_true. apply sqrt_pos. }
      destruct (IHr e1 P1) as (e2 & E2 & L2 & O2 & A2). rewrite E2. cbn [obind].
      exists e2. split; [reflexivity|]. split; [eapply ord_trans; eauto|]. split.
      * destruct O2 as [->|(c & Hc & ->)].
        -- destruct O1 as [->|(c & Hc & ->)]; [now left|]. right. exists c. split; auto. apply in_or_app; auto.
        -- right. exists c. split; auto. apply in_or_app; auto.
      * intros c Hc. apply in_app_or in Hc as [Hc|Hc]; [|auto]. eapply ord_trans; eauto.
Qed.

(** ** The queries on a built tree. *)
Section Query.
  Variables (boxes : list (aabb er)) (t : tree er) (p : pt).
  Hypothesis Hne : boxes <> [].
  Hypothesis HF : Forall thick_box boxes.
  Hypothesis HB : build boxes = Ret t.

  Lemma least_far : exists d, min_exterior (fv p) t ninf = Ret (Fin d) /\
    (exists b, In b boxes /\ farthest_at p b d) /\
    (forall b, In b boxes -> exists y, in_box (fv y) b /\ d <= dist p y).
  Proof.
    destruct (build_good boxes t Hne HF HB) as [G P].
    destruct (min_exterior_spec p t ninf G) as (e & E & _ & O & A); [reflexivity|].
    destruct (good_leaves t G) as [F N]. rewrite Forall_forall in F.
    assert (X : exists b, In b (leaves t) /\ e = exterior_distance b (fv p)).
    { destruct O as [->|O]; auto. destruct (leaves t) as [|b bs]; [congruence|].
      assert (Hb : In b (b :: bs)) by (now left). specialize (A b Hb).
      destruct (far_exists b p (F b Hb)) as (f & Ef & _). rewrite Ef in A. discriminate. }
    destruct X as (b & Hb & Eb). destruct (far_exists b p (F b Hb)) as (d & Ed & Fd). rewrite Ed in Eb. subst e.
    exists d. split; [exact E|]. split.
    - exists b. split; auto. now apply (Permutation_in _ P).
    - intros c Hc. apply (Permutation_in _ (Permutation_sym P)) in Hc. specialize (A c Hc).
      destruct (far_exists c p (F c Hc)) as (f & Ef & (y & Hy & <-) & _). rewrite Ef in A. cbn in A.
      apply rleb_true in A. eauto.
  Qed.

  Lemma within_distance : forall d, exists l, select_less (fv p) (Fin d) t = Ret l /\
    exactly (reaches p d) boxes l.
  Proof.
    intros d. destruct (build_good boxes t Hne HF HB) as [G P].
    eexists. split; [now apply select_less_filter|]. exists (keep p (Fin d)). split.
    - intros b Hb. rewrite Forall_forall in HF. destruct (near_exists b p (HF b Hb)) as (e & E & (q & Q & D) & L).
      unfold keep. rewrite E. cbn. rewrite rleb_true. split.
      + intros H. exists q. split; auto. lra.
      + intros (x & Hx & H). specialize (L x Hx). lra.
    - now apply perm_filter.
  Qed.

  Lemma candidates : exists l, select_minimum (fv p) t = Ret l /\ exactly (may_be_nearest p boxes) boxes l.
  Proof.
    destruct least_far as (d & E & (b0 & Hb0 & (y0 & Y0 & D0) & F0) & A).
    destruct (within_distance d) as (l & El & k & Hk & Hl).
    exists l. unfold select_minimum. rewrite E. cbn [obind]. split; [exact El|].
    exists k. split; [|exact Hl]. intros b Hb. rewrite (Hk b Hb). split.
    - intros (x & Hx & Dx) b' Hb'. destruct (A b' Hb') as (y & Hy & Dy). exists x, y. split; auto. split; auto. lra.
    - intros H. destruct (H b0 Hb0) as (x & y & Hx & Hy & Dxy). exists x. split; auto. specialize (F0 y Hy). lra.
  Qed.

  Lemma nearest_kept : forall (obj : aabb er -> pt -> Prop) b x l,
    (forall b', In b' boxes -> (exists y, obj b' y) /\ forall y, obj b' y -> in_box (fv y) b') ->
    In b boxes -> obj b x -> (forall b' y, In b' boxes -> obj b' y -> dist p x <= dist p y) ->
    select_minimum (fv p) t = Ret l -> In b l.
  Proof.
    intros obj b x l HO Hb Hx HN HS. destruct candidates as (l' & E & k & Hk & Hl). rewrite HS in E.
    injection E as <-. apply (Permutation_in _ (Permutation_sym Hl)). apply filter_In. split; auto.
    apply Hk; auto. intros b' Hb'. destruct (HO b' Hb') as [[y Hy] HI]. exists x, y.
    split; [apply (HO b Hb); auto|]. split; auto. eapply HN; eauto.
  Qed.
End Query.

(** ** Flat boxes and empty trees. *)
Lemma select_less_sound : forall K (NK : Num K) (q : vec3 K) d t l b,
  select_less q d t = Ret l -> In b l -> nle (center_distance b q) d = true.
Proof.
  intros K NK q d. fix IH 1. intros [[b|] cs] l c; cbn [select_less]; [|discriminate].
  destruct (nle (center_distance b q) d) eqn:E.
  - destruct cs as [|c1 cs].
    + intros H. injection H as <-. intros [<-|[]]. exact E.
    + generalize (c1 :: cs). clear c1 cs. intros cs. revert l.
      induction cs as [|c1 cs IHc]; intros l; cbn [map oconcat].
      * intros H. injection H as <-. intros [].
      * destruct (select_less q d c1) as [l1|e|] eqn:E1; cbn [obind]; try discriminate.
        destruct (oconcat _) as [l2|e|] eqn:E2; cbn [obind]; try discriminate.
        intros H. injection H as <-. intros H. apply in_app_or in H as [H|H].
        -- exact (IH c1 l1 c E1 H).
        -- exact (IHc l2 eq_refl H).
  - intros H. injection H as <-. intros [].
Qed.
Lemma flat_axis : forall h x, x <> h ->
  let m := (Fin h - Fin (/ 2 * (h + h)))%num in let s := nabs (#1 / m)%num in
  (nmax #0 (nabs (Fin x - Fin (/ 2 * (h + h))) * s - #1) / s)%num = Nan.
Proof.
  intros h x Hx. cbv zeta. push. replace (h - / 2 * (h + h)) with 0 by lra.
  cbn [nofZ ndiv ediv nabs eabs ER_Num]. replace (reqb 0 0) with true by (symmetry; now apply reqb_true).
  replace (reqb 1 0) with false by (symmetry; apply reqb_false; lra). cbn [eabs].
  set (y := Rabs (x - / 2 * (h + h))).
  assert (E : (Fin y * Inf false)%num = Inf false).
  { cbn [nmul ER_Num emul]. replace (reqb y 0) with false.
    2:{ symmetry. apply reqb_false. unfold y. apply Rabs_no_R0. lra. }
    replace (rltb y 0) with false; [reflexivity|]. symmetry. apply rltb_false. apply Rabs_pos. }
  rewrite E. reflexivity.
Qed.
Lemma nan_r : forall a : er, (a + Nan)%num = Nan.
Proof. now intros [x|[]|]. Qed.
Lemma flat_off_distance : forall lo hi id p, flat_off lo hi p -> center_distance (fbox lo hi id) (fv p) = Nan.
Proof.
  intros lo hi id p H. unfold center_distance, fbox. cbn [bmin bmax]. rewrite f_add. change (@nofZ er _ 2) with (Fin 2). rewrite f_div by lra.
  unfold vsub, fv, padd, pscale. cbn [vx vy vz].
  destruct H as [[E N]|[[E N]|[E N]]]; rewrite E in N |- *; rewrite flat_axis by exact N; cbn [nmul ER_Num emul];
    rewrite ?nan_r; reflexivity.
Qed.
Lemma flat_lost : forall lo hi id p d t l, flat_off lo hi p ->
  select_less (fv p) d t = Ret l -> ~ In (fbox lo hi id) l.
Proof.
  intros lo hi id p d t l H HS HI. pose proof (select_less_sound _ _ _ _ _ _ _ HS HI) as E.
  rewrite flat_off_distance in E by auto. discriminate.
Qed.
Lemma flat_lost_min : forall lo hi id p t l, flat_off lo hi p ->
  select_minimum (fv p) t = Ret l -> ~ In (fbox lo hi id) l.
Proof.
  intros lo hi id p t l H HS. unfold select_minimum in HS.
  destruct (min_exterior (fv p) t ninf) as [d|e|]; cbn [obind] in HS; try discriminate.
  eapply flat_lost; eauto.
Qed.
Lemma select_less_total : forall K (NK : Num K) (q : vec3 K) d t, binary t -> exists l, select_less q d t = Ret l.
Proof.
  intros K NK q d t H. induction H as [b|b l r Hl [x IHl] Hr [y IHr]]; cbn [select_less].
  - destruct (nle _ _); eauto.
  - destruct (nle _ _); [|eauto]. cbn [map oconcat]. rewrite IHl, IHr. cbn [obind]. eauto.
Qed.
Lemma min_exterior_total : forall K (NK : Num K) (q : vec3 K) t, binary t -> forall d, exists e, min_exterior q t d = Ret e.
Proof.
  intros K NK q t H. induction H as [b|b l r Hl IHl Hr IHr]; intros d; cbn [min_exterior].
  - eauto.
  - destruct (nlt _ _); [eauto|]. destruct (IHl d) as [e ->]. cbn [obind]. destruct (IHr e) as [f ->]. cbn [obind]. eauto.
Qed.
Lemma select_minimum_total : forall K (NK : Num K) (q : vec3 K) boxes t, boxes <> [] -> build boxes = Ret t ->
  exists l, select_minimum q t = Ret l.
Proof.
  intros K NK q boxes t Hne HB. destruct (build_spec boxes) as (t' & E & _ & _ & H). rewrite HB in E.
  injection E as <-. destruct (H Hne) as [B _]. unfold select_minimum.
  destruct (min_exterior_total K NK q t B ninf) as [e ->]. cbn [obind]. now apply select_less_total.
Qed.
(** Two boxes side by side; the first has no thickness. *)
Lemma flat_near_lost : forall lo hi id lo' hi' id' p, flat_off lo hi p ->
  exists t l, build [fbox lo hi id; fbox lo' hi' id'] = Ret t /\ select_minimum (fv p) t = Ret l /\
    ~ In (fbox lo hi id) l.
Proof.
  intros lo hi id lo' hi' id' p H.
  destruct (build_spec [fbox lo hi id; fbox lo' hi' id']) as (t & E & _).
  destruct (select_minimum_total er _ (fv p) [fbox lo hi id; fbox lo' hi' id'] t) as [l El]; [discriminate|exact E|].
  exists t, l. split; auto. split; auto. eapply flat_lost_min; eauto.
Qed.
