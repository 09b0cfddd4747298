(** * The MATLAB classes: scripts. *)
From Coq Require Import ZArith Bool String List Lia Permutation.
From Verif Require Import Base Num Vec Aabb Geom Ground Shape Rib Str Mesh Shell Sfun Mex SpecMex
  ProofMex ProofMexB ProofMexC ProofMexD Matlab SpecMatlab ProofMatlab ProofMatlabB ProofMatlabC.
Import ListNotations.

Section Scripts.
  Context {K : Type} {NK : Num K}.
  Implicit Types (st : state K) (own orph : list tag).

  Definition addr (m : mx K) : Z := match m with MxInt _ _ _ (a :: _) => a | _ => 0%Z end.
  Definition tag_of (x : option (mobj K)) : list tag :=
    match x with Some o => [(addr (o_handle o), Some (o_class o))] | None => [] end.
  Definition tags_of (l : list (option (mobj K))) : list tag := flat_map tag_of l.
  Definition real (x : option (mobj K)) : Prop :=
    match x with Some o => exists a, o_handle o = mx_handle a | None => True end.

  Definition st_inv st orph : Prop :=
    Forall real (st_objs st) /\ inv (st_world st) (tags_of (st_objs st)) orph.

  Lemma object_nth st i o : object st i = Some o -> nth_error (st_objs st) i = Some (Some o).
  Proof. unfold object. destruct (nth_error _ i) as [[]|]; congruence. Qed.

  Lemma object_owned st i o : Forall real (st_objs st) -> object st i = Some o ->
    owned (tags_of (st_objs st)) o.
  Proof.
    intros Hr Ho. apply object_nth, nth_error_In in Ho. rewrite Forall_forall in Hr.
    destruct (Hr _ Ho) as (a & Ha). exists a. split; [easy|]. apply in_flat_map.
    exists (Some o). split; [easy|]. cbn. rewrite Ha. now left.
  Qed.

  Lemma resolve_ok st l vs : Forall real (st_objs st) -> resolve st l = Some vs ->
    Forall (arg_ok (tags_of (st_objs st))) vs.
  Proof.
    intros Hr. revert vs. induction l as [|v l IH]; cbn; intros vs H; [injection H as <-; constructor|].
    destruct (resolve st l) as [xs|] eqn:E; [|destruct v; try discriminate; now destruct (object st i)].
    destruct v as [m|i|p]; [| destruct (object st i) eqn:Eo; [|discriminate] |]; injection H as <-;
      constructor; auto; cbn; auto. now apply (object_owned st i).
  Qed.

  Lemma forget_perm st i o : object st i = Some o -> Forall real (st_objs st) ->
    Permutation (tags_of (st_objs st)) ((addr (o_handle o), Some (o_class o)) :: tags_of (forget (st_objs st) i)) /\
    Forall real (forget (st_objs st) i).
  Proof.
    intros Ho Hr. apply object_nth in Ho. revert i Ho. induction (st_objs st) as [|x l IH]; intros [|i] Ho;
      cbn in *; try discriminate; inversion Hr; subst.
    - injection Ho as ->. cbn. split; [easy|]. now constructor.
    - destruct (IH H2 i Ho) as [P Q]. split; [|now constructor].
      rewrite P. rewrite <- Permutation_middle. reflexivity.
  Qed.

  Lemma add_perm l (o : mobj K) :
    Permutation ((addr (o_handle o), Some (o_class o)) :: tags_of l) (tags_of (l ++ [Some o])).
  Proof. unfold tags_of. rewrite flat_map_app. cbn. apply Permutation_cons_append. Qed.

  (** What a statement or a script leaves. *)
  Definition leaves st orph (tr : trace K) st' (crash : Prop) : Prop :=
    Forall sound_call tr /\ (crash -> exists tr0 x, tr = tr0 ++ [x] /\ crashes x) /\
    (~ crash -> session (st_world st) (map snd tr) (st_world st') /\
       exists orph', st_inv st' orph' /\ List.length orph' = (List.length orph + abandoned_in tr)%nat).

  Lemma add_inv w l orph (o : mobj K) a : Forall real l ->
    o_handle o = mx_handle a -> inv w ((a, Some (o_class o)) :: tags_of l) orph ->
    st_inv (State w (l ++ [Some o])) orph.
  Proof.
    intros Hr Ha Hi. split; cbn.
    - apply Forall_app. split; [easy|]. constructor; [now exists a|constructor].
    - eapply inv_perm; [apply add_perm|]. now rewrite Ha.
  Qed.

  Lemma does_leaves e st s tr st' r orph : st_inv st orph -> does e st s tr st' r ->
    leaves st orph tr st' (r = Crash).
  Proof.
    intros [Hr Hi] H. unfold leaves. destruct H.
    - destruct (t_construct _ orph f vs _ _ _ _ _ Hi H0) as [T (own' & orph' & I' & L & C & a & Ha & ->)].
      split; [easy|]. split; [discriminate|]. intros _. split.
      + now apply (exec_session _ _ _ _ _ _ H0).
      + exists orph'. split; [|easy]. subst f. now apply (add_inv _ _ _ _ a).
    - destruct (t_construct _ orph f vs _ _ _ _ _ Hi H0) as [T (own' & orph' & I' & L & ->)].
      destruct (t_unmade (tags_of (st_objs st)) orph' f (fun _ own2 _ => own2 = tags_of (st_objs st)) (kept (tags_of (st_objs st))) eq_refl
        _ _ _ _ _ I' H1) as [T2 R].
      split; [apply Forall_app; now split|]. split; [discriminate|]. intros _. split.
      + rewrite map_app. eapply session_app; [now apply (exec_session _ _ _ _ _ _ H0)|].
        now apply (exec_session _ _ _ _ _ _ H1).
      + destruct r; [| |easy]; destruct R as (own2 & orph2 & I2 & L2 & ->); exists orph2;
          rewrite abandoned_app; (split; [now split|lia]).
    - destruct (t_construct _ orph f vs _ _ _ _ _ Hi H0) as [T (own' & orph' & I' & L & ->)].
      destruct (t_unmade (tags_of (st_objs st)) orph' f (fun _ own2 _ => own2 = tags_of (st_objs st)) (kept (tags_of (st_objs st))) eq_refl
        _ _ _ _ _ I' H1) as [T2 (t0 & x & -> & Hx)].
      split; [apply Forall_app; now split|]. split; [|easy]. intros _.
      exists (tr ++ t0), x. now rewrite app_assoc.
    - destruct (t_construct _ orph f vs _ _ _ _ _ Hi H0) as [T R]. split; [easy|]. split; easy.
    - split; [constructor|]. split; [discriminate|]. intros _. split; [constructor|].
      exists orph. split; [now split|]. cbn. lia.
    - destruct (good_invoke _ orph o name vs (object_owned _ _ _ Hr H) (resolve_ok _ _ _ Hr H0) _ _ _ _ _ Hi H1)
        as [T (own' & orph' & I' & L & R)].
      split; [easy|]. split; [discriminate|]. intros _. split; [now apply (exec_session _ _ _ _ _ _ H1)|].
      exists orph'. split; [|easy]. destruct r; cbn in R |- *; try (subst own'; now split).
      destruct R as (a & Ha & ->). now apply (add_inv _ _ _ _ a).
    - destruct (good_invoke _ orph o name vs (object_owned _ _ _ Hr H) (resolve_ok _ _ _ Hr H0) _ _ _ _ _ Hi H1)
        as [T (own' & orph' & I' & L & ->)].
      split; [easy|]. split; [discriminate|]. intros _. split; [now apply (exec_session _ _ _ _ _ _ H1)|].
      exists orph'. split; [now split|easy].
    - destruct (good_invoke _ orph o name vs (object_owned _ _ _ Hr H) (resolve_ok _ _ _ Hr H0) _ _ _ _ _ Hi H1)
        as [T R]. split; [easy|]. split; easy.
    - split; [constructor|]. split; [discriminate|]. intros _. split; [constructor|].
      exists orph. split; [now split|]. cbn. lia.
    - destruct (forget_perm st i o H Hr) as [P R']. destruct (object_owned _ _ _ Hr H) as (a & Ha & _).
      destruct o as [f h]. cbn in Ha. subst h. cbn in P.
      apply (inv_perm _ _ _ _ P) in Hi.
      destruct (t_destroy (tags_of (forget (st_objs st) i)) orph f a
        (fun _ own2 _ => own2 = tags_of (forget (st_objs st) i))
        (fun own2 _ => own2 = tags_of (forget (st_objs st) i)) eq_refl _ _ _ _ _ Hi H0) as [T R].
      split; [easy|]. split; [discriminate|]. intros _.
      split; [now apply (exec_session _ _ _ _ _ _ H0)|].
      destruct r; [| |easy]; destruct R as (own2 & orph2 & I2 & L2 & ->); exists orph2; (split; [now split|easy]).
    - destruct (forget_perm st i o H Hr) as [P R']. destruct (object_owned _ _ _ Hr H) as (a & Ha & _).
      destruct o as [f h]. cbn in Ha. subst h. cbn in P.
      apply (inv_perm _ _ _ _ P) in Hi.
      destruct (t_destroy (tags_of (forget (st_objs st) i)) orph f a
        (fun _ own2 _ => own2 = tags_of (forget (st_objs st) i))
        (fun own2 _ => own2 = tags_of (forget (st_objs st) i)) eq_refl _ _ _ _ _ Hi H0) as [T R].
      split; [easy|]. split; easy.
    - split; [constructor|]. split; [discriminate|]. intros _. split; [constructor|].
      exists orph. split; [now split|]. cbn. lia.
  Qed.

  Lemma script_leaves st l tr st' b orph : st_inv st orph -> script st l tr st' b ->
    leaves st orph tr st' (b = true).
  Proof.
    intros Hi H. revert orph Hi. induction H; intros orph Hi.
    - split; [constructor|]. split; [discriminate|]. intros _. split; [constructor|].
      exists orph. split; [easy|]. cbn. lia.
    - destruct (does_leaves _ _ _ _ _ _ _ Hi H) as (T & _ & N).
      destruct (N H0) as (S1 & orph1 & I1 & L1). destruct (IHscript _ I1) as (T2 & C2 & N2).
      split; [apply Forall_app; now split|]. split.
      + intros Hb. destruct (C2 Hb) as (t0 & x & -> & Hx). exists (tr ++ t0), x. now rewrite app_assoc.
      + intros Hb. destruct (N2 Hb) as (S2 & orph2 & I2 & L2). split.
        * rewrite map_app. eapply session_app; eauto.
        * exists orph2. split; [easy|]. rewrite abandoned_app. lia.
    - destruct (does_leaves _ _ _ _ _ _ _ Hi H) as (T & C & N). split; [easy|]. split; [auto|easy].
  Qed.

  Lemma fresh_inv : st_inv fresh_session [].
  Proof. split; [constructor|]. split; constructor. Qed.

  Lemma script_sound l tr st b : script fresh_session l tr st b ->
    Forall sound_call tr /\ (b = true -> exists tr0 x, tr = tr0 ++ [x] /\ crashes x).
  Proof. intros H. destruct (script_leaves _ _ _ _ _ _ fresh_inv H) as (? & ? & _). now split. Qed.

  Lemma script_session l tr st : script fresh_session l tr st false ->
    session start (map snd tr) (st_world st).
  Proof. intros H. destruct (script_leaves _ _ _ _ _ _ fresh_inv H) as (_ & _ & N). now apply N. Qed.

  Lemma script_inv l tr st : script fresh_session l tr st false ->
    exists orph, st_inv st orph /\ List.length orph = abandoned_in tr.
  Proof.
    intros H. destruct (script_leaves _ _ _ _ _ _ fresh_inv H) as (_ & _ & N).
    destruct N as [_ N]; [discriminate|]. exact N.
  Qed.

  Lemma tags_of_length l :
    List.length (tags_of l) = List.length (filter (fun x => match x with Some _ => true | None => false end) l).
  Proof. unfold tags_of. induction l as [|[]]; cbn; auto. Qed.

  Lemma script_heap l tr st : script fresh_session l tr st false ->
    List.length (w_heap (st_world st)) = (undeleted st + abandoned_in tr)%nat.
  Proof.
    intros H. destruct (script_inv _ _ _ H) as (orph & (_ & _ & P) & L).
    apply Permutation_length in P. rewrite tags_length, app_length, tags_of_length in P.
    unfold undeleted. lia.
  Qed.

  Lemma script_object l tr st i o : script fresh_session l tr st false -> object st i = Some o ->
    exists ob, handle_of (st_world st) (o_handle o) ob /\ class_of ob = Some (o_class o).
  Proof.
    intros H Ho. destruct (script_inv _ _ _ H) as (orph & (Hr & Hi) & _).
    destruct (object_owned _ _ _ Hr Ho) as (a & Ha & Hin).
    destruct (inv_live _ _ _ a (Some (o_class o)) Hi) as (ob & Hl & Hc).
    { apply in_app_iff. now left. }
    exists ob. split; [|easy]. now exists a.
  Qed.

  Lemma tags_distinct l i j o o' : Forall real l -> NoDup (map fst (tags_of l)) ->
    nth_error l i = Some (Some o) -> nth_error l j = Some (Some o') -> i <> j ->
    o_handle o <> o_handle o'.
  Proof.
    revert i j. induction l as [|x l IH]; intros [|i] [|j] Hr Hn Hi Hj Hij Heq; cbn in *; try discriminate;
      try lia; inversion Hr as [|? ? Rx Rl]; subst.
    - injection Hi as ->. cbn in Hn. inversion Hn as [|? ? N1 N2]; subst. apply N1.
      rewrite Heq. apply (in_map fst (tags_of l) (addr (o_handle o'), Some (o_class o'))).
      apply in_flat_map. exists (Some o'). split; [now apply nth_error_In in Hj|now left].
    - injection Hj as ->. cbn in Hn. inversion Hn as [|? ? N1 N2]; subst. apply N1.
      rewrite <- Heq. apply (in_map fst (tags_of l) (addr (o_handle o), Some (o_class o))).
      apply in_flat_map. exists (Some o). split; [now apply nth_error_In in Hi|now left].
    - revert Heq. apply (IH i j); auto. destruct x; cbn in Hn; [now inversion Hn|easy].
  Qed.

  Lemma nodup_left {A} (l l' : list A) : NoDup (l ++ l') -> NoDup l.
  Proof.
    induction l; cbn; intros H; [constructor|]. inversion H as [|? ? N1 N2]; subst.
    constructor; [|now apply IHl]. intros Hin. apply N1, in_app_iff. now left.
  Qed.

  Lemma script_distinct l tr st i j o o' : script fresh_session l tr st false ->
    object st i = Some o -> object st j = Some o' -> i <> j -> o_handle o <> o_handle o'.
  Proof.
    intros H Ho Ho' Hij. destruct (script_inv _ _ _ H) as (orph & (Hr & Hn & _) & _).
    apply (tags_distinct (st_objs st) i j); auto using object_nth.
    rewrite map_app in Hn. exact (nodup_left _ _ Hn).
  Qed.

  (** Every statement runs. *)
  Lemma does_total e st s : exists tr st' r, does e st s tr st' r.
  Proof.
    destruct s as [f args|i name args|i].
    - destruct (resolve st args) as [vs|] eqn:E; [|do 3 eexists; now apply do_new_gone].
      destruct (exec_total (construct f vs) e (st_world st)) as (tr & w & r & H). destruct r.
      + do 3 eexists. eapply do_new; eauto.
      + destruct (exec_total (destroy (unmade f)) e w) as (tr' & w' & r & H').
        destruct r; do 3 eexists; [eapply do_new_failed|eapply do_new_failed|eapply do_new_failed_crash]; eauto; discriminate.
      + do 3 eexists. eapply do_new_crash; eauto.
    - destruct (object st i) as [o|] eqn:Eo; [|do 3 eexists; apply do_call_gone; now left].
      destruct (resolve st args) as [vs|] eqn:E; [|do 3 eexists; apply do_call_gone; now right].
      destruct (exec_total (invoke o name vs) e (st_world st)) as (tr & w & r & H).
      destruct r; do 3 eexists; [eapply do_call|eapply do_call_failed|eapply do_call_crash]; eauto.
    - destruct (object st i) as [o|] eqn:Eo; [|do 3 eexists; now apply do_delete_gone].
      destruct (exec_total (destroy o) e (st_world st)) as (tr & w & r & H).
      destruct r; do 3 eexists; [eapply do_delete_object|eapply do_delete_object|eapply do_delete_crash]; eauto; discriminate.
  Qed.

  Lemma forgotten w (l : list (option (mobj K))) i : object (State w (forget l i)) i = None.
  Proof.
    unfold object. cbn. revert i. induction l as [|x l IH]; intros [|i]; cbn; auto.
  Qed.

  (** Deleting works once, and then the object cannot be used. *)
  Lemma delete_frees l tr st i o e tr' st' r : script fresh_session l tr st false ->
    object st i = Some o -> does e st (SDelete i) tr' st' r ->
    r = Done RNone /\ object st' i = None /\
    S (List.length (w_heap (st_world st'))) = List.length (w_heap (st_world st)) /\
    forall a, o_handle o = mx_handle a -> hfind (w_heap (st_world st')) a = None.
  Proof.
    intros H Ho Hd. destruct (script_inv _ _ _ H) as (orph & (Hr & Hi) & _).
    destruct (script_object _ _ _ _ _ H Ho) as (ob & (a & Ha & Hl) & Hc).
    assert (Hp : proper (st_world st)).
    { eapply proper_session; [|eapply script_session; eauto]. constructor. }
    assert (X : forall tr1 w1 r1, exec e (st_world st) (destroy o) tr1 w1 r1 ->
      r1 = Done tt /\ w1 = wdel (o_class o) (st_world st) a).
    { intros tr1 w1 r1 Hx. unfold destroy in Hx. rewrite Ha in Hx.
      inversion Hx; subst;
      match goal with Hm : mex_call _ _ _ _ _ = _ |- _ =>
        rewrite (delete_ok (o_class o) _ _ a ob Hl Hc) in Hm; rename Hm into Hm' end; try discriminate.
      injection Hm' as <- <-. match goal with Hq : exec _ _ (PRet tt) _ _ _ |- _ => inversion Hq; now subst end. }
    assert (Y : forall o2, object st i = Some o2 -> o2 = o) by (intros; congruence).
    inversion Hd; subst; try congruence;
      match goal with Hq : exec _ _ (destroy ?o2) _ _ _ |- _ =>
        let E := fresh in assert (E : o2 = o) by (apply Y; assumption); subst o2;
        apply X in Hq as [Hq1 Hq2] end; try discriminate.
    subst. cbn. split; [easy|]. split.
    - apply forgotten.
    - split; [pose proof (hdel_length (w_heap (st_world st)) a ob Hl); lia|].
      intros b Hb. rewrite Ha in Hb. injection Hb as <-. now apply hfind_del_same.
  Qed.

  (** Without calls that make a handle for nobody, nothing is left. *)
  Lemma abandoned_none (tr : trace K) :
    (forall w c, In (w, c) tr -> forall f n, In (f, n) handle_makers -> c_file c = f -> ~ is_command (c_args c) n) ->
    abandoned_in tr = 0%nat.
  Proof.
    unfold abandoned_in. induction tr as [|[w c] tr IH]; cbn; intros H; [easy|].
    rewrite IH by (intros w0 c0 Hi; exact (H w0 c0 (or_intror Hi))). rewrite Nat.add_0_r. unfold abandoned. cbn [fst snd].
    destruct (perform w c); try easy. destruct (c_args c) as [|[ | | | |t| ] rest] eqn:Ea; try easy.
    destruct (existsb _ _) eqn:Ex; [|easy]. exfalso. apply existsb_exists in Ex as ([f n] & Hin & Hb).
    cbn in Hb. apply andb_prop in Hb as [H1 H2]. apply file_eqb_spec in H1. apply str_eqb_eq' in H2.
    apply (H w c (or_introl eq_refl) f n Hin (eq_sym H1)). rewrite Ea. exists t, rest. now split.
  Qed.

  Lemma clean_heap l tr st : script fresh_session l tr st false -> undeleted st = 0%nat ->
    (forall w c, In (w, c) tr -> forall f n, In (f, n) handle_makers -> c_file c = f -> ~ is_command (c_args c) n) ->
    w_heap (st_world st) = [].
  Proof.
    intros Hs Hu Ht. pose proof (script_heap l tr st Hs) as L. rewrite Hu, (abandoned_none tr Ht) in L.
    now destruct (w_heap (st_world st)).
  Qed.
End Scripts.
