(** * The MATLAB classes: a logic for their programs. *)
From Coq Require Import ZArith Bool String List Lia Permutation.
From Verif Require Import Base Num Vec Aabb Geom Ground Shape Rib Str Mesh Shell Sfun Mex SpecMex
  ProofMex ProofMexB ProofMexC ProofMexD Matlab SpecMatlab ProofMatlab.
Import ListNotations.

Section Logic.
  Context {K : Type} {NK : Num K}.
  Implicit Types (w : world K) (o : obj K) (m : mx K).

  Local Hint Constructors exec : core.

  (** *** Sequences. *)
  Lemma exec_bind {A B} (p : prog K A) (g : A -> prog K B) e w tr w' r :
    exec e w (pbind p g) tr w' r ->
    (exists x tr1 w1 tr2, exec e w p tr1 w1 (Done x) /\ exec e w1 (g x) tr2 w' r /\ tr = tr1 ++ tr2) \/
    (exec e w p tr w' Failed /\ r = Failed) \/ (exec e w p tr w' Crash /\ r = Crash).
  Proof.
    revert w tr. induction p as [x| |f n a k IH err IHe|h k IH err IHe|path k IH]; cbn; intros w tr H.
    - left. exists x, [], w, tr. auto.
    - inversion H; subst. right; left. auto.
    - inversion H; subst.
      + match goal with H : exec _ _ (pbind (k _) _) _ _ _ |- _ => apply IH in H
          as [(x & tr1 & w2 & tr2 & H1 & H2 & ->)|[[H1 ->]|[H1 ->]]] end; [left|right; left|right; right]; eauto.
        eexists x, (_ :: tr1), w2, tr2; eauto.
      + match goal with H : exec _ _ (pbind err _) _ _ _ |- _ => apply IHe in H
          as [(y & tr1 & w2 & tr2 & H1 & H2 & ->)|[[H1 ->]|[H1 ->]]] end; [left|right; left|right; right]; eauto.
        eexists y, (_ :: tr1), w2, tr2; eauto.
      + right; right. eauto.
    - inversion H; subst.
      + match goal with H : exec _ _ (pbind (k _) _) _ _ _ |- _ => apply IH in H
          as [(x & tr1 & w2 & tr2 & H1 & H2 & ->)|[[H1 ->]|[H1 ->]]] end; [left|right; left|right; right]; eauto 10.
      + right; right. eauto.
      + match goal with H : exec _ _ (pbind err _) _ _ _ |- _ => apply IHe in H
          as [(y & tr1 & w2 & tr2 & H1 & H2 & ->)|[[H1 ->]|[H1 ->]]] end; [left|right; left|right; right]; eauto 10.
    - inversion H; subst.
      match goal with H : exec _ _ (pbind (k _) _) _ _ _ |- _ => apply IH in H
        as [(x & tr1 & w2 & tr2 & H1 & H2 & ->)|[[H1 ->]|[H1 ->]]] end; [left|right; left|right; right]; eauto 10.
  Qed.

  Definition failing {A B} (r : ending A) (r' : ending B) : Prop :=
    match r with Done _ | Failed => r' = Failed | Crash => r' = Crash end.

  Lemma exec_guard {A} (c : prog K unit) (p : prog K A) e w tr w' r :
    exec e w (guard c p) tr w' r ->
    (exists x, r = Done x /\ exec e w p tr w' r) \/ (r = Crash /\ exec e w p tr w' r) \/
    (exists tr1 w1 tr2 r2, exec e w p tr1 w1 Failed /\ exec e w1 c tr2 w' r2 /\
       tr = tr1 ++ tr2 /\ failing r2 r).
  Proof.
    revert w tr. induction p as [x| |f n a k IH err IHe|h k IH err IHe|path k IH]; cbn; intros w tr H.
    - inversion H; subst. left. eauto.
    - right; right. apply exec_bind in H as [(x & tr1 & w1 & tr2 & H1 & H2 & ->)|[[H1 ->]|[H1 ->]]].
      + inversion H2; subst. exists [], w, tr1, (Done x). rewrite app_nil_r. cbn. auto.
      + exists [], w, tr, Failed. cbn. auto.
      + exists [], w, tr, Crash. cbn. auto.
    - inversion H; subst.
      + match goal with H : exec _ _ (guard _ (k _)) _ _ _ |- _ => apply IH in H
          as [(x & -> & H1)|[[-> H1]|(tr1 & w2 & tr2 & r2 & H1 & H2 & -> & H3)]] end;
          [left|right; left|right; right]; eauto.
        eexists (_ :: tr1), w2, tr2, r2; eauto.
      + match goal with H : exec _ _ (guard _ err) _ _ _ |- _ => apply IHe in H
          as [(y & -> & H1)|[[-> H1]|(tr1 & w2 & tr2 & r2 & H1 & H2 & -> & H3)]] end;
          [left|right; left|right; right]; eauto.
        eexists (_ :: tr1), w2, tr2, r2; eauto.
      + right; left. eauto.
    - inversion H; subst.
      + match goal with H : exec _ _ (guard _ (k _)) _ _ _ |- _ => apply IH in H
          as [(x & -> & H1)|[[-> H1]|(tr1 & w2 & tr2 & r2 & H1 & H2 & -> & H3)]] end;
          [left|right; left|right; right]; eauto 10.
      + right; left. eauto.
      + match goal with H : exec _ _ (guard _ err) _ _ _ |- _ => apply IHe in H
          as [(y & -> & H1)|[[-> H1]|(tr1 & w2 & tr2 & r2 & H1 & H2 & -> & H3)]] end;
          [left|right; left|right; right]; eauto 10.
    - inversion H; subst.
      match goal with H : exec _ _ (guard _ (k _)) _ _ _ |- _ => apply IH in H
        as [(x & -> & H1)|[[-> H1]|(tr1 & w2 & tr2 & r2 & H1 & H2 & -> & H3)]] end;
        [left|right; left|right; right]; eauto 10.
  Qed.

  (** *** Every program ends. *)
  Lemma fresh_exists w : exists a, fresh w a.
  Proof.
    exists (fold_right Z.max 0%Z (map fst (w_heap w)) + 1)%Z. unfold fresh.
    assert (H : forall l x, In x l -> (x <= fold_right Z.max 0 l)%Z).
    { induction l; cbn; [easy|]. intros x [->|Hx]; [lia|]. apply IHl in Hx. lia. }
    intros Hin. apply H in Hin. lia.
  Qed.

  Lemma handle_dec m : (exists a, m = mx_handle a) \/ (forall a, m <> mx_handle a).
  Proof.
    unfold mx_handle. destruct m as [| |c cp dims d| | |]; try (right; discriminate).
    destruct c; try (right; discriminate). destruct cp; try (right; discriminate).
    destruct dims as [|[|[|]] [|[|[|]] [|]]]; try (right; discriminate).
    destruct d as [|z [|]]; try (right; discriminate). left. now exists z.
  Qed.

  Lemma exec_total {A} (p : prog K A) e : forall w, exists tr w' r, exec e w p tr w' r.
  Proof.
    induction p as [x| |f n a k IH err IHe|h k IH err IHe|path k IH]; intros w; eauto 10.
    - destruct (fresh_exists w) as [z Hz].
      destruct (mex_call f (at_address e z) w n a) as [w1 outs|w1 x|] eqn:E.
      + destruct (IH outs w1) as (tr & w' & r & H). do 3 eexists. eapply ex_ok; eassumption.
      + destruct (IHe w1) as (tr & w' & r & H). do 3 eexists. eapply ex_exn; eassumption.
      + do 3 eexists. eapply ex_undef; eassumption.
    - destruct (handle_dec h) as [[a ->]|Hn].
      + destruct (hfind (w_heap w) a) as [o|] eqn:E; [|do 3 eexists; now eapply ex_acme_stale].
        destruct (IH o w) as (tr & w' & r & H). do 3 eexists. eapply ex_acme; eauto.
      + destruct (IHe w) as (tr & w' & r & H). do 3 eexists. eapply ex_acme_bad; eassumption.
    - destruct (IH (match e_fs e path with Some _ => true | None => false end) w) as (tr & w' & r & H).
      do 3 eexists. apply ex_isfile, H.
  Qed.

  (** *** A program is a session. *)
  Lemma session_app w cs w1 cs' w2 :
    session w cs w1 -> session (K:=K) w1 cs' w2 -> session w (cs ++ cs') w2.
  Proof. induction 1; cbn; intros; [easy|]. econstructor; eauto. Qed.

  Lemma exec_session {A} (p : prog K A) e w tr w' r :
    exec e w p tr w' r -> r <> Crash -> session w (map snd tr) w'.
  Proof.
    induction 1; intros Hr; cbn; try constructor; try (now contradiction Hr); try auto.
    - econstructor; [|now apply IHexec]. split; [exact H|]. left. exists outs. exact H0.
    - econstructor; [|now apply IHexec]. split; [exact H|]. right. exists x. exact H0.
  Qed.

  (** *** Who owns what: [own] are the objects of the classes, [orph] the
      handles that nobody keeps. *)
  Definition inv w (own orph : list tag) : Prop :=
    NoDup (map fst (own ++ orph)) /\ Permutation (tags (w_heap w)) (own ++ orph).

  Lemma inv_live w own orph a c : inv w own orph -> In (a, c) (own ++ orph) ->
    exists o, live w a o /\ class_of o = c.
  Proof.
    intros [Hn Hp] Hin. apply (tags_live (w_heap w)).
    - rewrite <- (tags_fst (w_heap w)). now rewrite Hp.
    - now rewrite Hp.
  Qed.

  Lemma inv_tags w w' own orph : inv w own orph -> tags (w_heap w') = tags (w_heap w) -> inv w' own orph.
  Proof. unfold inv. now intros H ->. Qed.

  Lemma inv_new w own orph x : inv w own orph -> fresh w (fst x) ->
    NoDup (map fst (x :: own ++ orph)).
  Proof.
    intros [Hn Hp] Hf. cbn. constructor; [|easy]. intros Hin. apply Hf.
    rewrite <- (tags_fst (w_heap w)). now rewrite Hp.
  Qed.

  Lemma inv_own w w' own orph x : inv w own orph -> fresh w (fst x) ->
    tags (w_heap w') = x :: tags (w_heap w) -> inv w' (x :: own) orph.
  Proof.
    intros Hi Hf Ht. pose proof (inv_new _ _ _ _ Hi Hf). destruct Hi as [Hn Hp].
    split; [easy|]. rewrite Ht. cbn. now apply perm_skip.
  Qed.

  Lemma inv_orph w w' own orph x : inv w own orph -> fresh w (fst x) ->
    tags (w_heap w') = x :: tags (w_heap w) -> inv w' own (x :: orph).
  Proof.
    intros Hi Hf Ht. pose proof (inv_new _ _ _ _ Hi Hf) as H. destruct Hi as [Hn Hp]. split.
    - eapply Permutation_NoDup; [|exact H]. apply Permutation_map. apply Permutation_middle.
    - rewrite Ht, <- Permutation_middle. now apply perm_skip.
  Qed.

  Lemma inv_drop w f a own orph : inv w ((a, Some f) :: own) orph -> inv (wdel f w a) own orph.
  Proof.
    intros Hi. destruct (inv_live w _ _ a (Some f) Hi) as (o & Hl & Hc); [now left|].
    destruct Hi as [Hn Hp]. split; [now inversion Hn|]. cbn.
    apply (Permutation_cons_inv (a := (a, Some f))). rewrite <- Hc at 1.
    rewrite <- (tags_del (w_heap w) a o Hl). exact Hp.
  Qed.

  Lemma inv_perm w own own' orph : Permutation own own' -> inv w own orph -> inv w own' orph.
  Proof.
    intros P [Hn Hp]. split.
    - eapply Permutation_NoDup; [|exact Hn]. apply Permutation_map. now apply Permutation_app_tail.
    - rewrite Hp. now apply Permutation_app_tail.
  Qed.

  Lemma abandoned_app (t t' : trace K) : abandoned_in (t ++ t') = (abandoned_in t + abandoned_in t')%nat.
  Proof. unfold abandoned_in. induction t; cbn; [easy|]. rewrite IHt. lia. Qed.

  (** *** Triples. *)
  Definition triple {A} (own orph : list tag) (p : prog K A)
    (Q : A -> list tag -> list tag -> Prop) (F : list tag -> list tag -> Prop) : Prop :=
    forall e w tr w' r, inv w own orph -> exec e w p tr w' r ->
      Forall sound_call tr /\
      match r with
      | Done x => exists own' orph', inv w' own' orph' /\
          List.length orph' = (List.length orph + abandoned_in tr)%nat /\ Q x own' orph'
      | Failed => exists own' orph', inv w' own' orph' /\
          List.length orph' = (List.length orph + abandoned_in tr)%nat /\ F own' orph'
      | Crash => exists tr0 x, tr = tr0 ++ [x] /\ crashes x
      end.

  Lemma t_ret {A} own orph (x : A) (Q : A -> list tag -> list tag -> Prop) F :
    Q x own orph -> triple own orph (PRet x) Q F.
  Proof.
    intros HQ e w tr w' r Hi H. inversion H; subst. split; [constructor|].
    exists own, orph. split; [easy|]. cbn. split; [lia|easy].
  Qed.

  Lemma t_err {A} own orph (Q : A -> list tag -> list tag -> Prop) (F : list tag -> list tag -> Prop) :
    F own orph -> triple own orph PErr Q F.
  Proof.
    intros HQ e w tr w' r Hi H. inversion H; subst. split; [constructor|].
    exists own, orph. split; [easy|]. cbn. split; [lia|easy].
  Qed.

  Lemma t_conseq {A} own orph (p : prog K A) (Q Q' : A -> list tag -> list tag -> Prop)
    (F F' : list tag -> list tag -> Prop) :
    triple own orph p Q F -> (forall x a b, Q x a b -> Q' x a b) -> (forall a b, F a b -> F' a b) ->
    triple own orph p Q' F'.
  Proof.
    intros H HQ HF e w tr w' r Hi He. destruct (H e w tr w' r Hi He) as [H1 H2]. split; [easy|].
    destruct r; [| |exact H2]; destruct H2 as (a & b & ? & ? & ?); exists a, b; auto.
  Qed.

  Lemma t_bind {A B} own orph (p : prog K A) (g : A -> prog K B)
    (Q1 : A -> list tag -> list tag -> Prop) (Q : B -> list tag -> list tag -> Prop) F :
    triple own orph p Q1 F ->
    (forall x own1 orph1, Q1 x own1 orph1 -> triple own1 orph1 (g x) Q F) ->
    triple own orph (pbind p g) Q F.
  Proof.
    intros H1 H2 e w tr w' r Hi He.
    apply exec_bind in He as [(x & tr1 & w1 & tr2 & E1 & E2 & ->)|[[E1 ->]|[E1 ->]]].
    - destruct (H1 _ _ _ _ _ Hi E1) as [Ht (own1 & orph1 & Hi1 & Hl1 & HQ1)].
      destruct (H2 _ _ _ HQ1 _ _ _ _ _ Hi1 E2) as [Ht2 Hr].
      split; [apply Forall_app; now split|].
      destruct r; [| |destruct Hr as (t0 & y & -> & Hy); exists (tr1 ++ t0), y; now rewrite app_assoc];
        destruct Hr as (own2 & orph2 & ? & ? & ?); exists own2, orph2; rewrite abandoned_app;
        (split; [easy|]); (split; [lia|easy]).
    - exact (H1 _ _ _ _ _ Hi E1).
    - exact (H1 _ _ _ _ _ Hi E1).
  Qed.

  Lemma t_guard {A} own orph (c : prog K unit) (p : prog K A) Q F1 (F : list tag -> list tag -> Prop) :
    triple own orph p Q F1 ->
    (forall own1 orph1, F1 own1 orph1 -> triple own1 orph1 c (fun _ => F) F) ->
    triple own orph (guard c p) Q F.
  Proof.
    intros H1 H2 e w tr w' r Hi He.
    apply exec_guard in He as [(x & -> & E1)|[[-> E1]|(tr1 & w1 & tr2 & r2 & E1 & E2 & -> & Hr)]].
    - exact (H1 _ _ _ _ _ Hi E1).
    - exact (H1 _ _ _ _ _ Hi E1).
    - destruct (H1 _ _ _ _ _ Hi E1) as [Ht (own1 & orph1 & Hi1 & Hl1 & HQ1)].
      destruct (H2 _ _ HQ1 _ _ _ _ _ Hi1 E2) as [Ht2 Hx].
      split; [apply Forall_app; now split|].
      destruct r2; cbn in Hr; subst r;
        try (destruct Hx as (own2 & orph2 & ? & ? & ?); exists own2, orph2; rewrite abandoned_app;
             (split; [easy|]); (split; [lia|easy])).
      destruct Hx as (t0 & y & -> & Hy). exists (tr1 ++ t0), y. now rewrite app_assoc.
  Qed.

  Lemma t_isfile {A} own orph path (k : bool -> prog K A) Q F :
    (forall b, triple own orph (k b) Q F) -> triple own orph (PIsfile path k) Q F.
  Proof. intros H e w tr w' r Hi He. inversion He; subst. eapply H; eauto. Qed.

  Lemma t_acme {A} own orph a c (k : obj K -> prog K A) err Q F :
    In (a, c) (own ++ orph) -> (forall o, class_of o = c -> triple own orph (k o) Q F) ->
    triple own orph (PAcme (mx_handle a) k err) Q F.
  Proof.
    intros Hin H e w tr w' r Hi He. destruct (inv_live _ _ _ _ _ Hi Hin) as (o & Hl & Hc).
    unfold live in Hl. inversion He; subst.
    - match goal with H : mx_handle _ = mx_handle _ |- _ => injection H as <- end.
      rewrite Hl in *. match goal with H : Some _ = Some _ |- _ => injection H as <- end.
      eapply H; eauto.
    - match goal with H : mx_handle _ = mx_handle _ |- _ => injection H as <- end. congruence.
    - match goal with H : forall a, _ |- _ => now contradiction (H a) end.
  Qed.
End Logic.
