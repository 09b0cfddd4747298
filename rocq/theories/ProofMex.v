(** * Effects of the gateway commands on the process. *)
From Coq Require Import ZArith Bool String List Lia.
From Verif Require Import Base Num Vec Aabb Geom Ground Shape Rib Str Mesh Shell Sfun Mex SpecMex.
Import ListNotations.

Section Effects.
  Context {K : Type} {NK : Num K}.
  Implicit Types (w : world K) (o : obj K) (m : mx K).

  Lemma hfind_in h (a : Z) o : hfind h a = Some o -> In (a, o) h.
  Proof.
    induction h as [|[b x] h IH]; cbn; [discriminate|].
    destruct (Z.eqb_spec a b) as [->|]; [intros [= ->]; now left | right; auto].
  Qed.

  Lemma hfind_none (h : list (Z * obj K)) a : ~ In a (map fst h) -> hfind h a = None.
  Proof.
    induction h as [|[b x] h IH]; cbn; [easy|]. intros H.
    destruct (Z.eqb_spec a b) as [->|]; [tauto|]. apply IH. tauto.
  Qed.

  Lemma hset_fst h (a : Z) o : map fst (hset h a o) = map fst h.
  Proof.
    induction h as [|[b x] h IH]; cbn; [easy|].
    destruct (Z.eqb a b); cbn; congruence.
  Qed.

  Lemma hfind_set_other h (a b : Z) o : b <> a -> hfind (hset h a o) b = hfind h b.
  Proof.
    intros Hn. induction h as [|[c x] h IH]; cbn; [easy|].
    destruct (Z.eqb_spec a c) as [<-|]; cbn.
    - destruct (Z.eqb_spec b a); [congruence|easy].
    - destruct (Z.eqb b c); easy.
  Qed.

  Lemma hfind_set_same h (a : Z) o x : hfind h a = Some x -> hfind (hset h a o) a = Some o.
  Proof.
    induction h as [|[c y] h IH]; cbn; [easy|].
    destruct (Z.eqb_spec a c) as [<-|]; cbn.
    - now rewrite Z.eqb_refl.
    - destruct (Z.eqb_spec a c); [congruence|auto].
  Qed.

  Lemma hfind_del_other (h : list (Z * obj K)) a b : b <> a -> hfind (hdel h a) b = hfind h b.
  Proof.
    intros Hn. induction h as [|[c x] h IH]; cbn; [easy|].
    destruct (Z.eqb_spec a c) as [<-|]; cbn.
    - destruct (Z.eqb_spec b a); [congruence|easy].
    - destruct (Z.eqb b c); easy.
  Qed.

  Lemma hdel_incl (h : list (Z * obj K)) a x : In x (map fst (hdel h a)) -> In x (map fst h).
  Proof.
    induction h as [|[c y] h IH]; cbn; [easy|].
    destruct (Z.eqb a c); cbn; tauto.
  Qed.

  Lemma hdel_nodup (h : list (Z * obj K)) a : NoDup (map fst h) -> NoDup (map fst (hdel h a)).
  Proof.
    induction h as [|[c y] h IH]; cbn; [easy|]. intros H. inversion H; subst.
    destruct (Z.eqb a c); cbn; [easy|]. constructor; [|auto].
    intros Hin. apply hdel_incl in Hin. tauto.
  Qed.

  Lemma hfind_del_same (h : list (Z * obj K)) a :
    NoDup (map fst h) -> hfind (hdel h a) a = None.
  Proof.
    induction h as [|[c y] h IH]; cbn; [easy|]. intros H. inversion H; subst.
    destruct (Z.eqb_spec a c) as [<-|]; cbn.
    - now apply hfind_none.
    - destruct (Z.eqb_spec a c); [congruence|auto].
  Qed.

  (** What a call of file [f] may leave behind. *)
  Inductive effect (f : mexfile) (e : env K) (prhs : list (mx K)) (w : world K)
    : world K -> Prop :=
  | Same : effect f e prhs w w
  | New o : class_of o = Some f \/ class_of o = None \/ (f = FMesh /\ class_of o = Some FTri) ->
            effect f e prhs w (wnew f w (e_new e) o)
  | Set_ a o o' : applied_to prhs a -> live w a o -> class_of o = Some f ->
            class_of o' = Some f -> effect f e prhs w (wset w a o')
  | Del a o : applied_to prhs a -> live w a o -> class_of o = Some f ->
            effect f e prhs w (wdel f w a)
  | Lose : f = FMesh -> effect f e prhs w (wlose w).

  Definition sound_cmd (f : mexfile) (c : command) : Prop :=
    forall e w nlhs prhs,
      match c e w nlhs prhs with
      | Ok w' _ | Exn w' _ => effect f e prhs w w'
      | Undef => True
      end.

  Lemma obind_ret {A B} (x : outcome A) (g : A -> outcome B) b :
    obind x g = Ret b -> exists a, x = Ret a /\ g a = Ret b.
  Proof. destruct x; cbn; try discriminate. eauto. Qed.

  Lemma get_handle_ret {A} (sel : obj K -> option A) w m a x :
    get_handle sel w m = Ret (a, x) ->
    names m a /\ exists o, live w a o /\ sel o = Some x.
  Proof.
    unfold get_handle, live. destruct m as [| |c cp dims d| | |]; try discriminate.
    destruct c; try discriminate. destruct cp; try discriminate.
    destruct (Nat.eqb _ _); [|discriminate].
    destruct d as [|z d]; cbn; [discriminate|].
    destruct (hfind _ z) as [o|] eqn:Ho; [|discriminate].
    destruct (sel o) eqn:Hs; [|discriminate]. intros [= <- <-].
    split; [now exists dims, d|]. eauto.
  Qed.

  Definition sel_of {A} (f : mexfile) (sel : obj K -> option A) : Prop :=
    forall o x, sel o = Some x -> class_of o = Some f.

  Lemma sel_shell : sel_of FShell as_shell. Proof. intros [] x; cbn; congruence. Qed.
  Lemma sel_flat : sel_of FFlat as_flat. Proof. intros [] x; cbn; congruence. Qed.
  Lemma sel_mesh : sel_of FMesh as_mesh. Proof. intros [] x; cbn; congruence. Qed.
  Lemma sel_tri : sel_of FTri as_tri. Proof. intros [] x; cbn; congruence. Qed.

  Lemma handle_self {A} f (sel : obj K -> option A) (Hs : sel_of f sel) w prhs m a x :
    arg prhs 1 = Ret m -> get_handle sel w m = Ret (a, x) ->
    applied_to prhs a /\ exists o, live w a o /\ class_of o = Some f.
  Proof.
    unfold arg. intros Ha Hg.
    destruct (nth_error prhs 1) eqn:Hn; [|discriminate]. injection Ha as <-.
    apply get_handle_ret in Hg as [Hm [o [Hl Hsel]]].
    split; [now eexists; split; eauto|]. exists o. split; [easy|]. now apply (Hs _ x).
  Qed.

  Lemma query_sound f e w prhs r :
    match query w r with Ok w' _ | Exn w' _ => effect f e prhs w w' | Undef => True end.
  Proof. destruct r; cbn; try easy; constructor. Qed.

  Lemma create_sound f e w prhs r :
    (forall o, r = Ret o ->
       class_of o = Some f \/ class_of o = None \/ (f = FMesh /\ class_of o = Some FTri)) ->
    match create f e w r with Ok w' _ | Exn w' _ => effect f e prhs w w' | Undef => True end.
  Proof. destruct r; cbn; intros H; try easy; constructor. now apply H. Qed.

  Lemma update_sound f e w prhs r :
    (forall a o', r = Ret (a, o') ->
       applied_to prhs a /\ (exists o, live w a o /\ class_of o = Some f) /\ class_of o' = Some f) ->
    match update w r with Ok w' _ | Exn w' _ => effect f e prhs w w' | Undef => True end.
  Proof.
    destruct r as [[a o']| |]; cbn; intros H; try easy; [|constructor].
    destruct (H _ _ eq_refl) as (H1 & (o & H2 & H3) & H4). econstructor; eauto.
  Qed.

  Lemma mutate_sound {S A} f e w prhs (mk : S -> obj K) (outs : A -> list (mx K)) r :
    (forall s, class_of (mk s) = Some f) ->
    (forall a x, r = Ret (a, x) ->
       applied_to prhs a /\ exists o, live w a o /\ class_of o = Some f) ->
    match mutate w mk outs r with
    | Ok w' _ | Exn w' _ => effect f e prhs w w' | Undef => True end.
  Proof.
    intros Hm. destruct r as [[a [s x|s x|]]| |]; cbn; intros H; try easy; [| |constructor].
    - destruct (H _ _ eq_refl) as (H1 & o & H2 & H3). econstructor; eauto.
    - destruct (H _ _ eq_refl) as (H1 & o & H2 & H3). econstructor; eauto.
  Qed.

  Ltac peel H :=
    let x := fresh "x" in let Hx := fresh "Hx" in
    apply obind_ret in H as (x & Hx & H).

  (** The self handle read by [self_*]. *)
  Lemma self_any {A} f (sel : obj K -> option A) (Hs : sel_of f sel) nin nout w nlhs prhs h :
    (let* _ := arity nin nout nlhs prhs in
     let* m := arg prhs 1 in get_handle sel w m) = Ret h ->
    applied_to prhs (fst h) /\ exists o, live w (fst h) o /\ class_of o = Some f.
  Proof.
    intros H. peel H. peel H. destruct h as [a x1]. now apply (handle_self f sel Hs w prhs x0 a x1).
  Qed.

  Lemma delete_sound {A} f (sel : obj K -> option A) (Hs : sel_of f sel) :
    sound_cmd f (do_delete f sel).
  Proof.
    intros e w nlhs prhs. unfold do_delete.
    destruct (let* _ := arity 2 0 nlhs prhs in _) as [[a x]| |] eqn:H; try easy; [|constructor].
    apply (self_any f sel Hs) in H as [H1 (o & H2 & H3)]. econstructor; eauto.
  Qed.

  Ltac slf H lem :=
    apply (self_any _ _ lem) in H as (?Hap & ?o & ?Hlv & ?Hcl).

  Lemma shell_sound : Forall (fun x => sound_cmd FShell (snd x)) shell_table.
  Proof.
    unfold shell_table.
    repeat (apply Forall_cons || apply Forall_nil); cbn [snd]; intros e w nlhs prhs;
      try (apply (delete_sound FShell as_shell sel_shell));
      unfold shell_get, shell_at_y, shell_at_i; try apply query_sound;
      unfold shell_new, shell_point, shell_point_i, shell_check;
      try (apply query_sound);
      try (apply create_sound; intros o H; repeat peel H; injection H as <-; cbn; now auto).
    - apply mutate_sound; [easy|]. intros a x H. peel H. unfold self_shell in Hx.
      slf Hx sel_shell. peel H. peel H. injection H as <- _. eauto.
    - apply update_sound. intros a x H. peel H. unfold self_shell in Hx.
      slf Hx sel_shell. peel H. peel H. injection H as <- <-. cbn. eauto.
    - apply update_sound. intros a x H. peel H. unfold self_shell in Hx.
      slf Hx sel_shell. peel H. peel H. peel H. peel H. injection H as <- <-. cbn. eauto.
    - apply update_sound. intros a x H. peel H. unfold self_shell in Hx.
      slf Hx sel_shell. peel H. peel H. injection H as <- <-. cbn. eauto.
    - apply mutate_sound; [easy|]. intros a x H. peel H. unfold self_shell in Hx.
      slf Hx sel_shell. repeat peel H. injection H as <- _. eauto.
    - apply mutate_sound; [easy|]. intros a x H. peel H. unfold self_shell in Hx.
      slf Hx sel_shell. repeat peel H. injection H as <- _. eauto.
  Qed.

  Lemma flat_sound : Forall (fun x => sound_cmd FFlat (snd x)) flat_table.
  Proof.
    unfold flat_table.
    repeat (apply Forall_cons || apply Forall_nil); cbn [snd]; intros e w nlhs prhs;
      try (apply (delete_sound FFlat as_flat sel_flat));
      unfold flat_get, flat_approx; try apply query_sound;
      unfold flat_new, flat_make;
      try (apply create_sound; intros o H; repeat peel H; injection H as <-; cbn; now auto);
      apply update_sound; intros a x H.
    - peel H. peel H. destruct x1 as [a1 g1].
      pose proof (handle_self FFlat as_flat sel_flat w prhs x0 a1 g1 Hx Hx0) as [Hap (o & Hl & Hc)].
      repeat peel H. injection H as <- <-. cbn. eauto.
    - peel H. unfold self_flat in Hx. slf Hx sel_flat. repeat peel H. injection H as <- <-. cbn. eauto.
    - peel H. unfold self_flat in Hx. slf Hx sel_flat. repeat peel H. injection H as <- <-. cbn. eauto.
    - peel H. unfold self_flat in Hx. slf Hx sel_flat. repeat peel H. injection H as <- <-. cbn. eauto.
    - peel H. unfold self_flat in Hx. slf Hx sel_flat. repeat peel H. injection H as <- <-. cbn. eauto.
  Qed.

  Lemma mesh_sound : Forall (fun x => sound_cmd FMesh (snd x)) mesh_table.
  Proof.
    unfold mesh_table.
    repeat (apply Forall_cons || apply Forall_nil); cbn [snd]; intros e w nlhs prhs;
      try (apply (delete_sound FMesh as_mesh sel_mesh));
      unfold mesh_size_cmd; try apply query_sound.
    - unfold mesh_new. destruct (let* _ := _ in _); try easy; [|constructor].
      destruct (mesh_new_load e prhs) as [[[m b|m x|]|]|x|]; try easy;
        (now constructor) || (constructor; cbn; now auto).
    - apply create_sound; intros o H; repeat peel H; injection H as <-; cbn; auto.
    - unfold mesh_get_vertices. destruct (let* _ := _ in _); try easy; now constructor.
    - apply update_sound; intros a x H.
      peel H. unfold self_mesh in Hx. slf Hx sel_mesh. repeat peel H. injection H as <- <-. cbn. eauto.
    - apply mutate_sound; [easy|]. intros a x H. peel H. peel H. peel H. peel H.
      destruct x3 as [a1 g1].
      pose proof (handle_self FMesh as_mesh sel_mesh w prhs x2 a1 g1 Hx1 Hx2) as [Hap (o & Hl & Hc)].
      peel H. peel H. peel H. cbn in H.
      destruct (Nat.eqb _ 3); destruct (str_eqb _ _); repeat peel H; injection H as <- _; eauto.
  Qed.

  Lemma tri_sound : Forall (fun x => sound_cmd FTri (snd x)) tri_table.
  Proof.
    unfold tri_table.
    repeat (apply Forall_cons || apply Forall_nil); cbn [snd]; intros e w nlhs prhs;
      try (apply (delete_sound FTri as_tri sel_tri));
      unfold tri_get; try apply query_sound;
      unfold tri_new, tri_make;
      try (apply create_sound; intros o H; repeat peel H; injection H as <-; cbn; now auto).
    apply update_sound; intros a x H.
    peel H. unfold self_tri in Hx. slf Hx sel_tri. repeat peel H. injection H as <- <-. cbn. eauto.
  Qed.

  Lemma table_sound f : Forall (fun x => sound_cmd f (snd x)) (table f).
  Proof. destruct f; [apply shell_sound|apply flat_sound|apply mesh_sound|apply tri_sound]. Qed.

  Lemma str_eqb_eq' (x y : str) : str_eqb x y = true -> x = y.
  Proof.
    revert y. induction x as [|a x IH]; intros [|b y]; cbn; try easy.
    intros E. apply andb_prop in E as [E1 E2]. apply Ascii.eqb_eq in E1 as ->. f_equal. auto.
  Qed.

  Lemma assoc_in {A} (l : list (string * A)) s c :
    assoc l s = Some c -> exists n, In (n, c) l /\ lit n = s.
  Proof.
    induction l as [|[n x] l IH]; cbn; [discriminate|].
    destruct (str_eqb (lit n) s) eqn:E.
    - intros [= <-]. exists n. split; [now left|].
      now apply str_eqb_eq'.
    - intros H. destruct (IH H) as (k & Hk & E'). exists k. split; [now right|easy].
  Qed.

  Lemma mex_sound f e w nlhs prhs :
    match mex_call f e w nlhs prhs with
    | Ok w' _ | Exn w' _ => effect f e prhs w w'
    | Undef => True
    end.
  Proof.
    unfold mex_call. destruct prhs as [|m prhs]; [constructor|].
    destruct m; try constructor.
    destruct (assoc (table f) (cstr s)) as [c|] eqn:Hc; [|constructor].
    apply assoc_in in Hc as (n & Hin & _).
    pose proof (table_sound f) as Hf. rewrite Forall_forall in Hf.
    specialize (Hf _ Hin e w nlhs (MxChar s :: prhs)). cbn [snd] in Hf.
    destruct (c e w nlhs (MxChar s :: prhs)) as [w' outs|w' x|]; unfold returned; try easy.
    destruct (Nat.ltb (List.length outs) nlhs); exact Hf.
  Qed.

  Lemma step_effect w c w' :
    step w c w' -> effect (c_file c) (c_env c) (c_args c) w w' /\ fresh w (e_new (c_env c)).
  Proof.
    intros [Hf H]. split; [|easy]. unfold perform in H.
    pose proof (mex_sound (c_file c) (c_env c) w (c_nlhs c) (c_args c)) as Hs.
    destruct H as [(outs & H)|(e & H)]; rewrite H in Hs; easy.
  Qed.

  Lemma proper_step w c w' : proper w -> step w c w' -> proper w'.
  Proof.
    intros Hp Hs. apply step_effect in Hs as [He Hf]. unfold proper in *.
    destruct He; cbn; try easy.
    - constructor; auto.
    - now rewrite hset_fst.
    - now apply hdel_nodup.
  Qed.

  Lemma proper_session w cs w' : proper w -> session w cs w' -> proper w'.
  Proof.
    intros Hp Hs. induction Hs; [easy|]. apply IHHs. now apply (proper_step w c).
  Qed.

  (** *** Isolation. *)
  Lemma names_unique m a b : names m a -> names m b -> a = b.
  Proof. intros (d & r & ->) (d' & r' & H). congruence. Qed.

  Lemma applied_unique (prhs : list (mx K)) a b : applied_to prhs a -> applied_to prhs b -> a = b.
  Proof.
    intros (m & Hm & Ha) (m' & Hm' & Hb). rewrite Hm in Hm'. injection Hm' as <-.
    now apply (names_unique m).
  Qed.

  Lemma isolation w c w' a o :
    step w c w' -> live w a o -> ~ applied_to (c_args c) a -> live w' a o.
  Proof.
    intros Hs Hl Hn. apply step_effect in Hs as [He Hf]. unfold live in *.
    destruct He as [|x _|b x x' Ha|b x Ha|]; cbn; try easy.
    - destruct (Z.eqb_spec a (e_new (c_env c))) as [->|]; [|easy].
      apply hfind_in in Hl. exfalso. apply Hf. apply (in_map fst) in Hl. exact Hl.
    - rewrite hfind_set_other; [easy|]. intros ->. tauto.
    - rewrite hfind_del_other; [easy|]. intros ->. tauto.
  Qed.

  Lemma isolation_session w cs w' a o :
    session w cs w' -> live w a o -> (forall c, In c cs -> ~ applied_to (c_args c) a) ->
    live w' a o.
  Proof.
    induction 1; intros Hl Hn; [easy|]. apply IHsession.
    - apply (isolation w c); [easy|easy|]. apply Hn. now left.
    - intros c' Hc. apply Hn. now right.
  Qed.

  (** *** Locks. *)
  Lemma bump_all (h h' : list (Z * obj K)) l n n' f d :
    all_locks (World h (bump l f d) n) = (all_locks (World h' l n') + d)%Z.
  Proof. unfold all_locks, bump; cbn. destruct f; cbn; lia. Qed.

  Lemma hset_length h (a : Z) o : List.length (hset h a o) = List.length h.
  Proof. rewrite <- (map_length fst), hset_fst, map_length. reflexivity. Qed.

  Lemma hdel_length h (a : Z) o :
    hfind h a = Some o -> S (List.length (hdel h a)) = List.length h.
  Proof.
    induction h as [|[b x] h IH]; cbn; [discriminate|].
    destruct (Z.eqb a b); cbn; [easy|]. intros H. now rewrite IH.
  Qed.

  Lemma locks_step w c w' :
    step w c w' ->
    (all_locks w' - Z.of_nat (List.length (w_heap w'))
     = all_locks w - Z.of_nat (List.length (w_heap w)))%Z.
  Proof.
    intros Hs. apply step_effect in Hs as [He _].
    destruct He as [|x _|b x x' Ha|b x Ha Hl|].
    - easy.
    - destruct w as [h l n]. unfold wnew. cbn [w_heap w_locks w_lost List.length].
      rewrite (bump_all _ h l n n). lia.
    - destruct w as [h l n]. unfold wset, all_locks. cbn [w_heap w_locks]. now rewrite hset_length.
    - destruct w as [h l n]. unfold wdel. cbn [w_heap w_locks w_lost].
      rewrite (bump_all _ h l n n). unfold live in Hl. cbn in Hl.
      apply hdel_length in Hl. lia.
    - easy.
  Qed.

  Lemma locks_session w cs w' :
    session w cs w' ->
    (all_locks w' - Z.of_nat (List.length (w_heap w'))
     = all_locks w - Z.of_nat (List.length (w_heap w)))%Z.
  Proof.
    induction 1; [easy|]. apply locks_step in H. lia.
  Qed.

  (** Objects of one class. *)
  Definition pop (h : list (Z * obj K)) (f : mexfile) : Z :=
    Z.of_nat (List.length (filter (fun x => of_class f (snd x)) h)).

  Lemma pop_set h a o o' f :
    hfind h a = Some o -> class_of o = class_of o' -> pop (hset h a o') f = pop h f.
  Proof.
    intros Hf Hc. unfold pop. f_equal. revert Hf.
    induction h as [|[b x] h IH]; cbn; [easy|].
    destruct (Z.eqb_spec a b) as [<-|]; cbn.
    - intros [= ->]. unfold of_class. rewrite Hc. destruct (class_of o') as [g|]; [|reflexivity].
      now destruct (file_eqb f g).
    - intros H. destruct (of_class f x); cbn; now rewrite IH.
  Qed.

  Lemma pop_del h a o f :
    hfind h a = Some o ->
    pop h f = (pop (hdel h a) f + (if of_class f o then 1 else 0))%Z.
  Proof.
    unfold pop. induction h as [|[b x] h IH]; cbn; [easy|].
    destruct (Z.eqb_spec a b) as [<-|]; cbn.
    - intros [= ->]. destruct (of_class f o); cbn [List.length]; lia.
    - intros H. specialize (IH H).
      destruct (of_class f x); cbn [List.length]; lia.
  Qed.

  Lemma file_eqb_spec f g : file_eqb f g = true <-> f = g.
  Proof. destruct f, g; cbn; split; congruence. Qed.

  Lemma own_locks_step f w c w' :
    f <> FTri -> step w c w' ->
    (w_locks w' f - pop (w_heap w') f >= w_locks w f - pop (w_heap w) f)%Z.
  Proof.
    intros Hf Hs. apply step_effect in Hs as [He _].
    destruct He as [|x Hx|b x x' Ha Hl Hc Hc'|b x Ha Hl Hc|]; cbn [w_heap w_locks wnew wset wdel wlose].
    - lia.
    - assert (E : pop ((e_new (c_env c), x) :: w_heap w) f
                  = (pop (w_heap w) f + (if of_class f x then 1 else 0))%Z).
      { unfold pop. cbn. destruct (of_class f x); cbn [List.length]; lia. }
      rewrite E. unfold bump.
      destruct (of_class f x) eqn:Eo; [|destruct (file_eqb (c_file c) f); lia].
      unfold of_class in Eo. destruct (class_of x) as [g|] eqn:Eg; [|discriminate].
      apply file_eqb_spec in Eo as <-.
      destruct Hx as [[= ->]|[?|[_ [= ->]]]]; [|discriminate|congruence].
      assert (file_eqb (c_file c) (c_file c) = true) as -> by now apply file_eqb_spec. lia.
    - rewrite (pop_set _ _ x); [lia|exact Hl|congruence].
    - rewrite (pop_del (w_heap w) b x f Hl). unfold bump, of_class. rewrite Hc.
      destruct (file_eqb f (c_file c)) eqn:E.
      + apply file_eqb_spec in E as ->.
        assert (file_eqb (c_file c) (c_file c) = true) as -> by now apply file_eqb_spec. lia.
      + assert (file_eqb (c_file c) f = false) as ->.
        { destruct (file_eqb (c_file c) f) eqn:E'; [|easy].
          apply file_eqb_spec in E' as <-. rewrite <- E. symmetry. apply file_eqb_spec. reflexivity. }
        lia.
    - lia.
  Qed.

  Lemma own_locks_session f w cs w' :
    f <> FTri -> session w cs w' ->
    (w_locks w' f - pop (w_heap w') f >= w_locks w f - pop (w_heap w) f)%Z.
  Proof.
    intros Hf. induction 1; [lia|]. apply (own_locks_step f) in H; [lia|easy].
  Qed.
End Effects.
