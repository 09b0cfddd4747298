(** * More about the gateway: classes of handles, reading commands, errors. *)
From Coq Require Import ZArith Bool String List Lia.
From Verif Require Import Base Num Vec Aabb Geom Ground Shape Rib Str Mesh Shell Sfun Mex SpecMex ProofMex.
Import ListNotations.

Section More.
  Context {K : Type} {NK : Num K}.
  Implicit Types (w : world K) (o : obj K) (m : mx K).

  Ltac peel H :=
    let x := fresh "x" in let Hx := fresh "Hx" in
    apply obind_ret in H as (x & Hx & H).

  Lemma cstr_lit c : ~ In Ascii.zero (lit c) -> cstr (lit c) = lit c.
  Proof.
    generalize (lit c) as l. induction l as [|a l IH]; cbn; [easy|]. intros H.
    destruct (Ascii.eqb_spec a c_nul) as [->|]; [|now rewrite IH; auto].
    exfalso. apply H. now left.
  Qed.

  Lemma str_eqb_refl' (x : str) : str_eqb x x = true.
  Proof. induction x as [|a x IH]; cbn; [easy|]. now rewrite Ascii.eqb_refl. Qed.

  Lemma lit_inj a b : lit a = lit b -> a = b.
  Proof.
    unfold lit. intros H. apply (f_equal string_of_list_ascii) in H.
    now rewrite !string_of_list_ascii_of_string in H.
  Qed.

  Lemma assoc_lit {A} (l : list (string * A)) n x :
    NoDup (map fst l) -> In (n, x) l -> assoc l (lit n) = Some x.
  Proof.
    induction l as [|[b y] l IH]; cbn; [easy|]. intros Hd [[= -> ->]|Hin].
    - now rewrite str_eqb_refl'.
    - inversion Hd; subst. destruct (str_eqb (lit b) (lit n)) eqn:E; [|auto].
      apply str_eqb_eq' in E. apply lit_inj in E. subst.
      exfalso. apply H1. apply (in_map fst) in Hin. exact Hin.
  Qed.

  Lemma table_nodup f : NoDup (map fst (table (K:=K) f)).
  Proof.
    destruct f; cbn; repeat (constructor; [cbn; intuition discriminate|]); constructor.
  Qed.

  (** A call of a known command runs it. *)
  Lemma mex_runs f e w nlhs prhs n c :
    is_command prhs n -> In (n, c) (table f) ->
    mex_call f e w nlhs prhs = returned nlhs (c e w nlhs prhs).
  Proof.
    intros (s & rest & -> & Hs) Hin. unfold mex_call. rewrite Hs.
    now rewrite (assoc_lit _ n c (table_nodup f) Hin).
  Qed.

  (** A call of an unknown one is an error without effect. *)
  Lemma mex_unknown f e w nlhs s rest :
    (forall n, In n (map fst (table (K:=K) f)) -> cstr s <> lit n) ->
    mex_call f e w nlhs (MxChar s :: rest) = Exn w OutOfRange.
  Proof.
    intros H. unfold mex_call. destruct (assoc (table f) (cstr s)) as [c|] eqn:E; [|easy].
    apply assoc_in in E as (n & Hin & Hn). exfalso. apply (H n); [|easy].
    apply (in_map fst) in Hin. exact Hin.
  Qed.

  (** *** The first handle is checked before anything else happens. *)
  Definition checks_self (f : mexfile) (c : command) : Prop :=
    forall e w nlhs prhs a o,
      applied_to prhs a -> live w a o -> class_of o <> Some f ->
      exists x, c e w nlhs prhs = Exn w x.
  Definition checks_kind (c : command) : Prop :=
    forall e w nlhs prhs m,
      nth_error prhs 1 = Some m -> (forall dims d, m <> MxInt U64 false dims d) ->
      exists x, c e w nlhs prhs = Exn w x.

  Definition sel_all {A} (f : mexfile) (sel : obj K -> option A) : Prop :=
    forall o, class_of o <> Some f -> sel o = None.
  Lemma all_shell : sel_all FShell as_shell. Proof. intros []; cbn; congruence. Qed.
  Lemma all_flat : sel_all FFlat as_flat. Proof. intros []; cbn; congruence. Qed.
  Lemma all_mesh : sel_all FMesh as_mesh. Proof. intros []; cbn; congruence. Qed.
  Lemma all_tri : sel_all FTri as_tri. Proof. intros []; cbn; congruence. Qed.

  Lemma handle_wrong {A} f (sel : obj K -> option A) (Hs : sel_all f sel) w m a o :
    names m a -> live w a o -> class_of o <> Some f ->
    get_handle sel w m = Throw RuntimeError.
  Proof.
    intros (dims & r & ->) Hl Hc. unfold get_handle. destruct (Nat.eqb _ _); [|easy].
    cbn. unfold live in Hl. rewrite Hl. now rewrite (Hs o Hc).
  Qed.

  Lemma handle_kind {A} (sel : obj K -> option A) w m :
    (forall dims d, m <> MxInt U64 false dims d) ->
    get_handle sel w m = Throw RuntimeError.
  Proof.
    intros H. destruct m as [| |c cp dims d| | |]; try easy.
    destruct c; try easy. destruct cp; try easy. now destruct (H dims d).
  Qed.

  Lemma self_wrong {A} f (sel : obj K -> option A) (Hs : sel_all f sel) nin nout w nlhs prhs a o :
    applied_to prhs a -> live w a o -> class_of o <> Some f ->
    (let* _ := arity nin nout nlhs prhs in let* m := arg prhs 1 in get_handle sel w m)
    = Throw RuntimeError.
  Proof.
    intros (m & Hm & Hn) Hl Hc. unfold arity, assert.
    destruct (Nat.eqb _ nin); [|easy]. destruct (Nat.eqb nlhs nout); [|easy].
    cbn [obind]. unfold arg. rewrite Hm. cbn [obind]. now apply (handle_wrong f sel Hs w m a o).
  Qed.

  Lemma self_kind {A} (sel : obj K -> option A) nin nout w nlhs prhs m :
    nth_error prhs 1 = Some m -> (forall dims d, m <> MxInt U64 false dims d) ->
    (let* _ := arity nin nout nlhs prhs in let* m := arg prhs 1 in get_handle sel w m)
    = Throw RuntimeError.
  Proof.
    intros Hm Hn. unfold arity, assert.
    destruct (Nat.eqb _ nin); [|easy]. destruct (Nat.eqb nlhs nout); [|easy].
    cbn [obind]. unfold arg. rewrite Hm. cbn [obind]. now apply handle_kind.
  Qed.

  Ltac unf_cmd :=
    unfold shell_resize, shell_get, shell_at_y, shell_at_i, shell_point_i, shell_point,
      shell_translate, shell_rotate, shell_transform, shell_check, shell_setup, self_shell,
      flat_get, flat_make, flat_set_origin, flat_set_normal, flat_set_plane, flat_set_friction,
      flat_approx, flat_copy_cmd, self_flat, mesh_get_tri, mesh_get_vertices, mesh_size_cmd,
      mesh_copy_cmd, self_mesh, tri_get, tri_make, tri_copy_cmd, self_tri, do_delete.

  Lemma table_checks f :
    Forall (fun x => fst x = "new"%string \/ checks_self f (snd x)) (table f).
  Proof.
    destruct f; cbn [table]; unfold shell_table, flat_table, mesh_table, tri_table;
      (apply Forall_cons; [now left|]);
      repeat (apply Forall_cons || apply Forall_nil); right; cbn [snd];
      intros e w nlhs prhs a o Ha Hl Hc; unf_cmd;
      try (rewrite (self_wrong FShell as_shell all_shell _ _ w nlhs prhs a o Ha Hl Hc);
           cbn; now eauto);
      try (rewrite (self_wrong FFlat as_flat all_flat _ _ w nlhs prhs a o Ha Hl Hc);
           cbn; now eauto);
      try (rewrite (self_wrong FMesh as_mesh all_mesh _ _ w nlhs prhs a o Ha Hl Hc);
           cbn; now eauto);
      try (rewrite (self_wrong FTri as_tri all_tri _ _ w nlhs prhs a o Ha Hl Hc);
           cbn; now eauto).
    - destruct Ha as (m & Hm & Hn). unfold arg. rewrite Hm. cbn [obind].
      rewrite (handle_wrong FFlat as_flat all_flat w m a o Hn Hl Hc). cbn. eauto.
    - unfold mesh_load_cmd, assert. destruct (_ || _)%bool; [|cbn; eauto].
      destruct (Nat.eqb nlhs 1); [|cbn; eauto]. cbn [obind].
      destruct Ha as (m & Hm & Hn). unfold arg at 1. rewrite Hm. cbn [obind].
      rewrite (handle_wrong FMesh as_mesh all_mesh w m a o Hn Hl Hc). cbn. eauto.
  Qed.

  Lemma table_kinds f :
    Forall (fun x => fst x = "new"%string \/ checks_kind (snd x)) (table f).
  Proof.
    destruct f; cbn [table]; unfold shell_table, flat_table, mesh_table, tri_table;
      (apply Forall_cons; [now left|]);
      repeat (apply Forall_cons || apply Forall_nil); right; cbn [snd];
      intros e w nlhs prhs m Hm Hn; unf_cmd;
      try (rewrite (self_kind as_shell _ _ w nlhs prhs m Hm Hn); cbn; now eauto);
      try (rewrite (self_kind as_flat _ _ w nlhs prhs m Hm Hn); cbn; now eauto);
      try (rewrite (self_kind as_mesh _ _ w nlhs prhs m Hm Hn); cbn; now eauto);
      try (rewrite (self_kind as_tri _ _ w nlhs prhs m Hm Hn); cbn; now eauto).
    - unfold arg. rewrite Hm. cbn [obind]. rewrite (handle_kind as_flat w m Hn). cbn. eauto.
    - unfold mesh_load_cmd, assert. destruct (_ || _)%bool; [|cbn; eauto].
      destruct (Nat.eqb nlhs 1); [|cbn; eauto]. cbn [obind].
      unfold arg at 1. rewrite Hm. cbn [obind]. rewrite (handle_kind as_mesh w m Hn). cbn. eauto.
  Qed.

  Lemma self_rejected f e w nlhs prhs a o :
    (forall s rest, prhs = MxChar s :: rest -> cstr s <> lit "new") ->
    applied_to prhs a -> live w a o -> class_of o <> Some f ->
    exists x, mex_call f e w nlhs prhs = Exn w x.
  Proof.
    intros Hnew Ha Hl Hc. unfold mex_call. destruct prhs as [|p prhs]; [eauto|].
    destruct p; try eauto.
    destruct (assoc (table f) (cstr s)) as [c|] eqn:E; [|eauto].
    apply assoc_in in E as (n & Hin & Hn).
    pose proof (table_checks f) as Hf. rewrite Forall_forall in Hf.
    destruct (Hf _ Hin) as [Hf'|Hf'].
    - exfalso. cbn in Hf'. subst n. now apply (Hnew s prhs eq_refl).
    - destruct (Hf' e w nlhs (MxChar s :: prhs) a o Ha Hl Hc) as [x Hx].
      cbn [snd] in Hx. rewrite Hx. cbn. eauto.
  Qed.

  Lemma kind_rejected f e w nlhs prhs m :
    (forall s rest, prhs = MxChar s :: rest -> cstr s <> lit "new") ->
    nth_error prhs 1 = Some m -> (forall dims d, m <> MxInt U64 false dims d) ->
    exists x, mex_call f e w nlhs prhs = Exn w x.
  Proof.
    intros Hnew Hm Hk. unfold mex_call. destruct prhs as [|p prhs]; [eauto|].
    destruct p; try eauto.
    destruct (assoc (table f) (cstr s)) as [c|] eqn:E; [|eauto].
    apply assoc_in in E as (n & Hin & Hn).
    pose proof (table_kinds f) as Hf. rewrite Forall_forall in Hf.
    destruct (Hf _ Hin) as [Hf'|Hf'].
    - exfalso. cbn in Hf'. subst n. now apply (Hnew s prhs eq_refl).
    - destruct (Hf' e w nlhs (MxChar s :: prhs) m Hm Hk) as [x Hx].
      cbn [snd] in Hx. rewrite Hx. cbn. eauto.
  Qed.

  (** *** The second handle. *)
  Lemma self_good {A} (sel : obj K -> option A) nin nout w nlhs prhs a (x : A) o dims r :
    List.length prhs = nin -> nlhs = nout ->
    nth_error prhs 1 = Some (MxInt U64 false dims (a :: r)) -> numel dims = 1%nat ->
    live w a o -> sel o = Some x ->
    (let* _ := arity nin nout nlhs prhs in let* m := arg prhs 1 in get_handle sel w m)
    = Ret (a, x).
  Proof.
    intros <- <- Hm Hd Hl Hs. unfold arity, assert. rewrite !Nat.eqb_refl. cbn [obind].
    unfold arg. rewrite Hm. cbn [obind]. unfold get_handle. rewrite Hd. cbn [Nat.eqb head obind].
    unfold live in Hl. now rewrite Hl, Hs.
  Qed.

  Lemma self_live {A} f (sel : obj K -> option A) (Hall : forall o, class_of o = Some f -> exists x, sel o = Some x)
    nin nout w nlhs prhs a o :
    applied_to prhs a -> live w a o -> class_of o = Some f ->
    (exists x, (let* _ := arity nin nout nlhs prhs in let* m := arg prhs 1 in get_handle sel w m)
               = Ret (a, x)) \/
    (let* _ := arity nin nout nlhs prhs in let* m := arg prhs 1 in get_handle sel w m)
    = Throw RuntimeError.
  Proof.
    intros (m & Hm & dims & r & ->) Hl Hc. unfold arity, assert.
    destruct (Nat.eqb _ nin); [|now right]. destruct (Nat.eqb nlhs nout); [|now right].
    cbn [obind]. unfold arg. rewrite Hm. cbn [obind]. unfold get_handle.
    destruct (Nat.eqb _ 1); [|now right]. cbn [head obind]. unfold live in Hl. rewrite Hl.
    destruct (Hall o Hc) as [x ->]. left. eauto.
  Qed.
  Lemma some_shell o : class_of o = Some FShell -> exists x, as_shell o = Some x.
  Proof. destruct o; cbn; try discriminate. eauto. Qed.
  Lemma some_flat o : class_of o = Some FFlat -> exists x, as_flat o = Some x.
  Proof. destruct o; cbn; try discriminate. eauto. Qed.
  Lemma some_mesh o : class_of o = Some FMesh -> exists x, as_mesh o = Some x.
  Proof. destruct o; cbn; try discriminate. eauto. Qed.
  Lemma some_tri o : class_of o = Some FTri -> exists x, as_tri o = Some x.
  Proof. destruct o; cbn; try discriminate. eauto. Qed.

  Ltac two Hall Hs :=
    match goal with
    | Ha : applied_to ?prhs ?a, Hl : live ?w ?a ?o, Hc : class_of ?o = Some ?f
      |- context [arity ?nin ?nout ?nlhs ?prhs] =>
        destruct (self_live f _ Hall nin nout w nlhs prhs a o Ha Hl Hc) as [[x Eself]|Eself]; rewrite Eself;
        [|cbn; now eauto]
    end; cbn [obind];
    match goal with
    | Hb : exists m, nth_error ?prhs 2 = Some m /\ names m ?b, Hl : live ?w ?b ?o,
      Hc : class_of ?o <> Some ?g |- _ =>
        let m := fresh "m" in let Hm := fresh "Hm" in let Hn := fresh "Hn" in
        destruct Hb as (m & Hm & Hn);
        unfold arg; rewrite Hm; cbn [obind];
        rewrite (handle_wrong g _ Hs w m b o Hn Hl Hc); cbn; now eauto
    end.

  Lemma second_rejected f g c e w nlhs prhs a o b o' :
    is_command prhs c -> second_class f c g ->
    applied_to prhs a -> live w a o -> class_of o = Some f ->
    (exists m, nth_error prhs 2 = Some m /\ names m b) -> live w b o' -> class_of o' <> Some g ->
    exists x, mex_call f e w nlhs prhs = Exn w x.
  Proof.
    intros Hcmd H2 Ha Hl Hc Hb Hl' Hc'.
    assert (Hgo : forall cmd, In (c, cmd) (table f) -> (exists x, cmd e w nlhs prhs = Exn w x) ->
                  exists x, mex_call f e w nlhs prhs = Exn w x).
    { intros cmd Hin [x Hx]. rewrite (mex_runs f e w nlhs prhs c cmd Hcmd Hin), Hx. cbn. eauto. }
    cbn in H2.
    repeat (destruct H2 as [[= <- <- <-]|H2]); [..|easy];
      (eapply Hgo; [cbn [table]; unfold shell_table, flat_table, mesh_table, tri_table; cbn; tauto|]);
      unf_cmd.
    - two (@some_shell) (@all_flat).
    - two (@some_shell) (@all_mesh).
    - two (@some_flat) (@all_flat).
    - two (@some_flat) (@all_flat).
    - two (@some_flat) (@all_flat).
    - two (@some_mesh) (@all_mesh).
    - two (@some_tri) (@all_tri).
  Qed.

  (** *** Reading commands and errors. *)
  Definition reads (c : command) : Prop :=
    forall e w nlhs prhs,
      match c e w nlhs prhs with
      | Ok w' _ | Exn w' _ =>
        w_heap w' = w_heap w \/ exists o, w_heap w' = (e_new e, o) :: w_heap w
      | Undef => True
      end.
  Definition errs (c : command) : Prop :=
    forall e w nlhs prhs w' x, c e w nlhs prhs = Exn w' x -> w_heap w' = w_heap w.
  Definition nouts (k : nat) (c : command) : Prop :=
    forall e w nlhs prhs w' outs, c e w nlhs prhs = Ok w' outs -> nlhs = k /\ List.length outs = k.

  Lemma query_reads (e : env K) w r :
    match query w r with
    | Ok w' _ | Exn w' _ => w_heap w' = w_heap w \/ exists o, w_heap w' = (e_new e, o) :: w_heap w
    | Undef => True end.
  Proof. destruct r; cbn; auto. Qed.
  Lemma create_reads f e w r :
    match create f e w r with
    | Ok w' _ | Exn w' _ => w_heap w' = w_heap w \/ exists o, w_heap w' = (e_new e, o) :: w_heap w
    | Undef => True end.
  Proof. destruct r; cbn; eauto. Qed.

  Lemma table_reads f :
    Forall (fun x => In (fst x) changing \/ reads (snd x)) (table f).
  Proof.
    destruct f; cbn [table]; unfold shell_table, flat_table, mesh_table, tri_table;
      repeat (apply Forall_cons || apply Forall_nil); cbn [fst snd];
      try (left; cbn; now intuition); right; intros e w nlhs prhs;
      try apply query_reads; try apply create_reads.
    - unfold mesh_new. destruct (let* _ := _ in _); cbn; auto.
      destruct (mesh_new_load e prhs) as [[[m b|m x|]|]|x|]; cbn; eauto.
    - unfold mesh_get_vertices. destruct (let* _ := _ in _); cbn; auto.
  Qed.

  Lemma reading_keeps f e w nlhs prhs w' n :
    is_command prhs n -> ~ In n changing ->
    ((exists outs, mex_call f e w nlhs prhs = Ok w' outs) \/
     (exists x, mex_call f e w nlhs prhs = Exn w' x)) ->
    w_heap w' = w_heap w \/ exists o, w_heap w' = (e_new e, o) :: w_heap w.
  Proof.
    intros (s & rest & -> & Hs) Hn H. unfold mex_call in H.
    destruct (assoc (table f) (cstr s)) as [c|] eqn:E.
    - apply assoc_in in E as (k & Hin & Hk). rewrite Hs in Hk. apply lit_inj in Hk. subst k.
      pose proof (table_reads f) as Hf. rewrite Forall_forall in Hf.
      destruct (Hf _ Hin) as [Hf'|Hf']; [now cbn in Hf'|].
      specialize (Hf' e w nlhs (MxChar s :: rest)). cbn [snd] in Hf'.
      destruct (c e w nlhs (MxChar s :: rest)) as [w1 o1|w1 x1|]; unfold returned in H.
      + destruct (Nat.ltb _ _); destruct H as [[? H]|[? H]]; try discriminate; injection H as <-; easy.
      + destruct H as [[? H]|[? H]]; try discriminate; injection H as <-; easy.
      + destruct H as [[? H]|[? H]]; discriminate.
    - destruct H as [[? H]|[? H]]; [discriminate|]. injection H as <-. now left.
  Qed.

  (** Commands whose errors leave every object as it was. *)
  Lemma query_errs w r w' x : query w r = Exn w' x -> w_heap w' = w_heap w.
  Proof. destruct r; cbn; try discriminate. now intros [= <-]. Qed.
  Lemma create_errs f e w r w' x : create f e w r = Exn w' x -> w_heap w' = w_heap w.
  Proof. destruct r; cbn; try discriminate. now intros [= <-]. Qed.
  Lemma update_errs w r w' x : update w r = Exn w' x -> w_heap w' = w_heap w.
  Proof. destruct r as [[]| |]; cbn; try discriminate. now intros [= <-]. Qed.

  Definition unsafe_errors : list string :=
    ["resize"; "setupFlat"; "setupMesh"; "setOrigin"; "load"]%string.

  Lemma arity_ret nin nout nlhs (prhs : list (mx K)) u :
    arity nin nout nlhs prhs = Ret u -> nlhs = nout.
  Proof.
    unfold arity, assert. destruct (Nat.eqb _ nin); [|discriminate].
    destruct (Nat.eqb_spec nlhs nout); [easy|discriminate].
  Qed.

  (** The number of outputs asserted is the number assigned. *)
  Lemma table_errs f :
    Forall (fun x => In (fst x) unsafe_errors \/
                     (errs (snd x) /\ (nouts 0 (snd x) \/ nouts 1 (snd x)))) (table f).
  Proof.
    assert (Q : forall {A} nin nout w nlhs prhs (sel : obj K -> option A) (g : Z * A -> outcome (mx K)) w' outs,
      query w (let* h := (let* _ := arity nin nout nlhs prhs in let* m := arg prhs 1 in get_handle sel w m) in g h)
      = Ok w' outs -> nlhs = nout /\ List.length outs = 1%nat).
    { intros A nin nout w nlhs prhs sel g w' outs H.
      destruct (let* h := _ in g h) as [x| |] eqn:E; cbn in H; try discriminate. injection H as <- <-.
      peel E. peel Hx. apply arity_ret in Hx0. now split. }
    assert (C : forall {A} nin nout f e w nlhs prhs (sel : obj K -> option A) (g : Z * A -> outcome (obj K)) w' outs,
      create f e w (let* h := (let* _ := arity nin nout nlhs prhs in let* m := arg prhs 1 in get_handle sel w m) in g h)
      = Ok w' outs -> nlhs = nout /\ List.length outs = 1%nat).
    { intros A nin nout f0 e w nlhs prhs sel g w' outs H.
      destruct (let* h := _ in g h) as [x| |] eqn:E; cbn in H; try discriminate. injection H as <- <-.
      peel E. peel Hx. apply arity_ret in Hx0. now split. }
    assert (U : forall {A} nin nout w nlhs prhs (sel : obj K -> option A) (g : Z * A -> outcome (Z * obj K)) w' outs,
      update w (let* h := (let* _ := arity nin nout nlhs prhs in let* m := arg prhs 1 in get_handle sel w m) in g h)
      = Ok w' outs -> nlhs = nout /\ List.length outs = 0%nat).
    { intros A nin nout w nlhs prhs sel g w' outs H.
      destruct (let* h := _ in g h) as [[a x]| |] eqn:E; cbn in H; try discriminate. injection H as <- <-.
      peel E. peel Hx. apply arity_ret in Hx0. now split. }
    assert (D : forall {A} f e w nlhs prhs (sel : obj K -> option A) w' outs,
      do_delete f sel e w nlhs prhs = Ok w' outs -> nlhs = 0%nat /\ List.length outs = 0%nat).
    { intros A f0 e w nlhs prhs sel w' outs H. unfold do_delete in H.
      destruct (let* _ := _ in _) as [[a x]| |] eqn:E; try discriminate. injection H as <- <-.
      peel E. apply arity_ret in Hx. now split. }
    assert (De : forall {A} f e w nlhs prhs (sel : obj K -> option A) w' x,
      do_delete f sel e w nlhs prhs = Exn w' x -> w_heap w' = w_heap w).
    { intros A f0 e w nlhs prhs sel w' x H. unfold do_delete in H.
      destruct (let* _ := _ in _) as [[a y]| |]; try discriminate. now injection H as <- _. }
    destruct f; cbn [table]; unfold shell_table, flat_table, mesh_table, tri_table;
      repeat (apply Forall_cons || apply Forall_nil); cbn [fst snd];
      try (left; cbn; now intuition); right; split;
      try (intros e w nlhs prhs w' x H;
           (eapply query_errs; exact H) || (eapply create_errs; exact H) ||
           (eapply update_errs; exact H) || (eapply De; exact H));
      try (left; intros e w nlhs prhs w' outs H; (eapply U; exact H) || (eapply D; exact H));
      try (right; intros e w nlhs prhs w' outs H; (eapply Q; exact H) || (eapply C; exact H)).
    - right; intros e w nlhs prhs w' outs H. unfold shell_new in H.
      destruct (let* _ := _ in _) eqn:E; cbn in H; try discriminate. injection H as <- <-.
      peel E. apply arity_ret in Hx. now split.
    - right; intros e w nlhs prhs w' outs H. unfold flat_new in H.
      destruct (let* _ := _ in _) eqn:E; cbn in H; try discriminate. injection H as <- <-.
      peel E. peel E. unfold assert in Hx0. destruct (Nat.eqb_spec nlhs 1); [now split|discriminate].
    - intros e w nlhs prhs w' x H. unfold mesh_new in H.
      destruct (let* _ := _ in _); try discriminate; [|now injection H as <- _].
      destruct (mesh_new_load e prhs) as [[[m b|m y|]|]|y|]; try discriminate; now injection H as <- _.
    - right; intros e w nlhs prhs w' outs H. unfold mesh_new in H.
      destruct (let* _ := _ in _) eqn:E; try discriminate.
      peel E. unfold assert in E. destruct (Nat.eqb_spec nlhs 1); [|discriminate].
      destruct (mesh_new_load e prhs) as [[[m b|m y|]|]|y|]; try discriminate; injection H as <- <-; now split.
    - intros e w nlhs prhs w' x H. unfold mesh_get_vertices in H.
      destruct (let* _ := _ in _); try discriminate. now injection H as <- _.
    - right; intros e w nlhs prhs w' outs H. unfold mesh_get_vertices in H.
      destruct (let* _ := _ in _) eqn:E; try discriminate. injection H as <- <-.
      peel E. unfold self_mesh in Hx. peel Hx. apply arity_ret in Hx0. now split.
    - right; intros e w nlhs prhs w' outs H. unfold tri_new in H.
      destruct (let* _ := _ in _) eqn:E; cbn in H; try discriminate. injection H as <- <-.
      peel E. peel E. unfold assert in Hx0. destruct (Nat.eqb_spec nlhs 1); [now split|discriminate].
  Qed.

  Lemma error_keeps f e w nlhs prhs w' x :
    (forall n, In n unsafe_errors -> ~ is_command prhs n) ->
    mex_call f e w nlhs prhs = Exn w' x -> w_heap w' = w_heap w.
  Proof.
    intros Hu H. unfold mex_call in H. destruct prhs as [|p rest]; [now injection H as <-|].
    destruct p; try (now injection H as <-).
    destruct (assoc (table f) (cstr s)) as [c|] eqn:E; [|now injection H as <-].
    apply assoc_in in E as (k & Hin & Hk).
    pose proof (table_errs f) as Hf. rewrite Forall_forall in Hf.
    destruct (Hf _ Hin) as [Hf'|[He Ho]]; cbn [fst snd] in *.
    - exfalso. apply (Hu k Hf'). exists s, rest. now split.
    - unfold returned in H.
      destruct (c e w nlhs (MxChar s :: rest)) as [w1 o1|w1 x1|] eqn:Ec; [| |discriminate].
      + exfalso. assert (List.length o1 = nlhs) as Hlen.
        { destruct Ho as [Ho|Ho]; destruct (Ho e w nlhs _ _ _ Ec); congruence. }
        rewrite Hlen, Nat.ltb_irrefl in H. discriminate.
      + injection H as <- <-. now apply (He e w nlhs _ _ _ Ec).
  Qed.
End More.
