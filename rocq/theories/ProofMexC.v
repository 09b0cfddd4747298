(** * Values that pass through the gateway. *)
From Coq Require Import ZArith Bool String List Lia.
From Verif Require Import Base Num Vec Aabb Geom Ground Shape Rib Str Mesh Shell Sfun Mex SpecMex ProofMex ProofMexB.
Import ListNotations.
Local Open Scope num_scope.

Section Values.
  Context {K : Type} {NK : Num K}.
  Implicit Types (w : world K) (o : obj K) (m : mx K).

  Ltac peel H :=
    let x := fresh "x" in let Hx := fresh "Hx" in
    apply obind_ret in H as (x & Hx & H).

  (** *** Integers. *)
  Lemma wrap_id n z : (0 < n)%Z -> (- 2 ^ (n - 1) <= z < 2 ^ (n - 1))%Z -> wrap n z = z.
  Proof.
    intros Hn Hz. unfold wrap.
    assert (E : (2 ^ n = 2 * 2 ^ (n - 1))%Z).
    { rewrite <- (Z.pow_succ_r 2 (n - 1)) by lia. f_equal. lia. }
    rewrite Z.mod_small by lia. lia.
  Qed.

  Lemma wrap32_id z : (- 2 ^ 31 <= z < 2 ^ 31)%Z -> wrap 32 z = z.
  Proof. intros H. now apply (wrap_id 32). Qed.

  Lemma whole_int64 (e : env K) m z :
    whole e m z -> (0 <= z < 2 ^ 63)%Z -> mex_get_int64 e m = Ret z.
  Proof.
    intros [(c & b & -> & Hc)|(x & [-> | ->] & Hx)] Hz; unfold mex_get_int64; cbn; try easy.
    unfold in_class in Hc. destruct c; cbn; try easy.
    - f_equal. apply Z.mod_small. lia.
    - f_equal. apply (wrap_id 64); [lia|]. change (64 - 1)%Z with 63%Z. lia.
  Qed.

  Lemma whole_int (e : env K) m z :
    whole e m z -> (0 <= z < 2 ^ 31)%Z -> get_int e m = Ret z.
  Proof.
    intros Hw Hz. unfold get_int. rewrite (whole_int64 e m z Hw) by lia. cbn.
    now rewrite wrap32_id by lia.
  Qed.

  Lemma whole_index (e : env K) m z :
    whole e m z -> (1 <= z < 2 ^ 31)%Z -> get_index e m = Ret (Z.to_nat (z - 1)).
  Proof.
    intros Hw Hz. unfold get_index. rewrite (whole_int e m z Hw) by lia.
    cbn [obind]. unfold index_of_int. destruct (Z.eqb_spec z (- 2 ^ 31)); [lia|].
    rewrite Z.mod_small by lia. reflexivity.
  Qed.

  (** *** Effects as worlds. *)
  Lemma wset_changed w a o o' : live w a o -> changed_to w (wset w a o') a o'.
  Proof.
    intros Hl. unfold changed_to, live in *. cbn. split; [now apply (hfind_set_same _ a o' o)|].
    split; [|easy]. intros b Hb. now apply hfind_set_other.
  Qed.

  Lemma wnew_extended f w a o : extended_by f w (wnew f w a o) a o.
  Proof.
    unfold extended_by, live. cbn. rewrite Z.eqb_refl. split; [easy|]. split; [|easy].
    intros b Hb. now destruct (Z.eqb_spec b a).
  Qed.

  (** *** Calls with a live handle of the right class. *)
  Lemma self_ok {A} (sel : obj K -> option A) nin w nlhs rest c a (x : A) o :
    S (S (List.length rest)) = nin -> live w a o -> sel o = Some x ->
    (let* _ := arity nin nlhs nlhs (c :: mx_handle a :: rest) in
     let* m := arg (c :: mx_handle a :: rest) 1 in get_handle sel w m) = Ret (a, x).
  Proof.
    intros <- Hl Hs. unfold arity, assert. cbn [List.length]. rewrite !Nat.eqb_refl. cbn.
    unfold live in Hl. now rewrite Hl, Hs.
  Qed.

  Lemma text_command c rest : ~ In Ascii.zero (lit c) -> is_command (K:=K) (text c :: rest) c.
  Proof. intros H. exists (lit c), rest. split; [easy|]. now apply cstr_lit. Qed.

  Ltac nozero := cbn; intuition discriminate.
  Ltac run n :=
    erewrite (mex_runs _ _ _ _ _ n);
    [ | apply text_command; nozero
      | cbn [table]; unfold shell_table, flat_table, mesh_table, tri_table; cbn; tauto ].

  (** Reading commands of a shell. *)
  Lemma shell_get_ok e w a s n (g : shell K -> outcome (mx K)) m :
    In (n, shell_get g) shell_table -> ~ In Ascii.zero (lit n) ->
    live w a (OShell s) -> g s = Ret m ->
    mex_call FShell e w 1 [text n; mx_handle a] = Ok w [m].
  Proof.
    intros Hin Hz Hl Hg. rewrite (mex_runs FShell e w 1 _ n (shell_get g)); [|now apply text_command|exact Hin].
    unfold shell_get, self_shell.
    rewrite (self_ok as_shell 2 w 1 [] _ a s (OShell s) eq_refl Hl eq_refl). cbn. now rewrite Hg.
  Qed.

  (** [delete]. *)
  Lemma delete_ok f e w a o :
    live w a o -> class_of o = Some f ->
    mex_call f e w 0 [text "delete"; mx_handle a] = Ok (wdel f w a) [].
  Proof.
    intros Hl Hc. destruct f; destruct o; try discriminate.
    - rewrite (mex_runs FShell e w 0 _ "delete" (do_delete FShell as_shell)); [|apply text_command; nozero|cbn; tauto].
      unfold do_delete. now rewrite (self_ok as_shell 2 w 0 [] _ a s _ eq_refl Hl eq_refl).
    - rewrite (mex_runs FFlat e w 0 _ "delete" (do_delete FFlat as_flat)); [|apply text_command; nozero|cbn; tauto].
      unfold do_delete. now rewrite (self_ok as_flat 2 w 0 [] _ a g _ eq_refl Hl eq_refl).
    - rewrite (mex_runs FMesh e w 0 _ "delete" (do_delete FMesh as_mesh)); [|apply text_command; nozero|cbn; tauto].
      unfold do_delete. now rewrite (self_ok as_mesh 2 w 0 [] _ a m _ eq_refl Hl eq_refl).
    - rewrite (mex_runs FTri e w 0 _ "delete" (do_delete FTri as_tri)); [|apply text_command; nozero|cbn; tauto].
      unfold do_delete. now rewrite (self_ok as_tri 2 w 0 [] _ a t _ eq_refl Hl eq_refl).
  Qed.

  (** [new] yields a handle to an object of the class of the file. *)
  Lemma new_ok f e w nlhs prhs w1 outs :
    is_command prhs "new" -> mex_call f e w nlhs prhs = Ok w1 outs ->
    nlhs = 1%nat /\ outs = [mx_handle (e_new e)] /\
    exists o, class_of o = Some f /\ w1 = wnew f w (e_new e) o.
  Proof.
    intros Hc H.
    assert (R : forall c, In ("new"%string, c) (table f) ->
      (forall w' os, c e w nlhs prhs = Ok w' os ->
         nlhs = 1%nat /\ os = [mx_handle (e_new e)] /\
         exists o, class_of o = Some f /\ w' = wnew f w (e_new e) o) ->
      nlhs = 1%nat /\ outs = [mx_handle (e_new e)] /\
      exists o, class_of o = Some f /\ w1 = wnew f w (e_new e) o).
    { intros c Hin Hx. rewrite (mex_runs f e w nlhs prhs "new" c Hc Hin) in H.
      unfold returned in H. destruct (c e w nlhs prhs) as [w' os| |] eqn:E; try discriminate.
      destruct (Nat.ltb _ _); [discriminate|]. injection H as <- <-. now apply Hx. }
    destruct f.
    - apply (R shell_new); [cbn; tauto|]. intros w' os E. unfold shell_new in E.
      destruct (let* _ := _ in _) eqn:E1; cbn in E; try discriminate. injection E as <- <-.
      peel E1. apply arity_ret in Hx. repeat peel E1. injection E1 as <-. split; [easy|]. split; [easy|]. eexists. split; [|reflexivity]. reflexivity.
    - apply (R flat_new); [cbn; tauto|]. intros w' os E. unfold flat_new in E.
      destruct (let* _ := _ in _) eqn:E1; cbn in E; try discriminate. injection E as <- <-.
      peel E1. peel E1. unfold assert in Hx0. destruct (Nat.eqb_spec nlhs 1); [|discriminate].
      peel E1. injection E1 as <-. split; [easy|]. split; [easy|]. eexists. split; [|reflexivity]. reflexivity.
    - apply (R mesh_new); [cbn; tauto|]. intros w' os E. unfold mesh_new in E.
      destruct (let* _ := _ in _) eqn:E1; try discriminate.
      peel E1. unfold assert in E1. destruct (Nat.eqb_spec nlhs 1); [|discriminate].
      destruct (mesh_new_load e prhs) as [[[m b|m y|]|]|y|]; try discriminate;
        injection E as <- <-; (split; [easy|split; [easy|eexists; split; [|reflexivity]; reflexivity]]).
    - apply (R tri_new); [cbn; tauto|]. intros w' os E. unfold tri_new in E.
      destruct (let* _ := _ in _) eqn:E1; cbn in E; try discriminate. injection E as <- <-.
      peel E1. peel E1. unfold assert in Hx0. destruct (Nat.eqb_spec nlhs 1); [|discriminate].
      peel E1. injection E1 as <-. split; [easy|]. split; [easy|]. eexists. split; [|reflexivity]. reflexivity.
  Qed.

  Lemma new_delete f e e' w nlhs prhs w1 outs :
    is_command prhs "new" -> mex_call f e w nlhs prhs = Ok w1 outs ->
    exists h, outs = [h] /\
      exists w2, mex_call f e' w1 0 [text "delete"; h] = Ok w2 [] /\
        w_heap w2 = w_heap w /\ (forall g, w_locks w2 g = w_locks w g) /\ w_lost w2 = w_lost w.
  Proof.
    intros Hc H. destruct (new_ok f e w nlhs prhs w1 outs Hc H) as (_ & -> & o & Ho & ->).
    eexists; split; [reflexivity|]. eexists; split.
    - apply (delete_ok f e' _ (e_new e) o); [|easy]. unfold live. cbn. now rewrite Z.eqb_refl.
    - cbn. rewrite Z.eqb_refl. split; [easy|]. split; [|easy].
      intros g. unfold bump. destruct (file_eqb f g); lia.
  Qed.

  Lemma delete_effect f e w a o :
    proper w -> live w a o -> class_of o = Some f ->
    exists w', mex_call f e w 0 [text "delete"; mx_handle a] = Ok w' [] /\
      hfind (w_heap w') a = None /\
      (forall b, b <> a -> hfind (w_heap w') b = hfind (w_heap w) b) /\
      (forall g, w_locks w' g = if file_eqb f g then w_locks w g - 1 else w_locks w g)%Z.
  Proof.
    intros Hp Hl Hc. eexists. split; [now apply (delete_ok f e w a o)|]. cbn.
    split; [now apply hfind_del_same|]. split.
    - intros b Hb. now apply hfind_del_other.
    - intros g. unfold bump. destruct (file_eqb f g); lia.
  Qed.

  (** The constructors. *)
  Lemma new_shell_ok e w m n rx mx ry my ly :
    whole e m n -> (0 <= n < 2 ^ 31)%Z ->
    mex_call FShell e w 1
      [text "new"; m; mx_scalar rx; mx_scalar mx; mx_scalar ry; mx_scalar my; mx_scalar ly]
    = create FShell e w (let* s := mk_shell (Z.to_nat n) rx mx ry my ly in Ret (OShell s)).
  Proof.
    intros Hw Hn.
    rewrite (mex_runs FShell e w 1 _ "new" shell_new); [|apply text_command; nozero|cbn; tauto].
    unfold shell_new, arity, arg. cbn [List.length Nat.eqb assert obind nth_error].
    rewrite (whole_int e m n Hw Hn). cbn [obind].
    cbn [mex_get_scalar_value dims2 mx_dims mx_scalar obind fst snd Nat.eqb andb mx_get_scalar head].
    unfold new_shell. destruct (Z.ltb_spec n 0); [lia|].
    destruct (mk_shell _ _ _ _ _ _); reflexivity.
  Qed.

  Lemma new_flat_ok e w mu (o d : vec3 K) :
    mex_call FFlat e w 1 [text "new"; mx_scalar mu; mx_vec o; mx_vec d]
    = create FFlat e w (let* g := mk_flat mu o d in Ret (OFlat g)).
  Proof.
    rewrite (mex_runs FFlat e w 1 _ "new" flat_new); [|apply text_command; nozero|cbn; tauto].
    unfold flat_new. cbn -[mk_flat create]. destruct o, d. cbn.
    destruct (mk_flat _ _ _); reflexivity.
  Qed.

  (** *** Poses. *)
  Lemma get_affine_44 d :
    List.length d = 16%nat ->
    get_affine (matrix 4 4 d) = Ret (decode (fun k => nth k d #0)).
  Proof.
    intros H. do 16 (destruct d as [|? d]; [discriminate|]). destruct d; [|discriminate].
    reflexivity.
  Qed.

  Lemma encode_decode d :
    encode (decode (fun k => nth k d #0)) = homogeneous d.
  Proof. reflexivity. Qed.

  Lemma transform_ok e w a s d :
    live w a (OShell s) -> List.length d = 16%nat ->
    mex_call FShell e w 0 [text "transform"; mx_handle a; matrix 4 4 d]
    = Ok (wset w a (OShell (transform s (decode (fun k => nth k d #0))))) [].
  Proof.
    intros Hl Hd.
    rewrite (mex_runs FShell e w 0 _ "transform" shell_transform); [|apply text_command; nozero|cbn; tauto].
    unfold shell_transform, self_shell.
    rewrite (self_ok as_shell 3 w 0 [_] _ a s _ eq_refl Hl eq_refl).
    cbn [obind arg nth_error]. rewrite (get_affine_44 d Hd). reflexivity.
  Qed.

  Lemma pose_readers e w a s :
    live w a (OShell s) ->
    answers FShell e w [text "transformation"; mx_handle a] (mx_affine (sh_affine s)) /\
    answers FShell e w [text "translation"; mx_handle a] (mx_vec (tra (sh_affine s))) /\
    answers FShell e w [text "x"; mx_handle a] (mx_vec (sh_x s)) /\
    answers FShell e w [text "y"; mx_handle a] (mx_vec (sh_y s)) /\
    answers FShell e w [text "z"; mx_handle a] (mx_vec (sh_z s)) /\
    answers FShell e w [text "rotation"; mx_handle a] (mx_rotation (e_rot e (lin (sh_affine s)))).
  Proof.
    intros Hl. unfold answers.
    repeat split; try (eapply shell_get_ok; [cbn; tauto|nozero|exact Hl|reflexivity]).
    rewrite (mex_runs FShell e w 1 _ "rotation"
      (fun e => shell_get (fun s => Ret (mx_rotation (e_rot e (lin (sh_affine s))))) e));
      [|apply text_command; nozero|cbn; tauto].
    unfold shell_get, self_shell. rewrite (self_ok as_shell 2 w 1 [] _ a s _ eq_refl Hl eq_refl). reflexivity.
  Qed.

  Lemma transform_then e e' w a s d :
    live w a (OShell s) -> List.length d = 16%nat ->
    exists w' s',
      mex_call FShell e w 0 [text "transform"; mx_handle a; matrix 4 4 d] = Ok w' [] /\
      changed_to w w' a (OShell s') /\
      sh_ribs s' = sh_ribs s /\ sh_shape s' = sh_shape s /\ sh_cells s' = sh_cells s /\
      (homogeneous d = d -> answers FShell e' w' [text "transformation"; mx_handle a] (matrix 4 4 d)) /\
      answers FShell e' w' [text "translation"; mx_handle a]
        (matrix 3 1 [nth 12 d #0; nth 13 d #0; nth 14 d #0]) /\
      answers FShell e' w' [text "x"; mx_handle a] (matrix 3 1 [nth 0 d #0; nth 1 d #0; nth 2 d #0]) /\
      answers FShell e' w' [text "y"; mx_handle a] (matrix 3 1 [nth 4 d #0; nth 5 d #0; nth 6 d #0]) /\
      answers FShell e' w' [text "z"; mx_handle a] (matrix 3 1 [nth 8 d #0; nth 9 d #0; nth 10 d #0]) /\
      answers FShell e' w' [text "rotation"; mx_handle a]
        (matrix 3 3 (by_rows (e_rot e' (block d)))).
  Proof.
    intros Hl Hd. eexists _, _. split; [now apply (transform_ok e w a s d)|].
    pose proof (wset_changed w a (OShell s) (OShell (transform s (decode (fun k => nth k d #0)))) Hl) as Hch.
    split; [exact Hch|]. split; [reflexivity|]. split; [reflexivity|]. split; [reflexivity|].
    destruct Hch as [Hl' _].
    destruct (pose_readers e' _ a _ Hl') as (H1 & H2 & H3 & H4 & H5 & H6).
    repeat split; try assumption. intros Hh. rewrite <- Hh. exact H1.
  Qed.

  Lemma translate_then e w a s v :
    live w a (OShell s) ->
    exists w', mex_call FShell e w 0 [text "translate"; mx_handle a; mx_vec v] = Ok w' [] /\
      changed_to w w' a (OShell (sh_translate s v)).
  Proof.
    intros Hl. eexists. split.
    - rewrite (mex_runs FShell e w 0 _ "translate" shell_translate); [|apply text_command; nozero|cbn; tauto].
      unfold shell_translate, self_shell.
      rewrite (self_ok as_shell 3 w 0 [_] _ a s _ eq_refl Hl eq_refl). destruct v. reflexivity.
    - now apply (wset_changed w a (OShell s)).
  Qed.

  (** A setup called from MATLAB is the C++ setup. *)
  Lemma setup_flat_through e w a s b g d meth :
    live w a (OShell s) -> live w b (OFlat g) -> List.length d = 16%nat -> ~ In Ascii.zero (lit meth) ->
    mex_call FShell e w 1 [text "setupFlat"; mx_handle a; mx_handle b; matrix 4 4 d; text meth]
    = match setup_flat (e_gb e) s g (decode (fun k => nth k d #0)) meth with
      | Ok s' r => Ok (wset w a (OShell s')) [mx_bool r]
      | Exn s' x => Exn (wset w a (OShell s')) x
      | Undef => Undef
      end.
  Proof.
    intros Hl Hb Hd Hm.
    rewrite (mex_runs FShell e w 1 _ "setupFlat"
      (fun e => shell_setup as_flat (setup_flat (e_gb e)) e)); [|apply text_command; nozero|cbn; tauto].
    unfold shell_setup, self_shell.
    rewrite (self_ok as_shell 5 w 1 [_; _; _] _ a s _ eq_refl Hl eq_refl).
    cbn [obind arg nth_error]. cbn [get_handle mx_handle numel fold_right Nat.mul Nat.add Nat.eqb head obind].
    unfold live in Hb. rewrite Hb. cbn [as_flat obind].
    rewrite (get_affine_44 d Hd). cbn [obind get_string text snd fst].
    rewrite (cstr_lit meth Hm). unfold lit. rewrite string_of_list_ascii_of_string.
    cbn [mutate]. destruct (setup_flat _ _ _ _ _); reflexivity.
  Qed.

  Lemma setup_mesh_through e w a s b g d meth :
    live w a (OShell s) -> live w b (OMesh g) -> List.length d = 16%nat -> ~ In Ascii.zero (lit meth) ->
    mex_call FShell e w 1 [text "setupMesh"; mx_handle a; mx_handle b; matrix 4 4 d; text meth]
    = match setup_mesh (e_gb e) s g (decode (fun k => nth k d #0)) meth with
      | Ok s' r => Ok (wset w a (OShell s')) [mx_bool r]
      | Exn s' x => Exn (wset w a (OShell s')) x
      | Undef => Undef
      end.
  Proof.
    intros Hl Hb Hd Hm.
    rewrite (mex_runs FShell e w 1 _ "setupMesh"
      (fun e => shell_setup as_mesh (setup_mesh (e_gb e)) e)); [|apply text_command; nozero|cbn; tauto].
    unfold shell_setup, self_shell.
    rewrite (self_ok as_shell 5 w 1 [_; _; _] _ a s _ eq_refl Hl eq_refl).
    cbn [obind arg nth_error]. cbn [get_handle mx_handle numel fold_right Nat.mul Nat.add Nat.eqb head obind].
    unfold live in Hb. rewrite Hb. cbn [as_mesh obind].
    rewrite (get_affine_44 d Hd). cbn [obind get_string text snd fst].
    rewrite (cstr_lit meth Hm). unfold lit. rewrite string_of_list_ascii_of_string.
    cbn [mutate]. destruct (setup_mesh _ _ _ _ _); reflexivity.
  Qed.

  (** *** Shapes. *)
  Lemma get_vec_cases r c (d : list K) :
    List.length d = (r * c)%nat ->
    get_vec (matrix r c d)
    = if Nat.eqb r 3 || Nat.eqb c 1 then
        match d with x :: y :: z :: _ => Ret (V x y z) | _ => UB end
      else Throw RuntimeError.
  Proof.
    intros _. unfold get_vec, matrix. cbn. destruct (Nat.eqb r 3 || Nat.eqb c 1); [|easy].
    destruct d as [|x [|y [|z d]]]; reflexivity.
  Qed.

  Lemma translate_shapes e w a s r c (d : list K) :
    live w a (OShell s) -> List.length d = (r * c)%nat ->
    mex_call FShell e w 0 [text "translate"; mx_handle a; matrix r c d]
    = if Nat.eqb r 3 || Nat.eqb c 1 then
        match d with
        | x :: y :: z :: _ => Ok (wset w a (OShell (sh_translate s (V x y z)))) []
        | _ => Undef
        end
      else Exn w RuntimeError.
  Proof.
    intros Hl Hd.
    rewrite (mex_runs FShell e w 0 _ "translate" shell_translate); [|apply text_command; nozero|cbn; tauto].
    unfold shell_translate, self_shell.
    rewrite (self_ok as_shell 3 w 0 [_] _ a s _ eq_refl Hl eq_refl).
    cbn [obind arg nth_error]. rewrite (get_vec_cases r c d Hd).
    destruct (_ || _)%bool; [|reflexivity]. destruct d as [|x [|y [|z d]]]; reflexivity.
  Qed.

  Lemma get_affine_cases r c (d : list K) :
    get_affine (matrix r c d)
    = if Nat.eqb r 4 || Nat.eqb c 4 then
        if Nat.leb 16 (List.length d) then Ret (decode (fun k => nth k d #0)) else UB
      else Throw RuntimeError.
  Proof.
    unfold get_affine, get_affine_if, matrix. cbn [mex_matrix_pointer dims2 mx_dims obind fst snd].
    destruct (Nat.eqb r 4 || Nat.eqb c 4); [|easy].
    do 16 (destruct d as [|? d]; [reflexivity|]). reflexivity.
  Qed.

  Lemma transform_shapes e w a s r c d :
    live w a (OShell s) ->
    mex_call FShell e w 0 [text "transform"; mx_handle a; matrix r c d]
    = if Nat.eqb r 4 || Nat.eqb c 4 then
        if Nat.leb 16 (List.length d) then
          Ok (wset w a (OShell (transform s (decode (fun k => nth k d #0))))) []
        else Undef
      else Exn w RuntimeError.
  Proof.
    intros Hl.
    rewrite (mex_runs FShell e w 0 _ "transform" shell_transform); [|apply text_command; nozero|cbn; tauto].
    unfold shell_transform, self_shell.
    rewrite (self_ok as_shell 3 w 0 [_] _ a s _ eq_refl Hl eq_refl).
    cbn [obind arg nth_error]. rewrite get_affine_cases.
    destruct (_ || _)%bool; [|reflexivity]. destruct (Nat.leb _ _); reflexivity.
  Qed.

  (** *** Sizes and indices. *)
  Lemma resize_through e w a s m n :
    live w a (OShell s) -> whole e m n -> (0 <= n < 2 ^ 31)%Z ->
    mex_call FShell e w 0 [text "resize"; mx_handle a; m]
    = match resize s (Z.to_nat n) with
      | Ok s' _ => Ok (wset w a (OShell s')) []
      | Exn s' x => Exn (wset w a (OShell s')) x
      | Undef => Undef
      end.
  Proof.
    intros Hl Hw Hn.
    rewrite (mex_runs FShell e w 0 _ "resize" shell_resize); [|apply text_command; nozero|cbn; tauto].
    unfold shell_resize, self_shell.
    rewrite (self_ok as_shell 3 w 0 [_] _ a s _ eq_refl Hl eq_refl).
    cbn [obind arg nth_error]. rewrite (whole_int e m n Hw Hn). cbn [obind fst snd mutate].
    unfold resize_int. destruct (Z.ltb_spec n 0); [lia|].
    destruct (resize s _); reflexivity.
  Qed.

  Lemma size_through e w a s :
    live w a (OShell s) ->
    answers FShell e w [text "size"; mx_handle a] (mx_int64 (Z.of_nat (sh_size s))).
  Proof.
    intros Hl. eapply shell_get_ok; [cbn; tauto|nozero|exact Hl|reflexivity].
  Qed.

  Lemma shell_at_i_ok e w a s n (g : shell K -> nat -> outcome (mx K)) m i :
    In (n, shell_at_i g) shell_table -> ~ In Ascii.zero (lit n) ->
    live w a (OShell s) -> whole e m i -> (1 <= i < 2 ^ 31)%Z ->
    mex_call FShell e w 1 [text n; mx_handle a; m] = query w (g s (Z.to_nat (i - 1))).
  Proof.
    intros Hin Hz Hl Hw Hi. rewrite (mex_runs FShell e w 1 _ n (shell_at_i g)); [|now apply text_command|exact Hin].
    unfold shell_at_i, self_shell.
    rewrite (self_ok as_shell 3 w 1 [_] _ a s (OShell s) eq_refl Hl eq_refl).
    cbn [obind arg nth_error]. rewrite (whole_index e m i Hw Hi). cbn [obind snd].
    now destruct (g s _).
  Qed.
End Values.
