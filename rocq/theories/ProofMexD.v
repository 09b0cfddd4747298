(** * Leaks, commands that never return, indices. *)
From Coq Require Import ZArith Bool String List Lia.
From Verif Require Import Base Num Vec Aabb Geom Ground Shape Rib Str Mesh Shell Sfun Mex SpecMex
  ProofMex ProofMexB ProofMexC.
Import ListNotations.
Local Open Scope num_scope.

Section Leaks.
  Context {K : Type} {NK : Num K}.
  Implicit Types (w : world K) (o : obj K) (m : mx K).

  Ltac peel H :=
    let x := fresh "x" in let Hx := fresh "Hx" in
    apply obind_ret in H as (x & Hx & H).

  (** Points and planes stay. *)
  Lemma foreign_step w c w' a o :
    step w c w' -> class_of o = None -> live w a o -> live w' a o.
  Proof.
    intros Hs Ho Hl. apply step_effect in Hs as [He Hf]. unfold live in *.
    destruct He as [|x _|b x x' Ha Hx Hc|b x Ha Hx Hc|]; cbn; try easy.
    - destruct (Z.eqb_spec a (e_new (c_env c))) as [->|]; [|easy].
      apply hfind_in in Hl. exfalso. apply Hf. apply (in_map fst) in Hl. exact Hl.
    - rewrite hfind_set_other; [easy|]. intros ->. unfold live in Hx. congruence.
    - rewrite hfind_del_other; [easy|]. intros ->. unfold live in Hx. congruence.
  Qed.

  Lemma foreign_stays w cs w' a o :
    session w cs w' -> class_of o = None -> live w a o -> live w' a o.
  Proof.
    induction 1; intros Ho Hl; [easy|]. apply IHsession; [easy|]. now apply (foreign_step w c).
  Qed.

  (** Lost objects. *)
  Definition keeps_lost (c : command) : Prop :=
    forall e w nlhs prhs,
      match c e w nlhs prhs with Ok w' _ | Exn w' _ => w_lost w' = w_lost w | Undef => True end.

  Lemma table_lost f :
    Forall (fun x => (f = FMesh /\ (fst x = "new" \/ fst x = "getTrianglegroundVertices"))%string \/
                     keeps_lost (snd x)) (table f).
  Proof.
    assert (Q : forall w r, match query w r with Ok w' _ | Exn w' _ => w_lost w' = w_lost w | Undef => True end).
    { intros w []; easy. }
    assert (C : forall f e w r, match create f e w r with Ok w' _ | Exn w' _ => w_lost w' = w_lost w | Undef => True end).
    { intros f0 e w []; easy. }
    assert (U : forall w r, match update w r with Ok w' _ | Exn w' _ => w_lost w' = w_lost w | Undef => True end).
    { intros w [[]| |]; easy. }
    assert (M : forall {S A} w (mk : S -> obj K) (o : A -> list (mx K)) r,
      match mutate w mk o r with Ok w' _ | Exn w' _ => w_lost w' = w_lost w | Undef => True end).
    { intros S A w mk o [[? []]| |]; easy. }
    assert (D : forall {A} f (sel : obj K -> option A) e w nlhs prhs,
      match do_delete f sel e w nlhs prhs with Ok w' _ | Exn w' _ => w_lost w' = w_lost w | Undef => True end).
    { intros A f0 sel e w nlhs prhs. unfold do_delete. destruct (let* _ := _ in _) as [[]| |]; easy. }
    destruct f; cbn [table]; unfold shell_table, flat_table, mesh_table, tri_table;
      repeat (apply Forall_cons || apply Forall_nil); cbn [fst snd];
      try (left; now auto); right; intros e w nlhs prhs;
      (apply Q || apply C || apply U || apply M || apply D).
  Qed.

  Lemma lost_step w c w' : step w c w' ->
    w_lost w' = w_lost w \/ (losing w c /\ w_lost w' = S (w_lost w)).
  Proof.
    intros Hs. pose proof Hs as [_ Hr]. apply step_effect in Hs as [He _].
    destruct He as [|x _|b x x' Ha Hx Hc|b x Ha Hx Hc|Hm]; try (now left). right. split; [|easy].
    split; [easy|]. unfold perform in *. unfold mex_call in *. destruct (c_args c) as [|p rest] eqn:Ea.
    { destruct Hr as [[? Hr]|[? Hr]]; [discriminate|]. injection Hr as Hr _.
      exfalso. apply (f_equal w_lost) in Hr. cbn in Hr. lia. }
    destruct p; try (destruct Hr as [[? Hr]|[? Hr]]; [discriminate|]; injection Hr as Hr _;
      exfalso; apply (f_equal w_lost) in Hr; cbn in Hr; lia).
    destruct (assoc (table (c_file c)) (cstr s)) as [cm|] eqn:E.
    2:{ destruct Hr as [[? Hr]|[? Hr]]; [discriminate|]. injection Hr as Hr _.
        exfalso. apply (f_equal w_lost) in Hr. cbn in Hr. lia. }
    apply assoc_in in E as (n & Hin & Hn).
    pose proof (table_lost (c_file c)) as Hf. rewrite Forall_forall in Hf.
    destruct (Hf _ Hin) as [[_ Hcase]|Hk]; cbn [fst snd] in *.
    - rewrite Hm in Hin.
      assert (Hin' : In (n, cm) (mesh_table (K:=K))) by exact Hin.
      unfold mesh_table in Hin'. cbn in Hin'.
      destruct Hcase as [-> | ->].
      + right. split; [exists s, rest; now split|].
        destruct Hin' as [[= <-]|Hin']; [|exfalso; intuition discriminate].
        destruct Hr as [[outs Hr]|[x Hr]]; [|now exists (wlose w), x].
        exfalso. unfold returned in Hr.
        destruct (mesh_new _ w _ _) as [w1 o1| |] eqn:Em; try discriminate.
        destruct (Nat.ltb _ _); [discriminate|]. injection Hr as -> _.
        unfold mesh_new in Em. destruct (let* _ := _ in _); try discriminate.
        destruct (mesh_new_load _ _) as [[[m b|m y|]|]|y|]; try discriminate;
          apply (f_equal (fun r => match r with Ok x _ => List.length (w_heap x) | _ => 0%nat end)) in Em;
          cbn in Em; lia.
      + left. split; [exists s, rest; now split|].
        destruct Hin' as [?|[?|[?|[[= <-]|Hin']]]]; try discriminate; [|exfalso; intuition discriminate].
        destruct Hr as [[outs Hr]|[x Hr]]; [now exists (wlose w), outs|].
        exfalso. unfold returned in Hr.
        destruct (mesh_get_vertices _ w _ _) as [w1 o1|w1 o1|] eqn:Em; try discriminate.
        * unfold mesh_get_vertices in Em.
          destruct (let* _ := _ in _) eqn:E1; try discriminate. injection Em as <- <-.
          peel E1. unfold self_mesh in Hx. peel Hx. apply arity_ret in Hx0. rewrite Hx0 in Hr.
          cbn in Hr. discriminate.
        * injection Hr as -> ->. unfold mesh_get_vertices in Em.
          destruct (let* _ := _ in _) eqn:E1; try discriminate. injection Em as Em _.
          apply (f_equal w_lost) in Em. cbn in Em. lia.
    - exfalso. specialize (Hk (c_env c) w (c_nlhs c) (MxChar s :: rest)).
      destruct (cm _ w _ _) as [w1 o1|w1 x1|]; unfold returned in Hr.
      + destruct (Nat.ltb _ _); destruct Hr as [[? Hr]|[? Hr]]; try discriminate;
          injection Hr as -> _; cbn in Hk; lia.
      + destruct Hr as [[? Hr]|[? Hr]]; try discriminate. injection Hr as -> _. cbn in Hk; lia.
      + destruct Hr as [[? Hr]|[? Hr]]; discriminate.
  Qed.

  (** A session without losing calls loses nothing. *)
  Inductive careful : world K -> list call -> world K -> Prop :=
  | careful_nil : forall w, careful w [] w
  | careful_cons : forall w c w1 cs w2,
      step w c w1 -> ~ losing w c -> careful w1 cs w2 -> careful w (c :: cs) w2.

  Lemma careful_lost w cs w' : careful w cs w' -> w_lost w' = w_lost w.
  Proof.
    induction 1; [easy|]. destruct (lost_step w c w1 H) as [E|[Hl _]]; [congruence|easy].
  Qed.

  (** A new object is returned to the caller. *)
  Definition returns_new (c : command) : Prop :=
    forall e w nlhs prhs,
      match c e w nlhs prhs with
      | Ok w' outs => (List.length (w_heap w) < List.length (w_heap w'))%nat ->
                      outs = [mx_handle (e_new e)] /\ exists o, live w' (e_new e) o
      | Exn w' _ => (List.length (w_heap w') <= List.length (w_heap w))%nat
      | Undef => True
      end.

  Lemma hdel_le h (a : Z) : (List.length (hdel (K:=K) h a) <= List.length h)%nat.
  Proof. induction h as [|[b x] h IH]; cbn; [lia|]. destruct (Z.eqb a b); cbn; lia. Qed.

  Lemma table_returns f : Forall (fun x => returns_new (snd x)) (table f).
  Proof.
    assert (Q : forall (e : env K) w r, match query w r with
      | Ok w' outs => (List.length (w_heap w) < List.length (w_heap w'))%nat ->
                      outs = [mx_handle (e_new e)] /\ exists o, live w' (e_new e) o
      | Exn w' _ => (List.length (w_heap w') <= List.length (w_heap w))%nat
      | Undef => True end).
    { intros e w []; cbn; lia || easy. }
    assert (C : forall f e w r, match create f e w r with
      | Ok w' outs => (List.length (w_heap w) < List.length (w_heap w'))%nat ->
                      outs = [mx_handle (e_new e)] /\ exists o, live w' (e_new e) o
      | Exn w' _ => (List.length (w_heap w') <= List.length (w_heap w))%nat
      | Undef => True end).
    { intros f0 e w [o| |]; cbn; try lia; try easy. intros _. split; [easy|]. exists o.
      unfold live. cbn. now rewrite Z.eqb_refl. }
    assert (U : forall (e : env K) w r, match update w r with
      | Ok w' outs => (List.length (w_heap w) < List.length (w_heap w'))%nat ->
                      outs = [mx_handle (e_new e)] /\ exists o, live w' (e_new e) o
      | Exn w' _ => (List.length (w_heap w') <= List.length (w_heap w))%nat
      | Undef => True end).
    { intros e w [[]| |]; cbn; rewrite ?hset_length; lia || easy. }
    assert (M : forall {S A} (e : env K) w (mk : S -> obj K) (o : A -> list (mx K)) r, match mutate w mk o r with
      | Ok w' outs => (List.length (w_heap w) < List.length (w_heap w'))%nat ->
                      outs = [mx_handle (e_new e)] /\ exists o, live w' (e_new e) o
      | Exn w' _ => (List.length (w_heap w') <= List.length (w_heap w))%nat
      | Undef => True end).
    { intros S A e w mk o [[? []]| |]; cbn; rewrite ?hset_length; lia || easy. }
    assert (D : forall {A} f (sel : obj K -> option A) e w nlhs prhs, match do_delete f sel e w nlhs prhs with
      | Ok w' outs => (List.length (w_heap w) < List.length (w_heap w'))%nat ->
                      outs = [mx_handle (e_new e)] /\ exists o, live w' (e_new e) o
      | Exn w' _ => (List.length (w_heap w') <= List.length (w_heap w))%nat
      | Undef => True end).
    { intros A f0 sel e w nlhs prhs. unfold do_delete. destruct (let* _ := _ in _) as [[a x]| |]; cbn; try lia; try easy.
      pose proof (hdel_le (w_heap w) a). lia. }
    destruct f; cbn [table]; unfold shell_table, flat_table, mesh_table, tri_table;
      repeat (apply Forall_cons || apply Forall_nil); cbn [fst snd]; intros e w nlhs prhs;
      try (apply Q || apply C || apply U || apply M || apply D).
    - unfold mesh_new. destruct (let* _ := _ in _); cbn; try lia; try easy.
      destruct (mesh_new_load e prhs) as [[[m b|m y|]|]|y|]; cbn; try lia; try easy;
        (intros _; split; [easy|]; eexists; unfold live; cbn; rewrite Z.eqb_refl; reflexivity).
    - unfold mesh_get_vertices. destruct (let* _ := _ in _); cbn; lia || easy.
  Qed.

  Lemma new_returned w c w' :
    step w c w' -> (List.length (w_heap w) < List.length (w_heap w'))%nat ->
    perform w c = Ok w' [mx_handle (e_new (c_env c))] /\ exists o, live w' (e_new (c_env c)) o.
  Proof.
    intros Hs Hlen. pose proof Hs as [_ Hr]. clear Hs. unfold perform in *.
    set (e := c_env c) in *. set (nlhs := c_nlhs c) in *. set (f := c_file c) in *.
    unfold mex_call in *. destruct (c_args c) as [|p rest].
    { destruct Hr as [[? Hr]|[? Hr]]; [discriminate|]. injection Hr as <- _. lia. }
    destruct p; try (destruct Hr as [[? Hr]|[? Hr]]; [discriminate|]; injection Hr as <- _; lia).
    destruct (assoc (table f) (cstr s)) as [cm|] eqn:E.
    2:{ destruct Hr as [[? Hr]|[? Hr]]; [discriminate|]. injection Hr as <- _. lia. }
    apply assoc_in in E as (n & Hin & _).
    pose proof (table_returns f) as Hf. rewrite Forall_forall in Hf.
    specialize (Hf _ Hin e w nlhs (MxChar s :: rest)). cbn [snd] in Hf.
    pose proof (table_errs f) as He. rewrite Forall_forall in He. specialize (He _ Hin). cbn [fst snd] in He.
    pose proof (table_reads f) as Hd. rewrite Forall_forall in Hd. specialize (Hd _ Hin). cbn [fst snd] in Hd.
    destruct (cm e w nlhs (MxChar s :: rest)) as [w1 o1|w1 x1|] eqn:Ec; unfold returned in Hr |- *.
    - assert (w1 = w') as -> by (destruct (Nat.ltb _ _); destruct Hr as [[? Hr]|[? Hr]]; congruence).
      destruct (Hf Hlen) as (-> & o & Ho). split; [|eauto].
      destruct (Nat.ltb_spec (List.length [mx_handle (K:=K) (e_new e)]) nlhs) as [Hlt|]; [|reflexivity].
      exfalso. destruct He as [Hu|[_ [Ho1|Ho1]]].
      + (* a changing command does not add objects *)
        cbn [List.length] in Hlt.
        assert (Hno : (List.length (w_heap w') <= List.length (w_heap w))%nat).
        { clear Hd Hr Hf. unfold f in Hin. destruct (c_file c); cbn [table] in Hin;
          unfold shell_table, flat_table, mesh_table, tri_table in Hin; cbn in Hin, Hu;
          repeat (destruct Hin as [[= <- <-]|Hin]); try easy; try (exfalso; intuition discriminate).
          - unfold shell_resize in Ec. destruct (let* h := _ in _) as [[? []]| |]; cbn in Ec; try discriminate.
          - unfold shell_setup in Ec. destruct (let* h := _ in _) as [[? []]| |]; cbn in Ec; try discriminate.
          - unfold shell_setup in Ec. destruct (let* h := _ in _) as [[? []]| |]; cbn in Ec; try discriminate.
          - unfold flat_set_origin in Ec. destruct (let* h := _ in _) as [[? ?]| |]; cbn in Ec; try discriminate.
          - unfold mesh_load_cmd in Ec. destruct (let* h := _ in _) as [[? []]| |]; cbn in Ec; try discriminate. }
        lia.
      + destruct (Ho1 e w nlhs _ _ _ Ec) as [Hn _]. rewrite Hn in Hlt. lia.
      + destruct (Ho1 e w nlhs _ _ _ Ec) as [Hn _]. rewrite Hn in Hlt. cbn in Hlt. lia.
    - assert (w1 = w') as -> by (destruct Hr as [[? Hr]|[? Hr]]; congruence). lia.
    - destruct Hr as [[? Hr]|[? Hr]]; discriminate.
  Qed.
End Leaks.

Section Commands.
  Context {K : Type} {NK : Num K}.
  Implicit Types (w : world K) (o : obj K) (m : mx K).

  Ltac peel H :=
    let x := fresh "x" in let Hx := fresh "Hx" in
    apply obind_ret in H as (x & Hx & H).
  Ltac nozero := cbn; intuition discriminate.

  (** Commands that never return. *)
  Lemma check_never e w nlhs prhs w' outs :
    is_command prhs "checkTransformation" -> mex_call FShell e w nlhs prhs <> Ok w' outs.
  Proof.
    intros Hc H. rewrite (mex_runs FShell e w nlhs prhs "checkTransformation" shell_check Hc) in H by (cbn; tauto).
    unfold returned in H. destruct (shell_check e w nlhs prhs) as [w1 o1| |] eqn:E; try discriminate.
    unfold shell_check in E. destruct (let* h := _ in _) eqn:E1; cbn in E; try discriminate.
    peel E1. unfold self_shell, arity, assert in Hx.
    destruct (Nat.eqb_spec (List.length prhs) 2) as [Hl|]; [|discriminate].
    peel E1. unfold arg in Hx0. destruct (nth_error prhs 2) eqn:En; [|discriminate].
    assert (nth_error prhs 2 <> None) as Hn by congruence. apply nth_error_Some in Hn. lia.
  Qed.

  Lemma load_never e w nlhs prhs w' outs :
    is_command prhs "load" -> mex_call FMesh e w nlhs prhs <> Ok w' outs.
  Proof.
    intros Hc H. rewrite (mex_runs FMesh e w nlhs prhs "load" mesh_load_cmd Hc) in H by (cbn; tauto).
    unfold returned in H. destruct (mesh_load_cmd e w nlhs prhs) as [w1 o1| |] eqn:E; try discriminate.
    unfold mesh_load_cmd in E. destruct (let* h := _ in _) as [[a [s x|s x|]]| |] eqn:E1; cbn in E; try discriminate.
    injection E as <- <-. peel E1. peel E1. unfold assert in Hx0.
    destruct (Nat.eqb_spec nlhs 1) as [->|]; [|discriminate]. discriminate.
  Qed.

  (** ... although the mesh is loaded. *)
  Lemma load_effect e w a (m0 : mesh K) path (m1 : mesh K) b :
    live w a (OMesh m0) -> ~ In Ascii.zero (lit path) ->
    extension (lit path) = Ret (lit ".rdf") ->
    load_rdf (e_stod e) (e_fs e) (lit path) aident m0 = Ok m1 b ->
    mex_call FMesh e w 1 [text "load"; mx_handle a; text path] = Exn (wset w a (OMesh m1)) RuntimeError.
  Proof.
    intros Hl Hz Hx Hload.
    rewrite (mex_runs FMesh e w 1 _ "load" mesh_load_cmd); [|apply text_command; nozero|cbn; tauto].
    unfold mesh_load_cmd. cbn [List.length Nat.eqb orb assert obind arg nth_error].
    cbn [get_handle mx_handle numel fold_right Nat.mul Nat.add Nat.eqb head obind].
    unfold live in Hl. rewrite Hl. cbn [as_mesh obind get_string text].
    rewrite (cstr_lit path Hz), Hx. cbn [obind].
    assert (str_eqb (lit ".rdf") (lit ".rdf") = true) as -> by apply str_eqb_refl'.
    cbn [obind fst snd]. rewrite Hload. reflexivity.
  Qed.

  (** Integers that are not read as written. *)
  Lemma resize_call e w a s m z :
    live w a (OShell s) -> get_int e m = Ret z ->
    mex_call FShell e w 0 [text "resize"; mx_handle a; m]
    = returned 0 (mutate w OShell (fun _ => []) (Ret (a, resize_int s z))).
  Proof.
    intros Hl Hm.
    rewrite (mex_runs FShell e w 0 _ "resize" shell_resize); [|apply text_command; nozero|cbn; tauto].
    unfold shell_resize, self_shell.
    rewrite (self_ok as_shell 3 w 0 [_] _ a s _ eq_refl Hl eq_refl).
    cbn [obind arg nth_error]. now rewrite Hm.
  Qed.

  Lemma resize_truncates e w a s n :
    live w a (OShell s) -> (0 <= n < 2 ^ 31)%Z ->
    mex_call FShell e w 0 [text "resize"; mx_handle a; MxInt I64 false [1; 1]%nat [2 ^ 32 + n]%Z]
    = mex_call FShell e w 0 [text "resize"; mx_handle a; MxInt I64 false [1; 1]%nat [n]%Z].
  Proof.
    intros Hl Hn.
    rewrite (resize_call e w a s (MxInt I64 false [1; 1]%nat [2 ^ 32 + n]%Z) (wrap 32 (2 ^ 32 + n)) Hl eq_refl).
    rewrite (resize_call e w a s (MxInt I64 false [1; 1]%nat [n]) (wrap 32 n) Hl eq_refl).
    assert (wrap 32 (2 ^ 32 + n) = wrap 32 n) as ->; [|reflexivity].
    unfold wrap. f_equal.
    replace (2 ^ 32 + n + 2 ^ (32 - 1))%Z with (n + 2 ^ (32 - 1) + 1 * 2 ^ 32)%Z by lia.
    apply Z.mod_add. lia.
  Qed.

  Lemma resize_int8 e w a s n :
    live w a (OShell s) -> (-128 <= n < 0)%Z ->
    mex_call FShell e w 0 [text "resize"; mx_handle a; MxInt I8 false [1; 1]%nat [n]%Z]
    = mex_call FShell e w 0 [text "resize"; mx_handle a; MxInt I64 false [1; 1]%nat [n + 256]%Z].
  Proof.
    intros Hl Hn.
    rewrite (resize_call e w a s (MxInt I8 false [1; 1]%nat [n]) (wrap 32 (n mod 2 ^ 8)) Hl eq_refl).
    rewrite (resize_call e w a s (MxInt I64 false [1; 1]%nat [n + 256]%Z) (wrap 32 (n + 256)) Hl eq_refl).
    assert ((n mod 2 ^ 8 = n + 256)%Z) as ->; [|reflexivity].
    change (2 ^ 8)%Z with 256%Z. symmetry. apply (Z.mod_unique_pos n 256 (-1)); lia.
  Qed.

  (** A negative size is an error that empties the shell. *)
  Lemma resize_negative e w a s n :
    live w a (OShell s) -> (- 2 ^ 31 <= n < 0)%Z ->
    exists w' s', mex_call FShell e w 0 [text "resize"; mx_handle a; MxInt I32 false [1; 1]%nat [n]%Z]
      = Exn w' RuntimeError /\ changed_to w w' a (OShell s') /\ sh_ribs s' = [] /\ sh_size s' = 0%nat.
  Proof.
    intros Hl Hn.
    rewrite (resize_call e w a s (MxInt I32 false [1; 1]%nat [n]) (wrap 32 n) Hl eq_refl), wrap32_id by lia.
    unfold resize_int. destruct (Z.ltb_spec n 0); [|lia]. cbn [mutate].
    eexists _, _. split; [reflexivity|]. split; [now apply (wset_changed w a (OShell s))|]. split; reflexivity.
  Qed.

  (** Per-rib queries. *)
  Lemma rib_queries e w a s m i r :
    live w a (OShell s) -> whole e m i -> (1 <= i < 2 ^ 31)%Z ->
    nth_error (sh_ribs s) (Z.to_nat (i - 1)) = Some r ->
    answers FShell e w [text "ribRadius"; mx_handle a; m] (mx_scalar (rb_radius r)) /\
    answers FShell e w [text "ribWidth"; mx_handle a; m] (mx_scalar (rb_width r)) /\
    answers FShell e w [text "ribAngle"; mx_handle a; m] (mx_scalar (rb_angle r)) /\
    exists w', mex_call FShell e w 1 [text "ribCenter"; mx_handle a; m] = Ok w' [mx_handle (e_new e)] /\
      extended_by FShell w w' (e_new e) (OPoint (rb_center r)).
  Proof.
    intros Hl Hw Hi Hr. unfold answers.
    assert (Hat : rib_at s (Z.to_nat (i - 1)) = Ret r) by (unfold rib_at; now rewrite Hr).
    repeat split; try (eapply eq_trans; [eapply shell_at_i_ok; [cbn; tauto|nozero|exact Hl|exact Hw|exact Hi]|];
      cbn beta; rewrite Hat; reflexivity).
    eexists. split; [|apply wnew_extended].
    rewrite (mex_runs FShell e w 1 _ "ribCenter"
      (shell_point_i (fun s i => let* r := rib_at s i in Ret (rb_center r))));
      [|apply text_command; nozero|cbn; tauto].
    unfold shell_point_i, self_shell.
    rewrite (self_ok as_shell 3 w 1 [_] _ a s (OShell s) eq_refl Hl eq_refl).
    cbn [obind arg nth_error]. rewrite (whole_index e m i Hw Hi). cbn [obind snd]. rewrite Hat. reflexivity.
  Qed.

  Lemma cell_queries e w a s m i c :
    live w a (OShell s) -> whole e m i -> (1 <= i < 2 ^ 31)%Z ->
    nth_error (sh_cells s) (Z.to_nat (i - 1)) = Some (Some c) ->
    answers FShell e w [text "contactNormalRib"; mx_handle a; m] (mx_vec (o_normal c)) /\
    answers FShell e w [text "contactDepthRib"; mx_handle a; m] (mx_scalar (o_depth c)) /\
    answers FShell e w [text "contactFrictionRib"; mx_handle a; m] (mx_scalar (o_friction c)) /\
    answers FShell e w [text "contactAreaRib"; mx_handle a; m] (mx_scalar (o_area c)) /\
    answers FShell e w [text "contactVolumeRib"; mx_handle a; m] (mx_scalar (o_volume c)) /\
    exists w', mex_call FShell e w 1 [text "contactPointRib"; mx_handle a; m] = Ok w' [mx_handle (e_new e)] /\
      extended_by FShell w w' (e_new e) (OPoint (o_point c)).
  Proof.
    intros Hl Hw Hi Hr. unfold answers.
    assert (Hat : out_at s (Z.to_nat (i - 1)) = Ret c) by (unfold out_at; now rewrite Hr).
    repeat split; try (eapply eq_trans; [eapply shell_at_i_ok; [cbn; tauto|nozero|exact Hl|exact Hw|exact Hi]|];
      cbn beta; unfold contact_normal_i, contact_depth_i, contact_friction_i, contact_area_i, contact_volume_i;
      rewrite Hat; reflexivity).
    eexists. split; [|apply wnew_extended].
    rewrite (mex_runs FShell e w 1 _ "contactPointRib" (shell_point_i contact_point_i));
      [|apply text_command; nozero|cbn; tauto].
    unfold shell_point_i, self_shell.
    rewrite (self_ok as_shell 3 w 1 [_] _ a s (OShell s) eq_refl Hl eq_refl).
    cbn [obind arg nth_error]. rewrite (whole_index e m i Hw Hi). cbn [obind snd].
    unfold contact_point_i. rewrite Hat. reflexivity.
  Qed.

  (** The averages. *)
  Lemma average_queries e w a s :
    live w a (OShell s) ->
    (forall v, contact_normal s = Ret v -> answers FShell e w [text "contactNormalAvg"; mx_handle a] (mx_vec v)) /\
    (forall x, contact_depth s = Ret x -> answers FShell e w [text "contactDepthAvg"; mx_handle a] (mx_scalar x)) /\
    (forall x, contact_friction s = Ret x -> answers FShell e w [text "contactFrictionAvg"; mx_handle a] (mx_scalar x)) /\
    (forall x, contact_area s = Ret x -> answers FShell e w [text "contactAreaAvg"; mx_handle a] (mx_scalar x)) /\
    (forall x, contact_volume s = Ret x -> answers FShell e w [text "contactVolumeAvg"; mx_handle a] (mx_scalar x)) /\
    (forall t, contact_affine s = Ret t -> answers FShell e w [text "contactPointAffineAvg"; mx_handle a] (mx_affine t)) /\
    (forall v, relative_angles s = Ret v -> answers FShell e w [text "relativeAnglesAvg"; mx_handle a] (mx_vec v)) /\
    (forall p, contact_point s = Ret p ->
       exists w', mex_call FShell e w 1 [text "contactPointAvg"; mx_handle a] = Ok w' [mx_handle (e_new e)] /\
         extended_by FShell w w' (e_new e) (OPoint p)).
  Proof.
    intros Hl. unfold answers.
    repeat split; intros v Hv;
      try (eapply shell_get_ok; [cbn; tauto|nozero|exact Hl|cbn beta; rewrite Hv; reflexivity]).
    eexists. split; [|apply wnew_extended].
    rewrite (mex_runs FShell e w 1 _ "contactPointAvg" shell_point); [|apply text_command; nozero|cbn; tauto].
    unfold shell_point, self_shell.
    rewrite (self_ok as_shell 2 w 1 [] _ a s (OShell s) eq_refl Hl eq_refl).
    cbn [obind snd]. rewrite Hv. reflexivity.
  Qed.

  (** Triangles of a mesh. *)
  Lemma triangle_query e w a g m i t :
    live w a (OMesh g) -> whole e m i -> (1 <= i < 2 ^ 31)%Z ->
    nth_error (me_tris g) (Z.to_nat (i - 1)) = Some t ->
    exists w' t',
      mex_call FMesh e w 1 [text "getTriangleground"; mx_handle a; m] = Ok w' [mx_handle (e_new e)] /\
      extended_by FMesh w w' (e_new e) (OTri t') /\
      tg_tri t' = tg_tri t /\ tg_friction t' = tg_friction t /\ tg_normal t' = tg_normal t /\
      tg_bbox t' = tg_bbox t /\ tg_id t' = 0%Z.
  Proof.
    intros Hl Hw Hi Ht. eexists _, _. split.
    - rewrite (mex_runs FMesh e w 1 _ "getTriangleground" mesh_get_tri); [|apply text_command; nozero|cbn; tauto].
      unfold mesh_get_tri, self_mesh.
      rewrite (self_ok as_mesh 3 w 1 [_] _ a g (OMesh g) eq_refl Hl eq_refl).
      cbn [obind arg nth_error]. rewrite (whole_index e m i Hw Hi). cbn [obind snd].
      unfold tri_at. rewrite Ht. reflexivity.
    - split; [apply wnew_extended|]. repeat split.
  Qed.

  Lemma vertices_query e w a g m i t :
    live w a (OMesh g) -> whole e m i -> (1 <= i < 2 ^ 31)%Z ->
    nth_error (me_tris g) (Z.to_nat (i - 1)) = Some t ->
    exists w',
      mex_call FMesh e w 1 [text "getTrianglegroundVertices"; mx_handle a; m]
      = Ok w' [matrix 3 3 [vx (tv0 (tg_tri t)); vy (tv0 (tg_tri t)); vz (tv0 (tg_tri t));
                           vx (tv1 (tg_tri t)); vy (tv1 (tg_tri t)); vz (tv1 (tg_tri t));
                           vx (tv2 (tg_tri t)); vy (tv2 (tg_tri t)); vz (tv2 (tg_tri t))]] /\
      w_heap w' = w_heap w /\ w_lost w' = S (w_lost w).
  Proof.
    intros Hl Hw Hi Ht. eexists. split.
    - rewrite (mex_runs FMesh e w 1 _ "getTrianglegroundVertices" mesh_get_vertices); [|apply text_command; nozero|cbn; tauto].
      unfold mesh_get_vertices, self_mesh.
      rewrite (self_ok as_mesh 3 w 1 [_] _ a g (OMesh g) eq_refl Hl eq_refl).
      cbn [obind arg nth_error]. rewrite (whole_index e m i Hw Hi). cbn [obind snd].
      unfold tri_at. rewrite Ht. reflexivity.
    - split; reflexivity.
  Qed.

  (** Out of range. *)
  Lemma int_index (e : env K) i : (- 2 ^ 31 < i < 2 ^ 31)%Z ->
    get_index e (MxInt I32 false [1; 1]%nat [i]) = Ret (Z.to_nat ((i - 1) mod 2 ^ 64)).
  Proof.
    intros Hi. unfold get_index.
    assert (E : get_int e (MxInt I32 false [1; 1]%nat [i]) = Ret (wrap 32 i)) by reflexivity.
    rewrite E, wrap32_id by lia. cbn [obind]. unfold index_of_int.
    destruct (Z.eqb_spec i (- 2 ^ 31)); [lia|]. reflexivity.
  Qed.

  Lemma far_index {A} (l : list A) i :
    (- 2 ^ 31 < i < 2 ^ 31)%Z -> ~ (1 <= i <= Z.of_nat (List.length l))%Z ->
    (Z.of_nat (List.length l) <= 2 ^ 63)%Z ->
    nth_error l (Z.to_nat ((i - 1) mod 2 ^ 64)) = None.
  Proof.
    intros Hi Hn Hlen. apply nth_error_None.
    destruct (Z_le_gt_dec 1 i).
    - rewrite Z.mod_small by lia. lia.
    - assert (((i - 1) mod 2 ^ 64 = i - 1 + 2 ^ 64)%Z) as ->.
      { symmetry. apply (Z.mod_unique_pos (i - 1) (2 ^ 64) (-1)); lia. }
      lia.
  Qed.

  Lemma triangle_out_of_range e w a g i :
    live w a (OMesh g) -> (- 2 ^ 31 < i < 2 ^ 31)%Z ->
    ~ (1 <= i <= Z.of_nat (mesh_size g))%Z -> (Z.of_nat (mesh_size g) <= 2 ^ 63)%Z ->
    mex_call FMesh e w 1 [text "getTriangleground"; mx_handle a; MxInt I32 false [1; 1]%nat [i]] = Undef.
  Proof.
    intros Hl Hi Hn Hlen.
    rewrite (mex_runs FMesh e w 1 _ "getTriangleground" mesh_get_tri); [|apply text_command; nozero|cbn; tauto].
    unfold mesh_get_tri, self_mesh.
    rewrite (self_ok as_mesh 3 w 1 [_] _ a g (OMesh g) eq_refl Hl eq_refl).
    cbn [obind arg nth_error]. rewrite (int_index e i Hi). cbn [obind snd].
    unfold tri_at. now rewrite (far_index (me_tris g) i Hi Hn Hlen).
  Qed.

  Lemma rib_out_of_range e w a s i :
    live w a (OShell s) -> (- 2 ^ 31 < i < 2 ^ 31)%Z ->
    ~ (1 <= i <= Z.of_nat (sh_size s))%Z -> (Z.of_nat (sh_size s) <= 2 ^ 63)%Z ->
    mex_call FShell e w 1 [text "ribRadius"; mx_handle a; MxInt I32 false [1; 1]%nat [i]] = Undef.
  Proof.
    intros Hl Hi Hn Hlen.
    rewrite (mex_runs FShell e w 1 _ "ribRadius"
       (shell_at_i (fun s i => scal (let* r := rib_at s i in Ret (rb_radius r))))); [|apply text_command; nozero|cbn; tauto].
    unfold shell_at_i, self_shell.
    rewrite (self_ok as_shell 3 w 1 [_] _ a s (OShell s) eq_refl Hl eq_refl).
    cbn [obind arg nth_error]. rewrite (int_index e i Hi). cbn [obind snd].
    unfold rib_at. now rewrite (far_index (sh_ribs s) i Hi Hn Hlen).
  Qed.

  (** Triangles made in MATLAB. *)
  Lemma new_tri_ok e w m id mu (p0 p1 p2 : vec3 K) :
    whole e m id -> (0 <= id < 2 ^ 31)%Z ->
    mex_call FTri e w 1 [text "new"; m; mx_scalar mu; mx_vec p0; mx_vec p1; mx_vec p2]
    = create FTri e w (let* t := mk_tground id mu p0 p1 p2 in Ret (OTri t)).
  Proof.
    intros Hw Hi.
    rewrite (mex_runs FTri e w 1 _ "new" tri_new); [|apply text_command; nozero|cbn; tauto].
    unfold tri_new. cbn [List.length Nat.eqb orb assert obind arg nth_error].
    rewrite (whole_int64 e m id Hw) by lia. cbn [obind].
    cbn [mex_get_scalar_value dims2 mx_dims mx_scalar obind fst snd Nat.eqb andb mx_get_scalar head].
    assert (V3 : forall v : vec3 K, get_vec (mx_vec v) = Ret v) by (intros []; reflexivity).
    rewrite !V3. cbn [obind]. unfold id_of, int_min, int_max.
    destruct (Z.leb_spec (- 2 ^ 31) id); [|lia]. destruct (Z.leb_spec id (2 ^ 31 - 1)); [|lia].
    cbn [andb obind]. destruct (mk_tground _ _ _ _ _); reflexivity.
  Qed.

  Lemma tri_readers e w a t :
    live w a (OTri t) ->
    answers FTri e w [text "getID"; mx_handle a] (mx_scalar (nofZ (tg_id t))) /\
    answers FTri e w [text "getFriction"; mx_handle a] (mx_scalar (tg_friction t)) /\
    answers FTri e w [text "normal"; mx_handle a] (mx_vec (tg_normal t)).
  Proof.
    intros Hl. unfold answers.
    assert (G : forall n g, In (n, tri_get g) tri_table -> ~ In Ascii.zero (lit n) ->
      mex_call FTri e w 1 [text n; mx_handle a] = Ok w [g t]).
    { intros n g Hin Hz. rewrite (mex_runs FTri e w 1 _ n (tri_get g)); [|now apply text_command|exact Hin].
      unfold tri_get, self_tri. now rewrite (self_ok as_tri 2 w 1 [] _ a t _ eq_refl Hl eq_refl). }
    split; [|split].
    - apply (G "getID"%string (fun t => mx_scalar (nofZ (tg_id t)))); [cbn; tauto|nozero].
    - apply (G "getFriction"%string (fun t => mx_scalar (tg_friction t))); [cbn; tauto|nozero].
    - apply (G "normal"%string (fun t => mx_vec (tg_normal t))); [cbn; tauto|nozero].
  Qed.
End Commands.
