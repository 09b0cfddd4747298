(** * The MATLAB classes: the mesh constructor, and a runner for witnesses. *)
From Coq Require Import ZArith Bool String List Lia.
From Verif Require Import Base Num Vec Aabb Geom Ground Shape Rib Str Mesh Shell Sfun Mex SpecMex
  ProofMex ProofMexB ProofMexC ProofMexD Matlab SpecMatlab ProofMatlab ProofMatlabB ProofMatlabC ProofMatlabE.
Import ListNotations.

Section Constructor.
  Context {K : Type} {NK : Num K}.
  Implicit Types (w : world K) (o : obj K) (m : mx K) (e : env K) (path : str).

  Lemma cstr_id path : no_nul path -> cstr path = path.
  Proof.
    unfold no_nul. induction path as [|c l IH]; cbn; [easy|]. intros H.
    destruct (Ascii.eqb_spec c c_nul) as [->|]; [now destruct H; left|]. f_equal. apply IH. tauto.
  Qed.

  Lemma ends path stem x : path = stem ++ x -> List.length x = 4%nat ->
    Nat.ltb (List.length path) 4 = false /\ skipn (List.length path - 4) path = x /\ extension path = Ret x.
  Proof.
    intros -> Hx. rewrite app_length, Hx.
    assert (E : Nat.ltb (List.length stem + 4) 4 = false) by (apply Nat.ltb_ge; lia).
    assert (F : skipn (List.length stem + 4 - 4) (stem ++ x) = x).
    { replace (List.length stem + 4 - 4)%nat with (List.length stem) by lia.
      rewrite skipn_app, skipn_all, Nat.sub_diag. reflexivity. }
    split; [easy|]. split; [easy|]. unfold extension, sub. rewrite app_length, Hx, E.
    f_equal. rewrite F. rewrite <- Hx. apply firstn_all.
  Qed.

  Lemma exec_isfile {A} e w path (k : bool -> prog K A) tr w' r :
    exec e w (PIsfile path k) tr w' r ->
    exec e w (k (match e_fs e path with Some _ => true | None => false end)) tr w' r.
  Proof. intros H. now inversion H; subst. Qed.

  (** Files that are refused before the gateway is called. *)
  Lemma new_mesh_refused e w args :
    (forall path rest, args = VArr (MxChar path) :: rest ->
       e_fs e path = None \/
       (forall stem, path <> stem ++ lit ".rdf" /\ path <> stem ++ lit ".obj")) ->
    always e w (new_mesh args) (fun tr w' r => tr = [] /\ w' = w /\ r = Failed).
  Proof.
    intros H. split; [apply exec_total|]. intros tr w' r Hx. unfold new_mesh in Hx.
    destruct args as [|v rest]; cbn [map] in Hx; [now inversion Hx|].
    destruct (to_mx v) as [ | | | |path|] eqn:Ev; try (now inversion Hx).
    assert (v = VArr (MxChar path)) as -> by (destruct v; cbn in Ev; congruence).
    destruct (Nat.ltb (List.length path) 4) eqn:El; [now inversion Hx|].
    apply exec_isfile in Hx.
    destruct (H path rest eq_refl) as [Hf|Hn].
    - rewrite Hf in Hx. now inversion Hx.
    - destruct (e_fs e path); [|now inversion Hx]. cbn [negb] in Hx.
      assert (D : path = firstn (List.length path - 4) path ++ skipn (List.length path - 4) path)
        by (symmetry; apply firstn_skipn).
      destruct (Hn (firstn (List.length path - 4) path)) as [N1 N2].
      destruct (str_eqb (skipn (List.length path - 4) path) (lit ".rdf")) eqn:E1.
      { apply str_eqb_eq' in E1. rewrite E1 in D. now destruct N1. }
      destruct (str_eqb (skipn (List.length path - 4) path) (lit ".obj")) eqn:E2.
      { apply str_eqb_eq' in E2. rewrite E2 in D. now destruct N2. }
      now inversion Hx.
  Qed.

  (** What the gateway makes of the arguments that pass. *)
  Lemma mesh_gateway e w rest path :
    (List.length rest <= 2)%nat ->
    mex_call FMesh e w 1 (text "new" :: MxChar path :: rest) =
    match mesh_new_load e (text "new" :: MxChar path :: rest) with
    | UB | Ret (Some Undef) => Undef
    | Throw x | Ret (Some (Exn _ x)) => Exn (wlose w) x
    | Ret (Some (Ok m _)) => Ok (wnew FMesh w (e_new e) (OMesh m)) [mx_handle (e_new e)]
    | Ret None => Ok (wnew FMesh w (e_new e) (OMesh mesh_empty)) [mx_handle (e_new e)]
    end.
  Proof.
    intros Hr.
    rewrite (mex_runs FMesh e w 1 _ "new" mesh_new); [|apply text_command; cbn; intuition discriminate|cbn; tauto].
    unfold mesh_new. destruct rest as [|r1 [|r2 [|r3 rest]]]; cbn [List.length] in Hr; try lia;
      cbn [List.length Nat.eqb orb assert obind];
      (destruct (mesh_new_load e _) as [[[? ?|? ?|]|]| |]; reflexivity).
  Qed.

  (** [args] pass the checks of the constructor. *)
  Lemma new_mesh_passes e w path rest (P : trace K -> world K -> ending (mobj K) -> Prop) c :
    (exists stem, path = stem ++ lit ".rdf" /\ (rest = [] \/ exists m, rest = [VArr m] /\ is_matrix m = true) \/
                  path = stem ++ lit ".obj" /\
                    (rest = [] \/ (exists m, rest = [VArr m] /\ is_scalar m = true) \/
                     exists m p, rest = [VArr m; VArr p] /\ is_scalar m = true /\ mlength p = 4%nat)) ->
    e_fs e path = Some c ->
    (forall tr w' r, exec e w (new_object FMesh (VArr (MxChar path) :: rest)) tr w' r -> P tr w' r) ->
    always e w (construct FMesh (VArr (MxChar path) :: rest)) P.
  Proof.
    intros (stem & Hs) Hf HP. split; [apply exec_total|]. intros tr w' r Hx. cbn [construct] in Hx.
    unfold new_mesh in Hx. cbn [map to_mx] in Hx.
    assert (Hx' : exec e w (new_object FMesh (VArr (MxChar path) :: rest)) tr w' r); [|auto].
    destruct Hs as [[Hp Hr]|[Hp Hr]].
    - destruct (ends path stem (lit ".rdf") Hp eq_refl) as (E1 & E2 & _).
      rewrite E1 in Hx. apply exec_isfile in Hx. rewrite Hf in Hx. cbn [negb] in Hx. rewrite E2 in Hx.
      rewrite str_eqb_refl' in Hx. destruct Hr as [->|(m & -> & Hm)]; cbn [map to_mx] in Hx; [exact Hx|].
      now rewrite Hm in Hx.
    - destruct (ends path stem (lit ".obj") Hp eq_refl) as (E1 & E2 & _).
      rewrite E1 in Hx. apply exec_isfile in Hx. rewrite Hf in Hx. cbn [negb] in Hx. rewrite E2 in Hx.
      change (str_eqb (lit ".obj") (lit ".rdf")) with false in Hx. rewrite str_eqb_refl' in Hx.
      destruct Hr as [->|[(m & -> & Hm)|(m & p & -> & Hm & Hp2)]]; cbn [map to_mx] in Hx; [exact Hx| |].
      + now rewrite Hm in Hx.
      + now rewrite Hm, Hp2 in Hx.
  Qed.

  Lemma new_object_runs e w args (Q : world K -> ending (mobj K) -> Prop) :
    (forall z, fresh w z -> match mex_call FMesh (at_address e z) w 1 (text "new" :: map to_mx args) with
               | Ok w1 [m] => Q w1 (Done (Obj FMesh m))
               | Exn w1 _ => Q w1 Failed
               | Undef => Q w Crash
               | _ => False end) ->
    forall tr w' r, exec e w (new_object FMesh args) tr w' r -> Q w' r.
  Proof.
    intros H tr w' r Hx. unfold new_object, mex1 in Hx. cbn [pbind] in Hx.
    inversion Hx; subst;
      match goal with Hz : fresh _ ?z, Hm : mex_call _ _ _ _ _ = _ |- _ =>
        specialize (H z Hz); rewrite Hm in H end.
    - destruct outs as [|m1 [|]]; try easy. cbn in *.
      match goal with Hr : exec _ _ (PRet _) _ _ _ |- _ => now inversion Hr; subst end.
    - match goal with Hr : exec _ _ PErr _ _ _ |- _ => now inversion Hr; subst end.
    - exact H.
  Qed.

  Lemma wnew_made w z (m : mesh K) : fresh w z ->
    made w (wnew FMesh w z (OMesh m)) (Done (Obj FMesh (mx_handle z))) m.
  Proof. intros Hz. exists z. split; [easy|]. split; [easy|]. apply wnew_extended. Qed.

  (** RDF files. *)
  Lemma new_mesh_rdf e w stem c :
    let path := stem ++ lit ".rdf" in
    no_nul path -> e_fs e path = Some c ->
    always e w (construct FMesh [VArr (MxChar path)]) (fun _ w' r =>
      match load_rdf (e_stod e) (e_fs e) path aident mesh_empty with
      | Ok g _ => made w w' r g
      | Exn _ _ => failed_losing w w' r
      | Undef => r = Crash
      end).
  Proof.
    intros path Hz Hf. apply (new_mesh_passes e w path [] _ c); [|easy|].
    { exists stem. left. auto. }
    apply (new_object_runs e w _ (fun w' r => _)). intros z Hf1. cbn [map to_mx].
    rewrite mesh_gateway by (cbn; lia).
    unfold mesh_new_load. cbn [List.length Nat.eqb arg nth_error obind get_string].
    rewrite (cstr_id path Hz). cbn [obind].
    destruct (ends path stem (lit ".rdf") eq_refl eq_refl) as (_ & _ & ->). cbn [obind].
    rewrite str_eqb_refl'. cbn [e_stod e_fs at_address e_new].
    destruct (load_rdf _ _ path aident mesh_empty) as [g b|g x|]; [now apply wnew_made|easy|easy].
  Qed.

  Lemma new_mesh_rdf_pose e w stem c rr cc (d : list K) :
    let path := stem ++ lit ".rdf" in
    no_nul path -> e_fs e path = Some c ->
    always e w (construct FMesh [VArr (MxChar path); VArr (matrix rr cc d)]) (fun _ w' r =>
      if Nat.eqb rr 4 || Nat.eqb cc 4 then
        if Nat.leb 16 (List.length d) then
          match load_rdf (e_stod e) (e_fs e) path (decode (fun k => nth k d (nofZ 0))) mesh_empty with
          | Ok g _ => made w w' r g
          | Exn _ _ => failed_losing w w' r
          | Undef => r = Crash
          end
        else r = Crash
      else failed_losing w w' r).
  Proof.
    intros path Hz Hf. apply (new_mesh_passes e w path [_] _ c); [|easy|].
    { exists stem. left. split; [easy|]. right. eexists. split; [reflexivity|]. reflexivity. }
    apply (new_object_runs e w _ (fun w' r => _)). intros z Hf1. cbn [map to_mx].
    rewrite mesh_gateway by (cbn; lia).
    unfold mesh_new_load. cbn [List.length Nat.eqb arg nth_error obind get_string].
    rewrite (cstr_id path Hz). cbn [obind].
    destruct (ends path stem (lit ".rdf") eq_refl eq_refl) as (_ & _ & ->). cbn [obind].
    change (str_eqb (lit ".rdf") (lit ".obj")) with false. cbn [andb].
    rewrite str_eqb_refl'. cbn [e_stod e_fs at_address e_new]. rewrite get_affine_cases.
    destruct (Nat.eqb rr 4 || Nat.eqb cc 4); [|easy]. destruct (Nat.leb 16 (List.length d)); [|easy]. cbn [obind].
    destruct (load_rdf _ _ path _ mesh_empty) as [g b|g x|]; [now apply wnew_made|easy|easy].
  Qed.

  (** OBJ files: a coefficient is needed, and nobody says so. *)
  Lemma new_mesh_obj_bare e w stem c :
    let path := stem ++ lit ".obj" in
    no_nul path -> e_fs e path = Some c ->
    always e w (construct FMesh [VArr (MxChar path)]) (fun _ w' r => made w w' r mesh_empty).
  Proof.
    intros path Hz Hf. apply (new_mesh_passes e w path [] _ c); [|easy|].
    { exists stem. right. auto. }
    apply (new_object_runs e w _ (fun w' r => _)). intros z Hf1. cbn [map to_mx].
    rewrite mesh_gateway by (cbn; lia).
    unfold mesh_new_load. cbn [List.length Nat.eqb arg nth_error obind get_string].
    rewrite (cstr_id path Hz). cbn [obind].
    destruct (ends path stem (lit ".obj") eq_refl eq_refl) as (_ & _ & ->). cbn [obind].
    change (str_eqb (lit ".obj") (lit ".rdf")) with false. cbn [e_new at_address]. now apply wnew_made.
  Qed.

  Lemma new_mesh_obj e w stem c mu :
    let path := stem ++ lit ".obj" in
    no_nul path -> e_fs e path = Some c ->
    always e w (construct FMesh [VArr (MxChar path); VArr (mx_scalar mu)]) (fun _ w' r =>
      match load_obj (e_stod e) (e_fs e) path mu aident mesh_empty with
      | Ok g _ => made w w' r g
      | Exn _ _ => failed_losing w w' r
      | Undef => r = Crash
      end).
  Proof.
    intros path Hz Hf. apply (new_mesh_passes e w path [_] _ c); [|easy|].
    { exists stem. right. split; [easy|]. right. left. eexists. split; [reflexivity|]. reflexivity. }
    apply (new_object_runs e w _ (fun w' r => _)). intros z Hf1. cbn [map to_mx].
    rewrite mesh_gateway by (cbn; lia).
    unfold mesh_new_load. cbn [List.length Nat.eqb arg nth_error obind get_string].
    rewrite (cstr_id path Hz). cbn [obind].
    destruct (ends path stem (lit ".obj") eq_refl eq_refl) as (_ & _ & ->). cbn [obind].
    rewrite str_eqb_refl'. cbn [andb mx_dims mx_scalar numel fold_right Nat.mul Nat.add Nat.eqb].
    change (mex_get_scalar_value (mx_scalar mu)) with (Ret mu). cbn [obind].
    cbn [e_stod e_fs at_address e_new].
    destruct (load_obj _ _ path mu aident mesh_empty) as [g b|g x|]; [now apply wnew_made|easy|easy].
  Qed.

  Lemma new_mesh_obj_pose e w stem c mu rr cc (d : list K) :
    let path := stem ++ lit ".obj" in
    no_nul path -> e_fs e path = Some c -> List.length d = (rr * cc)%nat ->
    (Nat.max rr cc = 4 /\ rr <> 0 /\ cc <> 0)%nat ->
    always e w (construct FMesh [VArr (MxChar path); VArr (mx_scalar mu); VArr (matrix rr cc d)]) (fun _ w' r =>
      if Nat.eqb rr 4 && Nat.eqb cc 4 then
        match load_obj (e_stod e) (e_fs e) path mu (decode (fun k => nth k d (nofZ 0))) mesh_empty with
        | Ok g _ => made w w' r g
        | Exn _ _ => failed_losing w w' r
        | Undef => r = Crash
        end
      else made w w' r mesh_empty).
  Proof.
    intros path Hz Hf Hd (Hmax & Hr0 & Hc0). apply (new_mesh_passes e w path [_; _] _ c); [|easy|].
    { exists stem. right. split; [easy|]. right. right. eexists _, _. split; [reflexivity|]. split; [reflexivity|].
      unfold mlength, matrix. cbn [mx_dims numel fold_right]. rewrite Nat.mul_1_r.
      destruct (Nat.eqb_spec (rr * cc) 0) as [E|_]; [apply Nat.mul_eq_0 in E; lia|]. lia. }
    apply (new_object_runs e w _ (fun w' r => _)). intros z Hf1. cbn [map to_mx].
    rewrite mesh_gateway by (cbn; lia).
    unfold mesh_new_load. cbn [List.length Nat.eqb arg nth_error obind get_string].
    rewrite (cstr_id path Hz). cbn [obind].
    change (mex_get_scalar_value (mx_scalar mu)) with (Ret mu).
    change (dims2 (matrix rr cc d)) with (Ret (rr, cc)). cbn [obind fst snd].
    destruct (ends path stem (lit ".obj") eq_refl eq_refl) as (_ & _ & ->). cbn [obind].
    rewrite str_eqb_refl'. cbn [andb e_stod e_fs at_address e_new].
    destruct (Nat.eqb_spec rr 4) as [->|]; cbn [andb]; [|now apply wnew_made].
    destruct (Nat.eqb_spec cc 4) as [->|]; cbn [andb]; [|now apply wnew_made].
    cbn in Hd. assert (G : get_affine_if (fun r c => Nat.eqb r 4 && Nat.eqb c 4) (matrix 4 4 d)
      = Ret (decode (fun k => nth k d (nofZ 0)))).
    { do 16 (destruct d as [|? d]; [discriminate|]). destruct d; [reflexivity|discriminate]. }
    rewrite G. cbn [obind].
    destruct (load_obj _ _ path mu _ mesh_empty) as [g b|g x|]; [now apply wnew_made|easy|easy].
  Qed.
End Constructor.

(** ** A runner: the next address is one above the highest in use. *)
Section Runner.
  Context {K : Type} {NK : Num K}.
  Implicit Types (w : world K) (e : env K).

  Definition above w : Z := (fold_right Z.max 0 (map fst (w_heap w)) + 1)%Z.
  Lemma above_fresh w : fresh w (above w).
  Proof.
    unfold fresh, above.
    assert (H : forall l x, In x l -> (x <= fold_right Z.max 0 l)%Z).
    { induction l; cbn; [easy|]. intros x [->|Hx]; [lia|]. apply IHl in Hx. lia. }
    intros Hin. apply H in Hin. lia.
  Qed.

  Definition handle_addr (m : mx K) : option Z :=
    match m with MxInt U64 false [1; 1]%nat [a] => Some a | _ => None end.
  Lemma handle_addr_some m a : handle_addr m = Some a -> m = mx_handle a.
  Proof.
    destruct m as [| |c b [|[|[|n]] [|[|[|n']] [|]]] [|z [|]]| | |]; try discriminate; cbn;
      destruct c, b; try discriminate. now intros [= ->].
  Qed.
  Lemma handle_addr_none m : handle_addr m = None -> forall a, m <> mx_handle a.
  Proof. intros H a ->. discriminate. Qed.

  Fixpoint run {A} e w (p : prog K A) : trace K * world K * ending A :=
    match p with
    | PRet x => ([], w, Done x)
    | PErr => ([], w, Failed)
    | PMex f n args k err =>
      let c := Call f (at_address e (above w)) n args in
      match mex_call f (at_address e (above w)) w n args with
      | Ok w1 outs => let '(tr, w', r) := run e w1 (k outs) in ((w, c) :: tr, w', r)
      | Exn w1 _ => let '(tr, w', r) := run e w1 err in ((w, c) :: tr, w', r)
      | Undef => ([(w, c)], w, Crash)
      end
    | PAcme h k err =>
      match handle_addr h with
      | Some a => match hfind (w_heap w) a with Some o => run e w (k o) | None => ([], w, Crash) end
      | None => run e w err
      end
    | PIsfile path k => run e w (k (match e_fs e path with Some _ => true | None => false end))
    end.

  Lemma run_exec {A} (p : prog K A) : forall e w, let '(tr, w', r) := run e w p in exec e w p tr w' r.
  Proof.
    induction p as [x| |f n a k IH err IHe|h k IH err IHe|path k IH]; intros e w; cbn [run].
    - constructor.
    - constructor.
    - destruct (mex_call f (at_address e (above w)) w n a) as [w1 outs|w1 x|] eqn:E.
      + specialize (IH outs e w1). destruct (run e w1 (k outs)) as [[tr w'] r].
        eapply ex_ok; eauto using above_fresh.
      + specialize (IHe e w1). destruct (run e w1 err) as [[tr w'] r].
        eapply ex_exn; eauto using above_fresh.
      + apply ex_undef; eauto using above_fresh.
    - destruct (handle_addr h) as [a|] eqn:E.
      + apply handle_addr_some in E. destruct (hfind (w_heap w) a) as [ob|] eqn:Eh.
        * specialize (IH ob e w). destruct (run e w (k ob)) as [[tr w'] r]. eapply ex_acme; eauto.
        * eapply ex_acme_stale; eauto.
      + specialize (IHe e w). destruct (run e w err) as [[tr w'] r]. apply ex_acme_bad; auto.
        now apply handle_addr_none.
    - specialize (IH (match e_fs e path with Some _ => true | None => false end) e w).
      destruct (run e w _) as [[tr w'] r]. now constructor.
  Qed.

  Definition run_stmt e (st : state K) (s : stmt K) : trace K * state K * ending (mres K) :=
    match s with
    | SNew f args =>
      match resolve st args with
      | None => ([], st, Failed)
      | Some vs =>
        let '(tr, w, r) := run e (st_world st) (construct f vs) in
        match r with
        | Done o => (tr, State w (st_objs st ++ [Some o]), Done (RObj o))
        | Crash => (tr, State w (st_objs st), Crash)
        | Failed =>
          let '(tr', w', r') := run e w (destroy (unmade f)) in
          (tr ++ tr', State w' (st_objs st), match r' with Crash => Crash | _ => Failed end)
        end
      end
    | SCall i name args =>
      match object st i, resolve st args with
      | Some o, Some vs =>
        let '(tr, w, r) := run e (st_world st) (invoke o name vs) in
        match r with
        | Done x => (tr, State w (after (st_objs st) x), Done x)
        | Failed => (tr, State w (st_objs st), Failed)
        | Crash => (tr, State w (st_objs st), Crash)
        end
      | _, _ => ([], st, Failed)
      end
    | SDelete i =>
      match object st i with
      | Some o =>
        let '(tr, w, r) := run e (st_world st) (destroy o) in
        match r with
        | Crash => (tr, State w (st_objs st), Crash)
        | _ => (tr, State w (forget (st_objs st) i), Done RNone)
        end
      | None => ([], st, Failed)
      end
    end.

  Lemma run_stmt_does e st s : let '(tr, st', r) := run_stmt e st s in does e st s tr st' r.
  Proof.
    destruct s as [f args|i name args|i]; cbn [run_stmt].
    - destruct (resolve st args) as [vs|] eqn:E; [|now apply do_new_gone].
      pose proof (run_exec (construct f vs) e (st_world st)) as H.
      destruct (run e (st_world st) (construct f vs)) as [[tr w] [x| |]].
      + eapply do_new; eauto.
      + pose proof (run_exec (destroy (unmade f)) e w) as H'.
        destruct (run e w (destroy (unmade f))) as [[tr' w'] [[]| |]];
          [eapply do_new_failed|eapply do_new_failed|eapply do_new_failed_crash]; eauto; discriminate.
      + eapply do_new_crash; eauto.
    - destruct (object st i) as [o|] eqn:Eo; [|apply do_call_gone; now left].
      destruct (resolve st args) as [vs|] eqn:E; [|apply do_call_gone; now right].
      pose proof (run_exec (invoke o name vs) e (st_world st)) as H.
      destruct (run e (st_world st) (invoke o name vs)) as [[tr w] [x| |]];
        [eapply do_call|eapply do_call_failed|eapply do_call_crash]; eauto.
    - destruct (object st i) as [o|] eqn:Eo; [|now apply do_delete_gone].
      pose proof (run_exec (destroy o) e (st_world st)) as H.
      destruct (run e (st_world st) (destroy o)) as [[tr w] [x| |]];
        [eapply do_delete_object|eapply do_delete_object|eapply do_delete_crash]; eauto; discriminate.
  Qed.

  Fixpoint run_script (st : state K) (l : list (env K * stmt K)) : trace K * state K * bool :=
    match l with
    | [] => ([], st, false)
    | (e, s) :: l' =>
      let '(tr, st1, r) := run_stmt e st s in
      match r with
      | Crash => (tr, st1, true)
      | _ => let '(tr', st2, b) := run_script st1 l' in (tr ++ tr', st2, b)
      end
    end.

  Lemma run_script_ok l : forall st, let '(tr, st', b) := run_script st l in script st l tr st' b.
  Proof.
    induction l as [|[e s] l IH]; intros st; cbn [run_script]; [constructor|].
    pose proof (run_stmt_does e st s) as H. destruct (run_stmt e st s) as [[tr st1] [x| |]].
    - specialize (IH st1). destruct (run_script st1 l) as [[tr' st2] b]. eapply sc_cons; eauto. discriminate.
    - specialize (IH st1). destruct (run_script st1 l) as [[tr' st2] b]. eapply sc_cons; eauto. discriminate.
    - now apply sc_crash.
  Qed.

  Lemma run_ends st l b : snd (run_script st l) = b ->
    script st l (fst (fst (run_script st l))) (snd (fst (run_script st l))) b.
  Proof.
    pose proof (run_script_ok l st) as H. destruct (run_script st l) as [[tr st'] b']. cbn. now intros <-.
  Qed.
End Runner.
