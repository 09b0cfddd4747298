(** * The remaining commands of the MATLAB gateways. *)
From Coq Require Import ZArith Bool String List Lia.
From Verif Require Import Base Num Vec Aabb Geom Ground Shape Rib Str Mesh Shell Sfun Mex SpecMex
  ProofMex ProofMexB ProofMexC ProofMexD.
Import ListNotations.
Local Open Scope num_scope.

Section Rest.
  Context {K : Type} {NK : Num K}.
  Implicit Types (w : world K) (m : mx K) (e : env K).

  Ltac nozero := cbn; intuition discriminate.

  (** *** Wheels. *)
  Lemma at_y_ok e w a s n (g : shell K -> K -> outcome (mx K)) y m :
    In (n, shell_at_y g) shell_table -> ~ In Ascii.zero (lit n) ->
    live w a (OShell s) -> g s y = Ret m ->
    mex_call FShell e w 1 [text n; mx_handle a; mx_scalar y] = Ok w [m].
  Proof.
    intros Hin Hz Hl Hg. rewrite (mex_runs FShell e w 1 _ n (shell_at_y g)); [|now apply text_command|exact Hin].
    unfold shell_at_y, self_shell.
    rewrite (self_ok as_shell 3 w 1 [_] _ a s (OShell s) eq_refl Hl eq_refl).
    cbn [obind arg nth_error]. change (mex_get_scalar_value (mx_scalar y)) with (Ret y). cbn [obind snd].
    now rewrite Hg.
  Qed.
  Lemma shape_queries e w a s :
    live w a (OShell s) ->
    answers FShell e w [text "surfaceMaxRadius"; mx_handle a] (mx_scalar (surface_max_radius (sh_shape s))) /\
    answers FShell e w [text "surfaceMaxWidth"; mx_handle a] (mx_scalar (surface_max_width (sh_shape s))) /\
    answers FShell e w [text "surfaceWidth"; mx_handle a] (mx_scalar (surface_width (sh_shape s))) /\
    answers FShell e w [text "eulerAngles"; mx_handle a] (mx_vec (sh_euler s)).
  Proof.
    intros Hl. unfold answers.
    repeat split; (eapply shell_get_ok; [cbn; tauto|nozero|exact Hl|reflexivity]).
  Qed.

  Lemma passes_at e w a s c y (g : shell K -> K -> outcome K) :
    In (c, shell_at_y (fun s y => scal (g s y))) shell_table -> ~ In Ascii.zero (lit c) ->
    live w a (OShell s) ->
    mex_call FShell e w 1 [text c; mx_handle a; mx_scalar y] =
      match g s y with Ret x => Ok w [mx_scalar x] | Throw x => Exn w x | UB => Undef end.
  Proof.
    intros Hin Hz Hl. rewrite (mex_runs FShell e w 1 _ c (shell_at_y (fun s y => scal (g s y)))); [|now apply text_command|exact Hin].
    unfold shell_at_y, self_shell.
    rewrite (self_ok as_shell 3 w 1 [_] _ a s (OShell s) eq_refl Hl eq_refl).
    cbn [obind arg nth_error]. change (mex_get_scalar_value (mx_scalar y)) with (Ret y). cbn [obind snd].
    unfold scal. destruct (g s y); reflexivity.
  Qed.

  Lemma surface_queries e w a s y :
    live w a (OShell s) ->
    answers FShell e w [text "checkWidthBound"; mx_handle a; mx_scalar y]
      (mx_scalar (if check_width_bound (sh_shape s) y then #1 else #0)) /\
    mex_call FShell e w 1 [text "surfaceRadius"; mx_handle a; mx_scalar y] =
      match surface_radius (sh_shape s) y with Ret x => Ok w [mx_scalar x] | Throw x => Exn w x | UB => Undef end /\
    mex_call FShell e w 1 [text "surfaceDerivative"; mx_handle a; mx_scalar y] =
      match surface_derivative (sh_shape s) y neps with Ret x => Ok w [mx_scalar x] | Throw x => Exn w x | UB => Undef end /\
    mex_call FShell e w 1 [text "surfaceAngle"; mx_handle a; mx_scalar y] =
      match surface_angle (sh_shape s) y neps with Ret x => Ok w [mx_scalar x] | Throw x => Exn w x | UB => Undef end.
  Proof.
    intros Hl. split; [|split; [|split]].
    - unfold answers. eapply at_y_ok; [cbn; tauto|nozero|exact Hl|]. reflexivity.
    - apply (passes_at e w a s "surfaceRadius" y (fun s y => surface_radius (sh_shape s) y)); [cbn; tauto|nozero|easy].
    - apply (passes_at e w a s "surfaceDerivative" y (fun s y => surface_derivative (sh_shape s) y neps)); [cbn; tauto|nozero|easy].
    - apply (passes_at e w a s "surfaceAngle" y (fun s y => surface_angle (sh_shape s) y neps)); [cbn; tauto|nozero|easy].
  Qed.

  Lemma rotate_then e w a s x v :
    live w a (OShell s) ->
    exists w', mex_call FShell e w 0 [text "rotate"; mx_handle a; mx_scalar x; mx_vec v] = Ok w' [] /\
      changed_to w w' a (OShell (sh_rotate s x v)).
  Proof.
    intros Hl. eexists. split.
    - rewrite (mex_runs FShell e w 0 _ "rotate" shell_rotate); [|apply text_command; nozero|cbn; tauto].
      unfold shell_rotate, self_shell.
      rewrite (self_ok as_shell 4 w 0 [_; _] _ a s _ eq_refl Hl eq_refl). destruct v. reflexivity.
    - now apply (wset_changed w a (OShell s)).
  Qed.

  (** A size or an index must be a scalar. *)
  Lemma not_scalar e w a s m r c d cmd :
    live w a (OShell s) -> In cmd ["resize"; "ribRadius"; "ribWidth"; "ribAngle"; "contactNormalRib";
      "contactDepthRib"; "contactFrictionRib"; "contactAreaRib"; "contactVolumeRib";
      "contactPointAffineRib"; "relativeAnglesRib"; "ribCenter"; "contactPointRib"]%string ->
    (m = MxDouble [r; c] d \/ m = MxSingle [r; c] d \/ exists k b z, m = MxInt k b [r; c] z) ->
    (r, c) <> (1, 1)%nat ->
    exists x, mex_call FShell e w (if String.eqb cmd "resize" then 0 else 1) [text cmd; mx_handle a; m] = Exn w x.
  Proof.
    intros Hl Hc Hm Hrc.
    assert (G : mex_get_int64 e m = Throw RuntimeError).
    { unfold mex_get_int64. assert (D : dims2 m = Ret (r, c)).
      { destruct Hm as [->|[->|(k & b & z & ->)]]; reflexivity. }
      rewrite D. cbn [obind fst snd]. destruct (Nat.eqb_spec r 1); [|reflexivity].
      destruct (Nat.eqb_spec c 1); [|reflexivity]. subst. now contradict Hrc. }
    assert (I : get_index e m = Throw RuntimeError) by (unfold get_index, get_int; now rewrite G).
    assert (A : forall n g, In (n, shell_at_i g) shell_table -> ~ In Ascii.zero (lit n) ->
      mex_call FShell e w 1 [text n; mx_handle a; m] = Exn w RuntimeError).
    { intros n g Hin Hz. rewrite (mex_runs FShell e w 1 _ n (shell_at_i g)); [|now apply text_command|exact Hin].
      unfold shell_at_i, self_shell. rewrite (self_ok as_shell 3 w 1 [_] _ a s (OShell s) eq_refl Hl eq_refl).
      cbn [obind arg nth_error]. now rewrite I. }
    assert (P : forall n g, In (n, shell_point_i g) shell_table -> ~ In Ascii.zero (lit n) ->
      mex_call FShell e w 1 [text n; mx_handle a; m] = Exn w RuntimeError).
    { intros n g Hin Hz. rewrite (mex_runs FShell e w 1 _ n (shell_point_i g)); [|now apply text_command|exact Hin].
      unfold shell_point_i, self_shell. rewrite (self_ok as_shell 3 w 1 [_] _ a s (OShell s) eq_refl Hl eq_refl).
      cbn [obind arg nth_error]. now rewrite I. }
    exists RuntimeError.
    destruct Hc as [<-|Hc].
    { cbn [String.eqb Ascii.eqb Bool.eqb].
      rewrite (mex_runs FShell e w 0 _ "resize" shell_resize); [|apply text_command; nozero|cbn; tauto].
      unfold shell_resize, self_shell. rewrite (self_ok as_shell 3 w 0 [_] _ a s (OShell s) eq_refl Hl eq_refl).
      cbn [obind arg nth_error]. unfold get_int. now rewrite G. }
    repeat (destruct Hc as [<-|Hc];
      [cbn [String.eqb Ascii.eqb Bool.eqb]; first [eapply A; [cbn; tauto|nozero]|eapply P; [cbn; tauto|nozero]]|]).
    destruct Hc.
  Qed.

  (** *** Flat grounds. *)
  Lemma flat_setters e w a g : live w a (OFlat g) ->
    (forall v, exists w', mex_call FFlat e w 0 [text "setOrigin"; mx_handle a; mx_vec v] = Ok w' [] /\
       changed_to w w' a (OFlat (Flat (Plane v (pnormal (fl_plane g))) (fl_friction g)))) /\
    (forall v, exists w', mex_call FFlat e w 0 [text "setNormal"; mx_handle a; mx_vec v] = Ok w' [] /\
       changed_to w w' a (OFlat (Flat (Plane (porigin (fl_plane g)) v) (fl_friction g)))) /\
    (forall x, exists w', mex_call FFlat e w 0 [text "setFriction"; mx_handle a; mx_scalar x] = Ok w' [] /\
       changed_to w w' a (OFlat (Flat (fl_plane g) x))) /\
    (forall b g', live w b (OFlat g') ->
       (exists w', mex_call FFlat e w 0 [text "setPlane"; mx_handle a; mx_handle b] = Ok w' [] /\
          changed_to w w' a (OFlat (Flat (fl_plane g') (fl_friction g)))) /\
       (exists w', mex_call FFlat e w 0 [text "copy"; mx_handle a; mx_handle b] = Ok w' [] /\
          changed_to w w' a (OFlat (Flat (plane_normalize (fl_plane g')) (fl_friction g')))) /\
       answers FFlat e w [text "isApprox"; mx_handle a; mx_handle b] (mx_bool (flat_is_approx g g' neps))).
  Proof.
    intros Hl. split; [|split; [|split]].
    - intros v. eexists. split; [|now apply (wset_changed w a (OFlat g))].
      rewrite (mex_runs FFlat e w 0 _ "setOrigin" flat_set_origin); [|apply text_command; nozero|cbn; tauto].
      unfold flat_set_origin. cbn [arg nth_error obind]. unfold live in Hl.
      cbn. rewrite Hl. destruct v. reflexivity.
    - intros v. eexists. split; [|now apply (wset_changed w a (OFlat g))].
      rewrite (mex_runs FFlat e w 0 _ "setNormal" flat_set_normal); [|apply text_command; nozero|cbn; tauto].
      unfold flat_set_normal, self_flat.
      rewrite (self_ok as_flat 3 w 0 [_] _ a g _ eq_refl Hl eq_refl). destruct v. reflexivity.
    - intros v. eexists. split; [|now apply (wset_changed w a (OFlat g))].
      rewrite (mex_runs FFlat e w 0 _ "setFriction" flat_set_friction); [|apply text_command; nozero|cbn; tauto].
      unfold flat_set_friction, self_flat.
      rewrite (self_ok as_flat 3 w 0 [_] _ a g _ eq_refl Hl eq_refl). reflexivity.
    - intros b g' Hb. split; [|split].
      + eexists. split; [|now apply (wset_changed w a (OFlat g))].
        rewrite (mex_runs FFlat e w 0 _ "setPlane" flat_set_plane); [|apply text_command; nozero|cbn; tauto].
        unfold flat_set_plane, self_flat.
        rewrite (self_ok as_flat 3 w 0 [_] _ a g _ eq_refl Hl eq_refl).
        unfold live in Hb. cbn. rewrite Hb. reflexivity.
      + eexists. split; [|now apply (wset_changed w a (OFlat g))].
        rewrite (mex_runs FFlat e w 0 _ "copy" flat_copy_cmd); [|apply text_command; nozero|cbn; tauto].
        unfold flat_copy_cmd, self_flat.
        rewrite (self_ok as_flat 3 w 0 [_] _ a g _ eq_refl Hl eq_refl).
        unfold live in Hb. cbn. rewrite Hb. reflexivity.
      + unfold answers.
        rewrite (mex_runs FFlat e w 1 _ "isApprox" flat_approx); [|apply text_command; nozero|cbn; tauto].
        unfold flat_approx, self_flat.
        rewrite (self_ok as_flat 3 w 1 [_] _ a g _ eq_refl Hl eq_refl).
        unfold live in Hb. cbn. rewrite Hb. reflexivity.
  Qed.

  Lemma flat_getters e w a g : live w a (OFlat g) ->
    answers FFlat e w [text "getNormal"; mx_handle a] (mx_vec (pnormal (fl_plane g))) /\
    answers FFlat e w [text "getFriction"; mx_handle a] (mx_scalar (fl_friction g)) /\
    answers FFlat e w [text "isDegenerated"; mx_handle a] (mx_bool (plane_is_degenerated (fl_plane g) neps)) /\
    (exists w', mex_call FFlat e w 1 [text "getOrigin"; mx_handle a] = Ok w' [mx_handle (e_new e)] /\
       extended_by FFlat w w' (e_new e) (OPoint (porigin (fl_plane g)))) /\
    (exists w', mex_call FFlat e w 1 [text "getPlane"; mx_handle a] = Ok w' [mx_handle (e_new e)] /\
       extended_by FFlat w w' (e_new e) (OPlane (fl_plane g))).
  Proof.
    intros Hl. unfold answers.
    assert (G : forall n f, In (n, flat_get f) flat_table -> ~ In Ascii.zero (lit n) ->
      mex_call FFlat e w 1 [text n; mx_handle a] = Ok w [f g]).
    { intros n f Hin Hz. rewrite (mex_runs FFlat e w 1 _ n (flat_get f)); [|now apply text_command|exact Hin].
      unfold flat_get, self_flat. now rewrite (self_ok as_flat 2 w 1 [] _ a g _ eq_refl Hl eq_refl). }
    assert (M : forall n f, In (n, flat_make f) flat_table -> ~ In Ascii.zero (lit n) ->
      mex_call FFlat e w 1 [text n; mx_handle a] = Ok (wnew FFlat w (e_new e) (f g)) [mx_handle (e_new e)]).
    { intros n f Hin Hz. rewrite (mex_runs FFlat e w 1 _ n (flat_make f)); [|now apply text_command|exact Hin].
      unfold flat_make, self_flat. now rewrite (self_ok as_flat 2 w 1 [] _ a g _ eq_refl Hl eq_refl). }
    split; [|split; [|split; [|split]]].
    - apply (G "getNormal"%string (fun g => mx_vec (pnormal (fl_plane g)))); [cbn; tauto|nozero].
    - apply (G "getFriction"%string (fun g => mx_scalar (fl_friction g))); [cbn; tauto|nozero].
    - apply (G "isDegenerated"%string (fun g => mx_bool (plane_is_degenerated (fl_plane g) neps))); [cbn; tauto|nozero].
    - eexists. split; [|apply wnew_extended].
      apply (M "getOrigin"%string (fun g => OPoint (porigin (fl_plane g)))); [cbn; tauto|nozero].
    - eexists. split; [|apply wnew_extended].
      apply (M "getPlane"%string (fun g => OPlane (fl_plane g))); [cbn; tauto|nozero].
  Qed.

  (** *** Meshes and triangles. *)
  Lemma mesh_commands e w a g : live w a (OMesh g) ->
    answers FMesh e w [text "size"; mx_handle a] (mx_int64 (Z.of_nat (List.length (me_tris g)))) /\
    (forall b g', live w b (OMesh g') ->
       exists w', mex_call FMesh e w 0 [text "copy"; mx_handle a; mx_handle b] = Ok w' [] /\
         changed_to w w' a (OMesh (mesh_copy g g'))).
  Proof.
    intros Hl. split.
    - unfold answers.
      rewrite (mex_runs FMesh e w 1 _ "size" mesh_size_cmd); [|apply text_command; nozero|cbn; tauto].
      unfold mesh_size_cmd, self_mesh. now rewrite (self_ok as_mesh 2 w 1 [] _ a g _ eq_refl Hl eq_refl).
    - intros b g' Hb. eexists. split; [|now apply (wset_changed w a (OMesh g))].
      rewrite (mex_runs FMesh e w 0 _ "copy" mesh_copy_cmd); [|apply text_command; nozero|cbn; tauto].
      unfold mesh_copy_cmd, self_mesh.
      rewrite (self_ok as_mesh 3 w 0 [_] _ a g _ eq_refl Hl eq_refl).
      unfold live in Hb. cbn [obind arg nth_error]. unfold get_handle. cbn. rewrite Hb. reflexivity.
  Qed.

  Lemma tri_commands e w a t : live w a (OTri t) ->
    (forall n v, In (n, v) [("getVertex1", tv0 (tg_tri t)); ("getVertex2", tv1 (tg_tri t)); ("getVertex3", tv2 (tg_tri t))]%string ->
       exists w', mex_call FTri e w 1 [text n; mx_handle a] = Ok w' [mx_handle (e_new e)] /\
         extended_by FTri w w' (e_new e) (OPoint v)) /\
    (forall b t', live w b (OTri t') ->
       exists w', mex_call FTri e w 0 [text "copy"; mx_handle a; mx_handle b] = Ok w' [] /\
         changed_to w w' a (OTri (TGround (tg_tri t') (tg_id t) (tg_friction t') (tg_normal t') (tg_bbox t')))).
  Proof.
    intros Hl. split.
    - assert (M : forall n f, In (n, tri_make f) tri_table -> ~ In Ascii.zero (lit n) ->
        exists w', mex_call FTri e w 1 [text n; mx_handle a] = Ok w' [mx_handle (e_new e)] /\
          extended_by FTri w w' (e_new e) (f t)).
      { intros n f Hin Hz. eexists. split; [|apply wnew_extended].
        rewrite (mex_runs FTri e w 1 _ n (tri_make f)); [|now apply text_command|exact Hin].
        unfold tri_make, self_tri. now rewrite (self_ok as_tri 2 w 1 [] _ a t _ eq_refl Hl eq_refl). }
      intros n v [E|[E|[E|[]]]]; injection E as <- <-.
      + apply (M "getVertex1"%string (fun t => OPoint (tv0 (tg_tri t)))); [cbn; tauto|nozero].
      + apply (M "getVertex2"%string (fun t => OPoint (tv1 (tg_tri t)))); [cbn; tauto|nozero].
      + apply (M "getVertex3"%string (fun t => OPoint (tv2 (tg_tri t)))); [cbn; tauto|nozero].
    - intros b t' Hb. eexists. split; [|now apply (wset_changed w a (OTri t))].
      rewrite (mex_runs FTri e w 0 _ "copy" tri_copy_cmd); [|apply text_command; nozero|cbn; tauto].
      unfold tri_copy_cmd, self_tri.
      rewrite (self_ok as_tri 3 w 0 [_] _ a t _ eq_refl Hl eq_refl).
      unfold live in Hb. cbn. rewrite Hb. reflexivity.
  Qed.

  (** *** [load]: one output is asserted and none assigned, so that MATLAB
      reports an error whatever happens to the mesh. *)
  Lemma load_others e w a (m0 : mesh K) path x mu :
    live w a (OMesh m0) -> ~ In Ascii.zero (lit path) -> extension (lit path) = Ret x ->
    (x <> lit ".rdf" -> exists w', mex_call FMesh e w 1 [text "load"; mx_handle a; text path] = Exn w' RuntimeError /\
       changed_to w w' a (OMesh m0)) /\
    (x <> lit ".obj" -> exists w', mex_call FMesh e w 1 [text "load"; mx_handle a; text path; mx_scalar mu] = Exn w' RuntimeError /\
       changed_to w w' a (OMesh m0)) /\
    (x = lit ".obj" -> mex_call FMesh e w 1 [text "load"; mx_handle a; text path; mx_scalar mu] =
       match load_obj (e_stod e) (e_fs e) (lit path) mu aident m0 with
       | Ok m1 _ => Exn (wset w a (OMesh m1)) RuntimeError
       | Exn m1 y => Exn (wset w a (OMesh m1)) y
       | Undef => Undef
       end).
  Proof.
    intros Hl Hz Hx.
    split; [|split].
    - intros Hne. eexists. split; [|now apply (wset_changed w a (OMesh m0))].
      rewrite (mex_runs FMesh e w 1 _ "load" mesh_load_cmd); [|apply text_command; nozero|cbn; tauto].
      unfold mesh_load_cmd. cbn [List.length Nat.eqb orb assert obind arg nth_error].
      cbn [get_handle mx_handle numel fold_right Nat.mul Nat.add Nat.eqb head obind].
      pose proof Hl as Hl'. unfold live in Hl'. rewrite Hl'. cbn [as_mesh obind get_string text].
      rewrite (cstr_lit path Hz), Hx. cbn [obind].
      destruct (str_eqb x (lit ".rdf")) eqn:E; [now apply str_eqb_eq' in E|]. reflexivity.
    - intros Hne. eexists. split; [|now apply (wset_changed w a (OMesh m0))].
      rewrite (mex_runs FMesh e w 1 _ "load" mesh_load_cmd); [|apply text_command; nozero|cbn; tauto].
      unfold mesh_load_cmd. cbn [List.length Nat.eqb orb assert obind arg nth_error].
      cbn [get_handle mx_handle numel fold_right Nat.mul Nat.add Nat.eqb head obind].
      pose proof Hl as Hl'. unfold live in Hl'. rewrite Hl'. cbn [as_mesh obind get_string text].
      rewrite (cstr_lit path Hz), Hx. cbn [obind].
      destruct (str_eqb x (lit ".obj")) eqn:E; [now apply str_eqb_eq' in E|]. reflexivity.
    - intros ->.
      rewrite (mex_runs FMesh e w 1 _ "load" mesh_load_cmd); [|apply text_command; nozero|cbn; tauto].
      unfold mesh_load_cmd. cbn [List.length Nat.eqb orb assert obind arg nth_error].
      cbn [get_handle mx_handle numel fold_right Nat.mul Nat.add Nat.eqb head obind].
      pose proof Hl as Hl'. unfold live in Hl'. rewrite Hl'. cbn [as_mesh obind get_string text].
      rewrite (cstr_lit path Hz), Hx. cbn [obind].
      rewrite (str_eqb_refl' (lit ".obj")). change (mex_get_scalar_value (mx_scalar mu)) with (Ret mu). cbn [obind fst snd].
      destruct (load_obj _ _ _ _ _ _); reflexivity.
  Qed.
End Rest.
