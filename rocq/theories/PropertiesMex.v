(** * The MATLAB gateway: theorems.

    Vocabulary: SpecMex.v (handles, sessions, argument values) and
    SpecMexFlat.v (valid flat grounds).  The examples are over binary64. *)
From Coq Require Import ZArith Bool Reals Lra Lia String List Floats.SpecFloat.
From Verif Require Import Base Num Vec Aabb Tree Geom Ground Shape Rib Str Mesh Shell Sfun ER F64 SpecGeom.
From Verif Require Import Mex SpecMex SpecMexFlat ProofMex ProofMexB ProofMexC ProofMexD ProofMexE.
From Verif Require Import ProofInt ProofGround SampleShell SampleMex.
Import ListNotations.
Local Open Scope num_scope.

(** ** C89: handles are checked. *)

(** A live handle of another class, given to any command but [new], is an
    error and nothing changes. *)
Theorem C89_wrong_class_rejected : forall {K} {NK : Num K} f e (w : world K) nlhs prhs a o,
  (forall s rest, prhs = MxChar s :: rest -> cstr s <> lit "new") ->
  applied_to prhs a -> live w a o -> class_of o <> Some f ->
  exists x, mex_call f e w nlhs prhs = Exn w x.
Proof. intros K NK. exact self_rejected. Qed.
Print Assumptions C89_wrong_class_rejected.

(** So is anything that is not a real [uint64] array. *)
Theorem C89_not_a_handle_rejected : forall {K} {NK : Num K} f e (w : world K) nlhs prhs m,
  (forall s rest, prhs = MxChar s :: rest -> cstr s <> lit "new") ->
  nth_error prhs 1 = Some m -> (forall dims d, m <> MxInt U64 false dims d) ->
  exists x, mex_call f e w nlhs prhs = Exn w x.
Proof. intros K NK. exact kind_rejected. Qed.
Print Assumptions C89_not_a_handle_rejected.

(** The same for the second handle of the commands that take one. *)
Theorem C89_wrong_second_rejected : forall {K} {NK : Num K} f g c e (w : world K) nlhs prhs a o b o',
  is_command prhs c -> second_class f c g ->
  applied_to prhs a -> live w a o -> class_of o = Some f ->
  (exists m, nth_error prhs 2 = Some m /\ names m b) -> live w b o' -> class_of o' <> Some g ->
  exists x, mex_call f e w nlhs prhs = Exn w x.
Proof. intros K NK. exact second_rejected. Qed.
Print Assumptions C89_wrong_second_rejected.

(** A deleted handle is not rejected: the call reads freed memory. *)
Theorem C89_stale_rejected_refuted : forall {K} {NK : Num K},
  exists (cs : list call) w a, session (start (K:=K)) cs w /\ hfind (w_heap w) a = None /\
    (exists c, In c cs /\ perform start c = Ok (wnew FMesh start a (OMesh mesh_empty)) [mx_handle a]) /\
    forall e, mex_call FMesh e w 1 [text "size"; mx_handle a] = Undef.
Proof.
  intros K NK.
  set (e := Env 7%Z (fun _ => None) (fun _ => Throw RuntimeError) (fun _ => Throw RuntimeError)
              (fun _ => let v := V #0 #0 #0 in (v, v, v, v)) (fun m => m) : env K).
  set (e' := Env 8%Z (fun _ => None) (fun _ => Throw RuntimeError) (fun _ => Throw RuntimeError)
              (fun _ => let v := V #0 #0 #0 in (v, v, v, v)) (fun m => m) : env K).
  exists [Call FMesh e 1 [text "new"]; Call FMesh e' 0 [text "delete"; mx_handle 7]].
  eexists _, 7%Z. split; [|split; [|split]].
  - apply session_cons with (wnew FMesh start 7 (OMesh mesh_empty)).
    + split; [intros []|]. left. eexists. reflexivity.
    + apply session_cons with (wdel FMesh (wnew FMesh start 7 (OMesh mesh_empty)) 7).
      * split; [unfold fresh; cbn; lia|]. left. eexists. reflexivity.
      * apply session_nil.
  - reflexivity.
  - eexists. split; [now left|]. reflexivity.
  - reflexivity.
Qed.
Print Assumptions C89_stale_rejected_refuted.

Example C89_example :
  exists x, mex_call FMesh (env64 9) w0 1 [text "size"; mx_handle 1] = Exn w0 x.
Proof.
  apply (C89_wrong_class_rejected FMesh (env64 9) w0 1 _ 1 (OShell wheel1)).
  - intros s rest [= <- _]. discriminate.
  - eexists. split; [reflexivity|]. eexists _, _. reflexivity.
  - vm_compute. reflexivity.
  - discriminate.
Qed.
Example C89_example_second :
  exists x, mex_call FShell (env64 9) w0 1
    [text "setupFlat"; mx_handle 1; mx_handle 3; pose44 0 0 0; text "geometric"] = Exn w0 x.
Proof.
  eapply (C89_wrong_second_rejected FShell FFlat "setupFlat" _ _ _ _ 1 _ 3).
  - now exists (lit "setupFlat"), [mx_handle 1; mx_handle 3; pose44 0 0 0; text "geometric"].
  - now left.
  - eexists. split; [reflexivity|]. eexists _, _. reflexivity.
  - unfold live. vm_compute. reflexivity.
  - reflexivity.
  - eexists. split; [reflexivity|]. eexists _, _. reflexivity.
  - unfold live. vm_compute. reflexivity.
  - discriminate.
Qed.

(** ** C90: a call touches at most the object it is applied to. *)

Theorem C90_isolation : forall {K} {NK : Num K} (w : world K) cs w' a o,
  session w cs w' -> live w a o -> (forall c, In c cs -> ~ applied_to (c_args c) a) ->
  live w' a o.
Proof. intros K NK. exact isolation_session. Qed.
Print Assumptions C90_isolation.

(** Commands that are not documented to change their object do not. *)
Theorem C90_reading : forall {K} {NK : Num K} f e (w : world K) nlhs prhs w' n,
  is_command prhs n -> ~ In n changing ->
  ((exists outs, mex_call f e w nlhs prhs = Ok w' outs) \/
   (exists x, mex_call f e w nlhs prhs = Exn w' x)) ->
  w_heap w' = w_heap w \/ exists o, w_heap w' = (e_new e, o) :: w_heap w.
Proof. intros K NK. exact reading_keeps. Qed.
Print Assumptions C90_reading.

(** Errors change no object, five commands apart. *)
Theorem C90_errors : forall {K} {NK : Num K} f e (w : world K) nlhs prhs w' x,
  (forall n, In n ["resize"; "setupFlat"; "setupMesh"; "setOrigin"; "load"]%string -> ~ is_command prhs n) ->
  mex_call f e w nlhs prhs = Exn w' x -> w_heap w' = w_heap w.
Proof. intros K NK. exact error_keeps. Qed.
Print Assumptions C90_errors.

(** [resize] with a negative size raises an error and empties the wheel. *)
Theorem C90_resize_empties : forall {K} {NK : Num K} e (w : world K) a s n,
  live w a (OShell s) -> (- 2 ^ 31 <= n < 0)%Z ->
  exists w' s', mex_call FShell e w 0 [text "resize"; mx_handle a; MxInt I32 false [1; 1]%nat [n]%Z]
    = Exn w' RuntimeError /\ changed_to w w' a (OShell s') /\ sh_ribs s' = [] /\ sh_size s' = 0%nat.
Proof. intros K NK. exact resize_negative. Qed.
Print Assumptions C90_resize_empties.

Theorem C90_all_errors_refuted : exists cs (w w' : world f64) nlhs prhs x a s s',
  session start cs w /\ mex_call FShell (env64 9) w nlhs prhs = Exn w' x /\
  live w a (OShell s) /\ live w' a (OShell s') /\ sh_size s = 1%nat /\ sh_size s' = 0%nat.
Proof.
  assert (Hl : live w0 1 (OShell wheel1)) by (vm_compute; reflexivity).
  destruct (C90_resize_empties (env64 9) w0 1 wheel1 (-1) Hl) as (w' & s' & H1 & H2 & _ & H4); [lia|].
  exists script, w0, w', 0%nat. eexists _, _, 1%Z, wheel1, s'.
  split; [exact script_ok|]. split; [exact H1|]. split; [exact Hl|]. split; [apply H2|].
  split; [vm_compute; reflexivity|exact H4].
Qed.
Print Assumptions C90_all_errors_refuted.

Example C90_example : exists cs w, session w0 cs w /\ live w 2 (OFlat (Flat (fl_plane level) (fz 1))) /\ List.length cs = 3%nat.
Proof.
  set (cs := [do0 FShell [text "translate"; mx_handle 1; col 0 0 1];
              do1 FShell 5 [text "ribCenter"; mx_handle 1; i32 1];
              do0 FMesh [text "delete"; mx_handle 3]]).
  exists cs, (final w0 cs).
  assert (H : session w0 cs (final w0 cs)) by (apply runs_session; vm_compute; reflexivity).
  split; [exact H|]. split; [|reflexivity]. apply (C90_isolation w0 cs _ _ _ H).
  - vm_compute. reflexivity.
  - intros c [<-|[<-|[<-|[]]]] (m & Hm & dims & r & ->); cbn in Hm; discriminate.
Qed.

(** ** C91: creation and deletion. *)

(** [new] of a wheel makes what the C++ constructor makes. *)
Theorem C91_new_shell : forall {K} {NK : Num K} e (w : world K) m n rx mx ry my ly s,
  whole e m n -> (0 <= n < 2 ^ 31)%Z -> mk_shell (Z.to_nat n) rx mx ry my ly = Ret s ->
  exists w', mex_call FShell e w 1
      [text "new"; m; mx_scalar rx; mx_scalar mx; mx_scalar ry; mx_scalar my; mx_scalar ly]
    = Ok w' [mx_handle (e_new e)] /\ extended_by FShell w w' (e_new e) (OShell s).
Proof.
  intros K NK e w m n rx mx ry my ly s Hw Hn Hs. eexists. split; [|apply wnew_extended].
  rewrite (new_shell_ok e w m n rx mx ry my ly Hw Hn), Hs. reflexivity.
Qed.
Print Assumptions C91_new_shell.

(** When the constructor refuses, nothing is created. *)
Theorem C91_new_shell_refused : forall {K} {NK : Num K} e (w : world K) m n rx mx ry my ly x,
  whole e m n -> (0 <= n < 2 ^ 31)%Z -> mk_shell (Z.to_nat n) rx mx ry my ly = Throw x ->
  mex_call FShell e w 1
      [text "new"; m; mx_scalar rx; mx_scalar mx; mx_scalar ry; mx_scalar my; mx_scalar ly]
    = Exn w x.
Proof.
  intros K NK e w m n rx mx ry my ly x Hw Hn Hs.
  rewrite (new_shell_ok e w m n rx mx ry my ly Hw Hn), Hs. reflexivity.
Qed.
Print Assumptions C91_new_shell_refused.

Theorem C91_new_flat : forall {K} {NK : Num K} e (w : world K) mu o d,
  (forall g, mk_flat mu o d = Ret g ->
     exists w', mex_call FFlat e w 1 [text "new"; mx_scalar mu; mx_vec o; mx_vec d]
       = Ok w' [mx_handle (e_new e)] /\ extended_by FFlat w w' (e_new e) (OFlat g)) /\
  (forall x, mk_flat mu o d = Throw x ->
     mex_call FFlat e w 1 [text "new"; mx_scalar mu; mx_vec o; mx_vec d] = Exn w x).
Proof.
  intros K NK e w mu o d. split; intros x H.
  - eexists. split; [|apply wnew_extended]. rewrite new_flat_ok, H. reflexivity.
  - rewrite new_flat_ok, H. reflexivity.
Qed.
Print Assumptions C91_new_flat.

Theorem C91_new_triangle : forall {K} {NK : Num K} e (w : world K) m id mu p0 p1 p2,
  whole e m id -> (0 <= id < 2 ^ 31)%Z ->
  (forall t, mk_tground id mu p0 p1 p2 = Ret t ->
     exists w', mex_call FTri e w 1 [text "new"; m; mx_scalar mu; mx_vec p0; mx_vec p1; mx_vec p2]
       = Ok w' [mx_handle (e_new e)] /\ extended_by FTri w w' (e_new e) (OTri t)) /\
  (forall x, mk_tground id mu p0 p1 p2 = Throw x ->
     mex_call FTri e w 1 [text "new"; m; mx_scalar mu; mx_vec p0; mx_vec p1; mx_vec p2] = Exn w x).
Proof.
  intros K NK e w m id mu p0 p1 p2 Hw Hi. split; intros x H.
  - eexists. split; [|apply wnew_extended]. rewrite (new_tri_ok e w m id mu p0 p1 p2 Hw Hi), H. reflexivity.
  - rewrite (new_tri_ok e w m id mu p0 p1 p2 Hw Hi), H. reflexivity.
Qed.
Print Assumptions C91_new_triangle.

(** [delete] frees that object only. *)
Theorem C91_delete : forall {K} {NK : Num K} f e (w : world K) a o,
  proper w -> live w a o -> class_of o = Some f ->
  exists w', mex_call f e w 0 [text "delete"; mx_handle a] = Ok w' [] /\
    hfind (w_heap w') a = None /\
    (forall b, b <> a -> hfind (w_heap w') b = hfind (w_heap w) b) /\
    (forall g, w_locks w' g = if file_eqb f g then w_locks w g - 1 else w_locks w g)%Z.
Proof. intros K NK. exact delete_effect. Qed.
Print Assumptions C91_delete.

(** Creating an object and deleting it leaves no trace. *)
Theorem C91_round_trip : forall {K} {NK : Num K} f e e' (w : world K) nlhs prhs w1 outs,
  is_command prhs "new" -> mex_call f e w nlhs prhs = Ok w1 outs ->
  exists h, outs = [h] /\
    exists w2, mex_call f e' w1 0 [text "delete"; h] = Ok w2 [] /\
      w_heap w2 = w_heap w /\ (forall g, w_locks w2 g = w_locks w g) /\ w_lost w2 = w_lost w.
Proof. intros K NK. exact new_delete. Qed.
Print Assumptions C91_round_trip.

(** Addresses stay distinct in every session. *)
Theorem C91_distinct : forall {K} {NK : Num K} cs (w : world K), session start cs w -> proper w.
Proof. intros K NK cs w. apply proper_session. constructor. Qed.
Print Assumptions C91_distinct.

Example C91_example : exists w', perform start (do1 FShell 1 [text "new"; i32 1; num 1; num 1; num 2; num 1; num 1])
    = Ok w' [mx_handle 1] /\ extended_by FShell start w' 1 (OShell wheel1).
Proof.
  apply (C91_new_shell (env64 1) start (i32 1) 1 (fz 1) (fz 1) (fz 2) (fz 1) (fz 1) wheel1).
  - left. exists I32, false. split; [reflexivity|]. cbn. lia.
  - lia.
  - exact wheel1_ok.
Qed.
Example C91_example_delete : live w0 3 (OMesh (the_mesh w0 3)) /\ proper w0.
Proof. split; [vm_compute; reflexivity|]. exact (C91_distinct _ _ script_ok). Qed.

(** ** C92: locks. *)

(** Over the four files, locks and live handles agree in every session. *)
Theorem C92_total : forall {K} {NK : Num K} cs (w : world K),
  session start cs w -> all_locks w = Z.of_nat (List.length (w_heap w)).
Proof. intros K NK cs w H. apply locks_session in H. cbn in H. lia. Qed.
Print Assumptions C92_total.

(** A wheel, flat ground or mesh keeps its MEX file locked. *)
Theorem C92_locked : forall {K} {NK : Num K} f cs (w : world K),
  f <> FTri -> session start cs w -> (w_locks w f >= Z.of_nat (population w f))%Z.
Proof.
  intros K NK f cs w Hf H. apply (own_locks_session f) in H; [|easy]. unfold pop in H. cbn in H.
  unfold population. lia.
Qed.
Print Assumptions C92_locked.

(** A triangle does not: those taken from a mesh lock the mesh file. *)
Theorem C92_triangle_locked_refuted : exists cs (w : world f64),
  session start cs w /\ population w FTri = 1%nat /\ (w_locks w FTri = 0)%Z.
Proof.
  set (cs := script ++ [do1 FMesh 5 [text "getTriangleground"; mx_handle 3; i32 1];
                        do0 FTri [text "delete"; mx_handle 4]]).
  exists cs, (final start cs). split; [apply runs_session; vm_compute; reflexivity|].
  split; vm_compute; reflexivity.
Qed.
Print Assumptions C92_triangle_locked_refuted.

(** After every wheel is deleted the file may stay locked. *)
Theorem C92_unlocked_refuted : exists cs (w : world f64),
  session start cs w /\ population w FShell = 0%nat /\ (w_locks w FShell = 1)%Z.
Proof.
  set (cs := script ++ [do1 FShell 5 [text "ribCenter"; mx_handle 1; i32 1];
                        do0 FShell [text "delete"; mx_handle 1]]).
  exists cs, (final start cs). split; [apply runs_session; vm_compute; reflexivity|].
  split; vm_compute; reflexivity.
Qed.
Print Assumptions C92_unlocked_refuted.

Example C92_example : all_locks w0 = 4%Z /\ population w0 FShell = 1%nat /\ w_locks w0 FShell = 1%Z.
Proof. vm_compute. repeat split. Qed.

(** ** C93: poses and setups pass through unchanged. *)

(** [transform] then every reader of the pose.  [rotation] answers the
    rotation factor that Eigen finds in the 3x3 block, row by row. *)
Theorem C93_transform_read_back : forall {K} {NK : Num K} e e' (w : world K) a s d,
  live w a (OShell s) -> List.length d = 16%nat ->
  exists w' s',
    mex_call FShell e w 0 [text "transform"; mx_handle a; matrix 4 4 d] = Ok w' [] /\
    changed_to w w' a (OShell s') /\
    sh_ribs s' = sh_ribs s /\ sh_shape s' = sh_shape s /\ sh_cells s' = sh_cells s /\
    (homogeneous d = d -> answers FShell e' w' [text "transformation"; mx_handle a] (matrix 4 4 d)) /\
    answers FShell e' w' [text "translation"; mx_handle a]
      (matrix 3 1 [nth 12 d #0; nth 13 d #0; nth 14 d #0]) /\
    answers FShell e' w' [text "x"; mx_handle a] (matrix 3 1 [nth 0 d #0; nth 1 d #0; nth 2 d #0]) /\
    answers FShell e' w' [text "y"; mx_handle a] (matrix 3 1 [nth 4 d #0; nth 5 d #0; nth 6 d #0]) /\
    answers FShell e' w' [text "z"; mx_handle a] (matrix 3 1 [nth 8 d #0; nth 9 d #0; nth 10 d #0]) /\
    answers FShell e' w' [text "rotation"; mx_handle a]
      (matrix 3 3 (by_rows (e_rot e' (block d)))).
Proof. intros K NK. exact transform_then. Qed.
Print Assumptions C93_transform_read_back.

(** MATLAB reads that by columns: the answer is the transpose.  After a
    quarter turn about z, whose rotation factor is itself, the entry of
    [rotation] at row 1, column 2 has the wrong sign. *)
Theorem C93_rotation_refuted : exists cs (w : world f64) d,
  session start cs w /\ List.length d = 16%nat /\ homogeneous d = d /\
  answers FShell (env64 9) w [text "transformation"; mx_handle 1] (matrix 4 4 d) /\
  forall e, e_rot e (block d) = block d -> exists r,
    answers FShell e w [text "rotation"; mx_handle 1] (matrix 3 3 r) /\
    nth (0 + 4 * 1) d (fz 9) = fz (-1) /\ nth (0 + 3 * 1) r (fz 9) = fz 1.
Proof.
  set (d := map fz [0; 1; 0; 0; -1; 0; 0; 0; 0; 0; 1; 0; 0; 0; 0; 1]%Z).
  set (cs := script ++ [do0 FShell [text "transform"; mx_handle 1; matrix 4 4 d]]).
  exists cs, (final start cs), d.
  split; [apply runs_session; vm_compute; reflexivity|].
  split; [reflexivity|]. split; [vm_compute; reflexivity|].
  assert (Hl : exists s, live (final start cs) 1 (OShell s) /\ lin (sh_affine s) = block d).
  { assert (E : match hfind (w_heap (final start cs)) 1 with
                | Some (OShell s) => lin (sh_affine s) = block d | _ => False end) by (vm_compute; reflexivity).
    unfold live. destruct (hfind _ _) as [[]|]; try contradiction. eauto. }
  split; [vm_compute; reflexivity|].
  intros e He. destruct Hl as (s & Hl & Hs). exists (by_rows (block d)).
  split; [|split; reflexivity].
  rewrite <- He, <- Hs. now apply (pose_readers e).
Qed.
Print Assumptions C93_rotation_refuted.

Theorem C93_translate : forall {K} {NK : Num K} e (w : world K) a s v,
  live w a (OShell s) ->
  exists w', mex_call FShell e w 0 [text "translate"; mx_handle a; mx_vec v] = Ok w' [] /\
    changed_to w w' a (OShell (sh_translate s v)).
Proof. intros K NK. exact translate_then. Qed.
Print Assumptions C93_translate.

(** A setup from MATLAB is the C++ setup at the pose given by the 16 numbers,
    errors and undefined behaviour included. *)
Theorem C93_setup_flat : forall {K} {NK : Num K} e (w : world K) a s b g d meth,
  live w a (OShell s) -> live w b (OFlat g) -> List.length d = 16%nat -> ~ In Ascii.zero (lit meth) ->
  mex_call FShell e w 1 [text "setupFlat"; mx_handle a; mx_handle b; matrix 4 4 d; text meth]
  = match setup_flat (e_gb e) s g (decode (fun k => nth k d #0)) meth with
    | Ok s' r => Ok (wset w a (OShell s')) [mx_bool r]
    | Exn s' x => Exn (wset w a (OShell s')) x
    | Undef => Undef
    end.
Proof. intros K NK. exact setup_flat_through. Qed.
Print Assumptions C93_setup_flat.

Theorem C93_setup_mesh : forall {K} {NK : Num K} e (w : world K) a s b g d meth,
  live w a (OShell s) -> live w b (OMesh g) -> List.length d = 16%nat -> ~ In Ascii.zero (lit meth) ->
  mex_call FShell e w 1 [text "setupMesh"; mx_handle a; mx_handle b; matrix 4 4 d; text meth]
  = match setup_mesh (e_gb e) s g (decode (fun k => nth k d #0)) meth with
    | Ok s' r => Ok (wset w a (OShell s')) [mx_bool r]
    | Exn s' x => Exn (wset w a (OShell s')) x
    | Undef => Undef
    end.
Proof. intros K NK. exact setup_mesh_through. Qed.
Print Assumptions C93_setup_mesh.

Example C93_example : exists w', perform w0 (do1 FShell 9
    [text "setupFlat"; mx_handle 1; mx_handle 2; pose44 0 0 0; text "geometric"]) = Ok w' [mx_bool true].
Proof.
  unfold perform, do1; cbn [c_file c_env c_nlhs c_args].
  rewrite (C93_setup_flat (env64 9) w0 1 wheel1 2 (Flat (fl_plane level) (fz 1))
             (map fz [1; 0; 0; 0; 0; 1; 0; 0; 0; 0; 1; 0; 0; 0; 0; 1]%Z) "geometric").
  - eexists. vm_compute. reflexivity.
  - vm_compute. reflexivity.
  - vm_compute. reflexivity.
  - reflexivity.
  - cbn. intuition discriminate.
Qed.

(** ** C94: shapes. *)

(** What [translate] does with an array of [r] rows and [c] columns. *)
Theorem C94_translate_shapes : forall {K} {NK : Num K} e (w : world K) a s r c (d : list K),
  live w a (OShell s) -> List.length d = (r * c)%nat ->
  mex_call FShell e w 0 [text "translate"; mx_handle a; matrix r c d]
  = if Nat.eqb r 3 || Nat.eqb c 1 then
      match d with
      | x :: y :: z :: _ => Ok (wset w a (OShell (sh_translate s (V x y z)))) []
      | _ => Undef
      end
    else Exn w RuntimeError.
Proof. intros K NK. exact translate_shapes. Qed.
Print Assumptions C94_translate_shapes.

(** What [transform] does. *)
Theorem C94_transform_shapes : forall {K} {NK : Num K} e (w : world K) a s r c (d : list K),
  live w a (OShell s) ->
  mex_call FShell e w 0 [text "transform"; mx_handle a; matrix r c d]
  = if Nat.eqb r 4 || Nat.eqb c 4 then
      if Nat.leb 16 (List.length d) then
        Ok (wset w a (OShell (transform s (decode (fun k => nth k d #0))))) []
      else Undef
    else Exn w RuntimeError.
Proof. intros K NK. exact transform_shapes. Qed.
Print Assumptions C94_transform_shapes.

(** "An array that is not 3x1 is rejected": neither a scalar (read out of
    bounds) nor a 3x2 array (silently cut) is. *)
Theorem C94_vectors_checked_refuted : exists cs (w : world f64) s w',
  session start cs w /\ live w 1 (OShell s) /\
  mex_call FShell (env64 9) w 0 [text "translate"; mx_handle 1; matrix 1 1 [fz 1]] = Undef /\
  mex_call FShell (env64 9) w 0 [text "translate"; mx_handle 1; matrix 3 2 (map fz [1; 2; 3; 4; 5; 6]%Z)] = Ok w' [].
Proof.
  exists script, w0, wheel1. eexists. split; [exact script_ok|].
  assert (Hl : live w0 1 (OShell wheel1)) by (vm_compute; reflexivity).
  split; [exact Hl|]. split.
  - now rewrite (C94_translate_shapes (env64 9) w0 1 wheel1 1 1 [fz 1] Hl).
  - now rewrite (C94_translate_shapes (env64 9) w0 1 wheel1 3 2 _ Hl).
Qed.
Print Assumptions C94_vectors_checked_refuted.

(** "A matrix that is not 4x4 is rejected": a 4x1 array is read out of bounds. *)
Theorem C94_poses_checked_refuted : exists cs (w : world f64) s,
  session start cs w /\ live w 1 (OShell s) /\
  mex_call FShell (env64 9) w 0 [text "transform"; mx_handle 1; matrix 4 1 (map fz [1; 2; 3; 4]%Z)] = Undef.
Proof.
  exists script, w0, wheel1. split; [exact script_ok|].
  assert (Hl : live w0 1 (OShell wheel1)) by (vm_compute; reflexivity).
  split; [exact Hl|]. now rewrite (C94_transform_shapes (env64 9) w0 1 wheel1 4 1 _ Hl).
Qed.
Print Assumptions C94_poses_checked_refuted.

Example C94_example : live w0 1 (OShell wheel1) /\ List.length (map fz [1; 2; 3]%Z) = (3 * 1)%nat.
Proof. split; vm_compute; reflexivity. Qed.

(** ** C95: integers. *)

(** A size in the range of [int], of any numeric class, is the size set. *)
Theorem C95_resize : forall {K} {NK : Num K} e (w : world K) a s m n,
  live w a (OShell s) -> whole e m n -> (0 <= n < 2 ^ 31)%Z ->
  mex_call FShell e w 0 [text "resize"; mx_handle a; m]
  = match resize s (Z.to_nat n) with
    | Ok s' _ => Ok (wset w a (OShell s')) []
    | Exn s' x => Exn (wset w a (OShell s')) x
    | Undef => Undef
    end.
Proof. intros K NK. exact resize_through. Qed.
Print Assumptions C95_resize.

Theorem C95_size : forall {K} {NK : Num K} e (w : world K) a s,
  live w a (OShell s) ->
  answers FShell e w [text "size"; mx_handle a] (mx_int64 (Z.of_nat (sh_size s))).
Proof. intros K NK. exact size_through. Qed.
Print Assumptions C95_size.

(** Larger values lose their high bits. *)
Theorem C95_truncation : forall {K} {NK : Num K} e (w : world K) a s n,
  live w a (OShell s) -> (0 <= n < 2 ^ 31)%Z ->
  mex_call FShell e w 0 [text "resize"; mx_handle a; MxInt I64 false [1; 1]%nat [2 ^ 32 + n]%Z]
  = mex_call FShell e w 0 [text "resize"; mx_handle a; MxInt I64 false [1; 1]%nat [n]%Z].
Proof. intros K NK. exact resize_truncates. Qed.
Print Assumptions C95_truncation.

(** Negative [int8] values are read as positive ones. *)
Theorem C95_int8 : forall {K} {NK : Num K} e (w : world K) a s n,
  live w a (OShell s) -> (-128 <= n < 0)%Z ->
  mex_call FShell e w 0 [text "resize"; mx_handle a; MxInt I8 false [1; 1]%nat [n]%Z]
  = mex_call FShell e w 0 [text "resize"; mx_handle a; MxInt I64 false [1; 1]%nat [n + 256]%Z].
Proof. intros K NK. exact resize_int8. Qed.
Print Assumptions C95_int8.

(** "A size that cannot be set is an error": 2^32 + 2 sets 2 ribs. *)
Theorem C95_all_sizes_refuted : exists cs (w w' : world f64) s,
  session start cs w /\
  mex_call FShell (env64 9) w 0 [text "resize"; mx_handle 1; MxInt I64 false [1; 1]%nat [2 ^ 32 + 2]%Z] = Ok w' [] /\
  live w' 1 (OShell s) /\ sh_size s = 2%nat.
Proof.
  set (w' := next w0 (do0 FShell [text "resize"; mx_handle 1; MxInt I64 false [1; 1]%nat [2]%Z])).
  exists script, w0, w', (the_shell w' 1).
  assert (Hl : live w0 1 (OShell wheel1)) by (vm_compute; reflexivity).
  split; [exact script_ok|]. rewrite (C95_truncation (env64 9) w0 1 wheel1 2 Hl) by lia.
  split; [|split]; vm_compute; reflexivity.
Qed.
Print Assumptions C95_all_sizes_refuted.

Example C95_example : whole (env64 9) (MxInt U8 false [1; 1]%nat [3%Z]) 3.
Proof. left. exists U8, false. split; [reflexivity|]. cbn. lia. Qed.

(** ** C96: every documented command can succeed. *)

(** Unknown commands are errors without effect. *)
Theorem C96_unknown : forall {K} {NK : Num K} f e (w : world K) nlhs s rest,
  (forall n, In n (map fst (table (K:=K) f)) -> cstr s <> lit n) ->
  mex_call f e w nlhs (MxChar s :: rest) = Exn w OutOfRange.
Proof. intros K NK. exact mex_unknown. Qed.
Print Assumptions C96_unknown.

(** [checkTransformation] never returns. *)
Theorem C96_check_refuted : forall {K} {NK : Num K} e (w : world K) nlhs prhs w' outs,
  is_command prhs "checkTransformation" -> mex_call FShell e w nlhs prhs <> Ok w' outs.
Proof. intros K NK. exact check_never. Qed.
Print Assumptions C96_check_refuted.

(** [load] never returns, ... *)
Theorem C96_load_refuted : forall {K} {NK : Num K} e (w : world K) nlhs prhs w' outs,
  is_command prhs "load" -> mex_call FMesh e w nlhs prhs <> Ok w' outs.
Proof. intros K NK. exact load_never. Qed.
Print Assumptions C96_load_refuted.

(** ... although it loads. *)
Theorem C96_load_loads : forall {K} {NK : Num K} e (w : world K) a m0 path m1 b,
  live w a (OMesh m0) -> ~ In Ascii.zero (lit path) ->
  extension (lit path) = Ret (lit ".rdf") ->
  load_rdf (e_stod e) (e_fs e) (lit path) aident m0 = Ok m1 b ->
  mex_call FMesh e w 1 [text "load"; mx_handle a; text path] = Exn (wset w a (OMesh m1)) RuntimeError.
Proof. intros K NK. exact load_effect. Qed.
Print Assumptions C96_load_loads.

(** [new] of a flat ground without arguments never returns. *)
Theorem C96_flat_new_refuted : forall (e : env er) w nlhs w' outs m,
  is_command [m] "new" -> mex_call FFlat e w nlhs [m] <> Ok w' outs.
Proof. exact flat_new_bare. Qed.
Print Assumptions C96_flat_new_refuted.

(** Four methods of the MATLAB classes call commands that do not exist. *)
Theorem C96_missing_refuted : forall {K} {NK : Num K} e (w : world K) nlhs rest,
  mex_call FShell e w nlhs (text "surfaceWidthBound" :: rest) = Exn w OutOfRange /\
  mex_call FTri e w nlhs (text "setVertex1" :: rest) = Exn w OutOfRange /\
  mex_call FTri e w nlhs (text "setVertex2" :: rest) = Exn w OutOfRange /\
  mex_call FTri e w nlhs (text "setVertex3" :: rest) = Exn w OutOfRange.
Proof. intros K NK e w nlhs rest. repeat split. Qed.
Print Assumptions C96_missing_refuted.

(** Every other command has a session in which it returns. *)
Definition trials : list call :=
  let h := mx_handle in
  [ do1 FShell 9 [text "new"; i32 1; num 1; num 1; num 2; num 1; num 1];
    do0 FShell [text "delete"; h 1%Z];
    do0 FShell [text "resize"; h 1%Z; i32 2] ] ++
  map (fun c => do1 FShell 9 [text c; h 1%Z])
    ["size"; "surfaceMaxRadius"; "surfaceMaxWidth"; "surfaceWidth"; "translation"; "rotation";
     "transformation"; "x"; "y"; "z"; "eulerAngles"; "contactPointAvg"; "contactNormalAvg";
     "contactDepthAvg"; "contactFrictionAvg"; "contactAreaAvg"; "contactVolumeAvg";
     "contactPointAffineAvg"; "relativeAnglesAvg"]%string ++
  map (fun c => do1 FShell 9 [text c; h 1%Z; num 0])
    ["checkWidthBound"; "surfaceRadius"; "surfaceDerivative"; "surfaceAngle"]%string ++
  map (fun c => do1 FShell 9 [text c; h 1%Z; i32 1])
    ["ribRadius"; "ribCenter"; "ribWidth"; "ribAngle"; "contactPointRib"; "contactNormalRib";
     "contactDepthRib"; "contactFrictionRib"; "contactAreaRib"; "contactVolumeRib";
     "contactPointAffineRib"; "relativeAnglesRib"]%string ++
  [ do0 FShell [text "translate"; h 1%Z; col 1 2 3];
    do0 FShell [text "rotate"; h 1%Z; num 1; col 0 0 1];
    do0 FShell [text "transform"; h 1%Z; pose44 1 2 3];
    do1 FShell 9 [text "setupFlat"; h 1%Z; h 2%Z; pose44 0 0 0; text "geometric"];
    do1 FShell 9 [text "setupMesh"; h 1%Z; h 3%Z; pose44 0 0 0; text "geometric"];
    do1 FFlat 9 [text "new"; num 1; col 0 0 0; col 0 0 1];
    do0 FFlat [text "delete"; h 2%Z];
    do1 FFlat 9 [text "getOrigin"; h 2%Z];
    do0 FFlat [text "setOrigin"; h 2%Z; col 0 0 1];
    do1 FFlat 9 [text "getNormal"; h 2%Z];
    do0 FFlat [text "setNormal"; h 2%Z; col 0 0 1];
    do1 FFlat 9 [text "getPlane"; h 2%Z];
    do0 FFlat [text "setPlane"; h 2%Z; h 2%Z];
    do0 FFlat [text "setFriction"; h 2%Z; num 1];
    do1 FFlat 9 [text "getFriction"; h 2%Z];
    do1 FFlat 9 [text "isDegenerated"; h 2%Z];
    do1 FFlat 9 [text "isApprox"; h 2%Z; h 2%Z];
    do0 FFlat [text "copy"; h 2%Z; h 2%Z];
    do1 FMesh 9 [text "new"; text "a.rdf"];
    do0 FMesh [text "delete"; h 3%Z];
    do1 FMesh 9 [text "getTriangleground"; h 3%Z; i32 2];
    do1 FMesh 9 [text "getTrianglegroundVertices"; h 3%Z; i32 2];
    do1 FMesh 9 [text "size"; h 3%Z];
    do0 FMesh [text "copy"; h 3%Z; h 3%Z];
    do1 FTri 9 [text "new"; i32 7; num 1; col 0 0 0; col 1 0 0; col 0 1 0];
    do0 FTri [text "delete"; h 4%Z] ] ++
  map (fun c => do1 FTri 9 [text c; h 4%Z])
    ["getID"; "getFriction"; "getVertex1"; "getVertex2"; "getVertex3"; "normal"]%string ++
  [ do0 FTri [text "copy"; h 4%Z; h 4%Z] ].
Definition setup1 : list call :=
  script ++ [do1 FShell 9 [text "setupFlat"; mx_handle 1; mx_handle 2; pose44 0 0 0; text "geometric"]].
Definition w1 : world f64 := final start setup1.

Definition named (c : call (K := f64)) (n : string) : bool :=
  match c_args c with MxChar s :: _ => str_eqb (cstr s) (lit n) | _ => false end.
Definition tried (f : mexfile) (n : string) : bool :=
  existsb (fun c => file_eqb (c_file c) f && named c n && ok w1 c) trials ||
  String.eqb n "checkTransformation" || String.eqb n "load".
Lemma all_tried : forallb (fun f => forallb (tried f) (map fst (table (K:=f64) f))) [FShell; FFlat; FMesh; FTri] = true.
Proof. vm_compute. reflexivity. Qed.

Theorem C96_others_succeed : exists cs (w : world f64), session start cs w /\
  forall f n, In n (map fst (table (K:=f64) f)) -> n <> "checkTransformation"%string -> n <> "load"%string ->
    exists c, c_file c = f /\ is_command (c_args c) n /\ exists w' outs, perform w c = Ok w' outs.
Proof.
  exists setup1, w1. split; [apply runs_session; vm_compute; reflexivity|].
  intros f n Hin H1 H2. pose proof all_tried as H. rewrite forallb_forall in H.
  specialize (H f ltac:(destruct f; cbn; tauto)). rewrite forallb_forall in H. specialize (H n Hin).
  unfold tried in H. apply orb_prop in H as [H|H]; [|now apply String.eqb_eq in H].
  apply orb_prop in H as [H|H]; [|now apply String.eqb_eq in H].
  apply existsb_exists in H as (c & _ & H). apply andb_prop in H as [H H3]. apply andb_prop in H as [Hf Hn].
  exists c. split; [|split].
  - destruct (c_file c), f; easy.
  - unfold named in Hn. destruct (c_args c) as [|m rest]; try discriminate. destruct m as [| | | |s|]; try discriminate.
    exists s, rest. split; [reflexivity|]. now apply str_eqb_eq'.
  - unfold ok in H3. destruct (perform w1 c); try discriminate. eauto.
Qed.
Print Assumptions C96_others_succeed.

Example C96_example : exists w m1, session start [do1 FMesh 3 [text "new"]] w /\ live w 3 (OMesh mesh_empty) /\
  extension (lit "a.rdf") = Ret (lit ".rdf") /\
  load_rdf (e_stod (env64 9)) (e_fs (env64 9)) (lit "a.rdf") aident (mesh_empty (K:=f64)) = Ok m1 true.
Proof.
  exists (final start [do1 FMesh 3 [text "new"]]). eexists. split; [apply runs_session; vm_compute; reflexivity|].
  split; [vm_compute; reflexivity|]. split; [reflexivity|vm_compute; reflexivity].
Qed.

(** ** C97: objects that are never freed. *)

(** Points and planes returned by the gateway cannot be deleted by it: they
    stay alive whatever is called afterwards. *)
Theorem C97_points_stay : forall {K} {NK : Num K} (w : world K) cs w' a o,
  session w cs w' -> (class_of o = None) -> live w a o -> live w' a o.
Proof. intros K NK. exact foreign_stays. Qed.
Print Assumptions C97_points_stay.

(** Every object a call creates is returned to the caller, ... *)
Theorem C97_new_objects_returned : forall {K} {NK : Num K} (w : world K) c w',
  step w c w' -> (List.length (w_heap w) < List.length (w_heap w'))%nat ->
  perform w c = Ok w' [mx_handle (e_new (c_env c))] /\ exists o, live w' (e_new (c_env c)) o.
Proof. intros K NK. exact new_returned. Qed.
Print Assumptions C97_new_objects_returned.

(** ... or lost; only two kinds of calls lose one. *)
Theorem C97_losing_calls : forall {K} {NK : Num K} (w : world K) c w',
  step w c w' -> w_lost w' = w_lost w \/ (losing w c /\ w_lost w' = S (w_lost w)).
Proof. intros K NK. exact lost_step. Qed.
Print Assumptions C97_losing_calls.

(** "Whatever was created can be freed": three calls lose two objects. *)
Theorem C97_all_freed_refuted : exists cs (w : world f64),
  session start cs w /\ w_heap w = [] /\ w_lost w = 2%nat.
Proof.
  set (cs := [do1 FMesh 3 [text "new"; text "a.rdf"];
              do1 FMesh 9 [text "getTrianglegroundVertices"; mx_handle 3; i32 1];
              do0 FMesh [text "delete"; mx_handle 3];
              do1 FMesh 3 [text "new"; text "neg.rdf"]]).
  exists cs, (final start cs). split; [apply runs_session; vm_compute; reflexivity|].
  split; vm_compute; reflexivity.
Qed.
Print Assumptions C97_all_freed_refuted.

Example C97_example : exists w' p, step w1 (do1 FShell 9 [text "contactPointAvg"; mx_handle 1]) w' /\
  live w' 9 (OPoint p).
Proof.
  exists (next w1 (do1 FShell 9 [text "contactPointAvg"; mx_handle 1])).
  exists (the_point (next w1 (do1 FShell 9 [text "contactPointAvg"; mx_handle 1])) 9). split.
  - apply ok_step. vm_compute. reflexivity.
  - unfold live. vm_compute. reflexivity.
Qed.

(** ** C98: flat grounds reached from MATLAB are valid. *)

Theorem C98_flats_sound : forall cs (w : world er),
  Forall tame cs -> session start cs w -> sound_world w.
Proof. exact sound_start. Qed.
Print Assumptions C98_flats_sound.

(** The two setters break it: any normal and any friction are stored. *)
Theorem C98_setters_refuted : exists cs (w : world f64) g,
  session start cs w /\ live w 2 (OFlat g) /\
  pnormal (fl_plane g) = V (fz 0) (fz 0) (fz (-2)) /\ fl_friction g = fz (-1).
Proof.
  set (cs := script ++ [do0 FFlat [text "setNormal"; mx_handle 2; col 0 0 (-2)];
                        do0 FFlat [text "setFriction"; mx_handle 2; num (-1)]]).
  exists cs, (final start cs), (the_flat (final start cs) 2).
  split; [apply runs_session; vm_compute; reflexivity|].
  split; [|split]; vm_compute; reflexivity.
Qed.
Print Assumptions C98_setters_refuted.

Example C98_example : exists c, tame c /\ c_file c = FFlat /\ is_command (c_args c) "new" /\
  exists w', step (start (K:=er)) c w' /\ exists g, live w' 5 (OFlat g).
Proof.
  set (e := Env 5%Z (fun _ => None) (fun _ => Throw RuntimeError) (fun _ => Throw RuntimeError)
              (fun _ => let v := V (Fin 0) (Fin 0) (Fin 0) in (v, v, v, v)) (fun m => m) : env er).
  set (o := V (Fin 0) (Fin 0) (Fin 0)). set (d := V (Fin 0) (Fin 1) (Fin 2)).
  assert (H : exists g, mk_flat (Fin 1) o d = Ret g).
  { apply flat_throws. subst d. cbn [vz]. rewrite e_ofZ, e_le, e_lt. split; [apply rleb_true|apply rltb_true]; lra. }
  destruct H as [g Hg].
  exists (Call FFlat e 1 [text "new"; mx_scalar (Fin 1); mx_vec o; mx_vec d]).
  split; [|split; [reflexivity|split]].
  - split.
    + repeat constructor; cbn; eauto.
    + intros _. split; intros (s & rest & [= <- _] & Hs); discriminate.
  - eexists _, _. split; reflexivity.
  - destruct (C91_new_flat e start (Fin 1) o d) as [H _]. destruct (H g Hg) as (w' & H1 & H2).
    exists w'. split; [|exists g; apply H2]. split; [intros []|]. left. eexists. exact H1.
Qed.

(** ** C99: indices count from one. *)

Theorem C99_ribs : forall {K} {NK : Num K} e (w : world K) a s m i r,
  live w a (OShell s) -> whole e m i -> (1 <= i < 2 ^ 31)%Z ->
  nth_error (sh_ribs s) (Z.to_nat (i - 1)) = Some r ->
  answers FShell e w [text "ribRadius"; mx_handle a; m] (mx_scalar (rb_radius r)) /\
  answers FShell e w [text "ribWidth"; mx_handle a; m] (mx_scalar (rb_width r)) /\
  answers FShell e w [text "ribAngle"; mx_handle a; m] (mx_scalar (rb_angle r)) /\
  exists w', mex_call FShell e w 1 [text "ribCenter"; mx_handle a; m] = Ok w' [mx_handle (e_new e)] /\
    extended_by FShell w w' (e_new e) (OPoint (rb_center r)).
Proof. intros K NK. exact rib_queries. Qed.
Print Assumptions C99_ribs.

Theorem C99_contacts : forall {K} {NK : Num K} e (w : world K) a s m i c,
  live w a (OShell s) -> whole e m i -> (1 <= i < 2 ^ 31)%Z ->
  nth_error (sh_cells s) (Z.to_nat (i - 1)) = Some (Some c) ->
  answers FShell e w [text "contactNormalRib"; mx_handle a; m] (mx_vec (o_normal c)) /\
  answers FShell e w [text "contactDepthRib"; mx_handle a; m] (mx_scalar (o_depth c)) /\
  answers FShell e w [text "contactFrictionRib"; mx_handle a; m] (mx_scalar (o_friction c)) /\
  answers FShell e w [text "contactAreaRib"; mx_handle a; m] (mx_scalar (o_area c)) /\
  answers FShell e w [text "contactVolumeRib"; mx_handle a; m] (mx_scalar (o_volume c)) /\
  exists w', mex_call FShell e w 1 [text "contactPointRib"; mx_handle a; m] = Ok w' [mx_handle (e_new e)] /\
    extended_by FShell w w' (e_new e) (OPoint (o_point c)).
Proof. intros K NK. exact cell_queries. Qed.
Print Assumptions C99_contacts.

(** The averages are those of the C++ interface. *)
Theorem C99_averages : forall {K} {NK : Num K} e (w : world K) a s,
  live w a (OShell s) ->
  (forall v, contact_normal s = Ret v -> answers FShell e w [text "contactNormalAvg"; mx_handle a] (mx_vec v)) /\
  (forall x, contact_depth s = Ret x -> answers FShell e w [text "contactDepthAvg"; mx_handle a] (mx_scalar x)) /\
  (forall x, contact_friction s = Ret x -> answers FShell e w [text "contactFrictionAvg"; mx_handle a] (mx_scalar x)) /\
  (forall x, contact_area s = Ret x -> answers FShell e w [text "contactAreaAvg"; mx_handle a] (mx_scalar x)) /\
  (forall x, contact_volume s = Ret x -> answers FShell e w [text "contactVolumeAvg"; mx_handle a] (mx_scalar x)) /\
  (forall t, contact_affine s = Ret t -> answers FShell e w [text "contactPointAffineAvg"; mx_handle a] (mx_affine t)) /\
  (forall v, relative_angles s = Ret v -> answers FShell e w [text "relativeAnglesAvg"; mx_handle a] (mx_vec v)) /\
  (forall p, contact_point s = Ret p ->
     exists w', mex_call FShell e w 1 [text "contactPointAvg"; mx_handle a] = Ok w' [mx_handle (e_new e)] /\
       extended_by FShell w w' (e_new e) (OPoint p)).
Proof. intros K NK. exact average_queries. Qed.
Print Assumptions C99_averages.

(** A triangle of a mesh, by value; its id is lost. *)
Theorem C99_triangles : forall {K} {NK : Num K} e (w : world K) a g m i t,
  live w a (OMesh g) -> whole e m i -> (1 <= i < 2 ^ 31)%Z ->
  nth_error (me_tris g) (Z.to_nat (i - 1)) = Some t ->
  exists w' t',
    mex_call FMesh e w 1 [text "getTriangleground"; mx_handle a; m] = Ok w' [mx_handle (e_new e)] /\
    extended_by FMesh w w' (e_new e) (OTri t') /\
    tg_tri t' = tg_tri t /\ tg_friction t' = tg_friction t /\ tg_normal t' = tg_normal t /\
    tg_bbox t' = tg_bbox t /\ tg_id t' = 0%Z.
Proof. intros K NK. exact triangle_query. Qed.
Print Assumptions C99_triangles.

Theorem C99_vertices : forall {K} {NK : Num K} e (w : world K) a g m i t,
  live w a (OMesh g) -> whole e m i -> (1 <= i < 2 ^ 31)%Z ->
  nth_error (me_tris g) (Z.to_nat (i - 1)) = Some t ->
  exists w',
    mex_call FMesh e w 1 [text "getTrianglegroundVertices"; mx_handle a; m]
    = Ok w' [matrix 3 3 [vx (tv0 (tg_tri t)); vy (tv0 (tg_tri t)); vz (tv0 (tg_tri t));
                         vx (tv1 (tg_tri t)); vy (tv1 (tg_tri t)); vz (tv1 (tg_tri t));
                         vx (tv2 (tg_tri t)); vy (tv2 (tg_tri t)); vz (tv2 (tg_tri t))]] /\
    w_heap w' = w_heap w /\ w_lost w' = S (w_lost w).
Proof. intros K NK. exact vertices_query. Qed.
Print Assumptions C99_vertices.

(** The fields of a triangle made in MATLAB are read back. *)
Theorem C99_triangle_fields : forall {K} {NK : Num K} e (w : world K) a t,
  live w a (OTri t) ->
  answers FTri e w [text "getID"; mx_handle a] (mx_scalar (nofZ (tg_id t))) /\
  answers FTri e w [text "getFriction"; mx_handle a] (mx_scalar (tg_friction t)) /\
  answers FTri e w [text "normal"; mx_handle a] (mx_vec (tg_normal t)).
Proof. intros K NK. exact tri_readers. Qed.
Print Assumptions C99_triangle_fields.

(** An index out of range is not an error: the read is out of bounds. *)
Theorem C99_rib_range_refuted : forall {K} {NK : Num K} e (w : world K) a s i,
  live w a (OShell s) -> (- 2 ^ 31 < i < 2 ^ 31)%Z ->
  ~ (1 <= i <= Z.of_nat (sh_size s))%Z -> (Z.of_nat (sh_size s) <= 2 ^ 63)%Z ->
  mex_call FShell e w 1 [text "ribRadius"; mx_handle a; MxInt I32 false [1; 1]%nat [i]] = Undef.
Proof. intros K NK. exact rib_out_of_range. Qed.
Print Assumptions C99_rib_range_refuted.

Theorem C99_triangle_range_refuted : forall {K} {NK : Num K} e (w : world K) a g i,
  live w a (OMesh g) -> (- 2 ^ 31 < i < 2 ^ 31)%Z ->
  ~ (1 <= i <= Z.of_nat (mesh_size g))%Z -> (Z.of_nat (mesh_size g) <= 2 ^ 63)%Z ->
  mex_call FMesh e w 1 [text "getTriangleground"; mx_handle a; MxInt I32 false [1; 1]%nat [i]] = Undef.
Proof. intros K NK. exact triangle_out_of_range. Qed.
Print Assumptions C99_triangle_range_refuted.

(** The second triangle of the sample mesh has id 1; MATLAB sees 0. *)
Theorem C99_triangle_id_refuted : exists cs (w : world f64) g t t',
  session start cs w /\ live w 3 (OMesh g) /\ nth_error (me_tris g) 1 = Some t /\ (tg_id t = 1)%Z /\
  perform w (do1 FMesh 9 [text "getTriangleground"; mx_handle 3; i32 2]) = Ok (wnew FMesh w 9 (OTri t')) [mx_handle 9] /\
  (tg_id t' = 0)%Z.
Proof.
  set (c := do1 FMesh 9 [text "getTriangleground"; mx_handle 3; i32 2]).
  exists script, w0, (the_mesh w0 3), (nth 1 (me_tris (the_mesh w0 3)) tg_empty), (the_tri (next w0 c) 9).
  split; [exact script_ok|]. split; [|split; [|split; [|split]]]; vm_compute; reflexivity.
Qed.
Print Assumptions C99_triangle_id_refuted.

Example C99_example : live w1 1 (OShell (the_shell w1 1)) /\
  exists c, nth_error (sh_cells (the_shell w1 1)) 0 = Some (Some c).
Proof.
  split; [vm_compute; reflexivity|].
  assert (H : match nth_error (sh_cells (the_shell w1 1)) 0 with Some (Some _) => true | _ => false end = true)
    by (vm_compute; reflexivity).
  destruct (nth_error (sh_cells (the_shell w1 1)) 0) as [[c|]|]; try discriminate. eauto.
Qed.
