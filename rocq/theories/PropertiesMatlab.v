(** * The MATLAB classes: theorems.

    Vocabulary: SpecMatlab.v.  [script fresh_session l tr st b]: the statements
    [l], run from a new MATLAB session, make the gateway calls [tr] and leave
    [st]; [b] tells whether they ended in undefined behaviour.  The examples
    are over binary64. *)
From Coq Require Import ZArith Bool Reals Lia String List Floats.SpecFloat.
From Verif Require Import Base Num Vec Aabb Tree Geom Ground Shape Rib Str Mesh Shell Sfun ER F64.
From Verif Require Import Mex SpecMex ProofMexE SampleShell SampleMex Matlab SpecMatlab.
From Verif Require Import ProofMatlabD ProofMatlabE ProofMatlabF ProofMatlabG ProofMatlabH.
From Verif Require SampleMesh.
Import ListNotations.
Local Open Scope num_scope.

(** A wheel, a flat ground, a mesh and a triangle; the wheel is set on the
    flat ground and then on the mesh, asked for its contact, and some objects
    are deleted. *)
Definition senv : env f64 := env64 0.
Definition lesson : list (env f64 * stmt f64) :=
  map (fun s => (senv, s))
  [ SNew FShell (map SArr [i32 1; num 1; num 1; num 2; num 1; num 1]);
    SNew FFlat (map SArr [num 1; col 0 0 0; col 0 0 1]);
    SNew FMesh [SArr (text "a.rdf")];
    SNew FTri (map SArr [i32 7; num 1; col 0 0 0; col 1 0 0; col 0 1 0]);
    SCall 0 "setupFlat" [SRef 1; SArr (pose44 0 0 1); SArr (text "geometric")];
    SCall 0 "contactPointVec" [];
    SCall 2 "getTriangleground" [SArr (i32 1)];
    SCall 4 "toTriangle" [];
    SCall 1 "setPlane" [SPlane (Plane (V (fz 0) (fz 0) (fz 2)) (V (fz 0) (fz 0) (fz 1)))];
    SDelete 3; SCall 3 "getID" []; SDelete 4 ]%string.
Definition lesson_end : state f64 := snd (fst (run_script fresh_session lesson)).
Definition lesson_calls : trace f64 := fst (fst (run_script fresh_session lesson)).
Lemma lesson_ok : script fresh_session lesson lesson_calls lesson_end false.
Proof. apply run_ends. vm_compute. reflexivity. Qed.
Example lesson_runs : undeleted lesson_end = 3%nat /\ List.length lesson_calls = 18%nat.
Proof. split; vm_compute; reflexivity. Qed.

(** ** C105: scripts never pass a stale or foreign handle. *)

(** Every gateway call made by the methods is given live handles only, and a
    script that ends in undefined behaviour does so inside its last call. *)
Theorem C105_sound_calls : forall {K} {NK : Num K} l tr (st : state K) b,
  script fresh_session l tr st b ->
  Forall sound_call tr /\ (b = true -> exists tr0 x, tr = tr0 ++ [x] /\ crashes x).
Proof. intros K NK. exact script_sound. Qed.
Print Assumptions C105_sound_calls.

(** Every object in use holds a live handle of its class, ... *)
Theorem C105_objects_live : forall {K} {NK : Num K} l tr (st : state K) i o,
  script fresh_session l tr st false -> object st i = Some o ->
  exists ob, handle_of (st_world st) (o_handle o) ob /\ class_of ob = Some (o_class o).
Proof. intros K NK. exact script_object. Qed.
Print Assumptions C105_objects_live.

(** ... which no other object holds. *)
Theorem C105_distinct : forall {K} {NK : Num K} l tr (st : state K) i j o o',
  script fresh_session l tr st false ->
  object st i = Some o -> object st j = Some o' -> i <> j -> o_handle o <> o_handle o'.
Proof. intros K NK. exact script_distinct. Qed.
Print Assumptions C105_distinct.

(** Deleting an object always works; what it held is freed and it cannot be
    used again. *)
Theorem C105_delete : forall {K} {NK : Num K} l tr (st : state K) i o e tr' st' r,
  script fresh_session l tr st false ->
  object st i = Some o -> does e st (SDelete i) tr' st' r ->
  r = Done RNone /\ object st' i = None /\
  S (List.length (w_heap (st_world st'))) = List.length (w_heap (st_world st)) /\
  forall a, o_handle o = mx_handle a -> hfind (w_heap (st_world st')) a = None.
Proof. intros K NK. exact delete_frees. Qed.
Print Assumptions C105_delete.

(** Scripts are sessions of gateway calls: what holds after every session
    holds after every script. *)
Theorem C105_session : forall {K} {NK : Num K} l tr (st : state K),
  script fresh_session l tr st false -> session start (map snd tr) (st_world st).
Proof. intros K NK. exact script_session. Qed.
Print Assumptions C105_session.

(** Every statement ends. *)
Theorem C105_total : forall {K} {NK : Num K} e (st : state K) s,
  exists tr st' r, does e st s tr st' r.
Proof. intros K NK. exact does_total. Qed.
Print Assumptions C105_total.

Example C105_example : script fresh_session lesson lesson_calls lesson_end false /\
  object lesson_end 3 = None /\ exists o o', object lesson_end 0 = Some o /\ object lesson_end 2 = Some o'.
Proof.
  split; [exact lesson_ok|]. split; [vm_compute; reflexivity|].
  eexists _, _. split; vm_compute; reflexivity.
Qed.

(** A script can crash: the third rib of a wheel with one. *)
Example C105_example_crash : exists l tr (st : state f64), script fresh_session l tr st true.
Proof.
  set (l := firstn 1 lesson ++ [(senv, SCall 0 "ribRadius" [SArr (i32 3)])]).
  exists l, (fst (fst (run_script fresh_session l))), (snd (fst (run_script fresh_session l))).
  apply run_ends. vm_compute. reflexivity.
Qed.

(** ** C106: what the methods return. *)

(** The readings of a wheel. *)
Theorem C106_shell : forall {K} {NK : Num K} e (w : world K) a s, live w a (OShell s) ->
  returns e w (invoke (obj_shell a) "size" []) (RArr (mx_int64 (Z.of_nat (sh_size s)))) /\
  returns e w (invoke (obj_shell a) "disp" []) (RArr (mx_int64 (Z.of_nat (sh_size s)))) /\
  returns e w (invoke (obj_shell a) "transformation" []) (RArr (mx_affine (sh_affine s))) /\
  returns e w (invoke (obj_shell a) "translation" []) (RArr (mx_vec (tra (sh_affine s)))) /\
  returns e w (invoke (obj_shell a) "x" []) (RArr (mx_vec (sh_x s))) /\
  returns e w (invoke (obj_shell a) "y" []) (RArr (mx_vec (sh_y s))) /\
  returns e w (invoke (obj_shell a) "z" []) (RArr (mx_vec (sh_z s))) /\
  (forall v, contact_normal s = Ret v -> returns e w (invoke (obj_shell a) "contactNormalAvg" []) (RArr (mx_vec v))) /\
  (forall x, contact_depth s = Ret x -> returns e w (invoke (obj_shell a) "contactDepthAvg" []) (RArr (mx_scalar x))) /\
  (forall x, contact_friction s = Ret x -> returns e w (invoke (obj_shell a) "contactFrictionAvg" []) (RArr (mx_scalar x))) /\
  (forall x, contact_area s = Ret x -> returns e w (invoke (obj_shell a) "contactAreaAvg" []) (RArr (mx_scalar x))) /\
  (forall x, contact_volume s = Ret x -> returns e w (invoke (obj_shell a) "contactVolumeAvg" []) (RArr (mx_scalar x))) /\
  (forall t, contact_affine s = Ret t -> returns e w (invoke (obj_shell a) "contactPointAffineAvg" []) (RArr (mx_affine t))) /\
  (forall v, relative_angles s = Ret v -> returns e w (invoke (obj_shell a) "relativeAnglesAvg" []) (RArr (mx_vec v))) /\
  (forall p, contact_point s = Ret p ->
     always e w (invoke (obj_shell a) "contactPointAvg" []) (fun _ w' r =>
       r = Done (RAcme (OPoint p)) /\ grown w w' [OPoint p])).
Proof. intros K NK. exact shell_reads. Qed.
Print Assumptions C106_shell.

(** The readings on all ribs: one value per rib, in order. *)
Theorem C106_per_rib : forall {K} {NK : Num K} e (w : world K) a s,
  live w a (OShell s) -> (Z.of_nat (sh_size s) < 2 ^ 31)%Z ->
  (forall v, contact_normal_v s = Ret v -> returns e w (invoke (obj_shell a) "contactNormalVec" []) (RArrs (map mx_vec v))) /\
  (forall v, contact_depth_v s = Ret v -> returns e w (invoke (obj_shell a) "contactDepthVec" []) (RArrs (map mx_scalar v))) /\
  (forall v, contact_friction_v s = Ret v -> returns e w (invoke (obj_shell a) "contactFrictionVec" []) (RArrs (map mx_scalar v))) /\
  (forall v, contact_area_v s = Ret v -> returns e w (invoke (obj_shell a) "contactAreaVec" []) (RArrs (map mx_scalar v))) /\
  (forall v, contact_volume_v s = Ret v -> returns e w (invoke (obj_shell a) "contactVolumeVec" []) (RArrs (map mx_scalar v))) /\
  (forall v, omap (relative_angles_i s) (seq 0 (sh_size s)) = Ret v ->
     returns e w (invoke (obj_shell a) "relativeAnglesVec" []) (RArrs (map mx_vec v))) /\
  (forall v, omap (contact_affine_i s) (seq 0 (sh_size s)) = Ret v ->
     returns e w (invoke (obj_shell a) "contactPointAffineVec" []) (RArrs (map mx_affine v))) /\
  (forall v, contact_point_v s = Ret v ->
     always e w (invoke (obj_shell a) "contactPointVec" []) (fun _ w' r =>
       r = Done (RAcmes (map OPoint v)) /\ grown w w' (map OPoint v))).
Proof. intros K NK. exact per_rib. Qed.
Print Assumptions C106_per_rib.

(** Posing a wheel and setting it on the ground. *)
Theorem C106_transform : forall {K} {NK : Num K} e (w : world K) a s d,
  live w a (OShell s) -> List.length d = 16%nat ->
  always e w (invoke (obj_shell a) "transform" [VArr (matrix 4 4 d)]) (fun _ w' r =>
    r = Done RNone /\ changed_to w w' a (OShell (transform s (decode (fun k => nth k d #0))))).
Proof. intros K NK. exact shell_transform_m. Qed.
Print Assumptions C106_transform.

Theorem C106_setup_flat : forall {K} {NK : Num K} e (w : world K) a s b g d meth,
  live w a (OShell s) -> live w b (OFlat g) -> List.length d = 16%nat -> ~ In Ascii.zero (lit meth) ->
  always e w (invoke (obj_shell a) "setupFlat" [VObj (obj_flat b); VArr (matrix 4 4 d); VArr (text meth)])
    (fun _ w' r =>
       match setup_flat (e_gb e) s g (decode (fun k => nth k d #0)) meth with
       | Ok s' x => r = Done (RArr (mx_bool x)) /\ changed_to w w' a (OShell s')
       | Exn s' _ => r = Failed /\ changed_to w w' a (OShell s')
       | Undef => r = Crash
       end).
Proof. intros K NK. exact setup_m_flat. Qed.
Print Assumptions C106_setup_flat.

Theorem C106_setup_mesh : forall {K} {NK : Num K} e (w : world K) a s b g d meth,
  live w a (OShell s) -> live w b (OMesh g) -> List.length d = 16%nat -> ~ In Ascii.zero (lit meth) ->
  always e w (invoke (obj_shell a) "setupMesh" [VObj (obj_mesh b); VArr (matrix 4 4 d); VArr (text meth)])
    (fun _ w' r =>
       match setup_mesh (e_gb e) s g (decode (fun k => nth k d #0)) meth with
       | Ok s' x => r = Done (RArr (mx_bool x)) /\ changed_to w w' a (OShell s')
       | Exn s' _ => r = Failed /\ changed_to w w' a (OShell s')
       | Undef => r = Crash
       end).
Proof. intros K NK. exact setup_m_mesh. Qed.
Print Assumptions C106_setup_mesh.

(** A ground of the wrong class is an error, and nothing changes. *)
Theorem C106_setup_wrong : forall {K} {NK : Num K} e (w : world K) a s b o c f t u,
  In c ["setupFlat"; "setupMesh"]%string -> live w a (OShell s) -> live w b o ->
  class_of o <> Some (if String.eqb c "setupFlat" then FFlat else FMesh) ->
  always e w (invoke (obj_shell a) c [VObj (Obj f (mx_handle b)); t; u])
    (fun _ w' r => w' = w /\ r = Failed).
Proof. intros K NK. exact setup_m_wrong. Qed.
Print Assumptions C106_setup_wrong.

(** Flat grounds; [setPlane] changes the plane and keeps the coefficient. *)
Theorem C106_flat : forall {K} {NK : Num K} e (w : world K) a g, live w a (OFlat g) ->
  returns e w (invoke (obj_flat a) "getNormal" []) (RArr (mx_vec (pnormal (fl_plane g)))) /\
  returns e w (invoke (obj_flat a) "getFriction" []) (RArr (mx_scalar (fl_friction g))) /\
  always e w (invoke (obj_flat a) "getOrigin" []) (fun _ w' r =>
    r = Done (RAcme (OPoint (porigin (fl_plane g)))) /\ grown w w' [OPoint (porigin (fl_plane g))]) /\
  always e w (invoke (obj_flat a) "getPlane" []) (fun _ w' r =>
    r = Done (RAcme (OPlane (fl_plane g))) /\ grown w w' [OPlane (fl_plane g)]) /\
  (forall p, always e w (invoke (obj_flat a) "setPlane" [VPlane p]) (fun _ w' r =>
    r = Done RNone /\ changed_to w w' a (OFlat (Flat p (fl_friction g))))) /\
  (forall b q, live w b (OFlat q) ->
    always e w (invoke (obj_flat a) "setPlane" [VObj (obj_flat b)]) (fun _ w' r =>
      r = Done RNone /\ live w' a (OFlat (Flat (fl_plane q) (fl_friction g))) /\
      (forall c o, c <> a -> live w c o -> live w' c o))).
Proof. intros K NK. exact flat_reads. Qed.
Print Assumptions C106_flat.

(** Triangles. *)
Theorem C106_triangle : forall {K} {NK : Num K} e (w : world K) a t, live w a (OTri t) ->
  returns e w (invoke (obj_tri a) "getID" []) (RArr (mx_scalar (nofZ (tg_id t)))) /\
  returns e w (invoke (obj_tri a) "getFriction" []) (RArr (mx_scalar (tg_friction t))) /\
  returns e w (invoke (obj_tri a) "normal" []) (RArr (mx_vec (tg_normal t))) /\
  always e w (invoke (obj_tri a) "toTriangle" []) (fun _ w' r =>
    r = Done (RAcmes (vertices_of t)) /\ grown w w' (vertices_of t)) /\
  (forall b t', live w b (OTri t') -> b <> a ->
    always e w (invoke (obj_tri a) "copy" [VObj (obj_tri b)]) (fun _ w' r =>
      r = Done RNone /\ exists t2, changed_to w w' a (OTri t2) /\ tg_tri t2 = tg_tri t' /\
        tg_friction t2 = tg_friction t' /\ tg_normal t2 = tg_normal t' /\ tg_bbox t2 = tg_bbox t' /\ tg_id t2 = tg_id t)).
Proof. intros K NK. exact tri_reads. Qed.
Print Assumptions C106_triangle.

(** Meshes: a triangle taken out of a mesh is the triangle but for its number,
    and a second copy is left behind. *)
Theorem C106_mesh : forall {K} {NK : Num K} e (w : world K) a g, live w a (OMesh g) ->
  returns e w (invoke (obj_mesh a) "size" []) (RArr (mx_int64 (Z.of_nat (mesh_size g)))) /\
  ((Z.of_nat (mesh_size g) < 2 ^ 31)%Z -> forall u v,
    always e w (invoke (obj_mesh a) "plot" [u; v]) (fun _ w' r =>
      r = Done (RArrs (map corners (me_tris g))) /\ w_heap w' = w_heap w /\
      w_lost w' = (w_lost w + mesh_size g)%nat)) /\
  (nle (nofZ 0) (nofZ (K:=K) 0) = true -> forall m i t,
     (forall z, whole (at_address e z) m i) -> (1 <= i < 2 ^ 31)%Z ->
     nth_error (me_tris g) (Z.to_nat (i - 1)) = Some t ->
     always e w (invoke (obj_mesh a) "getTriangleground" [VArr m]) (fun _ w' r =>
       exists b t' t'', r = Done (RObj (obj_tri b)) /\ live w' b (OTri t') /\
         same_but_id t t' /\ same_but_id t t'' /\ grown w w' [OTri t'; OTri t'']) /\
     always e w (invoke (obj_mesh a) "getTriangle" [VArr m]) (fun _ w' r =>
       r = Done (RAcmes (vertices_of t)) /\
       exists t'', same_but_id t t'' /\ grown w w' (OTri t'' :: vertices_of t))).
Proof. intros K NK. exact mesh_reads. Qed.
Print Assumptions C106_mesh.

(** "Every method can succeed": these never do, whatever they are given. *)
Theorem C106_dead_refuted : forall {K} {NK : Num K} e (w : world K) h c args,
  (c = "surfaceWidthBound"%string ->
     always e w (invoke (Obj FShell h) c args) (fun _ w' r => w' = w /\ r = Failed)) /\
  (In c ["setVertex1"; "setVertex2"; "setVertex3"]%string ->
     always e w (invoke (Obj FTri h) c args) (fun _ w' r => w' = w /\ r = Failed)).
Proof. intros K NK. exact dead_methods. Qed.
Print Assumptions C106_dead_refuted.

(** [copy] of a flat ground wants a mesh and then refuses it. *)
Theorem C106_flat_copy_refuted : forall {K} {NK : Num K} e (w : world K) a g args,
  live w a (OFlat g) ->
  (forall x, In (VObj x) args -> exists ob, handle_of w (o_handle x) ob /\ class_of ob = Some (o_class x)) ->
  always e w (invoke (obj_flat a) "copy" args) (fun _ w' r => w' = w /\ r = Failed).
Proof. intros K NK. exact dead_copy. Qed.
Print Assumptions C106_flat_copy_refuted.

(** [enve_flat()], which the class documents, never gives a ground. *)
Theorem C106_flat_new_refuted : forall (e : env er) w,
  always e w (construct FFlat []) (fun _ _ r => forall o, r <> Done o).
Proof. exact flat_bare_m. Qed.
Print Assumptions C106_flat_new_refuted.

(** "A triangle taken out of a mesh has the number it has there": the second
    triangle, which has number 1, comes out with number 0. *)
Theorem C106_triangle_number_refuted : exists l tr (st : state f64) o g t,
  script fresh_session (l ++ [(senv, SCall 0 "getTriangleground"%string [SArr (i32 2)])]) tr st false /\
  object st 1 = Some o /\
  live (st_world st) 1 (OMesh g) /\ nth_error (me_tris g) 1 = Some t /\ tg_id t = 1%Z /\
  returns senv (st_world st) (invoke o "getID" []) (RArr (num 0)).
Proof.
  set (l0 := [ (senv, SNew FMesh [SArr (text (K:=f64) "a.rdf")]) ]).
  set (l := l0 ++ [ (senv, SCall 0 "getTriangleground"%string [SArr (i32 2)]) ]).
  set (st := snd (fst (run_script fresh_session l))).
  exists l0, (fst (fst (run_script fresh_session l))), st.
  assert (H : exists b, object st 1 = Some (obj_tri b) /\ b = 2%Z) by (exists 2%Z; split; vm_compute; reflexivity).
  destruct H as (b & Ho & Hb). exists (obj_tri b), (the_mesh (st_world st) 1), (nth 1 (me_tris (the_mesh (st_world st) 1)) (the_tri (st_world st) b)).
  split; [apply run_ends; vm_compute; reflexivity|]. split; [exact Ho|]. split; [vm_compute; reflexivity|].
  split; [vm_compute; reflexivity|]. split; [vm_compute; reflexivity|].
  assert (Hl : live (st_world st) b (OTri (the_tri (st_world st) b))) by (subst b; vm_compute; reflexivity).
  assert (Hi : tg_id (the_tri (st_world st) b) = 0%Z) by (subst b; vm_compute; reflexivity).
  pose proof (proj1 (C106_triangle senv (st_world st) b _ Hl)) as P. rewrite Hi in P. exact P.
Qed.
Print Assumptions C106_triangle_number_refuted.

(** The methods listed in SpecMatlab.v are one call of the gateway under their
    own name, with the handle of the object and then the arguments in order;
    what they return is what the gateway returned. *)
Theorem C106_forwarded : forall {K} {NK : Num K} e (w : world K) f h name n (args : list (mval K)),
  List.length args = n ->
  let call := text name :: h :: map to_mx args in
  (In (f, name, n) getters -> one_call e w (invoke (Obj f h) name args) f 1 call the_array) /\
  (In (f, name, n) setters -> one_call e w (invoke (Obj f h) name args) f 0 call nothing) /\
  (In (f, name, n) makers -> one_call e w (invoke (Obj f h) name args) f 1 call the_object) /\
  (forall c, In (f, name, c, n) renamed ->
     one_call e w (invoke (Obj f h) name args) f 1 (text c :: h :: map to_mx args) the_array).
Proof.
  intros K NK e w f h name n args L call. split; [|split; [|split]].
  - intros H. exact (forwards_get e w f h name n args H L).
  - intros H. exact (forwards_set e w f h name n args H L).
  - intros H. exact (forwards_make e w f h name n args H L).
  - intros c H. exact (forwards_renamed e w f h name c n args H L).
Qed.
Print Assumptions C106_forwarded.

(** With another number of arguments they fail without a call. *)
Theorem C106_arity : forall {K} {NK : Num K} e (w : world K) f h name n (args : list (mval K)),
  In (f, name, n) (getters ++ setters ++ makers) -> List.length args <> n ->
  always e w (invoke (Obj f h) name args) (fun tr w' r => tr = [] /\ w' = w /\ r = Failed).
Proof. intros K NK. exact wrong_arity. Qed.
Print Assumptions C106_arity.

(** Every object knows its class. *)
Theorem C106_type : forall {K} {NK : Num K} e (w : world K) f h,
  returns e w (invoke (Obj f h) "type" []) (RText (class_text f)).
Proof. intros K NK. exact types. Qed.
Print Assumptions C106_type.

(** What a flat ground displays and draws, ... *)
Theorem C106_flat_shows : forall {K} {NK : Num K} e (w : world K) a g, live w a (OFlat g) ->
  always e w (invoke (obj_flat a) "disp" []) (fun _ w' r =>
    r = Done (RArrs [mx_scalar (fl_friction g); mx_vec (porigin (fl_plane g)); mx_vec (pnormal (fl_plane g))]) /\
    grown w w' [OPoint (porigin (fl_plane g))]) /\
  (forall u v, always e w (invoke (obj_flat a) "plot" [u; v]) (fun _ w' r =>
    r = Done (RAcme (OPlane (fl_plane g))) /\ grown w w' [OPlane (fl_plane g)])).
Proof. intros K NK. exact flat_shows. Qed.
Print Assumptions C106_flat_shows.

(** ... and what a triangle does. *)
Theorem C106_triangle_shows : forall {K} {NK : Num K} e (w : world K) a t, live w a (OTri t) ->
  always e w (invoke (obj_tri a) "disp" []) (fun _ w' r =>
    r = Done (RArrs [mx_scalar (nofZ (tg_id t)); mx_scalar (tg_friction t);
                     mx_vec (tv0 (tg_tri t)); mx_vec (tv1 (tg_tri t)); mx_vec (tv2 (tg_tri t))]) /\
    grown w w' (vertices_of t)) /\
  (forall u v, always e w (invoke (obj_tri a) "plot" [u; v]) (fun _ w' r =>
    r = Done (RAcmes (vertices_of t)) /\ grown w w' (vertices_of t))) /\
  (forall name v, In (name, v) [("getVertex1"%string, tv0 (tg_tri t)); ("getVertex2"%string, tv1 (tg_tri t));
                                ("getVertex3"%string, tv2 (tg_tri t))] ->
    always e w (invoke (obj_tri a) name []) (fun _ w' r =>
      r = Done (RAcme (OPoint v)) /\ grown w w' [OPoint v])).
Proof. intros K NK. exact tri_shows. Qed.
Print Assumptions C106_triangle_shows.

Definition lesson_world : world f64 := st_world lesson_end.
Example C106_example : exists s g h,
  live lesson_world 1 (OShell s) /\ live lesson_world 2 (OFlat g) /\ live lesson_world 3 (OMesh h) /\
  sh_size s = 1%nat /\ mesh_size h = 2%nat /\ nle (nofZ 0) (nofZ (K:=f64) 0) = true /\
  (exists v, contact_normal_v s = Ret v) /\ (exists v, contact_point_v s = Ret v).
Proof.
  exists (the_shell lesson_world 1), (the_flat lesson_world 2), (the_mesh lesson_world 3).
  split; [vm_compute; reflexivity|]. split; [vm_compute; reflexivity|]. split; [vm_compute; reflexivity|].
  split; [vm_compute; reflexivity|]. split; [vm_compute; reflexivity|]. split; [vm_compute; reflexivity|].
  split.
  - assert (H : match contact_normal_v (the_shell lesson_world 1) with Ret _ => true | _ => false end = true)
      by (vm_compute; reflexivity).
    destruct (contact_normal_v _); try discriminate. eauto.
  - assert (H : match contact_point_v (the_shell lesson_world 1) with Ret _ => true | _ => false end = true)
      by (vm_compute; reflexivity).
    destruct (contact_point_v _); try discriminate. eauto.
Qed.

Example C106_forwarded_example : In (FShell, "rotate"%string, 2%nat) setters /\
  In (FTri, "getVertex2"%string, 0%nat) makers /\ List.length (getters ++ setters ++ makers) = 54%nat.
Proof. repeat split; cbn; tauto. Qed.

(** ** C107: what is never freed. *)

(** The objects on the C++ side are those of the MATLAB objects in use and one
    for each call whose handle no object keeps. *)
Theorem C107_accounting : forall {K} {NK : Num K} l tr (st : state K),
  script fresh_session l tr st false ->
  List.length (w_heap (st_world st)) = (undeleted st + abandoned_in tr)%nat.
Proof. intros K NK. exact script_heap. Qed.
Print Assumptions C107_accounting.

(** "When all objects are deleted, nothing is left". *)
Theorem C107_all_freed_refuted : exists l tr (st : state f64),
  script fresh_session l tr st false /\ undeleted st = 0%nat /\
  List.length (w_heap (st_world st)) = 3%nat /\ all_locks (st_world st) = 3%Z.
Proof.
  set (l := map (fun s => (senv, s))
    [ SNew FFlat (map SArr [num 1; col 0 0 0; col 0 0 1]);
      SCall 0 "getOrigin" []; SCall 0 "getPlane" []; SCall 0 "disp" []; SDelete 0 ]%string).
  exists l, (fst (fst (run_script fresh_session l))), (snd (fst (run_script fresh_session l))).
  split; [apply run_ends; vm_compute; reflexivity|]. split; [|split]; vm_compute; reflexivity.
Qed.
Print Assumptions C107_all_freed_refuted.

(** "A script that asks for no point, plane or triangle leaves nothing". *)
Theorem C107_clean : forall {K} {NK : Num K} l tr (st : state K),
  script fresh_session l tr st false -> undeleted st = 0%nat ->
  (forall w c, In (w, c) tr -> forall f n, In (f, n) handle_makers -> c_file c = f -> ~ is_command (c_args c) n) ->
  w_heap (st_world st) = [].
Proof. intros K NK. exact clean_heap. Qed.
Print Assumptions C107_clean.

Example C107_example : abandoned_in lesson_calls = 5%nat /\ undeleted lesson_end = 3%nat.
Proof. split; vm_compute; reflexivity. Qed.

(** ** C108: the constructor of a mesh. *)

(** A file that does not exist or has another extension is refused before the
    gateway is called. *)
Theorem C108_refused : forall {K} {NK : Num K} e (w : world K) args,
  (forall path rest, args = VArr (MxChar path) :: rest ->
     e_fs e path = None \/
     (forall stem, path <> stem ++ lit ".rdf" /\ path <> stem ++ lit ".obj")) ->
  always e w (construct FMesh args) (fun tr w' r => tr = [] /\ w' = w /\ r = Failed).
Proof. intros K NK. exact new_mesh_refused. Qed.
Print Assumptions C108_refused.

(** RDF files, without and with a pose. *)
Theorem C108_rdf : forall {K} {NK : Num K} e (w : world K) stem c,
  let path := stem ++ lit ".rdf" in
  no_nul path -> e_fs e path = Some c ->
  always e w (construct FMesh [VArr (MxChar path)]) (fun _ w' r =>
    match load_rdf (e_stod e) (e_fs e) path aident mesh_empty with
    | Ok g _ => made w w' r g
    | Exn _ _ => failed_losing w w' r
    | Undef => r = Crash
    end).
Proof. intros K NK. exact new_mesh_rdf. Qed.
Print Assumptions C108_rdf.

(** The class only asks for a matrix: one with four rows or four columns and
    fewer than sixteen entries is undefined behaviour. *)
Theorem C108_rdf_pose : forall {K} {NK : Num K} e (w : world K) stem c rr cc (d : list K),
  let path := stem ++ lit ".rdf" in
  no_nul path -> e_fs e path = Some c ->
  always e w (construct FMesh [VArr (MxChar path); VArr (matrix rr cc d)]) (fun _ w' r =>
    if Nat.eqb rr 4 || Nat.eqb cc 4 then
      if Nat.leb 16 (List.length d) then
        match load_rdf (e_stod e) (e_fs e) path (decode (fun k => nth k d #0)) mesh_empty with
        | Ok g _ => made w w' r g
        | Exn _ _ => failed_losing w w' r
        | Undef => r = Crash
        end
      else r = Crash
    else failed_losing w w' r).
Proof. intros K NK. exact new_mesh_rdf_pose. Qed.
Print Assumptions C108_rdf_pose.

(** OBJ files with a coefficient, without and with a pose. *)
Theorem C108_obj : forall {K} {NK : Num K} e (w : world K) stem c mu,
  let path := stem ++ lit ".obj" in
  no_nul path -> e_fs e path = Some c ->
  always e w (construct FMesh [VArr (MxChar path); VArr (mx_scalar mu)]) (fun _ w' r =>
    match load_obj (e_stod e) (e_fs e) path mu aident mesh_empty with
    | Ok g _ => made w w' r g
    | Exn _ _ => failed_losing w w' r
    | Undef => r = Crash
    end).
Proof. intros K NK. exact new_mesh_obj. Qed.
Print Assumptions C108_obj.

Theorem C108_obj_pose : forall {K} {NK : Num K} e (w : world K) stem c mu rr cc (d : list K),
  let path := stem ++ lit ".obj" in
  no_nul path -> e_fs e path = Some c -> List.length d = (rr * cc)%nat ->
  (Nat.max rr cc = 4 /\ rr <> 0 /\ cc <> 0)%nat ->
  always e w (construct FMesh [VArr (MxChar path); VArr (mx_scalar mu); VArr (matrix rr cc d)]) (fun _ w' r =>
    if Nat.eqb rr 4 && Nat.eqb cc 4 then
      match load_obj (e_stod e) (e_fs e) path mu (decode (fun k => nth k d #0)) mesh_empty with
      | Ok g _ => made w w' r g
      | Exn _ _ => failed_losing w w' r
      | Undef => r = Crash
      end
    else made w w' r mesh_empty).
Proof. intros K NK. exact new_mesh_obj_pose. Qed.
Print Assumptions C108_obj_pose.

(** "A mesh that was constructed holds the triangles of the file": an OBJ file
    without a coefficient gives an empty mesh and no error. *)
Theorem C108_loaded_refuted : forall {K} {NK : Num K} e (w : world K) stem c,
  let path := stem ++ lit ".obj" in
  no_nul path -> e_fs e path = Some c ->
  always e w (construct FMesh [VArr (MxChar path)]) (fun _ w' r => made w w' r mesh_empty).
Proof. intros K NK. exact new_mesh_obj_bare. Qed.
Print Assumptions C108_loaded_refuted.

(** "A bad pose is an error": a column of four numbers crashes. *)
Theorem C108_pose_checked_refuted : exists (w : world f64),
  always senv w (construct FMesh [VArr (text "a.rdf"); VArr (matrix 4 1 (map fz [0; 0; 0; 1]%Z))])
    (fun _ _ r => r = Crash).
Proof.
  exists start. refine (C108_rdf_pose senv start (lit "a") _ 4 1 _ _ _).
  - unfold no_nul. cbn. intuition discriminate.
  - reflexivity.
Qed.
Print Assumptions C108_pose_checked_refuted.

Example C108_example : exists c c' g, e_fs senv (lit "a" ++ lit ".rdf") = Some c /\
  e_fs senv (lit "a" ++ lit ".obj") = Some c' /\ no_nul (lit "a" ++ lit ".obj") /\
  load_obj (e_stod senv) (e_fs senv) (lit "a" ++ lit ".obj") (fz 1) aident mesh_empty = Ok g true /\
  mesh_size g = 2%nat.
Proof.
  eexists _, _, _. split; [reflexivity|]. split; [reflexivity|].
  split; [unfold no_nul; cbn; intuition discriminate|]. split.
  - exact SampleMesh.load1_ok.
  - vm_compute. reflexivity.
Qed.
