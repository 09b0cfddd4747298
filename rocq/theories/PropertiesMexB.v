(** * The remaining commands of the MATLAB gateways: theorems.

    Vocabulary: SpecMex.v.  Any arithmetic; the examples are over binary64. *)
From Coq Require Import ZArith Bool String List.
From Verif Require Import Base Num Vec Aabb Geom Ground Shape Rib Str Mesh Shell Sfun F64.
From Verif Require Import Mex SpecMex ProofMexF SampleShell SampleMex.
Import ListNotations.
Local Open Scope num_scope.

(** ** C95, continued: an array that is not a scalar is no size and no index. *)
Theorem C95_not_scalar : forall {K} {NK : Num K} e (w : world K) a s m r c d cmd,
  live w a (OShell s) -> In cmd ["resize"; "ribRadius"; "ribWidth"; "ribAngle"; "contactNormalRib";
    "contactDepthRib"; "contactFrictionRib"; "contactAreaRib"; "contactVolumeRib";
    "contactPointAffineRib"; "relativeAnglesRib"; "ribCenter"; "contactPointRib"]%string ->
  (m = MxDouble [r; c] d \/ m = MxSingle [r; c] d \/ exists k b z, m = MxInt k b [r; c] z) ->
  (r, c) <> (1, 1)%nat ->
  exists x, mex_call FShell e w (if String.eqb cmd "resize" then 0 else 1) [text cmd; mx_handle a; m] = Exn w x.
Proof. intros K NK. exact not_scalar. Qed.
Print Assumptions C95_not_scalar.

(** ** C96, continued: [load] with another extension leaves the mesh; with a
    coefficient it reads OBJ files.  It reports an error in every case. *)
Theorem C96_load_others : forall {K} {NK : Num K} e (w : world K) a m0 path x mu,
  live w a (OMesh m0) -> ~ In Ascii.zero (lit path) -> extension (lit path) = Ret x ->
  (x <> lit ".rdf" -> exists w', mex_call FMesh e w 1 [text "load"; mx_handle a; text path] = Exn w' RuntimeError /\
     changed_to w w' a (OMesh m0)) /\
  (x <> lit ".obj" -> exists w', mex_call FMesh e w 1 [text "load"; mx_handle a; text path; mx_scalar mu] = Exn w' RuntimeError /\
     changed_to w w' a (OMesh m0)) /\
  (x = lit ".obj" -> mex_call FMesh e w 1 [text "load"; mx_handle a; text path; mx_scalar mu] =
     match load_obj (e_stod e) (e_fs e) (lit path) mu aident m0 with
     | Ok m1 _ => Exn (wset w a (OMesh m1)) RuntimeError
     | Exn m1 y => Exn (wset w a (OMesh m1)) y
     | Undef => Undef
     end).
Proof. intros K NK. exact load_others. Qed.
Print Assumptions C96_load_others.

(** ** C109: the remaining commands do what the C++ functions do. *)

(** The shape of a wheel and its Euler angles. *)
Theorem C109_shape : forall {K} {NK : Num K} e (w : world K) a s,
  live w a (OShell s) ->
  answers FShell e w [text "surfaceMaxRadius"; mx_handle a] (mx_scalar (surface_max_radius (sh_shape s))) /\
  answers FShell e w [text "surfaceMaxWidth"; mx_handle a] (mx_scalar (surface_max_width (sh_shape s))) /\
  answers FShell e w [text "surfaceWidth"; mx_handle a] (mx_scalar (surface_width (sh_shape s))) /\
  answers FShell e w [text "eulerAngles"; mx_handle a] (mx_vec (sh_euler s)).
Proof. intros K NK. exact shape_queries. Qed.
Print Assumptions C109_shape.

(** The profile at [y], errors included. *)
Theorem C109_surface : forall {K} {NK : Num K} e (w : world K) a s y,
  live w a (OShell s) ->
  answers FShell e w [text "checkWidthBound"; mx_handle a; mx_scalar y]
    (mx_scalar (if check_width_bound (sh_shape s) y then #1 else #0)) /\
  mex_call FShell e w 1 [text "surfaceRadius"; mx_handle a; mx_scalar y] =
      match surface_radius (sh_shape s) y with Ret x => Ok w [mx_scalar x] | Throw x => Exn w x | UB => Undef end /\
  mex_call FShell e w 1 [text "surfaceDerivative"; mx_handle a; mx_scalar y] =
      match surface_derivative (sh_shape s) y neps with Ret x => Ok w [mx_scalar x] | Throw x => Exn w x | UB => Undef end /\
  mex_call FShell e w 1 [text "surfaceAngle"; mx_handle a; mx_scalar y] =
      match surface_angle (sh_shape s) y neps with Ret x => Ok w [mx_scalar x] | Throw x => Exn w x | UB => Undef end.
Proof. intros K NK. exact surface_queries. Qed.
Print Assumptions C109_surface.

Theorem C109_rotate : forall {K} {NK : Num K} e (w : world K) a s x v,
  live w a (OShell s) ->
  exists w', mex_call FShell e w 0 [text "rotate"; mx_handle a; mx_scalar x; mx_vec v] = Ok w' [] /\
    changed_to w w' a (OShell (sh_rotate s x v)).
Proof. intros K NK. exact rotate_then. Qed.
Print Assumptions C109_rotate.

(** Flat grounds: each setter changes its own field and no other object. *)
Theorem C109_flat_setters : forall {K} {NK : Num K} e (w : world K) a g, live w a (OFlat g) ->
  (forall v, exists w', mex_call FFlat e w 0 [text "setOrigin"; mx_handle a; mx_vec v] = Ok w' [] /\
     changed_to w w' a (OFlat (Flat (Plane v (pnormal (fl_plane g))) (fl_friction g)))) /\
  (forall v, exists w', mex_call FFlat e w 0 [text "setNormal"; mx_handle a; mx_vec v] = Ok w' [] /\
     changed_to w w' a (OFlat (Flat (Plane (porigin (fl_plane g)) v) (fl_friction g)))) /\
  (forall x, exists w', mex_call FFlat e w 0 [text "setFriction"; mx_handle a; mx_scalar x] = Ok w' [] /\
     changed_to w w' a (OFlat (Flat (fl_plane g) x))) /\
  (forall b g', live w b (OFlat g') ->
     (exists w', mex_call FFlat e w 0 [text "setPlane"; mx_handle a; mx_handle b] = Ok w' [] /\
        changed_to w w' a (OFlat (Flat (fl_plane g') (fl_friction g)))) /\
     (exists w', mex_call FFlat e w 0 [text "copy"; mx_handle a; mx_handle b] = Ok w' [] /\
        changed_to w w' a (OFlat (Flat (plane_normalize (fl_plane g')) (fl_friction g')))) /\
     answers FFlat e w [text "isApprox"; mx_handle a; mx_handle b] (mx_bool (flat_is_approx g g' neps))).
Proof. intros K NK. exact flat_setters. Qed.
Print Assumptions C109_flat_setters.

Theorem C109_flat_getters : forall {K} {NK : Num K} e (w : world K) a g, live w a (OFlat g) ->
  answers FFlat e w [text "getNormal"; mx_handle a] (mx_vec (pnormal (fl_plane g))) /\
  answers FFlat e w [text "getFriction"; mx_handle a] (mx_scalar (fl_friction g)) /\
  answers FFlat e w [text "isDegenerated"; mx_handle a] (mx_bool (plane_is_degenerated (fl_plane g) neps)) /\
  (exists w', mex_call FFlat e w 1 [text "getOrigin"; mx_handle a] = Ok w' [mx_handle (e_new e)] /\
     extended_by FFlat w w' (e_new e) (OPoint (porigin (fl_plane g)))) /\
  (exists w', mex_call FFlat e w 1 [text "getPlane"; mx_handle a] = Ok w' [mx_handle (e_new e)] /\
     extended_by FFlat w w' (e_new e) (OPlane (fl_plane g))).
Proof. intros K NK. exact flat_getters. Qed.
Print Assumptions C109_flat_getters.

(** Meshes and triangles; a copy of a triangle keeps its own number. *)
Theorem C109_mesh : forall {K} {NK : Num K} e (w : world K) a g, live w a (OMesh g) ->
  answers FMesh e w [text "size"; mx_handle a] (mx_int64 (Z.of_nat (List.length (me_tris g)))) /\
  (forall b g', live w b (OMesh g') ->
     exists w', mex_call FMesh e w 0 [text "copy"; mx_handle a; mx_handle b] = Ok w' [] /\
       changed_to w w' a (OMesh (mesh_copy g g'))).
Proof. intros K NK. exact mesh_commands. Qed.
Print Assumptions C109_mesh.

Theorem C109_triangle : forall {K} {NK : Num K} e (w : world K) a t, live w a (OTri t) ->
  (forall n v, In (n, v) [("getVertex1", tv0 (tg_tri t)); ("getVertex2", tv1 (tg_tri t));
                          ("getVertex3", tv2 (tg_tri t))]%string ->
     exists w', mex_call FTri e w 1 [text n; mx_handle a] = Ok w' [mx_handle (e_new e)] /\
       extended_by FTri w w' (e_new e) (OPoint v)) /\
  (forall b t', live w b (OTri t') ->
     exists w', mex_call FTri e w 0 [text "copy"; mx_handle a; mx_handle b] = Ok w' [] /\
       changed_to w w' a (OTri (TGround (tg_tri t') (tg_id t) (tg_friction t') (tg_normal t') (tg_bbox t')))).
Proof. intros K NK. exact tri_commands. Qed.
Print Assumptions C109_triangle.

(** The [set] functions also work with other numbers of arguments: [setOrigin]
    checks neither inputs nor outputs. *)
Example C109_example : exists w' , perform w0 (do0 FFlat [text "setFriction"; mx_handle 2; num 3]) = Ok w' [] /\
  live w' 2 (OFlat (Flat (fl_plane (the_flat w0 2)) (fz 3))).
Proof. eexists. split; vm_compute; reflexivity. Qed.

Example C109_live : live w0 1 (OShell (the_shell w0 1)) /\ live w0 2 (OFlat (the_flat w0 2)) /\
  live w0 3 (OMesh (the_mesh w0 3)) /\ live w0 4 (OTri (the_tri w0 4)).
Proof. split; [|split; [|split]]; vm_compute; reflexivity. Qed.
