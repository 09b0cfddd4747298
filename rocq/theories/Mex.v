(** * The MATLAB gateway (toolbox/src_mex/mex_utils.hh, mex_shell.cc,
      mex_flat.cc, mex_mesh.cc, mex_triangleground.cc). *)
From Coq Require Import ZArith Bool String List.
From Verif Require Import Base Num Vec Aabb Tree Geom Ground Shape Rib Str Mesh Shell Sfun.
Import ListNotations.
Local Open Scope num_scope.

(** ** MATLAB values. *)

(** The integer classes of MATLAB. *)
Inductive iclass : Type := I8 | U8 | I16 | U16 | I32 | U32 | I64 | U64.

(** [mxArray] as the gateways see it: class, dimensions and data in column
    order.  Real and imaginary parts matter only for [mxIsComplex] in the
    handle conversion, so only integer arrays carry the flag.  Character
    arrays are row vectors.  [MxCell] stands for cells and structs. *)
Inductive mx (K : Type) : Type :=
| MxDouble (dims : list nat) (data : list K)
| MxSingle (dims : list nat) (data : list K)
| MxInt (c : iclass) (cplx : bool) (dims : list nat) (data : list Z)
| MxBool (dims : list nat) (data : list bool)
| MxChar (s : str)
| MxCell (dims : list nat).
Arguments MxDouble {K} dims data.
Arguments MxSingle {K} dims data.
Arguments MxInt {K} c cplx dims data.
Arguments MxBool {K} dims data.
Arguments MxChar {K} s.
Arguments MxCell {K} dims.

(** The number of elements of an array with these dimensions. *)
Definition numel (dims : list nat) : nat := fold_right Nat.mul 1%nat dims.

(** A C string ends at its first NUL: [mxArrayToString] copied into a
    [std::string]. *)
Fixpoint cstr (s : str) : str :=
  match s with
  | [] => []
  | c :: s' => if Ascii.eqb c c_nul then [] else c :: cstr s'
  end.

(** ** C++ objects behind handles. *)

(** The objects a [mex_class_handle<base>] of this toolbox can own:
    [enve::shell], [enve::ground::flat], [enve::ground::mesh],
    [enve::triangleground], [acme::point] and [acme::plane]. *)
Inductive obj (K : Type) : Type :=
| OShell (s : shell K)
| OFlat (g : flat K)
| OMesh (m : mesh K)
| OTri (t : tground K)
| OPoint (p : vec3 K)
| OPlane (p : plane K).
Arguments OShell {K} s.
Arguments OFlat {K} g.
Arguments OMesh {K} m.
Arguments OTri {K} t.
Arguments OPoint {K} p.
Arguments OPlane {K} p.

(** The four MEX files. *)
Inductive mexfile : Type := FShell | FFlat | FMesh | FTri.

Definition file_eqb (f g : mexfile) : bool :=
  match f, g with
  | FShell, FShell | FFlat, FFlat | FMesh, FMesh | FTri, FTri => true
  | _, _ => false
  end.

(** The process as the gateways see it.
    [w_heap]: address and content of the handle blocks allocated and not yet
    deleted; [w_locks]: calls of [mexLock] minus calls of [mexUnlock] per MEX
    file; [w_lost]: objects allocated with [new] whose only pointer is gone. *)
Record world (K : Type) : Type := World {
  w_heap : list (Z * obj K);
  w_locks : mexfile -> Z;
  w_lost : nat }.
Arguments World {K} w_heap w_locks w_lost.
Arguments w_heap {K} w.
Arguments w_locks {K} w.
Arguments w_lost {K} w.

(** What a call gets from outside: the address [operator new] returns if the
    call allocates a handle, the file system, decimal conversion, the test
    and conversion [tmp == floor(tmp)], [static_cast<int64_t>(tmp)] of
    mex_utils.hh:208-228 ([Throw]: not an integer; [UB]: an integer-valued
    number that no [int64_t] holds), the content of the uninitialised
    temporaries of a setup, and the rotation factor that Eigen takes out of a
    3x3 matrix ([Transform::rotation] in [Affine] mode goes through
    computeRotationScaling and a singular value decomposition, which is not
    modelled: any function of the matrix). *)
Record env (K : Type) : Type := Env {
  e_new : Z;
  e_fs : str -> option str;
  e_stod : str -> outcome K;
  e_toint : K -> outcome Z;
  e_gb : nat -> garbage4 K;
  e_rot : mat3 K -> mat3 K }.
Arguments Env {K} e_new e_fs e_stod e_toint e_gb e_rot.
Arguments e_new {K} e.
Arguments e_fs {K} e.
Arguments e_stod {K} e.
Arguments e_toint {K} e.
Arguments e_gb {K} e.
Arguments e_rot {K} e.

Section Heap.
  Context {K : Type}.

  Fixpoint hfind (h : list (Z * obj K)) (a : Z) : option (obj K) :=
    match h with
    | [] => None
    | (b, o) :: h' => if Z.eqb a b then Some o else hfind h' a
    end.

  Fixpoint hset (h : list (Z * obj K)) (a : Z) (o : obj K) : list (Z * obj K) :=
    match h with
    | [] => []
    | (b, x) :: h' => if Z.eqb a b then (b, o) :: h' else (b, x) :: hset h' a o
    end.

  Fixpoint hdel (h : list (Z * obj K)) (a : Z) : list (Z * obj K) :=
    match h with
    | [] => []
    | (b, x) :: h' => if Z.eqb a b then h' else (b, x) :: hdel h' a
    end.

  (** An assignment through the object pointer. *)
  Definition wset (w : world K) (a : Z) (o : obj K) : world K :=
    World (hset (w_heap w) a o) (w_locks w) (w_lost w).

  Definition bump (l : mexfile -> Z) (f : mexfile) (d : Z) : mexfile -> Z :=
    fun g => if file_eqb f g then (l g + d)%Z else l g.

  (** mex_convert_ptr_to_mx, mex_utils.hh:428-438: lock the file, allocate a
      handle block that owns [o]. *)
  Definition wnew (f : mexfile) (w : world K) (a : Z) (o : obj K) : world K :=
    World ((a, o) :: w_heap w) (bump (w_locks w) f 1) (w_lost w).

  (** mex_destroy_object, mex_utils.hh:468-475: delete the block and the
      object, unlock the file. *)
  Definition wdel (f : mexfile) (w : world K) (a : Z) : world K :=
    World (hdel (w_heap w) a) (bump (w_locks w) f (-1)) (w_lost w).

  Definition wlose (w : world K) : world K :=
    World (w_heap w) (w_locks w) (S (w_lost w)).

  (** [new] and [delete] of a handle, with the [uint64] scalar that names it. *)
  Definition mx_handle (a : Z) : mx K := MxInt U64 false [1; 1]%nat [a].
End Heap.

(** ** Readers and writers of mex_utils.hh. *)
Section Utils.
  Context {K : Type} {NK : Num K}.

  Definition mx_dims (m : mx K) : list nat :=
    match m with
    | MxDouble d _ | MxSingle d _ | MxInt _ _ d _ | MxBool d _ | MxCell d => d
    | MxChar s => [1%nat; List.length s]
    end.

  (** [prhs[i]]: beyond the argument array is undefined. *)
  Definition arg (prhs : list (mx K)) (i : nat) : outcome (mx K) :=
    match nth_error prhs i with Some m => Ret m | None => UB end.

  Definition head {A} (l : list A) : outcome A :=
    match l with x :: _ => Ret x | [] => UB end.

  (** [dims[0], dims[1]] of a two-dimensional array; anything else is
      rejected (mex_utils.hh:138-147 and the like). *)
  Definition dims2 (m : mx K) : outcome (nat * nat) :=
    match mx_dims m with
    | [r; c] => Ret (r, c)
    | _ => Throw RuntimeError
    end.

  (** [mxGetScalar] (MATLAB's): the first element as a double, 0 for cells and
      structs. *)
  Definition mx_get_scalar (m : mx K) : outcome K :=
    match m with
    | MxDouble _ d | MxSingle _ d => head d
    | MxInt _ _ _ d => let* z := head d in Ret (nofZ z)
    | MxBool _ d => let* b := head d in Ret (nofbool b)
    | MxChar s => let* c := head s in Ret (nofZ (Z.of_nat (Ascii.nat_of_ascii c)))
    | MxCell _ => Ret #0
    end.

  (** mex_get_scalar_value, mex_utils.hh:134-149. *)
  Definition mex_get_scalar_value (m : mx K) : outcome K :=
    let* rc := dims2 m in
    if Nat.eqb (fst rc) 1 && Nat.eqb (snd rc) 1 then mx_get_scalar m
    else Throw RuntimeError.

  (** Two's complement conversion to a signed type of [n] bits. *)
  Definition wrap (n : Z) (z : Z) : Z :=
    ((z + 2 ^ (n - 1)) mod 2 ^ n - 2 ^ (n - 1))%Z.

  (** mex_get_int64, mex_utils.hh:184-237: an [int8] element is read through a
      [uint8_t] pointer (line 202). *)
  Definition mex_get_int64 (e : env K) (m : mx K) : outcome Z :=
    let* rc := dims2 m in
    if Nat.eqb (fst rc) 1 && Nat.eqb (snd rc) 1 then
      match m with
      | MxInt I8 _ _ d => let* z := head d in Ret (z mod 2 ^ 8)%Z
      | MxInt U64 _ _ d => let* z := head d in Ret (wrap 64 z)
      | MxInt _ _ _ d => head d
      | MxDouble _ d | MxSingle _ d => let* x := head d in e_toint e x
      | _ => Throw RuntimeError
      end
    else Throw RuntimeError.

  (** [int i = mex_get_int64(...)]. *)
  Definition get_int (e : env K) (m : mx K) : outcome Z :=
    let* z := mex_get_int64 e m in Ret (wrap 32 z).

  (** [i - 1] converted to [size_t]: signed overflow is undefined; an index
      that no list reaches stands for a huge [size_t]. *)
  Definition index_of_int (z : Z) : outcome nat :=
    if (z =? - 2 ^ 31)%Z then UB else Ret (Z.to_nat ((z - 1) mod 2 ^ 64)).

  Definition get_index (e : env K) (m : mx K) : outcome nat :=
    let* z := get_int e m in index_of_int z.

  (** mex_matrix_pointer, mex_utils.hh:284-301, and [matrix_ptr[k]]: reading
      past the data, or data that are not doubles, is undefined. *)
  Definition mex_matrix_pointer (m : mx K) : outcome (nat * nat * (nat -> outcome K)) :=
    let* rc := dims2 m in
    Ret (rc, fun k => match m with
                      | MxDouble _ d =>
                        match nth_error d k with Some x => Ret x | None => UB end
                      | _ => UB
                      end).

  (** A column vector argument (mex_shell.cc:402-410, 442-448;
      mex_flat.cc:147-162, 203-207, 239-243; mex_triangleground.cc:168-188):
      [rows == 3 || cols == 1] is what the code tests. *)
  Definition get_vec (m : mx K) : outcome (vec3 K) :=
    let* x := mex_matrix_pointer m in
    let '(r, c, p) := x in
    if Nat.eqb r 3 || Nat.eqb c 1 then
      let* a := p 0%nat in let* b := p 1%nat in let* d := p 2%nat in Ret (V a b d)
    else Throw RuntimeError.

  (** A 4x4 matrix argument (mex_shell.cc:486-494, 540-548, 638-646, 664-672;
      mex_mesh.cc:151-159): [rows == 4 || cols == 4]; all 16 elements are
      read, the last row is dropped as in [Sfun.decode]. *)
  Definition get_affine_if (ok : nat -> nat -> bool) (m : mx K) : outcome (affine K) :=
    let* x := mex_matrix_pointer m in
    let '(r, c, p) := x in
    if ok r c then
      let* l := omap p (seq 0 16) in Ret (decode (fun k => nth k l #0))
    else Throw RuntimeError.

  Definition get_affine : mx K -> outcome (affine K) :=
    get_affine_if (fun r c => Nat.eqb r 4 || Nat.eqb c 4).

  (** [string s = mxArrayToString(arg)]: a null pointer, hence undefined, when
      the argument is not a character array. *)
  Definition get_string (m : mx K) : outcome str :=
    match m with MxChar s => Ret (cstr s) | _ => UB end.

  (** mex_convert_mx_to_handle_ptr, mex_utils.hh:442-455: the argument must be
      a real [uint64] scalar; the block it points to is read without knowing
      whether it exists; its type name must be that of [base].  ([sel]
      returns the content when the object has the wanted class.) *)
  Definition get_handle {A} (sel : obj K -> option A) (w : world K) (m : mx K)
    : outcome (Z * A) :=
    match m with
    | MxInt U64 false dims d =>
      if Nat.eqb (numel dims) 1 then
        let* a := head d in
        match hfind (w_heap w) a with
        | None => UB
        | Some o => match sel o with Some x => Ret (a, x) | None => Throw RuntimeError end
        end
      else Throw RuntimeError
    | _ => Throw RuntimeError
    end.

  Definition as_shell (o : obj K) := match o with OShell s => Some s | _ => None end.
  Definition as_flat (o : obj K) := match o with OFlat g => Some g | _ => None end.
  Definition as_mesh (o : obj K) := match o with OMesh m => Some m | _ => None end.
  Definition as_tri (o : obj K) := match o with OTri t => Some t | _ => None end.

  (** mex_set_scalar_value, mex_set_scalar_int64, mex_set_scalar_bool,
      mex_create_matrix_value, mex_utils.hh:320-386. *)
  Definition mx_scalar (x : K) : mx K := MxDouble [1; 1]%nat [x].
  Definition mx_int64 (z : Z) : mx K := MxInt I64 false [1; 1]%nat [z].
  Definition mx_bool (b : bool) : mx K := MxBool [1; 1]%nat [b].
  Definition mx_vec (v : vec3 K) : mx K := MxDouble [3; 1]%nat [vx v; vy v; vz v].
  Definition mx_affine (a : affine K) : mx K := MxDouble [4; 4]%nat (encode a).
End Utils.

(** ** The commands. *)
Section Commands.
  Context {K : Type} {NK : Num K}.

  (** What a gateway call does: [Ok] with the output arguments it assigned,
      [Exn] for a MATLAB error ([mexErrMsgTxt] or a C++ exception caught by
      [mexFunction]), [Undef] for undefined behaviour. *)
  Definition reply : Type := result (world K) (list (mx K)).

  (** [pfun(nlhs, plhs, nrhs, prhs)], [nrhs] being the length of [prhs]. *)
  Definition command : Type := env K -> world K -> nat -> list (mx K) -> reply.

  (** A command that only reads and assigns one output. *)
  Definition query (w : world K) (r : outcome (mx K)) : reply :=
    match r with Ret m => Ok w [m] | Throw e => Exn w e | UB => Undef end.

  (** A command that returns a handle to a new object. *)
  Definition create (f : mexfile) (e : env K) (w : world K) (r : outcome (obj K)) : reply :=
    match r with
    | Ret o => Ok (wnew f w (e_new e) o) [mx_handle (e_new e)]
    | Throw x => Exn w x
    | UB => Undef
    end.

  (** A command that overwrites one object and assigns nothing. *)
  Definition update (w : world K) (r : outcome (Z * obj K)) : reply :=
    match r with Ret (a, o) => Ok (wset w a o) [] | Throw e => Exn w e | UB => Undef end.

  (** A command whose C++ method may throw after changing the object. *)
  Definition mutate {S A} (w : world K) (mk : S -> obj K) (outs : A -> list (mx K))
    (r : outcome (Z * result S A)) : reply :=
    match r with
    | Ret (a, Ok s x) => Ok (wset w a (mk s)) (outs x)
    | Ret (a, Exn s e) => Exn (wset w a (mk s)) e
    | Ret (_, Undef) => Undef
    | Throw e => Exn w e
    | UB => Undef
    end.

  (** The two assertions every command starts with. *)
  Definition arity (nin nout : nat) (nlhs : nat) (prhs : list (mx K)) : outcome unit :=
    let* _ := assert (Nat.eqb (List.length prhs) nin) in assert (Nat.eqb nlhs nout).

  (** DATA_DELETE in the four files (mex_shell.cc:152-157, mex_flat.cc:115-120,
      mex_mesh.cc:107-112, mex_triangleground.cc:131-136) called by do_delete
      (mex_shell.cc:190-199, mex_flat.cc:170-179, mex_mesh.cc:192-202,
      mex_triangleground.cc:199-209). *)
  Definition do_delete {A} (f : mexfile) (sel : obj K -> option A) : command :=
    fun e w nlhs prhs =>
      match (let* _ := arity 2 0 nlhs prhs in let* m := arg prhs 1 in get_handle sel w m) with
      | Ret (a, _) => Ok (wdel f w a) []
      | Throw x => Exn w x
      | UB => Undef
      end.

  (** *** mex_shell.cc *)

  (** [size_t] from a possibly negative [int]: [std::vector::resize] throws
      [std::length_error] for the huge sizes a negative [int] converts to,
      after the vectors were cleared (src/shell.cc:80-87).  Running out of
      memory for other sizes is not modelled. *)
  Definition resize_int (s : shell K) (z : Z) : result (shell K) unit :=
    if (z <? 0)%Z then
      Exn (Shell (sh_affine s) (sh_shape s) (sh_bbox s) [] 0 (sh_cells s) []) RuntimeError
    else resize s (Z.to_nat z).

  Definition new_shell (z : Z) (rx mx ry my ly : K) : outcome (shell K) :=
    if (z <? 0)%Z then Throw RuntimeError else mk_shell (Z.to_nat z) rx mx ry my ly.

  (** do_new, mex_shell.cc:161-186. *)
  Definition shell_new : command := fun e w nlhs prhs =>
    create FShell e w
      (let* _ := arity 7 1 nlhs prhs in
       let* a1 := arg prhs 1 in let* n := get_int e a1 in
       let* a2 := arg prhs 2 in let* rx := mex_get_scalar_value a2 in
       let* a3 := arg prhs 3 in let* mx := mex_get_scalar_value a3 in
       let* a4 := arg prhs 4 in let* ry := mex_get_scalar_value a4 in
       let* a5 := arg prhs 5 in let* my := mex_get_scalar_value a5 in
       let* a6 := arg prhs 6 in let* ly := mex_get_scalar_value a6 in
       let* s := new_shell n rx mx ry my ly in Ret (OShell s)).

  (** [self = DATA_GET(arg_in_1)] after the assertions on the arguments. *)
  Definition self_shell (nin nout : nat) (w : world K) (nlhs : nat) (prhs : list (mx K))
    : outcome (Z * shell K) :=
    let* _ := arity nin nout nlhs prhs in
    let* m := arg prhs 1 in get_handle as_shell w m.

  (** do_resize, mex_shell.cc:203-214. *)
  Definition shell_resize : command := fun e w nlhs prhs =>
    mutate w OShell (fun _ => [])
      (let* h := self_shell 3 0 w nlhs prhs in
       let* m := arg prhs 2 in let* n := get_int e m in
       Ret (fst h, resize_int (snd h) n)).

  (** Commands of the form [out = f(self)]: do_size, do_surfaceMaxRadius,
      do_surfaceMaxWidth, do_surfaceWidth (mex_shell.cc:218-270),
      do_translation (416-430), do_rotation (454-474), do_transformation
      (501-528), do_x, do_y, do_z, do_eulerAngles (556-625) and the averaged
      contact queries (714-965). *)
  Definition shell_get (f : shell K -> outcome (mx K)) : command := fun e w nlhs prhs =>
    query w (let* h := self_shell 2 1 w nlhs prhs in f (snd h)).

  (** Commands [out = f(self, y)] with a scalar: do_checkWidthBound,
      do_surfaceRadius, do_surfaceDerivative, do_surfaceAngle
      (mex_shell.cc:274-330). *)
  Definition shell_at_y (f : shell K -> K -> outcome (mx K)) : command := fun e w nlhs prhs =>
    query w (let* h := self_shell 3 1 w nlhs prhs in
             let* m := arg prhs 2 in let* y := mex_get_scalar_value m in f (snd h) y).

  (** Commands [out = f(self, i - 1)]: do_ribRadius, do_ribWidth, do_ribAngle
      (mex_shell.cc:334-391) and the per-rib contact queries (733-985). *)
  Definition shell_at_i (f : shell K -> nat -> outcome (mx K)) : command := fun e w nlhs prhs =>
    query w (let* h := self_shell 3 1 w nlhs prhs in
             let* m := arg prhs 2 in let* i := get_index e m in f (snd h) i).

  (** do_ribCenter and do_contactPointRib (mex_shell.cc:349-361, 697-710): a
      handle to a new [acme::point]. *)
  Definition shell_point_i (f : shell K -> nat -> outcome (vec3 K)) : command :=
    fun e w nlhs prhs =>
      create FShell e w
        (let* h := self_shell 3 1 w nlhs prhs in
         let* m := arg prhs 2 in let* i := get_index e m in
         let* p := f (snd h) i in Ret (OPoint p)).

  (** do_contactPointAvg, mex_shell.cc:681-693. *)
  Definition shell_point : command := fun e w nlhs prhs =>
    create FShell e w
      (let* h := self_shell 2 1 w nlhs prhs in
       let* p := contact_point (snd h) in Ret (OPoint p)).

  (** do_translate, mex_shell.cc:395-412. *)
  Definition shell_translate : command := fun e w nlhs prhs =>
    update w
      (let* h := self_shell 3 0 w nlhs prhs in
       let* m := arg prhs 2 in let* v := get_vec m in
       Ret (fst h, OShell (sh_translate (snd h) v))).

  (** do_rotate, mex_shell.cc:434-450. *)
  Definition shell_rotate : command := fun e w nlhs prhs =>
    update w
      (let* h := self_shell 4 0 w nlhs prhs in
       let* m := arg prhs 2 in let* angle := mex_get_scalar_value m in
       let* m' := arg prhs 3 in let* v := get_vec m' in
       Ret (fst h, OShell (sh_rotate (snd h) angle v))).

  (** do_rotation, mex_shell.cc:454-474: element [k] of the output is entry
      [(k / 3, k mod 3)] of shell::rotation (src/shell.cc:293-298), the
      rotation factor of the linear part. *)
  Definition mx_rotation (m : mat3 K) : mx K :=
    MxDouble [3; 3]%nat
      [m00 m; m01 m; m02 m; m10 m; m11 m; m12 m; m20 m; m21 m; m22 m].

  (** do_transform, mex_shell.cc:478-497. *)
  Definition shell_transform : command := fun e w nlhs prhs =>
    update w
      (let* h := self_shell 3 0 w nlhs prhs in
       let* m := arg prhs 2 in let* a := get_affine m in
       Ret (fst h, OShell (transform (snd h) a))).

  (** do_checkTransformation, mex_shell.cc:532-552: two inputs are asserted,
      the third is read. *)
  Definition shell_check : command := fun e w nlhs prhs =>
    query w
      (let* h := self_shell 2 1 w nlhs prhs in
       let* m := arg prhs 2 in let* a := get_affine m in
       Ret (mx_bool (check_transformation a neps))).

  (** do_setupFlat and do_setupMesh, mex_shell.cc:629-677. *)
  Definition shell_setup {G} (sel : obj K -> option G)
    (run : shell K -> G -> affine K -> string -> result (shell K) bool) : command :=
    fun e w nlhs prhs =>
      mutate w OShell (fun b => [mx_bool b])
        (let* h := self_shell 5 1 w nlhs prhs in
         let* m2 := arg prhs 2 in let* g := get_handle sel w m2 in
         let* m3 := arg prhs 3 in let* a := get_affine m3 in
         let* m4 := arg prhs 4 in let* s := get_string m4 in
         Ret (fst h, run (snd h) (snd g) a (string_of_list_ascii s))).

  Definition scal (r : outcome K) : outcome (mx K) := let* x := r in Ret (mx_scalar x).
  Definition vecr (r : outcome (vec3 K)) : outcome (mx K) := let* x := r in Ret (mx_vec x).
  Definition affr (r : outcome (affine K)) : outcome (mx K) := let* x := r in Ret (mx_affine x).

  (** [cmd_to_fun] of mex_shell.cc:991-1039. *)
  Definition shell_table : list (string * command) :=
    [ ("new", shell_new);
      ("delete", do_delete FShell as_shell);
      ("resize", shell_resize);
      ("size", shell_get (fun s => Ret (mx_int64 (Z.of_nat (sh_size s)))));
      ("surfaceMaxRadius", shell_get (fun s => Ret (mx_scalar (surface_max_radius (sh_shape s)))));
      ("surfaceMaxWidth", shell_get (fun s => Ret (mx_scalar (surface_max_width (sh_shape s)))));
      ("surfaceWidth", shell_get (fun s => Ret (mx_scalar (surface_width (sh_shape s)))));
      ("checkWidthBound",
        shell_at_y (fun s y => Ret (mx_scalar (nofbool (check_width_bound (sh_shape s) y)))));
      ("surfaceRadius", shell_at_y (fun s y => scal (surface_radius (sh_shape s) y)));
      ("surfaceDerivative",
        shell_at_y (fun s y => scal (surface_derivative (sh_shape s) y neps)));
      ("surfaceAngle", shell_at_y (fun s y => scal (surface_angle (sh_shape s) y neps)));
      ("ribRadius", shell_at_i (fun s i => scal (let* r := rib_at s i in Ret (rb_radius r))));
      ("ribCenter", shell_point_i (fun s i => let* r := rib_at s i in Ret (rb_center r)));
      ("ribWidth", shell_at_i (fun s i => scal (let* r := rib_at s i in Ret (rb_width r))));
      ("ribAngle", shell_at_i (fun s i => scal (let* r := rib_at s i in Ret (rb_angle r))));
      ("translate", shell_translate);
      ("translation", shell_get (fun s => Ret (mx_vec (tra (sh_affine s)))));
      ("rotate", shell_rotate);
      ("rotation", fun e => shell_get (fun s => Ret (mx_rotation (e_rot e (lin (sh_affine s))))) e);
      ("transform", shell_transform);
      ("transformation", shell_get (fun s => Ret (mx_affine (sh_affine s))));
      ("checkTransformation", shell_check);
      ("x", shell_get (fun s => Ret (mx_vec (sh_x s))));
      ("y", shell_get (fun s => Ret (mx_vec (sh_y s))));
      ("z", shell_get (fun s => Ret (mx_vec (sh_z s))));
      ("eulerAngles", shell_get (fun s => Ret (mx_vec (sh_euler s))));
      ("setupFlat", fun e => shell_setup as_flat (setup_flat (e_gb e)) e);
      ("setupMesh", fun e => shell_setup as_mesh (setup_mesh (e_gb e)) e);
      ("contactPointAvg", shell_point);
      ("contactPointRib", shell_point_i contact_point_i);
      ("contactNormalAvg", shell_get (fun s => vecr (contact_normal s)));
      ("contactNormalRib", shell_at_i (fun s i => vecr (contact_normal_i s i)));
      ("contactDepthAvg", shell_get (fun s => scal (contact_depth s)));
      ("contactDepthRib", shell_at_i (fun s i => scal (contact_depth_i s i)));
      ("contactFrictionAvg", shell_get (fun s => scal (contact_friction s)));
      ("contactFrictionRib", shell_at_i (fun s i => scal (contact_friction_i s i)));
      ("contactAreaAvg", shell_get (fun s => scal (contact_area s)));
      ("contactAreaRib", shell_at_i (fun s i => scal (contact_area_i s i)));
      ("contactVolumeAvg", shell_get (fun s => scal (contact_volume s)));
      ("contactVolumeRib", shell_at_i (fun s i => scal (contact_volume_i s i)));
      ("contactPointAffineAvg", shell_get (fun s => affr (contact_affine s)));
      ("contactPointAffineRib", shell_at_i (fun s i => affr (contact_affine_i s i)));
      ("relativeAnglesAvg", shell_get (fun s => vecr (relative_angles s)));
      ("relativeAnglesRib", shell_at_i (fun s i => vecr (relative_angles_i s i))) ]%string.

  (** *** mex_flat.cc *)

  (** do_new, mex_flat.cc:124-166: without arguments, and with seven, every
      number stays NaN. *)
  Definition flat_new : command := fun e w nlhs prhs =>
    create FFlat e w
      (let n := List.length prhs in
       let* _ := assert (Nat.eqb n 1 || Nat.eqb n 4 || Nat.eqb n 8) in
       let* _ := assert (Nat.eqb nlhs 1) in
       let* g := (if Nat.eqb n 4 then
                    let* a1 := arg prhs 1 in let* mu := mex_get_scalar_value a1 in
                    let* a2 := arg prhs 2 in let* o := get_vec a2 in
                    let* a3 := arg prhs 3 in let* d := get_vec a3 in
                    mk_flat mu o d
                  else mk_flat nnan nan_vec nan_vec) in
       Ret (OFlat g)).

  Definition self_flat (nin nout : nat) (w : world K) (nlhs : nat) (prhs : list (mx K))
    : outcome (Z * flat K) :=
    let* _ := arity nin nout nlhs prhs in
    let* m := arg prhs 1 in get_handle as_flat w m.

  (** do_getNormal, do_getFriction, do_isDegenerated (mex_flat.cc:213-227,
      279-290, 310-320). *)
  Definition flat_get (f : flat K -> mx K) : command := fun e w nlhs prhs =>
    query w (let* h := self_flat 2 1 w nlhs prhs in Ret (f (snd h))).

  (** do_getOrigin and do_getPlane (mex_flat.cc:183-194, 249-260). *)
  Definition flat_make (f : flat K -> obj K) : command := fun e w nlhs prhs =>
    create FFlat e w (let* h := self_flat 2 1 w nlhs prhs in Ret (f (snd h))).

  (** do_setOrigin, mex_flat.cc:198-209: no assertion on the arguments. *)
  Definition flat_set_origin : command := fun e w nlhs prhs =>
    update w
      (let* m1 := arg prhs 1 in let* h := get_handle as_flat w m1 in
       let* m := arg prhs 2 in let* v := get_vec m in
       Ret (fst h, OFlat (Flat (Plane v (pnormal (fl_plane (snd h)))) (fl_friction (snd h))))).

  (** do_setNormal, mex_flat.cc:231-245: stored as given. *)
  Definition flat_set_normal : command := fun e w nlhs prhs =>
    update w
      (let* h := self_flat 3 0 w nlhs prhs in
       let* m := arg prhs 2 in let* v := get_vec m in
       Ret (fst h, OFlat (Flat (Plane (porigin (fl_plane (snd h))) v) (fl_friction (snd h))))).

  (** do_setPlane, mex_flat.cc:264-275: the other object is read as a flat. *)
  Definition flat_set_plane : command := fun e w nlhs prhs =>
    update w
      (let* h := self_flat 3 0 w nlhs prhs in
       let* m := arg prhs 2 in let* o := get_handle as_flat w m in
       Ret (fst h, OFlat (Flat (fl_plane (snd o)) (fl_friction (snd h))))).

  (** do_setFriction, mex_flat.cc:294-306: stored as given. *)
  Definition flat_set_friction : command := fun e w nlhs prhs =>
    update w
      (let* h := self_flat 3 0 w nlhs prhs in
       let* m := arg prhs 2 in let* x := mex_get_scalar_value m in
       Ret (fst h, OFlat (Flat (fl_plane (snd h)) x))).

  (** do_isApprox, mex_flat.cc:324-335. *)
  Definition flat_approx : command := fun e w nlhs prhs =>
    query w
      (let* h := self_flat 3 1 w nlhs prhs in
       let* m := arg prhs 2 in let* o := get_handle as_flat w m in
       Ret (mx_bool (flat_is_approx (snd h) (snd o) neps))).

  (** do_copy, mex_flat.cc:339-350. *)
  Definition flat_copy_cmd : command := fun e w nlhs prhs =>
    update w
      (let* h := self_flat 3 0 w nlhs prhs in
       let* m := arg prhs 2 in let* o := get_handle as_flat w m in
       Ret (fst h, OFlat (flat_copy (snd h) (snd o)))).

  (** [cmd_to_fun] of mex_flat.cc:356-369. *)
  Definition flat_table : list (string * command) :=
    [ ("new", flat_new);
      ("delete", do_delete FFlat as_flat);
      ("getOrigin", flat_make (fun g => OPoint (porigin (fl_plane g))));
      ("setOrigin", flat_set_origin);
      ("getNormal", flat_get (fun g => mx_vec (pnormal (fl_plane g))));
      ("setNormal", flat_set_normal);
      ("getPlane", flat_make (fun g => OPlane (fl_plane g)));
      ("setPlane", flat_set_plane);
      ("setFriction", flat_set_friction);
      ("getFriction", flat_get (fun g => mx_scalar (fl_friction g)));
      ("isDegenerated", flat_get (fun g => mx_bool (plane_is_degenerated (fl_plane g) neps)));
      ("isApprox", flat_approx);
      ("copy", flat_copy_cmd) ]%string.

  (** *** mex_mesh.cc *)

  (** The branches of do_new, mex_mesh.cc:131-186, on the fresh mesh: what
      is loaded, if anything ([None]: a message is printed and the mesh stays
      empty).  [mxIsScalar] is taken as 1x1. *)
  Definition mesh_new_load (e : env K) (prhs : list (mx K))
    : outcome (option (result (mesh K) bool)) :=
    let n := List.length prhs in
    if Nat.eqb n 2 then
      let* a1 := arg prhs 1 in let* path := get_string a1 in
      let* x := extension path in
      if str_eqb x (lit ".rdf") then
        Ret (Some (load_rdf (e_stod e) (e_fs e) path aident mesh_empty))
      else Ret None
    else if Nat.eqb n 3 then
      let* a1 := arg prhs 1 in let* path := get_string a1 in
      let* a2 := arg prhs 2 in
      let* x := extension path in
      if str_eqb x (lit ".obj") && Nat.eqb (numel (mx_dims a2)) 1 then
        let* mu := mex_get_scalar_value a2 in
        Ret (Some (load_obj (e_stod e) (e_fs e) path mu aident mesh_empty))
      else if str_eqb x (lit ".rdf") then
        let* pose := get_affine a2 in
        Ret (Some (load_rdf (e_stod e) (e_fs e) path pose mesh_empty))
      else Ret None
    else if Nat.eqb n 4 then
      let* a1 := arg prhs 1 in let* path := get_string a1 in
      let* a2 := arg prhs 2 in let* mu := mex_get_scalar_value a2 in
      let* a3 := arg prhs 3 in let* rc := dims2 a3 in
      let* x := extension path in
      if str_eqb x (lit ".obj") && (Nat.eqb (fst rc) 4 && Nat.eqb (snd rc) 4) then
        let* pose := get_affine_if (fun r c => Nat.eqb r 4 && Nat.eqb c 4) a3 in
        Ret (Some (load_obj (e_stod e) (e_fs e) path mu pose mesh_empty))
      else Ret None
    else Ret None.

  (** do_new, mex_mesh.cc:116-188: the mesh is allocated before the arguments
      are read; an error after that loses it. *)
  Definition mesh_new : command := fun e w nlhs prhs =>
    let n := List.length prhs in
    match (let* _ := assert (Nat.eqb n 1 || Nat.eqb n 2 || Nat.eqb n 3 || Nat.eqb n 4) in
           assert (Nat.eqb nlhs 1)) with
    | Throw x => Exn w x
    | UB => Undef
    | Ret _ =>
      match mesh_new_load e prhs with
      | UB | Ret (Some Undef) => Undef
      | Throw x | Ret (Some (Exn _ x)) => Exn (wlose w) x
      | Ret (Some (Ok m _)) =>
        Ok (wnew FMesh w (e_new e) (OMesh m)) [mx_handle (e_new e)]
      | Ret None =>
        Ok (wnew FMesh w (e_new e) (OMesh mesh_empty)) [mx_handle (e_new e)]
      end
    end.

  Definition self_mesh (nin nout : nat) (w : world K) (nlhs : nat) (prhs : list (mx K))
    : outcome (Z * mesh K) :=
    let* _ := arity nin nout nlhs prhs in
    let* m := arg prhs 1 in get_handle as_mesh w m.

  (** triangleground::triangleground(), src/triangleground.cc:50-57. *)
  Definition tg_empty : tground K :=
    TGround (Triangle nan_vec nan_vec nan_vec) 0 nnan nan_vec nan_aabb.

  (** [self->ptrTriangleground(i - 1)], src/mesh.cc:136-143. *)
  Definition tri_at (m : mesh K) (i : nat) : outcome (tground K) :=
    match nth_error (me_tris m) i with Some t => Ret t | None => UB end.

  (** do_getTriangleground, mex_mesh.cc:206-220. *)
  Definition mesh_get_tri : command := fun e w nlhs prhs =>
    create FMesh e w
      (let* h := self_mesh 3 1 w nlhs prhs in
       let* m := arg prhs 2 in let* i := get_index e m in
       let* t := tri_at (snd h) i in Ret (OTri (tg_copy tg_empty t))).

  (** do_getTrianglegroundVertices, mex_mesh.cc:224-247: the temporary is
      never deleted. *)
  Definition mesh_get_vertices : command := fun e w nlhs prhs =>
    match (let* h := self_mesh 3 1 w nlhs prhs in
           let* m := arg prhs 2 in let* i := get_index e m in tri_at (snd h) i) with
    | Ret t =>
      let p := tg_tri t in
      Ok (wlose w)
         [MxDouble [3; 3]%nat
            [vx (tv0 p); vy (tv0 p); vz (tv0 p); vx (tv1 p); vy (tv1 p); vz (tv1 p);
             vx (tv2 p); vy (tv2 p); vz (tv2 p)]]
    | Throw x => Exn w x
    | UB => Undef
    end.

  (** do_size, mex_mesh.cc:251-262. *)
  Definition mesh_size_cmd : command := fun e w nlhs prhs =>
    query w (let* h := self_mesh 2 1 w nlhs prhs in
             Ret (mx_int64 (Z.of_nat (mesh_size (snd h))))).

  (** do_copy, mex_mesh.cc:266-278. *)
  Definition mesh_copy_cmd : command := fun e w nlhs prhs =>
    update w
      (let* h := self_mesh 3 0 w nlhs prhs in
       let* m := arg prhs 2 in let* o := get_handle as_mesh w m in
       Ret (fst h, OMesh (mesh_copy (snd h) (snd o)))).

  (** do_load, mex_mesh.cc:282-313: one output is asserted, none is
      assigned. *)
  Definition mesh_load_cmd : command := fun e w nlhs prhs =>
    mutate w OMesh (fun _ => [])
      (let n := List.length prhs in
       let* _ := assert (Nat.eqb n 3 || Nat.eqb n 4) in
       let* _ := assert (Nat.eqb nlhs 1) in
       let* a1 := arg prhs 1 in let* h := get_handle as_mesh w a1 in
       let* a2 := arg prhs 2 in let* path := get_string a2 in
       let* x := extension path in
       if Nat.eqb n 3 then
         if str_eqb x (lit ".rdf") then
           Ret (fst h, load_rdf (e_stod e) (e_fs e) path aident (snd h))
         else Ret (fst h, Ok (snd h) false)
       else
         if str_eqb x (lit ".obj") then
           let* a3 := arg prhs 3 in let* mu := mex_get_scalar_value a3 in
           Ret (fst h, load_obj (e_stod e) (e_fs e) path mu aident (snd h))
         else Ret (fst h, Ok (snd h) false)).

  (** [cmd_to_fun] of mex_mesh.cc:320-327. *)
  Definition mesh_table : list (string * command) :=
    [ ("new", mesh_new);
      ("delete", do_delete FMesh as_mesh);
      ("getTriangleground", mesh_get_tri);
      ("getTrianglegroundVertices", mesh_get_vertices);
      ("size", mesh_size_cmd);
      ("copy", mesh_copy_cmd);
      ("load", mesh_load_cmd) ]%string.

  (** *** mex_triangleground.cc *)

  (** The id is read as [int64_t], stored in a [double] and converted to
      [integer]; the value is exact below 2^53 and undefined when no [int]
      holds it (rounding of larger values cannot bring it back in range). *)
  Definition id_of (z : Z) : outcome Z :=
    if (int_min <=? z)%Z && (z <=? int_max)%Z then Ret z else UB.

  (** do_new, mex_triangleground.cc:140-195. *)
  Definition tri_new : command := fun e w nlhs prhs =>
    create FTri e w
      (let n := List.length prhs in
       let* _ := assert (Nat.eqb n 1 || Nat.eqb n 6) in
       let* _ := assert (Nat.eqb nlhs 1) in
       let* t := (if Nat.eqb n 6 then
                    let* a1 := arg prhs 1 in let* z := mex_get_int64 e a1 in
                    let* a2 := arg prhs 2 in let* mu := mex_get_scalar_value a2 in
                    let* a3 := arg prhs 3 in let* p0 := get_vec a3 in
                    let* a4 := arg prhs 4 in let* p1 := get_vec a4 in
                    let* a5 := arg prhs 5 in let* p2 := get_vec a5 in
                    let* id := id_of z in
                    mk_tground id mu p0 p1 p2
                  else mk_tground 0 #0 nan_vec nan_vec nan_vec) in
       Ret (OTri t)).

  Definition self_tri (nin nout : nat) (w : world K) (nlhs : nat) (prhs : list (mx K))
    : outcome (Z * tground K) :=
    let* _ := arity nin nout nlhs prhs in
    let* m := arg prhs 1 in get_handle as_tri w m.

  (** do_getID, do_getFriction, do_normal (mex_triangleground.cc:213-239,
      307-321). *)
  Definition tri_get (f : tground K -> mx K) : command := fun e w nlhs prhs =>
    query w (let* h := self_tri 2 1 w nlhs prhs in Ret (f (snd h))).

  (** do_getVertex1, do_getVertex2, do_getVertex3
      (mex_triangleground.cc:243-287). *)
  Definition tri_make (f : tground K -> obj K) : command := fun e w nlhs prhs =>
    create FTri e w (let* h := self_tri 2 1 w nlhs prhs in Ret (f (snd h))).

  (** do_copy, mex_triangleground.cc:291-303. *)
  Definition tri_copy_cmd : command := fun e w nlhs prhs =>
    update w
      (let* h := self_tri 3 0 w nlhs prhs in
       let* m := arg prhs 2 in let* o := get_handle as_tri w m in
       Ret (fst h, OTri (tg_copy (snd h) (snd o)))).

  (** [cmd_to_fun] of mex_triangleground.cc:327-336. *)
  Definition tri_table : list (string * command) :=
    [ ("new", tri_new);
      ("delete", do_delete FTri as_tri);
      ("getID", tri_get (fun t => mx_scalar (nofZ (tg_id t))));
      ("getFriction", tri_get (fun t => mx_scalar (tg_friction t)));
      ("getVertex1", tri_make (fun t => OPoint (tv0 (tg_tri t))));
      ("getVertex2", tri_make (fun t => OPoint (tv1 (tg_tri t))));
      ("getVertex3", tri_make (fun t => OPoint (tv2 (tg_tri t))));
      ("copy", tri_copy_cmd);
      ("normal", tri_get (fun t => mx_vec (tg_normal t))) ]%string.

  (** *** mexFunction *)

  Definition table (f : mexfile) : list (string * command) :=
    match f with
    | FShell => shell_table
    | FFlat => flat_table
    | FMesh => mesh_table
    | FTri => tri_table
    end.

  Fixpoint assoc {A} (l : list (string * A)) (s : str) : option A :=
    match l with
    | [] => None
    | (n, x) :: l' => if str_eqb (lit n) s then Some x else assoc l' s
    end.

  (** MATLAB reports an error when an output that was asked for was not
      assigned. *)
  Definition returned (nlhs : nat) (r : reply) : reply :=
    match r with
    | Ok w outs => if Nat.ltb (List.length outs) nlhs then Exn w RuntimeError else r
    | _ => r
    end.

  (** mexFunction, mex_shell.cc:1043-1068 (the other three are the same:
      mex_flat.cc:373-398, mex_mesh.cc:331-357,
      mex_triangleground.cc:340-365). *)
  Definition mex_call (f : mexfile) : command := fun e w nlhs prhs =>
    match prhs with
    | [] => Exn w RuntimeError
    | MxChar s :: _ =>
      match assoc (table f) (cstr s) with
      | Some c => returned nlhs (c e w nlhs prhs)
      | None => Exn w OutOfRange
      end
    | _ => Exn w RuntimeError
    end.
End Commands.
