(** * Vocabulary for the MATLAB gateway. *)
From Coq Require Import ZArith Bool String List.
From Verif Require Import Base Num Vec Geom Ground Str Mesh Shell Mex.
Import ListNotations.

Section SpecMex.
  Context {K : Type} {NK : Num K}.

  (** The MEX file whose class an object belongs to; points and planes belong
      to the acme toolbox. *)
  Definition class_of (o : obj K) : option mexfile :=
    match o with
    | OShell _ => Some FShell
    | OFlat _ => Some FFlat
    | OMesh _ => Some FMesh
    | OTri _ => Some FTri
    | OPoint _ | OPlane _ => None
    end.

  (** The object behind a handle that was created and not deleted. *)
  Definition live (w : world K) (a : Z) (o : obj K) : Prop := hfind (w_heap w) a = Some o.

  (** [m] is a real [uint64] array whose first element is [a]. *)
  Definition names (m : mx K) (a : Z) : Prop :=
    exists dims rest, m = MxInt U64 false dims (a :: rest).

  (** The object the command is applied to is the one with address [a]. *)
  Definition applied_to (prhs : list (mx K)) (a : Z) : Prop :=
    exists m, nth_error prhs 1 = Some m /\ names m a.

  (** No two live handles share an address. *)
  Definition proper (w : world K) : Prop := NoDup (map fst (w_heap w)).

  (** The allocator returns an address that is not in use. *)
  Definition fresh (w : world K) (a : Z) : Prop := ~ In a (map fst (w_heap w)).

  (** One call of a MEX function, with what it gets from outside. *)
  Record call : Type := Call {
    c_file : mexfile;
    c_env : env K;
    c_nlhs : nat;
    c_args : list (mx K) }.

  Definition perform (w : world K) (c : call) : result (world K) (list (mx K)) :=
    mex_call (c_file c) (c_env c) w (c_nlhs c) (c_args c).

  (** The call returns or raises a MATLAB error, and leaves [w']. *)
  Definition step (w : world K) (c : call) (w' : world K) : Prop :=
    fresh w (e_new (c_env c)) /\
    ((exists outs, perform w c = Ok w' outs) \/ (exists e, perform w c = Exn w' e)).

  (** A MATLAB session: any calls, in any order, errors being caught by the
      script. *)
  Inductive session : world K -> list call -> world K -> Prop :=
  | session_nil : forall w, session w [] w
  | session_cons : forall w c w1 cs w2,
      step w c w1 -> session w1 cs w2 -> session w (c :: cs) w2.

  (** Nothing was created yet. *)
  Definition start : world K := World [] (fun _ => 0%Z) 0.

  (** The command name of a call. *)
  Definition is_command (prhs : list (mx K)) (c : string) : Prop :=
    exists s rest, prhs = MxChar s :: rest /\ cstr s = lit c.

  (** How many live objects are of the class of [f]. *)
  Definition of_class (f : mexfile) (o : obj K) : bool :=
    match class_of o with Some g => file_eqb f g | None => false end.
  Definition population (w : world K) (f : mexfile) : nat :=
    List.length (filter (fun x => of_class f (snd x)) (w_heap w)).

  Definition all_locks (w : world K) : Z :=
    (w_locks w FShell + w_locks w FFlat + w_locks w FMesh + w_locks w FTri)%Z.
End SpecMex.

(** The commands that are documented to change the object they are applied
    to. *)
Definition changing : list string :=
  [ "delete"; "resize"; "translate"; "rotate"; "transform"; "setupFlat"; "setupMesh";
    "setOrigin"; "setNormal"; "setPlane"; "setFriction"; "copy"; "load" ]%string.

(** The commands that take a second handle, and the class it must have. *)
Definition second_class (f : mexfile) (c : string) (g : mexfile) : Prop :=
  In (f, c, g)
    [ (FShell, "setupFlat", FFlat); (FShell, "setupMesh", FMesh);
      (FFlat, "setPlane", FFlat); (FFlat, "isApprox", FFlat); (FFlat, "copy", FFlat);
      (FMesh, "copy", FMesh); (FTri, "copy", FTri) ]%string.

(** [mex_shell('cmd', ...)]. *)
Definition text {K} (c : string) : mx K := MxChar (lit c).

Section SpecValues.
  Context {K : Type} {NK : Num K}.

  (** The values an integer class holds. *)
  Definition in_class (c : iclass) (z : Z) : Prop :=
    match c with
    | I8 => -128 <= z < 128 | U8 => 0 <= z < 256
    | I16 => -32768 <= z < 32768 | U16 => 0 <= z < 65536
    | I32 => - 2 ^ 31 <= z < 2 ^ 31 | U32 => 0 <= z < 2 ^ 32
    | I64 => - 2 ^ 63 <= z < 2 ^ 63 | U64 => 0 <= z < 2 ^ 64
    end%Z.

  (** [m] is a MATLAB scalar of value [z]: of an integer class, or a floating
      point number that converts to [z]. *)
  Definition whole (e : env K) (m : mx K) (z : Z) : Prop :=
    (exists c b, m = MxInt c b [1; 1]%nat [z] /\ in_class c z) \/
    (exists x, (m = MxDouble [1; 1]%nat [x] \/ m = MxSingle [1; 1]%nat [x]) /\
               e_toint e x = Ret z).

  (** A double array with [r] rows and [c] columns. *)
  Definition matrix (r c : nat) (d : list K) : mx K := MxDouble [r; c] d.

  (** The call does nothing but return these outputs. *)
  Definition answers (f : mexfile) (e : env K) (w : world K) (prhs : list (mx K)) (m : mx K) : Prop :=
    mex_call f e w 1 prhs = Ok w [m].

  (** [w'] is [w] with the object at [a] replaced by [o]. *)
  Definition changed_to (w w' : world K) (a : Z) (o : obj K) : Prop :=
    live w' a o /\
    (forall b, b <> a -> hfind (w_heap w') b = hfind (w_heap w) b) /\
    (forall g, w_locks w' g = w_locks w g) /\ w_lost w' = w_lost w.

  (** [w'] is [w] with a new object [o] at [a], created by file [f]. *)
  Definition extended_by (f : mexfile) (w w' : world K) (a : Z) (o : obj K) : Prop :=
    live w' a o /\
    (forall b, b <> a -> hfind (w_heap w') b = hfind (w_heap w) b) /\
    (forall g, w_locks w' g = if file_eqb f g then w_locks w g + 1 else w_locks w g)%Z /\
    w_lost w' = w_lost w.

  (** A 4x4 array in column order with its last row set to 0 0 0 1. *)
  Definition homogeneous (d : list K) : list K :=
    map (fun k => match k with 3 | 7 | 11 => nofZ 0 | 15 => nofZ 1 | _ => nth k d (nofZ 0) end)%nat (seq 0 16).

  (** The upper left 3x3 block of a 4x4 array in column order, and the nine
      entries of a 3x3 matrix row after row. *)
  Definition block (d : list K) : mat3 K :=
    let x := fun k => nth k d (nofZ 0) in
    M3 (x 0) (x 4) (x 8) (x 1) (x 5) (x 9) (x 2) (x 6) (x 10)%nat.
  Definition by_rows (m : mat3 K) : list K :=
    [m00 m; m01 m; m02 m; m10 m; m11 m; m12 m; m20 m; m21 m; m22 m].
End SpecValues.

(** The calls after which an object can no longer be reached nor freed. *)
Definition losing {K} {NK : Num K} (w : world K) (c : call) : Prop :=
  c_file c = FMesh /\
  ((is_command (c_args c) "getTrianglegroundVertices" /\ exists w' outs, perform w c = Ok w' outs) \/
   (is_command (c_args c) "new" /\ exists w' e, perform w c = Exn w' e)).
