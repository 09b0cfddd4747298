(** * A run of the S-function: initialisation, output and termination calls
      on the three global pointers (sfun/src_sfun/enve_sfun_interface.cc). *)
From Coq Require Import ZArith Bool String List.
From Verif Require Import Base Num Vec Aabb Tree Geom Ground Shape Rib Str Mesh Shell Sfun.
Import ListNotations.
Local Open Scope num_scope.

(** Everything allocated with [new] by the S-function and not deleted, in the
    order of allocation, and the globals MeshPtr, FlatPtr and ShellPtr
    (enve_sfun_interface.cc:45-47) as positions in it.  The globals are null
    until the first complete initialisation and are always set together
    (99-101). *)
Record memory (K : Type) : Type := Memory {
  mm_meshes : list (mesh K); mm_flats : list (flat K); mm_shells : list (shell K);
  mm_globals : option (nat * nat * nat) }.
Arguments Memory {K}. Arguments mm_meshes {K}. Arguments mm_flats {K}. Arguments mm_shells {K}.
Arguments mm_globals {K}.

(** The arguments of enve_sfun_init, and the value of the environment variable
    ENVE_GROUND_PATH at the call (enve_sfun_interface.cc:50-67).  [pr_size] is
    [*SizePar] after its conversion to [size_t] (the conversion itself is not
    modelled). *)
Record params (K : Type) : Type := Params {
  pr_path : option str; pr_size : nat;
  pr_rx : K; pr_mx : K; pr_ry : K; pr_my : K; pr_ly : K; pr_height : K; pr_friction : K }.
Arguments Params {K}. Arguments pr_path {K}. Arguments pr_size {K}. Arguments pr_rx {K}. Arguments pr_mx {K}.
Arguments pr_ry {K}. Arguments pr_my {K}. Arguments pr_ly {K}. Arguments pr_height {K}. Arguments pr_friction {K}.

(** One call of the interface. *)
Inductive call (K : Type) : Type :=
  | CInit (p : params K)
  | COut (gb1 gb2 : nat -> garbage4 K) (hub : nat -> K) (method flat_enable : K)
  | CEnd.
Arguments CInit {K}. Arguments COut {K}. Arguments CEnd {K}.

Section Run.
  Context {K : Type} {NK : Num K}.
  Variable stod : str -> outcome K.
  Variable fs : str -> option str.

  (** The process before the first call. *)
  Definition memory0 : memory K := Memory [] [] [] None.

  (** The mesh of the file, enve_sfun_interface.cc:63-81. *)
  Definition init_mesh (path : option str) : outcome (mesh K) :=
    match path with
    | None => Throw RuntimeError
    | Some p =>
      let* ext := extension p in
      if str_eqb ext (lit ".rdf") then mesh_from (load_rdf stod fs p aident mesh_empty)
      else if str_eqb ext (lit ".obj") then mesh_from (load_obj stod fs p #1 aident mesh_empty)
      else Throw RuntimeError
    end.

  (** enve_sfun_init, enve_sfun_interface.cc:50-105.  An object whose
      constructor throws is released by [new]; the ones allocated before it
      are not (83-101). *)
  Definition run_init (p : params K) (w : memory K) : result (memory K) unit :=
    match init_mesh (pr_path p) with
    | UB => Undef
    | Throw e => Exn w e
    | Ret m =>
      let w1 := Memory (mm_meshes w ++ [m]) (mm_flats w) (mm_shells w) (mm_globals w) in
      match mk_flat (pr_friction p) (V #0 #0 (pr_height p)) (V #0 #0 #1) with
      | UB => Undef
      | Throw e => Exn w1 e
      | Ret g =>
        let w2 := Memory (mm_meshes w1) (mm_flats w1 ++ [g]) (mm_shells w1) (mm_globals w1) in
        match mk_shell (pr_size p) (pr_rx p) (pr_mx p) (pr_ry p) (pr_my p) (pr_ly p) with
        | UB => Undef
        | Throw e => Exn w2 e
        | Ret s =>
          Ok (Memory (mm_meshes w2) (mm_flats w2) (mm_shells w2 ++ [s])
                (Some (List.length (mm_meshes w), List.length (mm_flats w), List.length (mm_shells w)))) tt
        end
      end
    end.

  (** Store through ShellPtr. *)
  Definition put_shell (w : memory K) (k : nat) (s : shell K) : memory K :=
    Memory (mm_meshes w) (mm_flats w) (set_nth k s (mm_shells w)) (mm_globals w).

  (** enve_sfun_out, enve_sfun_interface.cc:107-211: the objects behind the
      globals; a null pointer is dereferenced (121). *)
  Definition run_out (gb1 gb2 : nat -> garbage4 K) (hub : nat -> K) (method flat_enable : K)
    (w : memory K) : result (memory K) (bus K) :=
    match mm_globals w with
    | None => Undef
    | Some (i, j, k) =>
      match nth_error (mm_meshes w) i, nth_error (mm_flats w) j, nth_error (mm_shells w) k with
      | Some m, Some g, Some s =>
        match sfun_out gb1 gb2 m g s hub method flat_enable with
        | Ok s' b => Ok (put_shell w k s') b
        | Exn s' e => Exn (put_shell w k s') e
        | Undef => Undef
        end
      | _, _, _ => Undef
      end
    end.

  (** enve_sfun_end, enve_sfun_interface.cc:213-223: the body is commented
      out. *)
  Definition run_end (w : memory K) : memory K := w.

  (** The memory after a call, whether it returned or threw; [None] after
      undefined behaviour. *)
  Definition run_call (w : memory K) (c : call K) : option (memory K) :=
    match c with
    | CInit p => match run_init p w with Ok w' _ => Some w' | Exn w' _ => Some w' | Undef => None end
    | COut gb1 gb2 hub method fe =>
      match run_out gb1 gb2 hub method fe w with Ok w' _ => Some w' | Exn w' _ => Some w' | Undef => None end
    | CEnd => Some (run_end w)
    end.
  Fixpoint run_calls (w : memory K) (cs : list (call K)) : option (memory K) :=
    match cs with
    | [] => Some w
    | c :: cs => match run_call w c with Some w' => run_calls w' cs | None => None end
    end.
End Run.
