(** * The Simulink S-function interface
      (sfun/src_sfun/enve_sfun_interface.cc, sfun/include_sfun/enve_sfun_types.h). *)
From Coq Require Import ZArith Bool List String.
From Verif Require Import Base Num Vec Aabb Tree Geom Ground Shape Rib Str Mesh Shell.
Import ListNotations.
Local Open Scope num_scope.

(** ENVE_MAX_RIBS, sfun/include_sfun/enve_sfun_types.h:41-43. *)
Definition max_ribs : nat := 20.

(** EnveOutputBus, sfun/include_sfun/enve_sfun_types.h:55-64; the arrays are
    lists, [RibsAffine] is one list of [16*20] numbers as in C. *)
Record bus (K : Type) : Type := Bus {
  bu_shell_affine : list K;
  bu_shell_rho : K;
  bu_shell_friction : K;
  bu_ribs_affine : list K;
  bu_ribs_rho : list K;
  bu_ribs_friction : list K;
  bu_in_mesh : K }.
Arguments Bus {K}.
Arguments bu_shell_affine {K}. Arguments bu_shell_rho {K}. Arguments bu_shell_friction {K}.
Arguments bu_ribs_affine {K}. Arguments bu_ribs_rho {K}. Arguments bu_ribs_friction {K}.
Arguments bu_in_mesh {K}.

Section Sfun.
  Context {K : Type} {NK : Num K}.

  (** Entry [(r, c)] of the 4x4 matrix of an affine map. *)
  Definition mat4_entry (a : affine K) (r c : nat) : K :=
    match r, c with
    | 0, 0 => m00 (lin a) | 0, 1 => m01 (lin a) | 0, 2 => m02 (lin a) | 0, 3 => vx (tra a)
    | 1, 0 => m10 (lin a) | 1, 1 => m11 (lin a) | 1, 2 => m12 (lin a) | 1, 3 => vy (tra a)
    | 2, 0 => m20 (lin a) | 2, 1 => m21 (lin a) | 2, 2 => m22 (lin a) | 2, 3 => vz (tra a)
    | 3, 3 => #1
    | _, _ => #0
    end%nat.

  (** [array[r + 4*c] = matrix(r,c)] for [r, c < 4],
      enve_sfun_interface.cc:171-177 and 187-193: element [k] of the array is
      entry [(k mod 4, k / 4)]. *)
  Definition encode (a : affine K) : list K :=
    map (fun k => mat4_entry a (Nat.modulo k 4) (Nat.div k 4)) (seq 0 16).

  (** enve_sfun_interface.cc:124-132, [h k] being [HubAffine[k]].  The last
      row of the input matrix is stored by the code too.  Nothing a setup
      computes depends on it: products with an [Affine] transform use its
      upper three rows, and the result of checkTransformation is discarded
      (src/shell.cc:316).  It is dropped here.  It shows only in what
      shell::transformation returns and in a direct checkTransformation:
      these are modelled for a last row of 0 0 0 1. *)
  Definition decode (h : nat -> K) : affine K :=
    let e := fun r c => h (r + 4 * c)%nat in
    Aff (M3 (e 0 0) (e 0 1) (e 0 2) (e 1 0) (e 1 1) (e 1 2) (e 2 0) (e 2 1) (e 2 2))%nat
        (V (e 0 3) (e 1 3) (e 2 3))%nat.

  (** enve_sfun_interface.cc:134-141. *)
  Definition sfun_method (m : K) : outcome string :=
    if m =? #0 then Ret "geometric"%string
    else if m =? #1 then Ret "sampling"%string
    else Throw RuntimeError.

  (** Data of one rib slot, enve_sfun_interface.cc:182-207. *)
  Definition rib_slot (s : shell K) (i : nat) : outcome (list K * K * K) :=
    if Nat.ltb i (sh_size s) then
      let* a := contact_affine_i s i in
      let* d := contact_depth_i s i in
      let* f := contact_friction_i s i in
      Ret (encode a, d, f)
    else Ret (repeat nnan 16, nnan, nnan).

  (** enve_sfun_interface.cc:166-208. *)
  Definition fill_bus (s : shell K) (in_mesh : K) : outcome (bus K) :=
    let* a := contact_affine s in
    let* d := contact_depth s in
    let* f := contact_friction s in
    let* slots := omap (rib_slot s) (seq 0 max_ribs) in
    Ret (Bus (encode a) d f
             (flat_map (fun x => fst (fst x)) slots)
             (map (fun x => snd (fst x)) slots)
             (map snd slots) in_mesh).

  (** enve_sfun_interface.cc:107-211.  The globals MeshPtr, FlatPtr and
      ShellPtr are the arguments [m], [g] and [s].  [gb1]/[gb2] are the
      uninitialised temporaries of the two setups.  The bus written before an
      exception (only [InMesh]) is not modelled. *)
  Definition sfun_out (gb1 gb2 : nat -> garbage4 K) (m : mesh K) (g : flat K)
    (s : shell K) (hub : nat -> K) (method flat_enable : K) : result (shell K) (bus K) :=
    let pose := decode hub in
    let finish := fun (s : shell K) (im : bool) =>
      match fill_bus s (nofbool im) with
      | Ret b => Ok s b
      | Throw e => Exn s e
      | UB => Undef
      end in
    match sfun_method method with
    | Throw e => Exn s e
    | UB => Undef
    | Ret meth =>
      if flat_enable =? #0 then
        match setup_mesh gb1 s m pose meth with
        | Ok s1 true => finish s1 true
        | Ok s1 false =>
          match setup_flat gb2 s1 g pose meth with
          | Ok s2 _ => finish s2 false
          | Exn s2 e => Exn s2 e
          | Undef => Undef
          end
        | Exn s1 e => Exn s1 e
        | Undef => Undef
        end
      else if flat_enable =? #1 then
        match setup_flat gb2 s g pose meth with
        | Ok s2 _ => finish s2 true
        | Exn s2 e => Exn s2 e
        | Undef => Undef
        end
      else Exn s RuntimeError
    end.
End Sfun.
