(** * A MATLAB session over binary64, used as witness. *)
From Coq Require Import ZArith Bool String List Floats.SpecFloat.
From Verif Require Import Base Num Vec Aabb Tree Geom Ground Shape Rib Str Mesh Shell Sfun F64.
From Verif Require Import Mex SpecMex SampleShell.
From Verif Require SampleMesh.
Import ListNotations.

(** What a call that may allocate at [a] gets from outside. *)
Definition env64 (a : Z) : env f64 :=
  Env a SampleMesh.files SampleMesh.sread (fun _ => Throw RuntimeError) gb0 (fun m => m).

Definition i32 (z : Z) : mx f64 := MxInt I32 false [1; 1]%nat [z].
Definition num (z : Z) : mx f64 := mx_scalar (fz z).
Definition col (x y z : Z) : mx f64 := matrix 3 1 [fz x; fz y; fz z].
Definition pose44 (x y z : Z) : mx f64 :=
  matrix 4 4 (map fz [1; 0; 0; 0; 0; 1; 0; 0; 0; 0; 1; 0; x; y; z; 1]%Z).

Definition do1 (f : mexfile) (a : Z) (l : list (mx f64)) : call := Call f (env64 a) 1 l.
Definition do0 (f : mexfile) (l : list (mx f64)) : call := Call f (env64 99) 0 l.

(** The world after a call. *)
Definition next (w : world f64) (c : call) : world f64 :=
  match perform w c with Ok w' _ | Exn w' _ => w' | Undef => w end.
Definition ok (w : world f64) (c : call) : bool :=
  match perform w c with Ok _ _ => true | _ => false end.
Definition err (w : world f64) (c : call) : bool :=
  match perform w c with Exn _ _ => true | _ => false end.
Definition isfresh (w : world f64) (a : Z) : bool :=
  negb (existsb (Z.eqb a) (map fst (w_heap w))).

(** The object at an address. *)
Definition the_shell (w : world f64) (a : Z) : shell f64 :=
  match hfind (w_heap w) a with Some (OShell s) => s | _ => wheel1 end.
Definition the_flat (w : world f64) (a : Z) : flat f64 :=
  match hfind (w_heap w) a with Some (OFlat g) => g | _ => level end.
Definition the_mesh (w : world f64) (a : Z) : mesh f64 :=
  match hfind (w_heap w) a with Some (OMesh g) => g | _ => mesh_empty end.
Definition the_tri (w : world f64) (a : Z) : tground f64 :=
  match hfind (w_heap w) a with Some (OTri t) => t | _ => tg_empty end.
Definition the_point (w : world f64) (a : Z) : vec3 f64 :=
  match hfind (w_heap w) a with Some (OPoint p) => p | _ => V (fz 0) (fz 0) (fz 0) end.

(** Every call of the script returns or raises an error. *)
Fixpoint runs (w : world f64) (cs : list call) : bool :=
  match cs with
  | [] => true
  | c :: cs' => isfresh w (e_new (c_env c)) && (ok w c || err w c) && runs (next w c) cs'
  end.
Fixpoint final (w : world f64) (cs : list call) : world f64 :=
  match cs with [] => w | c :: cs' => final (next w c) cs' end.

Lemma ok_step w c : isfresh w (e_new (c_env c)) && (ok w c || err w c) = true -> step w c (next w c).
Proof.
  intros H. apply andb_prop in H as [H1 H2]. split.
  - unfold isfresh in H1. intros Hin.
    rewrite (proj2 (existsb_exists (Z.eqb _) _)) in H1; [discriminate|].
    eexists. split; [exact Hin|]. apply Z.eqb_refl.
  - unfold ok, err, next in *. destruct (perform w c); [left; eauto|right; eauto|discriminate].
Qed.
Lemma runs_session cs : forall w, runs w cs = true -> session w cs (final w cs).
Proof.
  induction cs as [|c cs IH]; intros w H; cbn in *; [constructor|].
  apply andb_prop in H as [H H3].
  apply session_cons with (next w c); [now apply ok_step|now apply IH].
Qed.

(** A wheel, a flat ground, a mesh and a triangle. *)
Definition script : list call :=
  [ do1 FShell 1 [text "new"; i32 1; num 1; num 1; num 2; num 1; num 1];
    do1 FFlat 2 [text "new"; num 1; col 0 0 0; col 0 0 1];
    do1 FMesh 3 [text "new"; text "a.rdf"];
    do1 FTri 4 [text "new"; i32 7; num 1; col 0 0 0; col 1 0 0; col 0 1 0] ].
Definition w0 : world f64 := final start script.
Lemma script_runs : runs start script = true.
Proof. vm_compute. reflexivity. Qed.
Lemma script_ok : session start script w0.
Proof. exact (runs_session script start script_runs). Qed.
