(** * Concrete shells over binary64, used as witnesses.

    The witnesses call [pow] only with exponents 0 and 1, [acos] only at 0
    and [atan] at 0 or where the value does not matter; the library below is
    right there. *)
From Coq Require Import ZArith Bool String List Floats.SpecFloat.
From Verif Require Import Base Num Vec Aabb Tree Geom Ground Shape Rib Str Mesh Shell F64.
From Verif Require Import SpecLoad SpecMesh SpecShell.
Import ListNotations.

Definition fz (z : Z) : f64 := f_of z 0.
(** pi/2 rounded to binary64. *)
Definition half_pi : f64 := f_of 7074237752028440 (-52).
Definition lm1 : libm :=
  Libm (fun x => x) (fun x => x) (fun x => x) (fun _ => half_pi) (fun x _ => x)
       (fun x y => if SFeqb y (fz 0) then fz 1 else x).
#[export] Instance S64 : Num f64 := F64_Num lm1.
#[export] Instance SO64 : OrdNum f64 := F64_Ord lm1.

Definition aid : affine f64 := aident.
Definition at_pose (x y z : f64) : affine f64 := Aff (lin aid) (V x y z).
Definition gb0 : nat -> garbage4 f64 := fun _ => let v := V (fz 0) (fz 0) (fz 0) in (v, v, v, v).

Definition got {A} (d : A) (o : outcome A) : A := match o with Ret a => a | _ => d end.
Definition after {S A} (d : S) (r : result S A) : S :=
  match r with Ok s _ => s | Exn s _ => s | Undef => d end.
Definition no_shell : shell f64 := Shell aid (Shape (fz 0) (fz 0) (fz 0) (fz 0) (fz 0)) nan_aabb [] 0 [] [].

(** A diamond-shaped wheel, with [n] ribs. *)
Definition wheel (n : nat) (ly : f64) : outcome (shell f64) := mk_shell n (fz 1) (fz 1) (fz 2) (fz 1) ly.
Definition wheel1 : shell f64 := got no_shell (wheel 1 (fz 1)).
Definition wheel2 : shell f64 := got no_shell (wheel 2 (fz 1)).
(** A very thin wheel: half width 2^-40. *)
Definition thin1 : shell f64 := got no_shell (wheel 1 (f_of 1 (-40))).
Lemma wheel1_ok : wheel 1 (fz 1) = Ret wheel1.
Proof. vm_compute. reflexivity. Qed.
Lemma wheel2_ok : wheel 2 (fz 1) = Ret wheel2.
Proof. vm_compute. reflexivity. Qed.
Lemma thin1_ok : wheel 1 (f_of 1 (-40)) = Ret thin1.
Proof. vm_compute. reflexivity. Qed.

(** Level ground through the origin; ground rising along y through the center
    of the first rib of [wheel2]. *)
Definition level : flat f64 := Flat (Plane (V (fz 0) (fz 0) (fz 0)) (V (fz 0) (fz 0) (fz 1))) (f_of 1 (-1)).
Definition slope : flat f64 :=
  got level (mk_flat (f_of 1 (-1)) (V (fz 0) (f_of (-1) (-1)) (fz 0)) (V (fz 0) (fz (-1)) (fz 1))).
Lemma level_ok : mk_flat (f_of 1 (-1)) (V (fz 0) (fz 0) (fz 0)) (V (fz 0) (fz 0) (fz 1)) = Ret level.
Proof. vm_compute. reflexivity. Qed.
Lemma slope_ok : mk_flat (f_of 1 (-1)) (V (fz 0) (f_of (-1) (-1)) (fz 0)) (V (fz 0) (fz (-1)) (fz 1)) = Ret slope.
Proof. vm_compute. reflexivity. Qed.

(** A mesh of two triangles under the wheel: two triangles of a 4x4 square at
    the height of the axle, given to the vector constructor. *)
Definition square_tris : list (tground f64) :=
  let a := V (fz (-2)) (fz (-2)) (fz 0) in let b := V (fz 2) (fz (-2)) (fz 0) in
  let c := V (fz 2) (fz 2) (fz 0) in let d := V (fz (-2)) (fz 2) (fz 0) in
  let t := fun i p q r => got (TGround (Triangle p q r) i (fz 0) p nan_aabb) (mk_tground i (f_of 1 (-1)) p q r) in
  [t 0%Z a b c; t 1%Z a c d].
Definition square : mesh f64 := got mesh_empty (mesh_of_triangles square_tris).
Lemma square_ok : mesh_of_triangles square_tris = Ret square.
Proof. vm_compute. reflexivity. Qed.
