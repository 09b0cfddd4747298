(** * A step edge under one of two ribs, over binary64 (for C128). *)
From Coq Require Import ZArith Bool String List Floats.SpecFloat.
From Verif Require Import Base Num Vec Aabb Tree Geom Ground Shape Rib Str Mesh Shell F64 SampleShell.
From Verif Require Import SpecLoad SpecMesh SpecShell.
Import ListNotations.

(** Level ground at the height of the axle under the second rib of [wheel2]; a vertical
    triangle in the plane x = 0, its edge below the axle, under the first. *)
Definition edge_tris : list (tground f64) :=
  let t := fun i p q r => got (TGround (Triangle p q r) i (fz 0) p nan_aabb) (mk_tground i (f_of 1 (-1)) p q r) in
  [t 0%Z (V (fz (-4)) (fz (-4)) (fz 0)) (V (fz 4) (fz (-4)) (fz 0)) (V (fz 0) (fz 0) (fz 0));
   t 1%Z (V (fz 0) (f_of 1 (-3)) (f_of (-1) (-2))) (V (fz 0) (fz 4) (f_of (-1) (-2))) (V (fz 0) (f_of 1 (-1)) (fz (-2)))].
Definition edge_mesh : mesh f64 := got mesh_empty (mesh_of_triangles edge_tris).
Lemma edge_ok : mesh_of_triangles edge_tris = Ret edge_mesh.
Proof. vm_compute. reflexivity. Qed.
Definition edge_result := setup_mesh gb0 wheel2 edge_mesh aid "geometric".
Definition edge_shell : shell f64 := after no_shell edge_result.
Lemma edge_facts : edge_result = Ok edge_shell true /\ contact_friction_i edge_shell 0 = Ret S754_nan /\
  contact_friction_i edge_shell 1 = Ret (f_of 1 (-1)) /\ contact_friction edge_shell = Ret S754_nan /\
  exists v, contact_volume edge_shell = Ret v /\ nlt neps v = true.
Proof.
  split; [vm_compute; reflexivity|]. split; [vm_compute; reflexivity|]. split; [vm_compute; reflexivity|]. split; [vm_compute; reflexivity|].
  eexists. split; vm_compute; reflexivity.
Qed.
