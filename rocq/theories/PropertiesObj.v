(** * C05 for OBJ files: when loading is undefined, exactly. *)
From Coq Require Import ZArith Bool String List.
From Verif Require Import Base Num Vec Geom Aabb Str Ground Mesh SpecMesh SpecLoad SpecObj ProofObj F64 SampleMesh.
Import ListNotations.

Theorem C05_obj_undefined_exactly : forall {K : Type} {NK : Num K}
    (stod : text -> outcome K) (fs : text -> option text) path f pose (m : mesh K),
  defined_reader stod ->
  (load_obj stod fs path f pose m = Undef <->
   ends_with path (txt ".obj") /\
   exists content pre l post faces ns a b c,
     fs path = Some content /\ lines content (pre ++ l :: post) /\
     obj_file stod stoi pose f [] pre faces ns /\
     first_word l = txt "f" /\ words space1 (after_first l) [a; b; c] /\
     face_undefined (Z.of_nat (length ns)) a b c).
Proof. intros K NK. exact load_obj_undef_iff. Qed.
Print Assumptions C05_obj_undefined_exactly.

(** The least integer as an index, for any vertices. *)
Theorem C05_least_index_refuted : exists fs, 
  fs (txt "a.obj") = Some (txt "v 0 0 0" ++ [nl] ++ txt "f -2147483648 1 1" ++ [nl]) /\
  load_obj sread fs (txt "a.obj") (fz 1) pose0 mesh_empty = Undef.
Proof.
  exists (fun _ => Some (txt "v 0 0 0" ++ [nl] ++ txt "f -2147483648 1 1" ++ [nl])).
  split; [reflexivity|vm_compute; reflexivity].
Qed.
Print Assumptions C05_least_index_refuted.
