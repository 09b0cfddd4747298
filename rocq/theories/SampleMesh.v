(** * Concrete files and meshes over binary64, used as witnesses. *)
From Coq Require Import ZArith Bool Lia Ascii String Permutation List Floats.SpecFloat.
From Verif Require Import Base Num Vec Aabb Tree Geom Ground Str Mesh F64.
From Verif Require Import SpecTree SpecLoad SpecMesh.
Import ListNotations.

(** Any [libm]; no witness below calls it. *)
Definition lm0 : libm :=
  Libm (fun x => x) (fun x => x) (fun x => x) (fun x => x) (fun x _ => x) (fun x _ => x).
#[export] Instance N64 : Num f64 := F64_Num lm0.
#[export] Instance O64 : OrdNum f64 := F64_Ord lm0.

Definition fz (z : Z) : f64 := f_of z 0.

(** A reader of integers as doubles, good enough for the witnesses. *)
Definition sread (s : text) : outcome f64 := obind (stoi s) (fun z => Ret (fz z)).
Lemma sread_defined : defined_reader sread.
Proof.
  intros s H. unfold sread, stoi in H.
  destruct (drop_spaces s) as [|c s']; cbn in H;
    repeat match type of H with context [match ?x with _ => _ end] => destruct x; cbn in H end;
    discriminate.
Qed.

(** The identity pose. *)
Definition pose0 : affine f64 :=
  Aff (M3 (fz 1) (fz 0) (fz 0) (fz 0) (fz 1) (fz 0) (fz 0) (fz 0) (fz 1)) (V (fz 0) (fz 0) (fz 0)).

Definition nodes_part : list text :=
  [txt "1 0 0 0"; txt "# corner"; txt "2  1 0  0 "; txt "n3 0 1 0"; txt "4 1 1 5"].
Definition elements_part : list text := [txt "0 1 2 1"; txt " 1 3 2  0"].
Definition rdf_lines : list text := txt "[NODES]" :: nodes_part ++ txt "[ELEMENTS]" :: elements_part.
(** A blank line inside the nodes, an index out of range, a negative index. *)
Definition rdf_blank_lines : list text :=
  txt "[NODES]" :: nodes_part ++ [] :: txt "[ELEMENTS]" :: elements_part.
Definition rdf_range_lines : list text :=
  txt "[NODES]" :: nodes_part ++ txt "[ELEMENTS]" :: elements_part ++ [txt "0 1 4 1"].
Definition rdf_negative_lines : list text :=
  txt "[NODES]" :: nodes_part ++ txt "[ELEMENTS]" :: elements_part ++ [txt "0 1 -1 1"].
Definition obj_lines : list text :=
  [txt "o ground"; txt "v 0 0 0"; txt " v 1 0  0"; txt "v 0 1 0"; txt "f 1 2 3"; []; txt "v 1 1 5";
   txt "f  2 4 3 "].
Definition obj_range_lines : list text := obj_lines ++ [txt "f 1 2 5"].

Definition files (p : text) : option text :=
  if str_eqb p (txt "a.rdf") then Some (file_of rdf_lines)
  else if str_eqb p (txt "blank.rdf") then Some (file_of rdf_blank_lines)
  else if str_eqb p (txt "range.rdf") then Some (file_of rdf_range_lines)
  else if str_eqb p (txt "neg.rdf") then Some (file_of rdf_negative_lines)
  else if str_eqb p (txt "a.obj") then Some (file_of obj_lines)
  else if str_eqb p (txt "range.obj") then Some (file_of obj_range_lines)
  else None.

Definition p00 : vec3 f64 := V (fz 0) (fz 0) (fz 0).
Definition p10 : vec3 f64 := V (fz 1) (fz 0) (fz 0).
Definition p01 : vec3 f64 := V (fz 0) (fz 1) (fz 0).
Definition p11 : vec3 f64 := V (fz 1) (fz 1) (fz 5).

Definition nodes0 : list (f64 * f64 * f64) :=
  [(fz 0, fz 0, fz 0); (fz 1, fz 0, fz 0); (fz 0, fz 1, fz 0); (fz 1, fz 1, fz 5)].
Definition elements0 : list (Z * Z * Z * f64) := [(0, 1, 2, fz 1); (1, 3, 2, fz 0)]%Z.
Definition faces0 : list face := [(p00, p10, p01, fz 1); (p10, p11, p01, fz 0)].
Definition faces1 : list face := [(p00, p10, p01, fz 1); (p10, p11, p01, fz 1)].

Definition after {S A} (d : S) (r : result S A) : S :=
  match r with Ok s _ => s | Exn s _ => s | Undef => d end.
Definition load0 := load_rdf sread files (txt "a.rdf") pose0 mesh_empty.
Definition mesh0 : mesh f64 := after mesh_empty load0.
Definition load1 := load_obj sread files (txt "a.obj") (fz 1) pose0 mesh_empty.
Definition mesh1 : mesh f64 := after mesh_empty load1.
Lemma load0_ok : load0 = Ok mesh0 true.
Proof. vm_compute. reflexivity. Qed.
Lemma load1_ok : load1 = Ok mesh1 true.
Proof. vm_compute. reflexivity. Qed.

Definition box0 : aabb f64 := Box (V (fz 0) (fz 0) (fz 0)) (V (fz 1) (fz 1) (fz 1)) 0.

Ltac dig n := exact (num_one n ltac:(lia)).
Ltac wd := split; [discriminate|reflexivity].

Lemma nodes_block0 : block (node_written sread) nodes_part nodes0.
Proof.
  assert (HN : forall s0 s1 s2 s3 s4 w a b c x y z,
    word w -> word a -> word b -> word c ->
    ~ In w [txt "[NODES]"; txt "NODES"; txt "[ELEMENTS]"; txt "ELEMENTS"] ->
    ~ head_is "{" w -> ~ head_is "%" w -> ~ head_is "#" w ->
    sread a = Ret x -> sread b = Ret y -> sread c = Ret z ->
    node_written sread (layout [(s0, w); (S s1, a); (S s2, b); (S s3, c)] s4) (x, y, z)).
  { intros. exists s0, s1, s2, s3, s4, w, a, b, c, x, y, z. tauto. }
  assert (HH : forall c d l, c <> d -> ~ head_is c (d :: l)).
  { intros c d l H [w E]. congruence. }
  assert (HI : forall w, negb (existsb (str_eqb w) [txt "[NODES]"; txt "NODES"; txt "[ELEMENTS]"; txt "ELEMENTS"]) = true ->
     ~ In w [txt "[NODES]"; txt "NODES"; txt "[ELEMENTS]"; txt "ELEMENTS"]).
  { intros w H HI. apply negb_true_iff in H. revert H. apply Bool.not_false_iff_true.
    apply existsb_exists. exists w. split; auto.
    clear. induction w as [|c w IH]; cbn; auto. now rewrite Ascii.eqb_refl. }
  apply block_data. { apply (HN 0 0 0 0 0 (txt "1") (txt "0") (txt "0") (txt "0")); try wd; try (apply HI; reflexivity); try (apply HH; discriminate); reflexivity. }
  apply block_comment. { split; [cbn; intuition discriminate|]. exists "#"%char, (txt " corner"). auto. }
  apply block_data. { apply (HN 0 1 0 1 1 (txt "2") (txt "1") (txt "0") (txt "0")); try wd; try (apply HI; reflexivity); try (apply HH; discriminate); reflexivity. }
  apply block_data. { apply (HN 0 0 0 0 0 (txt "n3") (txt "0") (txt "1") (txt "0")); try wd; try (apply HI; reflexivity); try (apply HH; discriminate); reflexivity. }
  apply block_data. { apply (HN 0 0 0 0 0 (txt "4") (txt "1") (txt "1") (txt "5")); try wd; try (apply HI; reflexivity); try (apply HH; discriminate); reflexivity. }
  apply block_nil.
Qed.
Lemma elements_block0 : block (element_written sread) elements_part elements0.
Proof.
  apply block_data.
  { exists 0, 0, 0, 0, 0, (txt "0"), (txt "1"), (txt "2"), (txt "1"), 0%Z, 1%Z, 2%Z, (fz 1).
    split; [reflexivity|]. split; [reflexivity|].
    split; [dig 0|]. split; [dig 1|]. split; [dig 2|]. split; [wd|]. split; [reflexivity|lia]. }
  apply block_data.
  { exists 1, 0, 0, 1, 0, (txt "1"), (txt "3"), (txt "2"), (txt "0"), 1%Z, 3%Z, 2%Z, (fz 0).
    split; [reflexivity|]. split; [reflexivity|].
    split; [dig 1|]. split; [dig 3|]. split; [dig 2|]. split; [wd|]. split; [reflexivity|lia]. }
  apply block_nil.
Qed.
Lemma faces_of0 : Forall2 (face_of pose0 nodes0) elements0 faces0.
Proof.
  assert (HV : forall i p x y z, (0 <= i)%Z -> nth_error nodes0 (Z.to_nat i) = Some (x, y, z) ->
     p = placed pose0 x y z -> vertex_of pose0 nodes0 i p).
  { intros. split; auto. exists x, y, z. auto. }
  repeat constructor; try (lia); do 3 eexists; (split; [reflexivity|]); vm_compute; reflexivity.
Qed.
Lemma frictions0 : Forall (fun t : face => nle (nofZ 0) (snd t) = true) faces0.
Proof. repeat constructor. Qed.

Lemma obj_written0 : obj_written sread pose0 (fz 1) [] obj_lines faces1.
Proof.
  unfold obj_lines, faces1.
  apply ow_other; [cbn; intuition discriminate|discriminate|discriminate|].
  eapply (ow_vertex _ _ _ _ 0 0 0 0 0 (txt "0") (txt "0") (txt "0")); [wd|wd|wd|reflexivity|reflexivity|reflexivity|].
  eapply (ow_vertex _ _ _ _ 1 0 0 1 0 (txt "1") (txt "0") (txt "0")); [wd|wd|wd|reflexivity|reflexivity|reflexivity|].
  eapply (ow_vertex _ _ _ _ 0 0 0 0 0 (txt "0") (txt "1") (txt "0")); [wd|wd|wd|reflexivity|reflexivity|reflexivity|].
  eapply (ow_face _ _ _ _ 0 0 0 0 0 (txt "1") (txt "2") (txt "3") 1 2 3); [dig 1|dig 2|dig 3|lia|lia|lia| | | |].
  1-3: split; [lia|]; do 3 eexists; split; [reflexivity|vm_compute; reflexivity].
  apply ow_other; [cbn; tauto|discriminate|discriminate|].
  eapply (ow_vertex _ _ _ _ 0 0 0 0 0 (txt "1") (txt "1") (txt "5")); [wd|wd|wd|reflexivity|reflexivity|reflexivity|].
  eapply (ow_face _ _ _ _ 0 1 0 0 1 (txt "2") (txt "4") (txt "3") 2 4 3); [dig 2|dig 4|dig 3|lia|lia|lia| | | |].
  1-3: split; [lia|]; do 3 eexists; split; [reflexivity|vm_compute; reflexivity].
  apply ow_nil.
Qed.

(** Triangles built by hand. *)
Definition tri_at (id : Z) (p q r : vec3 f64) : tground f64 :=
  let t := Triangle p q r in TGround t id (fz 0) (tg_update_normal t) (tg_update_bbox id t).
Definition vnan : vec3 f64 := V S754_nan (fz 0) (fz 0).
Definition nan_tris : list (tground f64) := [tri_at 0 vnan p10 p01; tri_at 1 p00 p10 p01].
Definition far (p : vec3 f64) : vec3 f64 := V (nadd (vx p) (fz 10)) (vy p) (vz p).
Definition dup_tris : list (tground f64) := [tri_at 1 p00 p10 p01; tri_at 0 (far p00) (far p10) (far p01)].
Definition good_tris : list (tground f64) := [tri_at 0 p00 p10 p01; tri_at 1 (far p00) (far p10) (far p01)].
Lemma tri_at_made : forall id p q r, made (tri_at id p q r).
Proof. intros id p q r. exists p, q, r. reflexivity. Qed.
Lemma made_samples : Forall made nan_tris /\ Forall made dup_tris /\ Forall made good_tris.
Proof. repeat split; repeat (apply Forall_cons; [apply tri_at_made|]); apply Forall_nil. Qed.
Definition ground_at (id : Z) (f : f64) (p q r : vec3 f64) : tground f64 :=
  let t := Triangle p q r in TGround t id f (tg_update_normal t) (tg_update_bbox id t).
Lemma mesh0_tris : me_tris mesh0 = [ground_at 0 (fz 1) p00 p10 p01; ground_at 1 (fz 0) p10 p11 p01].
Proof. vm_compute. reflexivity. Qed.
Definition far_tri : tground f64 := tri_at 0 (far p00) (far p10) (far p01).
Lemma far_away : intersects (tg_bbox far_tri) box0 = false.
Proof. vm_compute. reflexivity. Qed.
Lemma far_proper : proper_box (tg_bbox far_tri) /\ proper_box box0.
Proof. vm_compute. tauto. Qed.
Lemma far_other : tri_at 1 p00 p10 p01 <> far_tri.
Proof. intros H. apply (f_equal tg_id) in H. change (1 = 0)%Z in H. discriminate. Qed.
