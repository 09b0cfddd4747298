(** * Properties C01-C17: files, trees, meshes.

    [K] is any number type (IEEE doubles included); [stod] is any text to
    number conversion; [fs] is any file system.  Sizes are at most 2^31
    because identifiers are [int]. *)
From Coq Require Import ZArith Bool Lia Ascii String Permutation List Floats.SpecFloat.
From Verif Require Import Base Num Vec Aabb Tree Geom Ground Str Mesh F64.
From Verif Require Import SpecTree SpecLoad SpecMesh SpecInt.
From Verif Require Import ProofTree ProofLoad ProofMesh ProofQuery ProofWrite ProofMeshFacts ProofStoi SampleMesh.
Import ListNotations.

(** ** C01 *)
Theorem C01_rdf_round_trip : forall {K : Type} {NK : Num K}
    (stod : text -> outcome K) (fs : text -> option text)
    path pose node_lines element_lines nodes elements faces (m : mesh K),
  ends_with path (txt ".rdf") ->
  fs path = Some (file_of (txt "[NODES]" :: node_lines ++ txt "[ELEMENTS]" :: element_lines)) ->
  block (node_written stod) node_lines nodes ->
  block (element_written stod) element_lines elements ->
  Forall2 (face_of pose nodes) elements faces ->
  Forall (fun t : face => nle (nofZ 0) (snd t) = true) faces ->
  faces <> [] -> (Z.of_nat (length faces) <= 2 ^ 31)%Z -> me_tris m = [] ->
  exists m', load_rdf stod fs path pose m = Ok m' true /\ describes m' faces.
Proof. intros K NK. exact rdf_round_trip. Qed.
Print Assumptions C01_rdf_round_trip.

(** The same for any file that the format relation accepts: sections in any
    order and number, preambles, comments. *)
Theorem C01_rdf_any_file : forall {K : Type} {NK : Num K}
    (stod : text -> outcome K) (fs : text -> option text)
    path pose content ls faces s' ns' (m : mesh K),
  ends_with path (txt ".rdf") -> fs path = Some content -> lines content ls ->
  rdf_file stod stoi pose NoSection [] ls faces s' ns' ->
  faces <> [] -> (Z.of_nat (length faces) <= 2 ^ 31)%Z -> me_tris m = [] ->
  exists m', load_rdf stod fs path pose m = Ok m' true /\ describes m' faces.
Proof. intros K NK. exact rdf_any_file. Qed.
Print Assumptions C01_rdf_any_file.

Example C01_example : exists m', load_rdf sread files (txt "a.rdf") pose0 mesh_empty = Ok m' true /\
  describes m' faces0.
Proof.
  apply (C01_rdf_round_trip sread files (txt "a.rdf") pose0 nodes_part elements_part nodes0 elements0).
  - now exists (txt "a").
  - reflexivity.
  - exact nodes_block0.
  - exact elements_block0.
  - exact faces_of0.
  - exact frictions0.
  - discriminate.
  - cbn. lia.
  - reflexivity.
Qed.

(** ** C02 *)
Theorem C02_obj_round_trip : forall {K : Type} {NK : Num K}
    (stod : text -> outcome K) (fs : text -> option text)
    path pose friction ls faces (m : mesh K),
  ends_with path (txt ".obj") -> fs path = Some (file_of ls) ->
  obj_written stod pose friction [] ls faces -> nle (nofZ 0) friction = true ->
  faces <> [] -> (Z.of_nat (length faces) <= 2 ^ 31)%Z -> me_tris m = [] ->
  exists m', load_obj stod fs path friction pose m = Ok m' true /\ describes m' faces.
Proof. intros K NK. exact obj_round_trip. Qed.
Print Assumptions C02_obj_round_trip.

Example C02_example : exists m', load_obj sread files (txt "a.obj") (fz 1) pose0 mesh_empty = Ok m' true /\
  describes m' faces1.
Proof.
  apply (C02_obj_round_trip sread files (txt "a.obj") pose0 (fz 1) obj_lines).
  - now exists (txt "a").
  - reflexivity.
  - exact obj_written0.
  - reflexivity.
  - discriminate.
  - cbn. lia.
  - reflexivity.
Qed.

(** ** C03 *)
Theorem C03_success_well_formed : forall {K : Type} {NK : Num K}
    (stod : text -> outcome K) (fs : text -> option text) path pose (m m' : mesh K) b,
  load_rdf stod fs path pose m = Ok m' b ->
  b = true /\ exists content ls node_lines element_lines,
    fs path = Some content /\ lines content ls /\
    data_lines NoSection ls node_lines element_lines /\
    Forall three_fields node_lines /\ Forall four_fields element_lines /\
    mesh_size m' = length element_lines.
Proof. intros K NK. exact rdf_success. Qed.
Print Assumptions C03_success_well_formed.

Theorem C03_success_meaning : forall {K : Type} {NK : Num K}
    (stod : text -> outcome K) (fs : text -> option text) path pose (m m' : mesh K) b,
  load_rdf stod fs path pose m = Ok m' b -> (Z.of_nat (mesh_size m') <= 2 ^ 31)%Z ->
  exists content ls faces s' ns',
    fs path = Some content /\ lines content ls /\
    rdf_file stod stoi pose NoSection [] ls faces s' ns' /\ describes m' faces.
Proof. intros K NK. exact rdf_success_meaning. Qed.
Print Assumptions C03_success_meaning.

Theorem C03_malformed_rejected : forall {K : Type} {NK : Num K}
    (stod : text -> outcome K) (fs : text -> option text)
    path pose (m : mesh K) content pre l post faces ns s ws,
  ends_with path (txt ".rdf") -> fs path = Some content -> lines content (pre ++ l :: post) ->
  rdf_file stod stoi pose NoSection [] pre faces s ns -> rdf_data l ->
  (s = InNodes /\ words space1 (after_first l) ws /\ length ws <> 3 \/
   s = InElements /\ words space1 l ws /\ length ws <> 4) ->
  exists m', load_rdf stod fs path pose m = Exn m' RuntimeError.
Proof. intros K NK. exact load_rdf_malformed. Qed.
Print Assumptions C03_malformed_rejected.

Example C03_example : load_rdf sread files (txt "a.rdf") pose0 mesh_empty = Ok mesh0 true.
Proof. exact load0_ok. Qed.

(** ** C04 *)
Theorem C04_loaded_friction : forall {K : Type} {NK : Num K}
    (stod : text -> outcome K) (fs : text -> option text) (m m' : mesh K),
  load_succeeds stod fs m m' ->
  Forall (fun t => nle (nofZ 0) (tg_friction t) = true) (me_tris m').
Proof. intros K NK. exact loaded_friction. Qed.
Print Assumptions C04_loaded_friction.

Theorem C04_bad_element_rejected : forall {K : Type} {NK : Num K}
    (stod : text -> outcome K) (fs : text -> option text)
    path pose (m : mesh K) content pre l post faces ns i j k f,
  ends_with path (txt ".rdf") -> fs path = Some content -> lines content (pre ++ l :: post) ->
  rdf_file stod stoi pose NoSection [] pre faces InElements ns ->
  rdf_data l -> element_line stod stoi l i j k f ->
  (i < 0 \/ j < 0 \/ k < 0)%Z \/ nle (nofZ 0) f = false ->
  exists m', load_rdf stod fs path pose m = Exn m' RuntimeError.
Proof. intros K NK. exact load_rdf_bad. Qed.
Print Assumptions C04_bad_element_rejected.

Theorem C04_bad_face_rejected : forall {K : Type} {NK : Num K}
    (stod : text -> outcome K) (fs : text -> option text)
    path friction pose (m : mesh K) content pre l post faces ns i j k,
  ends_with path (txt ".obj") -> fs path = Some content -> lines content (pre ++ l :: post) ->
  obj_file stod stoi pose friction [] pre faces ns ->
  first_word l = txt "f" -> face_line stoi l i j k ->
  (int_min < i /\ int_min < j /\ int_min < k)%Z ->
  (i < 1 \/ j < 1 \/ k < 1)%Z \/
  (nle (nofZ 0) friction = false /\ (i <= Z.of_nat (length ns))%Z /\
    (j <= Z.of_nat (length ns))%Z /\ (k <= Z.of_nat (length ns))%Z) ->
  exists m', load_obj stod fs path friction pose m = Exn m' RuntimeError.
Proof. intros K NK. exact load_obj_bad. Qed.
Print Assumptions C04_bad_face_rejected.

Example C04_example_rejected :
  exists m', load_rdf sread files (txt "neg.rdf") pose0 mesh_empty = Exn m' RuntimeError.
Proof. eexists. vm_compute. reflexivity. Qed.
Example C04_example_nan : nle (nofZ 0) (S754_nan : f64) = false /\ nle (nofZ 0) (fz (-1)) = false.
Proof. split; reflexivity. Qed.

(** What an index field says: the decimal integer at its start; no integer,
    or one outside [int], throws. *)
Theorem C04_index_reading : forall s : text,
  (forall z, stoi s = Ret z <-> reads_int s z /\ (int_min <= z <= int_max)%Z) /\
  (stoi s = Throw OutOfRange <-> exists z, reads_int s z /\ ~ (int_min <= z <= int_max)%Z) /\
  (stoi s = Throw InvalidArgument <-> ~ exists z, reads_int s z) /\
  stoi s <> UB /\ stoi s <> Throw RuntimeError.
Proof. exact stoi_spec. Qed.
Print Assumptions C04_index_reading.

Example C04_example_reading : stoi (txt " -12/3") = Ret (-12)%Z /\ reads_int (txt " -12/3") (-12).
Proof.
  split; [vm_compute; reflexivity|]. apply (proj1 (proj1 (C04_index_reading _) (-12)%Z)). vm_compute. reflexivity.
Qed.

(** ** C05: false of the code.  An index equal to the number of nodes reads
    outside the vector, in both formats; for RDF this is the only undefined
    behaviour of the loader. *)
Theorem C05_index_safety_refuted :
  load_rdf sread files (txt "range.rdf") pose0 mesh_empty = Undef /\
  load_obj sread files (txt "range.obj") (fz 1) pose0 mesh_empty = Undef.
Proof. split; vm_compute; reflexivity. Qed.
Print Assumptions C05_index_safety_refuted.

Theorem C05_undefined_exactly : forall {K : Type} {NK : Num K}
    (stod : text -> outcome K) (fs : text -> option text) path pose (m : mesh K),
  defined_reader stod ->
  (load_rdf stod fs path pose m = Undef <->
   ends_with path (txt ".rdf") /\
   exists content pre l post faces ns i j k f,
     fs path = Some content /\ lines content (pre ++ l :: post) /\
     rdf_file stod stoi pose NoSection [] pre faces InElements ns /\
     rdf_data l /\ element_line stod stoi l i j k f /\
     (0 <= i /\ 0 <= j /\ 0 <= k)%Z /\ nle (nofZ 0) f = true /\
     (Z.of_nat (length ns) <= i \/ Z.of_nat (length ns) <= j \/ Z.of_nat (length ns) <= k)%Z).
Proof. intros K NK. exact load_rdf_undef_iff. Qed.
Print Assumptions C05_undefined_exactly.

Example C05_example_reader : defined_reader sread.
Proof. exact sread_defined. Qed.

(** ** C06: false of the code.  A blank line inside a section makes the load
    throw; the test for a carriage return never succeeds. *)
Theorem C06_blank_lines_refuted :
  load_rdf sread files (txt "a.rdf") pose0 mesh_empty = Ok mesh0 true /\
  exists a b m', rdf_lines = a ++ b /\ rdf_blank_lines = a ++ [] :: b /\
    load_rdf sread files (txt "blank.rdf") pose0 mesh_empty = Exn m' RuntimeError.
Proof.
  split; [exact load0_ok|].
  exists (txt "[NODES]" :: nodes_part), (txt "[ELEMENTS]" :: elements_part). eexists.
  split; [reflexivity|]. split; [reflexivity|]. vm_compute. reflexivity.
Qed.
Print Assumptions C06_blank_lines_refuted.

Theorem C06_blank_line_in_section_throws : forall {K : Type} {NK : Num K}
    (stod : text -> outcome K) (fs : text -> option text)
    path pose (m : mesh K) content pre l post faces s ns,
  ends_with path (txt ".rdf") -> fs path = Some content -> lines content (pre ++ l :: post) ->
  rdf_file stod stoi pose NoSection [] pre faces s ns -> s <> NoSection -> blank_line l ->
  exists m', load_rdf stod fs path pose m = Exn m' RuntimeError.
Proof. intros K NK. exact blank_line_throws. Qed.
Print Assumptions C06_blank_line_in_section_throws.

(** Lines that may be inserted: comments anywhere, anything but a header
    before the first header, and in OBJ files any line with another keyword
    (blank lines included). *)
Theorem C06_rdf_ignored_lines : forall {K : Type} {NK : Num K}
    (stod : text -> outcome K) (fs : text -> option text)
    path path' pose (m : mesh K) content content' a l b,
  ends_with path (txt ".rdf") -> ends_with path' (txt ".rdf") ->
  fs path = Some content -> fs path' = Some content' ->
  lines content (a ++ b) -> lines content' (a ++ l :: b) ->
  ~ nodes_header l -> ~ elements_header l ->
  rdf_comment l \/ (forall x, In x a -> ~ nodes_header x /\ ~ elements_header x) ->
  load_rdf stod fs path' pose m = load_rdf stod fs path pose m.
Proof. intros K NK. exact rdf_ignored_line. Qed.
Print Assumptions C06_rdf_ignored_lines.

Theorem C06_obj_ignored_lines : forall {K : Type} {NK : Num K}
    (stod : text -> outcome K) (fs : text -> option text)
    path path' friction pose (m : mesh K) content content' a l b,
  ends_with path (txt ".obj") -> ends_with path' (txt ".obj") ->
  fs path = Some content -> fs path' = Some content' ->
  lines content (a ++ b) -> lines content' (a ++ l :: b) ->
  first_word l <> txt "v" -> first_word l <> txt "f" ->
  load_obj stod fs path' friction pose m = load_obj stod fs path friction pose m.
Proof. intros K NK. exact obj_ignored_line. Qed.
Print Assumptions C06_obj_ignored_lines.

Example C06_example : first_word [] <> txt "v" /\ first_word [] <> txt "f" /\
  In [] obj_lines /\ load_obj sread files (txt "a.obj") (fz 1) pose0 mesh_empty = Ok mesh1 true.
Proof. split; [discriminate|]. split; [discriminate|]. split; [cbn; tauto|exact load1_ok]. Qed.

(** ** C07: false of the code.  Loading into a loaded mesh always throws, and
    the failed load leaves extra triangles behind. *)
Theorem C07_all_or_nothing_refuted :
  exists m', load_rdf sread files (txt "a.rdf") pose0 mesh0 = Exn m' RuntimeError /\
    mesh_size mesh0 = 2 /\ mesh_size m' = 4.
Proof. eexists. split; [vm_compute; reflexivity|]. split; reflexivity. Qed.
Print Assumptions C07_all_or_nothing_refuted.

Theorem C07_second_load_never_succeeds : forall {K : Type} {NK : Num K}
    (stod : text -> outcome K) (fs : text -> option text) (m : mesh K),
  me_tris m <> [] -> ~ exists m', load_succeeds stod fs m m'.
Proof. intros K NK. exact second_load_fails. Qed.
Print Assumptions C07_second_load_never_succeeds.

(** What is true: the failed load does not change the answers to queries. *)
Theorem C07_failed_load_keeps_answers : forall {K : Type} {NK : Num K}
    (stod : text -> outcome K) (fs : text -> option text) (m m' : mesh K) q r,
  me_tris m <> [] -> loaded stod fs m m' ->
  mesh_intersection m q = Ret r -> mesh_intersection m' q = Ret r.
Proof. intros K NK. exact failed_load_answers. Qed.
Print Assumptions C07_failed_load_keeps_answers.

Example C07_example : exists m' r, loaded sread files mesh0 m' /\ m' <> mesh0 /\
  mesh_intersection mesh0 box0 = Ret r /\ length r = 2.
Proof.
  do 2 eexists. split.
  - eapply ld_rdf_exn with (path := txt "a.rdf") (pose := pose0). vm_compute. reflexivity.
  - split; [|split; [vm_compute; reflexivity|reflexivity]].
    intros H. apply (f_equal mesh_size) in H. vm_compute in H. discriminate.
Qed.

(** ** C08 *)
Theorem C08_ids_are_positions : forall {K : Type} {NK : Num K}
    (stod : text -> outcome K) (fs : text -> option text) (m m' : mesh K),
  load_succeeds stod fs m m' -> (Z.of_nat (mesh_size m') <= 2 ^ 31)%Z ->
  forall i t, nth_error (me_tris m') i = Some t ->
    tg_id t = Z.of_nat i /\ bid (tg_bbox t) = Z.of_nat i.
Proof. intros K NK. exact loaded_ids. Qed.
Print Assumptions C08_ids_are_positions.

Example C08_example : load_succeeds sread files mesh_empty mesh0 /\
  load_succeeds sread files mesh_empty mesh1 /\ mesh_size mesh0 = 2.
Proof.
  split; [left; exists (txt "a.rdf"), pose0; exact load0_ok|].
  split; [right; exists (txt "a.obj"), (fz 1), pose0; exact load1_ok|reflexivity].
Qed.

(** ** C09 *)
Theorem C09_tree_build : forall {K : Type} {NK : Num K} (boxes : list (aabb K)),
  exists t, build boxes = Ret t /\
    Permutation (leaves t) boxes /\
    (boxes = [] -> t = tempty) /\
    (boxes <> [] -> binary t /\ tsize t + 1 = 2 * length boxes).
Proof. intros K NK. exact build_spec. Qed.
Print Assumptions C09_tree_build.

Example C09_example : exists t, build (map tg_bbox nan_tris) = Ret t /\ tsize t = 3 /\
  tsize (me_tree mesh0) = 3.
Proof. eexists. split; [vm_compute; reflexivity|]. split; reflexivity. Qed.

(** ** C10 *)
Theorem C10_query_exact : forall {K : Type} {NK : Num K} {OK : OrdNum K}
    (stod : text -> outcome K) (fs : text -> option text) (m m' : mesh K) q,
  load_succeeds stod fs m m' -> (Z.of_nat (mesh_size m') <= 2 ^ 31)%Z ->
  Forall tri_num (me_tris m') -> proper_box q ->
  exists r, mesh_intersection m' q = Ret r /\
    exactly (fun t => overlap (tg_bbox t) q) (me_tris m') r /\
    (mesh_intersection_flag r = true <-> exists t, In t (me_tris m') /\ overlap (tg_bbox t) q).
Proof. intros K NK OK. exact loaded_query_exact. Qed.
Print Assumptions C10_query_exact.

Example C10_example : load_succeeds sread files mesh_empty mesh0 /\
  Forall tri_num (me_tris mesh0) /\ proper_box box0 /\
  exists r, mesh_intersection mesh0 box0 = Ret r /\ length r = 2.
Proof.
  split; [left; exists (txt "a.rdf"), pose0; exact load0_ok|].
  split; [vm_compute; repeat constructor|]. split; [repeat split|].
  eexists. split; [vm_compute; reflexivity|reflexivity].
Qed.

(** ** C11 *)
Theorem C11_query_order_independent : forall {K : Type} {NK : Num K} {OK : OrdNum K}
    (stod : text -> outcome K) (fs : text -> option text) (a m1 b m2 : mesh K) q,
  load_succeeds stod fs a m1 -> load_succeeds stod fs b m2 ->
  (Z.of_nat (mesh_size m1) <= 2 ^ 31)%Z -> Forall tri_num (me_tris m1) -> proper_box q ->
  Permutation (map content (me_tris m1)) (map content (me_tris m2)) ->
  exists r1 r2, mesh_intersection m1 q = Ret r1 /\ mesh_intersection m2 q = Ret r2 /\
    Permutation (map content r1) (map content r2).
Proof. intros K NK OK. exact loaded_query_perm. Qed.
Print Assumptions C11_query_order_independent.

(** ** C12 *)
Theorem C12_pairs_exact : forall {K : Type} {NK : Num K} {OK : OrdNum K} (A B : list (aabb K)),
  A <> [] -> B <> [] -> Forall proper_box A -> Forall proper_box B ->
  exists ta tb r, build A = Ret ta /\ build B = Ret tb /\ tree_intersection ta tb = Ret r /\
    exactly (fun p => overlap (fst p) (snd p)) (list_prod A B) r.
Proof. intros K NK OK. exact trees_pairs. Qed.
Print Assumptions C12_pairs_exact.

(** ** C13 *)
Theorem C13_collision_exact : forall {K : Type} {NK : Num K} {OK : OrdNum K}
    (A B : list (aabb K)) (f : aabb K -> aabb K -> bool),
  A <> [] -> B <> [] -> Forall proper_box A -> Forall proper_box B ->
  exists ta tb c, build A = Ret ta /\ build B = Ret tb /\ tree_collision f ta tb = Ret c /\
    (c = true <-> exists a b, In a A /\ In b B /\ overlap a b /\ f a b = true).
Proof. intros K NK OK. exact trees_collide. Qed.
Print Assumptions C13_collision_exact.

Example C11_C12_C13_example : Forall proper_box (map tg_bbox good_tris) /\
  exists t r, build (map tg_bbox good_tris) = Ret t /\ tree_intersection t t = Ret r /\ length r = 2 /\
    tree_collision (fun a b => negb (bid a =? bid b)%Z) t t = Ret false /\
    tree_collision (fun a b => (bid a =? 1)%Z) t t = Ret true.
Proof.
  split; [vm_compute; repeat constructor|]. do 2 eexists.
  split; [vm_compute; reflexivity|]. split; [vm_compute; reflexivity|].
  split; [reflexivity|]. split; vm_compute; reflexivity.
Qed.

(** ** C14: false of the code. *)
Theorem C14_nan_hides_refuted : exists m t,
  mesh_of_triangles nan_tris = Ret m /\ Forall made nan_tris /\
  In t nan_tris /\ tri_num t /\ proper_box box0 /\ overlap (tg_bbox t) box0 /\
  mesh_intersection m box0 = Ret [].
Proof.
  eexists. exists (tri_at 1 p00 p10 p01).
  split; [vm_compute; reflexivity|]. split.
  - apply made_samples.
  - split; [right; now left|]. split; [vm_compute; tauto|]. split; [vm_compute; tauto|].
    split; [exists p00; vm_compute; tauto|vm_compute; reflexivity].
Qed.
Print Assumptions C14_nan_hides_refuted.

(** The general form: NaN in the first coordinate of the first vertex of the
    first triangle empties every query. *)
Theorem C14_nan_first_hides_everything : forall {K : Type} {NK : Num K} {OK : OrdNum K}
    (t1 t2 : tground K) ts q m,
  sealed t1 -> ~ isnum (vx (tv0 (tg_tri t1))) ->
  mesh_of_triangles (t1 :: t2 :: ts) = Ret m -> mesh_intersection m q = Ret [].
Proof. intros K NK OK. exact nan_first_hides. Qed.
Print Assumptions C14_nan_first_hides_everything.

Example C14_example : exists t1 t2 m, nan_tris = [t1; t2] /\ sealed t1 /\ ~ isnum (vx (tv0 (tg_tri t1))) /\
  mesh_of_triangles nan_tris = Ret m.
Proof.
  do 3 eexists. split; [reflexivity|]. split; [vm_compute; tauto|]. split; [vm_compute; intuition discriminate|vm_compute; reflexivity].
Qed.

(** ** C15: false of the code for [copy], [clear] and the default
    constructor, whose tree is empty or stale. *)
Theorem C15_history_refuted :
  mesh_intersection (mesh_empty : mesh f64) box0 = UB /\
  mesh_intersection (mesh_copy mesh_empty mesh0) box0 = UB /\
  mesh_intersection (mesh_clear mesh0) box0 = UB /\
  exists small wrong, mesh_of_triangles [tri_at 0 (far p00) (far p10) (far p01)] = Ret small /\
    mesh_intersection (mesh_copy small mesh0) box0 = Ret wrong /\ wrong = [] /\
    exists t, In t (me_tris (mesh_copy small mesh0)) /\ overlap (tg_bbox t) box0.
Proof.
  split; [vm_compute; reflexivity|]. split; [vm_compute; reflexivity|].
  split; [vm_compute; reflexivity|].
  do 2 eexists. split; [vm_compute; reflexivity|]. split; [vm_compute; reflexivity|].
  split; [reflexivity|]. exists (ground_at 0 (fz 1) p00 p10 p01).
  split; [cbn [mesh_copy me_tris]; rewrite mesh0_tris; now left|].
  exists p00. vm_compute. tauto.
Qed.
Print Assumptions C15_history_refuted.

(** After any history of loads with a successful one, whatever fails later,
    every query (NaN boxes included) is defined and answers from the mesh. *)
Theorem C15_load_histories : forall {K : Type} {NK : Num K}
    (stod : text -> outcome K) (fs : text -> option text) (m0 m1 m2 m3 : mesh K),
  many_loads stod fs m0 m1 -> load_succeeds stod fs m1 m2 -> many_loads stod fs m2 m3 ->
  (Z.of_nat (mesh_size m2) <= 2 ^ 31)%Z -> forall q, exists r,
    mesh_intersection m3 q = Ret r /\ mesh_intersection m2 q = Ret r /\
    Forall (fun t => In t (me_tris m3)) r.
Proof. intros K NK. exact history_query. Qed.
Print Assumptions C15_load_histories.

Theorem C15_empty_tree_undefined : forall {K : Type} {NK : Num K} (m : mesh K) q,
  me_tree m = tempty -> mesh_intersection m q = UB.
Proof. intros K NK. exact empty_tree_query. Qed.
Print Assumptions C15_empty_tree_undefined.

Example C15_example : many_loads sread files mesh_empty mesh_empty /\
  load_succeeds sread files mesh_empty mesh0 /\
  exists m3, many_loads sread files mesh0 m3 /\ mesh_size m3 = 4.
Proof.
  split; [apply ml_done|]. split; [left; exists (txt "a.rdf"), pose0; exact load0_ok|].
  eexists. split.
  - eapply ml_more; [eapply ld_rdf_exn with (path := txt "a.rdf") (pose := pose0); vm_compute; reflexivity|apply ml_done].
  - reflexivity.
Qed.

(** ** C16: false of the code when identifiers are not the positions. *)
Theorem C16_vector_ids_refuted : exists m t wrong,
  mesh_of_triangles dup_tris = Ret m /\ Forall made dup_tris /\
  mesh_intersection m box0 = Ret [wrong] /\
  In t dup_tris /\ overlap (tg_bbox t) box0 /\ t <> wrong /\ ~ overlap (tg_bbox wrong) box0.
Proof.
  eexists. exists (tri_at 1 p00 p10 p01), far_tri.
  split; [vm_compute; reflexivity|]. split; [apply made_samples|].
  split; [vm_compute; reflexivity|]. split; [now left|].
  split; [exists p00; vm_compute; tauto|]. split.
  - exact far_other.
  - intros H. apply (intersects_overlap _ _ (proj1 far_proper) (proj2 far_proper)) in H.
    rewrite far_away in H. discriminate.
Qed.
Print Assumptions C16_vector_ids_refuted.

Theorem C16_vector_with_position_ids : forall {K : Type} {NK : Num K} {OK : OrdNum K}
    (ts : list (tground K)) m q,
  mesh_of_triangles ts = Ret m -> ts <> [] -> Forall made ts -> Forall tri_num ts -> proper_box q ->
  (forall i t, nth_error ts i = Some t -> tg_id t = Z.of_nat i) ->
  exists r, mesh_intersection m q = Ret r /\ exactly (fun t => overlap (tg_bbox t) q) ts r.
Proof. intros K NK OK. exact vector_query_exact. Qed.
Print Assumptions C16_vector_with_position_ids.

Example C16_example : exists m r, mesh_of_triangles good_tris = Ret m /\ Forall made good_tris /\
  Forall tri_num good_tris /\ (forall i t, nth_error good_tris i = Some t -> tg_id t = Z.of_nat i) /\
  mesh_intersection m box0 = Ret r /\ length r = 1.
Proof.
  do 2 eexists. split; [vm_compute; reflexivity|].
  split; [apply made_samples|].
  split; [vm_compute; repeat constructor|]. split; [|split; [vm_compute; reflexivity|reflexivity]].
  intros [|[|i]] t H; inversion H; try reflexivity. destruct i; discriminate.
Qed.

(** ** C17 *)
Theorem C17_triangle_bbox : forall {K : Type} {NK : Num K} {OK : OrdNum K} id f p q r (t : tground K),
  mk_tground id f p q r = Ret t ->
  tight (tg_bbox t) p q r /\ bid (tg_bbox t) = id /\
  (vnum p -> vnum q -> vnum r -> encloses (tg_bbox t) p q r).
Proof. intros K NK OK. exact triangle_bbox. Qed.
Print Assumptions C17_triangle_bbox.

Example C17_example : mk_tground 7 (fz 0) p10 p11 p01 = Ret (tri_at 7 p10 p11 p01) /\
  bmax (tg_bbox (tri_at 7 p10 p11 p01)) = p11.
Proof. split; vm_compute; reflexivity. Qed.
