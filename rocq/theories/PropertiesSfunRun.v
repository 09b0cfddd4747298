(** * C114: runs of the S-function. *)
From Coq Require Import ZArith Bool Lia String List Floats.SpecFloat.
From Verif Require Import Base Num Vec Aabb Tree Geom Ground Shape Rib Str Mesh Shell Sfun SfunRun F64.
From Verif Require Import SpecLoad SpecMesh SpecShell SpecSfunRun ProofSfunRun ProofMeshFacts SampleShell.
From Verif Require SampleMesh.
Import ListNotations.

(** An initialisation succeeds exactly when the file named by the environment
    loads (friction 1 for the OBJ format, no displacement), and the plane at
    the given height and the wheel can be built; these are then in force. *)
Theorem C114_started : forall {K : Type} {NK : Num K} stod fs p (w : memory K) m g s,
  (exists w', run_init stod fs p w = Ok w' tt /\ in_force w' m g s) <->
  ((exists path, pr_path p = Some path /\
     ((ends_with path (txt ".rdf") /\ load_rdf stod fs path aident mesh_empty = Ok m true) \/
      (ends_with path (txt ".obj") /\ load_obj stod fs path (nofZ 1) aident mesh_empty = Ok m true))) /\
   mk_flat (pr_friction p) (V (nofZ 0) (nofZ 0) (pr_height p)) (V (nofZ 0) (nofZ 0) (nofZ 1)) = Ret g /\
   mk_shell (pr_size p) (pr_rx p) (pr_mx p) (pr_ry p) (pr_my p) (pr_ly p) = Ret s).
Proof. intros K NK. exact started_iff. Qed.
Print Assumptions C114_started.

(** With an RDF file: the mesh in force has exactly the faces written in it. *)
Theorem C114_started_rdf : forall {K : Type} {NK : Num K} stod fs p (w : memory K)
    path node_lines element_lines nodes elements faces g s,
  pr_path p = Some path -> ends_with path (txt ".rdf") ->
  fs path = Some (file_of (txt "[NODES]" :: node_lines ++ txt "[ELEMENTS]" :: element_lines)) ->
  block (node_written stod) node_lines nodes ->
  block (element_written stod) element_lines elements ->
  Forall2 (face_of aident nodes) elements faces ->
  Forall (fun t : face => nle (nofZ 0) (snd t) = true) faces ->
  faces <> [] -> (Z.of_nat (length faces) <= 2 ^ 31)%Z ->
  mk_flat (pr_friction p) (V (nofZ 0) (nofZ 0) (pr_height p)) (V (nofZ 0) (nofZ 0) (nofZ 1)) = Ret g ->
  mk_shell (pr_size p) (pr_rx p) (pr_mx p) (pr_ry p) (pr_my p) (pr_ly p) = Ret s ->
  exists w' m, run_init stod fs p w = Ok w' tt /\ in_force w' m g s /\ describes m faces.
Proof. intros K NK. exact started_rdf. Qed.
Print Assumptions C114_started_rdf.

(** An initialisation that throws leaves in force what was. *)
Theorem C114_failed_start : forall {K : Type} {NK : Num K} stod fs p (w w' : memory K) e m g s,
  run_init stod fs p w = Exn w' e ->
  mm_globals w' = mm_globals w /\ (in_force w m g s -> in_force w' m g s).
Proof. intros K NK. exact failed_start. Qed.
Print Assumptions C114_failed_start.

(** Whatever happened before the last completed initialisation and since
    (outputs that returned or threw, terminations, initialisations that
    threw), an output call gives what it gives right after the same
    initialisation in a new process.  The uninitialised temporaries do not
    matter either. *)
Theorem C114_session : forall {K : Type} {NK : Num K} stod fs gb1 gb2 gb3 gb4 hub method flat_enable p
    (w0 w1 w2 w3 : memory K),
  run_init stod fs p w0 = Ok w1 tt -> quiet stod fs w1 w2 -> run_init stod fs p memory0 = Ok w3 tt ->
  same_reply (run_out gb1 gb2 hub method flat_enable w2) (run_out gb3 gb4 hub method flat_enable w3).
Proof. intros K NK. exact session. Qed.
Print Assumptions C114_session.
(** The new process can be initialised. *)
Theorem C114_start_anywhere : forall {K : Type} {NK : Num K} stod fs p (w w' v : memory K),
  run_init stod fs p w = Ok w' tt -> exists v', run_init stod fs p v = Ok v' tt.
Proof. intros K NK stod fs p w w' v H. exact (init_anywhere stod fs p w w' H v). Qed.
Print Assumptions C114_start_anywhere.

(** An output call is an output of the objects in force, and stores only in
    the wheel in force. *)
Theorem C114_output : forall {K : Type} {NK : Num K} gb1 gb2 hub method flat_enable (w : memory K) m g s,
  in_force w m g s ->
  match sfun_out gb1 gb2 m g s hub method flat_enable with
  | Ok s' b => exists w', run_out gb1 gb2 hub method flat_enable w = Ok w' b /\ in_force w' m g s' /\ same_but_wheel w w'
  | Exn s' e => exists w', run_out gb1 gb2 hub method flat_enable w = Exn w' e /\ in_force w' m g s' /\ same_but_wheel w w'
  | Undef => run_out gb1 gb2 hub method flat_enable w = Undef
  end.
Proof. intros K NK. exact output_spec. Qed.
Print Assumptions C114_output.

(** Before any initialisation completes, an output is undefined behaviour,
    and at any time either nothing is in force or a mesh, a plane and a wheel
    are. *)
Theorem C114_not_started : forall {K : Type} {NK : Num K} stod fs gb1 gb2 hub method flat_enable (w : memory K),
  quiet stod fs memory0 w -> run_out gb1 gb2 hub method flat_enable w = Undef.
Proof. intros K NK. exact out_null. Qed.
Print Assumptions C114_not_started.
Theorem C114_in_force : forall {K : Type} {NK : Num K} stod fs (w : memory K), running stod fs w ->
  mm_globals w = None \/ exists m g s, in_force w m g s /\ reach s.
Proof. intros K NK. exact start_or_null. Qed.
Print Assumptions C114_in_force.

(** Nothing is ever freed: every completed initialisation adds three objects,
    one that throws adds up to two, the other calls add and free none. *)
Theorem C114_never_freed : forall {K : Type} {NK : Num K} stod fs (w : memory K),
  (forall p w', run_init stod fs p w = Ok w' tt -> objects w' = objects w + 3) /\
  (forall p w' e, run_init stod fs p w = Exn w' e -> objects w <= objects w' <= objects w + 2) /\
  (forall gb1 gb2 hub me fe w', run_call stod fs w (COut gb1 gb2 hub me fe) = Some w' -> objects w' = objects w) /\
  (forall w', run_call stod fs w CEnd = Some w' -> w' = w).
Proof. intros K NK. exact never_freed. Qed.
Print Assumptions C114_never_freed.
(** An initialisation with a good file and plane and no rib leaves both
    behind. *)
Theorem C114_failed_start_leaks : forall {K : Type} {NK : Num K} stod fs p (w : memory K) path m g,
  pr_path p = Some path -> ends_with path (txt ".rdf") -> load_rdf stod fs path aident mesh_empty = Ok m true ->
  mk_flat (pr_friction p) (V (nofZ 0) (nofZ 0) (pr_height p)) (V (nofZ 0) (nofZ 0) (nofZ 1)) = Ret g ->
  pr_size p = 0 ->
  exists w' e, run_init stod fs p w = Exn w' e /\ objects w' = objects w + 2.
Proof. intros K NK. exact failed_start_leaks. Qed.
Print Assumptions C114_failed_start_leaks.

(** ** Witnesses: a block with a one-rib wheel and one with a two-rib wheel,
    on the ground of a file. *)
Definition block_params (n : nat) : params f64 :=
  Params (Some (txt "a.rdf")) n (fz 1) (fz 1) (fz 2) (fz 1) (fz 1) (fz 0) (f_of 1 (-1)).
Definition start (n : nat) (w : memory f64) := run_init SampleMesh.sread SampleMesh.files (block_params n) w.
Definition hub1 (k : nat) : f64 := nth k [fz 1; fz 0; fz 0; fz 0; fz 0; fz 1; fz 0; fz 0; fz 0; fz 0; fz 1; fz 0; fz 0; fz 0; fz 0; fz 1] (fz 0).
Definition output (w : memory f64) := run_out gb0 gb0 hub1 (fz 1) (fz 1) w.
Definition depth_of (r : result (memory f64) (bus f64)) (i : nat) : option f64 :=
  match r with Ok _ b => nth_error (bu_ribs_rho b) i | _ => None end.

(** What a block gets depends on the other blocks: the block with one rib,
    then initialised a block with two, receives two ribs. *)
Theorem C114_two_blocks_refuted : exists w1 w2,
  start 1 memory0 = Ok w1 tt /\ start 2 w1 = Ok w2 tt /\
  depth_of (output w1) 1 = Some S754_nan /\ depth_of (output w2) 1 <> Some S754_nan /\
  depth_of (output w2) 1 <> None.
Proof.
  exists (after memory0 (start 1 memory0)), (after memory0 (start 2 (after memory0 (start 1 memory0)))).
  split; [vm_compute; reflexivity|]. split; [vm_compute; reflexivity|].
  split; [vm_compute; reflexivity|]. split; vm_compute; discriminate.
Qed.
Print Assumptions C114_two_blocks_refuted.

(** The hypotheses of [C114_session] and of the others, met: a history with a
    failing initialisation, an output and a termination. *)
Definition w_one : memory f64 := after memory0 (start 1 memory0).
Definition w_two : memory f64 := after memory0 (start 2 w_one).
Definition w_bad : memory f64 := after memory0 (start 0 w_two).
Definition w_out : memory f64 := after memory0 (output w_bad).
Example C114_example : start 2 w_one = Ok w_two tt /\ quiet SampleMesh.sread SampleMesh.files w_two w_out /\
  objects w_out = 8 /\ (exists m g s, in_force w_out m g s) /\
  exists w3, start 2 memory0 = Ok w3 tt /\ same_reply (output w_out) (output w3).
Proof.
  assert (S2 : start 2 w_one = Ok w_two tt) by (vm_compute; reflexivity).
  assert (SB : exists e, start 0 w_two = Exn w_bad e) by (eexists; vm_compute; reflexivity).
  assert (Q : quiet SampleMesh.sread SampleMesh.files w_two w_out).
  { destruct SB as [e SB]. eapply (q_call _ _ _ (CInit (block_params 0)) w_bad).
    - cbn [no_new_start]. intros w' H. unfold start in SB. rewrite SB in H. discriminate.
    - cbn [run_call]. unfold start in SB. rewrite SB. reflexivity.
    - eapply (q_call _ _ _ (COut gb0 gb0 hub1 (fz 1) (fz 1)) w_out); [exact I|vm_compute; reflexivity|].
      eapply (q_call _ _ _ CEnd w_out); [exact I|reflexivity|apply q_nil]. }
  split; [exact S2|]. split; [exact Q|]. split; [vm_compute; reflexivity|]. split.
  - assert (R : running SampleMesh.sread SampleMesh.files w_out).
    { exists [CInit (block_params 1); CInit (block_params 2); CInit (block_params 0); COut gb0 gb0 hub1 (fz 1) (fz 1)].
      vm_compute. reflexivity. }
    destruct (C114_in_force _ _ _ R) as [N|(m & g & s & F & _)]; [vm_compute in N; discriminate|]. eauto.
  - exists (after memory0 (start 2 memory0)).
    assert (S3 : start 2 memory0 = Ok (after memory0 (start 2 memory0)) tt) by (vm_compute; reflexivity).
    split; [exact S3|]. exact (C114_session _ _ _ _ _ _ _ _ _ _ _ _ _ _ S2 Q S3).
Qed.
Example C114_example_rdf : exists w' m, start 2 memory0 = Ok w' tt /\
  in_force w' m level wheel2 /\ describes m SampleMesh.faces0.
Proof.
  eapply (C114_started_rdf SampleMesh.sread SampleMesh.files (block_params 2) memory0 (txt "a.rdf")
    SampleMesh.nodes_part SampleMesh.elements_part SampleMesh.nodes0 SampleMesh.elements0).
  - reflexivity.
  - now exists (txt "a").
  - reflexivity.
  - exact SampleMesh.nodes_block0.
  - exact SampleMesh.elements_block0.
  - exact SampleMesh.faces_of0.
  - exact SampleMesh.frictions0.
  - discriminate.
  - cbn. lia.
  - vm_compute. reflexivity.
  - vm_compute. reflexivity.
Qed.
