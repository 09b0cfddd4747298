(** * C129: the contact point of the wheel is in the wheel. *)
From Coq Require Import ZArith Bool Reals Lra String List.
From Verif Require Import Base Num Vec Geom Ground Shape Rib Mesh Shell ER SpecGeom SpecRib SpecShape SpecShell SpecPose SpecAvg SpecFrame SpecRoof.
From Verif Require Import ProofTerrain ProofInside SamplePose SpecPaved SamplePaved SampleTerrainFloor SampleLight.
From Verif Require F64 SampleShell SampleTerrain SpecMesh.
Import ListNotations.
Local Open Scope R_scope.

(** On flat ground the wheel reports a point within its radius of the part of
    the axle it covers, with or without contact. *)
Theorem C129_flat : forall gb sp s gp f a m s' b, real_shell sp s -> rigid a -> is_unit (pnormal gp) -> valid_method m ->
  setup_flat gb s (fflat gp f) (fa a) m = Ok s' b ->
  exists p y, contact_point s' = Ret (fv p) /\ Rabs y <= sLy sp /\ dist p (place a (V 0 y 0)) <= sRx sp.
Proof.
  intros gb sp s gp f a m s' b H H0 H1 H2 H3. destruct (flat_inside gb sp s gp f a m s' b H H0 H1 H2 H3) as (p & P & y & Y & D). eauto 6.
Qed.
Print Assumptions C129_flat.

(** On a mesh as well, when no rib reports an undefined friction. *)
Theorem C129_mesh : forall gb sp s m ts a meth s' b, real_shell sp s -> rigid a -> grounds ts (me_tris m) ->
  valid_method meth -> setup_mesh gb s m (fa a) meth = Ok s' b ->
  (forall i, (i < sh_size s')%nat -> contact_friction_i s' i <> Ret Nan) ->
  exists p y, contact_point s' = Ret (fv p) /\ Rabs y <= sLy sp /\ dist p (place a (V 0 y 0)) <= sRx sp.
Proof.
  intros gb sp s m ts a meth s' b H H0 H1 H2 H3 H4. destruct (some_range ts) as (lo & hi & R).
  destruct (mesh_point gb sp s m ts lo hi a meth s' b H H0 H1 R H2 H3 H4) as (p & P & y & Y & D). eauto 6.
Qed.
Print Assumptions C129_mesh.

(** With the sampling method always. *)
Theorem C129_sampling : forall gb sp s m ts a s' b, real_shell sp s -> rigid a -> grounds ts (me_tris m) ->
  setup_mesh gb s m (fa a) "sampling" = Ok s' b ->
  exists p y, contact_point s' = Ret (fv p) /\ Rabs y <= sLy sp /\ dist p (place a (V 0 y 0)) <= sRx sp.
Proof.
  intros gb sp s m ts a s' b H H0 H1 H2. destruct (some_range ts) as (lo & hi & R).
  apply (C129_mesh gb sp s m ts a "sampling" s' b H H0 H1 (or_intror eq_refl) H2).
  exact (sampling_no_nan gb sp s m ts lo hi a s' b H H0 H1 R H2).
Qed.
Print Assumptions C129_sampling.

(** With the geometric method a step edge below the axle of one rib leaves the
    whole wheel without a contact point. *)
Section Double.
  Import F64 SampleShell SampleTerrain SpecMesh.
  Theorem C129_refuted : exists ts m s', mesh_of_triangles ts = Ret m /\
    wheel 2 (fz 1) = Ret wheel2 /\ setup_mesh gb0 wheel2 m aid "geometric" = Ok s' true /\
    contact_point s' = Ret (V SpecFloat.S754_nan SpecFloat.S754_nan SpecFloat.S754_nan).
  Proof.
    exists edge_tris, edge_mesh, edge_shell. split; [exact edge_ok|]. split; [exact wheel2_ok|].
    split; [exact (proj1 edge_facts)|]. vm_compute. reflexivity.
  Qed.
  Print Assumptions C129_refuted.
End Double.

(** A wheel of three ribs with its axle on level ground, and a wheel on a floor
    of two triangles. *)
Example C129_example :
  (rigid upright /\ is_unit (pnormal (ground_below 0)) /\ forall gb, exists s s' b, real_shell round_tire s /\
     setup_flat gb s (fflat (ground_below 0) (3 / 4)) (fa upright) "geometric" = Ok s' b) /\
  exists m s, grounds floor_tris (me_tris m) /\ real_shell round_tire s /\ rigid on_floor /\
    forall gb, exists s' b, setup_mesh gb s m (fa on_floor) "sampling" = Ok s' b.
Proof.
  split.
  - split; [exact upright_rigid|]. split; [apply below_unit|]. intros gb. destruct (loaded gb) as (s & s' & b & v & A & B & _). eauto.
  - destruct floor_heavy as (m & s & A & B & C & D). exists m, s. split; [exact A|]. split; [exact B|]. split; [exact C|].
    intros gb. destruct (D gb) as (s' & b & v & E & _). eauto.
Qed.
