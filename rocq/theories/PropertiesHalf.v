(** * C132: the volume the wheel hides is at most half of its cylinder. *)
From Coq Require Import ZArith Bool Reals Lra String List.
From Verif Require Import Base Num Vec Geom Ground Shape Rib Mesh Shell ER SpecGeom SpecRib SpecShape SpecShell SpecPose SpecAvg SpecFrame SpecRoof.
From Verif Require Import ProofHalf SamplePose SpecPaved SamplePaved SampleTerrainFloor SampleLight.
From Verif Require SampleMeshGeo SampleChord SampleStack.
Import ListNotations.
Local Open Scope R_scope.

(** The cylinder of the largest radius and the full width [2 * sLy]. *)
Definition cylinder (sp : shape R) : R := PI * (sRx sp * sRx sp) * (2 * sLy sp).

Theorem C132_flat : forall gb sp s gp f a m s' b, real_shell sp s -> rigid a -> is_unit (pnormal gp) -> valid_method m ->
  setup_flat gb s (fflat gp f) (fa a) m = Ok s' b ->
  exists v, contact_volume s' = Ret (Fin v) /\ 0 <= v <= cylinder sp / 2.
Proof.
  intros gb sp s gp f a m s' b H H0 H1 H2 H3. destruct (flat_half gb sp s gp f a m s' b H H0 H1 H2 H3) as (v & V & B).
  exists v. split; [exact V|]. unfold cylinder. lra.
Qed.
Print Assumptions C132_flat.

Theorem C132_mesh : forall gb sp s m ts a s' b, real_shell sp s -> rigid a -> grounds ts (me_tris m) ->
  setup_mesh gb s m (fa a) "sampling" = Ok s' b ->
  exists v, contact_volume s' = Ret (Fin v) /\ 0 <= v <= cylinder sp / 2.
Proof.
  intros gb sp s m ts a s' b H H0 H1 H2. destruct (mesh_half gb sp s m ts a s' b H H0 H1 H2) as (v & V & B).
  exists v. split; [exact V|]. unfold cylinder. lra.
Qed.
Print Assumptions C132_mesh.

(** The geometric method counts a triangle as often as the mesh holds it: a rib
    of radius 1 and width 1 reports any volume on copies of one triangle. *)
Theorem C132_geometric_refuted : exists r a, good_rib r /\ rb_radius r = 1 /\ rb_width r = 1 /\ rigid a /\
  forall k, exists t g n v, ground_of t (1 / 2) g /\
    forall gb, exists o, envelop gb (frib r) (repeat g n) (fa a) "geometric" = Ret (true, o) /\ o_volume o = Fin v /\ k < v.
Proof.
  exists SampleChord.wide, SampleMeshGeo.stand. split; [exact SampleChord.wide_good|]. split; [reflexivity|]. split; [reflexivity|].
  split; [apply SampleMeshGeo.stand_rigid|]. intros k. destruct (SampleStack.stacked_unbounded k) as (g & n & o & G & E & V).
  exists SampleMeshGeo.road, g, n, (o_volume o). split; [exact G|]. intros [[[g0 g1] g2] g3]. exists (fout o). split; [exact E|]. split; [reflexivity|exact V].
Qed.
Print Assumptions C132_geometric_refuted.

(** A wheel of three ribs with its axle on level ground, and a wheel half a
    radius deep in a floor of two triangles, which hides a positive volume. *)
Example C132_example :
  (rigid upright /\ is_unit (pnormal (ground_below 0)) /\ forall gb, exists s s' b, real_shell round_tire s /\
     setup_flat gb s (fflat (ground_below 0) (3 / 4)) (fa upright) "geometric" = Ok s' b) /\
  exists m s, grounds floor_tris (me_tris m) /\ real_shell round_tire s /\ rigid on_floor /\
    forall gb, exists s' b v, setup_mesh gb s m (fa on_floor) "sampling" = Ok s' b /\ contact_volume s' = Ret (Fin v) /\ 0 < v.
Proof.
  split.
  - split; [exact upright_rigid|]. split; [apply below_unit|]. intros gb. destruct (loaded gb) as (s & s' & b & v & A & B & _). eauto.
  - destruct floor_heavy as (m & s & A & B & C & D). exists m, s. split; [exact A|]. split; [exact B|]. split; [exact C|].
    intros gb. destruct (D gb) as (s' & b & v & E & V & P). exists s', b, v. split; [exact E|]. split; [exact V|]. unfold eps in P. lra.
Qed.
