(** * C119: flat ground modelled by triangles, sampling method. *)
From Coq Require Import ZArith Bool Reals Lra Lia String List.
From Verif Require Import Base Num Vec Aabb Geom Ground Shape Rib Str Mesh Shell ER SpecGeom SpecRib SpecShape SpecShell SpecResults ProofResults SpecPose SpecAvg SpecFrame SpecRoof.
From Verif Require Import SpecTree SpecLoad SpecMesh ProofGeom SpecSmooth SpecPaved ProofPaved SamplePose SamplePaved.
Import ListNotations.
Local Open Scope R_scope.

(** Whatever the triangles leave out, a contact with them is the contact with
    the plane they lie in. *)
Theorem C119_contact : forall gb gb' r a gp f ts gs o, rigid a -> grounds ts gs -> paved gp f ts -> eps < Rabs (vz (pnormal gp)) ->
  envelop gb (frib r) gs (fa a) "sampling" = Ret (true, o) ->
  envelop_flat gb' (frib r) (fflat gp f) (fa a) "sampling" = Ret (true, o).
Proof. exact paved_contact. Qed.
Print Assumptions C119_contact.

(** Where the triangles are under the four probes, the two grounds give the
    same answer. *)
Theorem C119_same : forall gb gb' r a gp f ts gs, grounds ts gs -> paved gp f ts -> eps < Rabs (vz (pnormal gp)) ->
  (forall q, In q (probes r a) -> exists p, ground_at ts q p) ->
  envelop gb (frib r) gs (fa a) "sampling" = envelop_flat gb' (frib r) (fflat gp f) (fa a) "sampling".
Proof. exact paved_same. Qed.
Print Assumptions C119_same.

(** So it does not matter how the ground is cut. *)
Theorem C119_cut : forall gb gb' r a gp f ts gs ts' gs', grounds ts gs -> grounds ts' gs' -> paved gp f ts -> paved gp f ts' ->
  eps < Rabs (vz (pnormal gp)) ->
  (forall q, In q (probes r a) -> (exists p, ground_at ts q p) /\ exists p, ground_at ts' q p) ->
  envelop gb (frib r) gs (fa a) "sampling" = envelop gb' (frib r) gs' (fa a) "sampling".
Proof.
  intros gb gb' r a gp f ts gs ts' gs' G G' P P' N H.
  rewrite (C119_same gb gb r a gp f ts gs G P N) by (intros q Q; apply H, Q).
  symmetry. apply (C119_same gb' gb r a gp f ts' gs' G' P' N). intros q Q; apply H, Q.
Qed.
Print Assumptions C119_cut.

(** The wheel: every rib in contact with a loaded mesh reports what it reports
    on the plane. *)
Theorem C119_wheel_contact : forall stod fs m0 m ts gp f sp s a gb gb' s1 s2 b b',
  load_succeeds stod fs m0 m -> (Z.of_nat (mesh_size m) <= 2 ^ 31)%Z -> grounds ts (me_tris m) -> paved gp f ts ->
  eps < Rabs (vz (pnormal gp)) -> real_shell sp s -> rigid a ->
  setup_mesh gb s m (fa a) "sampling" = Ok s1 b -> setup_flat gb' s (fflat gp f) (fa a) "sampling" = Ok s2 b' ->
  forall j r o d, has_rib s j r -> out_at s1 j = Ret o -> o_depth o = Fin d -> 0 < d -> out_at s2 j = Ret o.
Proof. exact wheel_contact. Qed.
Print Assumptions C119_wheel_contact.

(** Every rib over ground near the wheel reports the same, contact or not. *)
Theorem C119_wheel_same : forall stod fs m0 m ts gp f sp s a gb gb' s1 s2 b b',
  load_succeeds stod fs m0 m -> (Z.of_nat (mesh_size m) <= 2 ^ 31)%Z -> grounds ts (me_tris m) -> paved gp f ts ->
  eps < Rabs (vz (pnormal gp)) -> real_shell sp s -> rigid a ->
  setup_mesh gb s m (fa a) "sampling" = Ok s1 b -> setup_flat gb' s (fflat gp f) (fa a) "sampling" = Ok s2 b' ->
  forall j r, has_rib s j r ->
  (forall q, In q (probes r a) -> exists p, ground_at ts q p /\ in_box (fv p) (sh_bbox s1)) ->
  exists o, out_at s1 j = Ret o /\ out_at s2 j = Ret o.
Proof. intros until 9. intros j r HR Q. eapply wheel_same; eauto. Qed.
Print Assumptions C119_wheel_same.

(** On level ground, and with a wheel inside its bounding sphere, ground under
    every probe is enough: all contact data are the same. *)
Theorem C119_level : forall stod fs m0 m ts gp f sp s a gb gb' s1 s2 b b',
  load_succeeds stod fs m0 m -> (Z.of_nat (mesh_size m) <= 2 ^ 31)%Z -> grounds ts (me_tris m) -> paved gp f ts ->
  pnormal gp = V 0 0 1 -> real_shell sp s -> sMx sp <= 2 -> sMy sp <= 2 -> sRy sp <= sRx sp -> rigid a ->
  (forall j r q, has_rib s j r -> In q (probes r a) -> exists p, ground_at ts q p) ->
  setup_mesh gb s m (fa a) "sampling" = Ok s1 b -> setup_flat gb' s (fflat gp f) (fa a) "sampling" = Ok s2 b' ->
  exists os, rib_results s1 os /\ rib_results s2 os /\ List.length os = sh_size s.
Proof.
  intros until 13. edestruct level_wheel as (os & A & B & C); eauto.
  exists os. split; [now apply outs_results|]. split; [now apply outs_results|exact C].
Qed.
Print Assumptions C119_level.

(** A square floor of two triangles, read from a file, and a wheel on it. *)
Example C119_example : paved level 1 floor_tris /\ exists m s, load_succeeds eread floor_files mesh_empty m /\ mesh_size m = 2%nat /\
  grounds floor_tris (me_tris m) /\
  real_shell round_tire s /\ rigid on_floor /\ (forall j r q, has_rib s j r -> In q (probes r on_floor) -> exists p, ground_at floor_tris q p) /\
  forall gb gb', exists s1 b s2 b', setup_mesh gb s m (fa on_floor) "sampling" = Ok s1 b /\
    setup_flat gb' s (fflat level 1) (fa on_floor) "sampling" = Ok s2 b'.
Proof. split; [exact floor_paved|exact floor_wheel]. Qed.
Example C119_example_contact : forall gb s s2 b, real_shell round_tire s -> has_rib s 0 mid_rib ->
  setup_flat gb s (fflat level 1) (fa on_floor) "sampling" = Ok s2 b -> exists o, out_at s2 0 = Ret o /\ o_depth o = Fin (1 / 2).
Proof. exact floor_contact. Qed.
