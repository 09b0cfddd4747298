(** * C134: a wheel clear of the ground reports no contact. *)
From Coq Require Import ZArith Bool Reals Lra Lia String List.
From Verif Require Import Base Num Vec Geom Ground Shape Rib Mesh Shell ER SpecGeom SpecRib SpecShape SpecShell SpecPose SpecAvg SpecSmooth SpecFrame SpecRoof SpecMesh SpecLoad SpecAbove.
From Verif Require Import ProofAvg ProofSetupOk ProofAbove SamplePose SpecPaved SamplePaved SampleLight.
Import ListNotations.
Local Open Scope R_scope.

(** A mesh with vertices between the heights [lo] and [hi], a wheel with its
    axle more than the radius above it: no contact and no volume, whatever the
    method. *)
Theorem C134_mesh : forall gb sp s m ts lo hi a meth s' b, real_shell sp s -> rigid a -> grounds ts (me_tris m) -> valid_method meth ->
  (forall t f, In (t, f) ts -> within lo hi t) ->
  (forall y, Rabs y <= sLy sp -> top_of lo hi + sRx sp < vz (place a (V 0 y 0))) ->
  setup_mesh gb s m (fa a) meth = Ok s' b ->
  b = false /\ contact_volume s' = Ret (Fin 0) /\ contact_friction s' = Ret (Fin 0) /\ contact_depth s' = Ret (Fin 0).
Proof.
  intros gb sp s m ts lo hi a meth s' b RS HA GR HM W HC E.
  pose proof (wheel_above gb sp s m ts lo hi a meth s' b RS HA GR HM W HC E) as ->. split; [reflexivity|].
  apply (no_contact_totals gb s m (fa a) meth s'); [apply RS|exact E].
Qed.
Print Assumptions C134_mesh.

(** Flat ground that the axle does not approach to less than the radius, from
    either side. *)
Theorem C134_flat : forall gb sp s gp f a m s' b, real_shell sp s -> rigid a -> is_unit (pnormal gp) -> valid_method m ->
  (forall y, Rabs y <= sLy sp -> sRx sp <= Rabs (pdot (psub (place a (V 0 y 0)) (porigin gp)) (pnormal gp))) ->
  setup_flat gb s (fflat gp f) (fa a) m = Ok s' b ->
  b = false /\ forall i, (i < sh_size s')%nat -> exists r, rib_at s' i = Ret r /\ exists o, out_at s' i = Ret o /\ no_contact r (fa a) o.
Proof. exact wheel_clear. Qed.
Print Assumptions C134_flat.

(** A wheel of radius 1 with its axle 5/4 over the floor, a mesh or a plane. *)
Example C134_example :
  let a := moved_by (V 4 2 (5 / 4)) upright in rigid a /\
  (exists m s, grounds floor_tris (me_tris m) /\ mesh_size m = 2%nat /\ real_shell round_tire s /\
    (forall t f, In (t, f) floor_tris -> within 0 0 t) /\
    (forall y, Rabs y <= sLy round_tire -> top_of 0 0 + sRx round_tire < vz (place a (V 0 y 0))) /\
    forall gb, exists s' b, setup_mesh gb s m (fa a) "sampling" = Ok s' b) /\
  (exists s, real_shell round_tire s /\ is_unit (pnormal level) /\
    (forall y, Rabs y <= sLy round_tire -> sRx round_tire <= Rabs (pdot (psub (place a (V 0 y 0)) (porigin level)) (pnormal level))) /\
    forall gb m, valid_method m -> exists s' b, setup_flat gb s (fflat level 1) (fa a) m = Ok s' b).
Proof.
  intros a. destruct one_slice as (s & RS & S1 & _).
  assert (Z : forall y, vz (place a (V 0 y 0)) = 5 / 4) by (intros y; unfold a, moved_by, upright, place, papply, padd; cbn; lra).
  split; [exact upright_rigid|]. split.
  - destruct floor_mesh as (m & LD & SZ & GR). exists m, s. split; [exact GR|]. split; [exact SZ|]. split; [exact RS|]. split; [|split].
    + intros t f [H|[H|[]]]; injection H as <- <-; unfold within, floor_one, floor_two; cbn; lra.
    + intros y _. rewrite Z. unfold top_of, round_tire. cbn [sRx]. lra.
    + intros gb. apply (setup_sampling_ok eread floor_files mesh_empty mesh_empty m m gb s (fa a)); [constructor|exact LD|constructor|rewrite SZ; cbn; lia|apply RS|lia].
  - exists s. split; [exact RS|]. split; [apply (below_unit 0)|]. split.
    + intros y _. replace (pdot _ _) with (5 / 4); [rewrite Rabs_pos_eq by lra; unfold round_tire; cbn [sRx]; lra|].
      specialize (Z y). unfold level, pdot, psub. cbn [porigin pnormal vx vy vz]. rewrite Z. ring.
    + intros gb m HM. apply setup_flat_ok; [apply RS|lia|exact HM].
Qed.
