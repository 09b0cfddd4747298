(** * C128: what the whole wheel reports on a mesh. *)
From Coq Require Import ZArith Bool Reals Lra String List.
From Verif Require Import Base Num Vec Geom Ground Shape Rib Mesh Shell ER SpecGeom SpecRib SpecShape SpecShell SpecPose SpecAvg SpecFrame SpecRoof.
From Verif Require Import ProofTerrain SamplePose SpecPaved SamplePaved SampleTerrainFloor.
From Verif Require F64 SampleShell SampleTerrain SpecMesh.
Import ListNotations.
Local Open Scope R_scope.

(** The frictions of the triangles lie between [lo] and [hi].  A wheel that
    hides a volume of at least EPSILON, and none of whose ribs reports an
    undefined friction, reports a friction in that range and a depth between
    zero and the radius of the wheel. *)
Theorem C128_range : forall gb sp s m ts lo hi a meth s' b v, real_shell sp s -> rigid a -> grounds ts (me_tris m) ->
  (forall t f, In (t, f) ts -> lo <= f <= hi) -> valid_method meth -> setup_mesh gb s m (fa a) meth = Ok s' b ->
  (forall i, (i < sh_size s')%nat -> contact_friction_i s' i <> Ret Nan) ->
  contact_volume s' = Ret (Fin v) -> eps <= v ->
  exists f d, contact_friction s' = Ret (Fin f) /\ lo <= f <= hi /\ contact_depth s' = Ret (Fin d) /\ 0 <= d <= sRx sp.
Proof. intros. eapply mesh_wheel; eauto. Qed.
Print Assumptions C128_range.

(** With the sampling method no rib does. *)
Theorem C128_sampling : forall gb sp s m ts lo hi a s' b, real_shell sp s -> rigid a -> grounds ts (me_tris m) ->
  (forall t f, In (t, f) ts -> lo <= f <= hi) -> setup_mesh gb s m (fa a) "sampling" = Ok s' b ->
  (forall i, (i < sh_size s')%nat -> contact_friction_i s' i <> Ret Nan) /\
  forall v, contact_volume s' = Ret (Fin v) -> eps <= v ->
  exists f d, contact_friction s' = Ret (Fin f) /\ lo <= f <= hi /\ contact_depth s' = Ret (Fin d) /\ 0 <= d <= sRx sp.
Proof.
  intros. assert (N : forall i, (i < sh_size s')%nat -> contact_friction_i s' i <> Ret Nan) by (eapply sampling_no_nan; eauto).
  split; [exact N|]. intros. eapply mesh_wheel; eauto. now right.
Qed.
Print Assumptions C128_sampling.

(** One rib of undefined friction is enough to make the friction of the wheel
    undefined, whatever the others report. *)
Theorem C128_spreads : forall gb (s : shell er) m pose meth s' b i, setup_mesh gb s m pose meth = Ok s' b ->
  (i < sh_size s')%nat -> contact_friction_i s' i = Ret Nan -> contact_friction s' = Ret Nan.
Proof. exact nan_after_mesh. Qed.
Print Assumptions C128_spreads.

(** And with the geometric method it happens: one rib stands on level ground
    and reports its friction, the other has the edge of a step below the axle,
    the wheel hides more than EPSILON, and its friction is not a number. *)
Section Double.
  Import F64 SampleShell SampleTerrain SpecMesh.
  Theorem C128_refuted : exists ts m s', mesh_of_triangles ts = Ret m /\
    (forall g, In g ts -> tg_friction g = f_of 1 (-1)) /\
    wheel 2 (fz 1) = Ret wheel2 /\ setup_mesh gb0 wheel2 m aid "geometric" = Ok s' true /\
    (exists v, contact_volume s' = Ret v /\ nlt neps v = true) /\
    contact_friction_i s' 1 = Ret (f_of 1 (-1)) /\ contact_friction s' = Ret SpecFloat.S754_nan.
  Proof.
    exists edge_tris, edge_mesh, edge_shell. destruct edge_facts as (A & _ & B & C & D).
    split; [exact edge_ok|]. split; [intros g [<-|[<-|[]]]; vm_compute; reflexivity|]. split; [exact wheel2_ok|].
    split; [exact A|]. auto.
  Qed.
  Print Assumptions C128_refuted.
End Double.

(** The floor of two triangles, friction 1, and a wheel of one rib on it. *)
Example C128_example : (forall t f, In (t, f) floor_tris -> 1 <= f <= 1) /\ exists m s, grounds floor_tris (me_tris m) /\
  real_shell round_tire s /\ rigid on_floor /\
  forall gb, exists s' b v, setup_mesh gb s m (fa on_floor) "sampling" = Ok s' b /\ contact_volume s' = Ret (Fin v) /\ eps <= v.
Proof. split; [|exact floor_heavy]. intros t f [H|[H|[]]]; injection H as <- <-; split; apply Rle_refl. Qed.
