(** * C135: the contact point lies in the hull of the ground. *)
From Coq Require Import ZArith Bool Reals Lra String List.
From Verif Require Import Base Num Vec Geom Ground Shape Rib Mesh Shell ER SpecGeom SpecRib SpecShape SpecShell SpecPose SpecAvg SpecFrame SpecRoof SpecHull.
From Verif Require Import ProofHull SamplePose SpecPaved SamplePaved SampleTerrainFloor.
Import ListNotations.
Local Open Scope R_scope.

(** A rib in contact with the sampling method reports a point in every slab, of
    any direction, that holds the triangles. *)
Theorem C135_rib : forall gb r a ts gs o u lo hi, good_rib r -> rigid a -> grounds ts gs ->
  (forall t f, In (t, f) ts -> between u lo hi t) ->
  envelop gb (frib r) gs (fa a) "sampling" = Ret (true, o) -> exists p, o_point o = fv p /\ slab u lo hi p.
Proof. exact rib_slab. Qed.
Print Assumptions C135_rib.

(** So does the wheel as a whole, unless its volume is negligible. *)
Theorem C135_wheel : forall gb sp s m ts a s' b v, real_shell sp s -> rigid a -> grounds ts (me_tris m) ->
  setup_mesh gb s m (fa a) "sampling" = Ok s' b -> contact_volume s' = Ret (Fin v) -> eps <= v ->
  exists p, contact_point s' = Ret (fv p) /\
    forall u lo hi, (forall t f, In (t, f) ts -> between u lo hi t) -> slab u lo hi p.
Proof. exact wheel_slab. Qed.
Print Assumptions C135_wheel.

(** On level ground the point has exactly the height of the ground. *)
Theorem C135_level : forall gb sp s m ts h a s' b v, real_shell sp s -> rigid a -> grounds ts (me_tris m) ->
  (forall t f, In (t, f) ts -> vz (tv0 t) = h /\ vz (tv1 t) = h /\ vz (tv2 t) = h) ->
  setup_mesh gb s m (fa a) "sampling" = Ok s' b -> contact_volume s' = Ret (Fin v) -> eps <= v ->
  exists p, contact_point s' = Ret (fv p) /\ vz p = h.
Proof.
  intros gb sp s m ts h a s' b v H H0 H1 W H2 H3 H4. destruct (wheel_slab gb sp s m ts a s' b v H H0 H1 H2 H3 H4) as (p & P & K).
  exists p. split; [exact P|]. assert (D : forall q, pdot (V 0 0 1) q = vz q) by (intros q; unfold pdot; cbn [vx vy vz]; ring).
  destruct (K (V 0 0 1) h h) as [A B]; [|rewrite D in A, B; lra].
  intros t f I. destruct (W t f I) as (T0 & T1 & T2). unfold between. rewrite !D. lra.
Qed.
Print Assumptions C135_level.

(** A wheel half a radius deep in a floor of two triangles. *)
Example C135_example : exists m s, grounds floor_tris (me_tris m) /\ real_shell round_tire s /\ rigid on_floor /\
  (forall t f, In (t, f) floor_tris -> between (V 1 0 0) 0 8 t /\ vz (tv0 t) = 0 /\ vz (tv1 t) = 0 /\ vz (tv2 t) = 0) /\
  forall gb, exists s' b v, setup_mesh gb s m (fa on_floor) "sampling" = Ok s' b /\ contact_volume s' = Ret (Fin v) /\ eps <= v.
Proof.
  destruct floor_heavy as (m & s & A & B & C & D). exists m, s. split; [exact A|]. split; [exact B|]. split; [exact C|]. split; [|exact D].
  intros t f [H|[H|[]]]; injection H as <- <-; unfold between, floor_one, floor_two, pdot; cbn; lra.
Qed.
