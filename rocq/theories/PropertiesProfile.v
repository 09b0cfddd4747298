(** * Properties of the geometric method on a ground profile (exact
    arithmetic, ER.v). *)
From Coq Require Import ZArith Bool Reals Lra Lia String List Permutation.
From Verif Require Import Base Num Vec Aabb Geom Ground Rib Str ER SpecGeom SpecRib SpecAvg SpecProfile.
From Verif Require Import ProofGeom ProofInt ProofTri ProofFlat ProofAvg ProofMeshGeo ProofMeshEval ProofChord ProofSetupData ProofProfile SampleMeshGeo SampleChord SampleProfile.
Import ListNotations.
Local Open Scope R_scope.

(** ** C102: area and volume are those of the profile. *)
Theorem C102_profile_area_volume : forall gb r a gs ss, good_rib r -> rb_normal r = V 0 1 0 -> rigid a ->
  (forall g, In g gs -> exists t f, ground_of t f g) -> cuts r a gs ss -> Forall (plain_cut r a) ss ->
  exists As b o, Forall2 (hidden_area r a) ss As /\ envelop gb (frib r) gs (fa a) "geometric" = Ret (b, o) /\
    (b = true <-> eps < rb_width r * total (fun s => dist (sv0 s) (sv1 s)) ss \/ eps < rb_width r * total (fun A => A) As) /\
    (b = true -> o_area o = Fin (rb_width r * total (fun s => dist (sv0 s) (sv1 s)) ss) /\
                 o_volume o = Fin (rb_width r * total (fun A => A) As)).
Proof.
  intros [[[g0 g1] g2] g3] r a gs ss HR HN HA HG HC HP. exact (geometric_profile r a HR HN HA gs ss HG HC HP).
Qed.
Print Assumptions C102_profile_area_volume.

(** Splitting a triangle changes neither the answer nor area, volume and
    friction. *)
Theorem C102_split_invariant : forall gb r a g g1 g2 t t1 t2 f s s1 s2 gs ss, good_rib r -> rb_normal r = V 0 1 0 -> rigid a ->
  ground_of t f g -> ground_of t1 f g1 -> ground_of t2 f g2 ->
  cuts r a [g] [s] -> cuts r a [g1; g2] [s1; s2] -> Forall (plain_cut r a) [s; s1; s2] -> splits s s1 s2 ->
  (forall g, In g gs -> exists t f, ground_of t f g) -> cuts r a gs ss -> Forall (plain_cut r a) ss ->
  exists b o o', envelop gb (frib r) (g :: gs) (fa a) "geometric" = Ret (b, o) /\
    envelop gb (frib r) (g1 :: g2 :: gs) (fa a) "geometric" = Ret (b, o') /\
    o_area o = o_area o' /\ o_volume o = o_volume o' /\ o_friction o = o_friction o'.
Proof.
  intros [[[x0 x1] x2] x3] r a g g1 g2 t t1 t2 f s s1 s2 gs ss HR HN HA G G1 G2 C C12 HP HS HG HC HPS.
  destruct (split_cuts r a g g1 g2 s s1 s2 C C12) as (E & E1 & E2).
  destruct (plain_three r a s s1 s2 HP) as (P & P1 & P2).
  exact (split_envelop r a HR HN HA g g1 g2 t t1 t2 f s s1 s2 gs ss G G1 G2 E E1 E2 P P1 P2 HS HG HC HPS).
Qed.
Print Assumptions C102_split_invariant.

(** The contact point is in every half space that contains the cuts. *)
Theorem C102_point_in_hull : forall gb r a gs ss o n k, good_rib r -> rb_normal r = V 0 1 0 -> rigid a ->
  (forall g, In g gs -> exists t f, ground_of t f g) -> cuts r a gs ss -> Forall (plain_cut r a) ss ->
  envelop gb (frib r) gs (fa a) "geometric" = Ret (true, fout o) ->
  (forall s, In s ss -> pdot n (sv0 s) <= k /\ pdot n (sv1 s) <= k) -> pdot n (o_point o) <= k.
Proof.
  intros [[[g0 g1] g2] g3] r a gs ss o n k HR HN HA HG HC HP HE. exact (point_hull r a HR HN HA gs ss o n k HG HC HP HE).
Qed.
Print Assumptions C102_point_in_hull.

(** On triangles of one plane the point is on that plane and the depth is at
    most the one of the flat method. *)
Theorem C102_depth_below_flat : forall gb r a gs ss o o' gp f, good_rib r -> rb_normal r = V 0 1 0 -> rigid a -> is_unit (pnormal gp) ->
  (forall g, In g gs -> exists t f, ground_of t f g /\ lies_in t gp) -> cuts r a gs ss -> Forall (plain_cut r a) ss ->
  envelop gb (frib r) gs (fa a) "geometric" = Ret (true, fout o) ->
  envelop_flat gb (frib r) (fflat gp f) (fa a) "geometric" = Ret (true, fout o') ->
  on_plane gp (o_point o) /\ on_plane (dplane (posed_disk r a)) (o_point o) /\ o_depth o <= o_depth o'.
Proof.
  intros [[[g0 g1] g2] g3] r a gs ss o o' gp f HR HN HA HU HG HC HP HE HF.
  destruct (plane_point r a HR HN HA gs ss o gp HG HC HP HE) as [P1 P2]. split; [exact P1|]. split; [exact P2|].
  refine (plane_depth r a HR HN HA gs ss o o' gp f HU HG HC HP HE _). cbn in HF. congruence.
Qed.
Print Assumptions C102_depth_below_flat.

(** The road from under the axle to the circle, in two triangles. *)
Example C102_example : exists g g1 g2, ground_of (strip 0 (3 / 2)) (1 / 2) g /\
  ground_of (strip 0 (3 / 10)) (1 / 2) g1 /\ ground_of (strip (3 / 10) (3 / 2)) (1 / 2) g2 /\
  cuts wide stand [g] [strip_seg 0 (4 / 5)] /\ cuts wide stand [g1; g2] [strip_seg 0 (3 / 10); strip_seg (3 / 10) (4 / 5)] /\
  Forall (plain_cut wide stand) [strip_seg 0 (4 / 5); strip_seg 0 (3 / 10); strip_seg (3 / 10) (4 / 5)] /\
  splits (strip_seg 0 (4 / 5)) (strip_seg 0 (3 / 10)) (strip_seg (3 / 10) (4 / 5)) /\
  lies_in (strip 0 (3 / 10)) (Plane (V 0 0 (-3 / 5)) (V 0 0 1)) /\ lies_in (strip (3 / 10) (3 / 2)) (Plane (V 0 0 (-3 / 5)) (V 0 0 1)) /\
  good_rib wide /\ rb_normal wide = V 0 1 0 /\ rigid stand /\
  forall gb, exists o o', envelop gb (frib wide) [g1; g2] (fa stand) "geometric" = Ret (true, fout o) /\
    envelop_flat gb (frib wide) (fflat (Plane (V 0 0 (-3 / 5)) (V 0 0 1)) (1 / 2)) (fa stand) "geometric" = Ret (true, fout o').
Proof.
  destruct (ground_exists (strip 0 (3 / 2)) (1 / 2) ltac:(lra)) as [g G].
  destruct (ground_exists (strip 0 (3 / 10)) (1 / 2) ltac:(lra)) as [g1 G1].
  destruct (ground_exists (strip (3 / 10) (3 / 2)) (1 / 2) ltac:(lra)) as [g2 G2].
  exists g, g1, g2. split; [exact G|]. split; [exact G1|]. split; [exact G2|].
  split; [apply cuts_some; [exact (cut_half _ _ G)|apply cuts_nil]|].
  split; [apply cuts_some; [exact (cut_inner _ _ G1)|apply cuts_some; [exact (cut_outer _ _ G2)|apply cuts_nil]]|].
  split; [do 3 (apply Forall_cons; [apply strip_plain; lra|]); apply Forall_nil|]. split; [apply strip_splits; lra|].
  split; [apply strip_lies|]. split; [apply strip_lies|]. split; [exact wide_good|]. split; [reflexivity|]. split; [exact stand_rigid|].
  intros [[[x0 x1] x2] x3]. destruct (two_point _ _ _ G1 G2) as (o & E & _). exists o.
  set (gp := Plane (V 0 0 (-3 / 5)) (V 0 0 1)). assert (U : is_unit (pnormal gp)) by (unfold gp; cbn [pnormal]; vunf; ring).
  destruct (flat_real wide stand gp (1 / 2) wide_good stand_rigid U) as (b & o' & E' & _). exists o'. split; [exact E|].
  assert (B : b = true).
  { replace b with (fst (envelop_geometric_flat (frib wide) (fflat gp (1 / 2)) (fa stand))) by now rewrite E'.
    apply (flat_contact_iff wide stand gp (1 / 2) wide_good stand_rigid U). rewrite stand_apply. unfold center_height. rewrite stand_place.
    change (rb_normal wide) with (V 0 1 0 : pt). change (rb_radius wide) with 1. change (rb_center wide) with (V 0 0 0 : pt).
    unfold sin2, gp. cbn [pnormal porigin]. vunf. pose proof eps_small. lra. }
  subst b. cbn. now rewrite E'.
Qed.

(** False of the code: the contact point and the depth depend on how the same
    profile is cut in triangles. *)
Theorem C102_triangulation_refuted : exists r a g g1 g2 t t1 t2 f s s1 s2, good_rib r /\ rb_normal r = V 0 1 0 /\ rigid a /\
  ground_of t f g /\ ground_of t1 f g1 /\ ground_of t2 f g2 /\
  cuts r a [g] [s] /\ cuts r a [g1; g2] [s1; s2] /\ Forall (plain_cut r a) [s; s1; s2] /\ splits s s1 s2 /\
  forall gb, exists o o', envelop gb (frib r) [g] (fa a) "geometric" = Ret (true, fout o) /\
    envelop gb (frib r) [g1; g2] (fa a) "geometric" = Ret (true, fout o') /\
    o_point o <> o_point o' /\ o_depth o < o_depth o'.
Proof.
  destruct C102_example as (g & g1 & g2 & G & G1 & G2 & C & C12 & P & S & _ & _ & HR & HN & HA & _).
  exists wide, stand, g, g1, g2, (strip 0 (3 / 2)), (strip 0 (3 / 10)), (strip (3 / 10) (3 / 2)), (1 / 2).
  exists (strip_seg 0 (4 / 5)), (strip_seg 0 (3 / 10)), (strip_seg (3 / 10) (4 / 5)).
  do 10 (split; [assumption|]). intros [[[x0 x1] x2] x3].
  destruct (half_point _ _ G) as (o & E & OP & OD). destruct (two_point _ _ _ G1 G2) as (o' & E' & [_ X] & D').
  exists o, o'. split; [exact E|]. split; [exact E'|]. split; [|lra].
  intros Y. rewrite <- Y, OP in X. cbn [vx] in X. lra.
Qed.
Print Assumptions C102_triangulation_refuted.
