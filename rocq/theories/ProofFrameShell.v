(** * Frame independence of the calls on a rib and of the setup on a plane. *)
From Coq Require Import ZArith Bool Reals Lra Lia String List.
From Verif Require Import Base Num Vec Aabb Geom Ground Shape Rib Str Mesh Shell ER SpecGeom SpecRib SpecShape SpecShell SpecPose SpecAvg SpecCut SpecFrame.
From Verif Require Import ProofGeom ProofInt ProofTri ProofShape ProofShell ProofShellFacts ProofPose ProofFlat ProofSample ProofAvg ProofMeshGeo ProofSetupData ProofSetupOk ProofFrame ProofFrameMesh ProofFrameGeo.
Import ListNotations.
Local Open Scope R_scope.

Section Calls.
  Variable m : affine R.
  Hypothesis HM : rigid m.
  Variables (r : rib R) (a : affine R).
  Hypothesis HR : good_rib r.
  Hypothesis HA : rigid a.

  Lemma flat_geo_call : forall gb gb' gp f, is_unit (pnormal gp) ->
    exists b o, envelop_flat gb (frib r) (fflat gp f) (fa a) "geometric" = Ret (b, fout o) /\
      envelop_flat gb' (frib r) (fflat (carry_plane m gp) f) (fa (after m a)) "geometric" = Ret (b, fout (carry_out m o)).
  Proof.
    intros [[[g0 g1] g2] g3] [[[g0' g1'] g2'] g3'] gp f HG. destruct (flat_geo_carried m HM r a gp f HR HA HG) as (b & o & E & E').
    exists b, o. unfold envelop_flat. change (String.eqb "geometric" "geometric") with true. cbn [orb]. now rewrite E, E'.
  Qed.
  Lemma flat_sam_call : keeps_vertical m -> forall gb gb' gp f,
    exists b o, envelop_flat gb (frib r) (fflat gp f) (fa a) "sampling" = Ret (b, fout o) /\
      envelop_flat gb' (frib r) (fflat (carry_plane m gp) f) (fa (after m a)) "sampling" = Ret (b, fout (carry_out m o)).
  Proof.
    intros HV [[[g0 g1] g2] g3] [[[g0' g1'] g2'] g3'] gp f.
    destruct (sampling_carried m HM _ _ (fun p => flat_match m HM HV gp f p) r a g0 g1 g2 g3 g0' g1' g2' g3') as (b & o & E & E').
    exists b, o. unfold envelop_flat. change (String.eqb "sampling" "geometric") with false. change (String.eqb "sampling" "sampling") with true.
    cbn [orb]. unfold envelop_sampling_flat. now rewrite E, E'.
  Qed.
  Lemma mesh_sam_call : keeps_vertical m -> forall gb gb' ts gs gs', grounds ts gs -> grounds (carry_ground m ts) gs' ->
    exists b o, envelop gb (frib r) gs (fa a) "sampling" = Ret (b, fout o) /\
      envelop gb' (frib r) gs' (fa (after m a)) "sampling" = Ret (b, fout (carry_out m o)).
  Proof.
    intros HV [[[g0 g1] g2] g3] [[[g0' g1'] g2'] g3'] ts gs gs' G G'.
    destruct (sampling_carried m HM _ _ (fun p => mesh_match m HM HV ts gs gs' p G G') r a g0 g1 g2 g3 g0' g1' g2' g3') as (b & o & E & E').
    exists b, o. unfold envelop. change (String.eqb "sampling" "geometric") with false. change (String.eqb "sampling" "sampling") with true.
    cbn [orb]. unfold envelop_sampling. now rewrite E, E'.
  Qed.
  Lemma mesh_geo_call : keeps_vertical m -> forall gb gb' ts gs gs', grounds ts gs -> grounds (carry_ground m ts) gs' ->
    (forall t f, In (t, f) ts -> clear eps (dplane (posed_disk r a)) t) ->
    exists b o o', envelop gb (frib r) gs (fa a) "geometric" = Ret (b, o) /\
      envelop gb' (frib r) gs' (fa (after m a)) "geometric" = Ret (b, o') /\ carried m o o'.
  Proof.
    intros HV [[[g0 g1] g2] g3] [[[g0' g1'] g2'] g3'] ts gs gs' G G' CL.
    destruct (mesh_geo_carried m HM r a HV HR HA ts gs gs' G G') as (b & o & o' & E & E' & C).
    { intros [t f] H. now apply (CL t f). }
    exists b, o, o'. unfold envelop. change (String.eqb "geometric" "geometric") with true. cbn [orb]. now rewrite E, E'.
  Qed.
End Calls.

(** ** The setup on a plane. *)
Lemma rib_data_of : forall s os, List.length os = sh_size s ->
  (forall i o, nth_error os i = Some o -> out_at s i = Ret (fout o)) -> rib_data s os.
Proof.
  intros s os L H. split; auto. intros i o E.
  unfold contact_point_i, contact_normal_i, contact_friction_i, contact_depth_i, contact_area_i, contact_volume_i.
  rewrite (H i o E). repeat split; reflexivity.
Qed.
Lemma nth_error_ext : forall A (l l' : list A), (forall i, nth_error l i = nth_error l' i) -> l = l'.
Proof.
  induction l as [|x l IH]; intros [|y l'] H; auto; try (specialize (H 0%nat); discriminate).
  f_equal; [specialize (H 0%nat); cbn in H; congruence|]. apply IH. intros i. exact (H (S i)).
Qed.
(** Two setups whose calls on each rib agree on the flag and on related real
    data agree on the returned flag and on related data. *)
Lemma setups_related : forall (T : output R -> output R) gb gb' sp s g g' p p' meth, real_shell sp s -> (sh_size s <= 200)%nat -> valid_method meth ->
  (forall i j r, has_rib s i r -> good_rib r -> axial_rib r -> exists b o, envelop_flat (gb j) (frib r) g p meth = Ret (b, fout o) /\
     envelop_flat (gb' j) (frib r) g' p' meth = Ret (b, fout (T o))) ->
  exists s1 s2 b os, setup_flat gb s g p meth = Ok s1 b /\ setup_flat gb' s g' p' meth = Ok s2 b /\
    rib_data s1 os /\ rib_data s2 (map T os).
Proof.
  intros T gb gb' sp s g g' p p' meth HS SZ HMeth HC.
  destruct (setup_flat_ok gb s g p meth (proj1 HS) SZ HMeth) as (s1 & b1 & E1).
  destruct (setup_flat_ok gb' s g' p' meth (proj1 HS) SZ HMeth) as (s2 & b2 & E2).
  destruct (setup_flat_reports _ _ _ _ _ _ _ E1) as (R1 & _ & fl1 & L1 & H1 & B1).
  destruct (setup_flat_reports _ _ _ _ _ _ _ E2) as (R2 & _ & fl2 & L2 & H2 & B2).
  unfold sh_size in L1, L2. rewrite R1 in L1. rewrite R2 in L2.
  assert (W : forall i, (i < List.length (sh_ribs s))%nat -> exists o, (out_at s1 i = Ret (fout o) /\ out_at s2 i = Ret (fout (T o))) /\ nth_error fl1 i = nth_error fl2 i).
  { intros i Hi. destruct (nth_error fl1 i) as [c1|] eqn:N1; [|apply nth_error_None in N1; lia].
    destruct (nth_error fl2 i) as [c2|] eqn:N2; [|apply nth_error_None in N2; lia].
    destruct (H1 i c1 N1) as (x1 & o1 & X1 & F1 & O1). destruct (H2 i c2 N2) as (x2 & o2 & X2 & F2 & O2).
    rewrite R1 in X1. rewrite R2 in X2. assert (x2 = x1) as -> by congruence. clear X2.
    pose proof HS as (RC & ES & GS). destruct (reach_slices s RC sp ES GS) as (n & _ & RN).
    pose proof X1 as X0. rewrite RN, nth_error_map in X1.
    destruct (nth_error (slices sp n) i) as [r|] eqn:NR; [|discriminate]. cbn in X1. injection X1 as <-.
    assert (HRb : has_rib s i r) by (unfold has_rib, rib_at; rewrite RN, nth_error_map, NR; reflexivity).
    destruct (has_rib_axial sp s i r HS HRb) as (AX & GR & _).
    destruct (HC i i r HRb GR AX) as (b & o & A & B). cbv beta in F1, F2. rewrite A in F1. rewrite B in F2.
    injection F1 as <- <-. injection F2 as <- <-. exists o. auto. }
  assert (FE : fl1 = fl2).
  { apply nth_error_ext. intros i. destruct (Nat.lt_ge_cases i (List.length (sh_ribs s))) as [Hi|Hi].
    - destruct (W i Hi) as (o & _ & E). exact E.
    - transitivity (@None bool); [|symmetry]; apply nth_error_None; lia. }
  destruct (list_choice _ _ _ W) as (os & LO & HO).
  exists s1, s2, b1, os. split; [exact E1|]. split; [rewrite B1, FE, <- B2; exact E2|]. split.
  - apply rib_data_of; [unfold sh_size; rewrite R1; exact LO|]. intros i o E. now apply (HO i o).
  - apply rib_data_of; [unfold sh_size; rewrite R2, map_length; exact LO|]. intros i o E. rewrite nth_error_map in E.
    destruct (nth_error os i) as [o0|] eqn:E0; [|discriminate]. injection E as <-. now apply (HO i o0).
Qed.
