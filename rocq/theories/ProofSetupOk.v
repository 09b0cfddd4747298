(** * Setups that return. *)
From Coq Require Import ZArith Bool Reals Lra Lia String List.
From Verif Require Import Base Num Vec Aabb Tree Geom Ground Shape Rib Str Mesh Shell ER.
From Verif Require Import SpecGeom SpecRib SpecShape SpecShell SpecPose SpecTree SpecLoad SpecMesh SpecCut.
From Verif Require Import ProofMesh ProofMeshFacts ProofGeom ProofInt ProofTri ProofFlat ProofShape ProofShell ProofPose SamplePose ProofCut.
Import ListNotations.
Local Open Scope R_scope.

Lemma setup_flat_ok : forall {K} {NK : Num K} gb (s : shell K) g pose meth, reach s -> (sh_size s <= 200)%nat ->
  valid_method meth -> exists s' b, setup_flat gb s g pose meth = Ok s' b.
Proof.
  intros K NK gb s g pose meth RC SZ VM. apply reach_inv in RC. destruct RC as (_ & HC & _).
  unfold setup_flat. cbn zeta. change (sh_ribs (update_bbox (transform s pose))) with (sh_ribs s). change (sh_cells (update_bbox (transform s pose))) with (sh_cells s).
  edestruct (run_total (fun i r => envelop_flat (gb i) r g pose meth) (fun b _ => b) (sh_ribs s) 0%nat (sh_cells s) false) as [R1 _].
  { intros j r NJ. destruct (gb (0 + j)%nat) as [[[g0 g1] g2] g3]. destruct VM as [-> | ->]; eexists; reflexivity. }
  destruct R1 as (c & b & E); [rewrite HC; exact SZ|]. rewrite E. cbn [with_cells]. eauto.
Qed.
Lemma setup_sampling_ok : forall {K} {NK : Num K} stod fs (m0 m1 m2 m : mesh K) gb (s : shell K) pose,
  many_loads stod fs m0 m1 -> load_succeeds stod fs m1 m2 -> many_loads stod fs m2 m -> (Z.of_nat (mesh_size m2) <= 2 ^ 31)%Z ->
  reach s -> (sh_size s <= 200)%nat -> exists s' b, setup_mesh gb s m pose "sampling" = Ok s' b.
Proof.
  intros K NK stod fs m0 m1 m2 m gb s pose L0 L1 L2 SZ RC HN.
  destruct (history_query stod fs m0 m1 m2 m L0 L1 L2 SZ (sh_bbox (update_bbox (transform s pose)))) as (local & Q & _).
  eapply setup_mesh_returns; eauto. intros j r c _ _. destruct (gb j) as [[[g0 g1] g2] g3]. eexists. reflexivity.
Qed.
Lemma geo_loop_ok : forall r a l acc, good_rib r -> rigid a ->
  (forall g, In g l -> exists t, real_triangle g t /\ clear eps (dplane (posed_disk r a)) t) ->
  exists acc', geo_loop (frib r) (fa a) l acc = Ret acc'.
Proof.
  intros r a l acc GR RA. revert acc. induction l as [|g l IH]; intros acc H; cbn [geo_loop]; [eauto|].
  destruct (H g (or_introl eq_refl)) as (t & T & CL). unfold real_triangle in T.
  rewrite T, f_disk, neps_eps.
  destruct (triangle_disk_no_throw t (posed_disk r a) eps eps_pos) as [o E]; auto.
  { unfold is_unit, posed_disk. cbn [dplane pnormal]. rewrite rotation_isometry by exact RA. apply GR. }
  rewrite E. cbn [obind]. assert (H' : forall g, In g l -> exists t, real_triangle g t /\ clear eps (dplane (posed_disk r a)) t) by (intros; apply H; now right).
  destruct o as [s|]; [|auto]. destruct (geo_contrib _ _ _ _ _); eauto.
Qed.
Lemma setup_geometric_ok : forall stod fs (m0 m1 m2 m : mesh er) gb sp s a,
  many_loads stod fs m0 m1 -> load_succeeds stod fs m1 m2 -> many_loads stod fs m2 m -> (Z.of_nat (mesh_size m2) <= 2 ^ 31)%Z ->
  real_shell sp s -> (sh_size s <= 200)%nat -> rigid a ->
  (forall j r g, has_rib s j r -> In g (me_tris m) -> exists t, real_triangle g t /\ clear eps (dplane (posed_disk r a)) t) ->
  exists s' b, setup_mesh gb s m (fa a) "geometric" = Ok s' b.
Proof.
  intros stod fs m0 m1 m2 m gb sp s a L0 L1 L2 SZ RS HN RA H.
  destruct (history_query stod fs m0 m1 m2 m L0 L1 L2 SZ (sh_bbox (update_bbox (transform s (fa a))))) as (local & Q & _ & F).
  rewrite Forall_forall in F.
  eapply setup_mesh_returns; eauto; [apply RS|]. intros j x c NJ SUB.
  assert (E : exists r, x = frib r).
  { destruct RS as (RC & ES & GS). destruct (reach_slices s RC sp ES GS) as (n & _ & RN). rewrite RN, nth_error_map in NJ.
    destruct (nth_error (slices sp n) j) as [r|]; [|discriminate]. cbn in NJ. exists r. congruence. }
  destruct E as [r ->].
  assert (HR : has_rib s j r) by (unfold has_rib, rib_at; now rewrite NJ).
  destruct (gb j) as [[[g0 g1] g2] g3]. unfold envelop. change (String.eqb "geometric" "geometric") with true. cbv iota.
  unfold envelop_geometric.
  destruct (geo_loop_ok r a c gacc0) as [acc ->]; auto.
  { apply (has_rib_axial sp s j r RS HR). } { intros g Hg. eapply H; eauto. }
  cbn [obind]. destruct (_ && _); eauto.
Qed.
