(** * A road modelled by many copies of one triangle (for C132). *)
From Coq Require Import ZArith Bool Reals Lra Lia List.
From Verif Require Import Base Num Vec Aabb Geom Ground Rib ER SpecGeom SpecRib SpecAvg.
From Verif Require Import ProofGeom ProofInt ProofTri ProofSegArea ProofFlat ProofAvg ProofMeshGeo ProofPolar ProofMeshEval ProofChord SampleMeshGeo SampleChord.
Import ListNotations.
Local Open Scope R_scope.

Lemma total_repeat : forall (f : output R -> R) c n, total f (concat (repeat [c] n)) = INR n * f c.
Proof. intros f c. induction n as [|n IH]; [cbn; lra|]. rewrite S_INR. cbn [repeat concat app total]. rewrite IH. ring. Qed.
Lemma stacked_volume : forall g n, ground_of road (1 / 2) g -> (0 < n)%nat ->
  exists o, envelop_geometric (frib wide) (repeat g n) (fa stand) = Ret (true, fout o) /\ o_volume o = INR n * c_volume wide stand road_seg.
Proof.
  intros g n G N. pose proof eps_small as ES. pose proof eps_pos as EP.
  pose proof (on_unit_circle (-4 / 5) (-3 / 5) ltac:(lra)) as C0. pose proof (on_unit_circle (4 / 5) (-3 / 5) ltac:(lra)) as C1.
  assert (NE : sv0 road_seg <> sv1 road_seg) by (apply ends_differ; left; lra).
  assert (V0 : 0 < c_volume wide stand road_seg) by (apply chord_volume_pos; auto; [exact wide_good|apply stand_rigid|unfold wide, thin_rib; cbn; lra]).
  set (c := contribution wide stand (up_normal road) (1 / 2) road_seg).
  assert (F : Forall2 (gives wide stand) (repeat g n) (repeat [c] n)).
  { clear N. induction n as [|n IH]; cbn [repeat]; [constructor|]. constructor; [|exact IH]. right. exists road, (1 / 2), road_seg.
    split; [exact G|]. split; [apply (cut_of 1 road (1 / 2) g _ G road_cut)|]. split; [|reflexivity]. apply chord_kept. rewrite road_dist. lra. }
  assert (IN : 1 <= INR n) by (change 1 with (INR 1); apply le_INR; lia).
  assert (TV : total o_volume (concat (repeat [c] n)) = INR n * c_volume wide stand road_seg) by apply total_repeat.
  assert (TA : total o_area (concat (repeat [c] n)) = INR n * (8 / 5)) by (rewrite total_repeat; unfold c; cbn [contribution o_area]; now rewrite road_area).
  eexists. split.
  - rewrite (geo_eval wide stand _ _ F).
    + replace (some_contact (concat (repeat [c] n))) with true by (destruct n; [lia|reflexivity]).
      replace (rltb eps (total o_area (concat (repeat [c] n)))) with true; [reflexivity|]. symmetry. apply rltb_true. rewrite TA. lra.
    + rewrite TV. apply Rmult_integral_contrapositive_currified; lra.
  - unfold mean_of. cbn [o_volume]. exact TV.
Qed.
Lemma stacked_unbounded : forall k, exists g n o, ground_of road (1 / 2) g /\
  envelop_geometric (frib wide) (repeat g n) (fa stand) = Ret (true, fout o) /\ k < o_volume o.
Proof.
  intros k. destruct (ground_exists road (1 / 2) ltac:(lra)) as [g G].
  pose proof (on_unit_circle (-4 / 5) (-3 / 5) ltac:(lra)) as C0. pose proof (on_unit_circle (4 / 5) (-3 / 5) ltac:(lra)) as C1.
  assert (NE : sv0 road_seg <> sv1 road_seg) by (apply ends_differ; left; lra).
  assert (V0 : 0 < c_volume wide stand road_seg) by (apply chord_volume_pos; auto; [exact wide_good|apply stand_rigid|unfold wide, thin_rib; cbn; lra]).
  set (x := Rmax 0 (k / c_volume wide stand road_seg)). destruct (archimed x) as [UP _].
  set (n := Z.to_nat (up x)).
  assert (N : x < INR n).
  { unfold n. rewrite INR_IZR_INZ, Z2Nat.id; [exact UP|]. apply le_IZR. pose proof (Rmax_l 0 (k / c_volume wide stand road_seg)). fold x in H. lra. }
  unfold x in N.
  pose proof (Rmax_l 0 (k / c_volume wide stand road_seg)). pose proof (Rmax_r 0 (k / c_volume wide stand road_seg)).
  assert (P : (0 < n)%nat) by (apply INR_lt; cbn; lra).
  destruct (stacked_volume g n G P) as (o & E & VO). exists g, n, o. split; [exact G|]. split; [exact E|]. rewrite VO.
  replace k with (k / c_volume wide stand road_seg * c_volume wide stand road_seg) by (field; lra). apply Rmult_lt_compat_r; lra.
Qed.
