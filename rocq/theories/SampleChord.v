(** * Concrete contacts of a unit rib with single triangles. *)
From Coq Require Import ZArith Bool Reals Lra Lia List.
From Verif Require Import Base Num Vec Aabb Geom Ground Rib ER SpecGeom SpecRib SpecAvg.
From Verif Require Import ProofGeom ProofInt ProofTri ProofSegArea ProofFlat ProofAvg ProofMeshGeo ProofPolar ProofMeshEval ProofChord SampleMeshGeo.
Import ListNotations.
Local Open Scope R_scope.

Definition wide : rib R := thin_rib 1.
Lemma wide_good : good_rib wide. Proof. apply thin_good. lra. Qed.
Lemma on_unit_circle : forall x z, x * x + z * z = 1 -> on_circle (posed_disk wide stand) (V x 0 z).
Proof.
  intros x z H. unfold wide. rewrite stand_disk. unfold on_circle, on_plane, big_disk. cbn [dplane porigin pnormal dradius]. split; [vunf; ring|].
  unfold dist. apply pnorm_eq; [lra|]. vunf. lra.
Qed.
Lemma under : forall x z, z < 0 -> under_axle wide stand (V x 0 z).
Proof.
  intros x z H. unfold under_axle. rewrite stand_place. unfold wide, thin_rib, rb_center, dcenter, stand, pcol2. cbn [rb_disk dplane porigin lin m00 m01 m02 m10 m11 m12 m20 m21 m22]. vunf. lra.
Qed.
Definition road_seg : segment R := Segment (V (-4 / 5) 0 (-3 / 5)) (V (4 / 5) 0 (-3 / 5)).
Lemma ends_differ : forall x z x' z', x <> x' \/ z <> z' -> V x 0 z <> V x' 0 z'.
Proof. intros x z x' z' [H|H] E; apply H; congruence. Qed.
Lemma road_area : c_area wide road_seg = 8 / 5.
Proof.
  unfold c_area, road_seg. cbn [sv0 sv1]. replace (dist _ _) with (8 / 5); [unfold wide, thin_rib; cbn; ring|].
  symmetry. unfold dist. apply pnorm_eq; [lra|]. vunf. field.
Qed.
Lemma road_dist : dist (sv0 road_seg) (sv1 road_seg) = 8 / 5.
Proof. unfold road_seg. cbn [sv0 sv1]. unfold dist. apply pnorm_eq; [lra|]. vunf. field. Qed.
Lemma road_contact : forall f g, ground_of road f g -> exists o, envelop_geometric (frib wide) [g] (fa stand) = Ret (true, fout o) /\
  0 < o_volume o /\ o_point o = V 0 0 (-3 / 5) /\ o_friction o = f /\ o_depth o = 2 / 5 /\ o_area o = 8 / 5.
Proof.
  intros f g G. pose proof eps_small as ES. pose proof eps_pos as EP.
  pose proof (on_unit_circle (-4 / 5) (-3 / 5) ltac:(lra)) as C0. pose proof (on_unit_circle (4 / 5) (-3 / 5) ltac:(lra)) as C1.
  assert (NE : sv0 road_seg <> sv1 road_seg) by (apply ends_differ; left; lra).
  assert (V0 : 0 < c_volume wide stand road_seg) by (apply chord_volume_pos; auto; [exact wide_good|apply stand_rigid|unfold wide, thin_rib; cbn; lra]).
  assert (HB : half_ang wide stand road_seg < PI / 2).
  { apply below_half; auto; [exact wide_good|apply stand_rigid|..]; unfold wide; rewrite stand_in_rib; cbn; lra. }
  assert (CP : c_point wide stand road_seg = V 0 0 (-3 / 5)).
  { rewrite chord_point; auto; [|exact wide_good|apply stand_rigid|unfold wide, thin_rib, rb_radius; cbn; lra|lra].
    unfold road_seg. cbn [sv0 sv1]. apply vec_eq; vunf; field. }
  eexists. split; [apply (geo_single wide stand g road f road_seg G)|].
  - apply (cut_of 1 road f g _ G road_cut).
  - apply chord_kept. rewrite road_dist. lra.
  - lra.
  - left. rewrite road_area. lra.
  - cbn [o_volume o_point o_friction o_depth o_area]. split; [exact V0|]. split; [exact CP|]. split; [reflexivity|]. split; [|apply road_area].
    rewrite CP, stand_place. unfold wide, thin_rib, rb_radius, rb_center, dcenter. cbn [rb_disk dradius dplane porigin].
    replace (dist _ _) with (3 / 5); [field|]. symmetry. unfold dist. apply pnorm_eq; [lra|]. vunf. field.
Qed.

(** The chip ends the scan: what follows is lost. *)
Lemma chip_first : forall g gs f, ground_of chip f g ->
  envelop_geometric (frib wide) (g :: gs) (fa stand) = Ret (envelop_none (frib wide) (fa stand)).
Proof.
  intros g gs f G. unfold envelop_geometric. rewrite sums0.
  rewrite (loop_drop wide stand g chip f (Segment (V 0 0 (-3 / 5)) (V 0 0 (-3 / 5)))); auto.
  - apply (cut_of 1 chip f g _ G chip_cut).
  - apply dropped_point.
Qed.
Lemma chip_last : forall g g' f f', ground_of road f g -> ground_of chip f' g' ->
  envelop_geometric (frib wide) [g; g'] (fa stand) = envelop_geometric (frib wide) [g] (fa stand).
Proof.
  intros g g' f f' G G'. pose proof eps_small as ES.
  assert (D : dropped wide stand road_seg = false) by (apply chord_kept; rewrite road_dist; lra).
  destruct (ground_of_fields _ _ _ G) as (_ & E2 & E3 & _).
  pose proof (cut_of 1 road f g _ G road_cut) as CUT. fold wide in CUT.
  assert (L : geo_loop (frib wide) (fa stand) [g; g'] gacc0 = geo_loop (frib wide) (fa stand) [g] gacc0).
  { rewrite sums0. cbn [geo_loop]. rewrite CUT. cbn [obind]. fold road_seg.
    rewrite (contrib_eval wide stand g road_seg _ f false [] E3 E2), D. 
    change (geo_loop (frib wide) (fa stand) [g'] (sums true ([] ++ [contribution wide stand (up_normal road) f road_seg])) =
            Ret (sums true ([] ++ [contribution wide stand (up_normal road) f road_seg]))).
    apply (loop_drop wide stand g' chip f' (Segment (V 0 0 (-3 / 5)) (V 0 0 (-3 / 5)))); auto.
    - apply (cut_of 1 chip f' g' _ G' chip_cut).
    - apply dropped_point. }
  unfold envelop_geometric. now rewrite L.
Qed.

(** The step edge: both ends at the angle -pi/2. *)
Definition step_seg : segment R := Segment (V 0 0 (-1)) (V 0 0 (- / 2)).
Lemma step_ang : forall z, z < 0 -> ang wide stand (V 0 0 z) = - (PI / 2).
Proof.
  intros z H. unfold ang, wide. rewrite stand_in_rib. cbn [vx vz]. unfold ratan2.
  replace (rltb 0 0) with false by (symmetry; apply rltb_false; lra).
  replace (rltb 0 z) with false by (symmetry; apply rltb_false; lra).
  replace (rltb z 0) with true by (symmetry; apply rltb_true; lra). reflexivity.
Qed.
Lemma step_contact : forall f g, ground_of step f g -> exists o,
  envelop_geometric (frib wide) [g] (fa stand) = Ret (true, o) /\ undefined o.
Proof.
  intros f g G. pose proof eps_small as ES. pose proof eps_pos as EP.
  destruct (ground_of_fields _ _ _ G) as (_ & E2 & E3 & _).
  assert (DS : dist (sv0 step_seg) (sv1 step_seg) = / 2).
  { unfold step_seg. cbn [sv0 sv1]. unfold dist. apply pnorm_eq; [lra|]. vunf. field. }
  assert (D : dropped wide stand step_seg = false) by (apply chord_kept; rewrite DS; lra).
  assert (HA : hi_ang wide stand step_seg - lo_ang wide stand step_seg = 0).
  { unfold hi_ang, lo_ang, step_seg. cbn [sv0 sv1]. rewrite !step_ang by lra. rewrite Rmax_left, Rmin_left by lra. ring. }
  assert (Z : c_volume wide stand step_seg = 0).
  { unfold c_volume, half_ang. rewrite HA, sin_0. field. }
  pose proof (cut_of 1 step f g _ G step_cut) as CUT. fold wide in CUT.
  assert (L : geo_loop (frib wide) (fa stand) [g] gacc0 = Ret (sums true [contribution wide stand (up_normal step) f step_seg])).
  { rewrite sums0. cbn [geo_loop]. rewrite CUT. cbn [obind]. fold step_seg.
    now rewrite (contrib_eval wide stand g step_seg _ f false [] E3 E2), D. }
  assert (X : exists o, envelop_geometric (frib wide) [g] (fa stand) = Ret (true, o) /\ o_volume o = Fin 0).
  { unfold envelop_geometric. rewrite L. cbn [obind].
    unfold sums. cbn [ga_int ga_area ga_volume ga_point ga_normal ga_friction total contribution o_area o_volume].
    unfold c_area. rewrite DS, Z. 
    match goal with |- context [nlt neps (Fin (?x + 0))] => change (nlt neps (Fin (x + 0))) with (rltb eps (x + 0)) end.
    replace (rltb eps (/ 2 * rb_width wide + 0)) with true by (symmetry; apply rltb_true; unfold wide, thin_rib; cbn; lra).
    cbn [andb orb]. eexists. split; [reflexivity|]. cbn [o_volume]. now rewrite Rplus_0_r. }
  destruct X as (o & E & V). exists o. split; auto.
  destruct (geometric_data wide stand wide_good stand_rigid [g] o) as [[o' ->]|U]; auto.
  { intros g' [<-|[]]. eauto. }
  exfalso. 
  (* a finite output would have a nonzero volume *)
  revert E V. unfold envelop_geometric. rewrite L. cbn [obind].
  unfold sums. cbn [ga_int ga_area ga_volume ga_point ga_normal ga_friction total contribution o_area o_volume o_friction].
  rewrite Z. match goal with |- context [if ?c then _ else _] => destruct c end; [|discriminate].
  intros E _. apply (f_equal (fun x => match x with Ret (_, o) => o_friction o | _ => Fin 0 end)) in E. cbn [fout o_friction] in E.
  revert E. replace (f * 0 + 0) with 0 by ring. rewrite Rplus_0_r. cbn [ndiv ER_Num ediv].
  replace (reqb 0 0) with true by (symmetry; now apply reqb_true). discriminate.
Qed.

(** The wall behind the wheel. *)
Definition wall_seg : segment R := Segment (V (-3 / 5) 0 (-4 / 5)) (V (-3 / 5) 0 (4 / 5)).
Definition wall_plane : plane R := Plane (V (-3 / 5) 0 0) (V (-1) 0 0).
Lemma wall_half : PI / 2 < half_ang wide stand wall_seg /\ mid_ang wide stand wall_seg = 0.
Proof.
  pose proof (on_unit_circle (-3 / 5) (-4 / 5) ltac:(lra)) as C0. pose proof (on_unit_circle (-3 / 5) (4 / 5) ltac:(lra)) as C1.
  destruct (local_circle wide stand wide_good eq_refl stand_rigid _ C0) as (E0 & I0 & _).
  destruct (local_circle wide stand wide_good eq_refl stand_rigid _ C1) as (E1 & I1 & _).
  unfold wide in E0, E1. rewrite stand_in_rib in E0, E1. fold wide in E0, E1.
  change (rb_radius wide) with 1 in E0, E1.
  set (t0 := ang wide stand (V (-3 / 5) 0 (-4 / 5))) in *. set (t1 := ang wide stand (V (-3 / 5) 0 (4 / 5))) in *.
  assert (X0 := f_equal vx E0). assert (Z0 := f_equal vz E0). assert (X1 := f_equal vx E1). assert (Z1 := f_equal vz E1).
  cbn [vx vz] in X0, Z0, X1, Z1.
  assert (P1 : 0 < t1).
  { apply Rnot_le_lt. intros L. assert (sin t1 <= 0); [|lra].
    rewrite <- (Ropp_involutive t1), sin_neg. pose proof (sin_ge_0 (- t1) ltac:(lra) ltac:(lra)). lra. }
  assert (Q1 : PI / 2 < t1).
  { apply Rnot_le_lt. intros L. pose proof (cos_ge_0 t1 ltac:(lra) L). lra. }
  assert (NP : t1 <> PI) by (intros E; rewrite E, sin_PI in Z1; lra).
  assert (O : t0 = - t1).
  { apply same_angle; try lra; [rewrite cos_neg; lra|rewrite sin_neg; lra]. }
  unfold half_ang, mid_ang, hi_ang, lo_ang, wall_seg. cbn [sv0 sv1]. fold wide.
  change (ang wide stand (V (-3 / 5) 0 (-4 / 5))) with t0. change (ang wide stand (V (-3 / 5) 0 (4 / 5))) with t1.
  rewrite O, Rmax_right, Rmin_left by lra. split; [lra|field].
Qed.
Lemma wall_up : up_normal wall = V (-1) 0 0.
Proof.
  unfold up_normal, wall. rewrite plank_normal by lra. cbn [vz].
  replace (rltb 0 0) with false by (symmetry; apply rltb_false; lra). f_equal; ring.
Qed.
Lemma wall_contact : forall f g, ground_of wall f g -> exists o, envelop_geometric (frib wide) [g] (fa stand) = Ret (true, fout o) /\
  o_point o = V 0 0 0 /\ o_depth o = 1 /\ o_normal o = V (-1) 0 0.
Proof.
  intros f g G. pose proof eps_small as ES. pose proof eps_pos as EP.
  pose proof (on_unit_circle (-3 / 5) (-4 / 5) ltac:(lra)) as C0. pose proof (on_unit_circle (-3 / 5) (4 / 5) ltac:(lra)) as C1.
  assert (NE : sv0 wall_seg <> sv1 wall_seg) by (apply ends_differ; right; lra).
  assert (V0 : 0 < c_volume wide stand wall_seg) by (apply chord_volume_pos; auto; [exact wide_good|apply stand_rigid|unfold wide, thin_rib; cbn; lra]).
  destruct wall_half as [H M]. pose proof (chord_angles wide stand wide_good eq_refl stand_rigid wall_seg C0 C1 NE) as HB.
  assert (DS : dist (sv0 wall_seg) (sv1 wall_seg) = 8 / 5).
  { unfold wall_seg. cbn [sv0 sv1]. unfold dist. apply pnorm_eq; [lra|]. vunf. field. }
  assert (RC : rad_c wide stand wall_seg = 0).
  { rewrite chord_radius; auto; [|exact wide_good|apply stand_rigid|unfold wide, thin_rib, rb_radius; cbn; lra].
    change (rb_radius wide) with 1. assert (cos (half_ang wide stand wall_seg) <= 0) by (apply cos_le_0; lra).
    rewrite Rmax_left, Rmin_right by lra. reflexivity. }
  assert (CP : c_point wide stand wall_seg = V 0 0 0).
  { unfold c_point. rewrite RC, M, stand_place. unfold wide, thin_rib, rb_center, dcenter. cbn [rb_disk dplane porigin]. apply vec_eq; vunf; ring. }
  eexists. split; [apply (geo_single wide stand g wall f wall_seg G)|].
  - apply (cut_of 1 wall f g _ G wall_cut).
  - apply chord_kept. rewrite DS. lra.
  - lra.
  - left. unfold c_area. rewrite DS. unfold wide, thin_rib. cbn. lra.
  - cbn [o_point o_depth o_normal]. split; [exact CP|]. split.
    + rewrite CP, stand_place. unfold wide, thin_rib, rb_radius, rb_center, dcenter. cbn [rb_disk dradius dplane porigin].
      replace (dist _ _) with 0; [ring|]. symmetry. unfold dist. apply pnorm_eq; [lra|]. vunf. ring.
    + unfold c_normal. rewrite M, wall_up, !stand_apply, cos_0, sin_0. change (rb_normal wide) with (V 0 1 0 : pt).
      match goal with |- punit ?v = _ => replace v with (V (-1) 0 0 : pt) by (apply vec_eq; vunf; ring) end.
      apply punit_unit. vunf. ring.
Qed.
