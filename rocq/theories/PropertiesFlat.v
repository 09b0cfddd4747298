(** * Properties of the contact of one rib with a flat ground, and of the
    sampling method on any ground (exact arithmetic, ER.v). *)
From Coq Require Import ZArith Bool Reals Lra Lia String List.
From Verif Require Import Base Num Vec Geom Ground Rib ER SpecGeom SpecRib.
From Verif Require Import ProofGeom ProofInt ProofSegArea ProofFlat ProofSample.
Import ListNotations.
Local Open Scope R_scope.

(** Every rib built by the constructor from real numbers, with a positive
    radius and a non-negative width, is such a rib. *)
Lemma constructed_rib : forall id radius y width angle, 0 < radius -> 0 <= width ->
  exists r, mk_rib id (Fin radius) (Fin y) (Fin width) (Fin angle) = frib r /\ good_rib r /\
    rb_radius r = radius /\ rb_width r = width /\ rb_center r = V 0 y 0.
Proof.
  intros id radius y width angle HR HW.
  exists (Rib (Disk radius (Plane (V 0 y 0) (V 0 1 0))) id y width angle).
  split; [reflexivity|]. repeat split; auto. unfold rb_normal, dnormal. cbn. vunf. ring.
Qed.

(** ** C38 *)
Theorem C38_contact_point : forall gb r a gp f o, good_rib r -> rigid a -> is_unit (pnormal gp) ->
  envelop_flat gb (frib r) (fflat gp f) (fa a) "geometric" = Ret (true, o) ->
  exists p, o_point o = fv p /\ on_plane gp p /\ on_plane (dplane (posed_disk r a)) p /\
    (forall q, on_plane gp q -> on_plane (dplane (posed_disk r a)) q ->
       dist p (place a (rb_center r)) <= dist q (place a (rb_center r))) /\
    o_normal o = fv (pnormal gp) /\
    o_depth o = Fin (rb_radius r - dist p (place a (rb_center r))) /\
    0 < rb_radius r - dist p (place a (rb_center r)) <= rb_radius r.
Proof. exact flat_contact_point. Qed.
Print Assumptions C38_contact_point.

Definition one_rib : rib R := Rib (Disk 1 (Plane (V 0 0 0) (V 0 1 0))) 0 0 (1 / 2) 0.
Definition at_height (z : R) : affine R := Aff (M3 1 0 0 0 1 0 0 0 1) (V 0 0 z).
Definition tilted : plane R := Plane (V 0 0 0) (V (3 / 5) 0 (4 / 5)).
Definition level_ground : plane R := Plane (V 0 0 0) (V 0 0 1).
Lemma one_rib_good : good_rib one_rib.
Proof. unfold good_rib, one_rib, rb_radius, rb_width, rb_normal, dnormal. cbn. vunf. repeat split; lra. Qed.
Lemma at_height_rigid : forall z, rigid (at_height z).
Proof.
  intros. unfold rigid, rotation, at_height, is_unit, pcol0, pcol1, pcol2. cbn [lin m00 m01 m02 m10 m11 m12 m20 m21 m22].
  repeat split; try (vunf; ring). apply vec_eq; vunf; ring.
Qed.
Lemma tilted_unit : is_unit (pnormal tilted).
Proof. unfold tilted. cbn [pnormal]. vunf. field. Qed.
Lemma eps_small : eps < / 4.
Proof. unfold eps. apply Rinv_lt_contravar; lra. Qed.

Example C38_example : good_rib one_rib /\ rigid (at_height (1 / 2)) /\ is_unit (pnormal tilted) /\
  forall gb, exists o, envelop_flat gb (frib one_rib) (fflat tilted (1 / 2)) (fa (at_height (1 / 2))) "geometric" = Ret (true, o).
Proof.
  split; [apply one_rib_good|]. split; [apply at_height_rigid|]. split; [apply tilted_unit|].
  intros [[[g0 g1] g2] g3]. cbn [envelop_flat String.eqb].
  pose proof (proj2 (flat_contact_iff one_rib (at_height (1 / 2)) tilted (1 / 2) one_rib_good (at_height_rigid _) tilted_unit)) as H.
  destruct (envelop_geometric_flat _ _ _) as [b o]. exists o. cbn [fst] in H. simpl. rewrite H; auto.
  pose proof eps_small. unfold sin2, center_height, place, at_height, one_rib, tilted, rb_radius, rb_normal, rb_center, dnormal, dcenter, papply.
  cbn. vunf. split; lra.
Qed.

(** ** C39: contact exactly when the sine of the angle between the rib plane
    and the ground, and the chord, pass the tolerance. *)
Theorem C39_detection : forall gb r a gp f b o, good_rib r -> rigid a -> is_unit (pnormal gp) ->
  envelop_flat gb (frib r) (fflat gp f) (fa a) "geometric" = Ret (b, o) ->
  let s2 := sin2 (pnormal gp) (papply (lin a) (rb_normal r)) in
  b = true <-> eps <= s2 /\ eps <= s2 * (rb_radius r * rb_radius r) - center_height r a gp * center_height r a gp.
Proof. exact flat_detection. Qed.
Print Assumptions C39_detection.

Theorem C39_no_false_contact : forall gb r a gp f b o, good_rib r -> rigid a -> is_unit (pnormal gp) ->
  envelop_flat gb (frib r) (fflat gp f) (fa a) "geometric" = Ret (b, o) ->
  (forall q, on_plane gp q -> ~ in_disk (posed_disk r a) q) -> b = false.
Proof. exact flat_no_false_contact. Qed.
Print Assumptions C39_no_false_contact.

(** The quantity compared with the tolerance is the squared half chord times
    [s2]: both planes meet the rim at distance [sqrt] of it from each other's
    middle. *)
Theorem C39_chord : forall r a gp p q, good_rib r -> rigid a -> is_unit (pnormal gp) ->
  let s2 := sin2 (pnormal gp) (papply (lin a) (rb_normal r)) in 0 < s2 ->
  on_plane gp p -> on_plane gp q -> on_circle (posed_disk r a) p -> on_circle (posed_disk r a) q -> p <> q ->
  s2 * (dist p q / 2) ^ 2 = s2 * (rb_radius r * rb_radius r) - center_height r a gp * center_height r a gp.
Proof. exact flat_chord. Qed.
Print Assumptions C39_chord.

Example C39_example : on_plane level_ground (V 3 4 0) /\ ~ in_disk (posed_disk one_rib (at_height 2)) (V 3 4 0) /\
  forall q, on_plane level_ground q -> ~ in_disk (posed_disk one_rib (at_height 2)) q.
Proof.
  assert (G : forall q, on_plane level_ground q -> ~ in_disk (posed_disk one_rib (at_height 2)) q).
  { intros q H [_ D]. unfold level_ground, on_plane in H. cbn [porigin pnormal] in H.
    change (porigin (dplane (posed_disk one_rib (at_height 2)))) with (place (at_height 2) (rb_center one_rib)) in D.
    replace (place (at_height 2) (rb_center one_rib)) with (V 0 0 2) in D
      by (unfold at_height, one_rib, rb_center, dcenter, place, papply, padd; cbn; apply vec_eq; cbn; ring).
    change (dradius (posed_disk one_rib (at_height 2))) with 1 in D.
    assert (E : dist q (V 0 0 2) * dist q (V 0 0 2) = pdot (psub q (V 0 0 2)) (psub q (V 0 0 2))) by apply pnorm_sq.
    pose proof (pnorm_nonneg (psub q (V 0 0 2))) as P. unfold dist in *. set (m := pnorm _) in *. clearbody m. vunf.
    assert (vz q = 0) by lra. pose proof (Rle_0_sqr (vx q)). pose proof (Rle_0_sqr (vy q)). unfold Rsqr in *. nra. }
  split; [unfold level_ground, on_plane; cbn [porigin pnormal]; vunf; ring|]. split; auto.
  apply G. unfold level_ground, on_plane. cbn [porigin pnormal]. vunf. ring.
Qed.

(** ** C40: area and volume of the circular segment. *)
Theorem C40_area : forall r d w, 0 < r -> 0 <= d <= 2 * r -> seg_area (Fin r) (Fin d) (Fin w) = Fin (chord r d * w).
Proof. exact f_seg_area. Qed.
Print Assumptions C40_area.

(** Monotone, from 0 to the volume of the whole disk, with derivative chord
    times width: this determines the volume for all depths. *)
Theorem C40_volume : forall r w, 0 < r -> 0 <= w ->
  exists vol : R -> R,
    (forall d, 0 <= d <= 2 * r -> seg_volume (Fin r) (Fin d) (Fin w) = Fin (vol d)) /\
    vol 0 = 0 /\ vol (2 * r) = PI * (r * r) * w /\
    (forall d d', 0 <= d <= d' -> d' <= 2 * r -> vol d <= vol d') /\
    (forall d, 0 < d < 2 * r -> derivable_pt_lim vol d (chord r d * w)).
Proof. exact volume_characterised. Qed.
Print Assumptions C40_volume.

(** These are the area and volume reported by both methods. *)
Theorem C40_reported_flat : forall gb r a gp f o, good_rib r -> rigid a -> is_unit (pnormal gp) ->
  envelop_flat gb (frib r) (fflat gp f) (fa a) "geometric" = Ret (true, o) ->
  exists d, o_depth o = Fin d /\ 0 <= d <= 2 * rb_radius r /\
    o_area o = seg_area (Fin (rb_radius r)) (Fin d) (Fin (rb_width r)) /\
    o_volume o = seg_volume (Fin (rb_radius r)) (Fin d) (Fin (rb_width r)).
Proof. exact flat_area_volume. Qed.
Print Assumptions C40_reported_flat.

Theorem C40_reported_sampling : forall gb r ground pose o, 0 < rb_radius r -> 0 <= rb_width r ->
  envelop gb (frib r) ground pose "sampling" = Ret (true, o) ->
  exists d, o_depth o = Fin d /\ 0 <= d <= 2 * rb_radius r /\
    o_area o = seg_area (Fin (rb_radius r)) (Fin d) (Fin (rb_width r)) /\
    o_volume o = seg_volume (Fin (rb_radius r)) (Fin d) (Fin (rb_width r)).
Proof. exact sampling_area_volume. Qed.
Print Assumptions C40_reported_sampling.

Example C40_example : seg_area (Fin 1) (Fin 1) (Fin (1 / 2)) = Fin 1 /\
  seg_volume (Fin 1) (Fin 1) (Fin (1 / 2)) = Fin (PI / 4).
Proof.
  split.
  - rewrite f_seg_area by lra. f_equal. unfold chord. replace (1 * 1 - (1 - 1) * (1 - 1)) with 1 by ring. rewrite sqrt_1. lra.
  - rewrite f_seg_volume by lra. f_equal. rewrite rvol_half by lra. lra.
Qed.

(** ** C41 *)
Theorem C41_lowering : forall gb r a go f k b o b' o', good_rib r -> rigid a ->
  vz (papply (lin a) (rb_normal r)) = 0 -> 0 <= k -> vz go <= vz (place a (rb_center r)) - k ->
  envelop_flat gb (frib r) (fflat (Plane go (V 0 0 1)) f) (fa a) "geometric" = Ret (b, o) ->
  envelop_flat gb (frib r) (fflat (Plane go (V 0 0 1)) f) (fa (lowered a k)) "geometric" = Ret (b', o') ->
  exists d d', o_depth o = Fin d /\ o_depth o' = Fin d' /\ d <= d'.
Proof. exact flat_lowering. Qed.
Print Assumptions C41_lowering.

(** Once the center is below the ground the depth decreases again. *)
Theorem C41_lowering_refuted : exists r a go k, good_rib r /\ rigid a /\ vz (papply (lin a) (rb_normal r)) = 0 /\ 0 <= k /\
  forall gb f, exists o o' d d',
    envelop_flat gb (frib r) (fflat (Plane go (V 0 0 1)) f) (fa a) "geometric" = Ret (true, o) /\
    envelop_flat gb (frib r) (fflat (Plane go (V 0 0 1)) f) (fa (lowered a k)) "geometric" = Ret (true, o') /\
    o_depth o = Fin d /\ o_depth o' = Fin d' /\ d' < d.
Proof.
  exists one_rib, (at_height 0), (V 0 0 0), (1 / 2).
  assert (Z : vz (papply (lin (at_height 0)) (rb_normal one_rib)) = 0).
  { unfold at_height, one_rib, rb_normal, dnormal, papply. cbn. ring. }
  split; [apply one_rib_good|]. split; [apply at_height_rigid|]. split; [exact Z|]. split; [lra|].
  intros [[[g0 g1] g2] g3] f. cbn [envelop_flat String.eqb].
  destruct (upright_depth one_rib (at_height 0) (V 0 0 0) f one_rib_good (at_height_rigid _) Z) as [D B].
  destruct (upright_depth one_rib (lowered (at_height 0) (1 / 2)) (V 0 0 0) f one_rib_good (rigid_lowered _ _ (at_height_rigid _)) Z) as [D' B'].
  rewrite place_lowered in D', B'.
  replace (vz (place (at_height 0) (rb_center one_rib))) with 0 in * by (unfold at_height, one_rib, rb_center, dcenter, place, papply, padd; cbn; ring).
  change (rb_radius one_rib) with 1 in *. change (vz (V 0 0 0)) with 0 in *.
  pose proof eps_small as ES.
  replace (rltb (1 * 1 - (0 - 0) * (0 - 0)) eps) with false in * by (symmetry; apply rltb_false; lra).
  replace (rltb (1 * 1 - (0 - 1 / 2 - 0) * (0 - 1 / 2 - 0)) eps) with false in * by (symmetry; apply rltb_false; lra).
  destruct (envelop_geometric_flat _ _ (fa (at_height 0))) as [b o].
  destruct (envelop_geometric_flat _ _ (fa (lowered _ _))) as [b' o']. cbn [fst snd negb] in *. subst b b'.
  exists o, o'. do 2 eexists. split; [reflexivity|]. split; [reflexivity|]. split; [exact D|]. split; [exact D'|].
  rewrite (Rabs_pos_eq (0 - 0)) by lra. rewrite Rabs_left by lra. lra.
Qed.
Print Assumptions C41_lowering_refuted.

Example C41_example : good_rib one_rib /\ rigid (at_height 2) /\
  vz (papply (lin (at_height 2)) (rb_normal one_rib)) = 0 /\ 0 <= 3 / 2 /\
  vz (V 0 0 0) <= vz (place (at_height 2) (rb_center one_rib)) - 3 / 2.
Proof.
  split; [apply one_rib_good|]. split; [apply at_height_rigid|].
  unfold at_height, one_rib, rb_center, rb_normal, dnormal, dcenter, place, papply, padd; cbn. repeat split; lra.
Qed.

(** ** C42, sampling method. *)
Theorem C42_sampling_friction : forall gb r a gp f o, good_rib r -> rigid a -> is_unit (pnormal gp) ->
  envelop_flat gb (frib r) (fflat gp f) (fa a) "sampling" = Ret (true, o) -> o_friction o = Fin f.
Proof. exact flat_sampling_friction. Qed.
Print Assumptions C42_sampling_friction.

(** ** C43 *)
Theorem C43_sampling_flat : forall gb r a gp f o, good_rib r -> rigid a -> is_unit (pnormal gp) ->
  envelop_flat gb (frib r) (fflat gp f) (fa a) "sampling" = Ret (true, o) ->
  exists p n d, o_point o = fv p /\ on_plane gp p /\
    o_normal o = fv n /\ (n = pnormal gp \/ n = pscale (-1) (pnormal gp)) /\
    o_depth o = Fin d /\ 0 < d <= rb_radius r.
Proof. exact flat_sampling_geometry. Qed.
Print Assumptions C43_sampling_flat.

(** The sign: the normal points upwards exactly when the pose is not upside
    down. *)
Theorem C43_normal_side : forall gb r a gp f o, good_rib r -> rigid a -> is_unit (pnormal gp) ->
  envelop_flat gb (frib r) (fflat gp f) (fa a) "sampling" = Ret (true, o) ->
  exists n, o_normal o = fv n /\ 0 < vz n * vz (papply (lin a) (V 0 0 1)).
Proof. exact flat_sampling_side. Qed.
Print Assumptions C43_normal_side.

Lemma level_sampling : forall gb, exists o,
  envelop_flat gb (frib one_rib) (fflat level_ground (1 / 2)) (fa (at_height (1 / 2))) "sampling" = Ret (true, o).
Proof.
  intros [[[g0 g1] g2] g3]. unfold envelop_flat. cbn [String.eqb Ascii.eqb Bool.eqb].
  destruct (level_sampling_contact one_rib (1 / 2) (1 / 2) g0 g1 g2 g3) as [o H];
    try (unfold one_rib, rb_radius, rb_width; cbn; lra); [reflexivity|].
  exists o. f_equal. exact H.
Qed.
Example C43_example : good_rib one_rib /\ rigid (at_height (1 / 2)) /\ is_unit (pnormal level_ground) /\
  forall gb, exists o,
  envelop_flat gb (frib one_rib) (fflat level_ground (1 / 2)) (fa (at_height (1 / 2))) "sampling" = Ret (true, o).
Proof.
  split; [apply one_rib_good|]. split; [apply at_height_rigid|].
  split; [unfold level_ground; cbn [pnormal]; vunf; ring|]. exact level_sampling.
Qed.

(** ** C46: any list of triangles and any pose, infinite or NaN entries
    included. *)
Theorem C46_bounds : forall gb r ground pose o, 0 < rb_radius r -> 0 <= rb_width r ->
  envelop gb (frib r) ground pose "sampling" = Ret (true, o) ->
  exists d ar vol, o_depth o = Fin d /\ 0 < d <= rb_radius r /\ o_area o = Fin ar /\ 0 <= ar /\
    o_volume o = Fin vol /\ 0 <= vol.
Proof. exact sampling_all_bounds. Qed.
Print Assumptions C46_bounds.

(** A large level triangle under the wheel. *)
Definition big_tri : triangle R := Triangle (V (-2) (-2) 0) (V 4 (-2) 0) (V (-2) 4 0).
Lemma big_hit : forall x y z, - / 2 <= x <= / 2 -> - / 2 <= y <= / 2 ->
  int_line_triangle (Line (fv (V x y z)) (vopp unit_z)) (ftri big_tri) neps = Some (fv (V x y 0)).
Proof.
  intros x y z Hx Hy. change (Line (fv (V x y z)) (vopp unit_z)) with (fline (Line (V x y z) (V (- 0) (- 0) (- 1)))).
  rewrite neps_eps. apply line_triangle_complete; [apply eps_pos| | |].
  - exists z. apply vec_eq; vunf; ring.
  - exists (1 - (x + 2) / 6 - (y + 2) / 6), ((x + 2) / 6), ((y + 2) / 6). repeat split; try lra.
    apply vec_eq; unfold big_tri; vunf; field.
  - unfold big_tri. cbn [ldir tv0 tv1 tv2]. 
    match goal with |- _ <= Rabs ?v => replace v with 36 by (vunf; ring) end.
    rewrite Rabs_pos_eq by lra. pose proof eps_lt1. lra.
Qed.
Example C46_example : exists t : tground er,
  mk_tground 0 (Fin (1 / 2)) (fv (V (-2) (-2) 0)) (fv (V 4 (-2) 0)) (fv (V (-2) 4 0)) = Ret t /\
  forall gb, exists o, envelop gb (frib one_rib) [t] (fa (at_height (1 / 2))) "sampling" = Ret (true, o).
Proof.
  assert (F : nle (nofZ 0) (Fin (1 / 2)) = true) by (cbn; apply rleb_true; lra).
  unfold mk_tground. rewrite F. eexists. split; [reflexivity|].
  intros [[[g0 g1] g2] g3]. unfold envelop. cbn [String.eqb Ascii.eqb Bool.eqb].
  destruct (level_sampling (g0, g1, g2, g3)) as [o H]. exists o. rewrite <- H.
  unfold envelop_flat. cbn [String.eqb Ascii.eqb Bool.eqb]. f_equal.
  unfold envelop_sampling, envelop_sampling_flat. apply sampling_with_ext.
  rewrite f_lines.
  assert (E : place (at_height (1 / 2)) (rb_center one_rib) = V 0 0 (1 / 2))
    by (unfold at_height, one_rib, rb_center, dcenter, place, papply, padd; cbn; apply vec_eq; cbn; ring).
  rewrite E. change (pcol0 (lin (at_height (1 / 2)))) with (V 1 0 0). change (pcol1 (lin (at_height (1 / 2)))) with (V 0 1 0).
  change (rb_radius one_rib) with 1. change (rb_width one_rib) with (1 / 2).
  assert (G : forall g : tground er, tg_tri g = ftri big_tri -> tg_friction g = Fin (1 / 2) ->
    forall x y, - / 2 <= x <= / 2 -> - / 2 <= y <= / 2 ->
    sampling_line [g] (Line (fv (V x y (1 / 2))) (vopp unit_z)) =
    sampling_line_flat (fflat level_ground (1 / 2)) (Line (fv (V x y (1 / 2))) (vopp unit_z))).
  { intros g T Fr x y Hx Hy. rewrite flat_line_hit.
    2:{ unfold level_ground. cbn [pnormal vz]. rewrite Rabs_pos_eq by lra. apply eps_lt1. }
    unfold sampling_line, sampling_hits. cbn [flat_map app]. rewrite T, Fr, big_hit by auto. cbn [app fold_left].
    f_equal. f_equal. f_equal. unfold level_ground. cbn [porigin pnormal]. apply vec_eq; vunf; field. }
  replace (padd (V 0 0 (1 / 2)) (pscale (1 / 10 * 1) (V 1 0 0))) with (V (1 / 10) 0 (1 / 2)) by (apply vec_eq; vunf; field).
  replace (psub (V 0 0 (1 / 2)) (pscale (1 / 10 * 1) (V 1 0 0))) with (V (- (1 / 10)) 0 (1 / 2)) by (apply vec_eq; vunf; field).
  replace (padd (V 0 0 (1 / 2)) (pscale (3 / 10 * (1 / 2)) (V 0 1 0))) with (V 0 (3 / 20) (1 / 2)) by (apply vec_eq; vunf; field).
  replace (psub (V 0 0 (1 / 2)) (pscale (3 / 10 * (1 / 2)) (V 0 1 0))) with (V 0 (- (3 / 20)) (1 / 2)) by (apply vec_eq; vunf; field).
  repeat split; apply G; try reflexivity; lra.
Qed.
