(** * A cut whose ends are on the rib circle. *)
From Coq Require Import ZArith Bool Reals Lra Lia List.
From Verif Require Import Base Num Vec Aabb Geom Ground Rib ER SpecGeom SpecRib SpecAvg SpecPose.
From Verif Require Import ProofGeom ProofInt ProofTri ProofSegArea ProofFlat ProofAvg ProofMeshGeo ProofPolar ProofMeshEval.
Import ListNotations.
Local Open Scope R_scope.

Lemma lagrange : forall u v, pdot (pcross u v) (pcross u v) = pdot u u * pdot v v - pdot u v * pdot u v.
Proof. intros u v. vunf. ring. Qed.
Lemma only_zero : forall m w, rotation m -> pdot w (pcol0 m) = 0 -> pdot w (pcol1 m) = 0 -> pdot w (pcol2 m) = 0 -> w = V 0 0 0.
Proof.
  intros m w (U0 & U1 & U2 & O01 & O12 & O20 & C) H0 H1 H2.
  assert (E : pcross w (pcol2 m) = V 0 0 0).
  { rewrite <- C. replace (pcross w (pcross (pcol0 m) (pcol1 m))) with (psub (pscale (pdot w (pcol1 m)) (pcol0 m)) (pscale (pdot w (pcol0 m)) (pcol1 m)))
      by (apply vec_eq; vunf; ring). rewrite H0, H1. apply vec_eq; vunf; ring. }
  pose proof (lagrange w (pcol2 m)) as L. rewrite E, H2, U2 in L.
  apply pdot_zero. replace (pdot (V 0 0 0) (V 0 0 0)) with 0 in L by (vunf; ring). lra.
Qed.
Lemma trans_apply : forall m v, rotation m -> papply m (papply (ptrans m) v) = v.
Proof.
  intros m v HM.
  assert (Z : psub (papply m (papply (ptrans m) v)) v = V 0 0 0).
  { assert (E : papply m (papply (ptrans m) v) =
      padd (padd (pscale (pdot v (pcol0 m)) (pcol0 m)) (pscale (pdot v (pcol1 m)) (pcol1 m))) (pscale (pdot v (pcol2 m)) (pcol2 m))).
    { unfold ptrans, papply, pcol0, pcol1, pcol2. cbn [m00 m01 m02 m10 m11 m12 m20 m21 m22]. apply vec_eq; vunf; ring. }
    rewrite E. destruct HM as (U0 & U1 & U2 & O01 & O12 & O20 & C).
    apply (only_zero m); [repeat split; auto|..];
      rewrite !pdot_sub_l, !pdot_add_l, !pdot_scale_l, ?U0, ?U1, ?U2, ?O01, ?O12, ?O20, ?(pdot_comm (pcol1 m) (pcol0 m)), ?(pdot_comm (pcol2 m) (pcol1 m)), ?(pdot_comm (pcol0 m) (pcol2 m)), ?O01, ?O12, ?O20; ring. }
  assert (X : forall p q : pt, psub p q = V 0 0 0 -> p = q).
  { intros p q H. assert (H1 := f_equal vx H). assert (H2 := f_equal vy H). assert (H3 := f_equal vz H).
    unfold psub in *. cbn in *. apply vec_eq; lra. }
  now apply X.
Qed.

Section Local.
  Variables (r : rib R) (a : affine R).
  Hypothesis HR : good_rib r.
  Hypothesis HN : rb_normal r = V 0 1 0.
  Hypothesis HA : rigid a.
  Let cg := place a (rb_center r).
  Let D := posed_disk r a.

  Lemma from_local : forall p, place a (padd (rb_center r) (in_rib r a p)) = p.
  Proof.
    intros p. unfold in_rib. fold cg.
    replace (place a (padd (rb_center r) (papply (ptrans (lin a)) (psub p cg))))
      with (padd cg (papply (lin a) (papply (ptrans (lin a)) (psub p cg)))) by (unfold cg, place; apply vec_eq; vunf; ring).
    rewrite trans_apply by exact HA. apply vec_eq; vunf; ring.
  Qed.
  Lemma place_diff : forall p q, psub (place a p) (place a q) = papply (lin a) (psub p q).
  Proof. intros. unfold place. apply vec_eq; vunf; ring. Qed.
  Lemma dist_place : forall p q, dist (place a p) (place a q) = dist p q.
  Proof. intros p q. unfold dist, pnorm. now rewrite place_diff, rotation_isometry by exact HA. Qed.
  Lemma dist_local : forall p q, dist p q = dist (in_rib r a p) (in_rib r a q).
  Proof.
    intros p q. rewrite <- (from_local p) at 1. rewrite <- (from_local q) at 1. rewrite dist_place.
    unfold dist. f_equal. apply vec_eq; vunf; ring.
  Qed.
  Lemma norm_local : forall p, pnorm (in_rib r a p) = dist p cg.
  Proof.
    intros p. rewrite <- (from_local p) at 2. unfold cg. rewrite dist_place. unfold dist. f_equal. apply vec_eq; vunf; ring.
  Qed.
  Lemma local_flat : forall p, on_plane (dplane D) p -> vy (in_rib r a p) = 0.
  Proof.
    intros p H. unfold on_plane, D, posed_disk in H. cbn [dplane porigin pnormal] in H. rewrite HN in H. fold cg in H.
    rewrite <- H. unfold in_rib. fold cg. unfold ptrans, papply. cbn [m00 m01 m02 m10 m11 m12 m20 m21 m22]. vunf. ring.
  Qed.
  Lemma local_circle : forall p, on_circle D p ->
    in_rib r a p = V (rb_radius r * cos (ang r a p)) 0 (rb_radius r * sin (ang r a p)) /\ - PI < ang r a p <= PI /\ rad_at r a p = rb_radius r.
  Proof.
    intros p [HP HD]. pose proof (local_flat p HP) as Y. change (porigin (dplane D)) with cg in HD. change (dradius D) with (rb_radius r) in HD.
    rewrite <- norm_local in HD. destruct HR as [RP _].
    unfold rad_at. rewrite HD, Rmin_left by lra.
    assert (HH : hyp (vx (in_rib r a p)) (vz (in_rib r a p)) = rb_radius r).
    { rewrite <- HD. unfold hyp, pnorm. f_equal. unfold pdot. rewrite Y. ring. }
    assert (N : vx (in_rib r a p) <> 0 \/ vz (in_rib r a p) <> 0).
    { destruct (Req_dec (vx (in_rib r a p)) 0) as [E|E]; [right|now left]. intros E'. rewrite E, E' in HH. unfold hyp in HH.
      rewrite Rmult_0_l, Rplus_0_l, sqrt_0 in HH. lra. }
    destruct (atan2_polar _ _ N) as (A & B & C). rewrite HH in A, B. fold (ang r a p) in A, B, C.
    split; [|auto]. apply vec_eq; cbn [vx vy vz]; auto.
  Qed.
End Local.

Section Chord.
  Variables (r : rib R) (a : affine R).
  Hypothesis HR : good_rib r.
  Hypothesis HN : rb_normal r = V 0 1 0.
  Hypothesis HA : rigid a.
  Let cg := place a (rb_center r).
  Let D := posed_disk r a.
  Let R0 := rb_radius r.
  Variable s : segment R.
  Hypothesis H0 : on_circle D (sv0 s).
  Hypothesis H1 : on_circle D (sv1 s).
  Hypothesis HNE : sv0 s <> sv1 s.
  Let t0 := ang r a (sv0 s).
  Let t1 := ang r a (sv1 s).
  Let h := half_ang r a s.
  Let m := mid_ang r a s.

  Lemma chord_angles : 0 < h < PI.
  Proof.
    destruct (local_circle r a HR HN HA _ H0) as (E0 & B0 & _). destruct (local_circle r a HR HN HA _ H1) as (E1 & B1 & _).
    fold t0 in E0, B0. fold t1 in E1, B1.
    assert (NE : t0 <> t1).
    { intros E. apply HNE. rewrite <- (from_local r a HA (sv0 s)), <- (from_local r a HA (sv1 s)), E0, E1, E. reflexivity. }
    unfold h, half_ang, hi_ang, lo_ang. fold t0 t1. unfold Rmax, Rmin. destruct (Rle_dec t0 t1); lra.
  Qed.
  (** The two ends, from the mean and the half angle. *)
  Lemma chord_ends : (t0 = m - h /\ t1 = m + h) \/ (t0 = m + h /\ t1 = m - h).
  Proof.
    unfold m, h, mid_ang, half_ang, hi_ang, lo_ang. fold t0 t1. unfold Rmax, Rmin. destruct (Rle_dec t0 t1); [left|right]; split; field.
  Qed.
  Lemma chord_dist : dist (sv0 s) (sv1 s) = 2 * R0 * sin h.
  Proof.
    destruct (local_circle r a HR HN HA _ H0) as (E0 & _ & _). destruct (local_circle r a HR HN HA _ H1) as (E1 & _ & _).
    rewrite (dist_local r a HA), E0, E1. fold t0 t1 R0. pose proof chord_angles as HB.
    assert (SP : 0 < sin h) by (apply sin_gt_0; lra). destruct HR as [RP _]. fold R0 in RP.
    unfold dist. apply pnorm_eq; [nra|]. 
    assert (G : forall u v, R0 * cos u - R0 * cos v = -2 * R0 * sin ((u - v) / 2) * sin ((u + v) / 2)).
    { intros u v. replace (R0 * cos u - R0 * cos v) with (R0 * (cos u - cos v)) by ring. rewrite form2. ring. }
    assert (G' : forall u v, R0 * sin u - R0 * sin v = 2 * R0 * cos ((u + v) / 2) * sin ((u - v) / 2)).
    { intros u v. replace (R0 * sin u - R0 * sin v) with (R0 * (sin u - sin v)) by ring. rewrite form4. ring. }
    unfold pdot, psub. cbn [vx vy vz]. rewrite G, G'.
    assert (SQ : sin ((t0 - t1) / 2) * sin ((t0 - t1) / 2) = sin h * sin h).
    { destruct chord_ends as [[-> ->]|[-> ->]].
      - replace ((m - h - (m + h)) / 2) with (- h) by field. rewrite sin_neg. ring.
      - now replace ((m + h - (m - h)) / 2) with h by field. }
    pose proof (sin2_cos2 ((t0 + t1) / 2)) as SC. unfold Rsqr in SC.
    transitivity (4 * R0 * R0 * (sin ((t0 - t1) / 2) * sin ((t0 - t1) / 2)) * (sin ((t0 + t1) / 2) * sin ((t0 + t1) / 2) + cos ((t0 + t1) / 2) * cos ((t0 + t1) / 2))); [ring|].
    rewrite SC, SQ. ring.
  Qed.
  Lemma chord_volume : c_volume r a s = (R0 * R0 * (h - sin (2 * h) / 2)) * rb_width r.
  Proof.
    unfold c_volume. fold h. replace (hi_ang r a s - lo_ang r a s) with (2 * h) by (unfold h, half_ang; field).
    destruct (local_circle r a HR HN HA _ H0) as (_ & _ & ->). destruct (local_circle r a HR HN HA _ H1) as (_ & _ & ->). fold R0. field.
  Qed.
  Lemma chord_midpoint : pscale (1 / 2) (padd (sv0 s) (sv1 s)) =
    place a (padd (rb_center r) (pscale (R0 * cos h) (V (cos m) 0 (sin m)))).
  Proof.
    destruct (local_circle r a HR HN HA _ H0) as (E0 & _ & _). destruct (local_circle r a HR HN HA _ H1) as (E1 & _ & _).
    rewrite <- (from_local r a HA (sv0 s)) at 1. rewrite <- (from_local r a HA (sv1 s)) at 1. rewrite E0, E1. fold t0 t1 R0.
    assert (C : cos t0 + cos t1 = 2 * cos h * cos m).
    { destruct chord_ends as [[-> ->]|[-> ->]]; rewrite cos_minus, cos_plus; ring. }
    assert (S : sin t0 + sin t1 = 2 * cos h * sin m).
    { destruct chord_ends as [[-> ->]|[-> ->]]; rewrite sin_minus, sin_plus; ring. }
    assert (C1 : cos t1 = 2 * cos h * cos m - cos t0) by lra. assert (S1 : sin t1 = 2 * cos h * sin m - sin t0) by lra.
    rewrite C1, S1. unfold place. apply vec_eq; vunf; field.
  Qed.
  Lemma chord_radius : eps <= 2 * R0 -> rad_c r a s = Rmin R0 (Rmax 0 (R0 * cos h)).
  Proof.
    intros E. unfold rad_c. destruct (local_circle r a HR HN HA _ H0) as (_ & _ & ->). destruct (local_circle r a HR HN HA _ H1) as (_ & _ & ->).
    fold R0 h. rewrite (Rmax_right eps) by lra. do 2 f_equal. field. destruct HR. fold R0 in H. lra.
  Qed.
  Lemma chord_point : eps <= 2 * R0 -> h <= PI / 2 -> c_point r a s = pscale (1 / 2) (padd (sv0 s) (sv1 s)).
  Proof.
    intros E HL. rewrite chord_midpoint. unfold c_point. fold m. rewrite chord_radius by auto.
    pose proof chord_angles. assert (0 <= cos h) by (apply cos_ge_0; lra). pose proof (COS_bound h).
    destruct HR as [RP _]. fold R0 in RP. rewrite Rmax_right, Rmin_right by nra. reflexivity.
  Qed.
  Lemma chord_center : h <= PI / 2 -> dist (pscale (1 / 2) (padd (sv0 s) (sv1 s))) cg = R0 * cos h.
  Proof.
    intros HL. rewrite chord_midpoint. unfold cg. rewrite dist_place by exact HA. pose proof chord_angles.
    assert (0 <= cos h) by (apply cos_ge_0; lra). destruct HR as [RP _]. fold R0 in RP.
    unfold dist. apply pnorm_eq; [nra|]. pose proof (sin2_cos2 m) as E. unfold Rsqr in E. vunf.
    match goal with |- ?x = _ => transitivity (R0 * cos h * (R0 * cos h) * (sin m * sin m + cos m * cos m)); [ring|rewrite E; ring] end.
  Qed.
  (** The circular segment below the chord. *)
  Lemma chord_rvol : h <= PI / 2 -> c_volume r a s = rvol R0 (rb_width r) (R0 - R0 * cos h).
  Proof.
    intros HL. pose proof chord_angles. destruct HR as [RP _]. fold R0 in RP.
    assert (0 <= cos h) by (apply cos_ge_0; lra). pose proof (COS_bound h).
    rewrite rvol_theta by nra. rewrite chord_volume.
    replace (theta R0 (R0 - R0 * cos h)) with h; [ring|]. unfold theta.
    replace ((R0 - (R0 - R0 * cos h)) / R0) with (cos h) by (field; lra). symmetry. apply acos_cos. lra.
  Qed.
  Lemma chord_len : h <= PI / 2 -> dist (sv0 s) (sv1 s) = chord R0 (R0 - R0 * cos h).
  Proof.
    intros HL. rewrite chord_dist. unfold chord. pose proof chord_angles. destruct HR as [RP _]. fold R0 in RP.
    assert (0 < sin h) by (apply sin_gt_0; lra).
    replace (R0 * R0 - (R0 - (R0 - R0 * cos h)) * (R0 - (R0 - R0 * cos h))) with ((R0 * sin h) * (R0 * sin h)).
    - rewrite sqrt_square by nra. ring.
    - pose proof (sin2_cos2 h) as E. unfold Rsqr in E. transitivity (R0 * R0 * (sin h * sin h)); [ring|].
      replace (sin h * sin h) with (1 - cos h * cos h) by lra. ring.
  Qed.
  Lemma chord_volume_pos : 0 < rb_width r -> 0 < c_volume r a s.
  Proof.
    intros W. rewrite chord_volume. pose proof chord_angles. pose proof (sin_lt_x (2 * h) ltac:(lra)).
    destruct HR as [RP _]. fold R0 in RP. apply Rmult_lt_0_compat; auto. apply Rmult_lt_0_compat; nra.
  Qed.
  (** Both ends under the axle. *)
  Lemma below_half : vz (in_rib r a (sv0 s)) < 0 -> vz (in_rib r a (sv1 s)) < 0 -> h < PI / 2.
  Proof.
    intros B0 B1. destruct (local_circle r a HR HN HA _ H0) as (E0 & I0 & _). destruct (local_circle r a HR HN HA _ H1) as (E1 & I1 & _).
    rewrite E0 in B0. rewrite E1 in B1. cbn [vz] in B0, B1. fold R0 t0 in B0. fold R0 t1 in B1. fold t0 in I0. fold t1 in I1.
    destruct HR as [RP _]. fold R0 in RP.
    assert (N : forall t, - PI < t <= PI -> R0 * sin t < 0 -> t < 0).
    { intros t HT HS. apply Rnot_le_lt. intros L. pose proof (sin_ge_0 t L ltac:(lra)). nra. }
    pose proof (N t0 I0 B0). pose proof (N t1 I1 B1).
    unfold h, half_ang, hi_ang, lo_ang. fold t0 t1. unfold Rmax, Rmin. destruct (Rle_dec t0 t1); lra.
  Qed.
  Lemma chord_kept : dist (sv0 s) (sv1 s) >= eps -> dropped r a s = false.
  Proof. intros E. unfold dropped. replace (rltb (dist _ _) eps) with false by (symmetry; apply rltb_false; lra). apply andb_false_r. Qed.
End Chord.

(** ** Agreement with the flat ground. *)
Lemma lies_near : forall t p tol q, lies_in t p -> near_triangle tol t q -> on_plane p q.
Proof.
  intros t p tol q (P0 & P1 & P2) (x & y & z & _ & _ & _ & E & ->). unfold on_plane in *.
  replace (pdot (psub (bary t x y z) (porigin p)) (pnormal p))
    with (x * pdot (psub (tv0 t) (porigin p)) (pnormal p) + y * pdot (psub (tv1 t) (porigin p)) (pnormal p) +
          z * pdot (psub (tv2 t) (porigin p)) (pnormal p) - (1 - x - y - z) * pdot (porigin p) (pnormal p)).
  - rewrite P0, P1, P2. replace (1 - x - y - z) with 0 by lra. ring.
  - unfold bary. vunf. ring.
Qed.
Lemma same_plane : forall t p, lies_in t p -> is_unit (pnormal p) -> 0 < pdot (tri_cross t) (tri_cross t) ->
  pnormal p = punit (tri_cross t) \/ pnormal p = pscale (-1) (punit (tri_cross t)).
Proof.
  intros t p (P0 & P1 & P2) U C. set (n := pnormal p) in *. set (c := tri_cross t) in *.
  assert (E : pscale (pdot n c) n = c).
  { assert (A1 : pdot (psub (tv1 t) (tv0 t)) n = 0).
    { unfold on_plane in *. fold n in P0, P1. replace (psub (tv1 t) (tv0 t)) with (psub (psub (tv1 t) (porigin p)) (psub (tv0 t) (porigin p))) by (apply vec_eq; vunf; ring).
      rewrite pdot_sub_l. lra. }
    assert (A2 : pdot (psub (tv2 t) (tv0 t)) n = 0).
    { unfold on_plane in *. fold n in P0, P2. replace (psub (tv2 t) (tv0 t)) with (psub (psub (tv2 t) (porigin p)) (psub (tv0 t) (porigin p))) by (apply vec_eq; vunf; ring).
      rewrite pdot_sub_l. lra. }
    assert (X : pcross n c = V 0 0 0).
    { unfold c, tri_cross. set (u := psub (tv1 t) (tv0 t)) in *. set (v := psub (tv2 t) (tv0 t)) in *.
      match goal with |- pcross n ?w = _ => replace w with (pcross u v) end.
      - replace (pcross n (pcross u v)) with (psub (pscale (pdot v n) u) (pscale (pdot u n) v)) by (clearbody u v n; apply vec_eq; vunf; ring).
        rewrite A1, A2. clearbody u v n. apply vec_eq; vunf; ring.
      - unfold u, v. apply vec_eq; vunf; ring. }
    replace (pscale (pdot n c) n) with (padd (pscale (pdot n n) c) (pcross n (pcross n c))).
    - rewrite X. unfold is_unit in U. rewrite U. clearbody n c. apply vec_eq; vunf; ring.
    - clearbody n c. apply vec_eq; vunf; ring. }
  set (k := pdot n c) in *.
  assert (KK : pdot c c = k * k) by (rewrite <- E, pdot_scale_l, pdot_scale_r, U; ring).
  rewrite punit_pos by auto.
  destruct (Rtotal_order k 0) as [L|[Z|G]]; [right| |left].
  - replace (pnorm c) with (- k) by (symmetry; apply pnorm_eq; lra). rewrite <- E at 1. clearbody k n. apply vec_eq; vunf; field; lra.
  - rewrite KK, Z in C. lra.
  - replace (pnorm c) with k by (symmetry; apply pnorm_eq; lra). rewrite <- E at 1. clearbody k n. apply vec_eq; vunf; field; lra.
Qed.

Section Agree.
  Variables (r : rib R) (a : affine R) (gp : plane R) (f : R).
  Hypothesis HR : good_rib r.
  Hypothesis HN : rb_normal r = V 0 1 0.
  Hypothesis HA : rigid a.
  Hypothesis HG : is_unit (pnormal gp).
  Let cg := place a (rb_center r).
  Let D := posed_disk r a.
  Let R0 := rb_radius r.
  Variables (t : triangle R) (g : tground er) (s : segment R) (o : output R).
  Hypothesis Hg : ground_of t f g.
  Hypothesis HT : lies_in t gp.
  Hypothesis HS : int_triangle_disk (tg_tri g) (disk_grd (frib r) (fa a)) neps = Ret (Some (fseg s)).
  Hypothesis H0 : on_circle D (sv0 s).
  Hypothesis H1 : on_circle D (sv1 s).
  Hypothesis B0 : under_axle r a (sv0 s).
  Hypothesis B1 : under_axle r a (sv1 s).
  Hypothesis HF : envelop_geometric_flat (frib r) (fflat gp f) (fa a) = (true, fout o).
  Hypothesis HE : eps < o_area o.

  Let l := pp_line gp (dplane D).
  Let s2 := sin2 (pnormal gp) (papply (lin a) (rb_normal r)).
  Let hh := center_height r a gp.
  Let mid := pscale (1 / 2) (padd (sv0 s) (sv1 s)).

  Lemma flat_big : eps <= s2 /\ eps <= s2 * (R0 * R0) - hh * hh.
  Proof. apply (flat_contact_iff r a gp f HR HA HG). now rewrite HF. Qed.
  Lemma flat_is : fout o = Output (fv (foot l cg)) (fv (pnormal gp)) (Fin f) (Fin (R0 - dist (foot l cg) cg))
            (Fin (chord R0 (R0 - dist (foot l cg) cg) * rb_width r)) (Fin (rvol R0 (rb_width r) (R0 - dist (foot l cg) cg))).
  Proof.
    pose proof (flat_eval r a gp f HR HA HG) as E. cbv zeta in E. rewrite HF in E.
    match type of E with _ = if ?c then _ else _ => destruct c end; [unfold envelop_none in E; discriminate|].
    exact (f_equal snd E).
  Qed.
  Lemma ends_in : on_plane gp (sv0 s) /\ on_plane gp (sv1 s).
  Proof.
    destruct (ground_of_fields _ _ _ Hg) as (E1 & _). pose proof HS as E. rewrite E1, f_disk in E. change (neps : er) with (Fin eps) in E.
    apply triangle_disk_sound in E; [|apply eps_pos|destruct HR; cbn; unfold rb_radius in *; lra|now apply posed_unit].
    destruct E as (s' & ES & _ & _ & N0 & N1 & _).
    assert (s' = s).
    { destruct s as [[x y z] [x' y' z']], s' as [[u v w] [u' v' w']]. unfold fseg, fv in ES. cbn in ES. congruence. }
    subst s'. split; eapply lies_near; eauto.
  Qed.

  Hypothesis HNE : sv0 s <> sv1 s.
  Let h := half_ang r a s.
  Lemma axle_local : forall p, under_axle r a p -> vz (in_rib r a p) < 0.
  Proof.
    intros p H. unfold under_axle in H. fold cg in H. unfold in_rib. fold cg.
    replace (vz (papply (ptrans (lin a)) (psub p cg))) with (pdot (psub p cg) (pcol2 (lin a))); auto.
    unfold ptrans, pcol2. vunf. cbn [m00 m01 m02 m10 m11 m12 m20 m21 m22]. ring.
  Qed.
  Lemma half_small : 0 < h < PI / 2.
  Proof.
    split; [apply (chord_angles r a HR HN HA s H0 H1 HNE)|].
    apply (below_half r a HR HN HA s H0 H1); apply axle_local; assumption.
  Qed.
  Lemma foot_mid : foot l cg = mid.
  Proof.
    destruct flat_big as [F1 F2]. pose proof eps_pos as EP. assert (SP : 0 < s2) by lra.
    destruct ends_in as [P0 P1].
    assert (LP : forall q, on_line l q <-> on_plane gp q /\ on_plane (dplane D) q) by (now apply (l_points r a gp HR HA HG)).
    assert (LL : 0 < pdot (ldir l) (ldir l)) by (unfold l, D; rewrite (l_len r a gp HR HA HG); exact SP).
    destruct (proj2 (LP (sv0 s)) (conj P0 (proj1 H0))) as [k0 E0]. destruct (proj2 (LP (sv1 s)) (conj P1 (proj1 H1))) as [k1 E1].
    apply foot_unique; auto.
    - exists ((k0 + k1) / 2). unfold mid. rewrite E0, E1. apply vec_eq; vunf; field.
    - assert (K : k0 <> k1) by (intros K; apply HNE; rewrite E0, E1, K; reflexivity).
      destruct H0 as [_ D0]. destruct H1 as [_ D1]. change (porigin (dplane D)) with cg in D0, D1.
      assert (Q : pdot (psub (sv0 s) cg) (psub (sv0 s) cg) = pdot (psub (sv1 s) cg) (psub (sv1 s) cg)).
      { rewrite <- !pnorm_sq. unfold dist in D0, D1. rewrite D0, D1. reflexivity. }
      assert (Z : (k1 - k0) * pdot (psub cg mid) (ldir l) = 0).
      { replace ((k1 - k0) * pdot (psub cg mid) (ldir l)) with
          ((pdot (psub (sv0 s) cg) (psub (sv0 s) cg) - pdot (psub (sv1 s) cg) (psub (sv1 s) cg)) / 2); [rewrite Q; field|].
        unfold mid. rewrite E0, E1. set (ol := lorigin l). set (dl := ldir l). clearbody ol dl cg. vunf. field. }
      apply Rmult_integral in Z. destruct Z as [Z|Z]; auto. exfalso. apply K. lra.
  Qed.
  Lemma mid_dist : dist (foot l cg) cg = R0 * cos h.
  Proof. rewrite foot_mid. unfold mid. apply (chord_center r a HR HN HA s H0 H1 HNE). pose proof half_small. unfold h in *. lra. Qed.

  Lemma width_pos : 0 < rb_width r.
  Proof.
    pose proof flat_is as E. apply (f_equal o_area) in E. cbn [fout o_area] in E.
    assert (E' : o_area o = chord R0 (R0 - dist (foot l cg) cg) * rb_width r) by congruence.
    destruct HR as (_ & W & _). destruct W as [W|W]; auto. exfalso. rewrite <- W in E'. pose proof eps_pos. lra.
  Qed.
  Lemma long_chord : eps <= dist (sv0 s) (sv1 s).
  Proof.
    destruct flat_big as [F1 F2]. pose proof eps_pos as EP. pose proof eps_lt1 as E1. pose proof half_small as HB.
    pose proof (foot_dist2 r a gp HR HA HG) as FD. cbv zeta in FD. fold D in FD. fold cg l s2 hh in FD. 
    specialize (FD ltac:(lra)). rewrite mid_dist in FD.
    rewrite (chord_dist r a HR HN HA s H0 H1 HNE). fold h R0.
    assert (SP : 0 < sin h) by (apply sin_gt_0; lra). destruct HR as [RP _]. fold R0 in RP.
    assert (S1 : s2 <= 1) by (unfold s2, sin2; nra).
    assert (Q : (R0 * cos h) ^ 2 * s2 = hh * hh) by (rewrite FD; field; lra).
    pose proof (sin2_cos2 h) as SC. unfold Rsqr in SC.
    assert (X : eps <= s2 * ((R0 * sin h) * (R0 * sin h))).
    { replace (s2 * (R0 * sin h * (R0 * sin h))) with (s2 * (R0 * R0) - (R0 * cos h) ^ 2 * s2); [lra|].
      transitivity (s2 * R0 * R0 * (1 - cos h * cos h)); [ring|]. replace (1 - cos h * cos h) with (sin h * sin h) by lra. ring. }
    set (y := R0 * sin h) in *. assert (0 < y) by (unfold y; nra). assert (eps <= y * y) by nra.
    assert (eps <= y) by nra. unfold y in *. nra.
  Qed.
  Lemma radius_ok : eps <= 2 * R0.
  Proof.
    pose proof long_chord as L. rewrite (chord_dist r a HR HN HA s H0 H1 HNE) in L. fold h R0 in L.
    pose proof (SIN_bound h). destruct HR as [RP _]. fold R0 in RP. nra.
  Qed.
  (** Same data but for the normal. *)
  Lemma mesh_eval : envelop_geometric (frib r) [g] (fa a) = Ret (true, fout
    (Output (o_point o) (c_normal r a (up_normal t) s) (o_friction o) (o_depth o) (o_area o) (o_volume o))).
  Proof.
    pose proof half_small as HB. fold h in HB. pose proof flat_is as E. rewrite mid_dist, foot_mid in E.
    assert (EP : o_point o = mid) by (apply (f_equal o_point) in E; cbn [fout o_point] in E; now apply fv_inj).
    assert (EF : o_friction o = f) by (apply (f_equal o_friction) in E; cbn [fout o_friction] in E; congruence).
    assert (ED : o_depth o = R0 - R0 * cos h) by (apply (f_equal o_depth) in E; cbn [fout o_depth] in E; congruence).
    assert (EA : o_area o = chord R0 (R0 - R0 * cos h) * rb_width r) by (apply (f_equal o_area) in E; cbn [fout o_area] in E; congruence).
    assert (EV : o_volume o = rvol R0 (rb_width r) (R0 - R0 * cos h)) by (apply (f_equal o_volume) in E; cbn [fout o_volume] in E; congruence).
    assert (CV : c_volume r a s = o_volume o).
    { rewrite EV. apply (chord_rvol r a HR HN HA s H0 H1 HNE). fold h. lra. }
    assert (CA : c_area r s = o_area o).
    { rewrite EA. unfold c_area. f_equal. apply (chord_len r a HR HN HA s H0 H1 HNE). fold h. lra. }
    assert (CP : c_point r a s = o_point o).
    { rewrite EP. apply (chord_point r a HR HN HA s H0 H1 HNE); [exact radius_ok|fold h; lra]. }
    rewrite (geo_single r a g t f s Hg HS).
    - rewrite CP, CA, CV, EF. do 4 f_equal. rewrite EP, ED. fold R0 cg. rewrite <- foot_mid, mid_dist. reflexivity.
    - apply chord_kept. pose proof long_chord. lra.
    - pose proof (chord_volume_pos r a HR HN HA s H0 H1 HNE width_pos). lra.
    - left. rewrite CA. exact HE.
  Qed.
  (** The normal, when the rib is perpendicular to the ground and its center above it. *)
  Lemma upright_normal : pdot (pnormal gp) (papply (lin a) (rb_normal r)) = 0 -> 0 < hh -> up_normal t = pnormal gp ->
    c_normal r a (up_normal t) s = pnormal gp.
  Proof.
    intros HP HH HU. pose proof half_small as HB. fold h in HB. set (n := pnormal gp) in *. set (ng := papply (lin a) (rb_normal r)) in *.
    assert (S2 : s2 = 1) by (unfold s2, sin2; fold n ng; rewrite HP; ring).
    pose proof (foot_value r a gp HR HA HG) as FV. cbv zeta in FV. fold D cg l hh n ng in FV. fold s2 in FV. rewrite S2 in FV.
    specialize (FV ltac:(lra)). rewrite foot_mid, HP in FV.
    replace (pscale (hh / 1) (psub n (pscale 0 ng))) with (pscale hh n) in FV by (apply vec_eq; vunf; field).
    assert (DH : R0 * cos h = hh).
    { rewrite <- mid_dist, foot_mid, FV. unfold dist.
      replace (psub (psub cg (pscale hh n)) cg) with (pscale (- hh) n) by (apply vec_eq; vunf; ring).
      apply pnorm_eq; [lra|]. rewrite pdot_scale_l, pdot_scale_r. unfold is_unit in HG. rewrite HG. ring. }
    set (m := mid_ang r a s). set (nt := papply (lin a) (V (- cos m) 0 (- sin m))).
    assert (NT : nt = n).
    { unfold mid in FV. rewrite (chord_midpoint r a HR HN HA s H0 H1) in FV. fold h m R0 in FV. rewrite DH in FV.
      assert (X : pscale hh nt = pscale hh n).
      { transitivity (psub cg (place a (padd (rb_center r) (pscale hh (V (cos m) 0 (sin m)))))).
        - unfold nt, cg, place. apply vec_eq; vunf; ring.
        - rewrite FV. apply vec_eq; vunf; ring. }
      rewrite <- (pscale_1 nt), <- (pscale_1 n). replace 1 with (/ hh * hh) by (field; lra). rewrite <- !pscale_scale. now rewrite X. }
    unfold c_normal. fold m nt ng. rewrite HU, NT.
    replace (padd n (pscale (pdot (psub n n) ng) ng)) with n by (apply vec_eq; vunf; ring).
    now apply punit_unit.
  Qed.
  Lemma mesh_equals_flat : pdot (pnormal gp) (papply (lin a) (rb_normal r)) = 0 -> 0 < hh -> up_normal t = pnormal gp ->
    envelop_geometric (frib r) [g] (fa a) = Ret (true, fout o).
  Proof.
    intros HP HH HU. rewrite mesh_eval, upright_normal by auto.
    pose proof flat_is as E. apply (f_equal o_normal) in E. cbn [fout o_normal] in E.
    assert (EN : o_normal o = pnormal gp) by (now apply fv_inj).
    rewrite <- EN. now destruct o.
  Qed.
End Agree.
