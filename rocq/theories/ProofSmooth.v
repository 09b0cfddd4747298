(** * Contact with flat ground at neighbouring places: proofs. *)
From Coq Require Import ZArith Bool Reals Lra Lia String List.
From Verif Require Import Base Num Vec Geom Ground Rib Shell ER SpecGeom SpecRib SpecShell ProofGeom ProofInt ProofSegArea ProofFlat
  ProofSample SpecSmooth.
From Verif Require Import ProofShell SpecAvg ProofAvg Shape SpecShape SpecPose ProofShape ProofShapeFacts ProofPose ProofSetupOk.
Import ListNotations.
Local Open Scope R_scope.

Lemma ez_dot : forall n y, is_unit n -> is_unit y ->
  Rabs (pdot n (punit (pcross y (punit (pcross n y))))) = sqrt (sin2 n y).
Proof.
  intros n y N Y.
  assert (L : pdot (pcross n y) (pcross n y) = sin2 n y).
  { unfold is_unit, sin2 in *. 
    replace (pdot (pcross n y) (pcross n y)) with (pdot n n * pdot y y - pdot n y * pdot n y) by (vunf; ring).
    rewrite N, Y. ring. }
  assert (S0 : 0 <= sin2 n y) by (rewrite <- L; apply pdot_pos).
  destruct (Req_dec (sin2 n y) 0) as [Z|Z].
  - assert (C : pcross n y = V 0 0 0) by (apply pdot_zero; lra).
    rewrite C, Z, sqrt_0. unfold punit at 2. replace (pdot (V 0 0 0) (V 0 0 0)) with 0 by (vunf; ring).
    replace (rltb 0 0) with false by (symmetry; apply rltb_false; lra).
    replace (pcross y (V 0 0 0)) with (V 0 0 0 : pt) by (apply vec_eq; vunf; ring).
    unfold punit. replace (pdot (V 0 0 0) (V 0 0 0)) with 0 by (vunf; ring).
    replace (rltb 0 0) with false by (symmetry; apply rltb_false; lra).
    replace (pdot n (V 0 0 0)) with 0 by (vunf; ring). apply Rabs_R0.
  - assert (P : 0 < sin2 n y) by lra. set (s := sqrt (sin2 n y)).
    assert (SP : 0 < s) by now apply sqrt_lt_R0. assert (SS : s * s = sin2 n y) by (apply sqrt_sqrt; lra).
    rewrite (punit_pos (pcross n y)) by lra. unfold pnorm. rewrite L. fold s.
    assert (E : pcross y (pscale (/ s) (pcross n y)) = pscale (/ s) (psub n (pscale (pdot n y) y))).
    { unfold is_unit in Y. 
      replace (pcross y (pscale (/ s) (pcross n y))) with (pscale (/ s) (psub (pscale (pdot y y) n) (pscale (pdot n y) y)))
        by (apply vec_eq; vunf; ring).
      now rewrite Y, pscale_1. }
    rewrite E.
    assert (D : pdot n (psub n (pscale (pdot n y) y)) = s * s).
    { rewrite SS. unfold sin2, is_unit in *. rewrite pdot_sub_r, pdot_scale_r, N. ring. }
    assert (U : is_unit (pscale (/ s) (psub n (pscale (pdot n y) y)))).
    { unfold is_unit. rewrite pdot_scale_l, pdot_scale_r.
      replace (pdot (psub n (pscale (pdot n y) y)) (psub n (pscale (pdot n y) y))) with
        (pdot n n - 2 * (pdot n y * pdot n y) + pdot n y * pdot n y * pdot y y) by (vunf; ring).
      unfold is_unit in N, Y. rewrite N, Y.
      replace (1 - 2 * (pdot n y * pdot n y) + pdot n y * pdot n y * 1) with (s * s) by (rewrite SS; unfold sin2; ring).
      field. lra. }
    rewrite punit_unit by exact U. rewrite pdot_scale_r, D.
    replace (/ s * (s * s)) with s by (field; lra). apply Rabs_pos_eq. lra.
Qed.

(** ** The sampling method, evaluated. *)
Section Eval.
  Variables (r : rib R) (a : affine R) (gp : plane R) (f : R).
  Hypothesis HR : good_rib r.
  Hypothesis HA : rigid a.
  Hypothesis HG : is_unit (pnormal gp).
  Let gn := pnormal gp.
  Let cg := place a (rb_center r).
  Let h := center_height r a gp.
  Let d := rb_radius r * sqrt (sin2 gn (axle a)) - Rabs h / Rabs (vz gn).

  Lemma flat_line_miss : forall o, Rabs (vz gn) <= eps ->
    sampling_line_flat (fflat gp f) (Line (fv o) (vopp unit_z)) = None.
  Proof.
    intros o H. unfold sampling_line_flat, int_line_plane, fflat. cbn [fl_plane fl_friction].
    rewrite neps_eps. unfold fplane. cbn [lorigin ldir pnormal porigin].
    change (vopp unit_z) with (fv (V (- 0) (- 0) (- 1))). push.
    replace (Rabs (pdot (pnormal gp) (V (- 0) (- 0) (- 1)))) with (Rabs (vz (pnormal gp))).
    2:{ rewrite <- Rabs_Ropp. f_equal. vunf. ring. }
    fold gn. replace (rltb eps _) with false by (symmetry; apply rltb_false; exact H). reflexivity.
  Qed.

  Lemma sampling_eval : forall g0 g1 g2 g3,
    ((eps < Rabs (vz gn) /\ m22 (lin a) <> 0 /\ 0 < rb_width r /\ 0 < d) /\ exists n,
      envelop_sampling_flat g0 g1 g2 g3 (frib r) (fflat gp f) (fa a) =
      (true, Output (fv (straight_below gp cg)) (fv n) (Fin f) (Fin d)
               (seg_area (Fin (rb_radius r)) (Fin d) (Fin (rb_width r)))
               (seg_volume (Fin (rb_radius r)) (Fin d) (Fin (rb_width r))))) \/
    (~ (eps < Rabs (vz gn) /\ m22 (lin a) <> 0 /\ 0 < rb_width r /\ 0 < d) /\
      envelop_sampling_flat g0 g1 g2 g3 (frib r) (fflat gp f) (fa a) = envelop_none (frib r) (fa a)).
  Proof.
    intros g0 g1 g2 g3. destruct HR as (RP & WP & _).
    unfold envelop_sampling_flat, envelop_sampling_with. rewrite f_lines.
    destruct (Rlt_dec eps (Rabs (vz gn))) as [HE|HE].
    2:{ right. split; [tauto|]. unfold sample. rewrite !flat_line_miss by lra. reflexivity. }
    unfold sample. rewrite !flat_line_hit by exact HE. fold gn.
    assert (NZ : vz gn <> 0) by (intros Z; rewrite Z, Rabs_R0 in HE; pose proof eps_pos; lra).
    set (dx := 1 / 10 * rb_radius r). set (dy := 3 / 10 * rb_width r).
    change (place a (rb_center r)) with cg.
    set (X := pcol0 (lin a)). set (Y := pcol1 (lin a)).
    set (q0 := padd cg (pscale dx X)). set (q1 := psub cg (pscale dx X)).
    set (q2 := padd cg (pscale dy Y)). set (q3 := psub cg (pscale dy Y)).
    cbn [andb]. push. unfold gn. rewrite proj_cross by exact NZ. fold gn.
    assert (CZ : vz (pcross (psub q0 q1) (psub q2 q3)) = 4 * dx * dy * m22 (lin a)).
    { destruct HA as (_ & _ & _ & _ & _ & _ & HC). apply (f_equal vz) in HC. change (vz (pcol2 (lin a))) with (m22 (lin a)) in HC.
      rewrite <- HC. unfold q0, q1, q2, q3, X, Y. set (u := pcol0 _). set (v := pcol1 _). clearbody u v cg. vunf. ring. }
    rewrite CZ. set (lam := 4 * dx * dy * m22 (lin a) / vz gn).
    rewrite f_center. fold cg. rewrite f_div by lra.
    match goal with |- context [fv (pscale (/ 4) ?s)] =>
      assert (PT : pscale (/ 4) s = straight_below gp cg) end.
    { unfold straight_below, q0, q1, q2, q3. fold gn. clearbody gn cg X Y dx dy. apply vec_eq; vunf; field; auto. }
    rewrite PT.
    assert (DI : pnorm (psub (straight_below gp cg) cg) = Rabs h / Rabs (vz gn)).
    { replace (Rabs h / Rabs (vz gn)) with (Rabs (h / vz gn)) by (unfold Rdiv; now rewrite Rabs_mult, Rabs_inv).
      unfold straight_below. fold gn.
      change (pdot (psub cg (porigin gp)) gn) with h.
      unfold pnorm. match goal with |- sqrt ?e = _ => replace e with ((h / vz gn) * (h / vz gn)) by (unfold Rdiv; vunf; ring) end.
      apply (sqrt_Rsqr_abs (h / vz gn)). }
    change (rb_radius (frib r)) with (Fin (rb_radius r)). change (rb_width (frib r)) with (Fin (rb_width r)).
    change (col1 (lin (fa a))) with (fv Y). push. rewrite DI.
    assert (YU : is_unit Y) by (destruct HA as (_ & U & _); exact U).
    rewrite (punit_unit Y YU).
    assert (GU : pdot gn gn = 1) by exact HG.
    destruct (Req_dec lam 0) as [Z|NL].
    - right. split.
      { intros (_ & M & W & _). unfold lam in Z. apply Rmult_integral in Z. destruct Z as [Z|Z].
        - assert (0 < 4 * dx * dy) by (unfold dx, dy; nra). apply Rmult_integral in Z. destruct Z; lra.
        - now apply (Rinv_neq_0_compat _ NZ). }
      rewrite Z, pscale_0.
      assert (U0 : punit (V 0 0 0) = V 0 0 0).
      { unfold punit. replace (pdot (V 0 0 0) (V 0 0 0)) with 0 by (vunf; ring).
        now replace (rltb 0 0) with false by (symmetry; apply rltb_false; lra). }
      rewrite U0. match goal with |- context [pdot (V 0 0 0) ?w] => replace (pdot (V 0 0 0) w) with 0 by (vunf; ring) end.
      rewrite Rabs_R0, Rmult_0_r.
      replace (rltb 0 _) with false; [reflexivity|]. symmetry. apply rltb_false.
      assert (0 <= Rabs h / Rabs (vz gn)) by (apply Rmult_le_pos; [apply Rabs_pos|left; apply Rinv_0_lt_compat, Rabs_pos_lt; auto]). lra.
    - assert (PP : 0 < pdot (pscale lam gn) (pscale lam gn)).
      { rewrite pdot_scale_l, pdot_scale_r, GU. assert (0 < lam * lam) by nra. lra. }
      set (n := punit (pscale lam gn)).
      assert (NU : is_unit n) by (apply punit_is_unit; exact PP).
      assert (NN : n = gn \/ n = pscale (-1) gn).
      { unfold n. rewrite punit_pos by auto. rewrite pnorm_scale, (is_unit_norm gn HG), Rmult_1_r, pscale_scale.
        destruct (Rlt_dec 0 lam).
        - left. rewrite Rabs_pos_eq by lra. rewrite Rinv_l by auto. apply pscale_1.
        - right. rewrite Rabs_left by lra. f_equal. field. auto. }
      rewrite (ez_dot n Y NU YU).
      assert (SN : sin2 n Y = sin2 gn (axle a)).
      { change (axle a) with Y. destruct NN as [-> | ->]; [reflexivity|]. unfold sin2. rewrite !pdot_scale_l. ring. }
      rewrite SN. fold d.
      assert (ML : m22 (lin a) <> 0 /\ 0 < rb_width r).
      { split; [intros Q; apply NL; unfold lam; rewrite Q; field; auto|].
        destruct (Req_dec (rb_width r) 0) as [Q|Q]; [|lra]. exfalso. apply NL. unfold lam, dy. rewrite Q. field. auto. }
      destruct (rltb 0 d) eqn:ED; rb.
      + left. split; [tauto|]. exists n. do 2 f_equal. unfold fflat. cbn [fl_friction]. push. rewrite e_ndiv by lra. f_equal. field.
      + right. split; [lra|reflexivity].
  Qed.
End Eval.

Lemma sampling_value : forall gb r a gp f b o, good_rib r -> rigid a -> is_unit (pnormal gp) ->
  envelop_flat gb (frib r) (fflat gp f) (fa a) "sampling" = Ret (b, o) ->
  let n := pnormal gp in
  let d := rb_radius r * sqrt (sin2 n (axle a)) - Rabs (center_height r a gp) / Rabs (vz n) in
  (b = true <-> eps < Rabs (vz n) /\ m22 (lin a) <> 0 /\ 0 < rb_width r /\ 0 < d) /\
  (b = true -> o_point o = fv (straight_below gp (place a (rb_center r))) /\ o_depth o = Fin d).
Proof.
  intros gb r a gp f b o HR HA HG H n d. apply flat_sam_ret in H. destruct H as (g0 & g1 & g2 & g3 & H).
  destruct (sampling_eval r a gp f HR HA HG g0 g1 g2 g3) as [(C & m & E)|(C & E)]; rewrite E in H; fold n d in C.
  - injection H as <- <-. split; [tauto|]. intros _. split; reflexivity.
  - unfold envelop_none in H. injection H as <- _. split; [|easy]. split; [easy|]. intros Q. contradiction.
Qed.

Lemma foot_height : forall x s2 h, 0 <= x -> 0 < s2 -> x ^ 2 = h * h / s2 -> x = Rabs h / sqrt s2.
Proof.
  intros x s2 h X S E. assert (SP : 0 < sqrt s2) by now apply sqrt_lt_R0.
  apply Rsqr_inj; auto; [apply Rmult_le_pos; [apply Rabs_pos|left; now apply Rinv_0_lt_compat]|].
  unfold Rsqr. replace (x * x) with (x ^ 2) by ring. rewrite E.
  replace (Rabs h / sqrt s2 * (Rabs h / sqrt s2)) with ((Rabs h * Rabs h) / (sqrt s2 * sqrt s2)) by (field; lra).
  rewrite sqrt_sqrt by lra. f_equal. unfold Rabs. destruct (Rcase_abs h); ring.
Qed.

Lemma geometric_value : forall gb r a gp f o, good_rib r -> rigid a -> is_unit (pnormal gp) ->
  envelop_flat gb (frib r) (fflat gp f) (fa a) "geometric" = Ret (true, o) ->
  o_depth o = Fin (rb_radius r - Rabs (center_height r a gp) / sqrt (sin2 (pnormal gp) (papply (lin a) (rb_normal r)))).
Proof.
  intros gb r a gp f o HR HA HG H.
  pose proof (flat_detection gb r a gp f true o HR HA HG H) as [D _]. destruct (D eq_refl) as [D1 _]. pose proof eps_pos.
  pose proof (foot_dist2 r a gp HR HA HG ltac:(lra)) as FD. cbv zeta in FD.
  apply flat_geo_ret in H. rewrite (flat_eval r a gp f HR HA HG) in H. cbv zeta in H.
  match type of H with (if ?c then _ else _) = _ => destruct c; [unfold envelop_none in H; discriminate|] end.
  injection H as <-. cbn [o_depth]. do 2 f_equal. apply foot_height; [apply pnorm_nonneg|lra|exact FD].
Qed.

(** ** Area and volume follow the depth. *)
Lemma vol_lipschitz : forall r w x y, 0 < r -> 0 <= w -> 0 <= x -> x <= y -> y <= 2 * r ->
  rvol r w y - rvol r w x <= 2 * r * w * (y - x).
Proof.
  intros r w x y HR HW H1 H2 H3. rewrite !rvol_theta by lra.
  pose proof (theta_mono r x y HR H1 H2 H3) as TM.
  pose proof (cos_theta r x HR ltac:(lra)) as CX. pose proof (cos_theta r y HR ltac:(lra)) as CY.
  pose proof (acos_bound ((r - x) / r)) as BX. pose proof (acos_bound ((r - y) / r)) as BY.
  fold (theta r x) in BX. fold (theta r y) in BY.
  set (u := theta r x) in *. set (v := theta r y) in *.
  assert (G : (v - sin (2 * v) / 2) - (u - sin (2 * u) / 2) <= 2 * (cos u - cos v)).
  { set (F := fun t => 2 * cos t + t - sin t * cos t).
    assert (DF : forall t, derivable_pt_lim F t (2 * - sin t + 1 - (cos t * cos t + sin t * - sin t))).
    { intros t. unfold F. apply derivable_pt_lim_minus.
      - apply (derivable_pt_lim_plus (fun t => 2 * cos t) (fun t => t)).
        + apply (derivable_pt_lim_scal cos 2). apply derivable_pt_lim_cos.
        + apply derivable_pt_lim_id.
      - apply (derivable_pt_lim_mult sin cos); [apply derivable_pt_lim_sin|apply derivable_pt_lim_cos]. }
    assert (M : F v <= F u).
    { destruct (Req_dec u v) as [-> |NE]; [lra|].
      destruct (MVT_cor2 F (fun t => 2 * - sin t + 1 - (cos t * cos t + sin t * - sin t)) u v ltac:(lra) ltac:(intros; apply DF)) as (c & E & C).
      pose proof (sin2_cos2 c) as SC. unfold Rsqr in SC. assert (SG : 0 <= sin c) by (apply sin_ge_0; lra).
      pose proof (SIN_bound c) as SB.
      assert (2 * - sin c + 1 - (cos c * cos c + sin c * - sin c) <= 0) by nra. nra. }
    unfold F in M. rewrite !sin_2a. lra. }
  assert (0 <= r * r * w) by (apply Rmult_le_pos; nra).
  apply Rle_trans with (r * r * w * (2 * (cos u - cos v))); [nra|]. right.
  replace (y - x) with (r * cos u - r * cos v) by lra. ring.
Qed.

Definition seg_report (r : rib R) (o : output er) (d : R) : Prop :=
  0 <= d <= rb_radius r /\ o_depth o = Fin d /\ o_area o = Fin (chord (rb_radius r) d * rb_width r) /\
  o_volume o = Fin (rvol (rb_radius r) (rb_width r) d).

Lemma none_report : forall r a, good_rib r -> seg_report r (snd (envelop_none (frib r) (fa a))) 0.
Proof.
  intros r a (RP & WP & _). unfold seg_report, envelop_none. cbn [snd o_depth o_area o_volume].
  split; [lra|]. split; [reflexivity|]. split.
  - unfold chord. replace (rb_radius r * rb_radius r - (rb_radius r - 0) * (rb_radius r - 0)) with 0 by ring.
    rewrite sqrt_0. change (nofZ (Num := ER_Num) 0) with (Fin 0). f_equal. ring.
  - rewrite rvol_0 by lra. reflexivity.
Qed.

Lemma flat_report : forall gb r a gp f m b o, good_rib r -> rigid a -> is_unit (pnormal gp) ->
  envelop_flat gb (frib r) (fflat gp f) (fa a) m = Ret (b, o) -> exists d, seg_report r o d.
Proof.
  intros gb r a gp f m b o HR HA HG H. pose proof HR as (RP & WP & _).
  destruct (String.eqb m "geometric") eqn:EM; [apply String.eqb_eq in EM; subst m|
    destruct (String.eqb m "sampling") eqn:EN; [apply String.eqb_eq in EN; subst m|
      unfold envelop_flat in H; destruct gb as [[[? ?] ?] ?]; rewrite EM, EN in H; discriminate]].
  - apply flat_geo_ret in H. destruct b.
    + pose proof (flat_contact r a gp f HR HA HG o H) as (p & _ & _ & _ & _ & _ & D & B & A & V). eexists.
      split; [|split; [exact D|split; [exact A|exact V]]]. lra.
    + rewrite (flat_eval r a gp f HR HA HG) in H. cbv zeta in H.
      match type of H with (if ?c then _ else _) = _ => destruct c; [|discriminate] end.
      exists 0. replace o with (snd (envelop_none (frib r) (fa a))) by now rewrite H. now apply none_report.
  - apply flat_sam_ret in H. destruct H as (g0 & g1 & g2 & g3 & H).
    destruct (sampling_eval r a gp f HR HA HG g0 g1 g2 g3) as [(C & n & E)|(C & E)].
    + pose proof E as E'. apply sampling_bounds in E'; auto. destruct E' as (d & D & B & _). cbn [o_depth] in D. injection D as D.
      rewrite E in H. apply (f_equal snd) in H. cbn [snd] in H. subst o. exists d. unfold seg_report. cbn [o_depth o_area o_volume]. rewrite D.
      rewrite f_seg_area, f_seg_volume by lra. repeat split; lra.
    + rewrite E in H. exists 0. replace o with (snd (envelop_none (frib r) (fa a))) by now rewrite H. now apply none_report.
Qed.

Lemma chord_sq : forall r d, 0 <= d <= r -> chord r d * chord r d = 4 * (d * (2 * r - d)).
Proof.
  intros r d H. unfold chord. replace (r * r - (r - d) * (r - d)) with (d * (2 * r - d)) by ring.
  assert (0 <= d * (2 * r - d)) by nra. replace (2 * sqrt (d * (2 * r - d)) * (2 * sqrt (d * (2 * r - d)))) with
    (4 * (sqrt (d * (2 * r - d)) * sqrt (d * (2 * r - d)))) by ring. now rewrite sqrt_sqrt.
Qed.

Lemma report_follows : forall r o o' d d', good_rib r -> seg_report r o d -> seg_report r o' d' ->
  exists A A' V V', o_area o = Fin A /\ o_area o' = Fin A' /\ o_volume o = Fin V /\ o_volume o' = Fin V' /\
    Rabs (A * A - A' * A') <= 8 * rb_radius r * (rb_width r * rb_width r) * Rabs (d - d') /\
    Rabs (V - V') <= 2 * rb_radius r * rb_width r * Rabs (d - d').
Proof.
  intros r o o' d d' (RP & WP & _) (B & D & A & V) (B' & D' & A' & V').
  do 4 eexists. split; [exact A|]. split; [exact A'|]. split; [exact V|]. split; [exact V'|]. split.
  - pose proof (chord_sq _ _ B) as C. pose proof (chord_sq _ _ B') as C'. set (R := rb_radius r) in *. set (w := rb_width r) in *.
    replace (chord R d * w * (chord R d * w) - chord R d' * w * (chord R d' * w)) with
      ((chord R d * chord R d - chord R d' * chord R d') * (w * w)) by ring.
    rewrite C, C'. replace ((4 * (d * (2 * R - d)) - 4 * (d' * (2 * R - d'))) * (w * w)) with
      (4 * (w * w) * (2 * R - d - d') * (d - d')) by ring.
    rewrite Rabs_mult. apply Rmult_le_compat_r; [apply Rabs_pos|]. rewrite Rabs_pos_eq; [|apply Rmult_le_pos; nra].
    assert (0 <= w * w) by nra. nra.
  - destruct (Rle_dec d d') as [L|L].
    + pose proof (vol_lipschitz _ _ d d' RP WP ltac:(lra) L ltac:(lra)). pose proof (rvol_mono _ _ d d' RP WP ltac:(lra) L ltac:(lra)).
      rewrite (Rabs_minus_sym d d'), (Rabs_pos_eq (d' - d)) by lra. apply Rabs_le. lra.
    + pose proof (vol_lipschitz _ _ d' d RP WP ltac:(lra) ltac:(lra) ltac:(lra)). pose proof (rvol_mono _ _ d' d RP WP ltac:(lra) ltac:(lra) ltac:(lra)).
      rewrite (Rabs_pos_eq (d - d')) by lra. apply Rabs_le. lra.
Qed.

Lemma flat_follows : forall gb gb' r a a' gp gp' f f' m m' b b' o o', good_rib r -> rigid a -> rigid a' ->
  is_unit (pnormal gp) -> is_unit (pnormal gp') ->
  envelop_flat gb (frib r) (fflat gp f) (fa a) m = Ret (b, o) ->
  envelop_flat gb' (frib r) (fflat gp' f') (fa a') m' = Ret (b', o') ->
  exists d d' A A' V V', o_depth o = Fin d /\ o_depth o' = Fin d' /\
    o_area o = Fin A /\ o_area o' = Fin A' /\ o_volume o = Fin V /\ o_volume o' = Fin V' /\
    Rabs (A * A - A' * A') <= 8 * rb_radius r * (rb_width r * rb_width r) * Rabs (d - d') /\
    Rabs (V - V') <= 2 * rb_radius r * rb_width r * Rabs (d - d').
Proof.
  intros gb gb' r a a' gp gp' f f' m m' b b' o o' HR HA HA' HG HG' H H'.
  apply flat_report in H as [d D]; auto. apply flat_report in H' as [d' D']; auto.
  destruct (report_follows r o o' d d' HR D D') as (A & A' & V & V' & E). exists d, d', A, A', V, V'.
  destruct D as (_ & D & _), D' as (_ & D' & _). tauto.
Qed.

(** ** Depth and place. *)
Lemma moved_height : forall v r a gp, center_height r (moved_by v a) gp = center_height r a gp + pdot v (pnormal gp).
Proof.
  intros. unfold center_height, moved_by, place. cbn [lin tra]. set (q := papply _ _). clearbody q. vunf. ring.
Qed.
Lemma rabs_tri : forall x y, Rabs (Rabs x - Rabs y) <= Rabs (x - y).
Proof. intros x y. apply Rabs_triang_inv2. Qed.

Lemma none_depth : forall gb r g a m o, envelop_flat gb (frib r) g a m = Ret (false, o) -> o_depth o = Fin 0.
Proof. intros gb r g a m o H. apply envelop_flat_no_contact in H. apply H. Qed.

Lemma onset : forall r s2 h, 0 < r -> 0 < s2 -> eps <= s2 * (r * r) -> s2 * (r * r) - h * h < eps ->
  r - Rabs h / sqrt s2 <= eps / (s2 * r).
Proof.
  intros r s2 h RP SP E H. assert (SQ : 0 < sqrt s2) by now apply sqrt_lt_R0.
  assert (SS : sqrt s2 * sqrt s2 = s2) by (apply sqrt_sqrt; lra).
  set (s := sqrt s2) in *. rewrite <- SS in *. clearbody s. clear SS SP.
  set (x := eps / (s * s * r)).
  assert (X : x * (s * s * r) = eps) by (unfold x; field; lra).
  assert (XR : x <= r). { apply (Rmult_le_reg_r (s * s * r)); [apply Rmult_lt_0_compat; nra|]. rewrite X. lra. }
  assert (XP : 0 < x). { unfold x. apply Rdiv_lt_0_compat; [apply eps_pos|]. apply Rmult_lt_0_compat; nra. }
  enough (Q : (r - x) * s <= Rabs h).
  { apply (Rmult_le_reg_r s); auto. replace ((r - Rabs h / s) * s) with (r * s - Rabs h) by (field; lra). nra. }
  apply Rsqr_incr_0_var; [|apply Rabs_pos]. unfold Rsqr.
  replace (Rabs h * Rabs h) with (h * h) by (unfold Rabs; destruct (Rcase_abs h); ring).
  assert (s * s * (x * x) <= s * s * (r * x)) by (apply Rmult_le_compat_l; nra). nra.
Qed.

Lemma geometric_follows : forall gb gb' r a v gp f b b' o o', good_rib r -> rigid a -> is_unit (pnormal gp) ->
  envelop_flat gb (frib r) (fflat gp f) (fa a) "geometric" = Ret (b, o) ->
  envelop_flat gb' (frib r) (fflat gp f) (fa (moved_by v a)) "geometric" = Ret (b', o') ->
  let s2 := sin2 (pnormal gp) (papply (lin a) (rb_normal r)) in
  exists d d', o_depth o = Fin d /\ o_depth o' = Fin d' /\
    (b = b' -> Rabs (d - d') <= Rabs (pdot v (pnormal gp)) / sqrt s2) /\
    Rabs (d - d') <= Rabs (pdot v (pnormal gp)) / sqrt s2 + eps / (s2 * rb_radius r).
Proof.
  intros gb gb' r a v gp f b b' o o' HR HA HG H H' s2.
  assert (HA' : rigid (moved_by v a)) by exact HA.
  pose proof (flat_detection _ _ _ _ _ _ _ HR HA HG H) as D. pose proof (flat_detection _ _ _ _ _ _ _ HR HA' HG H') as D'.
  cbv zeta in D, D'. change (lin (moved_by v a)) with (lin a) in D'. fold s2 in D, D'. pose proof eps_pos as EP.
  assert (MH := moved_height v r a gp). set (h := center_height r a gp) in *. set (h' := center_height r (moved_by v a) gp) in *.
  assert (S0 : 0 <= s2).
  { unfold s2, sin2. pose proof (posed_unit r a HR HA) as PU. set (n := papply _ _) in *.
    unfold is_unit in *. pose proof (pdot_pos (pcross (pnormal gp) n)) as Q.
    replace (pdot (pcross (pnormal gp) n) (pcross (pnormal gp) n)) with
      (pdot (pnormal gp) (pnormal gp) * pdot n n - pdot (pnormal gp) n * pdot (pnormal gp) n) in Q by (clearbody n; vunf; ring).
    rewrite HG, PU in Q. lra. }
  assert (RP := proj1 HR).
  assert (SI : 0 <= / sqrt s2) by (destruct (Req_dec s2 0) as [Q|Q]; [rewrite Q, sqrt_0, Rinv_0; lra|left; apply Rinv_0_lt_compat, sqrt_lt_R0; lra]).
  assert (EI : 0 <= eps / (s2 * rb_radius r)).
  { apply Rmult_le_pos; [lra|]. destruct (Req_dec s2 0) as [Q|Q]; [rewrite Q, Rmult_0_l, Rinv_0; lra|].
    left. apply Rinv_0_lt_compat. apply Rmult_lt_0_compat; lra. }
  assert (VI : 0 <= Rabs (pdot v (pnormal gp)) / sqrt s2) by (apply Rmult_le_pos; [apply Rabs_pos|exact SI]).
  assert (T : Rabs (Rabs h' / sqrt s2 - Rabs h / sqrt s2) <= Rabs (pdot v (pnormal gp)) / sqrt s2).
  { unfold Rdiv. replace (Rabs h' * / sqrt s2 - Rabs h * / sqrt s2) with ((Rabs h' - Rabs h) * / sqrt s2) by ring.
    rewrite Rabs_mult, (Rabs_pos_eq (/ sqrt s2)) by exact SI. apply Rmult_le_compat_r; [exact SI|].
    replace (pdot v (pnormal gp)) with (h' - h) by lra. apply rabs_tri. }
  destruct b, b'.
  - apply geometric_value in H; auto. apply geometric_value in H'; auto. change (lin (moved_by v a)) with (lin a) in H'.
    fold s2 in H, H'. fold h in H. fold h' in H'. do 2 eexists. split; [exact H|]. split; [exact H'|].
    match goal with |- (_ -> Rabs ?e <= _) /\ _ => replace e with (Rabs h' / sqrt s2 - Rabs h / sqrt s2) by ring end.
    split; [intros _; exact T|lra].
  - apply geometric_value in H; auto. apply none_depth in H'. fold s2 in H. fold h in H.
    do 2 eexists. split; [exact H|]. split; [exact H'|]. split; [discriminate|].
    destruct (proj1 D eq_refl) as [D1 D2].
    assert (Q : s2 * (rb_radius r * rb_radius r) - h' * h' < eps).
    { apply Rnot_le_lt. intros Q. assert (false = true) by (apply D'; auto). discriminate. }
    pose proof (onset (rb_radius r) s2 h' RP ltac:(lra) ltac:(nra) Q) as O.
    assert (DP : 0 <= rb_radius r - Rabs h / sqrt s2).
    { assert (SQ : 0 < sqrt s2) by (apply sqrt_lt_R0; lra). assert (SS : sqrt s2 * sqrt s2 = s2) by (apply sqrt_sqrt; lra).
      apply (Rmult_le_reg_r (sqrt s2)); auto. rewrite Rmult_0_l.
      replace ((rb_radius r - Rabs h / sqrt s2) * sqrt s2) with (rb_radius r * sqrt s2 - Rabs h) by (field; lra).
      enough (Rabs h <= rb_radius r * sqrt s2) by lra. apply Rsqr_incr_0_var; [|nra]. unfold Rsqr.
      replace (Rabs h * Rabs h) with (h * h) by (unfold Rabs; destruct (Rcase_abs h); ring).
      replace (rb_radius r * sqrt s2 * (rb_radius r * sqrt s2)) with (s2 * (rb_radius r * rb_radius r)) by (rewrite <- SS at 1; ring). lra. }
    rewrite Rminus_0_r, Rabs_pos_eq by exact DP.
    pose proof (Rle_abs (Rabs h' / sqrt s2 - Rabs h / sqrt s2)). lra.
  - apply geometric_value in H'; auto. apply none_depth in H. change (lin (moved_by v a)) with (lin a) in H'. fold s2 in H'. fold h' in H'.
    do 2 eexists. split; [exact H|]. split; [exact H'|]. split; [discriminate|].
    destruct (proj1 D' eq_refl) as [D1 D2].
    assert (Q : s2 * (rb_radius r * rb_radius r) - h * h < eps).
    { apply Rnot_le_lt. intros Q. assert (false = true) by (apply D; auto). discriminate. }
    pose proof (onset (rb_radius r) s2 h RP ltac:(lra) ltac:(nra) Q) as O.
    assert (DP : 0 <= rb_radius r - Rabs h' / sqrt s2).
    { assert (SQ : 0 < sqrt s2) by (apply sqrt_lt_R0; lra). assert (SS : sqrt s2 * sqrt s2 = s2) by (apply sqrt_sqrt; lra).
      apply (Rmult_le_reg_r (sqrt s2)); auto. rewrite Rmult_0_l.
      replace ((rb_radius r - Rabs h' / sqrt s2) * sqrt s2) with (rb_radius r * sqrt s2 - Rabs h') by (field; lra).
      enough (Rabs h' <= rb_radius r * sqrt s2) by lra. apply Rsqr_incr_0_var; [|nra]. unfold Rsqr.
      replace (Rabs h' * Rabs h') with (h' * h') by (unfold Rabs; destruct (Rcase_abs h'); ring).
      replace (rb_radius r * sqrt s2 * (rb_radius r * sqrt s2)) with (s2 * (rb_radius r * rb_radius r)) by (rewrite <- SS at 1; ring). lra. }
    rewrite Rminus_0_l, Rabs_Ropp, Rabs_pos_eq by exact DP.
    pose proof (Rle_abs (Rabs h / sqrt s2 - Rabs h' / sqrt s2)) as Z. rewrite Rabs_minus_sym in Z. lra.
  - apply none_depth in H. apply none_depth in H'. exists 0, 0. split; [exact H|]. split; [exact H'|].
    replace (0 - 0) with 0 by ring. rewrite Rabs_R0. split; [intros _; exact VI|lra].
Qed.

Lemma sampling_follows : forall gb gb' r a v gp f b b' o o', good_rib r -> rigid a -> is_unit (pnormal gp) ->
  envelop_flat gb (frib r) (fflat gp f) (fa a) "sampling" = Ret (b, o) ->
  envelop_flat gb' (frib r) (fflat gp f) (fa (moved_by v a)) "sampling" = Ret (b', o') ->
  exists d d', o_depth o = Fin d /\ o_depth o' = Fin d' /\
    Rabs (d - d') <= Rabs (pdot v (pnormal gp)) / Rabs (vz (pnormal gp)).
Proof.
  intros gb gb' r a v gp f b b' o o' HR HA HG H H'.
  assert (HA' : rigid (moved_by v a)) by exact HA.
  pose proof (sampling_value _ _ _ _ _ _ _ HR HA HG H) as [D P]. pose proof (sampling_value _ _ _ _ _ _ _ HR HA' HG H') as [D' P'].
  cbv zeta in D, D', P, P'. change (axle (moved_by v a)) with (axle a) in D', P'. change (lin (moved_by v a)) with (lin a) in D'.
  assert (MH := moved_height v r a gp). set (h := center_height r a gp) in *. set (h' := center_height r (moved_by v a) gp) in *.
  set (n := pnormal gp) in *. set (k := rb_radius r * sqrt (sin2 n (axle a))) in *.
  assert (NI : 0 <= / Rabs (vz n)) by (destruct (Req_dec (vz n) 0) as [Q|Q]; [rewrite Q, Rabs_R0, Rinv_0; lra|left; apply Rinv_0_lt_compat, Rabs_pos_lt; auto]).
  assert (VI : 0 <= Rabs (pdot v n) / Rabs (vz n)) by (apply Rmult_le_pos; [apply Rabs_pos|exact NI]).
  assert (T : Rabs (Rabs h' / Rabs (vz n) - Rabs h / Rabs (vz n)) <= Rabs (pdot v n) / Rabs (vz n)).
  { unfold Rdiv. replace (Rabs h' * / Rabs (vz n) - Rabs h * / Rabs (vz n)) with ((Rabs h' - Rabs h) * / Rabs (vz n)) by ring.
    rewrite Rabs_mult, (Rabs_pos_eq (/ Rabs (vz n))) by exact NI. apply Rmult_le_compat_r; [exact NI|].
    replace (pdot v n) with (h' - h) by lra. apply rabs_tri. }
  pose proof (Rle_abs (Rabs h' / Rabs (vz n) - Rabs h / Rabs (vz n))) as Z1.
  pose proof (Rle_abs (Rabs h / Rabs (vz n) - Rabs h' / Rabs (vz n))) as Z2. rewrite Rabs_minus_sym in Z2.
  destruct b, b'.
  - destruct (P eq_refl) as [_ E]. destruct (P' eq_refl) as [_ E']. do 2 eexists. split; [exact E|]. split; [exact E'|].
    match goal with |- Rabs ?e <= _ => replace e with (Rabs h' / Rabs (vz n) - Rabs h / Rabs (vz n)) by ring end. exact T.
  - destruct (P eq_refl) as [_ E]. apply none_depth in H'. do 2 eexists. split; [exact E|]. split; [exact H'|].
    destruct (proj1 D eq_refl) as (C1 & C2 & C3 & C4).
    assert (Q : k - Rabs h' / Rabs (vz n) <= 0).
    { apply Rnot_lt_le. intros Q. assert (false = true) by (apply D'; auto). discriminate. }
    rewrite Rminus_0_r, Rabs_pos_eq by lra. lra.
  - destruct (P' eq_refl) as [_ E']. apply none_depth in H. do 2 eexists. split; [exact H|]. split; [exact E'|].
    destruct (proj1 D' eq_refl) as (C1 & C2 & C3 & C4).
    assert (Q : k - Rabs h / Rabs (vz n) <= 0).
    { apply Rnot_lt_le. intros Q. assert (false = true) by (apply D; auto). discriminate. }
    rewrite Rminus_0_l, Rabs_Ropp, Rabs_pos_eq by lra. lra.
  - apply none_depth in H. apply none_depth in H'. exists 0, 0. split; [exact H|]. split; [exact H'|].
    replace (0 - 0) with 0 by ring. rewrite Rabs_R0. exact VI.
Qed.

(** ** The two methods on level ground. *)
Lemma methods_level : forall gb gb' r a go f o o', good_rib r -> rigid a -> rb_normal r = V 0 1 0 ->
  envelop_flat gb (frib r) (fflat (Plane go (V 0 0 1)) f) (fa a) "geometric" = Ret (true, o) ->
  envelop_flat gb' (frib r) (fflat (Plane go (V 0 0 1)) f) (fa a) "sampling" = Ret (true, o') ->
  exists d, o_depth o = Fin d /\ o_depth o' = Fin (d * sqrt (1 - vz (axle a) * vz (axle a))).
Proof.
  intros gb gb' r a go f o o' HR HA RN H H'.
  assert (HG : is_unit (pnormal (Plane go (V 0 0 1)))) by (cbn [pnormal]; vunf; ring).
  pose proof (flat_detection _ _ _ _ _ _ _ HR HA HG H) as [D _]. destruct (D eq_refl) as [D1 _]. pose proof eps_pos.
  apply geometric_value in H; auto. destruct (sampling_value _ _ _ _ _ _ _ HR HA HG H') as [_ P]. destruct (P eq_refl) as [_ E].
  cbv zeta in *. rewrite RN in *. assert (AX : papply (lin a) (V 0 1 0) = axle a) by (unfold axle; apply vec_eq; vunf; ring).
  rewrite AX in *. cbn [pnormal] in *.
  assert (S2 : sin2 (V 0 0 1) (axle a) = 1 - vz (axle a) * vz (axle a)) by (unfold sin2; set (y := axle a); clearbody y; vunf; ring).
  rewrite S2 in *. eexists. split; [exact H|]. rewrite E. f_equal. cbn [vz]. rewrite Rabs_R1.
  assert (0 < sqrt (1 - vz (axle a) * vz (axle a))) by (apply sqrt_lt_R0; lra). field. lra.
Qed.

(** ** The start of a contact. *)
Lemma unit_rib_good : good_rib unit_rib.
Proof. unfold good_rib, unit_rib, rb_radius, rb_width, rb_normal, is_unit. cbn. repeat split; try lra. vunf. ring. Qed.
Lemma standing_rigid : forall z, rigid (standing z).
Proof.
  intros z. unfold rigid, rotation, is_unit, standing, moved_by, pcol0, pcol1, pcol2. cbn [lin].
  cbn [m00 m01 m02 m10 m11 m12 m20 m21 m22]. repeat split; try (vunf; ring). apply vec_eq; vunf; ring.
Qed.
Lemma level_unit : is_unit (pnormal level).
Proof. unfold level. cbn [pnormal]. vunf. ring. Qed.
Lemma standing_height : forall z, center_height unit_rib (standing z) level = z.
Proof. intros z. unfold center_height, unit_rib, standing, moved_by, place, level, rb_center, dcenter. cbn. unfold papply. cbn. vunf. ring. Qed.
Lemma standing_sin : forall z, sin2 (pnormal level) (papply (lin (standing z)) (rb_normal unit_rib)) = 1.
Proof. intros z. unfold sin2, level, unit_rib, standing, moved_by, rb_normal, dnormal, papply. cbn. vunf. ring. Qed.

Lemma standing_eval : forall gb f z, 0 <= z ->
  (eps <= 1 - z * z -> exists o, envelop_flat gb (frib unit_rib) (fflat level f) (fa (standing z)) "geometric" = Ret (true, o) /\
     o_depth o = Fin (1 - z) /\ o_area o = Fin (sqrt (1 - z * z))) /\
  (1 - z * z < eps -> exists o, envelop_flat gb (frib unit_rib) (fflat level f) (fa (standing z)) "geometric" = Ret (false, o) /\
     o_depth o = Fin 0 /\ o_area o = Fin 0).
Proof.
  intros gb f z Z. destruct gb as [[[g0 g1] g2] g3].
  assert (E : exists b o, envelop_flat (g0, g1, g2, g3) (frib unit_rib) (fflat level f) (fa (standing z)) "geometric" = Ret (b, o)).
  { unfold envelop_flat. cbn [String.eqb Ascii.eqb Bool.eqb]. destruct (envelop_geometric_flat _ _ _) as [b o]. eauto. }
  destruct E as (b & o & E).
  pose proof (flat_detection _ _ _ _ _ _ _ unit_rib_good (standing_rigid z) level_unit E) as D. cbv zeta in D.
  rewrite standing_sin, standing_height in D. change (rb_radius unit_rib) with 1 in D.
  replace (1 * (1 * 1) - z * z) with (1 - z * z) in D by ring. pose proof eps_lt1 as E1. split; intros H.
  - assert (B : b = true) by (apply D; lra). subst b. exists o. split; [exact E|].
    pose proof (geometric_value _ _ _ _ _ _ unit_rib_good (standing_rigid z) level_unit E) as G.
    rewrite standing_sin, standing_height, sqrt_1 in G. change (rb_radius unit_rib) with 1 in G.
    rewrite Rabs_pos_eq in G by exact Z. replace (1 - z / 1) with (1 - z) in G by field. split; [exact G|].
    apply flat_report in E as (d & B & D' & A & _); auto using unit_rib_good, standing_rigid, level_unit.
    rewrite G in D'. injection D' as <-. rewrite A. f_equal. unfold chord.
    change (rb_radius unit_rib) with 1. change (rb_width unit_rib) with (1 / 2).
    replace (1 * 1 - (1 - (1 - z)) * (1 - (1 - z))) with (1 - z * z) by ring. field.
  - assert (B : b = false) by (destruct b; [destruct (proj1 D eq_refl); lra|reflexivity]). subst b. exists o. split; [exact E|].
    apply envelop_flat_no_contact in E. split; apply E.
Qed.

Lemma jump : forall gb f delta, 0 < delta -> exists z z' o o',
  z < z' < z + delta /\
  envelop_flat gb (frib unit_rib) (fflat level f) (fa (standing z)) "geometric" = Ret (true, o) /\
  envelop_flat gb (frib unit_rib) (fflat level f) (fa (standing z')) "geometric" = Ret (false, o') /\
  o_area o = Fin (/ 2 ^ 13) /\ o_area o' = Fin 0 /\
  exists d, o_depth o = Fin d /\ eps / 2 <= d /\ o_depth o' = Fin 0.
Proof.
  intros gb f delta HD. pose proof eps_pos as EP. pose proof eps_lt1 as E1.
  set (z := sqrt (1 - eps)). assert (ZP : 0 < z) by (apply sqrt_lt_R0; lra).
  assert (ZZ : z * z = 1 - eps) by (apply sqrt_sqrt; lra).
  destruct (proj1 (standing_eval gb f z ltac:(lra)) ltac:(lra)) as (o & H & D & A).
  destruct (proj2 (standing_eval gb f (z + delta / 2) ltac:(lra)) ltac:(nra)) as (o' & H' & D' & A').
  exists z, (z + delta / 2), o, o'. split; [lra|]. split; [exact H|]. split; [exact H'|].
  split; [|split; [exact A'|]].
  - rewrite A, ZZ. f_equal. replace (1 - (1 - eps)) with (/ 2 ^ 13 * / 2 ^ 13) by (unfold eps; lra).
    apply sqrt_square. lra.
  - exists (1 - z). split; [exact D|]. split; [|exact D']. assert (z <= 1) by nra. nra.
Qed.

Lemma level_sampling_value : forall gb f, exists o,
  envelop_flat gb (frib unit_rib) (fflat level f) (fa (standing (1 / 2))) "sampling" = Ret (true, o).
Proof.
  intros gb f. destruct gb as [[[g0 g1] g2] g3].
  assert (E : exists b o, envelop_flat (g0, g1, g2, g3) (frib unit_rib) (fflat level f) (fa (standing (1 / 2))) "sampling" = Ret (b, o)).
  { unfold envelop_flat. cbn [String.eqb Ascii.eqb Bool.eqb]. destruct (envelop_sampling_flat _ _ _ _ _ _ _) as [b o]. eauto. }
  destruct E as (b & o & E). exists o. rewrite E. do 2 f_equal.
  destruct (sampling_value _ _ _ _ _ _ _ unit_rib_good (standing_rigid _) level_unit E) as [D _]. cbv zeta in D.
  apply D. rewrite standing_height. replace (sin2 (pnormal level) (axle (standing (1 / 2)))) with 1 by (unfold sin2, level, axle, standing, moved_by, pcol1; cbn; vunf; ring).
  change (vz (pnormal level)) with 1. rewrite sqrt_1, Rabs_R1. change (rb_radius unit_rib) with 1. change (rb_width unit_rib) with (1 / 2).
  change (m22 (lin (standing (1 / 2)))) with 1. rewrite Rabs_pos_eq by lra. pose proof eps_lt1. repeat split; lra.
Qed.

(** ** The whole wheel. *)
Lemma total_diff : forall (k : rib R -> R) rs vs vs', List.length vs = List.length rs -> List.length vs' = List.length rs ->
  (forall i r v v', nth_error rs i = Some r -> nth_error vs i = Some v -> nth_error vs' i = Some v' -> Rabs (v - v') <= k r) ->
  Rabs (total (fun v => v) vs - total (fun v => v) vs') <= total k rs.
Proof.
  intros k. induction rs as [|r rs IH]; intros [|v vs] [|v' vs'] L L' H; try discriminate; cbn [total].
  - replace (0 - 0) with 0 by ring. rewrite Rabs_R0. lra.
  - assert (A := H 0%nat r v v' eq_refl eq_refl eq_refl).
    assert (B := IH vs vs' ltac:(now injection L) ltac:(now injection L') (fun i => H (S i))).
    replace (v + total (fun v => v) vs - (v' + total (fun v => v) vs')) with
      ((v - v') + (total (fun v => v) vs - total (fun v => v) vs')) by ring.
    eapply Rle_trans; [apply Rabs_triang|]. lra.
Qed.
Lemma sum_volumes : forall (os : list (output er)) vs x, map o_volume os = map Fin vs ->
  fold_left (fun a o => nadd a (o_volume o)) os (Fin x) = Fin (x + total (fun v => v) vs).
Proof.
  induction os as [|o os IH]; intros [|v vs] x H; try discriminate; cbn [map fold_left total] in *; [f_equal; ring|].
  apply (f_equal (@tl er)) in H as T. cbn [tl] in T. apply (f_equal (hd Nan)) in H. cbn [hd] in H.
  rewrite H. change (nadd (Fin x) (Fin v)) with (Fin (x + v)). rewrite (IH vs) by exact T. f_equal. ring.
Qed.

Lemma flat_volumes : forall gb s rs gp f a m s' b, sh_ribs s = map frib rs -> Forall good_rib rs -> rigid a -> is_unit (pnormal gp) ->
  setup_flat gb s (fflat gp f) (fa a) m = Ok s' b ->
  exists vs, contact_volume s' = Ret (Fin (total (fun v => v) vs)) /\ List.length vs = List.length rs /\
    forall i r v, nth_error rs i = Some r -> nth_error vs i = Some v -> exists c o,
      envelop_flat (gb i) (frib r) (fflat gp f) (fa a) m = Ret (c, o) /\ o_volume o = Fin v.
Proof.
  intros gb s rs gp f a m s' b RS GR HA HG H. apply setup_flat_reports in H as (R1 & _ & flags & FL & FR & _).
  assert (SZ : sh_size s' = List.length rs) by (unfold sh_size; now rewrite R1, RS, map_length).
  assert (P : forall i r, nth_error rs i = Some r -> exists c o, envelop_flat (gb i) (frib r) (fflat gp f) (fa a) m = Ret (c, o) /\
     out_at s' i = Ret o).
  { intros i r E. assert (i < List.length rs)%nat by (apply nth_error_Some; congruence).
    destruct (nth_error flags i) as [c|] eqn:EF; [|apply nth_error_None in EF; lia].
    destruct (FR i c EF) as (r' & o & N & F & O). rewrite R1, RS, nth_error_map, E in N. cbn in N. injection N as <-. eauto. }
  destruct (written_outs s') as (os & E & L & N).
  { intros i Hi. destruct (nth_error rs i) as [r|] eqn:ER; [|apply nth_error_None in ER; lia].
    destruct (P i r ER) as (c & o & _ & O). eauto. }
  assert (Q : exists vs, map o_volume os = map Fin vs).
  { assert (W : forall i o, nth_error os i = Some o -> exists v, o_volume o = Fin v).
    { intros i o EO. assert (i < List.length os)%nat by (apply nth_error_Some; congruence).
      destruct (nth_error rs i) as [r|] eqn:ER; [|apply nth_error_None in ER; lia].
      destruct (P i r ER) as (c & o' & F & O). apply N in EO. rewrite O in EO. injection EO as <-.
      apply flat_report in F as (d & _ & _ & _ & V); eauto. rewrite Forall_forall in GR. apply GR. eapply nth_error_In; eauto. }
    clear - W. induction os as [|o os IH]; [now exists []|]. destruct (W 0%nat o eq_refl) as [v V].
    destruct (IH (fun i => W (S i))) as [vs VS]. exists (v :: vs). cbn. now rewrite V, VS. }
  destruct Q as [vs VS]. exists vs. split; [|split].
  - unfold contact_volume. rewrite E. cbn [obind]. unfold sum_by. change (nofZ (Num := ER_Num) 0) with (Fin 0).
    rewrite (sum_volumes os vs 0 VS). do 2 f_equal. ring.
  - apply (f_equal (@List.length er)) in VS. rewrite !map_length in VS. lia.
  - intros i r v ER EV. destruct (P i r ER) as (c & o & F & O). exists c, o. split; [exact F|].
    apply (f_equal (fun l => nth_error l i)) in VS. rewrite !nth_error_map, EV in VS.
    destruct (nth_error os i) as [o'|] eqn:EO; [|discriminate]. apply N in EO. rewrite O in EO. injection EO as <-.
    cbn in VS. congruence.
Qed.

Lemma wheel_follows : forall gb gb' s rs gp f a v s1 s2 b b', sh_ribs s = map frib rs -> Forall good_rib rs ->
  rigid a -> is_unit (pnormal gp) ->
  setup_flat gb s (fflat gp f) (fa a) "sampling" = Ok s1 b ->
  setup_flat gb' s (fflat gp f) (fa (moved_by v a)) "sampling" = Ok s2 b' ->
  exists V V', contact_volume s1 = Ret (Fin V) /\ contact_volume s2 = Ret (Fin V') /\
    Rabs (V - V') <= total (fun r => 2 * rb_radius r * rb_width r) rs * (Rabs (pdot v (pnormal gp)) / Rabs (vz (pnormal gp))).
Proof.
  intros gb gb' s rs gp f a v s1 s2 b b' RS GR HA HG H H'.
  assert (HA' : rigid (moved_by v a)) by exact HA.
  destruct (flat_volumes _ _ _ _ _ _ _ _ _ RS GR HA HG H) as (vs & E & L & P).
  destruct (flat_volumes _ _ _ _ _ _ _ _ _ RS GR HA' HG H') as (vs' & E' & L' & P').
  do 2 eexists. split; [exact E|]. split; [exact E'|].
  set (k := Rabs (pdot v (pnormal gp)) / Rabs (vz (pnormal gp))).
  replace (total (fun r => 2 * rb_radius r * rb_width r) rs * k) with (total (fun r => 2 * rb_radius r * rb_width r * k) rs).
  2:{ clear. induction rs as [|r rs IH]; cbn [total]; [ring|]. rewrite IH. ring. }
  apply total_diff; auto. intros i r x x' ER EX EX'.
  destruct (P i r x ER EX) as (c & o & F & O). destruct (P' i r x' ER EX') as (c' & o' & F' & O').
  assert (G : good_rib r) by (rewrite Forall_forall in GR; apply GR; eapply nth_error_In; eauto).
  destruct (sampling_follows _ _ _ _ _ _ _ _ _ _ _ G HA HG F F') as (d & d' & D & D' & LD).
  destruct (flat_follows _ _ _ _ _ _ _ _ _ _ _ _ _ _ _ G HA HA' HG HG F F') as (e & e' & A & A' & W & W' & D1 & D1' & _ & _ & V & V' & _ & LV).
  rewrite D in D1. injection D1 as <-. rewrite D' in D1'. injection D1' as <-. rewrite O in V. injection V as <-. rewrite O' in V'. injection V' as <-.
  eapply Rle_trans; [exact LV|]. apply Rmult_le_compat_l; [|exact LD]. destruct G as (? & ? & _). nra.
Qed.

(** The ribs of a wheel together: radius at most that of the wheel, widths
    adding up to twice the half width. *)
Lemma total_le : forall (k : rib R -> R) c rs, (forall r, In r rs -> k r <= c) -> total k rs <= INR (List.length rs) * c.
Proof.
  intros k c. induction rs as [|r rs IH]; intros H; [cbn; lra|]. cbn [total]. cbn [List.length]. rewrite S_INR.
  pose proof (H r (or_introl eq_refl)). pose proof (IH (fun x i => H x (or_intror i))). lra.
Qed.
Lemma slices_total : forall sp n, good_shape sp -> (0 < n)%nat ->
  total (fun r => 2 * rb_radius r * rb_width r) (slices sp n) <= 4 * sRx sp * sLy sp.
Proof.
  intros sp n G N. assert (P : 0 < INR n) by (apply lt_0_INR; lia).
  replace (4 * sRx sp * sLy sp) with (INR (List.length (slices sp n)) * (2 * sRx sp * slice_width (sLy sp) n))
    by (rewrite slices_length; unfold slice_width; field; lra).
  apply total_le. intros r H. unfold slices in H. apply in_map_iff in H. destruct H as (k & <- & H). apply in_seq in H.
  cbn [real_rib rb_radius rb_disk dradius Rib.rb_width].
  pose proof (slice_width_pos sp G n N).
  pose proof (radius_range sp G (slice_center (sLy sp) n k) ltac:(pose proof (slice_bound sp G n k ltac:(lia)); lra)). apply Rmult_le_compat_r; lra.
Qed.
Lemma real_wheel_follows : forall gb gb' sp s gp f a v s1 s2 b b', real_shell sp s ->
  rigid a -> is_unit (pnormal gp) ->
  setup_flat gb s (fflat gp f) (fa a) "sampling" = Ok s1 b ->
  setup_flat gb' s (fflat gp f) (fa (moved_by v a)) "sampling" = Ok s2 b' ->
  exists V V', contact_volume s1 = Ret (Fin V) /\ contact_volume s2 = Ret (Fin V') /\
    Rabs (V - V') <= 4 * sRx sp * sLy sp * (Rabs (pdot v (pnormal gp)) / Rabs (vz (pnormal gp))).
Proof.
  intros gb gb' sp s gp f a v s1 s2 b b' (RC & SH & G) Ha Hn E1 E2.
  destruct (reach_slices s RC sp SH G) as (n & N & RB).
  destruct (wheel_follows gb gb' s (slices sp n) gp f a v s1 s2 b b' RB) as (V & V' & C1 & C2 & B); auto.
  { apply Forall_forall. intros r Hr. exact (slices_good sp G n r Hr). }
  exists V, V'. split; [exact C1|]. split; [exact C2|]. eapply Rle_trans; [exact B|].
  apply Rmult_le_compat_r; [|now apply slices_total].
  unfold Rdiv. apply Rmult_le_pos; [apply Rabs_pos|].
  destruct (Req_dec (vz (pnormal gp)) 0) as [Z|Z]; [rewrite Z, Rabs_R0, Rinv_0; lra|].
  apply Rlt_le, Rinv_0_lt_compat, Rabs_pos_lt, Z.
Qed.
Lemma wheel_example : forall gb g p, exists sp s s' b, real_shell sp s /\ sh_size s = 2%nat /\
  setup_flat gb s g p "sampling" = Ok s' b.
Proof.
  intros gb g p. set (sp := Shape 1 2 (1 / 2) 3 (1 / 4)).
  assert (G : good_shape sp) by (unfold good_shape; cbn; lra).
  destruct (mk_shell_eval sp G 2 ltac:(lia)) as (s & E & RB & S).
  assert (RC : reach s) by exact (r_new _ _ _ _ _ _ _ E).
  assert (SZ : sh_size s = 2%nat) by (unfold sh_size; now rewrite RB, map_length, slices_length).
  destruct (setup_flat_ok gb s g p "sampling" RC ltac:(lia) ltac:(right; reflexivity)) as (s' & b & O).
  exists sp, s, s', b. repeat split; auto; apply G.
Qed.

(** ** Turned wheels. *)
Lemma cross_norm : forall n y, is_unit n -> is_unit y -> sqrt (sin2 n y) = pnorm (pcross n y).
Proof.
  intros n y N Y. unfold pnorm. f_equal. unfold is_unit in *.
  replace (pdot (pcross n y) (pcross n y)) with (pdot n n * pdot y y - pdot n y * pdot n y) by (vunf; ring).
  rewrite N, Y. unfold sin2. ring.
Qed.
Lemma pnorm_triangle : forall u v, pnorm u - pnorm v <= pnorm (psub u v).
Proof.
  intros u v. pose proof (pnorm_nonneg u). pose proof (pnorm_nonneg v). pose proof (pnorm_nonneg (psub u v)).
  enough (pnorm u <= pnorm (psub u v) + pnorm v) by lra.
  apply pnorm_le; [lra|].
  pose proof (pnorm_sq v) as Qv. pose proof (pnorm_sq (psub u v)) as Qd.
  set (w := psub u v) in *.
  replace u with (padd w v) by (unfold w; apply vec_eq; vunf; ring).
  replace (pdot (padd w v) (padd w v)) with (pdot w w + 2 * pdot w v + pdot v v) by (vunf; ring).
  assert (C : pdot w v <= pnorm w * pnorm v).
  { apply Rnot_lt_le. intros C. pose proof (pdot_pos (pcross w v)) as P.
    replace (pdot (pcross w v) (pcross w v)) with (pdot w w * pdot v v - pdot w v * pdot w v) in P by (vunf; ring).
    rewrite <- Qv, <- Qd in P. assert (0 <= pnorm w * pnorm v) by (apply Rmult_le_pos; auto). nra. }
  rewrite <- Qv, <- Qd. lra.
Qed.
Lemma sin_follows : forall n y y', is_unit n -> is_unit y -> is_unit y' ->
  Rabs (sqrt (sin2 n y) - sqrt (sin2 n y')) <= pnorm (psub y y').
Proof.
  assert (G : forall n y y', is_unit n -> is_unit y -> is_unit y' -> sqrt (sin2 n y) - sqrt (sin2 n y') <= pnorm (psub y y')).
  { intros n y y' N Y Y'. rewrite !cross_norm by auto. eapply Rle_trans; [apply pnorm_triangle|].
    apply pnorm_le; [apply pnorm_nonneg|]. rewrite pnorm_sq.
    replace (psub (pcross n y) (pcross n y')) with (pcross n (psub y y')) by (apply vec_eq; vunf; ring).
    set (w := psub y y'). unfold is_unit in N.
    replace (pdot (pcross n w) (pcross n w)) with (pdot n n * pdot w w - pdot n w * pdot n w) by (vunf; ring).
    rewrite N. pose proof (Rle_0_sqr (pdot n w)) as Q. unfold Rsqr in Q. lra. }
  intros n y y' N Y Y'. pose proof (G n y y' N Y Y') as A. pose proof (G n y' y N Y' Y) as B.
  replace (pnorm (psub y' y)) with (pnorm (psub y y')) in B by (unfold pnorm; f_equal; vunf; ring).
  unfold Rabs. destruct (Rcase_abs _); lra.
Qed.
Lemma axle_unit : forall a, rigid a -> is_unit (axle a).
Proof. intros a (_ & H & _). exact H. Qed.

Lemma sampling_turned : forall gb gb' r a a' gp f b b' o o', good_rib r -> rigid a -> rigid a' -> is_unit (pnormal gp) ->
  m22 (lin a) <> 0 -> m22 (lin a') <> 0 ->
  envelop_flat gb (frib r) (fflat gp f) (fa a) "sampling" = Ret (b, o) ->
  envelop_flat gb' (frib r) (fflat gp f) (fa a') "sampling" = Ret (b', o') ->
  exists d d', o_depth o = Fin d /\ o_depth o' = Fin d' /\
    Rabs (d - d') <= rb_radius r * pnorm (psub (axle a) (axle a')) +
      Rabs (pdot (psub (place a (rb_center r)) (place a' (rb_center r))) (pnormal gp)) / Rabs (vz (pnormal gp)).
Proof.
  intros gb gb' r a a' gp f b b' o o' HR HA HA' HG M M' H H'.
  pose proof (sampling_value _ _ _ _ _ _ _ HR HA HG H) as [D P]. pose proof (sampling_value _ _ _ _ _ _ _ HR HA' HG H') as [D' P'].
  cbv zeta in D, D', P, P'.
  replace (pdot (psub (place a (rb_center r)) (place a' (rb_center r))) (pnormal gp)) with (center_height r a gp - center_height r a' gp)
    by (unfold center_height; vunf; ring).
  set (h := center_height r a gp) in *. set (h' := center_height r a' gp) in *.
  pose proof (sin_follows (pnormal gp) (axle a) (axle a') HG (axle_unit a HA) (axle_unit a' HA')) as SF.
  set (n := pnormal gp) in *. set (k := sqrt (sin2 n (axle a))) in *. set (k' := sqrt (sin2 n (axle a'))) in *.
  set (t := pnorm (psub (axle a) (axle a'))) in *. assert (T0 : 0 <= t) by apply pnorm_nonneg.
  assert (NI : 0 <= / Rabs (vz n)) by (destruct (Req_dec (vz n) 0) as [Q|Q]; [rewrite Q, Rabs_R0, Rinv_0; lra|left; apply Rinv_0_lt_compat, Rabs_pos_lt; auto]).
  assert (RP := proj1 HR).
  assert (T : Rabs (Rabs h / Rabs (vz n) - Rabs h' / Rabs (vz n)) <= Rabs (h - h') / Rabs (vz n)).
  { unfold Rdiv. replace (Rabs h * / Rabs (vz n) - Rabs h' * / Rabs (vz n)) with ((Rabs h - Rabs h') * / Rabs (vz n)) by ring.
    rewrite Rabs_mult, (Rabs_pos_eq (/ Rabs (vz n))) by exact NI. apply Rmult_le_compat_r; [exact NI|]. apply rabs_tri. }
  assert (VI : 0 <= Rabs (h - h') / Rabs (vz n)) by (apply Rmult_le_pos; [apply Rabs_pos|exact NI]).
  assert (W : Rabs ((rb_radius r * k - Rabs h / Rabs (vz n)) - (rb_radius r * k' - Rabs h' / Rabs (vz n))) <=
    rb_radius r * t + Rabs (h - h') / Rabs (vz n)).
  { replace ((rb_radius r * k - Rabs h / Rabs (vz n)) - (rb_radius r * k' - Rabs h' / Rabs (vz n)))
      with (rb_radius r * (k - k') + - (Rabs h / Rabs (vz n) - Rabs h' / Rabs (vz n))) by ring.
    eapply Rle_trans; [apply Rabs_triang|]. rewrite Rabs_Ropp, Rabs_mult, (Rabs_pos_eq (rb_radius r)) by lra.
    apply Rplus_le_compat; [apply Rmult_le_compat_l; lra|exact T]. }
  assert (TP : 0 <= rb_radius r * t) by (apply Rmult_le_pos; lra).
  set (d := rb_radius r * k - Rabs h / Rabs (vz n)) in *. set (d' := rb_radius r * k' - Rabs h' / Rabs (vz n)) in *.
  pose proof (Rle_abs (d - d')) as Z1. pose proof (Rle_abs (d' - d)) as Z2. rewrite Rabs_minus_sym in Z2.
  destruct b, b'.
  - destruct (P eq_refl) as [_ E]. destruct (P' eq_refl) as [_ E']. exists d, d'. repeat split; auto.
  - destruct (P eq_refl) as [_ E]. apply none_depth in H'. exists d, 0. split; [exact E|]. split; [exact H'|].
    destruct (proj1 D eq_refl) as (C1 & C2 & C3 & C4).
    assert (Q : d' <= 0).
    { apply Rnot_lt_le. intros Q. assert (false = true) by (apply D'; auto). discriminate. }
    rewrite Rminus_0_r, Rabs_pos_eq by lra. lra.
  - destruct (P' eq_refl) as [_ E']. apply none_depth in H. exists 0, d'. split; [exact H|]. split; [exact E'|].
    destruct (proj1 D' eq_refl) as (C1 & C2 & C3 & C4).
    assert (Q : d <= 0).
    { apply Rnot_lt_le. intros Q. assert (false = true) by (apply D; auto). discriminate. }
    rewrite Rminus_0_l, Rabs_Ropp, Rabs_pos_eq by lra. lra.
  - apply none_depth in H. apply none_depth in H'. exists 0, 0. split; [exact H|]. split; [exact H'|].
    replace (0 - 0) with 0 by ring. rewrite Rabs_R0. lra.
Qed.

(** The geometric method, in contact in both poses. *)
Lemma geometric_turned : forall gb gb' r a a' gp f o o', good_rib r -> rigid a -> rigid a' -> is_unit (pnormal gp) ->
  envelop_flat gb (frib r) (fflat gp f) (fa a) "geometric" = Ret (true, o) ->
  envelop_flat gb' (frib r) (fflat gp f) (fa a') "geometric" = Ret (true, o') ->
  let y := papply (lin a) (rb_normal r) in let y' := papply (lin a') (rb_normal r) in
  exists d d', o_depth o = Fin d /\ o_depth o' = Fin d' /\
    Rabs (d - d') * sqrt (sin2 (pnormal gp) y) <= rb_radius r * pnorm (psub y y') +
      Rabs (pdot (psub (place a (rb_center r)) (place a' (rb_center r))) (pnormal gp)).
Proof.
  intros gb gb' r a a' gp f o o' HR HA HA' HG H H' y y'.
  pose proof (flat_detection _ _ _ _ _ _ _ HR HA HG H) as D. pose proof (flat_detection _ _ _ _ _ _ _ HR HA' HG H') as D'.
  cbv zeta in D, D'. fold y in D. fold y' in D'. pose proof eps_pos as EP.
  apply geometric_value in H; auto. apply geometric_value in H'; auto. fold y in H. fold y' in H'.
  do 2 eexists. split; [exact H|]. split; [exact H'|].
  replace (pdot (psub (place a (rb_center r)) (place a' (rb_center r))) (pnormal gp)) with (center_height r a gp - center_height r a' gp)
    by (unfold center_height; vunf; ring).
  set (h := center_height r a gp) in *. set (h' := center_height r a' gp) in *.
  pose proof (sin_follows (pnormal gp) y y' HG (posed_unit r a HR HA) (posed_unit r a' HR HA')) as SF.
  destruct (proj1 D eq_refl) as [D1 D2]. destruct (proj1 D' eq_refl) as [D1' D2'].
  assert (S1 : 0 < sqrt (sin2 (pnormal gp) y)) by (apply sqrt_lt_R0; lra).
  assert (S2 : 0 < sqrt (sin2 (pnormal gp) y')) by (apply sqrt_lt_R0; lra).
  assert (Q2 : sqrt (sin2 (pnormal gp) y') * sqrt (sin2 (pnormal gp) y') = sin2 (pnormal gp) y') by (apply sqrt_sqrt; lra).
  rewrite <- Q2 in D2'. set (s := sqrt (sin2 (pnormal gp) y)) in *. set (s' := sqrt (sin2 (pnormal gp) y')) in *.
  set (t := pnorm (psub y y')) in *. assert (RP := proj1 HR).
  assert (B : Rabs h' <= rb_radius r * s').
  { apply Rsqr_incr_0_var; [|nra]. unfold Rsqr.
    replace (Rabs h' * Rabs h') with (h' * h') by (unfold Rabs; destruct (Rcase_abs h'); ring). nra. }
  match goal with |- Rabs ?e * s <= _ => replace (Rabs e * s) with (Rabs (e * s)) by (rewrite Rabs_mult, (Rabs_pos_eq s) by lra; reflexivity) end.
  replace ((rb_radius r - Rabs h / s - (rb_radius r - Rabs h' / s')) * s) with (- (Rabs h - Rabs h') + Rabs h' / s' * (s - s')) by (field; lra).
  eapply Rle_trans; [apply Rabs_triang|]. rewrite Rabs_Ropp, Rabs_mult. pose proof (rabs_tri h h').
  assert (C : 0 <= Rabs h' / s' <= rb_radius r).
  { split; [apply Rmult_le_pos; [apply Rabs_pos|left; now apply Rinv_0_lt_compat]|].
    apply (Rmult_le_reg_r s'); auto. replace (Rabs h' / s' * s') with (Rabs h') by (field; lra). exact B. }
  rewrite (Rabs_pos_eq (Rabs h' / s')) by lra.
  assert (Rabs h' / s' * Rabs (s - s') <= rb_radius r * t) by (apply Rmult_le_compat; try lra; apply Rabs_pos). lra.
Qed.

(** Contact in the first pose only. *)
Lemma geometric_turned_off : forall gb gb' r a a' gp f o o', good_rib r -> rigid a -> rigid a' -> is_unit (pnormal gp) ->
  envelop_flat gb (frib r) (fflat gp f) (fa a) "geometric" = Ret (true, o) ->
  envelop_flat gb' (frib r) (fflat gp f) (fa a') "geometric" = Ret (false, o') ->
  let y := papply (lin a) (rb_normal r) in let y' := papply (lin a') (rb_normal r) in
  exists d, o_depth o = Fin d /\ o_depth o' = Fin 0 /\
    0 <= d * sqrt (sin2 (pnormal gp) y) <= rb_radius r * pnorm (psub y y') +
      Rabs (pdot (psub (place a (rb_center r)) (place a' (rb_center r))) (pnormal gp)) + Rmax 1 (rb_radius r) * sqrt eps.
Proof.
  intros gb gb' r a a' gp f o o' HR HA HA' HG H H' y y'.
  pose proof (flat_detection _ _ _ _ _ _ _ HR HA HG H) as D. pose proof (flat_detection _ _ _ _ _ _ _ HR HA' HG H') as D'.
  cbv zeta in D, D'. fold y in D. fold y' in D'. pose proof eps_pos as EP.
  apply geometric_value in H; auto. apply none_depth in H'. fold y in H.
  eexists. split; [exact H|]. split; [exact H'|].
  replace (pdot (psub (place a (rb_center r)) (place a' (rb_center r))) (pnormal gp)) with (center_height r a gp - center_height r a' gp)
    by (unfold center_height; vunf; ring).
  set (h := center_height r a gp) in *. set (h' := center_height r a' gp) in *.
  pose proof (sin_follows (pnormal gp) y y' HG (posed_unit r a HR HA) (posed_unit r a' HR HA')) as SF.
  destruct (proj1 D eq_refl) as [D1 D2].
  assert (S1 : 0 < sqrt (sin2 (pnormal gp) y)) by (apply sqrt_lt_R0; lra).
  assert (Q1 : sqrt (sin2 (pnormal gp) y) * sqrt (sin2 (pnormal gp) y) = sin2 (pnormal gp) y) by (apply sqrt_sqrt; lra).
  assert (S2 : 0 <= sqrt (sin2 (pnormal gp) y')) by apply sqrt_pos.
  assert (Q2 : sqrt (sin2 (pnormal gp) y') * sqrt (sin2 (pnormal gp) y') = sin2 (pnormal gp) y').
  { apply sqrt_sqrt. pose proof (pdot_pos (pcross (pnormal gp) y')) as Q. pose proof (posed_unit r a' HR HA') as PU. fold y' in PU.
    replace (pdot (pcross (pnormal gp) y') (pcross (pnormal gp) y')) with
      (pdot (pnormal gp) (pnormal gp) * pdot y' y' - pdot (pnormal gp) y' * pdot (pnormal gp) y') in Q by (vunf; ring).
    unfold is_unit in *. rewrite HG, PU in Q. unfold sin2. lra. }
  assert (SE : 0 < sqrt eps) by now apply sqrt_lt_R0. assert (QE : sqrt eps * sqrt eps = eps) by (apply sqrt_sqrt; lra).
  assert (M1 := Rmax_l 1 (rb_radius r)). assert (M2 := Rmax_r 1 (rb_radius r)). assert (RP := proj1 HR).
  assert (OFF : rb_radius r * sqrt (sin2 (pnormal gp) y') - Rabs h' <= Rmax 1 (rb_radius r) * sqrt eps).
  { assert (A0 := Rabs_pos h'). destruct (Rlt_or_le (sin2 (pnormal gp) y') eps) as [L|L].
    - assert (sqrt (sin2 (pnormal gp) y') <= sqrt eps) by (apply sqrt_le_1_alt; lra).
      assert (rb_radius r * sqrt (sin2 (pnormal gp) y') <= Rmax 1 (rb_radius r) * sqrt eps) by (apply Rmult_le_compat; lra). lra.
    - assert (Q : sin2 (pnormal gp) y' * (rb_radius r * rb_radius r) - h' * h' < eps).
      { apply Rnot_le_lt. intros Q. assert (false = true) by (apply D'; auto). discriminate. }
      replace (h' * h') with (Rabs h' * Rabs h') in Q by (unfold Rabs; destruct (Rcase_abs h'); ring). rewrite <- Q2 in Q.
      set (s' := sqrt (sin2 (pnormal gp) y')) in *. set (x := rb_radius r * s') in *.
      assert (X0 : 0 <= x) by (apply Rmult_le_pos; lra). assert (XX : s' * s' * (rb_radius r * rb_radius r) = x * x) by (unfold x; ring).
      rewrite XX in Q. enough (x - Rabs h' <= sqrt eps) by nra.
      apply Rnot_lt_le. intros C. assert (eps < (x - Rabs h') * (x - Rabs h')) by (rewrite <- QE; apply Rmult_le_0_lt_compat; lra). nra. }
  set (s := sqrt (sin2 (pnormal gp) y)) in *. set (s' := sqrt (sin2 (pnormal gp) y')) in *. set (t := pnorm (psub y y')) in *.
  replace ((rb_radius r - Rabs h / s) * s) with (rb_radius r * s - Rabs h) by (field; lra).
  split.
  - enough (Rabs h <= rb_radius r * s) by lra. apply Rsqr_incr_0_var; [|nra]. unfold Rsqr.
    replace (Rabs h * Rabs h) with (h * h) by (unfold Rabs; destruct (Rcase_abs h); ring).
    replace (rb_radius r * s * (rb_radius r * s)) with (s * s * (rb_radius r * rb_radius r)) by ring. rewrite Q1. lra.
  - pose proof (rabs_tri h h') as T. pose proof (Rle_abs (Rabs h' - Rabs h)) as Z. rewrite Rabs_minus_sym in Z.
    pose proof (Rle_abs (s - s')) as W. assert (rb_radius r * (s - s') <= rb_radius r * t) by (apply Rmult_le_compat_l; lra). lra.
Qed.

Lemma geometric_turned_any : forall gb gb' r a a' gp f b b' o o', good_rib r -> rigid a -> rigid a' -> is_unit (pnormal gp) ->
  envelop_flat gb (frib r) (fflat gp f) (fa a) "geometric" = Ret (b, o) ->
  envelop_flat gb' (frib r) (fflat gp f) (fa a') "geometric" = Ret (b', o') ->
  let n := pnormal gp in let y := papply (lin a) (rb_normal r) in let y' := papply (lin a') (rb_normal r) in
  let move := rb_radius r * pnorm (psub y y') + Rabs (pdot (psub (place a (rb_center r)) (place a' (rb_center r))) n) in
  exists d d', o_depth o = Fin d /\ o_depth o' = Fin d' /\
    (b = b' -> Rabs (d - d') * sqrt (sin2 n y) <= move /\ Rabs (d - d') * sqrt (sin2 n y') <= move) /\
    (b <> b' -> Rabs (d - d') * sqrt (sin2 n (if b then y else y')) <= move + Rmax 1 (rb_radius r) * sqrt eps).
Proof.
  intros gb gb' r a a' gp f b b' o o' HR HA HA' HG H H' n y y' move.
  assert (SY : pnorm (psub y' y) = pnorm (psub y y')) by (unfold pnorm; f_equal; vunf; ring).
  assert (SH : Rabs (pdot (psub (place a' (rb_center r)) (place a (rb_center r))) n) = Rabs (pdot (psub (place a (rb_center r)) (place a' (rb_center r))) n)).
  { rewrite <- Rabs_Ropp. f_equal. vunf. ring. }
  assert (M0 : 0 <= move).
  { unfold move. assert (RP := proj1 HR). pose proof (pnorm_nonneg (psub y y')).
    match goal with |- 0 <= _ + ?e => assert (0 <= e) by apply Rabs_pos end.
    assert (0 <= rb_radius r * pnorm (psub y y')) by (apply Rmult_le_pos; lra). lra. }
  destruct b, b'.
  - destruct (geometric_turned _ _ _ _ _ _ _ _ _ HR HA HA' HG H H') as (d & d' & E & E' & L).
    destruct (geometric_turned _ _ _ _ _ _ _ _ _ HR HA' HA HG H' H) as (e' & e & F' & F & L').
    rewrite E in F. injection F as <-. rewrite E' in F'. injection F' as <-.
    exists d, d'. split; [exact E|]. split; [exact E'|]. split; [|congruence]. intros _. split; [exact L|].
    fold y y' n in L'. rewrite SY, SH, Rabs_minus_sym in L'. exact L'.
  - destruct (geometric_turned_off _ _ _ _ _ _ _ _ _ HR HA HA' HG H H') as (d & E & E' & L0 & L).
    exists d, 0. split; [exact E|]. split; [exact E'|]. split; [discriminate|]. intros _. rewrite Rminus_0_r.
    fold y y' n in L0, L. rewrite <- (Rabs_pos_eq (sqrt (sin2 n y))), <- Rabs_mult by apply sqrt_pos.
    rewrite Rabs_pos_eq by exact L0. exact L.
  - destruct (geometric_turned_off _ _ _ _ _ _ _ _ _ HR HA' HA HG H' H) as (d & E & E' & L0 & L).
    exists 0, d. split; [exact E'|]. split; [exact E|]. split; [discriminate|]. intros _.
    fold y y' n in L0, L. rewrite SY, SH in L. rewrite Rminus_0_l, Rabs_Ropp, <- (Rabs_pos_eq (sqrt (sin2 n y'))), <- Rabs_mult by apply sqrt_pos.
    rewrite Rabs_pos_eq by exact L0. exact L.
  - apply none_depth in H. apply none_depth in H'. exists 0, 0. split; [exact H|]. split; [exact H'|].
    replace (0 - 0) with 0 by ring. rewrite Rabs_R0, !Rmult_0_l. split; [|congruence]. auto.
Qed.

(** A quarter turn about the axle: contact is lost. *)
Lemma spun_rigid : forall c s z, c * c + s * s = 1 -> rigid (spun c s z).
Proof.
  intros c s z H. unfold rigid, rotation, spun. cbn [lin]. unfold is_unit, pcol0, pcol1, pcol2. cbn [m00 m01 m02 m10 m11 m12 m20 m21 m22].
  repeat split; try (vunf; cbn [vx vy vz]; nra). apply vec_eq; vunf; cbn [vx vy vz]; nra.
Qed.
Lemma turn_lost : forall gb f delta, 0 < delta -> exists a a' o o', rigid a /\ rigid a' /\ tra a = tra a' /\ axle a = axle a' /\
  pnorm (psub (pcol0 (lin a)) (pcol0 (lin a'))) < delta /\ pnorm (psub (pcol2 (lin a)) (pcol2 (lin a'))) < delta /\
  envelop_flat gb (frib unit_rib) (fflat level f) (fa a) "sampling" = Ret (true, o) /\ o_depth o = Fin (1 / 2) /\
  envelop_flat gb (frib unit_rib) (fflat level f) (fa a') "sampling" = Ret (false, o').
Proof.
  intros gb f delta DP.
  assert (CP : exists c, 0 < c /\ c < 1 /\ 2 * (c * c) < delta * delta).
  { exists (Rmin (1 / 2) (delta / 2)). unfold Rmin; destruct (Rle_dec (1 / 2) (delta / 2)); repeat split; try lra; nra. }
  destruct CP as (c & C0 & C1 & C2). set (s := sqrt (1 - c * c)).
  assert (S0 : 0 <= s) by apply sqrt_pos. assert (SS : s * s = 1 - c * c) by (apply sqrt_sqrt; nra).
  assert (S1 : s <= 1) by nra. assert (NR : (1 - s) * (1 - s) <= c * c) by nra.
  exists (spun c s (1 / 2)), (spun 0 1 (1 / 2)).
  assert (E : forall a, exists b o, envelop_flat gb (frib unit_rib) (fflat level f) (fa a) "sampling" = Ret (b, o)).
  { intros a. destruct gb as [[[g0 g1] g2] g3]. unfold envelop_flat. cbn [String.eqb Ascii.eqb Bool.eqb]. destruct (envelop_sampling_flat _ _ _ _ _ _ _) as [b o]. eauto. }
  destruct (E (spun c s (1 / 2))) as (b & o & E1). destruct (E (spun 0 1 (1 / 2))) as (b' & o' & E2). exists o, o'.
  assert (R1 : rigid (spun c s (1 / 2))) by (apply spun_rigid; lra). assert (R2 : rigid (spun 0 1 (1 / 2))) by (apply spun_rigid; lra).
  split; [exact R1|]. split; [exact R2|]. split; [reflexivity|]. split; [reflexivity|].
  assert (HT : forall u v, center_height unit_rib (spun u v (1 / 2)) level = 1 / 2) by (intros; unfold center_height, unit_rib, level, spun, place; cbn; vunf; cbn; ring).
  assert (SN : forall u v, sin2 (pnormal level) (axle (spun u v (1 / 2))) = 1) by (intros; unfold sin2, level, axle, spun, pcol1; cbn; vunf; ring).
  destruct (sampling_value _ _ _ _ _ _ _ unit_rib_good R1 level_unit E1) as [D P]. destruct (sampling_value _ _ _ _ _ _ _ unit_rib_good R2 level_unit E2) as [D' _].
  cbv zeta in D, P, D'. rewrite HT, SN in D, P, D'. rewrite sqrt_1 in D, P, D'. change (vz (pnormal level)) with 1 in D, P, D'.
  change (rb_radius unit_rib) with 1 in D, P, D'. change (rb_width unit_rib) with (1 / 2) in D, D'. rewrite Rabs_R1, Rabs_pos_eq in D, P, D' by lra.
  change (m22 (lin (spun c s (1 / 2)))) with c in D. change (m22 (lin (spun 0 1 (1 / 2)))) with 0 in D'. pose proof eps_lt1.
  assert (B : b = true) by (apply D; repeat split; lra). assert (B' : b' = false) by (destruct b'; auto; destruct (proj1 D' eq_refl) as (_ & X & _); lra).
  subst b b'. destruct (P eq_refl) as [_ PD].
  split; [|split]; [apply pnorm_lt; [lra|]; unfold spun, pcol0; cbn; vunf; cbn; nra|apply pnorm_lt; [lra|]; unfold spun, pcol2; cbn; vunf; cbn; nra|].
  split; [exact E1|]. split; [|exact E2]. rewrite PD. f_equal. lra.
Qed.

(** The whole wheel. *)
Lemma wheel_turned : forall gb gb' sp s gp f a a' s1 s2 b b', real_shell sp s -> rigid a -> rigid a' -> is_unit (pnormal gp) ->
  m22 (lin a) <> 0 -> m22 (lin a') <> 0 ->
  setup_flat gb s (fflat gp f) (fa a) "sampling" = Ok s1 b ->
  setup_flat gb' s (fflat gp f) (fa a') "sampling" = Ok s2 b' ->
  let dy := psub (axle a) (axle a') in
  exists V V', contact_volume s1 = Ret (Fin V) /\ contact_volume s2 = Ret (Fin V') /\
    Rabs (V - V') <= 4 * sRx sp * sLy sp * (sRx sp * pnorm dy +
      (Rabs (pdot (psub (tra a) (tra a')) (pnormal gp)) + sLy sp * Rabs (pdot dy (pnormal gp))) / Rabs (vz (pnormal gp))).
Proof.
  intros gb gb' sp s gp f a a' s1 s2 b b' (RC & SH & G) HA HA' HG M M' H H' dy.
  destruct (reach_slices s RC sp SH G) as (n & N & RB).
  assert (GR : Forall good_rib (slices sp n)) by (apply Forall_forall; intros r Hr; exact (slices_good sp G n r Hr)).
  destruct (flat_volumes _ _ _ _ _ _ _ _ _ RB GR HA HG H) as (vs & E & L & P).
  destruct (flat_volumes _ _ _ _ _ _ _ _ _ RB GR HA' HG H') as (vs' & E' & L' & P').
  do 2 eexists. split; [exact E|]. split; [exact E'|].
  set (k := sRx sp * pnorm dy + (Rabs (pdot (psub (tra a) (tra a')) (pnormal gp)) + sLy sp * Rabs (pdot dy (pnormal gp))) / Rabs (vz (pnormal gp))).
  assert (NI : 0 <= / Rabs (vz (pnormal gp))).
  { destruct (Req_dec (vz (pnormal gp)) 0) as [Q|Q]; [rewrite Q, Rabs_R0, Rinv_0; lra|left; apply Rinv_0_lt_compat, Rabs_pos_lt; auto]. }
  pose proof (pnorm_nonneg dy) as DN.
  assert (SP : 0 < sRx sp /\ 0 < sLy sp) by (split; apply G).
  assert (K0 : 0 <= k).
  { unfold k. pose proof (Rabs_pos (pdot (psub (tra a) (tra a')) (pnormal gp))). pose proof (Rabs_pos (pdot dy (pnormal gp))).
    apply Rplus_le_le_0_compat; [apply Rmult_le_pos; lra|]. apply Rmult_le_pos; [|exact NI].
    apply Rplus_le_le_0_compat; [lra|apply Rmult_le_pos; lra]. }
  apply Rle_trans with (total (fun r => 2 * rb_radius r * rb_width r * k) (slices sp n)).
  - apply total_diff; auto. intros i r x x' ER EX EX'.
    destruct (P i r x ER EX) as (c & o & F & O). destruct (P' i r x' ER EX') as (c' & o' & F' & O').
    assert (G' : good_rib r) by (rewrite Forall_forall in GR; apply GR; eapply nth_error_In; eauto).
    destruct (sampling_turned _ _ _ _ _ _ _ _ _ _ _ G' HA HA' HG M M' F F') as (d & d' & D & D' & LD).
    destruct (flat_follows _ _ _ _ _ _ _ _ _ _ _ _ _ _ _ G' HA HA' HG HG F F') as (e & e' & A & A' & W & W' & D1 & D1' & _ & _ & V & V' & _ & LV).
    rewrite D in D1. injection D1 as <-. rewrite D' in D1'. injection D1' as <-. rewrite O in V. injection V as <-. rewrite O' in V'. injection V' as <-.
    eapply Rle_trans; [exact LV|]. apply Rmult_le_compat_l; [destruct G' as (? & ? & _); nra|].
    eapply Rle_trans; [exact LD|]. clear LD LV D D' F F' O O'.
    apply nth_error_In in ER. unfold slices in ER. apply in_map_iff in ER. destruct ER as (j & <- & J). apply in_seq in J.
    pose proof (slice_bound sp G n j ltac:(lia)) as SB. pose proof (slice_width_pos sp G n ltac:(lia)) as WP.
    pose proof (radius_range sp G (slice_center (sLy sp) n j) ltac:(lra)) as RR.
    fold dy. unfold k.
    set (yy := slice_center (sLy sp) n j) in *.
    apply Rplus_le_compat; [apply Rmult_le_compat_r; [exact DN|cbn; lra]|].
    apply Rmult_le_compat_r; [exact NI|].
    match goal with |- Rabs ?e <= _ => replace e with (pdot (psub (tra a) (tra a')) (pnormal gp) + yy * pdot dy (pnormal gp))
      by (unfold dy, place, rb_center, dcenter, real_rib, axle, pcol1, papply; cbn; vunf; cbn; ring) end.
    eapply Rle_trans; [apply Rabs_triang|]. apply Rplus_le_compat_l. rewrite Rabs_mult. apply Rmult_le_compat_r; [apply Rabs_pos|].
    lra.
  - replace (total (fun r => 2 * rb_radius r * rb_width r * k) (slices sp n)) with (total (fun r => 2 * rb_radius r * rb_width r) (slices sp n) * k).
    2:{ generalize (slices sp n). clear. induction l as [|r rs IH]; cbn [total]; [ring|]. rewrite <- IH. ring. }
    apply Rmult_le_compat_r; [exact K0|now apply slices_total].
Qed.

Lemma tilted_rigid : forall c s z, c * c + s * s = 1 -> rigid (tilted c s z).
Proof.
  intros c s z H. unfold rigid, rotation, tilted. cbn [lin]. unfold is_unit, pcol0, pcol1, pcol2. cbn [m00 m01 m02 m10 m11 m12 m20 m21 m22].
  repeat split; try (vunf; cbn [vx vy vz]; nra). apply vec_eq; vunf; cbn [vx vy vz]; nra.
Qed.
Lemma tilted_contact : forall gb f, 
  (exists o, envelop_flat gb (frib unit_rib) (fflat level f) (fa (tilted (4 / 5) (3 / 5) (1 / 2))) "sampling" = Ret (true, o)) /\
  (exists o, envelop_flat gb (frib unit_rib) (fflat level f) (fa (tilted (4 / 5) (3 / 5) (1 / 2))) "geometric" = Ret (true, o)).
Proof.
  intros gb f. set (a := tilted (4 / 5) (3 / 5) (1 / 2)). assert (R1 : rigid a) by (apply tilted_rigid; lra).
  assert (HT : center_height unit_rib a level = 1 / 2) by (unfold a, center_height, unit_rib, level, tilted, place; cbn; vunf; cbn; ring).
  assert (SN : sin2 (pnormal level) (axle a) = (4 / 5) * (4 / 5)) by (unfold a, sin2, level, axle, tilted, pcol1; cbn; vunf; field).
  assert (SM : sin2 (pnormal level) (papply (lin a) (rb_normal unit_rib)) = (4 / 5) * (4 / 5)) by (unfold a, sin2, level, tilted, papply, unit_rib; cbn; vunf; cbn; field).
  pose proof eps_lt1. split.
  - assert (E : exists b o, envelop_flat gb (frib unit_rib) (fflat level f) (fa a) "sampling" = Ret (b, o)).
    { destruct gb as [[[g0 g1] g2] g3]. unfold envelop_flat. cbn [String.eqb Ascii.eqb Bool.eqb]. destruct (envelop_sampling_flat _ _ _ _ _ _ _) as [b o]. eauto. }
    destruct E as (b & o & E). exists o. rewrite E. do 2 f_equal.
    destruct (sampling_value _ _ _ _ _ _ _ unit_rib_good R1 level_unit E) as [D _]. cbv zeta in D. apply D. rewrite HT, SN, sqrt_square by lra.
    change (vz (pnormal level)) with 1. change (rb_radius unit_rib) with 1. change (rb_width unit_rib) with (1 / 2). change (m22 (lin a)) with (4 / 5).
    rewrite Rabs_R1, Rabs_pos_eq by lra. repeat split; lra.
  - assert (E : exists b o, envelop_flat gb (frib unit_rib) (fflat level f) (fa a) "geometric" = Ret (b, o)).
    { destruct gb as [[[g0 g1] g2] g3]. unfold envelop_flat. cbn [String.eqb Ascii.eqb Bool.eqb]. destruct (envelop_geometric_flat _ _ _) as [b o]. eauto. }
    destruct E as (b & o & E). exists o. rewrite E. do 2 f_equal.
    apply (flat_detection _ _ _ _ _ _ _ unit_rib_good R1 level_unit E). rewrite HT, SM. change (rb_radius unit_rib) with 1. unfold eps in *. lra.
Qed.
