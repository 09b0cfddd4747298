(** * Area and volume of a circular segment. *)
From Coq Require Import ZArith Bool Reals Lra Lia.
From Verif Require Import Base Num Vec Geom Rib ER SpecGeom ProofGeom ProofInt.
Local Open Scope R_scope.

Definition rvol (r w d : R) : R := (r * r * acos ((r - d) / r) - (r - d) * sqrt (d * (2 * r - d))) * w.

Lemma ratio_bound : forall r d, 0 < r -> 0 <= d <= 2 * r -> -1 <= (r - d) / r <= 1.
Proof.
  intros r d Hr Hd. split.
  - apply (Rmult_le_reg_r r); auto. unfold Rdiv. rewrite Rmult_assoc, Rinv_l by lra. lra.
  - apply (Rmult_le_reg_r r); auto. unfold Rdiv. rewrite Rmult_assoc, Rinv_l by lra. lra.
Qed.
Lemma f_seg_area : forall r d w, 0 < r -> 0 <= d <= 2 * r ->
  seg_area (Fin r) (Fin d) (Fin w) = Fin (chord r d * w).
Proof.
  intros r d w Hr Hd. unfold seg_area. push. rewrite e_nsqrt by nra. push. unfold chord.
  replace (r * r - (r - d) * (r - d)) with (d * (2 * r - d)) by ring. reflexivity.
Qed.
Lemma f_seg_volume : forall r d w, 0 < r -> 0 <= d <= 2 * r ->
  seg_volume (Fin r) (Fin d) (Fin w) = Fin (rvol r w d).
Proof.
  intros r d w Hr Hd. unfold seg_volume. push. rewrite e_nsqrt by nra. rewrite e_ndiv by lra.
  cbn [nacos ER_Num eacos]. pose proof (ratio_bound r d Hr Hd) as [A B].
  rewrite (proj2 (rleb_true _ _) A), (proj2 (rleb_true _ _) B). cbn [andb]. push. reflexivity.
Qed.

(** With the half angle. *)
Definition theta (r d : R) : R := acos ((r - d) / r).
Lemma cos_theta : forall r d, 0 < r -> 0 <= d <= 2 * r -> r * cos (theta r d) = r - d.
Proof. intros r d Hr Hd. unfold theta. rewrite cos_acos by now apply ratio_bound. field. lra. Qed.
Lemma sin_theta : forall r d, 0 < r -> 0 <= d <= 2 * r -> r * sin (theta r d) = sqrt (d * (2 * r - d)).
Proof.
  intros r d Hr Hd. unfold theta. rewrite sin_acos by now apply ratio_bound.
  rewrite <- (sqrt_square r) at 1 by lra. rewrite <- sqrt_mult_alt by nra. f_equal. unfold Rsqr. field. lra.
Qed.
Lemma rvol_theta : forall r w d, 0 < r -> 0 <= d <= 2 * r ->
  rvol r w d = r * r * w * (theta r d - sin (2 * theta r d) / 2).
Proof.
  intros r w d Hr Hd. unfold rvol. fold (theta r d). rewrite <- (sin_theta r d), <- (cos_theta r d) by auto.
  rewrite sin_2a. field.
Qed.
Lemma theta_mono : forall r d d', 0 < r -> 0 <= d -> d <= d' -> d' <= 2 * r -> theta r d <= theta r d'.
Proof.
  intros r d d' Hr H1 H2 H3. apply Rnot_lt_le. intros H.
  pose proof (acos_bound ((r - d) / r)) as B1. pose proof (acos_bound ((r - d') / r)) as B2.
  fold (theta r d) in B1. fold (theta r d') in B2.
  pose proof (cos_decreasing_1 (theta r d') (theta r d)) as C.
  pose proof (cos_theta r d Hr ltac:(lra)). pose proof (cos_theta r d' Hr ltac:(lra)).
  assert (cos (theta r d) < cos (theta r d')) by (apply C; lra). nra.
Qed.
Lemma sin_le_id : forall x, 0 <= x -> sin x <= x.
Proof. intros x H. destruct (Req_dec x 0) as [->|N]; [rewrite sin_0; lra|]. left. apply sin_lt_x. lra. Qed.
Lemma sin_diff_le : forall x y, x <= y -> sin (2 * y) - sin (2 * x) <= 2 * (y - x).
Proof.
  intros x y H. rewrite form4.
  replace ((2 * y - 2 * x) / 2) with (y - x) by field.
  set (c := cos ((2 * y + 2 * x) / 2)). assert (-1 <= c <= 1) by apply COS_bound.
  set (z := y - x). assert (Z : 0 <= z) by (unfold z; lra). pose proof (sin_le_id z Z).
  assert (- z <= sin z).
  { destruct (Rle_dec z PI).
    - assert (0 <= sin z) by (apply sin_ge_0; lra). lra.
    - pose proof (SIN_bound z). pose proof PI2_1. lra. }
  nra.
Qed.
Lemma rvol_mono : forall r w d d', 0 < r -> 0 <= w -> 0 <= d -> d <= d' -> d' <= 2 * r -> rvol r w d <= rvol r w d'.
Proof.
  intros r w d d' Hr Hw H1 H2 H3. rewrite !rvol_theta by lra.
  pose proof (theta_mono r d d' Hr H1 H2 H3). pose proof (sin_diff_le _ _ H).
  assert (0 <= r * r * w) by (apply Rmult_le_pos; nra). nra.
Qed.
Lemma rvol_0 : forall r w, 0 < r -> rvol r w 0 = 0.
Proof.
  intros r w Hr. unfold rvol. replace ((r - 0) / r) with 1 by (field; lra). rewrite acos_1.
  rewrite Rmult_0_l, sqrt_0. ring.
Qed.
Lemma rvol_full : forall r w, 0 < r -> rvol r w (2 * r) = PI * (r * r) * w.
Proof.
  intros r w Hr. unfold rvol. replace ((r - 2 * r) / r) with (Ropp 1) by (field; lra).
  rewrite (acos_opp 1), acos_1. replace (2 * r - 2 * r) with 0 by ring. rewrite Rmult_0_r, sqrt_0. ring.
Qed.
Lemma rvol_half : forall r w, 0 < r -> rvol r w r = PI * (r * r) / 2 * w.
Proof.
  intros r w Hr. unfold rvol. replace ((r - r) / r) with 0 by (field; lra). rewrite acos_0. field.
Qed.
Lemma rvol_bounds : forall r w d, 0 < r -> 0 <= w -> 0 <= d <= 2 * r -> 0 <= rvol r w d <= PI * (r * r) * w.
Proof.
  intros r w d Hr Hw Hd. rewrite <- (rvol_0 r w Hr) at 1. rewrite <- (rvol_full r w Hr).
  split; apply rvol_mono; lra.
Qed.

Lemma derivable_lim_acos : forall x, -1 < x < 1 -> derivable_pt_lim acos x (-1 / sqrt (1 - x²)).
Proof.
  intros x H. rewrite <- (derive_pt_acos x H). apply derive_pt_eq_1 with (pr := derivable_pt_acos x H). reflexivity.
Qed.
Lemma dlim_eq : forall f x l l', derivable_pt_lim f x l -> l = l' -> derivable_pt_lim f x l'.
Proof. intros; now subst. Qed.
Lemma dlim_ext : forall f g x l, (forall y, f y = g y) -> derivable_pt_lim f x l -> derivable_pt_lim g x l.
Proof.
  intros f g x l E H e He. destruct (H e He) as [d Hd]. exists d. intros h H1 H2. rewrite <- !E. auto.
Qed.

Lemma rvol_derivative : forall r w d, 0 < r -> 0 < d < 2 * r -> derivable_pt_lim (rvol r w) d (chord r d * w).
Proof.
  intros r w d Hr Hd.
  assert (X : -1 < (r - d) / r < 1).
  { split; apply (Rmult_lt_reg_r r); auto; unfold Rdiv; rewrite Rmult_assoc, Rinv_l by lra; lra. }
  assert (S : 0 < d * (2 * r - d)) by nra.
  assert (L1 : derivable_pt_lim (fun y => (r - y) / r) d (- / r)).
  { eapply dlim_eq; [|instantiate (1 := (0 - 1) * / r); ring].
    apply (dlim_ext (mult_real_fct (/ r) (fct_cte r - id)%F)).
    - intros y. unfold mult_real_fct, minus_fct, fct_cte, id. unfold Rdiv. ring.
    - eapply dlim_eq; [apply derivable_pt_lim_scal; apply derivable_pt_lim_minus; [apply derivable_pt_lim_const|apply derivable_pt_lim_id]|ring]. }
  assert (L2 : derivable_pt_lim (fun y => acos ((r - y) / r)) d ((-1 / sqrt (1 - ((r - d) / r)²)) * (- / r))).
  { exact (derivable_pt_lim_comp (fun y => (r - y) / r) acos d _ _ L1 (derivable_lim_acos _ X)). }
  assert (L3 : derivable_pt_lim (fun y => y * (2 * r - y)) d (2 * r - 2 * d)).
  { eapply dlim_eq; [apply (derivable_pt_lim_mult id (fct_cte (2 * r) - id)%F);
      [apply derivable_pt_lim_id|apply derivable_pt_lim_minus; [apply derivable_pt_lim_const|apply derivable_pt_lim_id]]|].
    unfold minus_fct, fct_cte, id. ring. }
  assert (L4 : derivable_pt_lim (fun y => sqrt (y * (2 * r - y))) d (/ (2 * sqrt (d * (2 * r - d))) * (2 * r - 2 * d))).
  { exact (derivable_pt_lim_comp (fun y => y * (2 * r - y)) sqrt d _ _ L3 (derivable_pt_lim_sqrt _ S)). }
  assert (L5 : derivable_pt_lim (fun y => r - y) d (0 - 1)).
  { apply (derivable_pt_lim_minus (fct_cte r) id); [apply derivable_pt_lim_const|apply derivable_pt_lim_id]. }
  pose proof (derivable_pt_lim_mult _ _ d _ _ L5 L4) as L6.
  pose proof (derivable_pt_lim_scal _ (r * r) d _ L2) as L7.
  pose proof (derivable_pt_lim_minus _ _ d _ _ L7 L6) as L8.
  pose proof (derivable_pt_lim_scal _ w d _ L8) as L9.
  eapply dlim_eq.
  - eapply dlim_ext; [|exact L9]. intros y. unfold mult_real_fct, minus_fct, mult_fct, rvol. ring.
  - set (Q := sqrt (d * (2 * r - d))) in *.
    assert (QP : 0 < Q) by now apply sqrt_lt_R0. assert (QQ : Q * Q = d * (2 * r - d)) by (apply sqrt_sqrt; lra).
    assert (E1 : sqrt (1 - ((r - d) / r)²) = Q / r).
    { pose proof (sin_theta r d Hr ltac:(lra)) as ST. fold Q in ST.
      unfold theta in ST. rewrite sin_acos in ST by lra. rewrite <- ST. field. lra. }
    rewrite E1. unfold chord. replace (r * r - (r - d) * (r - d)) with (d * (2 * r - d)) by ring. fold Q.
    apply (Rmult_eq_reg_r Q); [|lra].
    transitivity (w * (r * r + (Q * Q) - (r - d) * (r - d))); [field; lra|].
    transitivity (2 * (Q * Q) * w); [rewrite QQ; ring|ring].
Qed.
Lemma chord_eq : forall r d, 0 < r -> 0 <= d <= 2 * r -> chord r d = 2 * r * sin (theta r d).
Proof.
  intros r d Hr Hd. unfold chord. replace (r * r - (r - d) * (r - d)) with (d * (2 * r - d)) by ring.
  rewrite <- sin_theta by auto. ring.
Qed.
Lemma chord_nonneg : forall r d, 0 <= chord r d.
Proof. intros. unfold chord. pose proof (sqrt_pos (r * r - (r - d) * (r - d))). lra. Qed.
