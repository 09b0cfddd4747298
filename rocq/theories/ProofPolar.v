(** * atan2 gives polar angles. *)
From Coq Require Import ZArith Bool Reals Lra Lia.
From Verif Require Import Num ER.
Local Open Scope R_scope.

Definition hyp (x y : R) : R := sqrt (x * x + y * y).
Lemma hyp_pos : forall x y, x <> 0 \/ y <> 0 -> 0 < hyp x y.
Proof. intros x y H. apply sqrt_lt_R0. destruct H; nra. Qed.
Lemma hyp_sq : forall x y, hyp x y * hyp x y = x * x + y * y.
Proof. intros. apply sqrt_sqrt. nra. Qed.
Lemma hyp_scale : forall x y, x <> 0 -> hyp x y = Rabs x * sqrt (1 + (y / x)²).
Proof.
  intros x y H. unfold hyp. rewrite <- (sqrt_square (Rabs x)) at 1 by apply Rabs_pos.
  rewrite <- sqrt_mult_alt by (apply Rmult_le_pos; apply Rabs_pos). f_equal.
  rewrite <- Rabs_mult, Rabs_pos_eq by nra. unfold Rsqr. field. auto.
Qed.
Lemma sqrt_1sq_pos : forall t, 0 < sqrt (1 + t²).
Proof. intros t. apply sqrt_lt_R0. pose proof (Rle_0_sqr t). lra. Qed.

Lemma atan2_polar : forall x y, x <> 0 \/ y <> 0 ->
  hyp x y * cos (ratan2 y x) = x /\ hyp x y * sin (ratan2 y x) = y /\ - PI < ratan2 y x <= PI.
Proof.
  intros x y H. unfold ratan2. pose proof PI_RGT_0 as HP.
  destruct (rltb 0 x) eqn:E1.
  { apply rltb_true in E1. pose proof (sqrt_1sq_pos (y / x)). pose proof (atan_bound (y / x)).
    rewrite hyp_scale, Rabs_pos_eq, cos_atan, sin_atan by lra.
    split; [field; lra|]. split; [field; lra|]. lra. }
  apply rltb_false in E1. destruct (rltb x 0) eqn:E2.
  { apply rltb_true in E2. pose proof (sqrt_1sq_pos (y / x)). pose proof (atan_bound (y / x)) as AB.
    rewrite hyp_scale, Rabs_left by lra.
    assert (IX : / x < 0) by now apply Rinv_lt_0_compat.
    destruct (rltb y 0) eqn:E3.
    - apply rltb_true in E3. unfold Rminus. rewrite cos_plus, sin_plus, cos_neg, sin_neg, cos_PI, sin_PI, cos_atan, sin_atan.
      split; [field; lra|]. split; [field; lra|].
      assert (Q : 0 < atan (y / x)) by (rewrite <- atan_0; apply atan_increasing; unfold Rdiv; nra). lra.
    - apply rltb_false in E3. rewrite neg_cos, neg_sin, cos_atan, sin_atan.
      split; [field; lra|]. split; [field; lra|].
      assert (Q : atan (y / x) <= 0).
      { destruct E3 as [E3| <-]; [|unfold Rdiv; rewrite Rmult_0_l, atan_0; lra].
        left. rewrite <- atan_0. apply atan_increasing. unfold Rdiv. nra. }
      lra. }
  apply rltb_false in E2. assert (x = 0) by lra. subst x.
  assert (HY : hyp 0 y = Rabs y) by (unfold hyp; replace (0 * 0 + y * y) with (y²) by (unfold Rsqr; ring); apply sqrt_Rsqr_abs).
  rewrite HY. destruct (rltb 0 y) eqn:E3.
  { apply rltb_true in E3. rewrite cos_PI2, sin_PI2, Rabs_pos_eq by lra. repeat split; lra. }
  apply rltb_false in E3. destruct (rltb y 0) eqn:E4.
  { apply rltb_true in E4. rewrite cos_neg, sin_neg, cos_PI2, sin_PI2, Rabs_left by lra. repeat split; lra. }
  apply rltb_false in E4. exfalso. lra.
Qed.

(** Angles with the same cosine and sine differ by a multiple of a turn;
    within a turn they are equal. *)
Lemma same_angle : forall s t, - PI < s <= PI -> - PI < t <= PI -> cos s = cos t -> sin s = sin t -> s = t.
Proof.
  intros s t Hs Ht HC HS.
  assert (C1 : cos (s - t) = 1).
  { rewrite cos_minus, HC, HS. pose proof (sin2_cos2 t) as E. unfold Rsqr in E. lra. }
  destruct (Rtotal_order s t) as [L|[E|L]]; auto; exfalso.
  - assert (0 < t - s < 2 * PI) by lra. rewrite <- cos_neg, Ropp_minus_distr in C1.
    destruct (Rle_dec (t - s) PI).
    + assert (cos (t - s) < cos 0) by (apply cos_decreasing_1; lra). rewrite cos_0 in H0. lra.
    + assert (cos (t - s) < cos (2 * PI)) by (apply cos_increasing_1; lra). rewrite cos_2PI in H0. lra.
  - assert (0 < s - t < 2 * PI) by lra.
    destruct (Rle_dec (s - t) PI).
    + assert (cos (s - t) < cos 0) by (apply cos_decreasing_1; lra). rewrite cos_0 in H0. lra.
    + assert (cos (s - t) < cos (2 * PI)) by (apply cos_increasing_1; lra). rewrite cos_2PI in H0. lra.
Qed.
Lemma atan2_unique : forall x y k t, 0 < k -> - PI < t <= PI -> x = k * cos t -> y = k * sin t -> ratan2 y x = t.
Proof.
  intros x y k t Hk Ht -> ->.
  assert (N : k * cos t <> 0 \/ k * sin t <> 0).
  { destruct (Req_dec (cos t) 0) as [Z|Z]; [right|left]; intros E; apply Rmult_integral in E; destruct E; try lra.
    pose proof (sin2_cos2 t) as Q. unfold Rsqr in Q. nra. }
  destruct (atan2_polar _ _ N) as (A & B & C).
  assert (HH : hyp (k * cos t) (k * sin t) = k).
  { unfold hyp. replace (k * cos t * (k * cos t) + k * sin t * (k * sin t)) with (k * k * ((sin t)² + (cos t)²)) by (unfold Rsqr; ring).
    rewrite sin2_cos2, Rmult_1_r. apply sqrt_square. lra. }
  rewrite HH in A, B. apply same_angle; auto; nra.
Qed.
