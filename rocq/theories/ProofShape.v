(** * The shape of the shell and the ribs built from it. *)
From Coq Require Import ZArith Bool List Reals Lra Lia.
From Verif Require Import Base Num Vec Aabb Geom Ground Shape Rib Str Mesh Shell ER SpecGeom SpecRib SpecShape.
From Verif Require Import ProofGeom ProofInt ProofSegArea.
Import ListNotations.
Local Open Scope R_scope.

(** ** Powers. *)
Lemma hpow_pos : forall x m, 0 < x -> hpow x m = Rpower x m.
Proof. intros. unfold hpow. destruct Rlt_dec; auto. contradiction. Qed.
Lemma hpow_0 : forall m, hpow 0 m = 0.
Proof. intros. unfold hpow. destruct Rlt_dec; auto. lra. Qed.
Lemma rpower_pos : forall x m, 0 < Rpower x m.
Proof. intros. unfold Rpower. apply exp_pos. Qed.
Lemma hpow_nonneg : forall x m, 0 <= hpow x m.
Proof. intros. unfold hpow. destruct Rlt_dec; [left; apply rpower_pos|lra]. Qed.
Lemma hpow_gt0 : forall x m, 0 < x -> 0 < hpow x m.
Proof. intros. rewrite hpow_pos by auto. apply rpower_pos. Qed.
Lemma hpow_1 : forall m, hpow 1 m = 1.
Proof. intros. rewrite hpow_pos by lra. unfold Rpower. rewrite ln_1, Rmult_0_r. apply exp_0. Qed.
Lemma hpow_lt : forall x y m, 0 <= x -> x < y -> 0 < m -> hpow x m < hpow y m.
Proof.
  intros x y m Hx Hy Hm. destruct (Req_dec x 0) as [->|Nx].
  - rewrite hpow_0. apply hpow_gt0. lra.
  - rewrite !hpow_pos by lra. unfold Rpower. apply exp_increasing. apply Rmult_lt_compat_l; auto. apply ln_increasing; lra.
Qed.
Lemma hpow_le : forall x y m, 0 <= x -> x <= y -> 0 < m -> hpow x m <= hpow y m.
Proof. intros x y m Hx [H| ->] Hm; [left; now apply hpow_lt|lra]. Qed.
Lemma hpow_inv : forall x m, 0 <= x -> 0 < m -> hpow (hpow x (/ m)) m = x.
Proof.
  intros x m Hx Hm. destruct (Req_dec x 0) as [->|Nx]; [rewrite !hpow_0; auto|].
  rewrite (hpow_pos x) by lra. rewrite hpow_pos by apply rpower_pos. rewrite Rpower_mult.
  rewrite Rinv_l by lra. apply Rpower_1. lra.
Qed.
Lemma hpow_inj : forall x y m, 0 <= x -> 0 <= y -> 0 < m -> hpow x m = hpow y m -> x = y.
Proof.
  intros x y m Hx Hy Hm E. destruct (Rtotal_order x y) as [H|[H|H]]; auto; exfalso.
  - pose proof (hpow_lt x y m Hx H Hm). lra.
  - pose proof (hpow_lt y x m Hy H Hm). lra.
Qed.
Lemma f_pow : forall x m, 0 <= x -> 0 < m -> npow (Fin x) (Fin m) = Fin (hpow x m).
Proof.
  intros x m Hx Hm. cbn [npow ER_Num epow]. destruct (reqb m 0) eqn:E; [apply reqb_true in E; lra|].
  unfold hpow. unfold rltb. destruct (Rlt_dec 0 x); auto.
  replace (reqb x 0) with true by (symmetry; apply reqb_true; lra). now destruct (Rlt_dec 0 m).
Qed.
Lemma f_pow_any : forall x m, 0 < x -> npow (Fin x) (Fin m) = Fin (Rpower x m).
Proof.
  intros x m Hx. cbn [npow ER_Num epow]. destruct (reqb m 0) eqn:E.
  - apply reqb_true in E. subst. now rewrite Rpower_O.
  - replace (rltb 0 x) with true by (symmetry; now apply rltb_true). reflexivity.
Qed.

(** ** The radius. *)
Section Radius.
  Variable s : shape R.
  Hypothesis HS : good_shape s.
  Let u (y : R) := 1 - hpow (Rabs y / sRy s) (sMy s).
  Definition radius_at (y : R) : R := sRx s * hpow (u y) (/ sMx s).

  Lemma ry_pos : 0 < sRy s.
  Proof. destruct HS as (_ & _ & _ & ? & ?). lra. Qed.
  Lemma ratio_range : forall y, Rabs y <= sLy s -> 0 <= Rabs y / sRy s <= 1.
  Proof.
    intros y H. pose proof ry_pos. destruct HS as (_ & _ & _ & _ & L). pose proof (Rabs_pos y).
    split; [apply Rmult_le_pos; [auto|left; now apply Rinv_0_lt_compat]|].
    apply (Rmult_le_reg_r (sRy s)); auto. unfold Rdiv. rewrite Rmult_assoc, Rinv_l by lra. lra.
  Qed.
  Lemma u_range : forall y, Rabs y <= sLy s -> 0 <= u y <= 1.
  Proof.
    intros y H. unfold u. destruct HS as (_ & _ & MY & _). pose proof (ratio_range y H) as [A B].
    pose proof (hpow_nonneg (Rabs y / sRy s) (sMy s)).
    pose proof (hpow_le _ _ (sMy s) A B MY) as C. rewrite hpow_1 in C. lra.
  Qed.
  Lemma u_pos : forall y, Rabs y < sRy s -> 0 < u y.
  Proof.
    intros y H. unfold u. destruct HS as (_ & _ & MY & _). pose proof ry_pos as RP. pose proof (Rabs_pos y).
    assert (A : 0 <= Rabs y / sRy s) by (apply Rmult_le_pos; [auto|left; now apply Rinv_0_lt_compat]).
    assert (B : Rabs y / sRy s < 1).
    { apply (Rmult_lt_reg_r (sRy s)); auto. unfold Rdiv. rewrite Rmult_assoc, Rinv_l by lra. lra. }
    pose proof (hpow_lt _ _ (sMy s) A B MY) as C. rewrite hpow_1 in C. lra.
  Qed.
  Lemma f_bound : forall y, check_width_bound (fshape s) (Fin y) = negb (rltb (sLy s) (Rabs y)).
  Proof. intros. unfold check_width_bound, fshape. cbn. now destruct (rltb _ _). Qed.
  Lemma f_radius : forall y, Rabs y <= sLy s -> surface_radius (fshape s) (Fin y) = Ret (Fin (radius_at y)).
  Proof.
    intros y H. unfold surface_radius. rewrite f_bound. replace (rltb _ _) with false by (symmetry; now apply rltb_false).
    cbn [negb]. destruct HS as (RX & MX & MY & LY & LR). pose proof ry_pos.
    unfold fshape. cbn [sRx sMx sRy sMy sLy]. push. rewrite !e_ndiv by lra.
    rewrite f_pow; auto using (proj1 (ratio_range y H)).
    push. rewrite f_pow. 2:{ apply (u_range y H). } 2:{ unfold Rdiv. rewrite Rmult_1_l. now apply Rinv_0_lt_compat. }
    push. unfold radius_at, u, Rdiv. now rewrite Rmult_1_l.
  Qed.
  Lemma radius_throws : forall y, surface_radius (fshape s) (Fin y) = Throw RuntimeError <-> sLy s < Rabs y.
  Proof.
    intros y. split; intros H.
    - destruct (Rlt_le_dec (sLy s) (Rabs y)) as [|L]; auto. rewrite f_radius in H by auto. discriminate.
    - unfold surface_radius. rewrite f_bound. replace (rltb _ _) with true by (symmetry; now apply rltb_true). reflexivity.
  Qed.
  Lemma radius_range : forall y, Rabs y <= sLy s -> 0 <= radius_at y <= sRx s.
  Proof.
    intros y H. unfold radius_at. destruct HS as (RX & MX & _). pose proof (hpow_nonneg (u y) (/ sMx s)).
    destruct (u_range y H) as [A B]. pose proof (hpow_le _ _ (/ sMx s) A B (Rinv_0_lt_compat _ MX)) as C.
    rewrite hpow_1 in C. nra.
  Qed.
  Lemma radius_profile : forall y, Rabs y <= sLy s -> on_profile s y (radius_at y).
  Proof.
    intros y H. unfold on_profile, radius_at. destruct HS as (RX & MX & _).
    replace (sRx s * hpow (u y) (/ sMx s) / sRx s) with (hpow (u y) (/ sMx s)) by (field; lra).
    rewrite hpow_inv by (auto; apply (u_range y H)). unfold u. ring.
  Qed.
  Lemma profile_unique : forall y r, Rabs y <= sLy s -> 0 <= r -> on_profile s y r -> r = radius_at y.
  Proof.
    intros y r H Hr P. pose proof (radius_profile y H) as Q. destruct HS as (RX & MX & _). unfold on_profile in *.
    pose proof (radius_range y H) as [RR _].
    assert (E : r / sRx s = radius_at y / sRx s).
    { apply (hpow_inj _ _ (sMx s)); auto; try lra; apply Rmult_le_pos; auto; left; now apply Rinv_0_lt_compat. }
    apply (Rmult_eq_reg_r (/ sRx s)); auto. apply Rinv_neq_0_compat. lra.
  Qed.
  Lemma radius_positive : forall y, Rabs y < sRy s -> 0 < radius_at y.
  Proof.
    intros y H. unfold radius_at. destruct HS as (RX & MX & _). apply Rmult_lt_0_compat; auto. apply hpow_gt0. now apply u_pos.
  Qed.
  Lemma radius_even : forall y, radius_at (- y) = radius_at y.
  Proof. intros. unfold radius_at, u. now rewrite Rabs_Ropp. Qed.
  Lemma radius_mono : forall y y', Rabs y <= Rabs y' -> Rabs y' <= sLy s -> radius_at y' <= radius_at y.
  Proof.
    intros y y' H H'. destruct HS as (RX & MX & MY & LY & LR). pose proof ry_pos as RP. unfold radius_at.
    apply Rmult_le_compat_l; [lra|]. apply hpow_le; [apply (u_range y' H')| |now apply Rinv_0_lt_compat].
    unfold u. assert (hpow (Rabs y / sRy s) (sMy s) <= hpow (Rabs y' / sRy s) (sMy s)); [|lra].
    apply hpow_le; auto; [apply (ratio_range y); lra|]. apply Rmult_le_compat_r; auto. left. now apply Rinv_0_lt_compat.
  Qed.
End Radius.

(** ** The derivative. *)
Lemma dlim_local : forall f g x l d, 0 < d -> (forall x', Rabs (x' - x) < d -> f x' = g x') ->
  derivable_pt_lim f x l -> derivable_pt_lim g x l.
Proof.
  intros f g x l d Hd E H e He. destruct (H e He) as [d' D]. 
  assert (M : 0 < Rmin d d') by (apply Rmin_pos; auto; apply cond_pos).
  exists (mkposreal _ M). intros h Hh Hlt. cbn in Hlt.
  rewrite <- (E (x + h)), <- (E x).
  - apply D; auto. pose proof (Rmin_r d d'). lra.
  - rewrite Rminus_diag_eq by auto. rewrite Rabs_R0. auto.
  - replace (x + h - x) with h by ring. pose proof (Rmin_l d d'). lra.
Qed.
Lemma dlim_rpower : forall f x l m, 0 < f x -> derivable_pt_lim f x l ->
  derivable_pt_lim (fun y => Rpower (f y) m) x (m * Rpower (f x) m / f x * l).
Proof.
  intros f x l m Hf H. unfold Rpower.
  apply (dlim_eq _ _ (exp (m * ln (f x)) * (m * (/ f x * l)))); [|field; lra].
  apply (derivable_pt_lim_comp (fun y => m * ln (f y)) exp); [|apply derivable_pt_lim_exp].
  apply (derivable_pt_lim_scal (fun y => ln (f y)) m).
  apply (derivable_pt_lim_comp f ln); auto. now apply derivable_pt_lim_ln.
Qed.

Section Derivative.
  Variable s : shape R.
  Hypothesis HS : good_shape s.
  Let u (y : R) := 1 - hpow (Rabs y / sRy s) (sMy s).
  Definition slope_at (y : R) : R :=
    - (sRx s * sMy s * Rpower (u y) (/ sMx s - 1) * hpow (Rabs y / sRy s) (sMy s)) / (sMx s * y).

  Lemma f_slope : forall y tol, Rabs y <= sLy s -> Rabs y < sRy s -> 0 <= tol -> tol < Rabs y ->
    surface_derivative (fshape s) (Fin y) (Fin tol) = Ret (Fin (slope_at y)).
  Proof.
    intros y tol H H' Ht T. unfold surface_derivative. rewrite f_bound.
    replace (rltb _ _) with false by (symmetry; now apply rltb_false). cbn [negb].
    cbn [nabs ER_Num eabs]. rewrite e_lt. replace (rltb tol (Rabs y)) with true by (symmetry; now apply rltb_true).
    pose proof (ry_pos s HS) as RP. pose proof (u_pos s HS y H') as UP. fold (u y) in UP.
    pose proof (ratio_range s HS y H) as [RG _].
    pose proof HS as (RX & MX & MY & LY & LR).
    set (sg := if rltb 0 y then 1 else -1).
    assert (SG : nsub (nofbool (nlt (nofZ 0) (Fin y))) (nofbool (nlt (Fin y) (nofZ 0))) = Fin sg).
    { cbn [nofZ ER_Num]. rewrite !e_lt. unfold sg, nofbool.
      destruct (rltb 0 y) eqn:E1; destruct (rltb y 0) eqn:E2; repeat rb; push; try (f_equal; ring); try lra.
      exfalso. assert (y = 0) by lra. subst. rewrite Rabs_R0 in T. lra. }
    rewrite SG. unfold fshape. cbn [sRx sMx sRy sMy sLy].
    assert (SY : sg * y = Rabs y).
    { unfold sg. destruct (rltb 0 y) eqn:E1; rb; [rewrite Rabs_pos_eq; lra|]. rewrite Rabs_left1; lra. }
    push. rewrite SY. rewrite e_ndiv by lra. rewrite f_pow by auto. push. rewrite e_ndiv by lra.
    fold (u y). rewrite f_pow_any by auto. push. pose proof (Rabs_pos y).
    rewrite e_ndiv by (apply Rmult_integral_contrapositive; split; lra). do 2 f_equal. unfold slope_at. fold (u y).
    replace ((1 - sMx s) / sMx s) with (/ sMx s - 1) by (field; lra).
    set (P := Rpower _ _). set (Q := hpow _ _). clearbody P Q. unfold sg in *.
    destruct (rltb 0 y) eqn:E1; rb.
    - rewrite (Rabs_pos_eq y) in * by lra. field. split; lra.
    - rewrite (Rabs_left1 y) in * by lra. field. split; lra.
  Qed.
  Lemma slope_zero : forall y tol, Rabs y <= sLy s -> Rabs y <= tol ->
    surface_derivative (fshape s) (Fin y) (Fin tol) = Ret (Fin 0).
  Proof.
    intros y tol H T. unfold surface_derivative. rewrite f_bound.
    replace (rltb _ _) with false by (symmetry; now apply rltb_false). cbn [negb].
    cbn [nabs ER_Num eabs]. rewrite e_lt. replace (rltb tol (Rabs y)) with false by (symmetry; now apply rltb_false). reflexivity.
  Qed.
  Lemma slope_odd : forall y, y <> 0 -> slope_at (- y) = - slope_at y.
  Proof.
    intros y H. pose proof HS as (RX & MX & _). unfold slope_at, u. rewrite Rabs_Ropp.
    set (P := Rpower _ _). set (Q := hpow _ _). clearbody P Q. field. split; lra.
  Qed.
  Lemma slope_sign : forall y, y <> 0 -> slope_at y * y < 0.
  Proof.
    intros y H. pose proof HS as (RX & MX & MY & LY & LR). pose proof (ry_pos s HS) as RP. unfold slope_at.
    assert (0 < Rabs y) by now apply Rabs_pos_lt.
    assert (QP : 0 < hpow (Rabs y / sRy s) (sMy s)) by (apply hpow_gt0; apply Rmult_lt_0_compat; auto; now apply Rinv_0_lt_compat).
    pose proof (rpower_pos (u y) (/ sMx s - 1)) as PP. set (P := Rpower _ _) in *. set (Q := hpow _ _) in *. clearbody P Q.
    replace (- (sRx s * sMy s * P * Q) / (sMx s * y) * y) with (- (sRx s * sMy s * P * Q * / sMx s)) by (field; split; lra).
    apply Ropp_lt_gt_0_contravar. repeat apply Rmult_lt_0_compat; auto. now apply Rinv_0_lt_compat.
  Qed.
  Lemma slope_derivative : forall y, y <> 0 -> Rabs y < sRy s -> derivable_pt_lim (radius_at s) y (slope_at y).
  Proof.
    intros y Hy HL. pose proof HS as (RX & MX & MY & LY & LR). pose proof (ry_pos s HS) as RP.
    assert (AY : 0 < Rabs y) by now apply Rabs_pos_lt.
    set (sg := if rltb 0 y then 1 else -1).
    set (p := fun x => Rpower (sg / sRy s * x) (sMy s)).
    assert (SY : forall x, Rabs (x - y) < Rabs y -> Rabs x = sg * x /\ 0 < sg * x).
    { intros x Hx. unfold sg. destruct (rltb 0 y) eqn:E1; rb.
      - rewrite (Rabs_pos_eq y) in Hx by lra. apply Rabs_def2 in Hx. rewrite Rabs_pos_eq; lra.
      - rewrite (Rabs_left1 y) in Hx by lra. apply Rabs_def2 in Hx. rewrite Rabs_left1; lra. }
    assert (HP : forall x, Rabs (x - y) < Rabs y -> hpow (Rabs x / sRy s) (sMy s) = p x).
    { intros x Hx. destruct (SY x Hx) as [E P]. unfold p. rewrite E.
      replace (sg * x / sRy s) with (sg / sRy s * x) by (field; lra). apply hpow_pos.
      replace (sg / sRy s * x) with (sg * x * / sRy s) by (field; lra). apply Rmult_lt_0_compat; auto. now apply Rinv_0_lt_compat. }
    assert (Y0 : Rabs (y - y) < Rabs y) by (rewrite Rminus_diag_eq, Rabs_R0; auto).
    assert (MD : 0 < Rmin (Rabs y) (sRy s - Rabs y)) by (apply Rmin_pos; lra).
    apply (dlim_local (fun x => sRx s * Rpower (1 - p x) (/ sMx s)) _ y _ _ MD).
    { intros x Hx. pose proof (Rmin_l (Rabs y) (sRy s - Rabs y)). pose proof (Rmin_r (Rabs y) (sRy s - Rabs y)).
      unfold radius_at. rewrite HP by lra. rewrite hpow_pos; auto. rewrite <- (HP x) by lra. apply (u_pos s HS).
      pose proof (Rabs_triang (x - y) y). replace (x - y + y) with x in * by ring. lra. }
    assert (UP : 0 < 1 - p y) by (rewrite <- (HP y Y0); apply (u_pos s HS); auto).
    destruct (SY y Y0) as [E P].
    assert (DP : derivable_pt_lim p y (sMy s * p y / y)).
    { unfold p. eapply dlim_eq; [apply (dlim_rpower (fun x => sg / sRy s * x) y (sg / sRy s * 1))|].
      - replace (sg / sRy s * y) with (sg * y * / sRy s) by (field; lra). apply Rmult_lt_0_compat; auto. now apply Rinv_0_lt_compat.
      - apply (derivable_pt_lim_scal (fun x => x)). apply derivable_pt_lim_id.
      - set (Q := Rpower _ _). clearbody Q. assert (sg <> 0) by (unfold sg; destruct (rltb 0 y); lra). field. repeat split; lra. }
    eapply dlim_eq.
    - apply (derivable_pt_lim_scal (fun x => Rpower (1 - p x) (/ sMx s)) (sRx s)).
      apply (dlim_rpower (fun x => 1 - p x) y (0 - sMy s * p y / y)); auto.
      apply (derivable_pt_lim_minus (fun _ => 1) p); auto. apply derivable_pt_lim_const.
    - unfold slope_at, u. rewrite (HP y Y0).
      replace (Rpower (1 - p y) (/ sMx s - 1)) with (Rpower (1 - p y) (/ sMx s) / (1 - p y)).
      + set (Q := Rpower _ _). clearbody Q. set (w := p y) in *. clearbody w. field. repeat split; lra.
      + replace (/ sMx s - 1) with (/ sMx s + - (1)) by ring. rewrite Rpower_plus, Rpower_Ropp, Rpower_1 by auto. reflexivity.
  Qed.
End Derivative.

(** ** The ribs. *)
Section Ribs.
  Variable s : shape R.
  Hypothesis HS : good_shape s.
  Definition angle_at (y : R) : R := atan (if rltb eps (Rabs y) then slope_at s y else 0).
  Definition real_rib (w : R) (id : Z) (y : R) : rib R :=
    Rib (Disk (radius_at s y) (Plane (V 0 y 0) (V 0 1 0))) id y w (angle_at y).

  Lemma f_angle : forall y, Rabs y <= sLy s -> Rabs y < sRy s ->
    surface_angle (fshape s) (Fin y) neps = Ret (Fin (angle_at y)).
  Proof.
    intros y H H'. unfold surface_angle, angle_at. rewrite neps_eps. pose proof eps_pos.
    destruct (rltb eps (Rabs y)) eqn:E; rb.
    - rewrite f_slope by (auto; lra). reflexivity.
    - rewrite slope_zero by auto. reflexivity.
  Qed.
  Lemma angle_odd : forall y, angle_at (- y) = - angle_at y.
  Proof.
    intros y. unfold angle_at. rewrite Rabs_Ropp. pose proof eps_pos. destruct (rltb eps (Rabs y)) eqn:E; rb.
    - rewrite slope_odd; auto; [apply atan_opp|]. intros ->. rewrite Rabs_R0 in E. lra.
    - rewrite <- atan_opp. f_equal. ring.
  Qed.
  Lemma make_ribs_eval : forall n i w y,
    (forall k, (k < n)%nat -> Rabs (y + (INR k + 1) * w) < sLy s) ->
    make_ribs (fshape s) (Fin w) i n (Fin y) =
    (map (fun k => frib (real_rib w (int_of_size (i + k)) (y + (INR k + 1) * w))) (seq 0 n), None).
  Proof.
    induction n as [|n IH]; intros i w y H; [reflexivity|].
    cbn [make_ribs]. rewrite e_add.
    assert (B : Rabs (y + w) < sLy s).
    { specialize (H 0%nat ltac:(lia)). cbn [INR] in H. now replace (y + (0 + 1) * w) with (y + w) in H by ring. }
    assert (B' : Rabs (y + w) < sRy s) by (destruct HS as (_ & _ & _ & _ & L); lra).
    rewrite f_radius by (auto; lra). rewrite f_angle by (auto; lra).
    pose proof (radius_positive s HS (y + w) B') as RP.
    assert (T : (nlt (nofZ 0) (Fin (radius_at s (y + w))) && neq (Fin (radius_at s (y + w))) (Fin (radius_at s (y + w)))
      && neq (Fin (angle_at (y + w))) (Fin (angle_at (y + w))))%bool = true).
    { cbn. apply andb_true_iff. split; [apply andb_true_iff; split|]; [now apply rltb_true|now apply reqb_true|now apply reqb_true]. }
    rewrite T. rewrite IH.
    - cbn [seq map]. f_equal. f_equal.
      + rewrite Nat.add_0_r. cbn [INR]. replace (y + (0 + 1) * w) with (y + w) by ring. reflexivity.
      + rewrite <- seq_shift, map_map. apply map_ext. intros k. rewrite Nat.add_succ_r.
        replace (y + (INR (S k) + 1) * w) with (y + w + (INR k + 1) * w) by (rewrite S_INR; ring). reflexivity.
    - intros k Hk. specialize (H (S k) ltac:(lia)). rewrite S_INR in H.
      now replace (y + (INR k + 1 + 1) * w) with (y + w + (INR k + 1) * w) in H by ring.
  Qed.

  Definition slices (n : nat) : list (rib R) :=
    map (fun k => real_rib (slice_width (sLy s) n) (int_of_size k) (slice_center (sLy s) n k)) (seq 0 n).
  Lemma slice_width_pos : forall n, (0 < n)%nat -> 0 < slice_width (sLy s) n.
  Proof.
    intros n H. destruct HS as (_ & _ & _ & L & _). unfold slice_width. apply lt_0_INR in H.
    apply Rmult_lt_0_compat; [lra|now apply Rinv_0_lt_compat].
  Qed.
  Lemma slice_bound : forall n k, (k < n)%nat -> Rabs (slice_center (sLy s) n k) <= sLy s - slice_width (sLy s) n / 2.
  Proof.
    intros n k H. unfold slice_center. pose proof (slice_width_pos n ltac:(lia)) as WP.
    assert (NW : INR n * slice_width (sLy s) n = 2 * sLy s).
    { unfold slice_width. field. apply not_0_INR. lia. }
    set (w := slice_width _ _) in *. apply le_INR in H. rewrite S_INR in H. pose proof (pos_INR k).
    assert (INR k * w + w <= 2 * sLy s) by nra. assert (0 <= INR k * w) by nra.
    apply Rabs_le. lra.
  Qed.
  Lemma resize_eval : forall (sh : shell er) n, (0 < n)%nat -> sh_shape sh = fshape s ->
    exists sh', resize sh n = Ok sh' tt /\ sh_ribs sh' = map frib (slices n) /\ sh_shape sh' = fshape s.
  Proof.
    intros sh n H E. unfold resize. destruct n as [|n']; [lia|]. set (n := S n') in *.
    rewrite E. unfold surface_width, nofsize, fshape. cbn [sLy]. fold (fshape s).
    change (nofZ (Z.of_nat n)) with (Fin (IZR (Z.of_nat n))). rewrite <- INR_IZR_INZ.
    assert (NZ : INR n <> 0) by (apply not_0_INR; lia).
    push. rewrite !e_ndiv by (auto; lra). push. fold (slice_width (sLy s) n).
    rewrite make_ribs_eval.
    - eexists. split; [reflexivity|]. cbn [sh_ribs sh_shape]. split; [|reflexivity].
      unfold slices. rewrite map_map. apply map_ext. intros k. cbn [Nat.add].
      replace (- sLy s - slice_width (sLy s) n / 2 + (INR k + 1) * slice_width (sLy s) n)
        with (slice_center (sLy s) n k) by (unfold slice_center; field). reflexivity.
    - intros k Hk. replace (- sLy s - slice_width (sLy s) n / 2 + (INR k + 1) * slice_width (sLy s) n)
        with (slice_center (sLy s) n k) by (unfold slice_center; field).
      pose proof (slice_bound n k Hk). pose proof (slice_width_pos n H). lra.
  Qed.
  Lemma mk_shell_eval : forall n, (0 < n)%nat ->
    exists sh, mk_shell n (Fin (sRx s)) (Fin (sMx s)) (Fin (sRy s)) (Fin (sMy s)) (Fin (sLy s)) = Ret sh /\ sh_ribs sh = map frib (slices n) /\ sh_shape sh = fshape s.
  Proof.
    intros n H. unfold mk_shell. fold (fshape s).
    destruct (resize_eval (Shell aident (fshape s) nan_aabb [] 0 (repeat None capacity) []) n H eq_refl) as (sh & R & RB & SH).
    rewrite R. eexists. split; [reflexivity|]. split; [exact RB|exact SH].
  Qed.
  Lemma slices_nth : forall n k, (k < n)%nat -> nth_error (slices n) k =
    Some (real_rib (slice_width (sLy s) n) (int_of_size k) (slice_center (sLy s) n k)).
  Proof.
    intros n k H. unfold slices.
    apply (map_nth_error (fun k => real_rib (slice_width (sLy s) n) (int_of_size k) (slice_center (sLy s) n k))).
    rewrite nth_error_nth' with (d := 0%nat) by (rewrite seq_length; auto).
    now rewrite seq_nth.
  Qed.
  Lemma slice_symmetric : forall n k, (k < n)%nat -> slice_center (sLy s) n (n - 1 - k) = - slice_center (sLy s) n k.
  Proof.
    intros n k H. unfold slice_center.
    assert (NW : INR n * slice_width (sLy s) n = 2 * sLy s).
    { unfold slice_width. field. apply not_0_INR. lia. }
    rewrite !minus_INR by lia. cbn [INR]. lra.
  Qed.
  Lemma slices_good : forall n r, In r (slices n) -> good_rib r.
  Proof.
    intros n r H. unfold slices in H. apply in_map_iff in H. destruct H as (k & <- & H). apply in_seq in H.
    assert (K : (k < n)%nat) by lia. pose proof (slice_bound n k K) as B. pose proof (slice_width_pos n ltac:(lia)) as W.
    unfold good_rib, real_rib, rb_radius, rb_width, rb_normal, dnormal. cbn [rb_disk dradius dplane pnormal Rib.rb_width].
    split; [apply radius_positive; auto; destruct HS as (_ & _ & _ & _ & L); lra|]. split; [cbn; lra|]. vunf. ring.
  Qed.
  (** The slices cover the width and do not overlap. *)
  Lemma slices_cover : forall n y, (0 < n)%nat -> - sLy s <= y <= sLy s ->
    exists k, (k < n)%nat /\ Rabs (y - slice_center (sLy s) n k) <= slice_width (sLy s) n / 2.
  Proof.
    intros n y H Hy. pose proof (slice_width_pos n H) as WP. set (w := slice_width (sLy s) n) in *.
    assert (NW : INR n * w = 2 * sLy s).
    { unfold w, slice_width. field. apply not_0_INR. lia. }
    assert (G : forall m, (m <= n)%nat -> (exists k, (k < m)%nat /\ Rabs (y - slice_center (sLy s) n k) <= w / 2) \/ - sLy s + INR m * w <= y).
    { induction m as [|m IH]; intros Hm; [right; cbn; lra|]. destruct IH as [(k & K & D)|D]; [lia|left; exists k; split; auto|].
      destruct (Rle_lt_dec (- sLy s + INR (S m) * w) y) as [|L]; [right; auto|]. left. exists m. split; [lia|].
      unfold slice_center. fold w. rewrite S_INR in L. apply Rabs_le. lra. }
    destruct (G n (le_n n)) as [E|E]; auto. exists (n - 1)%nat. split; [lia|].
    unfold slice_center. fold w. rewrite minus_INR by lia. cbn [INR]. apply Rabs_le. lra.
  Qed.
  Lemma slices_disjoint : forall n i j y, (0 < n)%nat ->
    Rabs (y - slice_center (sLy s) n i) < slice_width (sLy s) n / 2 ->
    Rabs (y - slice_center (sLy s) n j) < slice_width (sLy s) n / 2 -> i = j.
  Proof.
    intros n i j y H Hi Hj. pose proof (slice_width_pos n H) as WP. unfold slice_center in *. set (w := slice_width (sLy s) n) in *.
    apply Rabs_def2 in Hi, Hj.
    assert (INR i < INR j + 1) by nra. assert (INR j < INR i + 1) by nra.
    rewrite <- S_INR in *. apply INR_lt in H0, H1. lia.
  Qed.
End Ribs.
