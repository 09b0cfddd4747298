(** * Area and volume of the mesh geometric method. *)
From Coq Require Import ZArith Bool Reals Lra Lia List Permutation.
From Verif Require Import Base Num Vec Aabb Geom Ground Rib ER SpecGeom SpecRib SpecAvg SpecProfile.
From Verif Require Import ProofGeom ProofInt ProofTri ProofSegArea ProofFlat ProofAvg ProofMeshGeo ProofMeshEval ProofPolar ProofChord.
Import ListNotations.
Local Open Scope R_scope.

Lemma dist_is : forall p q d, 0 <= d -> pdot (psub p q) (psub p q) = d * d -> dist p q = d.
Proof. intros p q d H E. unfold dist. now apply pnorm_eq. Qed.

(** ** Angles in the lower half plane. *)
Definition cross2 (x y x' y' : R) : R := x * y' - y * x'.
Lemma polar_cross : forall k t k' t', cross2 (k * cos t) (k * sin t) (k' * cos t') (k' * sin t') = k * k' * sin (t' - t).
Proof. intros. rewrite sin_minus. unfold cross2. ring. Qed.
Lemma sin_sign : forall d, - PI < d < PI -> (0 < sin d <-> 0 < d) /\ (sin d = 0 <-> d = 0) /\ (sin d < 0 <-> d < 0).
Proof.
  intros d H.
  assert (P : 0 < d -> 0 < sin d) by (intros; apply sin_gt_0; lra).
  assert (N : d < 0 -> sin d < 0) by (intros; apply sin_lt_0_var; lra).
  assert (Z : d = 0 -> sin d = 0) by (intros ->; apply sin_0).
  destruct (Rtotal_order d 0) as [L|[E|G]];
    [specialize (N L)|specialize (Z E)|specialize (P G)]; repeat split; intros; lra.
Qed.
Lemma abs_cross : forall k t k' t', 0 < k -> 0 < k' -> - PI < t' - t < PI ->
  k * k' * sin (Rabs (t' - t)) = Rabs (cross2 (k * cos t) (k * sin t) (k' * cos t') (k' * sin t')).
Proof.
  intros k t k' t' Hk Hk' HD. rewrite polar_cross. destruct (sin_sign _ HD) as (A & B & C).
  rewrite Rabs_mult, (Rabs_pos_eq (k * k')) by nra. f_equal.
  destruct (Rle_dec 0 (t' - t)) as [L|L].
  - rewrite (Rabs_pos_eq (t' - t)) by auto. symmetry. apply Rabs_pos_eq. destruct L as [L|L]; [apply A in L; lra|].
    rewrite (proj2 B); lra.
  - rewrite (Rabs_left (t' - t)) by lra. rewrite sin_neg. symmetry. apply Rabs_left. apply C. lra.
Qed.
(** The angle of a point between two others. *)
Lemma between_angle : forall k0 t0 k1 t1 k t u, 0 < k0 -> 0 < k1 -> 0 < k -> - PI < t0 < 0 -> - PI < t1 < 0 -> - PI < t < 0 ->
  0 <= u <= 1 -> k * cos t = (1 - u) * (k0 * cos t0) + u * (k1 * cos t1) ->
  k * sin t = (1 - u) * (k0 * sin t0) + u * (k1 * sin t1) ->
  Rabs (t1 - t0) = Rabs (t - t0) + Rabs (t1 - t) /\ Rmin t0 t1 <= t <= Rmax t0 t1.
Proof.
  intros k0 t0 k1 t1 k t u H0 H1 H I0 I1 I HU EC ES.
  assert (X1 : k0 * k * sin (t - t0) = u * (k0 * k1 * sin (t1 - t0))).
  { rewrite <- !polar_cross. unfold cross2. rewrite EC, ES. ring. }
  assert (X2 : k * k1 * sin (t1 - t) = (1 - u) * (k0 * k1 * sin (t1 - t0))).
  { rewrite <- !polar_cross. unfold cross2. rewrite EC, ES. ring. }
  assert (P0 : 0 < k0 * k) by (now apply Rmult_lt_0_compat). assert (P1 : 0 < k * k1) by (now apply Rmult_lt_0_compat).
  assert (P : 0 < k0 * k1) by (now apply Rmult_lt_0_compat).
  destruct (sin_sign (t1 - t0) ltac:(lra)) as (A & B & C).
  destruct (sin_sign (t - t0) ltac:(lra)) as (A0 & B0 & C0).
  destruct (sin_sign (t1 - t) ltac:(lra)) as (A1 & B1 & C1).
  destruct (Rtotal_order t0 t1) as [L|[E|G]].
  - assert (S : 0 < sin (t1 - t0)) by (apply A; lra).
    assert (Q : 0 < k0 * k1 * sin (t1 - t0)) by (now apply Rmult_lt_0_compat).
    assert (Y0 : 0 <= t - t0).
    { destruct (Rle_dec 0 (t - t0)) as [|N]; auto. assert (sin (t - t0) < 0) by (apply C0; lra). nra. }
    assert (Y1 : 0 <= t1 - t).
    { destruct (Rle_dec 0 (t1 - t)) as [|N]; auto. assert (sin (t1 - t) < 0) by (apply C1; lra). nra. }
    rewrite !Rabs_pos_eq, Rmin_left, Rmax_right by lra. split; lra.
  - assert (S : sin (t1 - t0) = 0) by (apply B; lra). rewrite S in X1, X2.
    assert (sin (t - t0) = 0) by nra. assert (t - t0 = 0) by (now apply B0).
    assert (t = t0) by lra. subst t. rewrite <- E. unfold Rminus. rewrite !Rplus_opp_r, Rabs_R0, Rmin_left, Rmax_left by lra. lra.
  - assert (S : sin (t1 - t0) < 0) by (apply C; lra).
    assert (Q : k0 * k1 * sin (t1 - t0) < 0) by nra.
    assert (Y0 : t - t0 <= 0).
    { destruct (Rle_dec (t - t0) 0) as [|N]; auto. assert (0 < sin (t - t0)) by (apply A0; lra). nra. }
    assert (Y1 : t1 - t <= 0).
    { destruct (Rle_dec (t1 - t) 0) as [|N]; auto. assert (0 < sin (t1 - t)) by (apply A1; lra). nra. }
    rewrite !Rabs_left1, Rmin_right, Rmax_left by lra. split; lra.
Qed.

(** ** The distance to a segment in a direction, and its integral. *)
Section Radial.
  Variables (k0 k1 lo hi : R).
  Hypothesis K0 : 0 < k0.
  Hypothesis K1 : 0 < k1.
  Hypothesis HL : lo < hi < lo + PI.
  Definition rden (t : R) : R := k0 * sin (t - lo) + k1 * sin (hi - t).
  Definition radial (t : R) : R := k0 * k1 * sin (hi - lo) / rden t.
  Definition rfrac (t : R) : R := k0 * sin (t - lo) / rden t.

  Lemma rden_pos : forall t, lo <= t <= hi -> 0 < rden t.
  Proof.
    intros t Ht. unfold rden.
    assert (A : 0 <= sin (t - lo)) by (apply sin_ge_0; lra). assert (B : 0 <= sin (hi - t)) by (apply sin_ge_0; lra).
    destruct (Rle_lt_or_eq_dec lo t ltac:(lra)) as [L|E].
    - assert (0 < sin (t - lo)) by (apply sin_gt_0; lra). nra.
    - assert (0 < sin (hi - t)) by (apply sin_gt_0; lra). nra.
  Qed.
  Lemma radial_pos : forall t, lo <= t <= hi -> 0 < radial t.
  Proof.
    intros t Ht. unfold radial. pose proof (rden_pos t Ht). assert (0 < sin (hi - lo)) by (apply sin_gt_0; lra).
    apply Rdiv_lt_0_compat; auto. apply Rmult_lt_0_compat; auto. now apply Rmult_lt_0_compat.
  Qed.
  Lemma rfrac_in : forall t, lo <= t <= hi -> 0 <= rfrac t <= 1.
  Proof.
    intros t Ht. pose proof (rden_pos t Ht) as D. unfold rfrac.
    assert (A : 0 <= sin (t - lo)) by (apply sin_ge_0; lra). assert (B : 0 <= sin (hi - t)) by (apply sin_ge_0; lra).
    assert (A' : 0 <= k0 * sin (t - lo)) by (apply Rmult_le_pos; lra). assert (B' : 0 <= k1 * sin (hi - t)) by (apply Rmult_le_pos; lra).
    split.
    - apply Rmult_le_pos; auto. left. now apply Rinv_0_lt_compat.
    - apply (Rmult_le_reg_r (rden t)); auto. unfold Rdiv. rewrite Rmult_assoc, Rinv_l by lra. unfold rden. lra.
  Qed.
  Lemma turn_id : forall t, sin (t - lo) * sin hi + sin (hi - t) * sin lo = sin (hi - lo) * sin t /\
    sin (t - lo) * cos hi + sin (hi - t) * cos lo = sin (hi - lo) * cos t.
  Proof.
    intros t. rewrite !sin_minus. pose proof (sin2_cos2 lo) as L. pose proof (sin2_cos2 hi) as H. pose proof (sin2_cos2 t) as T.
    unfold Rsqr in *. split; ring.
  Qed.
  Lemma radial_on : forall t, lo <= t <= hi ->
    radial t * cos t = k0 * cos lo + rfrac t * (k1 * cos hi - k0 * cos lo) /\
    radial t * sin t = k0 * sin lo + rfrac t * (k1 * sin hi - k0 * sin lo).
  Proof.
    intros t Ht. pose proof (rden_pos t Ht) as D. destruct (turn_id t) as [ES EC]. unfold radial, rfrac.
    split; apply (Rmult_eq_reg_r (rden t)); try lra.
    - transitivity (k0 * k1 * (sin (hi - lo) * cos t)); [field; lra|]. rewrite <- EC.
      transitivity (k0 * cos lo * rden t + k0 * sin (t - lo) * (k1 * cos hi - k0 * cos lo)); [unfold rden; ring|field; lra].
    - transitivity (k0 * k1 * (sin (hi - lo) * sin t)); [field; lra|]. rewrite <- ES.
      transitivity (k0 * sin lo * rden t + k0 * sin (t - lo) * (k1 * sin hi - k0 * sin lo)); [unfold rden; ring|field; lra].
  Qed.
  Variable rr : R.
  Definition swept (t : R) : R := (rr * rr * t - k0 * k0 * k1 * sin (hi - lo) * (sin (t - lo) / rden t)) / 2.
  Lemma d_sin_minus : forall c t, derivable_pt_lim (fun t => sin (t - c)) t (cos (t - c)).
  Proof.
    intros c t. replace (cos (t - c)) with (cos (t - c) * 1) by ring.
    apply (derivable_pt_lim_comp (fun t => t - c) sin t 1 (cos (t - c))); [|apply derivable_pt_lim_sin].
    replace 1 with (1 - 0) by ring. apply (derivable_pt_lim_minus id (fct_cte c)); [apply derivable_pt_lim_id|apply derivable_pt_lim_const].
  Qed.
  Lemma d_minus_sin : forall c t, derivable_pt_lim (fun t => sin (c - t)) t (- cos (c - t)).
  Proof.
    intros c t. replace (- cos (c - t)) with (cos (c - t) * (-1)) by ring.
    apply (derivable_pt_lim_comp (fun t => c - t) sin t (-1) (cos (c - t))); [|apply derivable_pt_lim_sin].
    replace (-1) with (0 - 1) by ring. apply (derivable_pt_lim_minus (fct_cte c) id); [apply derivable_pt_lim_const|apply derivable_pt_lim_id].
  Qed.
  Lemma d_scal : forall f k t l, derivable_pt_lim f t l -> derivable_pt_lim (fun x => k * f x) t (k * l).
  Proof. intros. now apply (derivable_pt_lim_scal f). Qed.
  Lemma swept_deriv : forall t, lo <= t <= hi ->
    derivable_pt_lim swept t ((rr * rr - radial t * radial t) / 2).
  Proof.
    intros t Ht. pose proof (rden_pos t Ht) as D.
    assert (DD : derivable_pt_lim rden t (k0 * cos (t - lo) + k1 * (- cos (hi - t)))).
    { apply (derivable_pt_lim_plus (fun t => k0 * sin (t - lo)) (fun t => k1 * sin (hi - t)));
        [apply d_scal, d_sin_minus|apply d_scal, d_minus_sin]. }
    assert (DQ : derivable_pt_lim (fun t => sin (t - lo) / rden t) t
        ((cos (t - lo) * rden t - (k0 * cos (t - lo) + k1 * (- cos (hi - t))) * sin (t - lo)) / (rden t)²)).
    { apply (derivable_pt_lim_div (fun t => sin (t - lo)) rden); auto; [apply d_sin_minus|lra]. }
    assert (E : cos (t - lo) * rden t - (k0 * cos (t - lo) + k1 * (- cos (hi - t))) * sin (t - lo) = k1 * sin (hi - lo)).
    { replace (hi - lo) with ((hi - t) + (t - lo)) by ring. rewrite (sin_plus (hi - t) (t - lo)). unfold rden. ring. }
    rewrite E in DQ.
    replace ((rr * rr - radial t * radial t) / 2) with
      (/ 2 * (rr * rr * 1 - k0 * k0 * k1 * sin (hi - lo) * (k1 * sin (hi - lo) / (rden t)²))).
    2:{ unfold radial, Rsqr. field. lra. }
    apply derivable_pt_lim_ext with (fun t => / 2 * (rr * rr * t - k0 * k0 * k1 * sin (hi - lo) * (sin (t - lo) / rden t))).
    { intros x. unfold swept, Rdiv. ring. }
    apply d_scal.
    apply (derivable_pt_lim_minus (fun t => rr * rr * t) (fun t => k0 * k0 * k1 * sin (hi - lo) * (sin (t - lo) / rden t))).
    - apply (d_scal id). apply derivable_pt_lim_id.
    - now apply d_scal.
  Qed.
  Lemma swept_total : swept hi - swept lo = (rr * rr * (hi - lo) - k0 * k1 * sin (hi - lo)) / 2.
  Proof.
    unfold swept. assert (S : 0 < sin (hi - lo)) by (apply sin_gt_0; lra).
    replace (rden hi) with (k0 * sin (hi - lo)) by (unfold rden; replace (hi - hi) with 0 by ring; rewrite sin_0; ring).
    replace (lo - lo) with 0 by ring. rewrite sin_0. assert (DL : 0 < rden lo) by (apply rden_pos; lra). field. lra.
  Qed.
End Radial.

(** ** In the plane of the wheel. *)
Section Wheel.
  Variables (r : rib R) (a : affine R).
  Hypothesis HR : good_rib r.
  Hypothesis HN : rb_normal r = V 0 1 0.
  Hypothesis HA : rigid a.
  Let cg := place a (rb_center r).
  Let D := posed_disk r a.
  Let R0 := rb_radius r.

  Definition low (p : pt) : Prop := on_plane (dplane D) p /\ vz (in_rib r a p) < 0.
  Definition far (p : pt) : R := dist p cg.

  Lemma polar_of : forall p, low p -> 0 < far p /\ - PI < ang r a p < 0 /\
    in_rib r a p = V (far p * cos (ang r a p)) 0 (far p * sin (ang r a p)).
  Proof.
    intros p [HP HZ]. pose proof (local_flat r a HN p HP) as Y. unfold far, cg. rewrite <- (norm_local r a HA).
    assert (EN : pnorm (in_rib r a p) = hyp (vx (in_rib r a p)) (vz (in_rib r a p))).
    { unfold pnorm, hyp. f_equal. unfold pdot. rewrite Y. ring. }
    rewrite EN. unfold ang. set (x := vx (in_rib r a p)) in *. set (z := vz (in_rib r a p)) in *.
    destruct (atan2_polar x z ltac:(lra)) as (EX & EZ & B).
    assert (HP2 : 0 < hyp x z) by (apply hyp_pos; lra).
    split; auto. split.
    - split; [lra|]. destruct (Rlt_dec (ratan2 z x) 0) as [|N]; auto.
      assert (0 <= sin (ratan2 z x)) by (apply sin_ge_0; lra). nra.
    - apply vec_eq; cbn [vx vy vz]; [now rewrite EX|exact Y|now rewrite EZ].
  Qed.
  Lemma wheel_of : forall p k th, in_rib r a p = V (k * cos th) 0 (k * sin th) -> p = wheel_point r a k th.
  Proof.
    intros p k th E. rewrite <- (from_local r a HA p), E. unfold wheel_point, place, pcol0, pcol2. apply vec_eq; vunf; ring.
  Qed.
  Lemma in_rib_comb : forall p q t, in_rib r a (padd p (pscale t (psub q p))) =
    padd (in_rib r a p) (pscale t (psub (in_rib r a q) (in_rib r a p))).
  Proof. intros. unfold in_rib. apply vec_eq; vunf; ring. Qed.
  Lemma low_comb : forall p q t, low p -> low q -> 0 <= t <= 1 -> low (padd p (pscale t (psub q p))).
  Proof.
    intros p q t [P1 P2] [Q1 Q2] T. split.
    - unfold on_plane in *. replace (pdot _ _) with ((1 - t) * pdot (psub p (porigin (dplane D))) (pnormal (dplane D)) +
        t * pdot (psub q (porigin (dplane D))) (pnormal (dplane D))) by (vunf; ring). rewrite P1, Q1. ring.
    - rewrite in_rib_comb. vunf. nra.
  Qed.
  Lemma comb_polar : forall p q t, low p -> low q -> 0 <= t <= 1 ->
    let m := padd p (pscale t (psub q p)) in
    far m * cos (ang r a m) = (1 - t) * (far p * cos (ang r a p)) + t * (far q * cos (ang r a q)) /\
    far m * sin (ang r a m) = (1 - t) * (far p * sin (ang r a p)) + t * (far q * sin (ang r a q)).
  Proof.
    intros p q t HP HQ T m. destruct (polar_of m (low_comb p q t HP HQ T)) as (_ & _ & EM).
    unfold m in EM at 1. rewrite in_rib_comb in EM.
    destruct (polar_of p HP) as (_ & _ & EP). destruct (polar_of q HQ) as (_ & _ & EQ). rewrite EP, EQ in EM.
    assert (E1 := f_equal vx EM). assert (E2 := f_equal vz EM). vunf. split; lra.
  Qed.
  Lemma comb_angle : forall p q t, low p -> low q -> 0 <= t <= 1 ->
    let m := padd p (pscale t (psub q p)) in
    Rabs (ang r a q - ang r a p) = Rabs (ang r a m - ang r a p) + Rabs (ang r a q - ang r a m) /\
    Rmin (ang r a p) (ang r a q) <= ang r a m <= Rmax (ang r a p) (ang r a q).
  Proof.
    intros p q t HP HQ T m. pose proof (low_comb p q t HP HQ T) as HM. fold m in HM.
    destruct (comb_polar p q t HP HQ T) as [EC ES]. fold m in EC, ES.
    destruct (polar_of p HP) as (KP & AP & _). destruct (polar_of q HQ) as (KQ & AQ & _). destruct (polar_of m HM) as (KM & AM & _).
    eapply between_angle with (k0 := far p) (k1 := far q) (k := far m) (u := t); auto.
  Qed.

  (** Area hidden by a segment. *)
  Definition hid (p q : pt) : R :=
    let d := Rabs (ang r a q - ang r a p) in (R0 * R0 * d - far p * far q * sin d) / 2.
  Lemma hid_sym : forall p q, hid p q = hid q p.
  Proof. intros. unfold hid. rewrite (Rabs_minus_sym (ang r a q)). cbv zeta. f_equal. f_equal. ring. Qed.
  Lemma angle_gap : forall s, hi_ang r a s - lo_ang r a s = Rabs (ang r a (sv1 s) - ang r a (sv0 s)).
  Proof.
    intros s. unfold hi_ang, lo_ang, Rmax, Rmin. destruct (Rle_dec _ _); unfold Rabs; destruct Rcase_abs; lra.
  Qed.
  Lemma volume_hid : forall s, far (sv0 s) <= R0 -> far (sv1 s) <= R0 -> c_volume r a s = hid (sv0 s) (sv1 s) * rb_width r.
  Proof.
    intros s H0 H1. unfold c_volume, half_ang, hid. cbv zeta. rewrite angle_gap. unfold rad_at.
    rewrite !(norm_local r a HA). fold cg. fold (far (sv0 s)) (far (sv1 s)). fold R0. rewrite !Rmin_right by lra. field.
  Qed.
  Lemma hid_split : forall p q t, low p -> low q -> 0 <= t <= 1 ->
    let m := padd p (pscale t (psub q p)) in hid p q = hid p m + hid m q.
  Proof.
    intros p q t HP HQ T m. pose proof (low_comb p q t HP HQ T) as HM. fold m in HM.
    destruct (comb_polar p q t HP HQ T) as [EC ES]. destruct (comb_angle p q t HP HQ T) as [EA _]. fold m in EC, ES, EA.
    destruct (polar_of p HP) as (KP & AP & _). destruct (polar_of q HQ) as (KQ & AQ & _). destruct (polar_of m HM) as (KM & AM & _).
    unfold hid. cbv zeta. rewrite !abs_cross by lra. rewrite EA, EC, ES. unfold cross2.
    set (c := far p * cos (ang r a p) * (far q * sin (ang r a q)) - far p * sin (ang r a p) * (far q * cos (ang r a q))).
    match goal with |- context [Rabs ?u] => idtac end.
    replace (far p * cos (ang r a p) * ((1 - t) * (far p * sin (ang r a p)) + t * (far q * sin (ang r a q))) -
             far p * sin (ang r a p) * ((1 - t) * (far p * cos (ang r a p)) + t * (far q * cos (ang r a q)))) with (t * c) by (unfold c; ring).
    replace (((1 - t) * (far p * cos (ang r a p)) + t * (far q * cos (ang r a q))) * (far q * sin (ang r a q)) -
             ((1 - t) * (far p * sin (ang r a p)) + t * (far q * sin (ang r a q))) * (far q * cos (ang r a q))) with ((1 - t) * c) by (unfold c; ring).
    rewrite (Rabs_mult t), (Rabs_mult (1 - t)), (Rabs_pos_eq t), (Rabs_pos_eq (1 - t)) by lra. field.
  Qed.
  Lemma seg_swap : forall p q x, in_segment (Segment p q) x -> in_segment (Segment q p) x.
  Proof.
    intros p q x (t & T & ->). exists (1 - t). split; [lra|]. cbn [sv0 sv1]. apply vec_eq; vunf; ring.
  Qed.
  Lemma hidden_swap : forall p q A, hidden_area r a (Segment p q) A -> hidden_area r a (Segment q p) A.
  Proof.
    intros p q A (lo & hi & rho & F & L & I & P & E). exists lo, hi, rho, F. split; auto. split.
    - intros x Hx. apply I. now apply seg_swap.
    - split; auto. intros th Ht. destruct (P th Ht) as (P1 & P2 & P3). repeat split; try lra; auto. now apply seg_swap.
  Qed.
  Lemma sector_of : forall p q, low p -> low q -> forall x, in_segment (Segment p q) x ->
    exists k th, 0 < k /\ Rmin (ang r a p) (ang r a q) <= th <= Rmax (ang r a p) (ang r a q) /\ x = wheel_point r a k th.
  Proof.
    intros p q HP HQ x (t & T & ->). cbn [sv0 sv1].
    pose proof (low_comb p q t HP HQ T) as HM. destruct (comb_angle p q t HP HQ T) as [_ B].
    destruct (polar_of _ HM) as (KM & _ & EM). eexists _, _. split; [exact KM|]. split; [exact B|]. now apply wheel_of.
  Qed.
  Lemma hidden_lt : forall p q, low p -> low q -> far p <= R0 -> far q <= R0 -> ang r a p < ang r a q ->
    hidden_area r a (Segment p q) (hid p q).
  Proof.
    intros p q HP HQ DP DQ HL.
    destruct (polar_of p HP) as (KP & AP & EP). destruct (polar_of q HQ) as (KQ & AQ & EQ).
    set (lo := ang r a p) in *. set (hi := ang r a q) in *. set (k0 := far p) in *. set (k1 := far q) in *.
    assert (LH : lo < hi < lo + PI) by lra.
    exists lo, hi, (radial k0 k1 lo hi), (swept k0 k1 lo hi R0). split; [lra|]. split.
    { intros x Hx. destruct (sector_of p q HP HQ x Hx) as (k & th & Kk & B & E). fold lo hi in B.
      rewrite Rmin_left, Rmax_right in B by lra. eauto. }
    split.
    - intros th Ht. destruct (radial_on k0 k1 lo hi KP KQ LH th Ht) as [EC ES].
      pose proof (rfrac_in k0 k1 lo hi KP KQ LH th Ht) as U. pose proof (radial_pos k0 k1 lo hi KP KQ LH th Ht) as PR.
      split; [|split].
      + split; auto. set (u := rfrac k0 k1 lo hi th) in *. set (rho := radial k0 k1 lo hi th) in *.
        assert (SQ : rho * rho <= ((1 - u) * k0 + u * k1) * ((1 - u) * k0 + u * k1)).
        { assert (E : rho * rho = (rho * cos th) * (rho * cos th) + (rho * sin th) * (rho * sin th)).
          { pose proof (sin2_cos2 th) as X. unfold Rsqr in X. replace (rho * rho) with (rho * rho * (sin th * sin th + cos th * cos th)) by (rewrite X; ring). ring. }
          rewrite E, EC, ES.
          assert (X0 : cos lo * cos lo + sin lo * sin lo = 1) by (pose proof (sin2_cos2 lo) as X; unfold Rsqr in X; lra).
          assert (X1 : cos hi * cos hi + sin hi * sin hi = 1) by (pose proof (sin2_cos2 hi) as X; unfold Rsqr in X; lra).
          assert (X2 : cos lo * cos hi + sin lo * sin hi <= 1) by (pose proof (COS_bound (lo - hi)) as X; rewrite cos_minus in X; lra).
          replace (_ + _) with ((1 - u) * (1 - u) * (k0 * k0) * (cos lo * cos lo + sin lo * sin lo) + u * u * (k1 * k1) * (cos hi * cos hi + sin hi * sin hi)
             + 2 * (u * (1 - u)) * (k0 * k1) * (cos lo * cos hi + sin lo * sin hi)) by ring.
          rewrite X0, X1. assert (0 <= 2 * (u * (1 - u)) * (k0 * k1)) by (apply Rmult_le_pos; nra). nra. }
        assert (SB : (1 - u) * k0 + u * k1 <= R0) by nra.
        assert (SN : 0 <= (1 - u) * k0 + u * k1) by nra.
        apply Rle_trans with ((1 - u) * k0 + u * k1); [|exact SB]. apply Rsqr_incr_0_var; [exact SQ|exact SN].
      + exists (rfrac k0 k1 lo hi th). split; auto. cbn [sv0 sv1].
        symmetry. apply wheel_of. rewrite in_rib_comb, EP, EQ. unfold padd, pscale, psub. cbn [vx vy vz].
        apply vec_eq; cbn [vx vy vz]; [now rewrite EC|ring|now rewrite ES].
      + now apply swept_deriv.
    - rewrite swept_total by auto. unfold hid. cbv zeta. fold lo hi k0 k1. rewrite Rabs_pos_eq by lra. field.
  Qed.
  Lemma hidden_of : forall p q, low p -> low q -> far p <= R0 -> far q <= R0 -> hidden_area r a (Segment p q) (hid p q).
  Proof.
    intros p q HP HQ DP DQ. destruct (Rtotal_order (ang r a p) (ang r a q)) as [L|[E|G]].
    - now apply hidden_lt.
    - destruct (polar_of p HP) as (KP & AP & EP). set (th := ang r a p) in *.
      exists th, th, (fun _ => far p), (fun t => (R0 * R0 - far p * far p) / 2 * t). pose proof PI_RGT_0. split; [lra|]. split.
      { intros x Hx. destruct (sector_of p q HP HQ x Hx) as (k & t & Kk & B & Ex). fold th in B. rewrite <- E in B.
        rewrite Rmin_left, Rmax_left in B by lra. eauto. }
      split.
      + intros t Ht. assert (t = th) by lra. subst t. split; [exact (conj KP DP)|]. split.
        * exists 0. split; [lra|]. cbn [sv0 sv1]. symmetry. apply wheel_of. rewrite <- EP. f_equal. apply vec_eq; vunf; ring.
        * assert (DL := d_scal id ((R0 * R0 - far p * far p) / 2) th 1 (derivable_pt_lim_id th)).
          rewrite Rmult_1_r in DL. exact DL.
      + unfold hid. cbv zeta. fold th. rewrite <- E. unfold Rminus. rewrite !Rplus_opp_r, Rabs_R0, sin_0. field.
    - rewrite hid_sym. apply hidden_swap. now apply hidden_lt.
  Qed.
End Wheel.

(** ** The method on plain cuts. *)
Section Profile.
  Variables (r : rib R) (a : affine R).
  Hypothesis HR : good_rib r.
  Hypothesis HN : rb_normal r = V 0 1 0.
  Hypothesis HA : rigid a.
  Let cg := place a (rb_center r).
  Let D := posed_disk r a.
  Let R0 := rb_radius r.
  Notation cut g s := (int_triangle_disk (tg_tri g) (disk_grd (frib r) (fa a)) neps = Ret (Some (fseg s))).
  Notation lowp := (low r a).
  Notation farp := (far r a).
  Notation hidp := (hid r a).

  Lemma cut_low : forall g t f s, ground_of t f g -> cut g s -> plain_cut r a s ->
    lowp (sv0 s) /\ lowp (sv1 s) /\ farp (sv0 s) <= R0 /\ farp (sv1 s) <= R0.
  Proof.
    intros g t f s G E (L & B0 & B1). destruct (ground_of_fields _ _ _ G) as (E1 & _).
    rewrite E1, f_disk in E. change (neps : er) with (Fin eps) in E.
    apply triangle_disk_sound in E; [|apply eps_pos|destruct HR; cbn; unfold rb_radius in *; lra|now apply posed_unit].
    destruct E as (s' & ES & P0 & P1 & _ & _ & I).
    assert (s' = s).
    { destruct s as [[x y z] [x' y' z']], s' as [[u v w] [u' v' w']]. unfold fseg, fv in ES. cbn in ES. congruence. }
    subst s'. assert (NE : sv0 s <> sv1 s).
    { intros X. rewrite X in L. rewrite (dist_is _ _ 0) in L; [pose proof eps_pos; lra|lra|vunf; ring]. }
    destruct (I NE) as [[_ D0] [_ D1]].
    split; [split; auto; now apply axle_local|]. split; [split; auto; now apply axle_local|]. split; assumption.
  Qed.
  Lemma plain_kept : forall s, plain_cut r a s -> dropped r a s = false.
  Proof.
    intros s (L & _). unfold dropped. replace (rltb (dist _ _) eps) with false by (symmetry; now apply rltb_false). apply andb_false_r.
  Qed.

  (** The contributions of the cuts. *)
  Definition from_cut (s : segment R) (c : output R) : Prop := exists t f g, ground_of t f g /\ cut g s /\ c = contribution r a (up_normal t) f s.
  Lemma cuts_give : forall gs ss, (forall g, In g gs -> exists t f, ground_of t f g) -> cuts r a gs ss -> Forall (plain_cut r a) ss ->
    exists css, Forall2 (gives r a) gs css /\ Forall2 from_cut ss (concat css).
  Proof.
    intros gs ss HG HC. induction HC as [|g gs ss E HC IH|g gs s ss E HC IH]; intros HP.
    - exists []. cbn. auto.
    - destruct IH as (css & F & F2); auto. { intros x Hx. apply HG. now right. }
      exists ([] :: css). split; [constructor; auto; now left|exact F2].
    - inversion HP; subst. destruct IH as (css & F & F2); auto. { intros x Hx. apply HG. now right. }
      destruct (HG g (or_introl eq_refl)) as (t & f & G).
      exists ([contribution r a (up_normal t) f s] :: css). split.
      + constructor; auto. right. exists t, f, s. repeat split; auto. now apply plain_kept.
      + cbn. constructor; auto. exists t, f, g. auto.
  Qed.
  Definition seg_len (s : segment R) : R := dist (sv0 s) (sv1 s).
  Definition seg_hid (s : segment R) : R := hidp (sv0 s) (sv1 s).
  Lemma from_cut_data : forall s c, plain_cut r a s -> from_cut s c ->
    o_area c = rb_width r * seg_len s /\ o_volume c = rb_width r * seg_hid s /\ o_point c = c_point r a s /\ hidden_area r a s (seg_hid s).
  Proof.
    intros s c HP (t & f & g & G & E & ->). destruct (cut_low g t f s G E HP) as (L0 & L1 & D0 & D1).
    cbn [contribution o_area o_volume o_point]. split; [unfold c_area, seg_len; ring|].
    split; [rewrite volume_hid by auto; unfold seg_hid; ring|]. split; auto.
    destruct s as [p q]. cbn [sv0 sv1] in *. now apply hidden_of.
  Qed.
  Lemma cuts_totals : forall ss cs, Forall (plain_cut r a) ss -> Forall2 from_cut ss cs ->
    total o_area cs = rb_width r * total seg_len ss /\ total o_volume cs = rb_width r * total seg_hid ss /\
    Forall2 (hidden_area r a) ss (map seg_hid ss).
  Proof.
    intros ss cs HP H. induction H as [|s c ss cs H HF IH]; cbn [total map].
    - repeat split; try ring. constructor.
    - inversion HP; subst. destruct IH as (I1 & I2 & I3); auto.
      destruct (from_cut_data s c) as (A & V & _ & HH); auto. rewrite A, V, I1, I2. repeat split; try ring. now constructor.
  Qed.
  Lemma total_map : forall A B (g : A -> B) (f : B -> R) l, total f (map g l) = total (fun x => f (g x)) l.
  Proof. intros A B g f. induction l as [|x l IH]; cbn; congruence. Qed.

  Lemma geometric_profile : forall gs ss, (forall g, In g gs -> exists t f, ground_of t f g) -> cuts r a gs ss ->
    Forall (plain_cut r a) ss ->
    exists As b o, Forall2 (hidden_area r a) ss As /\ envelop_geometric (frib r) gs (fa a) = Ret (b, o) /\
      (b = true <-> eps < rb_width r * total seg_len ss \/ eps < rb_width r * total (fun A => A) As) /\
      (b = true -> o_area o = Fin (rb_width r * total seg_len ss) /\ o_volume o = Fin (rb_width r * total (fun A => A) As)).
  Proof.
    intros gs ss HG HC HP. destruct (cuts_give gs ss HG HC HP) as (css & F & F2).
    destruct (cuts_totals ss _ HP F2) as (TA & TV & HH). exists (map seg_hid ss).
    assert (TM : total (fun A => A) (map seg_hid ss) = total seg_hid ss) by (rewrite total_map; reflexivity). rewrite TM.
    unfold envelop_geometric. rewrite sums0, (loop_clean _ _ _ _ F). cbn [obind orb app].
    unfold sums. cbn [ga_int ga_area ga_volume ga_point ga_normal ga_friction].
    change (nlt neps (Fin (total o_area (concat css)))) with (rltb eps (total o_area (concat css))).
    change (nlt neps (Fin (total o_volume (concat css)))) with (rltb eps (total o_volume (concat css))).
    rewrite TA, TV.
    assert (SC : some_contact (concat css) = false -> total seg_len ss = 0 /\ total seg_hid ss = 0).
    { intros X. destruct (concat css); [|discriminate]. inversion F2. now split. }
    destruct (some_contact (concat css)) eqn:EC; cbn [andb].
    - destruct (rltb eps (rb_width r * total seg_len ss)) eqn:E1; cbn [orb];
        [|destruct (rltb eps (rb_width r * total seg_hid ss)) eqn:E2].
      + do 2 eexists. split; [exact HH|]. split; [reflexivity|]. rb. split; [tauto|]. intros _. cbn [o_area o_volume]. auto.
      + do 2 eexists. split; [exact HH|]. split; [reflexivity|]. rb. split; [tauto|]. intros _. cbn [o_area o_volume]. auto.
      + do 2 eexists. split; [exact HH|]. split; [reflexivity|]. do 2 rb. split; [|discriminate]. split; [discriminate|]. intros [X|X]; exfalso; lra.
    - destruct (SC eq_refl) as [Z1 Z2]. do 2 eexists. split; [exact HH|]. split; [reflexivity|]. rewrite Z1, Z2.
      split; [|discriminate]. split; [discriminate|]. pose proof eps_pos. intros [X|X]; exfalso; lra.
  Qed.

  (** Splitting a triangle. *)
  Lemma split_cut : forall g t f s s1 s2, ground_of t f g -> cut g s -> plain_cut r a s -> splits s s1 s2 ->
    seg_len s = seg_len s1 + seg_len s2 /\ seg_hid s = seg_hid s1 + seg_hid s2.
  Proof.
    intros g t f s s1 s2 G E HP (m & (u & U & EM) & H1 & H2). destruct (cut_low g t f s G E HP) as (L0 & L1 & _).
    assert (SL : forall p q, seg_len (Segment p q) = seg_len (Segment q p)).
    { intros p q. unfold seg_len, dist, pnorm. cbn [sv0 sv1]. f_equal. vunf. ring. }
    assert (SH : forall p q, seg_hid (Segment p q) = seg_hid (Segment q p)) by (intros; apply hid_sym).
    assert (Q1 : seg_len s1 = seg_len (Segment (sv0 s) m) /\ seg_hid s1 = seg_hid (Segment (sv0 s) m))
      by (destruct H1 as [-> | ->]; auto).
    assert (Q2 : seg_len s2 = seg_len (Segment m (sv1 s)) /\ seg_hid s2 = seg_hid (Segment m (sv1 s)))
      by (destruct H2 as [-> | ->]; auto).
    destruct Q1 as [-> ->]. destruct Q2 as [-> ->]. subst m. split.
    - unfold seg_len. cbn [sv0 sv1]. set (d := dist (sv0 s) (sv1 s)).
      assert (DP : 0 <= d) by apply pnorm_nonneg.
      assert (DD : pdot (psub (sv1 s) (sv0 s)) (psub (sv1 s) (sv0 s)) = d * d).
      { unfold d, dist. rewrite <- pnorm_sq. unfold pnorm. f_equal; f_equal; vunf; ring. }
      rewrite (dist_is (sv0 s) _ (u * d)); [|nra|].
      2:{ transitivity (u * u * pdot (psub (sv1 s) (sv0 s)) (psub (sv1 s) (sv0 s))); [vunf; ring|rewrite DD; ring]. }
      rewrite (dist_is _ (sv1 s) ((1 - u) * d)); [ring|nra|].
      transitivity ((1 - u) * (1 - u) * pdot (psub (sv1 s) (sv0 s)) (psub (sv1 s) (sv0 s))); [vunf; ring|rewrite DD; ring].
    - now apply hid_split.
  Qed.

  Lemma cuts_one : forall g s gs ss, length gs = length ss -> cuts r a (g :: gs) (s :: ss) -> cut g s /\ cuts r a gs ss.
  Proof.
    intros g s gs ss L H. inversion H; subst; auto.
    assert (X : forall gs ss, cuts r a gs ss -> (length ss <= length gs)%nat) by (induction 1; cbn [length]; lia).
    match goal with C : cuts _ _ gs (s :: ss) |- _ => apply X in C; cbn [length] in C; lia end.
  Qed.
  Lemma split_cuts : forall g g1 g2 s s1 s2, cuts r a [g] [s] -> cuts r a [g1; g2] [s1; s2] -> cut g s /\ cut g1 s1 /\ cut g2 s2.
  Proof.
    intros g g1 g2 s s1 s2 C C'. apply cuts_one in C; [|reflexivity]. apply cuts_one in C'; [|reflexivity]. destruct C' as [C1 C2].
    apply cuts_one in C2; [|reflexivity]. tauto.
  Qed.
  Lemma plain_three : forall s s1 s2, Forall (plain_cut r a) [s; s1; s2] -> plain_cut r a s /\ plain_cut r a s1 /\ plain_cut r a s2.
  Proof. intros s s1 s2 H. rewrite Forall_forall in H. repeat split; apply H; cbn; auto. Qed.
  Lemma one_gives : forall g t f s, ground_of t f g -> cut g s -> plain_cut r a s ->
    gives r a g [contribution r a (up_normal t) f s].
  Proof. intros g t f s G E P. right. exists t, f, s. repeat split; auto. now apply plain_kept. Qed.
  Lemma split_envelop : forall g g1 g2 t t1 t2 f s s1 s2 gs ss,
    ground_of t f g -> ground_of t1 f g1 -> ground_of t2 f g2 -> cut g s -> cut g1 s1 -> cut g2 s2 ->
    plain_cut r a s -> plain_cut r a s1 -> plain_cut r a s2 -> splits s s1 s2 ->
    (forall g, In g gs -> exists t f, ground_of t f g) -> cuts r a gs ss -> Forall (plain_cut r a) ss ->
    exists b o o', envelop_geometric (frib r) (g :: gs) (fa a) = Ret (b, o) /\
      envelop_geometric (frib r) (g1 :: g2 :: gs) (fa a) = Ret (b, o') /\
      o_area o = o_area o' /\ o_volume o = o_volume o' /\ o_friction o = o_friction o'.
  Proof.
    intros g g1 g2 t t1 t2 f s s1 s2 gs ss G G1 G2 E E1 E2 P P1 P2 HS HG HC HP.
    destruct (cuts_give gs ss HG HC HP) as (css & F & F2).
    destruct (split_cut g t f s s1 s2 G E P HS) as [SL SH].
    assert (F' : Forall2 (gives r a) (g :: gs) ([contribution r a (up_normal t) f s] :: css)) by (constructor; auto; now apply one_gives).
    assert (F'' : Forall2 (gives r a) (g1 :: g2 :: gs) ([contribution r a (up_normal t1) f s1] :: [contribution r a (up_normal t2) f s2] :: css))
      by (constructor; [|constructor; auto]; now apply one_gives).
    unfold envelop_geometric. rewrite sums0, (loop_clean _ _ _ _ F'), (loop_clean _ _ _ _ F''). cbn [obind orb app concat some_contact].
    assert (D0 := from_cut_data s _ P (ex_intro _ t (ex_intro _ f (ex_intro _ g (conj G (conj E eq_refl)))))).
    assert (D1 := from_cut_data s1 _ P1 (ex_intro _ t1 (ex_intro _ f (ex_intro _ g1 (conj G1 (conj E1 eq_refl)))))).
    assert (D2 := from_cut_data s2 _ P2 (ex_intro _ t2 (ex_intro _ f (ex_intro _ g2 (conj G2 (conj E2 eq_refl)))))).
    destruct D0 as (A0 & V0 & _ & _). destruct D1 as (A1 & V1 & _ & _). destruct D2 as (A2 & V2 & _ & _).
    set (c := contribution r a (up_normal t) f s) in *. set (c1 := contribution r a (up_normal t1) f s1) in *. set (c2 := contribution r a (up_normal t2) f s2) in *.
    assert (TA : total o_area (c :: concat css) = total o_area (c1 :: c2 :: concat css)) by (cbn [total]; rewrite A0, A1, A2, SL; ring).
    assert (TV : total o_volume (c :: concat css) = total o_volume (c1 :: c2 :: concat css)) by (cbn [total]; rewrite V0, V1, V2, SH; ring).
    assert (TF : total (fun o => o_friction o * o_volume o) (c :: concat css) = total (fun o => o_friction o * o_volume o) (c1 :: c2 :: concat css)).
    { cbn [total]. rewrite V0, V1, V2, SH. unfold c, c1, c2. cbn [contribution o_friction]. ring. }
    unfold sums. cbn [ga_int ga_area ga_volume ga_point ga_normal ga_friction]. rewrite TA, TV, TF.
    match goal with |- context [if ?b then _ else _] => destruct b end.
    - do 3 eexists. split; [reflexivity|]. split; [reflexivity|]. cbn [o_area o_volume o_friction]. auto.
    - do 3 eexists. split; [reflexivity|]. split; [reflexivity|]. auto.
  Qed.

  (** ** The contact point lies between the ends of the cuts. *)
  Lemma cut_ratio : forall g t f s, ground_of t f g -> cut g s -> plain_cut r a s -> 0 < farp (sv0 s) /\ 0 < farp (sv1 s) /\
    c_point r a s = padd (sv0 s) (pscale (farp (sv0 s) / (farp (sv0 s) + farp (sv1 s))) (psub (sv1 s) (sv0 s))).
  Proof.
    intros g t f s G E HP. destruct (cut_low g t f s G E HP) as (L0 & L1 & D0 & D1).
    destruct HP as (HL & _). destruct s as [p q]. cbn [sv0 sv1] in *.
    destruct (polar_of r a HN HA p L0) as (KP & AP & EP). destruct (polar_of r a HN HA q L1) as (KQ & AQ & EQ).
    assert (RC : c_point r a (Segment p q) = wheel_point r a (rad_c r a (Segment p q)) (mid_ang r a (Segment p q))).
    { unfold c_point, wheel_point, place, pcol0, pcol2. apply vec_eq; vunf; ring. }
    set (h := half_ang r a (Segment p q)) in *. set (m := mid_ang r a (Segment p q)) in *.
    assert (HB : 0 <= h < PI / 2 /\ (ang r a p = m - h /\ ang r a q = m + h \/ ang r a p = m + h /\ ang r a q = m - h)).
    { unfold h, m, half_ang, mid_ang, hi_ang, lo_ang, Rmax, Rmin. cbn [sv0 sv1]. destruct (Rle_dec (ang r a p) (ang r a q)).
      - split; [lra|]. left. lra.
      - split; [lra|]. right. lra. }
    destruct HB as [HH HE]. assert (CP : 0 < cos h) by (apply cos_gt_0; lra).
    assert (SUM : eps <= farp p + farp q).
    { apply Rle_trans with (dist p q); auto. unfold far. replace (dist q _) with (dist (place a (rb_center r)) q).
      - unfold dist. replace (psub p q) with (padd (psub p (place a (rb_center r))) (psub (place a (rb_center r)) q)) by (apply vec_eq; vunf; ring).
        apply triangle_ineq.
      - unfold dist, pnorm. f_equal. vunf. ring. }
    pose proof eps_pos as EPS. set (k0 := farp p) in *. set (k1 := farp q) in *.
    set (w := 2 * k0 * k1 / (k0 + k1) * cos h).
    assert (WP : 0 < w).
    { unfold w. apply Rmult_lt_0_compat; auto. apply Rdiv_lt_0_compat; [|lra]. apply Rmult_lt_0_compat; lra. }
    assert (WL : w <= R0).
    { apply Rle_trans with (2 * k0 * k1 / (k0 + k1)).
      - unfold w. rewrite <- (Rmult_1_r (2 * k0 * k1 / (k0 + k1))) at 2. apply Rmult_le_compat_l; [|pose proof (COS_bound h); lra].
        left. apply Rdiv_lt_0_compat; [|lra]. apply Rmult_lt_0_compat; lra.
      - apply (Rmult_le_reg_r (k0 + k1)); [lra|]. unfold Rdiv. rewrite Rmult_assoc, Rinv_l by lra. fold R0 in D0, D1. nra. }
    assert (RA : rad_c r a (Segment p q) = w).
    { unfold rad_c. cbn [sv0 sv1]. unfold rad_at. rewrite !(norm_local r a HA). fold cg. change (dist p cg) with k0. change (dist q cg) with k1.
      fold R0. rewrite (Rmin_right R0 k0), (Rmin_right R0 k1) by auto. rewrite (Rmax_right eps) by auto. fold h. fold w.
      rewrite Rmax_right by lra. now apply Rmin_right. }
    rewrite RC, RA. split; [exact KP|]. split; [exact KQ|].
    - symmetry. apply (wheel_of r a HA). rewrite in_rib_comb, EP, EQ. fold k0 k1.
      assert (EC : cos (m - h) + cos (m + h) = 2 * cos h * cos m) by (rewrite cos_minus, cos_plus; ring).
      assert (ES : sin (m - h) + sin (m + h) = 2 * cos h * sin m) by (rewrite sin_minus, sin_plus; ring).
      unfold w. apply vec_eq; vunf.
      + transitivity (k0 * k1 / (k0 + k1) * (cos (ang r a p) + cos (ang r a q))); [field; lra|].
        replace (cos (ang r a p) + cos (ang r a q)) with (2 * cos h * cos m); [field; lra|].
        rewrite <- EC. destruct HE as [[-> ->]|[-> ->]]; ring.
      + ring.
      + transitivity (k0 * k1 / (k0 + k1) * (sin (ang r a p) + sin (ang r a q))); [field; lra|].
        replace (sin (ang r a p) + sin (ang r a q)) with (2 * cos h * sin m); [field; lra|].
        rewrite <- ES. destruct HE as [[-> ->]|[-> ->]]; ring.
  Qed.
  Lemma bisector : forall g t f s, ground_of t f g -> cut g s -> plain_cut r a s -> in_segment s (c_point r a s).
  Proof.
    intros g t f s G E HP. destruct (cut_ratio g t f s G E HP) as (K0 & K1 & ->). set (k0 := farp (sv0 s)) in *. set (k1 := farp (sv1 s)) in *.
    exists (k0 / (k0 + k1)). split; [|reflexivity].
    split; [left; apply Rdiv_lt_0_compat; lra|]. apply (Rmult_le_reg_r (k0 + k1)); [lra|]. unfold Rdiv. rewrite Rmult_assoc, Rinv_l by lra. lra.
  Qed.
  (** Half spaces that contain the cuts contain the contact point. *)
  Lemma weighted_le : forall (cs : list (output R)) n k, (forall c, In c cs -> 0 <= o_volume c /\ pdot n (o_point c) <= k) ->
    pdot n (vtotal (fun o => pscale (o_volume o) (o_point o)) cs) <= k * total o_volume cs.
  Proof.
    intros cs n k. induction cs as [|c cs IH]; intros H.
    - unfold vtotal. cbn. vunf. lra.
    - destruct (H c (or_introl eq_refl)) as [H0 H1]. specialize (IH (fun x Hx => H x (or_intror Hx))).
      unfold vtotal in *. cbn [total]. vunf. nra.
  Qed.
  Lemma fout_inj : forall x y, fout x = fout y -> x = y.
  Proof. intros [[? ? ?] [? ? ?] ? ? ? ?] [[? ? ?] [? ? ?] ? ? ? ?] E. unfold fout, fv in E. cbn in E. congruence. Qed.
  Lemma real_mean : forall gs css o, Forall2 (gives r a) gs css -> envelop_geometric (frib r) gs (fa a) = Ret (true, fout o) ->
    total o_volume (concat css) <> 0 /\ o = mean_of r a (concat css).
  Proof.
    intros gs css o F HE. unfold envelop_geometric in HE. rewrite sums0, (loop_clean _ _ _ _ F) in HE. cbn [obind orb app] in HE.
    destruct (Req_dec (total o_volume (concat css)) 0) as [Z|N].
    - exfalso. unfold sums in HE. cbn [ga_int ga_area ga_volume ga_point ga_normal ga_friction] in HE.
      match type of HE with (if ?c then _ else _) = _ => destruct c end; [|discriminate].
      rewrite Z in HE. apply (f_equal (fun x => match x with Ret (_, o) => o_friction o | _ => Nan end)) in HE.
      cbn [o_friction fout] in HE. cbn [ndiv ER_Num ediv] in HE. replace (reqb 0 0) with true in HE by (symmetry; now apply reqb_true).
      destruct (reqb _ 0) in HE; discriminate.
    - split; auto. pose proof (finish_pos r a (some_contact (concat css)) (concat css) N) as E. cbv zeta in E. rewrite E in HE.
      match type of HE with (if ?c then _ else _) = _ => destruct c end; [|discriminate].
      apply fout_inj. congruence.
  Qed.
  Lemma point_hull : forall gs ss o n k, (forall g, In g gs -> exists t f, ground_of t f g) -> cuts r a gs ss ->
    Forall (plain_cut r a) ss -> envelop_geometric (frib r) gs (fa a) = Ret (true, fout o) ->
    (forall s, In s ss -> pdot n (sv0 s) <= k /\ pdot n (sv1 s) <= k) -> pdot n (o_point o) <= k.
  Proof.
    intros gs ss o n k HG HC HP HE HS. destruct (cuts_give gs ss HG HC HP) as (css & F & F2).
    assert (PC : forall c, In c (concat css) -> 0 <= o_volume c /\ pdot n (o_point c) <= k).
    { clear F HG HC HE. revert HP HS. induction F2 as [|s c ss cs H F2 IH]; intros HP HS; [intros c []|].
      inversion HP; subst. intros c' [<-|Hc].
      - destruct H as (t & f & g & G & E & ->). cbn [contribution o_volume o_point]. split; [now apply c_volume_nonneg|].
        destruct (bisector g t f s G E ltac:(assumption)) as (u & U & ->). destruct (HS s (or_introl eq_refl)) as [S0 S1].
        replace (pdot n _) with ((1 - u) * pdot n (sv0 s) + u * pdot n (sv1 s)) by (vunf; ring). nra.
      - apply IH; auto. intros s' Hs'. apply HS. now right. }
    pose proof (weighted_le _ n k PC) as W.
    assert (VP : 0 <= total o_volume (concat css)) by (apply total_nonneg; intros c Hc; now apply PC).
    destruct (real_mean gs css o F HE) as [N EO].
    apply (f_equal o_point) in EO. rewrite EO. unfold mean_of. cbn [o_point]. set (v := total o_volume (concat css)) in *.
    rewrite pdot_scale_r. apply (Rmult_le_reg_r v); [lra|]. rewrite (Rmult_comm (/ v)), Rmult_assoc, Rinv_l by lra. lra.
  Qed.
  (** On one plane the point is on that plane, no nearer to the axle than the
      point of the flat method. *)
  Lemma cuts_in : forall gs ss s, cuts r a gs ss -> In s ss -> exists g, In g gs /\ cut g s.
  Proof.
    intros gs ss s H. induction H as [|g gs ss E HC IH|g gs s' ss E HC IH]; intros HI; [destruct HI| |].
    - destruct (IH HI) as (x & X & Y). exists x. split; [now right|exact Y].
    - destruct HI as [->|HI]; [exists g; split; [now left|exact E]|]. destruct (IH HI) as (x & X & Y). exists x. split; [now right|exact Y].
  Qed.
  Lemma cut_on : forall g t f s gp, ground_of t f g -> cut g s -> lies_in t gp -> on_plane gp (sv0 s) /\ on_plane gp (sv1 s).
  Proof.
    intros g t f s gp G E HL. destruct (ground_of_fields _ _ _ G) as (E1 & _).
    rewrite E1, f_disk in E. change (neps : er) with (Fin eps) in E.
    apply triangle_disk_sound in E; [|apply eps_pos|destruct HR; cbn; unfold rb_radius in *; lra|now apply posed_unit].
    destruct E as (s' & ES & P0 & P1 & T0 & T1 & I).
    assert (s' = s).
    { destruct s as [[x y z] [x' y' z']], s' as [[u v w] [u' v' w']]. unfold fseg, fv in ES. cbn in ES. congruence. }
    subst s'. split; eapply lies_near; eauto.
  Qed.
  Lemma plane_point : forall gs ss o gp, (forall g, In g gs -> exists t f, ground_of t f g /\ lies_in t gp) -> cuts r a gs ss ->
    Forall (plain_cut r a) ss -> envelop_geometric (frib r) gs (fa a) = Ret (true, fout o) ->
    on_plane gp (o_point o) /\ on_plane (dplane D) (o_point o).
  Proof.
    intros gs ss o gp HG HC HP HE.
    assert (HG' : forall g, In g gs -> exists t f, ground_of t f g) by (intros g Hg; destruct (HG g Hg) as (t & f & G & _); eauto).
    assert (X : forall pl, (forall s, In s ss -> on_plane pl (sv0 s) /\ on_plane pl (sv1 s)) -> on_plane pl (o_point o)).
    { intros pl HS. set (k := pdot (pnormal pl) (porigin pl)).
      assert (V0 : forall q, on_plane pl q <-> pdot (pnormal pl) q = k).
      { intros q. unfold on_plane, k. vunf. split; lra. }
      apply V0. apply Rle_antisym.
      - apply (point_hull gs ss o (pnormal pl) k HG' HC HP HE). intros s Hs. destruct (HS s Hs) as [A B]. apply V0 in A. apply V0 in B. lra.
      - assert (Y : pdot (pscale (-1) (pnormal pl)) (o_point o) <= - k).
        { apply (point_hull gs ss o _ _ HG' HC HP HE). intros s Hs. destruct (HS s Hs) as [A B]. apply V0 in A. apply V0 in B.
          rewrite !pdot_scale_l. lra. }
        rewrite pdot_scale_l in Y. lra. }
    rewrite Forall_forall in HP. split; apply X; intros s Hs; destruct (cuts_in gs ss s HC Hs) as (g & Hg & E); destruct (HG g Hg) as (t & f & G & HL).
    - eapply cut_on; eauto.
    - destruct (cut_low g t f s G E (HP s Hs)) as ([A _] & [B _] & _). split; assumption.
  Qed.
  Lemma plane_depth : forall gs ss o o' gp f0, is_unit (pnormal gp) ->
    (forall g, In g gs -> exists t f, ground_of t f g /\ lies_in t gp) -> cuts r a gs ss ->
    Forall (plain_cut r a) ss -> envelop_geometric (frib r) gs (fa a) = Ret (true, fout o) ->
    envelop_geometric_flat (frib r) (fflat gp f0) (fa a) = (true, fout o') ->
    o_depth o <= o_depth o'.
  Proof.
    intros gs ss o o' gp f0 HU HG HC HP HE HF. destruct (plane_point gs ss o gp HG HC HP HE) as [P1 P2].
    assert (ED : o_depth o = R0 - dist (o_point o) cg).
    { destruct (cuts_give gs ss) as (css & F & _); auto. { intros g Hg. destruct (HG g Hg) as (t & f & G & _); eauto. }
      destruct (real_mean gs css o F HE) as [_ ->]. reflexivity. }
    destruct (flat_contact r a gp f0 HR HA HU _ HF) as (p & _ & _ & _ & M & _ & DP & _).
    specialize (M _ P1 P2). cbn [fout o_depth] in DP. injection DP as X. fold R0 cg in X. fold cg in M. lra.
  Qed.
End Profile.
