(** * The shape properties in terms of the interface. *)
From Coq Require Import ZArith Bool Reals Lra Lia List.
From Verif Require Import Base Num Vec Aabb Geom Ground Shape Rib Str Mesh Shell ER SpecGeom SpecRib SpecShape.
From Verif Require Import ProofGeom ProofInt ProofShape.
Import ListNotations.
Local Open Scope R_scope.

Lemma radius_throws_iff : forall s y, good_shape s ->
  surface_radius (fshape s) (Fin y) = Throw RuntimeError <-> sLy s < Rabs y.
Proof. intros. now apply radius_throws. Qed.
Lemma radius_on_profile : forall s y, good_shape s -> Rabs y <= sLy s ->
  exists r, surface_radius (fshape s) (Fin y) = Ret (Fin r) /\ 0 <= r <= sRx s /\ on_profile s y r /\
    forall r', 0 <= r' -> on_profile s y r' -> r' = r.
Proof.
  intros s y HS H. exists (radius_at s y). split; [now apply f_radius|]. split; [now apply radius_range|].
  split; [now apply radius_profile|]. intros. now apply profile_unique.
Qed.
Lemma radius_is_even : forall s y, good_shape s ->
  surface_radius (fshape s) (Fin (- y)) = surface_radius (fshape s) (Fin y).
Proof.
  intros s y HS. destruct (Rlt_le_dec (sLy s) (Rabs y)) as [L|L].
  - rewrite (proj2 (radius_throws s HS y) L). apply radius_throws; auto. now rewrite Rabs_Ropp.
  - rewrite !f_radius; auto; [|now rewrite Rabs_Ropp]. now rewrite radius_even.
Qed.
Lemma radius_ret : forall s y r, good_shape s -> surface_radius (fshape s) (Fin y) = Ret (Fin r) ->
  Rabs y <= sLy s /\ r = radius_at s y.
Proof.
  intros s y r HS H. destruct (Rlt_le_dec (sLy s) (Rabs y)) as [L|L].
  - rewrite (proj2 (radius_throws s HS y) L) in H. discriminate.
  - rewrite f_radius in H by auto. injection H as <-. auto.
Qed.
Lemma radius_non_increasing : forall s y y' r r', good_shape s -> Rabs y <= Rabs y' ->
  surface_radius (fshape s) (Fin y) = Ret (Fin r) -> surface_radius (fshape s) (Fin y') = Ret (Fin r') -> r' <= r.
Proof.
  intros s y y' r r' HS H E E'. apply radius_ret in E, E'; auto. destruct E as [B ->], E' as [B' ->].
  now apply radius_mono.
Qed.
Lemma derivative_is_derivative : forall s y tol, good_shape s -> 0 <= tol < Rabs y -> Rabs y < sLy s ->
  exists d, surface_derivative (fshape s) (Fin y) (Fin tol) = Ret (Fin d) /\
    forall radius : R -> R,
      (forall x, Rabs x <= sLy s -> surface_radius (fshape s) (Fin x) = Ret (Fin (radius x))) ->
      derivable_pt_lim radius y d.
Proof.
  intros s y tol HS T L. assert (Rabs y < sRy s) by (destruct HS as (_ & _ & _ & _ & ?); lra).
  assert (y <> 0) by (intros ->; rewrite Rabs_R0 in T; lra).
  exists (slope_at s y). split; [apply f_slope; auto; lra|]. intros radius HR.
  apply (dlim_local (radius_at s) radius y _ (sLy s - Rabs y)); [lra| |now apply slope_derivative].
  intros x Hx. assert (B : Rabs x <= sLy s).
  { pose proof (Rabs_triang (x - y) y). replace (x - y + y) with x in * by ring. lra. }
  specialize (HR x B). rewrite f_radius in HR by auto. now injection HR.
Qed.
Lemma derivative_near_zero : forall s y tol, good_shape s -> Rabs y <= sLy s -> Rabs y <= tol ->
  surface_derivative (fshape s) (Fin y) (Fin tol) = Ret (Fin 0).
Proof. intros. now apply slope_zero. Qed.
Lemma derivative_odd : forall s y tol, good_shape s -> 0 <= tol -> Rabs y <= sLy s -> Rabs y < sRy s ->
  exists d, surface_derivative (fshape s) (Fin y) (Fin tol) = Ret (Fin d) /\
    surface_derivative (fshape s) (Fin (- y)) (Fin tol) = Ret (Fin (- d)).
Proof.
  intros s y tol HS T L L'. destruct (Rlt_le_dec tol (Rabs y)) as [B|B].
  - exists (slope_at s y). split; [now apply f_slope|]. rewrite <- slope_odd; auto.
    + apply f_slope; auto; rewrite Rabs_Ropp; auto.
    + intros ->. rewrite Rabs_R0 in B. lra.
  - exists 0. split; [now apply slope_zero|]. rewrite Ropp_0. apply slope_zero; auto; now rewrite Rabs_Ropp.
Qed.
Lemma angle_facts : forall s y tol, good_shape s -> 0 <= tol -> Rabs y <= sLy s -> Rabs y < sRy s ->
  exists a, surface_angle (fshape s) (Fin y) (Fin tol) = Ret (Fin a) /\
    surface_derivative (fshape s) (Fin y) (Fin tol) = Ret (Fin (tan a)) /\
    - PI / 2 < a < PI / 2 /\
    surface_angle (fshape s) (Fin (- y)) (Fin tol) = Ret (Fin (- a)) /\
    (tol < Rabs y -> a * y < 0) /\ (Rabs y <= tol -> a = 0).
Proof.
  intros s y tol HS T L L'. destruct (derivative_odd s y tol HS T L L') as (d & D & D').
  exists (atan d). unfold surface_angle. rewrite D, D'. split; [reflexivity|].
  split; [now rewrite tan_atan|]. split; [apply atan_bound|].
  split; [cbn; now rewrite atan_opp|]. split; intros B.
  - rewrite f_slope in D by auto. injection D as <-.
    assert (N : y <> 0) by (intros ->; rewrite Rabs_R0 in B; lra).
    pose proof (slope_sign s HS y N) as S. set (d := slope_at s y) in *. clearbody d.
    destruct (Rtotal_order d 0) as [H|[H|H]].
    + assert (atan d < 0) by (rewrite <- atan_0; now apply atan_increasing). nra.
    + subst. lra.
    + assert (0 < atan d) by (rewrite <- atan_0; now apply atan_increasing). nra.
  - rewrite slope_zero in D by auto. injection D as <-. apply atan_0.
Qed.

Lemma slices_length : forall s n, length (slices s n) = n.
Proof. intros. unfold slices. now rewrite map_length, seq_length. Qed.
Lemma ribs_at : forall s n (sh : shell er) i, sh_ribs sh = map frib (slices s n) -> (i < n)%nat ->
  rib_at sh i = Ret (frib (real_rib s (slice_width (sLy s) n) (int_of_size i) (slice_center (sLy s) n i))).
Proof.
  intros s n sh i H Hi. unfold rib_at. rewrite H. erewrite map_nth_error; [|now apply slices_nth]. reflexivity.
Qed.
Lemma mk_shell_ribs : forall s n sh, good_shape s -> (0 < n)%nat ->
  mk_shell n (Fin (sRx s)) (Fin (sMx s)) (Fin (sRy s)) (Fin (sMy s)) (Fin (sLy s)) = Ret sh ->
  sh_ribs sh = map frib (slices s n).
Proof.
  intros s n sh HS H E. destruct (mk_shell_eval s HS n H) as (sh' & E' & R & _). rewrite E' in E. now injection E as <-.
Qed.
Lemma resize_ribs : forall s n (sh sh' : shell er), good_shape s -> sh_shape sh = fshape s -> (0 < n)%nat ->
  resize sh n = Ok sh' tt -> sh_ribs sh' = map frib (slices s n).
Proof.
  intros s n sh sh' HS S H E. destruct (resize_eval s HS sh n H S) as (sh2 & E' & R & _). rewrite E' in E. now injection E as <-.
Qed.
Lemma ribs_slices : forall s n (sh : shell er), sh_ribs sh = map frib (slices s n) ->
  sh_size sh = n /\
  (forall i, (i < n)%nat -> exists r, rib_at sh i = Ret r /\
     rb_center r = fv (V 0 (slice_center (sLy s) n i) 0) /\ rb_width r = Fin (slice_width (sLy s) n)).
Proof.
  intros s n sh H. split; [unfold sh_size; now rewrite H, map_length, slices_length|].
  intros i Hi. eexists. split; [now apply (ribs_at s n)|]. split; reflexivity.
Qed.
Lemma shell_slices : forall s n sh, good_shape s -> (0 < n)%nat ->
  mk_shell n (Fin (sRx s)) (Fin (sMx s)) (Fin (sRy s)) (Fin (sMy s)) (Fin (sLy s)) = Ret sh ->
  sh_size sh = n /\
  (forall i, (i < n)%nat -> exists r, rib_at sh i = Ret r /\
     rb_center r = fv (V 0 (slice_center (sLy s) n i) 0) /\ rb_width r = Fin (slice_width (sLy s) n)).
Proof. intros. apply ribs_slices. now apply mk_shell_ribs. Qed.
Lemma resized_slices : forall s n (sh sh' : shell er), good_shape s -> sh_shape sh = fshape s -> (0 < n)%nat ->
  resize sh n = Ok sh' tt ->
  sh_size sh' = n /\
  (forall i, (i < n)%nat -> exists r, rib_at sh' i = Ret r /\
     rb_center r = fv (V 0 (slice_center (sLy s) n i) 0) /\ rb_width r = Fin (slice_width (sLy s) n)).
Proof. intros. apply ribs_slices. now apply resize_ribs with (sh := sh). Qed.
Lemma tiling : forall s n, good_shape s -> (0 < n)%nat ->
  let c := slice_center (sLy s) n in let w := slice_width (sLy s) n in
  (forall y, - sLy s <= y <= sLy s -> exists i, (i < n)%nat /\ Rabs (y - c i) <= w / 2) /\
  (forall i j y, Rabs (y - c i) < w / 2 -> Rabs (y - c j) < w / 2 -> i = j) /\
  (forall i y, (i < n)%nat -> Rabs (y - c i) <= w / 2 -> - sLy s <= y <= sLy s) /\
  (forall i, (i < n)%nat -> c (n - 1 - i)%nat = - c i).
Proof.
  intros s n HS H c w. split; [intros; now apply slices_cover|]. split; [intros i j y; now apply (slices_disjoint s HS n)|].
  split; [|intros; now apply slice_symmetric].
  intros i y Hi B. pose proof (slice_bound s HS n i Hi) as SB. fold c w in SB.

  assert (Rabs y <= sLy s).
  { pose proof (Rabs_triang (y - c i) (c i)) as TR. replace (y - c i + c i) with y in TR by ring. lra. }
  unfold Rabs in H0. destruct (Rcase_abs y); lra.
Qed.
Lemma construction_succeeds : forall s n, good_shape s -> (0 < n)%nat ->
  (exists sh, mk_shell n (Fin (sRx s)) (Fin (sMx s)) (Fin (sRy s)) (Fin (sMy s)) (Fin (sLy s)) = Ret sh) /\
  (forall sh : shell er, sh_shape sh = fshape s -> exists sh', resize sh n = Ok sh' tt).
Proof.
  intros s n HS H. split.
  - destruct (mk_shell_eval s HS n H) as (sh & E & _). eauto.
  - intros sh S. destruct (resize_eval s HS sh n H S) as (sh' & E & _). eauto.
Qed.
Lemma shell_radii : forall s n sh i, good_shape s -> (i < n)%nat ->
  mk_shell n (Fin (sRx s)) (Fin (sMx s)) (Fin (sRy s)) (Fin (sMy s)) (Fin (sLy s)) = Ret sh ->
  exists r r' radius angle, rib_at sh i = Ret r /\ rib_at sh (n - 1 - i) = Ret r' /\
    rb_radius r = Fin radius /\ 0 < radius <= sRx s /\
    surface_radius (fshape s) (vy (rb_center r)) = Ret (rb_radius r) /\
    rb_angle r = Fin angle /\ surface_angle (fshape s) (vy (rb_center r)) neps = Ret (rb_angle r) /\
    rb_radius r' = Fin radius /\ rb_angle r' = Fin (- angle).
Proof.
  intros s n sh i HS Hi E. assert (N : (0 < n)%nat) by lia. apply mk_shell_ribs in E; auto.
  pose proof (slice_bound s HS n i Hi) as B. pose proof (slice_width_pos s HS n N) as W.
  assert (L : Rabs (slice_center (sLy s) n i) < sRy s) by (destruct HS as (_ & _ & _ & _ & ?); lra).
  do 4 eexists. split; [now apply (ribs_at s n)|]. split; [apply (ribs_at s n); auto; lia|].
  split; [reflexivity|]. split; [split; [now apply radius_positive|apply radius_range; auto; lra]|].
  assert (L2 : Rabs (slice_center (sLy s) n i) <= sLy s) by lra.
  split; [exact (f_radius s HS _ L2)|]. split; [reflexivity|]. split; [exact (f_angle s HS _ L2 L)|].
  unfold frib, real_rib, rb_radius. cbn [rb_disk rb_angle fdisk dradius].
  rewrite (slice_symmetric s n i Hi), radius_even, (angle_odd s HS). auto.
Qed.
Lemma shell_ribs_good : forall s n sh i r, good_shape s -> (0 < n)%nat ->
  mk_shell n (Fin (sRx s)) (Fin (sMx s)) (Fin (sRy s)) (Fin (sMy s)) (Fin (sLy s)) = Ret sh ->
  rib_at sh i = Ret r -> exists r0, r = frib r0 /\ good_rib r0.
Proof.
  intros s n sh i r HS N E H. apply mk_shell_ribs in E; auto. unfold rib_at in H.
  destruct (nth_error (sh_ribs sh) i) as [r'|] eqn:NE; [|discriminate]. injection H as <-.
  apply nth_error_In in NE. rewrite E in NE. apply in_map_iff in NE. destruct NE as (r0 & <- & I).
  exists r0. split; auto. now apply (slices_good s HS n).
Qed.
