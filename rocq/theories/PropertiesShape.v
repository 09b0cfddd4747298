(** * Properties of the shell shape and of the ribs cut from it (exact
    arithmetic). *)
From Coq Require Import ZArith Bool Reals Lra Lia String List.
From Verif Require Import Base Num Vec Aabb Geom Ground Shape Rib Str Mesh Shell ER SpecGeom SpecRib SpecShape.
From Verif Require Import SpecShell ProofGeom ProofInt ProofShape ProofShapeFacts ProofShellFacts.
Import ListNotations.
Local Open Scope R_scope.

(** ** C21 *)
Theorem C21_throws_exactly : forall s y, good_shape s ->
  surface_radius (fshape s) (Fin y) = Throw RuntimeError <-> sLy s < Rabs y.
Proof. exact radius_throws_iff. Qed.
Print Assumptions C21_throws_exactly.

Theorem C21_on_hyperellipse : forall s y, good_shape s -> Rabs y <= sLy s ->
  exists r, surface_radius (fshape s) (Fin y) = Ret (Fin r) /\ 0 <= r <= sRx s /\ on_profile s y r /\
    forall r', 0 <= r' -> on_profile s y r' -> r' = r.
Proof. exact radius_on_profile. Qed.
Print Assumptions C21_on_hyperellipse.

Theorem C21_even : forall s y, good_shape s ->
  surface_radius (fshape s) (Fin (- y)) = surface_radius (fshape s) (Fin y).
Proof. exact radius_is_even. Qed.
Print Assumptions C21_even.

Theorem C21_non_increasing : forall s y y' r r', good_shape s -> Rabs y <= Rabs y' ->
  surface_radius (fshape s) (Fin y) = Ret (Fin r) -> surface_radius (fshape s) (Fin y') = Ret (Fin r') -> r' <= r.
Proof. exact radius_non_increasing. Qed.
Print Assumptions C21_non_increasing.

Definition camber : shape R := Shape 1 2 (1 / 2) 3 (1 / 4).
Lemma camber_good : good_shape camber.
Proof. unfold good_shape, camber. cbn. lra. Qed.
Example C21_example : good_shape camber /\ Rabs (- / 5) <= sLy camber /\ sLy camber < Rabs 2.
Proof. split; [apply camber_good|]. unfold camber. cbn. rewrite Rabs_Ropp, !Rabs_pos_eq; lra. Qed.

(** ** C22 *)
Theorem C22_derivative : forall s y tol, good_shape s -> 0 <= tol < Rabs y -> Rabs y < sLy s ->
  exists d, surface_derivative (fshape s) (Fin y) (Fin tol) = Ret (Fin d) /\
    forall radius : R -> R,
      (forall x, Rabs x <= sLy s -> surface_radius (fshape s) (Fin x) = Ret (Fin (radius x))) ->
      derivable_pt_lim radius y d.
Proof. exact derivative_is_derivative. Qed.
Print Assumptions C22_derivative.

Theorem C22_odd : forall s y tol, good_shape s -> 0 <= tol -> Rabs y <= sLy s -> Rabs y < sRy s ->
  exists d, surface_derivative (fshape s) (Fin y) (Fin tol) = Ret (Fin d) /\
    surface_derivative (fshape s) (Fin (- y)) (Fin tol) = Ret (Fin (- d)).
Proof. exact derivative_odd. Qed.
Print Assumptions C22_odd.

Theorem C22_near_zero : forall s y tol, good_shape s -> Rabs y <= sLy s -> Rabs y <= tol ->
  surface_derivative (fshape s) (Fin y) (Fin tol) = Ret (Fin 0).
Proof. exact derivative_near_zero. Qed.
Print Assumptions C22_near_zero.

Example C22_example : good_shape camber /\ 0 <= eps < Rabs (/ 5) /\ Rabs (/ 5) < sLy camber /\ / 5 < sRy camber.
Proof.
  split; [apply camber_good|]. unfold camber. cbn. rewrite !Rabs_pos_eq by lra. pose proof eps_pos.
  assert (eps < / 5) by (unfold eps; apply Rinv_lt_contravar; lra). lra.
Qed.

(** ** C23 *)
Theorem C23_angle : forall s y tol, good_shape s -> 0 <= tol -> Rabs y <= sLy s -> Rabs y < sRy s ->
  exists a, surface_angle (fshape s) (Fin y) (Fin tol) = Ret (Fin a) /\
    surface_derivative (fshape s) (Fin y) (Fin tol) = Ret (Fin (tan a)) /\
    - PI / 2 < a < PI / 2 /\
    surface_angle (fshape s) (Fin (- y)) (Fin tol) = Ret (Fin (- a)) /\
    (tol < Rabs y -> a * y < 0) /\ (Rabs y <= tol -> a = 0).
Proof. exact angle_facts. Qed.
Print Assumptions C23_angle.

Example C23_example : good_shape camber /\ 0 <= eps < Rabs (/ 5) /\ Rabs (/ 5) <= sLy camber /\ Rabs (/ 5) < sRy camber.
Proof.
  split; [apply camber_good|]. unfold camber. cbn. rewrite !Rabs_pos_eq by lra. pose proof eps_pos.
  assert (eps < / 5) by (unfold eps; apply Rinv_lt_contravar; lra). lra.
Qed.

(** At the very edge of a full ellipse the slope is infinite. *)
Theorem C23_angle_refuted : exists s y, good_shape s /\ Rabs y <= sLy s /\
  surface_angle (fshape s) (Fin y) neps = Ret (Fin (- (PI / 2))).
Proof.
  exists (Shape 1 2 1 2 1), 1. split; [unfold good_shape; cbn; lra|]. split; [cbn; rewrite Rabs_pos_eq; lra|].
  unfold surface_angle, surface_derivative. rewrite f_bound. cbn [sLy].
  replace (rltb 1 (Rabs 1)) with false by (symmetry; apply rltb_false; rewrite Rabs_pos_eq; lra). cbn [negb].
  rewrite neps_eps. cbn [nabs ER_Num eabs]. rewrite e_lt.
  replace (rltb eps (Rabs 1)) with true by (symmetry; apply rltb_true; rewrite Rabs_pos_eq by lra; apply eps_lt1).
  cbn [nofZ ER_Num]. rewrite !e_lt. replace (rltb 0 1) with true by (symmetry; apply rltb_true; lra).
  replace (rltb 1 0) with false by (symmetry; apply rltb_false; lra). unfold nofbool, fshape. cbn [sRx sMx sRy sMy].
  push. rewrite !e_ndiv by lra. rewrite f_pow_any by lra.
  replace (Rpower ((1 - 0) * 1 / 1) 2) with 1 by (replace ((1 - 0) * 1 / 1) with 1 by field; unfold Rpower; rewrite ln_1, Rmult_0_r, exp_0; auto).
  push. assert (P : npow (Fin (1 - 1)) (Fin ((1 - 2) / 2)) = Inf false).
  { cbn [npow ER_Num epow]. replace (reqb ((1 - 2) / 2) 0) with false by (symmetry; apply reqb_false; lra).
    replace (rltb 0 (1 - 1)) with false by (symmetry; apply rltb_false; lra).
    replace (reqb (1 - 1) 0) with true by (symmetry; apply reqb_true; lra).
    now replace (rltb 0 ((1 - 2) / 2)) with false by (symmetry; apply rltb_false; lra). }
  rewrite P. cbn [nmul ndiv ER_Num emul].
  replace (reqb (- (1 - 0)) 0) with false by (symmetry; apply reqb_false; lra).
  replace (rltb (- (1 - 0)) 0) with true by (symmetry; apply rltb_true; lra). cbn [xorb emul].
  replace (reqb 1 0) with false by (symmetry; apply reqb_false; lra).
  replace (rltb 1 0) with false by (symmetry; apply rltb_false; lra). cbn [xorb emul].
  replace (reqb 1 0) with false by (symmetry; apply reqb_false; lra).
  replace (rltb 1 0) with false by (symmetry; apply rltb_false; lra). cbn [xorb emul].
  replace (reqb 2 0) with false by (symmetry; apply reqb_false; lra).
  replace (rltb 2 0) with false by (symmetry; apply rltb_false; lra). cbn [xorb ediv].
  match goal with |- context [rltb ?x 0] => replace (rltb x 0) with false by (symmetry; apply rltb_false; lra) end.
  reflexivity.
Qed.
Print Assumptions C23_angle_refuted.

(** ** C24 *)
Theorem C24_slices : forall s n sh, good_shape s -> (0 < n)%nat ->
  mk_shell n (Fin (sRx s)) (Fin (sMx s)) (Fin (sRy s)) (Fin (sMy s)) (Fin (sLy s)) = Ret sh ->
  sh_size sh = n /\
  (forall i, (i < n)%nat -> exists r, rib_at sh i = Ret r /\
     rb_center r = fv (V 0 (slice_center (sLy s) n i) 0) /\ rb_width r = Fin (slice_width (sLy s) n)).
Proof. exact shell_slices. Qed.
Print Assumptions C24_slices.

Theorem C24_resize : forall s n (sh sh' : shell er), good_shape s -> sh_shape sh = fshape s -> (0 < n)%nat ->
  resize sh n = Ok sh' tt ->
  sh_size sh' = n /\
  (forall i, (i < n)%nat -> exists r, rib_at sh' i = Ret r /\
     rb_center r = fv (V 0 (slice_center (sLy s) n i) 0) /\ rb_width r = Fin (slice_width (sLy s) n)).
Proof. exact resized_slices. Qed.
Print Assumptions C24_resize.

(** These slices cover the width without overlap, symmetrically. *)
Theorem C24_tiling : forall s n, good_shape s -> (0 < n)%nat ->
  let c := slice_center (sLy s) n in let w := slice_width (sLy s) n in
  (forall y, - sLy s <= y <= sLy s -> exists i, (i < n)%nat /\ Rabs (y - c i) <= w / 2) /\
  (forall i j y, Rabs (y - c i) < w / 2 -> Rabs (y - c j) < w / 2 -> i = j) /\
  (forall i y, (i < n)%nat -> Rabs (y - c i) <= w / 2 -> - sLy s <= y <= sLy s) /\
  (forall i, (i < n)%nat -> c (n - 1 - i)%nat = - c i).
Proof. exact tiling. Qed.
Print Assumptions C24_tiling.

(** ** C25 *)
Theorem C25_never_throws : forall s n, good_shape s -> (0 < n)%nat ->
  (exists sh, mk_shell n (Fin (sRx s)) (Fin (sMx s)) (Fin (sRy s)) (Fin (sMy s)) (Fin (sLy s)) = Ret sh) /\
  (forall sh : shell er, sh_shape sh = fshape s -> exists sh', resize sh n = Ok sh' tt).
Proof. exact construction_succeeds. Qed.
Print Assumptions C25_never_throws.

Theorem C25_radii : forall s n sh i, good_shape s -> (i < n)%nat ->
  mk_shell n (Fin (sRx s)) (Fin (sMx s)) (Fin (sRy s)) (Fin (sMy s)) (Fin (sLy s)) = Ret sh ->
  exists r r' radius angle, rib_at sh i = Ret r /\ rib_at sh (n - 1 - i) = Ret r' /\
    rb_radius r = Fin radius /\ 0 < radius <= sRx s /\
    surface_radius (fshape s) (vy (rb_center r)) = Ret (rb_radius r) /\
    rb_angle r = Fin angle /\ surface_angle (fshape s) (vy (rb_center r)) neps = Ret (rb_angle r) /\
    rb_radius r' = Fin radius /\ rb_angle r' = Fin (- angle).
Proof. exact shell_radii. Qed.
Print Assumptions C25_radii.

(** So every rib of a constructed shell meets the hypotheses made on ribs in
    the other properties. *)
Theorem C25_ribs_good : forall s n sh i r, good_shape s -> (0 < n)%nat ->
  mk_shell n (Fin (sRx s)) (Fin (sMx s)) (Fin (sRy s)) (Fin (sMy s)) (Fin (sLy s)) = Ret sh ->
  rib_at sh i = Ret r -> exists r0, r = frib r0 /\ good_rib r0.
Proof. exact shell_ribs_good. Qed.
Print Assumptions C25_ribs_good.

Example C25_example : good_shape camber /\ exists sh r,
  mk_shell 3 (Fin (sRx camber)) (Fin (sMx camber)) (Fin (sRy camber)) (Fin (sMy camber)) (Fin (sLy camber)) = Ret sh /\
  rib_at sh 1 = Ret r.
Proof.
  split; [apply camber_good|]. destruct (C25_never_throws camber 3 camber_good ltac:(lia)) as [[sh E] _].
  destruct (C25_radii camber 3 sh 1 camber_good ltac:(lia) E) as (r & _ & _ & _ & R & _). eauto.
Qed.

Example C24_example : good_shape camber /\ slice_width (sLy camber) 5 = 1 / 10 /\
  slice_center (sLy camber) 5 0 = - 1 / 5 /\ slice_center (sLy camber) 5 2 = 0.
Proof.
  split; [apply camber_good|]. unfold slice_center, slice_width, camber. cbn. repeat split; field.
Qed.

(** ** C61: false of the code: every shell of more than 200 ribs can be built,
       and its setup writes outside the reserved storage. *)
Theorem C61_room_refuted : forall s n gb g pose method, good_shape s -> (200 < n)%nat ->
  method = "geometric"%string \/ method = "sampling"%string ->
  exists sh, mk_shell n (Fin (sRx s)) (Fin (sMx s)) (Fin (sRy s)) (Fin (sMy s)) (Fin (sLy s)) = Ret sh /\
    sh_size sh = n /\ setup_flat gb sh g pose method = Undef.
Proof.
  intros s n gb g pose method HG Hn HM.
  destruct (construction_succeeds s n HG ltac:(lia)) as [[sh E] _].
  destruct (shell_slices s n sh HG ltac:(lia) E) as [HS _].
  exists sh. split; [exact E|]. split; [exact HS|].
  apply flat_overflow; [exact (r_new _ _ _ _ _ _ _ E)|rewrite HS; exact Hn|exact HM].
Qed.
Print Assumptions C61_room_refuted.
