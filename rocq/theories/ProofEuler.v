(** * Euler angles. *)
From Coq Require Import ZArith Bool List Reals Lra Lia Nsatz String.
From Verif Require Import Base Num Vec Geom Ground Shape Rib Str Mesh Shell ER SpecGeom SpecRib SpecShape SpecShell SpecPose SpecAvg SpecEuler.
From Verif Require Import ProofGeom ProofPose ProofPolar ProofAvg ProofSetupData.
Local Open Scope R_scope.

Lemma ratan2_00 : ratan2 0 0 = 0.
Proof. unfold ratan2. assert (E : rltb 0 0 = false) by (apply rltb_false; lra). now rewrite !E. Qed.
Lemma atan2_circle : forall x y, x * x + y * y = 1 -> cos (ratan2 y x) = x /\ sin (ratan2 y x) = y /\ - PI < ratan2 y x <= PI.
Proof.
  intros x y H. assert (N : x <> 0 \/ y <> 0).
  { destruct (Req_dec x 0) as [->|]; auto. right. intros ->. lra. }
  destruct (atan2_polar x y N) as (A & B & C). assert (E : hyp x y = 1) by (unfold hyp; rewrite H; apply sqrt_1).
  rewrite E, !Rmult_1_l in *. auto.
Qed.

(** The algebra: once the first angle is known, the rest follows. *)
Lemma zxy_rebuild : forall m c1 s1 c A B, rotation m -> c1 * c1 + s1 * s1 = 1 ->
  m01 m = c * s1 -> m11 m = c * c1 -> A = c1 * m00 m - s1 * m10 m -> B = c1 * m02 m - s1 * m12 m ->
  c * c + m21 m * m21 m = 1 -> A * A + B * B = 1 /\
  m00 m = c1 * A + s1 * m21 m * B /\ m10 m = c1 * m21 m * B - s1 * A /\ m20 m = - (c * B) /\
  m02 m = c1 * B - s1 * m21 m * A /\ m12 m = - (s1 * B) - c1 * m21 m * A /\ m22 m = c * A.
Proof.
  intros m c1 s1 c A B RM SC E1 E2 EA EB EC.
  destruct (rotation_rows m RM) as (R0 & R1 & R2 & R3 & R4 & R5).
  destruct RM as (C0 & C1 & C2 & C3 & C4 & C5 & CX). vunf.
  injection CX as X1 X2 X3.
  set (a := m00 m) in *. set (b := m01 m) in *. set (d := m02 m) in *. set (e := m10 m) in *. set (f := m11 m) in *.
  set (g := m12 m) in *. set (h := m20 m) in *. set (k := m21 m) in *. set (l := m22 m) in *. clearbody a b d e f g h k l.
  subst b f.
  (* each column is the cross product of the others *)
  assert (H1 : h = c * s1 * g - c * c1 * d) by nsatz.
  assert (H2 : l = a * (c * c1) - e * (c * s1)) by lra.
  assert (EH : h = - (c * B)) by (rewrite H1, EB; ring).
  assert (EL : l = c * A) by (rewrite H2, EA; ring).
  set (P := s1 * a + c1 * e) in *. set (T := s1 * d + c1 * g) in *.
  assert (K1 : k = B * P - A * T).
  { assert (K : k = d * e - g * a) by nsatz. rewrite K, EA, EB. unfold P, T.
    transitivity ((c1 * c1 + s1 * s1) * (d * e - g * a)); [rewrite SC|]; ring. }
  assert (N1 : A * A + B * B = 1).
  { rewrite EA, EB. nsatz. }
  assert (O1 : P * A + T * B = 0).
  { unfold P, T. rewrite EA, EB. nsatz. }
  assert (EP : P = B * k).
  { transitivity (P * (A * A + B * B)); [rewrite N1; ring|]. rewrite K1. transitivity (A * (P * A + T * B) + B * (B * P - A * T)); [ring|]. rewrite O1. ring. }
  assert (ET : T = - (A * k)).
  { transitivity (T * (A * A + B * B)); [rewrite N1; ring|]. rewrite K1. transitivity (B * (P * A + T * B) - A * (B * P - A * T)); [ring|]. rewrite O1. ring. }
  split; [exact N1|].
  assert (Z1 : a = c1 * A + s1 * P). { rewrite EA. unfold P. transitivity ((c1 * c1 + s1 * s1) * a); [rewrite SC|]; ring. }
  assert (Z2 : e = c1 * P - s1 * A). { rewrite EA. unfold P. transitivity ((c1 * c1 + s1 * s1) * e); [rewrite SC|]; ring. }
  assert (Z3 : d = c1 * B + s1 * T). { rewrite EB. unfold T. transitivity ((c1 * c1 + s1 * s1) * d); [rewrite SC|]; ring. }
  assert (Z4 : g = c1 * T - s1 * B). { rewrite EB. unfold T. transitivity ((c1 * c1 + s1 * s1) * g); [rewrite SC|]; ring. }
  clearbody P T. subst P T. repeat split; auto; lra.
Qed.

Lemma euler_rebuild : forall m, rotation m -> exists e, euler201 (fm m) = fv e /\
  0 <= vx e < PI /\ - PI <= vy e < PI /\ - PI <= vz e < PI /\ (m01 m = 0 -> 0 < m11 m -> vx e = 0 /\ 0 < cos (vy e)) /\ sin (vy e) = m21 m /\
  forall p, papply m p = turn_zxy e p.
Proof.
  intros m RM. destruct (rotation_rows m RM) as (R0 & R1 & R2 & _).
  pose proof (proj1 (proj2 RM)) as C1. unfold is_unit in *.
  set (r0 := ratan2 (m01 m) (m11 m)). set (c2 := sqrt (m22 m * m22 m + m20 m * m20 m)).
  assert (S2 : c2 * c2 = 1 - m21 m * m21 m).
  { unfold c2. rewrite sqrt_sqrt by nra. vunf. lra. }
  assert (S1 : m11 m * m11 m + m01 m * m01 m = 1 - m21 m * m21 m) by (vunf; lra).
  assert (EH : hyp (m11 m) (m01 m) = c2).
  { unfold hyp, c2. f_equal. vunf. lra. }
  assert (C2P : 0 <= c2) by apply sqrt_pos.
  set (up := rltb 0 r0). set (r0' := if up then r0 - PI else r0). set (c := if up then - c2 else c2).
  assert (PO : m11 m = c * cos r0' /\ m01 m = c * sin r0' /\ - PI < r0' <= 0).
  { pose proof PI_RGT_0 as HP. destruct (Req_dec (m11 m * m11 m + m01 m * m01 m) 0) as [Z|Z].
    - assert (Z1 : m11 m = 0) by nra. assert (Z2 : m01 m = 0) by nra.
      assert (ZC : c2 = 0) by nra. assert (ER : r0 = 0) by (unfold r0; rewrite Z1, Z2; apply ratan2_00).
      assert (EU : up = false) by (unfold up; rewrite ER; apply rltb_false; lra).
      unfold r0', c. rewrite EU, ER, Z1, Z2, ZC. lra.
    - assert (N : m11 m <> 0 \/ m01 m <> 0).
      { destruct (Req_dec (m11 m) 0) as [Q|]; auto. right. intros Q'. apply Z. rewrite Q, Q'. ring. }
      destruct (atan2_polar (m11 m) (m01 m) N) as (A & B & C). fold r0 in A, B, C. rewrite EH in A, B.
      destruct up eqn:EU; unfold up in EU; rb; unfold r0', c.
      + replace (r0 - PI) with (- (PI - r0)) by ring. rewrite cos_neg, sin_neg, Rtrigo_facts.cos_pi_minus, Rtrigo_facts.sin_pi_minus. lra.
      + lra. }
  destruct PO as (P1 & P2 & P3).
  assert (SC : cos r0' * cos r0' + sin r0' * sin r0' = 1).
  { pose proof (sin2_cos2 r0') as H. unfold Rsqr in H. lra. }
  assert (CC : c * c + m21 m * m21 m = 1) by (unfold c; destruct up; nra).
  destruct (zxy_rebuild m (cos r0') (sin r0') c _ _ RM SC P2 P1 eq_refl eq_refl CC) as (NN & G00 & G10 & G20 & G02 & G12 & G22).
  set (A := cos r0' * m00 m - sin r0' * m10 m) in *. set (B := cos r0' * m02 m - sin r0' * m12 m) in *.
  set (r1 := ratan2 (- m21 m) c). set (r2 := ratan2 (- B) A).
  assert (K1 : cos r1 = c /\ sin r1 = - m21 m /\ - PI < r1 <= PI) by (apply atan2_circle; lra).
  assert (K2 : cos r2 = A /\ sin r2 = - B /\ - PI < r2 <= PI) by (apply atan2_circle; lra).
  exists (V (- r0') (- r1) (- r2)). split.
  { unfold euler201. cbn [fm m00 m01 m02 m10 m11 m12 m20 m21 m22]. cbn [nopp nadd nsub nmul nsqrt natan2 nlt nsin ncos npi nofZ ER_Num eopp eadd esub emul eltb eatan2 esin ecos].
    rewrite e_sqrt by nra. fold c2. cbn [eopp]. fold r0. cbn zeta. 
    change (if rltb (IZR 0) r0 then ?x else ?y) with (if up then x else y).
    replace (if up then Fin (r0 - PI) else Fin r0) with (Fin r0') by (unfold r0'; destruct up; reflexivity).
    replace (if up then Fin (ratan2 (- m21 m) (- c2)) else Fin (ratan2 (- m21 m) c2)) with (Fin r1)
      by (unfold r1, c; destruct up; reflexivity).
    apply vec_eq; [reflexivity|reflexivity|]. cbn [fv vx vy vz eopp esub emul eatan2].
    change (Fin (- ratan2 (sin r0' * m12 m - cos r0' * m02 m) A) = Fin (- r2)).
    unfold r2. do 3 f_equal. unfold B. ring. }
  cbn [vx vy vz]. destruct K1 as (K11 & K12 & K13). destruct K2 as (K21 & K22 & K23).
  split; [lra|]. split; [lra|]. split; [lra|]. split.
  { intros Z1 Z2. rewrite cos_neg, K11.
    assert (E0 : r0 = 0). { unfold r0, ratan2. assert (E : rltb 0 (m11 m) = true) by (apply rltb_true; lra).
      rewrite E, Z1. unfold Rdiv. rewrite Rmult_0_l. apply atan_0. }
    assert (EU : up = false) by (unfold up; rewrite E0; apply rltb_false; lra).
    unfold r0', c. rewrite EU, E0. split; [lra|]. nra. }
  split; [rewrite sin_neg, K12; ring|].
  intros p. unfold turn_zxy, turn_z, turn_x, turn_y. cbn [vx vy vz]. rewrite !cos_neg, !sin_neg, K11, K12, K21, K22.
  apply vec_eq; unfold papply; cbn [vx vy vz]; rewrite ?G00, ?G10, ?G20, ?G02, ?G12, ?G22, ?P1, ?P2; ring.
Qed.

(** ** The shell. *)
Lemma shell_euler : forall s a, sh_affine s = fa a -> rigid a -> exists e, sh_euler s = fv e /\
  0 <= vx e < PI /\ - PI <= vy e < PI /\ - PI <= vz e < PI /\ forall p, papply (lin a) p = turn_zxy e p.
Proof.
  intros s a EA RA. destruct (euler_rebuild (lin a) RA) as (e & E & H1 & H2 & H3 & _ & _ & H4).
  exists e. unfold sh_euler. rewrite EA. repeat split; auto; lra.
Qed.

Definition ptrans (m : mat3 R) : mat3 R := M3 (m00 m) (m10 m) (m20 m) (m01 m) (m11 m) (m21 m) (m02 m) (m12 m) (m22 m).
Lemma ptrans_rotation : forall m, rotation m -> rotation (ptrans m).
Proof.
  intros m RM. destruct (rotation_rows m RM) as (R0 & R1 & R2 & R3 & R4 & R5).
  unfold rotation, ptrans. repeat split; try assumption; try (vunf; cbn [m00 m01 m02 m10 m11 m12 m20 m21 m22]; lra).
  destruct RM as (C0 & C1 & C2 & C3 & C4 & C5 & CX). vunf. cbn [m00 m01 m02 m10 m11 m12 m20 m21 m22].
  injection CX as X1 X2 X3.
  set (a := m00 m) in *. set (b := m01 m) in *. set (d := m02 m) in *. set (e := m10 m) in *. set (f := m11 m) in *.
  set (g := m12 m) in *. set (h := m20 m) in *. set (k := m21 m) in *. set (l := m22 m) in *. clearbody a b d e f g h k l.
  f_equal; nsatz.
Qed.
Lemma ptrans_back : forall m p, rotation m -> papply m (papply (ptrans m) p) = p.
Proof.
  intros m p RM. destruct (rotation_rows m RM) as (R0 & R1 & R2 & R3 & R4 & R5). vunf. unfold ptrans.
  cbn [m00 m01 m02 m10 m11 m12 m20 m21 m22]. destruct p as [x y z]. cbn [vx vy vz]. f_equal; nsatz.
Qed.
Lemma ptrans_front : forall m p, rotation m -> papply (ptrans m) (papply m p) = p.
Proof.
  intros m p RM. destruct RM as (C0 & C1 & C2 & C3 & C4 & C5 & _). vunf. unfold ptrans.
  cbn [m00 m01 m02 m10 m11 m12 m20 m21 m22]. destruct p as [x y z]. cbn [vx vy vz]. f_equal; nsatz.
Qed.
Lemma pmul_apply : forall a b p, papply (pmul a b) p = papply a (papply b p).
Proof. intros. unfold pmul, papply, pcol0, pcol1, pcol2. cbn [m00 m01 m02 m10 m11 m12 m20 m21 m22 vx vy vz]. f_equal; ring. Qed.
Lemma f_relmat : forall A a : affine R, mmul (mtrans (lin (fa A))) (lin (fa a)) = fm (pmul (ptrans (lin A)) (lin a)).
Proof. reflexivity. Qed.

(** Angles relative to a frame whose third axis is [n] and whose first axis is
    level with the axle of the wheel. *)
Lemma frame_angles : forall (A a : affine R) p n, rigid a -> frame_of (pcol1 (lin a)) p n A ->
  exists e, euler201 (mmul (mtrans (lin (fa A))) (lin (fa a))) = fv e /\
  vx e = 0 /\ - (PI / 2) < vy e < PI / 2 /\ sin (vy e) = pdot (pcol1 (lin a)) n /\ - PI <= vz e < PI /\
  forall q, papply (lin a) q = papply (lin A) (turn_zxy e q).
Proof.
  intros A a p n RA (RF & _ & FN & F0 & F1). rewrite f_relmat.
  assert (RM : rotation (pmul (ptrans (lin A)) (lin a))).
  { apply pmul_rotation; [apply ptrans_rotation; exact RF|exact RA]. }
  destruct (euler_rebuild _ RM) as (e & E & H1 & H2 & H3 & H4 & H5 & H6).
  assert (X0 : m01 (pmul (ptrans (lin A)) (lin a)) = pdot (pcol0 (lin A)) (pcol1 (lin a))).
  { unfold pmul, ptrans, papply, pdot, pcol0, pcol1. cbn [m00 m01 m02 m10 m11 m12 m20 m21 m22 vx vy vz]. ring. }
  assert (X1 : m11 (pmul (ptrans (lin A)) (lin a)) = pdot (pcol1 (lin A)) (pcol1 (lin a))).
  { unfold pmul, ptrans, papply, pdot, pcol0, pcol1. cbn [m00 m01 m02 m10 m11 m12 m20 m21 m22 vx vy vz]. ring. }
  assert (X2 : m21 (pmul (ptrans (lin A)) (lin a)) = pdot (pcol1 (lin a)) (pcol2 (lin A))).
  { unfold pmul, ptrans, papply, pdot, pcol0, pcol1, pcol2. cbn [m00 m01 m02 m10 m11 m12 m20 m21 m22 vx vy vz]. ring. }
  rewrite X0, X1 in H4. destruct (H4 F0 F1) as [Y C]. exists e. split; [exact E|]. split; [exact Y|].
  split.
  { pose proof PI_RGT_0 as HP. split; apply Rnot_le_lt; intros Q.
    - assert (cos (vy e) <= 0); [|lra]. rewrite <- cos_neg. apply cos_le_0; lra.
    - assert (cos (vy e) <= 0); [|lra]. apply cos_le_0; lra. }
  split; [rewrite H5, X2, FN; reflexivity|]. split; [lra|].
  intros q. rewrite <- H6, pmul_apply, ptrans_back; auto.
Qed.
Lemma total_angles : forall s a p n, sh_affine s = fa a -> rigid a -> contact_point s = Ret (fv p) -> contact_normal s = Ret (fv n) ->
  is_unit n -> pcross (pcol1 (lin a)) n <> V 0 0 0 ->
  exists A e, contact_affine s = Ret (fa A) /\ frame_of (pcol1 (lin a)) p n A /\ relative_angles s = Ret (fv e) /\
  vx e = 0 /\ - (PI / 2) < vy e < PI / 2 /\ sin (vy e) = pdot (pcol1 (lin a)) n /\ - PI <= vz e < PI /\
  forall q, papply (lin a) q = papply (lin A) (turn_zxy e q).
Proof.
  intros s a p n EA RA EP EN U C. destruct (affine_frame s a p n EA EP EN U C) as (A & E & F).
  destruct (frame_angles A a p n RA F) as (e & Ee & H). exists A, e. split; [exact E|]. split; [exact F|]. split; [|exact H].
  unfold relative_angles. rewrite E. cbn [obind]. now rewrite EA, Ee.
Qed.
Lemma rib_angles : forall s a i p n r, sh_affine s = fa a -> rigid a -> contact_point_i s i = Ret (fv p) -> contact_normal_i s i = Ret (fv n) ->
  is_unit n -> pcross (pcol1 (lin a)) n <> V 0 0 0 -> rib_at s i = Ret (frib r) ->
  exists A e, contact_affine_i s i = Ret (fa A) /\ frame_of (pcol1 (lin a)) p n A /\ relative_angles_i s i = Ret (fv (V (- rb_angle r) (vy e) (vz e))) /\
  vx e = 0 /\ - (PI / 2) < vy e < PI / 2 /\ sin (vy e) = pdot (pcol1 (lin a)) n /\ - PI <= vz e < PI /\
  forall q, papply (lin a) q = papply (lin A) (turn_zxy e q).
Proof.
  intros s a i p n r EA RA EP EN U C ER. destruct (affine_i_frame s a i p n EA EP EN U C) as (A & E & F).
  destruct (frame_angles A a p n RA F) as (e & Ee & Y & H). exists A, e. split; [exact E|]. split; [exact F|]. split; [|auto].
  unfold relative_angles_i. rewrite E, ER. cbn [obind]. rewrite EA, Ee. f_equal. apply vec_eq; try reflexivity.
  cbn [vx fv]. rewrite Y. change (rb_angle (frib r)) with (Fin (rb_angle r)). cbn. f_equal. ring.
Qed.

(** An inclined rib. *)
Lemma turned : forall t b c, turn_zxy (V t b c) (V (cos c) 0 (sin c)) = V (cos t) (sin t) 0.
Proof.
  intros t b c. unfold turn_zxy, turn_z, turn_x, turn_y. cbn [vx vy vz]. pose proof (sin2_cos2 c) as H. unfold Rsqr in H.
  assert (E : cos c * sin c - sin c * cos c = 0) by ring. rewrite E.
  replace (cos c * cos c + sin c * sin c) with 1 by lra. f_equal; ring.
Qed.
Lemma rib_attitude_not : forall s a i p n r, sh_affine s = fa a -> rigid a -> contact_point_i s i = Ret (fv p) -> contact_normal_i s i = Ret (fv n) ->
  is_unit n -> pcross (pcol1 (lin a)) n <> V 0 0 0 -> rib_at s i = Ret (frib r) -> - (PI / 2) < rb_angle r < PI / 2 -> rb_angle r <> 0 ->
  exists A e, contact_affine_i s i = Ret (fa A) /\ relative_angles_i s i = Ret (fv e) /\
  exists q, papply (lin a) q <> papply (lin A) (turn_zxy e q).
Proof.
  intros s a i p n r EA RA EP EN U C ER B NZ.
  destruct (rib_angles s a i p n r EA RA EP EN U C ER) as (A & e & E1 & F & E2 & Y & _ & _ & _ & H).
  exists A, (V (- rb_angle r) (vy e) (vz e)). split; [exact E1|]. split; [exact E2|].
  exists (V (cos (vz e)) 0 (sin (vz e))). rewrite H. destruct e as [e0 e1 e2]. cbn [vx vy vz] in *. subst e0. rewrite !turned.
  intros Q. assert (Q' : V (cos 0) (sin 0) 0 = V (cos (- rb_angle r)) (sin (- rb_angle r)) 0).
  { rewrite <- (ptrans_front (lin A) (V (cos 0) (sin 0) 0)) by apply F. rewrite Q. apply ptrans_front. apply F. }
  injection Q' as _ Q'. rewrite sin_0, sin_neg in Q'.
  destruct (Rtotal_order (rb_angle r) 0) as [L|[L|L]]; [|auto|].
  - assert (sin (rb_angle r) < 0); [|lra]. apply sin_lt_0_var; lra.
  - assert (0 < sin (rb_angle r)); [|lra]. apply sin_gt_0; lra.
Qed.
Lemma rib_attitude : forall s a i p n r, sh_affine s = fa a -> rigid a -> contact_point_i s i = Ret (fv p) -> contact_normal_i s i = Ret (fv n) ->
  is_unit n -> pcross (pcol1 (lin a)) n <> V 0 0 0 -> rib_at s i = Ret (frib r) -> - (PI / 2) < rb_angle r < PI / 2 ->
  exists A e, contact_affine_i s i = Ret (fa A) /\ relative_angles_i s i = Ret (fv e) /\
  ((forall q, papply (lin a) q = papply (lin A) (turn_zxy e q)) <-> rb_angle r = 0).
Proof.
  intros s a i p n r EA RA EP EN U C ER B. destruct (Req_dec (rb_angle r) 0) as [Z|Z].
  - destruct (rib_angles s a i p n r EA RA EP EN U C ER) as (A & e & E1 & F & E2 & Y & _ & _ & _ & H).
    exists A, e. split; [exact E1|]. split; [|tauto]. rewrite E2, Z. destruct e as [e0 e1 e2]. cbn [vx vy vz] in *. subst e0.
    do 3 f_equal. ring.
  - destruct (rib_attitude_not s a i p n r EA RA EP EN U C ER B Z) as (A & e & E1 & E2 & q & Hq).
    exists A, e. split; [exact E1|]. split; [exact E2|]. split; [intros H; now elim Hq|tauto].
Qed.
