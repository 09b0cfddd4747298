(** * A piece of road in one triangle and in two. *)
From Coq Require Import ZArith Bool Reals Lra Lia List.
From Verif Require Import Base Num Vec Aabb Geom Ground Rib ER SpecGeom SpecRib SpecAvg SpecProfile.
From Verif Require Import ProofGeom ProofInt ProofTri ProofSegArea ProofFlat ProofAvg ProofMeshGeo ProofPolar ProofMeshEval ProofChord.
From Verif Require Import ProofProfile SampleMeshGeo SampleChord.
Import ListNotations.
Local Open Scope R_scope.

(** The road 3/5 below the axle from x0 to x1. *)
Definition strip (x0 x1 : R) : triangle R := plank ((x1 - x0) / 2) 1 0 ((x0 + x1) / 2) (-3 / 5).
Definition strip_seg (x0 x1 : R) : segment R := Segment (V x0 0 (-3 / 5)) (V x1 0 (-3 / 5)).
Lemma strip_cut : forall x0 x1, -4 / 5 <= x0 <= 4 / 5 -> x0 + / 10 <= x1 <= 2 ->
  int_triangle_disk (ftri (strip x0 x1)) (fdisk big_disk) (Fin eps) = Ret (Some (fseg (strip_seg x0 (Rmin x1 (4 / 5))))).
Proof.
  intros x0 x1 H0 H1. assert (ES : eps < / 1000) by (unfold eps; lra). pose proof eps_pos as EP.
  unfold strip. rewrite plank_clip by lra. cbn zeta. set (h := (x1 - x0) / 2). set (m := (x0 + x1) / 2).
  assert (EH : / 20 <= h) by (unfold h; lra).
  replace (m * 1 + -3 / 5 * 0) with m by ring. replace (1 - m * m - -3 / 5 * (-3 / 5) + m * m) with (16 / 25) by field.
  replace (sqrt (16 / 25)) with (4 / 5) by (symmetry; apply sqrt_is; lra).
  assert (C : / 1000 < 4 * h * h * (16 / 25)) by nra. rewrite Rabs_pos_eq by lra.
  replace (rltb (4 * h * h * (16 / 25)) (- eps)) with false by (symmetry; apply rltb_false; lra).
  replace (rltb (4 * h * h * (16 / 25)) eps) with false by (symmetry; apply rltb_false; lra).
  replace (rltb (4 * h * h * (16 / 25)) 0) with false by (symmetry; apply rltb_false; lra).
  replace (rltb (- m + 4 / 5) (- h)) with false by (symmetry; apply rltb_false; unfold m, h; lra).
  replace (rltb h (- m - 4 / 5)) with false by (symmetry; apply rltb_false; unfold m, h; lra). rewrite andb_false_r. cbn [andb orb].
  do 3 f_equal. unfold strip_seg, Rmax, Rmin. f_equal; apply vec_eq; cbn [vx vy vz]; try ring; repeat destruct (Rle_dec _ _); unfold m, h in *; lra.
Qed.
Lemma strip_plain : forall x0 x1, x0 + / 10 <= x1 -> plain_cut wide stand (strip_seg x0 x1).
Proof.
  intros x0 x1 H. unfold plain_cut, strip_seg. cbn [sv0 sv1]. pose proof eps_small. split; [|split; apply under; lra].
  rewrite (dist_is _ _ (x1 - x0)); [unfold eps; lra|lra|vunf; ring].
Qed.
Lemma strip_lies : forall x0 x1, lies_in (strip x0 x1) (Plane (V 0 0 (-3 / 5)) (V 0 0 1)).
Proof. intros. unfold lies_in, on_plane, strip, plank. cbn [tv0 tv1 tv2 porigin pnormal]. repeat split; vunf; field. Qed.
Lemma strip_splits : forall x0 m x1, x0 < x1 -> x0 <= m <= x1 -> splits (strip_seg x0 x1) (strip_seg x0 m) (strip_seg m x1).
Proof.
  intros x0 m x1 H HM. exists (V m 0 (-3 / 5)). unfold strip_seg. cbn [sv0 sv1]. split; [|auto].
  exists ((m - x0) / (x1 - x0)). split.
  - split; [apply Rmult_le_pos; [lra|left; apply Rinv_0_lt_compat; lra]|].
    apply (Rmult_le_reg_r (x1 - x0)); [lra|]. unfold Rdiv. rewrite Rmult_assoc, Rinv_l by lra. lra.
  - cbn [sv0 sv1]. apply vec_eq; vunf; field; lra.
Qed.
Lemma strip_of : forall f g x0 x1, ground_of (strip x0 x1) f g -> -4 / 5 <= x0 <= 4 / 5 -> x0 + / 10 <= x1 <= 2 ->
  int_triangle_disk (tg_tri g) (disk_grd (frib wide) (fa stand)) neps = Ret (Some (fseg (strip_seg x0 (Rmin x1 (4 / 5))))).
Proof. intros f g x0 x1 G H0 H1. apply (cut_of 1 _ _ _ _ G). now apply strip_cut. Qed.
Lemma cut_half : forall f g, ground_of (strip 0 (3 / 2)) f g ->
  int_triangle_disk (tg_tri g) (disk_grd (frib wide) (fa stand)) neps = Ret (Some (fseg (strip_seg 0 (4 / 5)))).
Proof. intros f g G. rewrite (strip_of f g _ _ G), Rmin_right by lra. reflexivity. Qed.
Lemma cut_inner : forall f g, ground_of (strip 0 (3 / 10)) f g ->
  int_triangle_disk (tg_tri g) (disk_grd (frib wide) (fa stand)) neps = Ret (Some (fseg (strip_seg 0 (3 / 10)))).
Proof. intros f g G. rewrite (strip_of f g _ _ G), Rmin_left by lra. reflexivity. Qed.
Lemma cut_outer : forall f g, ground_of (strip (3 / 10) (3 / 2)) f g ->
  int_triangle_disk (tg_tri g) (disk_grd (frib wide) (fa stand)) neps = Ret (Some (fseg (strip_seg (3 / 10) (4 / 5)))).
Proof. intros f g G. rewrite (strip_of f g _ _ G), Rmin_right by lra. reflexivity. Qed.

(** Distances and angles of the three points. *)
Lemma far_stand : forall x k, 0 <= k -> k * k = x * x + 9 / 25 -> far wide stand (V x 0 (-3 / 5)) = k.
Proof.
  intros x k H E. unfold far. rewrite stand_place. apply dist_is; auto. unfold wide, thin_rib, rb_center, dcenter.
  cbn [rb_disk dplane porigin]. vunf. lra.
Qed.
Definition kb : R := sqrt (9 / 20).
Lemma kb_sq : kb * kb = 9 / 20. Proof. apply sqrt_sqrt. lra. Qed.
Lemma kb_bounds : 67 / 100 < kb < 671 / 1000.
Proof. pose proof kb_sq. assert (0 <= kb) by apply sqrt_pos. split; nra. Qed.
Lemma low_stand : forall x, low wide stand (V x 0 (-3 / 5)).
Proof.
  intros x. split.
  - unfold wide. rewrite stand_disk. unfold on_plane, big_disk. cbn [dplane porigin pnormal]. vunf. ring.
  - unfold wide. rewrite stand_in_rib. cbn. lra.
Qed.
Lemma polar_stand : forall x, let k := far wide stand (V x 0 (-3 / 5)) in let t := ang wide stand (V x 0 (-3 / 5)) in
  - PI < t < 0 /\ x = k * cos t /\ -3 / 5 = k * sin t.
Proof.
  intros x k t. destruct (polar_of wide stand eq_refl stand_rigid _ (low_stand x)) as (_ & A & E). fold k t in A, E. split; auto.
  assert (E' : in_rib wide stand (V x 0 (-3 / 5)) = V x 0 (-3 / 5)) by apply stand_in_rib. rewrite E' in E.
  split; [exact (f_equal vx E)|exact (f_equal vz E)].
Qed.
Lemma gap_data : forall x y k l, 0 <= k -> 0 <= l -> k * k = x * x + 9 / 25 -> l * l = y * y + 9 / 25 ->
  let d := Rabs (ang wide stand (V y 0 (-3 / 5)) - ang wide stand (V x 0 (-3 / 5))) in
  0 <= d < PI /\ k * l * cos d = x * y + 9 / 25 /\ k * l * sin d = 3 / 5 * Rabs (y - x) /\
  seg_hid wide stand (strip_seg x y) = (d - 3 / 5 * Rabs (y - x)) / 2.
Proof.
  intros x y k l HK HL EK EL d. pose proof (polar_stand x) as PX. pose proof (polar_stand y) as PY. cbv zeta in PX, PY.
  rewrite (far_stand x k HK EK) in PX. rewrite (far_stand y l HL EL) in PY.
  unfold seg_hid, hid, strip_seg. cbn [sv0 sv1]. rewrite (far_stand x k HK EK), (far_stand y l HL EL). cbv zeta.
  unfold d. set (s := ang wide stand (V x 0 (-3 / 5))) in *. set (t := ang wide stand (V y 0 (-3 / 5))) in *.
  destruct PX as (A & X1 & X2). destruct PY as (B & Y1 & Y2).
  assert (D : 0 <= Rabs (t - s) < PI) by (split; [apply Rabs_pos|apply Rabs_def1; lra]).
  assert (C : k * l * cos (Rabs (t - s)) = x * y + 9 / 25).
  { replace (cos (Rabs (t - s))) with (cos (t - s)) by (unfold Rabs; destruct Rcase_abs; [now rewrite cos_neg|reflexivity]).
    rewrite cos_minus. transitivity ((k * cos s) * (l * cos t) + (k * sin s) * (l * sin t)); [ring|]. rewrite <- X1, <- X2, <- Y1, <- Y2. field. }
  assert (S : k * l * sin (t - s) = 3 / 5 * (y - x)).
  { rewrite sin_minus. transitivity ((k * cos s) * (l * sin t) - (k * sin s) * (l * cos t)); [ring|]. rewrite <- X1, <- X2, <- Y1, <- Y2. field. }
  assert (SA : k * l * sin (Rabs (t - s)) = 3 / 5 * Rabs (y - x)).
  { assert (P : 0 <= k * l) by now apply Rmult_le_pos.
    assert (Q : 0 <= sin (Rabs (t - s))) by (apply sin_ge_0; lra).
    replace (k * l * sin (Rabs (t - s))) with (Rabs (k * l * sin (t - s))).
    - rewrite S, Rabs_mult. rewrite (Rabs_pos_eq (3 / 5)) by lra. reflexivity.
    - rewrite Rabs_mult, (Rabs_pos_eq (k * l)) by auto. f_equal. destruct (Rle_or_lt 0 (t - s)) as [L|L].
      + rewrite (Rabs_pos_eq (t - s)) in * by lra. now apply Rabs_pos_eq.
      + rewrite (Rabs_left (t - s)) in * by lra. rewrite sin_neg in *. rewrite Rabs_left1; lra. }
  split; auto. split; auto. split; auto. rewrite SA. change (rb_radius wide) with 1. field.
Qed.
(** The two pieces are seen under the same angle. *)
Lemma pieces : exists d, 44 / 100 < d < 7 / 10 /\ seg_hid wide stand (strip_seg 0 (3 / 10)) = (d - 18 / 100) / 2 /\
  seg_hid wide stand (strip_seg (3 / 10) (4 / 5)) = (d - 3 / 10) / 2.
Proof.
  pose proof kb_sq as K. pose proof kb_bounds as KB.
  destruct (gap_data 0 (3 / 10) (3 / 5) kb) as (D1 & C1 & S1 & H1); try lra.
  destruct (gap_data (3 / 10) (4 / 5) kb 1) as (D2 & C2 & S2 & H2); try lra.
  set (d1 := Rabs _) in D1, C1, S1, H1. set (d2 := Rabs (ang _ _ _ - _)) in D2, C2, S2, H2.
  rewrite Rabs_pos_eq in S1, H1 by lra. rewrite Rabs_pos_eq in S2, H2 by lra.
  assert (E : d1 = d2).
  { apply cos_inj; [lra|lra|]. apply (Rmult_eq_reg_l kb); lra. }
  exists d1. rewrite H1, H2, <- E. split; [|split; field]. pose proof PI_4 as P4. split.
  - assert (L : sin d1 < d1).
    { apply sin_lt_x. destruct D1 as [[D|D] _]; auto. exfalso. rewrite <- D, sin_0 in S1. lra. }
    assert (sin d1 > 44 / 100); [|lra]. nra.
  - destruct (Rlt_le_dec d1 (PI / 6)) as [L|L]; [lra|exfalso].
    pose proof (cos_decr_1 (PI / 6) d1 ltac:(lra) ltac:(lra) ltac:(lra) ltac:(lra) L) as CD. rewrite cos_PI6 in CD.
    assert (Q : sqrt 3 < 1733 / 1000).
    { rewrite <- (sqrt_square (1733 / 1000)) by lra. apply sqrt_lt_1_alt. lra. }
    nra.
Qed.
Lemma half_point : forall f g, ground_of (strip 0 (3 / 2)) f g -> exists o,
  envelop_geometric (frib wide) [g] (fa stand) = Ret (true, fout o) /\ o_point o = V (3 / 10) 0 (-3 / 5) /\ o_depth o = 1 - kb.
Proof.
  intros f g G. pose proof (cut_half f g G) as E. pose proof (strip_plain 0 (4 / 5) ltac:(lra)) as P.
  destruct (cut_ratio wide stand wide_good eq_refl stand_rigid g _ f _ G E P) as (_ & _ & CP).
  unfold strip_seg in CP at 2 3 4 5 6 7. cbn [sv0 sv1] in CP. rewrite (far_stand 0 (3 / 5)), (far_stand (4 / 5) 1) in CP by lra.
  assert (CP' : c_point wide stand (strip_seg 0 (4 / 5)) = V (3 / 10) 0 (-3 / 5)) by (rewrite CP; apply vec_eq; vunf; field).
  assert (D := from_cut_data wide stand wide_good eq_refl stand_rigid _ _ P (ex_intro _ _ (ex_intro _ f (ex_intro _ g (conj G (conj E eq_refl)))))).
  destruct D as (A & V0 & _ & _). cbn [contribution o_area o_volume] in A, V0. change (rb_width wide) with 1 in A, V0.
  destruct (split_cut wide stand wide_good eq_refl stand_rigid g _ f _ _ _ G E P (strip_splits 0 (3 / 10) (4 / 5) ltac:(lra) ltac:(lra))) as [_ SH].
  destruct pieces as (d & HD & P1 & P2). rewrite SH, P1, P2 in V0. pose proof eps_small as ES.
  eexists. split; [apply (geo_single wide stand g _ f _ G E)|].
  - now apply plain_kept.
  - rewrite V0. lra.
  - right. rewrite V0. lra.
  - cbn [o_point o_depth]. rewrite CP'. split; [reflexivity|]. change (rb_radius wide) with 1. f_equal.
    apply (far_stand (3 / 10) kb); [pose proof kb_bounds; lra|pose proof kb_sq; lra].
Qed.
Lemma two_point : forall f g1 g2, ground_of (strip 0 (3 / 10)) f g1 -> ground_of (strip (3 / 10) (3 / 2)) f g2 -> exists o,
  envelop_geometric (frib wide) [g1; g2] (fa stand) = Ret (true, fout o) /\ 0 <= vx (o_point o) < 3 / 10 /\ 1 - kb < o_depth o.
Proof.
  intros f g1 g2 G1 G2. pose proof (cut_inner f g1 G1) as E1. pose proof (cut_outer f g2 G2) as E2.
  pose proof (strip_plain 0 (3 / 10) ltac:(lra)) as P1. pose proof (strip_plain (3 / 10) (4 / 5) ltac:(lra)) as P2.
  pose proof kb_sq as K. pose proof kb_bounds as KB. pose proof eps_small as ES.
  destruct (cut_ratio wide stand wide_good eq_refl stand_rigid g1 _ f _ G1 E1 P1) as (_ & _ & C1).
  destruct (cut_ratio wide stand wide_good eq_refl stand_rigid g2 _ f _ G2 E2 P2) as (_ & _ & C2).
  unfold strip_seg in C1 at 2 3 4 5 6 7. unfold strip_seg in C2 at 2 3 4 5 6 7. cbn [sv0 sv1] in C1, C2.
  rewrite (far_stand 0 (3 / 5)), (far_stand (3 / 10) kb) in C1 by lra. rewrite (far_stand (3 / 10) kb), (far_stand (4 / 5) 1) in C2 by lra.
  set (x1 := 3 / 5 / (3 / 5 + kb) * (3 / 10)). set (x2 := 3 / 10 + kb / (kb + 1) * (1 / 2)).
  assert (C1' : c_point wide stand (strip_seg 0 (3 / 10)) = V x1 0 (-3 / 5)) by (rewrite C1; unfold x1; apply vec_eq; vunf; field; lra).
  assert (C2' : c_point wide stand (strip_seg (3 / 10) (4 / 5)) = V x2 0 (-3 / 5)) by (rewrite C2; unfold x2; apply vec_eq; vunf; field; lra).
  destruct (from_cut_data wide stand wide_good eq_refl stand_rigid _ _ P1 (ex_intro _ _ (ex_intro _ f (ex_intro _ g1 (conj G1 (conj E1 eq_refl)))))) as (_ & V1 & _).
  destruct (from_cut_data wide stand wide_good eq_refl stand_rigid _ _ P2 (ex_intro _ _ (ex_intro _ f (ex_intro _ g2 (conj G2 (conj E2 eq_refl)))))) as (_ & V2 & _).
  destruct pieces as (d & HD & Q1 & Q2). rewrite Q1 in V1. rewrite Q2 in V2. change (rb_width wide) with 1 in V1, V2.
  set (c1 := contribution wide stand (up_normal (strip 0 (3 / 10))) f (strip_seg 0 (3 / 10))) in *.
  set (c2 := contribution wide stand (up_normal (strip (3 / 10) (3 / 2))) f (strip_seg (3 / 10) (4 / 5))) in *.
  assert (F : Forall2 (gives wide stand) [g1; g2] [[c1]; [c2]]).
  { constructor; [|constructor; [|constructor]]; (eapply one_gives; [eassumption|eassumption|assumption]). }
  assert (TV : total o_volume (concat [[c1]; [c2]]) = d - 24 / 100) by (cbn [concat app total]; rewrite V1, V2; field).
  exists (mean_of wide stand [c1; c2]). split.
  - rewrite (geo_eval wide stand _ _ F) by (rewrite TV; lra). rewrite TV.
    replace (rltb eps (d - 24 / 100)) with true by (symmetry; apply rltb_true; lra). rewrite orb_true_r. reflexivity.
  - cbn [concat app] in TV. 
    assert (EX : o_point (mean_of wide stand [c1; c2]) = V (((d - 18 / 100) / 2 * x1 + (d - 3 / 10) / 2 * x2) / (d - 24 / 100)) 0 (-3 / 5)).
    { unfold mean_of. cbn [o_point]. rewrite TV. unfold vtotal. cbn [total]. rewrite V1, V2.
      change (o_point c1) with (c_point wide stand (strip_seg 0 (3 / 10))). change (o_point c2) with (c_point wide stand (strip_seg (3 / 10) (4 / 5))).
      rewrite C1', C2'. apply vec_eq; vunf; field; lra. }
    set (x := ((d - 18 / 100) / 2 * x1 + (d - 3 / 10) / 2 * x2) / (d - 24 / 100)) in *.
    assert (B1 : 0 <= x1 < 142 / 1000).
    { unfold x1. assert (I : / (3 / 5 + kb) < / (127 / 100)) by (apply Rinv_lt_contravar; nra).
      assert (0 < / (3 / 5 + kb)) by (apply Rinv_0_lt_compat; lra). unfold Rdiv in *. nra. }
    assert (B2 : 0 <= x2 < 3 / 10 + 201 / 1000).
    { unfold x2. assert (I : / (kb + 1) < / (167 / 100)) by (apply Rinv_lt_contravar; nra).
      assert (0 < / (kb + 1)) by (apply Rinv_0_lt_compat; lra). unfold Rdiv in *. nra. }
    assert (I : 0 < / (d - 24 / 100)) by (apply Rinv_0_lt_compat; lra).
    assert (X : 0 <= x < 3 / 10).
    { assert (XE : x * (d - 24 / 100) = (d - 18 / 100) / 2 * x1 + (d - 3 / 10) / 2 * x2) by (unfold x; field; lra).
      split; nra. }
    rewrite EX. cbn [vx]. split; [exact X|].
    unfold mean_of in *. cbn [o_depth o_point] in *. rewrite EX. change (rb_radius wide) with 1.
    change (dist (V x 0 (-3 / 5)) (place stand (rb_center wide))) with (far wide stand (V x 0 (-3 / 5))).
    assert (S : 0 <= x * x + 9 / 25) by nra.
    rewrite (far_stand x (sqrt (x * x + 9 / 25))); [|apply sqrt_pos|now rewrite sqrt_sqrt].
    assert (sqrt (x * x + 9 / 25) < kb); [|lra]. unfold kb. apply sqrt_lt_1_alt. split; [exact S|]. nra.
Qed.
