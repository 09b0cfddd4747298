(** * Approximate equality, degenerate entities, membership. *)
From Coq Require Import ZArith Bool List Reals Lra Lia.
From Verif Require Import Base Num Vec Aabb Geom Acme AcmeEntity Ground Shape Rib ER SpecGeom SpecAcme SpecEntity SpecRib SpecShape
  SpecApprox ProofGeom ProofInt ProofAcme ProofCross ProofEntity ProofPred.
Import ListNotations.
Local Open Scope R_scope.

Lemma f_vis : forall a b tol, 0 <= tol -> (vis_approx (fv a) (fv b) (Fin tol) = true <-> agree tol a b).
Proof.
  intros a b tol T. unfold vis_approx, agree, dist. push. rewrite rleb_true.
  assert (M : 0 <= Rmin (pnorm a) (pnorm b)) by (apply Rmin_glb; apply pnorm_nonneg).
  rewrite pnorm_le by (apply Rmult_le_pos; assumption).
  replace (tol * Rmin (pnorm a) (pnorm b) * (tol * Rmin (pnorm a) (pnorm b)))
    with (tol * tol * (Rmin (pnorm a) (pnorm b) * Rmin (pnorm a) (pnorm b))) by ring.
  replace (Rmin (pnorm a) (pnorm b) * Rmin (pnorm a) (pnorm b)) with (Rmin (pdot a a) (pdot b b)); [reflexivity|].
  rewrite <- !pnorm_sq. pose proof (pnorm_nonneg a). pose proof (pnorm_nonneg b).
  set (x := pnorm a) in *. set (y := pnorm b) in *. unfold Rmin.
  destruct (Rle_dec x y), (Rle_dec (x * x) (y * y)); nra.
Qed.
Lemma f_is : forall x y tol, is_approx (Fin x) (Fin y) (Fin tol) = true <-> agree1 tol x y.
Proof. intros. unfold is_approx, agree1. push. apply rltb_true. Qed.

Lemma agree_refl : forall tol a, 0 <= tol -> agree tol a a.
Proof.
  intros tol a T. unfold agree. replace (dist a a) with 0.
  - apply Rmult_le_pos; [assumption|]. apply Rmin_glb; apply pnorm_nonneg.
  - unfold dist. rewrite psub_self. unfold pnorm. replace (pdot _ _) with 0 by (vunf; ring). now rewrite sqrt_0.
Qed.
Lemma agree_sym : forall tol a b, agree tol a b <-> agree tol b a.
Proof. intros. unfold agree. rewrite dist_sym, Rmin_comm. reflexivity. Qed.
Lemma agree1_refl : forall tol x, 0 < tol -> agree1 tol x x.
Proof. intros. unfold agree1. rewrite Rminus_diag_eq by reflexivity. now rewrite Rabs_R0. Qed.
Lemma agree1_sym : forall tol x y, agree1 tol x y <-> agree1 tol y x.
Proof. intros. unfold agree1. now rewrite Rabs_minus_sym. Qed.

Lemma approx_acme : forall tol, 0 <= tol ->
  (forall a b, line_is_approx (fline a) (fline b) (Fin tol) = true <->
     agree tol (lorigin a) (lorigin b) /\ agree tol (ldir a) (ldir b)) /\
  (forall a b, ray_is_approx (fray a) (fray b) (Fin tol) = true <->
     agree tol (ry_origin a) (ry_origin b) /\ agree tol (ry_dir a) (ry_dir b)) /\
  (forall a b, plane_is_approx (fplane a) (fplane b) (Fin tol) = true <->
     agree tol (porigin a) (porigin b) /\ agree tol (pnormal a) (pnormal b)) /\
  (forall a b, seg_is_approx (fseg a) (fseg b) (Fin tol) = true <->
     agree tol (sv0 a) (sv0 b) /\ agree tol (sv1 a) (sv1 b)) /\
  (forall a b, tri_is_approx (ftri a) (ftri b) (Fin tol) = true <->
     agree tol (tv0 a) (tv0 b) /\ agree tol (tv1 a) (tv1 b) /\ agree tol (tv2 a) (tv2 b)) /\
  (forall a b, disk_is_approx (fdisk a) (fdisk b) (Fin tol) = true <->
     agree1 tol (dradius a) (dradius b) /\ agree tol (porigin (dplane a)) (porigin (dplane b)) /\
     agree tol (pnormal (dplane a)) (pnormal (dplane b))) /\
  (forall a b, ball_is_approx (fball a) (fball b) (Fin tol) = true <->
     agree1 tol (bl_radius a) (bl_radius b) /\ agree tol (bl_center a) (bl_center b)) /\
  (forall lo hi lo' hi' i i', aabb_is_approx (fbox lo hi i) (fbox lo' hi' i') (Fin tol) = true <->
     agree tol lo lo' /\ agree tol hi hi').
Proof.
  intros tol T. repeat match goal with |- _ /\ _ => split end; intros;
    unfold line_is_approx, ray_is_approx, plane_is_approx, seg_is_approx, tri_is_approx, disk_is_approx, ball_is_approx,
      aabb_is_approx, dcenter, dnormal, fline, fray, fplane, fseg, ftri, fdisk, fball, fbox;
    cbn [lorigin ldir ry_origin ry_dir porigin pnormal sv0 sv1 tv0 tv1 tv2 dradius dplane bl_radius bl_center bmin bmax];
    cbn [fplane porigin pnormal]; rewrite !andb_true_iff, ?f_is, !f_vis by exact T; tauto.
Qed.
Lemma approx_enve : forall tol, 0 <= tol ->
  (forall a b, shape_is_approx (fshape a) (fshape b) (Fin tol) = true <->
     agree1 tol (sRx a) (sRx b) /\ agree1 tol (sMx a) (sMx b) /\ agree1 tol (sRy a) (sRy b) /\
     agree1 tol (sMy a) (sMy b) /\ agree1 tol (sLy a) (sLy b)) /\
  (forall a b, rib_is_approx (frib a) (frib b) (Fin tol) = true <->
     agree1 tol (dradius (rb_disk a)) (dradius (rb_disk b)) /\
     agree tol (porigin (dplane (rb_disk a))) (porigin (dplane (rb_disk b))) /\
     agree tol (pnormal (dplane (rb_disk a))) (pnormal (dplane (rb_disk b))) /\
     agree1 tol (IZR (rb_id a)) (IZR (rb_id b)) /\ agree1 tol (rb_y a) (rb_y b) /\
     agree1 tol (rb_width a) (rb_width b) /\ agree1 tol (rb_angle a) (rb_angle b)) /\
  (forall p f p' f', flat_is_approx (fflat p f) (fflat p' f') (Fin tol) = true <->
     agree eps (porigin p) (porigin p') /\ agree eps (pnormal p) (pnormal p') /\ agree1 tol f f') /\
  (forall g t f g' t' f', ground_of g t f -> ground_of g' t' f' ->
     (tg_is_approx g g' (Fin tol) = true <->
      agree eps (tv0 t) (tv0 t') /\ agree eps (tv1 t) (tv1 t') /\ agree eps (tv2 t) (tv2 t') /\ agree1 tol f f')).
Proof.
  intros tol T. destruct (approx_acme tol T) as (_ & _ & _ & _ & _ & HD & _).
  destruct (approx_acme eps (Rlt_le _ _ eps_pos)) as (_ & _ & HP & _ & HT & _).
  repeat match goal with |- _ /\ _ => split end.
  - intros a b. unfold shape_is_approx, fshape. cbn [sRx sMx sRy sMy sLy]. rewrite !andb_true_iff, !f_is. tauto.
  - intros a b. unfold rib_is_approx, frib. cbn [rb_disk rb_id rb_y rb_width rb_angle].
    rewrite !e_ofZ, !andb_true_iff, !f_is, HD. tauto.
  - intros p f p' f'. unfold flat_is_approx, fflat. cbn [fl_plane fl_friction]. rewrite neps_eps, andb_true_iff, f_is, HP. tauto.
  - intros g t f g' t' f' [E1 E2] [E1' E2']. unfold tg_is_approx. rewrite E1, E2, E1', E2', neps_eps, andb_true_iff, f_is, HT. tauto.
Qed.
Lemma agree_origin : forall tol b, agree tol (V 0 0 0) b <-> b = V 0 0 0.
Proof.
  intros tol b. unfold agree. replace (pnorm (V 0 0 0)) with 0 by (unfold pnorm; replace (pdot _ _) with 0 by (vunf; ring); now rewrite sqrt_0).
  rewrite Rmin_left by apply pnorm_nonneg. rewrite Rmult_0_r. split.
  - intros H. unfold dist in H. pose proof (pnorm_nonneg (psub (V 0 0 0) b)) as P.
    assert (E : pnorm (psub (V 0 0 0) b) = 0) by lra. apply pnorm_eq in E; [|lra]. rewrite Rmult_0_l in E. apply pdot_zero in E.
    apply vec_eq; [apply (f_equal vx) in E|apply (f_equal vy) in E|apply (f_equal vz) in E]; vunf; lra.
  - intros ->. unfold dist. rewrite psub_self. unfold pnorm. replace (pdot _ _) with 0 by (vunf; ring). rewrite sqrt_0. lra.
Qed.

(** ** Degenerate entities. *)
Lemma degenerated_thin : forall e tol, ent_is_degenerated (fent e) (Fin tol) = true <-> thin tol e.
Proof.
  intros e tol.
  destruct e as [|p|l|r|p|s|t|d|b]; cbn [fent ent_is_degenerated thin]; try (split; [discriminate|contradiction]); try tauto;
    unfold line_is_degenerated, ray_is_degenerated, plane_is_degenerated, seg_is_degenerated, tri_is_degenerated, disk_is_degenerated,
      plane_is_degenerated, ball_is_degenerated, fline, fray, fplane, fseg, ftri, fdisk, fball;
    cbn [ldir ry_dir pnormal sv0 sv1 tv0 tv1 tv2 dradius dplane bl_radius fplane];
    rewrite ?f_sub, ?f_norm, ?f_approx0, ?orb_true_iff, ?rltb_true, ?(Rabs_pos_eq (pnorm _)) by apply pnorm_nonneg;
    unfold dist; try tauto.
Qed.

(** An entity of one point. *)
Lemma dist_same : forall a, dist a a = 0.
Proof. intros a. unfold dist. rewrite psub_self. unfold pnorm. replace (pdot _ _) with 0 by (vunf; ring). apply sqrt_0. Qed.
Lemma pnorm_zero : pnorm (V 0 0 0) = 0.
Proof. unfold pnorm. replace (pdot _ _) with 0 by (vunf; ring). apply sqrt_0. Qed.
Lemma norm_zero_vec : forall a, pnorm a = 0 -> a = V 0 0 0.
Proof. intros a H. apply pnorm_eq in H; [|lra]. apply pdot_zero. lra. Qed.
Lemma shift_zero : forall a k u, padd a (pscale 0 u) = padd a (pscale k u) -> k <> 0 -> u = V 0 0 0.
Proof.
  intros a k u E K. apply vec_eq; [apply (f_equal vx) in E|apply (f_equal vy) in E|apply (f_equal vz) in E];
    unfold padd, pscale in E; cbn [vx vy vz] in *; apply Rmult_eq_reg_l with k; auto; lra.
Qed.
Lemma unit_normal_to : forall n : pt, exists u, u <> V 0 0 0 /\ pdot u n = 0.
Proof.
  intros [x y z]. destruct (Req_dec x 0) as [->|X].
  - exists (V 1 0 0). split; [intros E; apply (f_equal vx) in E; cbn in E; lra|vunf; ring].
  - exists (V (- y) x 0). split; [intros E; apply (f_equal vy) in E; cbn in E; lra|vunf; ring].
Qed.
Lemma one_point_thin : forall e tol, 0 < tol -> one_point e ->
  match e with EPoint _ => False | _ => True end -> thin tol e.
Proof.
  intros e tol T [p O] N.
  assert (Q : forall q q', in_entity e q -> in_entity e q' -> q = q') by (intros q q' A B; apply O in A; apply O in B; congruence).
  pose proof (proj2 (O p) eq_refl) as I. clear O. destruct e as [|x|l|r|pl|s|t|d|b]; cbn [thin in_entity] in *; try contradiction; trivial.
  - replace (ldir l) with (V 0 0 0); [now rewrite pnorm_zero|]. symmetry. apply (shift_zero (lorigin l) 1); [|lra].
    apply Q; eexists; reflexivity.
  - replace (ry_dir r) with (V 0 0 0); [now rewrite pnorm_zero|]. symmetry. apply (shift_zero (ry_origin r) 1); [|lra].
    apply Q; eexists; (split; [|reflexivity]); lra.
  - exfalso. destruct (unit_normal_to (pnormal pl)) as (u & U & H). apply U. apply (shift_zero (porigin pl) 1); [|lra].
    apply Q; unfold on_plane; rewrite psub_padd, pdot_scale_l, H; ring.
  - replace (sv0 s) with (sv1 s); [now rewrite dist_same|]. symmetry. apply Q; [exists 0|exists 1]; (split; [lra|vring]).
  - left. replace (tv0 t) with (tv1 t); [now rewrite dist_same|]. symmetry.
    apply Q; [exists 1, 0, 0|exists 0, 1, 0]; repeat (split; [lra|]); vring.
  - destruct (Rlt_le_dec (Rabs (dradius d)) tol) as [L|L]; [now left|exfalso].
    destruct (Rle_lt_dec 0 (dradius d)) as [G|G].
    + rewrite Rabs_pos_eq in L by exact G. destruct (unit_normal_to (pnormal (dplane d))) as (u & U & H).
      assert (P : 0 < pnorm u). { destruct (pnorm_nonneg u) as [P|P]; [exact P|]. symmetry in P. apply norm_zero_vec in P. contradiction. }
      apply U. apply (shift_zero (porigin (dplane d)) (dradius d / pnorm u));
        [|apply Rgt_not_eq; apply Rdiv_lt_0_compat; lra].
      apply Q; (split; [unfold on_plane; rewrite psub_padd, pdot_scale_l, H; ring|]); unfold dist; rewrite psub_padd, pnorm_scale.
      * rewrite Rabs_R0. lra.
      * rewrite Rabs_pos_eq by (apply Rlt_le, Rdiv_lt_0_compat; lra). right. field. lra.
    + destruct I as [_ I]. pose proof (pnorm_nonneg (psub p (porigin (dplane d)))). unfold dist in I. lra.
  - pose proof (pnorm_nonneg (psub p (bl_center b))). unfold in_ball, dist in I.
    rewrite Rabs_pos_eq by lra. destruct (Rlt_le_dec (bl_radius b) tol) as [L|L]; [exact L|exfalso].
    assert (E : bl_center b = padd (bl_center b) (V (bl_radius b) 0 0)).
    { apply Q; unfold in_ball.
      - rewrite dist_same. lra.
      - unfold dist. rewrite psub_padd. apply pnorm_le; [lra|]. vunf. lra. }
    apply (f_equal vx) in E. unfold padd in E. cbn [vx] in E. lra.
Qed.

(** ** Membership. *)
Lemma cross_foot : forall l q, is_unit (ldir l) ->
  pnorm (pcross (psub q (lorigin l)) (ldir l)) = dist q (foot l q).
Proof.
  intros l q U. unfold dist, pnorm. f_equal. rewrite pcross_sq. unfold foot. unfold is_unit in U. rewrite U.
  replace (psub q (padd (lorigin l) (pscale (pdot (psub q (lorigin l)) (ldir l) / 1) (ldir l))))
    with (psub (psub q (lorigin l)) (pscale (pdot (psub q (lorigin l)) (ldir l)) (ldir l))).
  - set (w := psub q (lorigin l)). rewrite !pdot_sub_l, !pdot_sub_r, !pdot_scale_l, !pdot_scale_r, U, (pdot_comm (ldir l) w). ring.
  - set (k := pdot _ _). apply vec_eq; vunf; field.
Qed.
Lemma cone : forall l q tol, 0 < tol -> is_unit (ldir l) ->
  (pnorm (pcross (punit (psub q (lorigin l))) (ldir l)) < tol <-> in_cone tol l q).
Proof.
  intros l q tol T U. unfold in_cone. destruct (Req_dec (pdot (psub q (lorigin l)) (psub q (lorigin l))) 0) as [E|E].
  - rewrite punit_zero by exact E. apply pdot_zero in E. split.
    + intros _. left. apply vec_eq; [apply (f_equal vx) in E|apply (f_equal vy) in E|apply (f_equal vz) in E]; vunf; lra.
    + intros _. rewrite E. replace (pcross _ _) with (V 0 0 0) by vring. now rewrite pnorm_zero.
  - assert (P : 0 < pdot (psub q (lorigin l)) (psub q (lorigin l))) by (pose proof (pdot_pos (psub q (lorigin l))); lra).
    pose proof (pnorm_pos _ P) as PN. rewrite punit_pos by exact P. rewrite pcross_scale_l, pnorm_scale, cross_foot by exact U.
    rewrite Rabs_pos_eq by (apply Rlt_le, Rinv_0_lt_compat, PN). fold (dist q (lorigin l)) in *. split.
    + intros H. right. apply Rmult_lt_compat_r with (r := dist q (lorigin l)) in H; [|exact PN].
      replace (/ dist q (lorigin l) * dist q (foot l q) * dist q (lorigin l)) with (dist q (foot l q)) in H by (field; lra). lra.
    + intros [H|H].
      * exfalso. subst q. rewrite dist_same in PN. lra.
      * apply Rmult_lt_reg_r with (dist q (lorigin l)); [exact PN|].
        replace (/ dist q (lorigin l) * dist q (foot l q) * dist q (lorigin l)) with (dist q (foot l q)) by (field; lra). lra.
Qed.
Lemma punit_sign : forall a u, 0 <= pdot (punit a) u <-> 0 <= pdot a u.
Proof.
  intros a u. destruct (Req_dec (pdot a a) 0) as [E|E].
  - now rewrite punit_zero.
  - assert (P : 0 < pdot a a) by (pose proof (pdot_pos a); lra). pose proof (Rinv_0_lt_compat _ (pnorm_pos _ P)).
    rewrite punit_pos, pdot_scale_l by exact P. split; intros; [|apply Rmult_le_pos; lra].
    apply Rmult_le_reg_l with (/ pnorm a); lra.
Qed.
Lemma detour : forall a b q, dist a b <= dist q a + dist q b.
Proof.
  intros a b q. rewrite (dist_sym q a). unfold dist. replace (psub a b) with (padd (psub a q) (psub q b)) by vring. apply triangle_ineq.
Qed.

(** Barycentric coordinates of the foot of a point. *)
Section Barycentric.
  Variables (t : triangle R) (q : pt).
  Let e1 := psub (tv1 t) (tv0 t).
  Let e2 := psub (tv2 t) (tv0 t).
  Let w := psub q (tv0 t).
  Let D := pdot e1 e1 * pdot e2 e2 - pdot e1 e2 * pdot e1 e2.
  Let v := (pdot e2 e2 * pdot w e1 - pdot e1 e2 * pdot w e2) / D.
  Let u := (pdot e1 e1 * pdot w e2 - pdot e1 e2 * pdot w e1) / D.
  Let r := psub q (bary t (1 - v - u) v u).
  Hypothesis NZ : tri_across t <> V 0 0 0.
  Lemma D_across : D = pdot (tri_across t) (tri_across t).
  Proof. unfold D, tri_across. fold e1 e2. now rewrite pcross_sq. Qed.
  Lemma D_pos : 0 < D.
  Proof. rewrite D_across. destruct (pdot_pos (tri_across t)) as [H|H]; [exact H|]. symmetry in H. apply pdot_zero in H. contradiction. Qed.
  Lemma r_split : r = psub (psub w (pscale v e1)) (pscale u e2).
  Proof. unfold r, w, e1, e2. generalize v u. intros. vring. Qed.
  Lemma r_e1 : pdot r e1 = 0.
  Proof. rewrite r_split, !pdot_sub_l, !pdot_scale_l, (pdot_comm e2 e1). pose proof D_pos. unfold v, u, D in *. field. lra. Qed.
  Lemma r_e2 : pdot r e2 = 0.
  Proof. rewrite r_split, !pdot_sub_l, !pdot_scale_l. pose proof D_pos. unfold v, u, D in *. field. lra. Qed.
  Lemma r_unique : forall a b c, a + b + c = 1 -> pdot (psub q (bary t a b c)) e1 = 0 -> pdot (psub q (bary t a b c)) e2 = 0 ->
    a = 1 - v - u /\ b = v /\ c = u.
  Proof.
    intros a b c S H1 H2. pose proof D_pos as P.
    replace (psub q (bary t a b c)) with (psub (psub w (pscale b e1)) (pscale c e2)) in *
      by (unfold w, e1, e2; replace a with (1 - b - c) by lra; vring).
    rewrite !pdot_sub_l, !pdot_scale_l in H1, H2. rewrite (pdot_comm e2 e1) in H1.
    assert (W1 : pdot w e1 = b * pdot e1 e1 + c * pdot e1 e2) by lra.
    assert (W2 : pdot w e2 = b * pdot e1 e2 + c * pdot e2 e2) by lra.
    assert (B : b = v) by (unfold v, D in *; rewrite W1, W2; field; lra).
    assert (C : c = u) by (unfold u, D in *; rewrite W1, W2; field; lra).
    repeat split; auto. lra.
  Qed.
  Lemma height_r : Rabs (pdot (psub q (tri_middle t)) (pscale (/ pnorm (tri_across t)) (tri_across t))) = pnorm r.
  Proof.
    assert (M : pdot (psub q (tri_middle t)) (tri_across t) = pdot r (tri_across t)).
    { unfold r, tri_middle, tri_across. generalize v u. intros. destruct t as [[a1 a2 a3] [b1 b2 b3] [c1 c2 c3]], q as [q1 q2 q3]. vunf. field. }
    assert (PN : 0 < pnorm (tri_across t)) by (apply pnorm_pos; rewrite <- D_across; exact D_pos).
    rewrite pdot_scale_r, M, Rabs_mult, (Rabs_pos_eq (/ _)) by (apply Rlt_le, Rinv_0_lt_compat, PN).
    assert (S : pdot r (tri_across t) * pdot r (tri_across t) = (pnorm r * pnorm (tri_across t)) * (pnorm r * pnorm (tri_across t))).
    { transitivity (pdot r r * pdot (tri_across t) (tri_across t)); [|rewrite <- !pnorm_sq; ring].
      pose proof (pcross_sq r (tri_across t)) as C. unfold tri_across at 1 2 in C. fold e1 e2 in C.
      rewrite pcross_pcross, r_e1, r_e2 in C. replace (psub (pscale 0 e1) (pscale 0 e2)) with (V 0 0 0) in C by vring.
      replace (pdot (V 0 0 0) (V 0 0 0)) with 0 in C by (vunf; ring). lra. }
    replace (Rabs (pdot r (tri_across t))) with (pnorm r * pnorm (tri_across t)); [field; lra|].
    assert (Z : 0 <= pnorm r * pnorm (tri_across t)) by (apply Rmult_le_pos; apply pnorm_nonneg).
    rewrite <- (Rabs_pos_eq _ Z). apply Rsqr_eq_abs_0. unfold Rsqr. symmetry. exact S.
  Qed.
  Lemma f_barycentric : tri_barycentric (ftri t) (fv q) = (Fin (1 - v - u), Fin v, Fin u).
  Proof.
    unfold tri_barycentric, ftri. cbn [tv0 tv1 tv2]. push. fold e1 e2 w. fold D. pose proof D_pos.
    rewrite !e_ndiv by lra. push. reflexivity.
  Qed.
  Lemma tri_inside : forall tol, 0 < tol -> (tri_is_inside (ftri t) (fv q) (Fin tol) = true <-> over_triangle tol t q).
  Proof.
    intros tol T. unfold tri_is_inside. rewrite f_barycentric. push. rewrite f_tri_plane.
    unfold plane_is_inside, plane_distance. rewrite f_signed_distance. cbn [porigin pnormal]. push. rewrite height_r.
    unfold over_triangle. fold e1 e2. split.
    - destruct (_ && _) eqn:E; [|discriminate]. rewrite !andb_true_iff, !rleb_true in E. rewrite rltb_true. intros H.
      exists (1 - v - u), v, u. fold r. repeat (split; [lra|]). split; [exact H|]. split; [exact r_e1|exact r_e2].
    - intros (a & b & c & S & A & B & C & H & H1 & H2). destruct (r_unique a b c S H1 H2) as (-> & -> & ->). fold r in H.
      replace (_ && _) with true; [now apply rltb_true|]. symmetry. rewrite !andb_true_iff, !rleb_true. lra.
  Qed.
End Barycentric.
Lemma some_true : forall b, Some b = Some true <-> b = true.
Proof. intros b. split; congruence. Qed.
Lemma inside_exact : forall e q tol, 0 < tol -> normal_form e ->
  (says_inside e q tol = Some true <-> counts_inside tol e q).
Proof.
  intros e q tol T N.
  destruct e as [|x|l|r|p|s|t|d|b]; cbn [says_inside counts_inside normal_form] in *; rewrite ?some_true;
    try (split; [discriminate|contradiction]).
  - unfold line_is_inside, fline. cbn [lorigin ldir]. push. rewrite f_approx0, Rabs_pos_eq by apply pnorm_nonneg.
    rewrite rltb_true. now apply cone.
  - unfold ray_is_inside, fray. cbn [ry_origin ry_dir]. push. rewrite f_approx0, Rabs_pos_eq by apply pnorm_nonneg.
    rewrite andb_true_iff, rltb_true, rleb_true, punit_sign.
    pose proof (cone (ray_line r) q tol T N) as C. unfold ray_line in C at 1 2. cbn [lorigin ldir] in C. now rewrite C.
  - unfold plane_is_inside, plane_distance. rewrite f_signed_distance. push. apply rltb_true.
  - unfold seg_is_inside, seg_length, fseg. cbn [sv0 sv1]. push. fold (dist (sv0 s) (sv1 s)) (dist q (sv0 s)) (dist q (sv1 s)).
    rewrite rleb_true. pose proof (detour (sv0 s) (sv1 s) q). rewrite Rabs_left1 by lra. lra.
  - now apply tri_inside.
  - rewrite f_disk_inside, andb_true_iff, rltb_true, rleb_true, dist_sym. reflexivity.
  - unfold ball_is_inside, fball, in_ball. cbn [bl_center bl_radius]. push. rewrite rleb_true, dist_sym. reflexivity.
Qed.
Lemma foot_on : forall l q, is_unit (ldir l) -> on_line l q -> foot l q = q.
Proof.
  intros l q U (k & ->). unfold foot. rewrite psub_padd, pdot_scale_l. unfold is_unit in U. rewrite U. f_equal. f_equal. field.
Qed.
Lemma cone_on : forall l q tol, 0 < tol -> is_unit (ldir l) -> on_line l q -> in_cone tol l q.
Proof.
  intros l q tol T U H. destruct (Req_dec (dist q (lorigin l)) 0) as [E|E].
  - left. apply norm_zero_vec in E. apply vec_eq; [apply (f_equal vx) in E|apply (f_equal vy) in E|apply (f_equal vz) in E]; vunf; lra.
  - right. rewrite foot_on, dist_same by assumption. apply Rmult_lt_0_compat; [exact T|].
    pose proof (pnorm_nonneg (psub q (lorigin l))). unfold dist in *. lra.
Qed.
Lemma inside_complete : forall e q tol, 0 < tol -> normal_form e ->
  match e with EPoint _ => False | _ => True end -> in_entity e q -> says_inside e q tol = Some true.
Proof.
  intros e q tol T N P H. apply inside_exact; auto.
  destruct e as [|x|l|r|p|s|t|d|b]; cbn [counts_inside normal_form in_entity] in *; try contradiction.
  - now apply cone_on.
  - destruct H as (k & K & E). split.
    + apply cone_on; auto. exists k. exact E.
    + subst q. rewrite psub_padd, pdot_scale_l. unfold is_unit in N. rewrite N. lra.
  - unfold on_plane in H. rewrite H, Rabs_R0. exact T.
  - destruct H as (k & K & ->). unfold dist.
    replace (psub (padd (sv0 s) (pscale k (psub (sv1 s) (sv0 s)))) (sv0 s)) with (pscale k (psub (sv1 s) (sv0 s))) by vring.
    replace (psub (padd (sv0 s) (pscale k (psub (sv1 s) (sv0 s)))) (sv1 s)) with (pscale (k - 1) (psub (sv1 s) (sv0 s))) by vring.
    replace (psub (sv0 s) (sv1 s)) with (pscale (-1) (psub (sv1 s) (sv0 s))) by vring.
    rewrite !pnorm_scale, (Rabs_pos_eq k), (Rabs_left1 (k - 1)), (Rabs_left1 (-1)) by lra. lra.
  - destruct H as (a & b & c & A & B & C & S & ->). exists a, b, c. repeat (split; [lra|]).
    rewrite dist_same, psub_self. split; [exact T|]. split; vunf; ring.
  - destruct H as [H1 H2]. unfold on_plane in H1. rewrite H1, Rabs_R0. split; [exact T|exact H2].
  - exact H.
Qed.
(** How far the points that count as inside may be. *)
Lemma inside_near : forall e q tol, 0 < tol -> normal_form e ->
  match e with EPlane _ | EBall _ => True | EDisk _ => True | _ => False end -> says_inside e q tol = Some true -> close_to tol e q.
Proof.
  intros e q tol T N P H. apply inside_exact in H; auto.
  assert (F : forall o n : pt, is_unit n -> Rabs (pdot (psub q o) n) < tol ->
    dist q (psub q (pscale (pdot (psub q o) n) n)) <= tol).
  { intros o n U L. unfold dist. replace (psub q (psub q (pscale (pdot (psub q o) n) n))) with (pscale (pdot (psub q o) n) n)
      by (generalize (pdot (psub q o) n); intros; vring). rewrite pnorm_scale, (is_unit_norm n U). lra. }
  assert (G : forall o n : pt, is_unit n -> on_plane (Plane o n) (psub q (pscale (pdot (psub q o) n) n))).
  { intros o n U. unfold on_plane. cbn [porigin pnormal].
    replace (psub (psub q (pscale (pdot (psub q o) n) n)) o) with (psub (psub q o) (pscale (pdot (psub q o) n) n))
      by (generalize (pdot (psub q o) n); intros; vring).
    rewrite pdot_sub_l, pdot_scale_l. unfold is_unit in U. rewrite U. ring. }
  destruct e as [|x|l|r|p|s|t|d|b]; cbn [counts_inside normal_form] in *; try contradiction.
  - destruct p as [o n]. cbn [porigin pnormal] in *. exists (psub q (pscale (pdot (psub q o) n) n)). split; [now apply G|now apply F].
  - destruct d as [rd [o n]]. cbn [dplane dradius porigin pnormal] in *. destruct H as [H1 H2].
    exists (psub q (pscale (pdot (psub q o) n) n)). split; [|now apply F]. split; [now apply G|]. cbn [dplane dradius porigin pnormal].
    eapply Rle_trans; [|exact H2]. unfold dist, pnorm. apply sqrt_le_1_alt.
    replace (psub (psub q (pscale (pdot (psub q o) n) n)) o) with (psub (psub q o) (pscale (pdot (psub q o) n) n))
      by (generalize (pdot (psub q o) n); intros; vring).
    set (w := psub q o). rewrite !pdot_sub_l, !pdot_sub_r, !pdot_scale_l, !pdot_scale_r, (pdot_comm n w). unfold is_unit in N. rewrite N.
    pose proof (Rle_0_sqr (pdot w n)) as Z. unfold Rsqr in Z. lra.
  - exists q. split; [exact H|]. rewrite dist_same. lra.
Qed.
(** Points that count as inside a segment fill an ellipsoid. *)
Lemma half_root : forall L tol x, 0 <= L -> 0 < tol -> 0 <= x -> 4 * (x * x) <= tol * (2 * L + tol) -> x <= sqrt (tol * (2 * L + tol)) / 2.
Proof.
  intros L tol x HL HT X H. assert (2 * x <= sqrt (tol * (2 * L + tol))); [|lra].
  rewrite <- (sqrt_square (2 * x)) by lra. apply sqrt_le_1_alt. lra.
Qed.
Lemma beyond_end : forall L tol d1 d2, 0 <= L -> 0 < tol -> 0 <= d1 -> 0 <= d2 -> d1 + d2 <= L + tol ->
  d1 * d1 + L * L <= d2 * d2 -> 4 * (d1 * d1) <= tol * (2 * L + tol).
Proof.
  intros L tol d1 d2 HL HT H1 H2 S Q.
  assert (A : d1 * d1 + L * L <= (L + tol - d1) * (L + tol - d1)) by nra.
  assert (B : 2 * d1 * (L + tol) <= tol * (2 * L + tol)) by nra.
  set (Z := tol * (2 * L + tol)) in *. assert (C : Z <= (L + tol) * (L + tol)) by (unfold Z; nra). nra.
Qed.
Lemma inside_segment_near : forall s q tol, 0 < tol -> says_inside (ESegment s) q tol = Some true ->
  close_to (sqrt (tol * (2 * dist (sv0 s) (sv1 s) + tol)) / 2) (ESegment s) q.
Proof.
  intros s q tol T H. apply inside_exact in H; [|exact T|exact I]. cbn [counts_inside] in H.
  set (a := sv0 s) in *. set (b := sv1 s) in *. set (d := psub b a). set (w := psub q a).
  assert (L2 : dist a b * dist a b = pdot d d) by (unfold dist; rewrite pnorm_sq; unfold d; vringd).
  assert (D1 : dist q a * dist q a = pdot w w) by (unfold dist; now rewrite pnorm_sq).
  assert (D2 : dist q b * dist q b = pdot w w - 2 * pdot w d + pdot d d).
  { unfold dist. rewrite pnorm_sq. unfold w, d. vringd. }
  pose proof (pnorm_nonneg (psub a b)) as PL. pose proof (pnorm_nonneg (psub q a)) as P1. pose proof (pnorm_nonneg (psub q b)) as P2.
  fold (dist a b) in PL. fold (dist q a) in P1. fold (dist q b) in P2.
  destruct (Rle_lt_dec (pdot w d) 0) as [C0|C0].
  { exists a. split; [exists 0; split; [lra|fold a; vring]|]. apply half_root; auto.
    apply beyond_end with (dist q b); auto. rewrite D1, D2, L2. lra. }
  destruct (Rle_lt_dec (pdot d d) (pdot w d)) as [C1|C1].
  { exists b. split; [exists 1; split; [lra|fold a b; vring]|]. apply half_root; auto.
    apply beyond_end with (dist q a); auto; [lra|]. rewrite D1, D2, L2. lra. }
  assert (PD : 0 < pdot d d) by lra. set (t := pdot w d / pdot d d).
  assert (TE : t * pdot d d = pdot w d) by (unfold t; field; lra).
  assert (T0 : 0 < t) by (unfold t; apply Rdiv_lt_0_compat; lra).
  assert (T1 : t < 1) by (apply Rmult_lt_reg_r with (pdot d d); lra).
  exists (padd a (pscale t d)). split; [exists t; split; [lra|reflexivity]|]. apply half_root; auto; [apply pnorm_nonneg|].
  assert (HH : dist q (padd a (pscale t d)) * dist q (padd a (pscale t d)) = pdot w w - t * pdot w d).
  { unfold dist. rewrite pnorm_sq. replace (psub q (padd a (pscale t d))) with (psub w (pscale t d)) by (unfold w; vring).
    rewrite !pdot_sub_l, !pdot_sub_r, !pdot_scale_l, !pdot_scale_r, (pdot_comm d w), TE. ring. }
  set (h := dist q (padd a (pscale t d))) in *. set (L := dist a b) in *.
  assert (E1 : dist q a * dist q a = h * h + (t * L) * (t * L)).
  { rewrite D1, HH, <- TE. replace (t * L * (t * L)) with (t * t * (L * L)) by ring. rewrite L2. ring. }
  assert (E2 : dist q b * dist q b = h * h + ((1 - t) * L) * ((1 - t) * L)).
  { rewrite D2, HH, <- TE. replace ((1 - t) * L * ((1 - t) * L)) with ((1 - t) * (1 - t) * (L * L)) by ring. rewrite L2. ring. }
  set (d1 := dist q a) in *. set (d2 := dist q b) in *. set (x := t * L) in *. set (y := (1 - t) * L) in *.
  assert (XY : x + y = L) by (unfold x, y; ring).
  assert (X0 : 0 <= x) by (unfold x; apply Rmult_le_pos; lra). assert (Y0 : 0 <= y) by (unfold y; apply Rmult_le_pos; lra).
  assert (M : h * h + x * y <= d1 * d2).
  { apply Rsqr_incr_0; [|nra|nra]. unfold Rsqr. replace (d1 * d2 * (d1 * d2)) with ((d1 * d1) * (d2 * d2)) by ring. rewrite E1, E2.
    assert (0 <= (h * (x - y)) * (h * (x - y))) by apply Rle_0_sqr. nra. }
  assert (S : (d1 + d2) * (d1 + d2) <= (L + tol) * (L + tol)) by (apply Rmult_le_compat; lra).
  nra.
Qed.
(** A triangle without area. *)
Lemma flat_triangle_outside : forall t q tol, tri_across t = V 0 0 0 -> tri_is_inside (ftri t) (fv q) (Fin tol) = false.
Proof.
  intros t q tol Z. unfold tri_is_inside, tri_barycentric, ftri. cbn [tv0 tv1 tv2]. push.
  set (e1 := psub (tv1 t) (tv0 t)). set (e2 := psub (tv2 t) (tv0 t)). set (w := psub q (tv0 t)).
  assert (C : pcross e1 e2 = V 0 0 0) by exact Z.
  assert (D : pdot e1 e1 * pdot e2 e2 - pdot e1 e2 * pdot e1 e2 = 0).
  { rewrite <- pcross_sq, C. vunf. ring. }
  assert (N : pdot e2 e2 * pdot w e1 - pdot e1 e2 * pdot w e2 = 0).
  { transitivity (pdot w (pcross e2 (pcross e1 e2))); [rewrite pcross_pcross, pdot_sub_r, !pdot_scale_r, (pdot_comm e2 e1); ring|].
    rewrite C. vunf. ring. }
  rewrite D, N. assert (Q : ndiv (Fin 0) (Fin 0) = (Nan : er)).
  { cbn. unfold ediv. destruct (reqb 0 0) eqn:E; [reflexivity|]. apply reqb_false in E. now contradiction E. }
  rewrite Q. cbn. reflexivity.
Qed.

(** ** Angles, distances, boxes. *)
Lemma pnorm_mult_pos : forall a b, a <> V 0 0 0 -> b <> V 0 0 0 -> 0 < pnorm a * pnorm b.
Proof.
  intros a b A B. apply Rmult_lt_0_compat.
  - destruct (pnorm_nonneg a) as [P|P]; [exact P|]. symmetry in P. apply norm_zero_vec in P. contradiction.
  - destruct (pnorm_nonneg b) as [P|P]; [exact P|]. symmetry in P. apply norm_zero_vec in P. contradiction.
Qed.
Lemma dot_bound : forall a b, Rabs (pdot a b) <= pnorm a * pnorm b.
Proof.
  intros a b. pose proof (cauchy_schwarz a b) as C. rewrite <- !pnorm_sq in C.
  assert (P : 0 <= pnorm a * pnorm b) by (apply Rmult_le_pos; apply pnorm_nonneg).
  apply Rsqr_incr_0_var; [|exact P]. rewrite <- Rsqr_abs. unfold Rsqr. lra.
Qed.
Lemma angle_value : forall a b, a <> V 0 0 0 -> b <> V 0 0 0 -> exists x, vangle (fv a) (fv b) = Fin x /\ 0 <= x <= PI /\
  pdot a b = pnorm a * pnorm b * cos x.
Proof.
  intros a b A B. pose proof (pnorm_mult_pos a b A B) as P. pose proof (dot_bound a b) as C.
  assert (D : -1 <= pdot a b / (pnorm a * pnorm b) <= 1).
  { assert (Rabs (pdot a b / (pnorm a * pnorm b)) <= 1).
    - unfold Rdiv. rewrite Rabs_mult, (Rabs_pos_eq (/ _)) by (apply Rlt_le, Rinv_0_lt_compat, P).
      apply Rmult_le_reg_r with (pnorm a * pnorm b); [exact P|]. rewrite Rmult_assoc, Rinv_l by lra. lra.
    - pose proof (Rle_abs (pdot a b / (pnorm a * pnorm b))). pose proof (Rle_abs (- (pdot a b / (pnorm a * pnorm b)))) as Q. rewrite Rabs_Ropp in Q. lra. }
  exists (acos (pdot a b / (pnorm a * pnorm b))). split; [|split].
  - unfold vangle. push. rewrite e_ndiv by lra. cbn [nacos ER_Num]. unfold eacos.
    destruct (_ && _) eqn:E; [reflexivity|].
    exfalso. apply andb_false_iff in E. destruct E; rb; lra.
  - split; apply acos_bound.
  - rewrite cos_acos by exact D. field. split; intros Z; rewrite Z in P; lra.
Qed.
Lemma angle_null : forall a b, a = V 0 0 0 \/ b = V 0 0 0 -> vangle (fv a) (fv b) = Nan.
Proof.
  intros a b H. unfold vangle. push.
  assert (N : pdot a b = 0) by (destruct H; subst; vunf; ring).
  assert (M : pnorm a * pnorm b = 0) by (destruct H; subst; rewrite pnorm_zero; ring).
  rewrite N, M. assert (Q : ndiv (Fin 0) (Fin 0) = (Nan : er)).
  { cbn. destruct (reqb 0 0) eqn:E; [reflexivity|]. apply reqb_false in E. now contradiction E. }
  rewrite Q. reflexivity.
Qed.
Lemma plane_nearest : forall p q, is_unit (pnormal p) ->
  let s := pdot (psub q (porigin p)) (pnormal p) in
  signed_distance (fplane p) (fv q) = Fin s /\ plane_distance (fplane p) (fv q) = Fin (Rabs s) /\
  plane_squared_distance (fplane p) (fv q) = Fin (Rabs s * Rabs s) /\
  (exists x, on_plane p x /\ dist q x = Rabs s /\ q = padd x (pscale s (pnormal p))) /\
  (forall x, on_plane p x -> Rabs s <= dist q x).
Proof.
  intros p q U s. unfold plane_squared_distance, plane_distance. rewrite f_signed_distance. fold s. push.
  repeat match goal with |- _ /\ _ => split end; try reflexivity.
  - f_equal. rewrite <- Rabs_mult, Rabs_pos_eq; [reflexivity|]. pose proof (Rle_0_sqr s) as Z. exact Z.
  - exists (psub q (pscale s (pnormal p))). split; [|split].
    + unfold on_plane. replace (psub (psub q (pscale s (pnormal p))) (porigin p)) with (psub (psub q (porigin p)) (pscale s (pnormal p))) by vring.
      rewrite pdot_sub_l, pdot_scale_l. fold s. unfold is_unit in U. rewrite U. ring.
    + unfold dist. replace (psub q (psub q (pscale s (pnormal p)))) with (pscale s (pnormal p)) by vring.
      rewrite pnorm_scale, (is_unit_norm _ U). ring.
    + vring.
  - intros x X. unfold on_plane in X.
    replace s with (pdot (psub q x) (pnormal p)).
    + eapply Rle_trans; [apply dot_bound|]. rewrite (is_unit_norm _ U), Rmult_1_r. apply Rle_refl.
    + unfold s. replace (psub q (porigin p)) with (padd (psub q x) (psub x (porigin p))) by vring. rewrite pdot_add_l, X. ring.
Qed.
Lemma box_moved : forall lo hi i v q,
  aabb_is_inside (aabb_translate (fbox lo hi i) (fv v)) (fv (padd q v)) = aabb_is_inside (fbox lo hi i) (fv q) /\
  bid (aabb_translate (fbox lo hi i) (fv v)) = i.
Proof.
  intros lo hi i v q. split; [|reflexivity]. unfold aabb_translate, aabb_is_inside, fbox. cbn [bmin bmax]. rewrite !f_add.
  unfold fv, padd. cbn [vx vy vz]. push.
  assert (E : forall a b c, rleb (a + b) (c + a) = rleb b c).
  { intros a b c. destruct (rleb b c) eqn:E; rb; [apply rleb_true|apply rleb_false]; lra. }
  assert (E' : forall a b c, rleb (c + a) (a + b) = rleb c b).
  { intros a b c. destruct (rleb c b) eqn:E1; rb; [apply rleb_true|apply rleb_false]; lra. }
  now rewrite !E, !E'.
Qed.
Lemma box_degenerated : forall lo hi i tol, 0 <= tol ->
  (aabb_is_degenerated (fbox lo hi i) (Fin tol) = true <-> agree tol lo hi /\ within lo hi lo).
Proof.
  intros lo hi i tol T. unfold aabb_is_degenerated, check_max_min, fbox, within. cbn [bmin bmax].
  rewrite !andb_true_iff, f_vis by exact T. unfold fv. cbn [vx vy vz]. push. rewrite !rleb_true.
  split; intros H; repeat split; try tauto; try lra.
Qed.
