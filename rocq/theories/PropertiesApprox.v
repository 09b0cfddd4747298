(** * C110 to C113: approximate equality, degenerate entities, membership,
    angles and distances. *)
From Coq Require Import ZArith Bool List Reals Lra Lia.
From Verif Require Import Base Num Vec Aabb Geom Acme AcmeEntity Ground Shape Rib ER F64 SampleMesh SpecGeom SpecAcme SpecEntity
  SpecRib SpecShape SpecApprox ProofGeom ProofInt ProofAcme ProofCross ProofEntity ProofPred ProofApprox.
Import ListNotations.
Local Open Scope R_scope.

(** ** C110 [isApprox] is an approximate equality. *)
Theorem C110_points : forall tol a b, 0 <= tol -> (vis_approx (fv a) (fv b) (Fin tol) = true <-> agree tol a b).
Proof. intros tol a b T. exact (f_vis a b tol T). Qed.
Print Assumptions C110_points.
Theorem C110_entities : forall tol, 0 <= tol ->
  (forall a b, line_is_approx (fline a) (fline b) (Fin tol) = true <->
     agree tol (lorigin a) (lorigin b) /\ agree tol (ldir a) (ldir b)) /\
  (forall a b, ray_is_approx (fray a) (fray b) (Fin tol) = true <->
     agree tol (ry_origin a) (ry_origin b) /\ agree tol (ry_dir a) (ry_dir b)) /\
  (forall a b, plane_is_approx (fplane a) (fplane b) (Fin tol) = true <->
     agree tol (porigin a) (porigin b) /\ agree tol (pnormal a) (pnormal b)) /\
  (forall a b, seg_is_approx (fseg a) (fseg b) (Fin tol) = true <->
     agree tol (sv0 a) (sv0 b) /\ agree tol (sv1 a) (sv1 b)) /\
  (forall a b, tri_is_approx (ftri a) (ftri b) (Fin tol) = true <->
     agree tol (tv0 a) (tv0 b) /\ agree tol (tv1 a) (tv1 b) /\ agree tol (tv2 a) (tv2 b)) /\
  (forall a b, disk_is_approx (fdisk a) (fdisk b) (Fin tol) = true <->
     agree1 tol (dradius a) (dradius b) /\ agree tol (porigin (dplane a)) (porigin (dplane b)) /\
     agree tol (pnormal (dplane a)) (pnormal (dplane b))) /\
  (forall a b, ball_is_approx (fball a) (fball b) (Fin tol) = true <->
     agree1 tol (bl_radius a) (bl_radius b) /\ agree tol (bl_center a) (bl_center b)) /\
  (forall lo hi lo' hi' i i', aabb_is_approx (fbox lo hi i) (fbox lo' hi' i') (Fin tol) = true <->
     agree tol lo lo' /\ agree tol hi hi').
Proof. exact approx_acme. Qed.
Print Assumptions C110_entities.
(** Shapes and ribs use the caller's tolerance; a flat ground and a ground
    triangle use it for the friction only. *)
Theorem C110_grounds : forall tol, 0 <= tol ->
  (forall a b, shape_is_approx (fshape a) (fshape b) (Fin tol) = true <->
     agree1 tol (sRx a) (sRx b) /\ agree1 tol (sMx a) (sMx b) /\ agree1 tol (sRy a) (sRy b) /\
     agree1 tol (sMy a) (sMy b) /\ agree1 tol (sLy a) (sLy b)) /\
  (forall a b, rib_is_approx (frib a) (frib b) (Fin tol) = true <->
     agree1 tol (dradius (rb_disk a)) (dradius (rb_disk b)) /\
     agree tol (porigin (dplane (rb_disk a))) (porigin (dplane (rb_disk b))) /\
     agree tol (pnormal (dplane (rb_disk a))) (pnormal (dplane (rb_disk b))) /\
     agree1 tol (IZR (rb_id a)) (IZR (rb_id b)) /\ agree1 tol (rb_y a) (rb_y b) /\
     agree1 tol (rb_width a) (rb_width b) /\ agree1 tol (rb_angle a) (rb_angle b)) /\
  (forall p f p' f', flat_is_approx (fflat p f) (fflat p' f') (Fin tol) = true <->
     agree eps (porigin p) (porigin p') /\ agree eps (pnormal p) (pnormal p') /\ agree1 tol f f') /\
  (forall g t f g' t' f', ground_of g t f -> ground_of g' t' f' ->
     (tg_is_approx g g' (Fin tol) = true <->
      agree eps (tv0 t) (tv0 t') /\ agree eps (tv1 t) (tv1 t') /\ agree eps (tv2 t) (tv2 t') /\ agree1 tol f f')).
Proof. exact approx_enve. Qed.
Print Assumptions C110_grounds.
(** It is reflexive for a positive tolerance and symmetric; for points a null
    tolerance will do. *)
Theorem C110_reflexive_symmetric : forall tol, 0 < tol ->
  (forall a, agree tol a a) /\ (forall a b, agree tol a b <-> agree tol b a) /\
  (forall x, agree1 tol x x) /\ (forall x y, agree1 tol x y <-> agree1 tol y x) /\
  (forall a, agree 0 a a) /\ (forall x, ~ agree1 0 x x).
Proof.
  intros tol T. split; [intros a; apply agree_refl; lra|]. split; [apply agree_sym|]. split; [intros x; now apply agree1_refl|].
  split; [apply agree1_sym|]. split; [intros a; apply agree_refl; lra|].
  intros x H. unfold agree1 in H. pose proof (Rabs_pos (x - x)). lra.
Qed.
Print Assumptions C110_reflexive_symmetric.
(** The tolerance is relative to the distance from the origin of the world:
    the origin agrees with no other point, however close. *)
Theorem C110_origin_refuted : forall tol b, 0 <= tol -> b <> V 0 0 0 -> vis_approx (fv (V 0 0 0)) (fv b) (Fin tol) = false.
Proof.
  intros tol b T N. destruct (vis_approx _ _ _) eqn:E; [|reflexivity]. apply f_vis in E; [|exact T]. apply agree_origin in E. contradiction.
Qed.
Print Assumptions C110_origin_refuted.
(** So moving both objects in the same way changes the answer. *)
Theorem C110_moved_refuted : exists a b v tol, 0 < tol /\
  tri_is_approx (ftri a) (ftri b) (Fin tol) = true /\
  tri_is_approx (tri_translate (fv v) (ftri a)) (tri_translate (fv v) (ftri b)) (Fin tol) = false.
Proof.
  exists (Triangle (V 1 0 0) (V 2 0 0) (V 1 1 0)), (Triangle (V (11 / 10) 0 0) (V 2 0 0) (V 1 1 0)), (V (-1) 0 0), (1 / 10).
  split; [lra|]. destruct (approx_acme (1 / 10)) as (_ & _ & _ & _ & H & _); [lra|]. split.
  - apply H. cbn [tv0 tv1 tv2]. split; [|split; apply agree_refl; lra].
    unfold agree, dist, pnorm. vunf. replace (sqrt _) with (1 / 10).
    + replace (1 * 1 + 0 * 0 + 0 * 0) with (1 * 1) by ring. replace (11 / 10 * (11 / 10) + 0 * 0 + 0 * 0) with (11 / 10 * (11 / 10)) by ring.
      rewrite !sqrt_square by lra. rewrite Rmin_left by lra. lra.
    + symmetry. replace (_ + _) with (1 / 10 * (1 / 10)) by lra. apply sqrt_square. lra.
  - destruct (tri_is_approx _ _ _) eqn:E; [exfalso|reflexivity].
    assert (M : forall t, tri_translate (fv (V (-1) 0 0)) (ftri t) =
      ftri (Triangle (padd (V (-1) 0 0) (tv0 t)) (padd (V (-1) 0 0) (tv1 t)) (padd (V (-1) 0 0) (tv2 t)))).
    { intros t. unfold tri_translate, ftri. cbn [tv0 tv1 tv2]. now rewrite !f_add. }
    rewrite !M in E. apply H in E. cbn [tv0 tv1 tv2] in E. destruct E as [E _].
    replace (padd (V (-1) 0 0) (V 1 0 0)) with (V 0 0 0) in E by (apply vec_eq; vunf; lra).
    apply agree_origin in E. apply (f_equal vx) in E. vunf. lra.
Qed.
Print Assumptions C110_moved_refuted.
(** With a null tolerance a disk is not approximately equal to itself, while a
    plane is. *)
Theorem C110_zero_tolerance_refuted : forall d p,
  disk_is_approx (fdisk d) (fdisk d) (Fin 0) = false /\ plane_is_approx (fplane p) (fplane p) (Fin 0) = true.
Proof.
  intros d p. destruct (approx_acme 0 (Rle_refl 0)) as (_ & _ & HP & _ & _ & HD & _). split.
  - destruct (disk_is_approx _ _ _) eqn:E; [|reflexivity]. apply HD in E. destruct E as [E _].
    unfold agree1 in E. pose proof (Rabs_pos (dradius d - dradius d)). lra.
  - apply HP. split; apply agree_refl; lra.
Qed.
Print Assumptions C110_zero_tolerance_refuted.
(** The tolerance given to a ground has no effect on the geometry: planes that
    agree within the tolerance are told apart, and planes that do not agree
    within it are taken as equal. *)
Theorem C110_ground_tolerance_refuted :
  (exists p p' f tol, 0 < tol /\ plane_is_approx (fplane p) (fplane p') (Fin tol) = true /\
     flat_is_approx (fflat p f) (fflat p' f) (Fin tol) = false) /\
  (exists p p' f tol, 0 < tol /\ plane_is_approx (fplane p) (fplane p') (Fin tol) = false /\
     flat_is_approx (fflat p f) (fflat p' f) (Fin tol) = true).
Proof.
  assert (A : forall k tol, 0 <= k -> 0 <= tol -> (agree tol (V 1 0 0) (V (1 + k) 0 0) <-> k <= tol)).
  { intros k tol K T. unfold agree, dist, pnorm. vunf.
    replace ((1 - (1 + k)) * (1 - (1 + k)) + (0 - 0) * (0 - 0) + (0 - 0) * (0 - 0)) with (k * k) by ring.
    replace (1 * 1 + 0 * 0 + 0 * 0) with (1 * 1) by ring. replace ((1 + k) * (1 + k) + 0 * 0 + 0 * 0) with ((1 + k) * (1 + k)) by ring.
    rewrite !sqrt_square by lra. rewrite Rmin_left by lra. lra. }
  pose proof eps_pos as E0. pose proof eps_lt1 as E1. split.
  - exists (Plane (V 1 0 0) (V 0 0 1)), (Plane (V (1 + 2 * eps) 0 0) (V 0 0 1)), 1, (3 * eps). split; [lra|]. split.
    + destruct (approx_acme (3 * eps)) as (_ & _ & H & _); [lra|]. apply H. cbn [porigin pnormal]. split; [apply A; lra|apply agree_refl; lra].
    + destruct (flat_is_approx _ _ _) eqn:E; [exfalso|reflexivity]. destruct (approx_enve (3 * eps)) as (_ & _ & H & _); [lra|]. apply H in E. cbn [porigin pnormal] in E.
      destruct E as [E _]. apply (A (2 * eps) eps) in E; [lra|lra|lra].
  - exists (Plane (V 1 0 0) (V 0 0 1)), (Plane (V (1 + eps) 0 0) (V 0 0 1)), 1, (eps / 2). split; [lra|]. split.
    + destruct (plane_is_approx _ _ _) eqn:E; [exfalso|reflexivity]. destruct (approx_acme (eps / 2)) as (_ & _ & H & _); [lra|]. apply H in E. cbn [porigin pnormal] in E.
      destruct E as [E _]. apply (A eps (eps / 2)) in E; lra.
    + destruct (approx_enve (eps / 2)) as (_ & _ & H & _); [lra|]. apply H. cbn [porigin pnormal]. split; [apply A; lra|]. split; [apply agree_refl; lra|]. apply agree1_refl. lra.
Qed.
Print Assumptions C110_ground_tolerance_refuted.
(** Rib numbers are compared as measures: with a tolerance above 1 two ribs of
    different number agree. *)
Theorem C110_rib_number_refuted : forall r n, rb_id r = 0%Z -> 
  let r' := Rib (rb_disk r) 1 (rb_y r) (rb_width r) (rb_angle r) in
  (1 < n -> rib_is_approx (frib r) (frib r') (Fin n) = true) /\ (0 <= n <= 1 -> rib_is_approx (frib r) (frib r') (Fin n) = false).
Proof.
  intros r n Z r'. split; intros N; (destruct (approx_enve n) as (_ & H & _); [lra|]).
  - apply H. unfold r'. cbn [rb_disk rb_id rb_y rb_width rb_angle]. rewrite Z.
    split; [apply agree1_refl; lra|]. split; [apply agree_refl; lra|]. split; [apply agree_refl; lra|].
    split; [unfold agree1; rewrite Rabs_left1; lra|]. repeat split; apply agree1_refl; lra.
  - destruct (rib_is_approx _ _ _) eqn:E; [exfalso|reflexivity]. apply H in E. unfold r' in E.
    cbn [rb_disk rb_id rb_y rb_width rb_angle] in E. rewrite Z in E. destruct E as (_ & _ & _ & E & _). unfold agree1 in E.
    rewrite Rabs_left1 in E by lra. lra.
Qed.
Print Assumptions C110_rib_number_refuted.
Example C110_example : agree (1 / 2) (V 1 0 0) (V (3 / 2) 0 0) /\ ~ agree (1 / 4) (V 1 0 0) (V (3 / 2) 0 0) /\
  agree1 (1 / 2) 1 (5 / 4) /\ exists g, mk_tground 3 (Fin 1) (fv (V 0 0 0)) (fv (V 1 0 0)) (fv (V 0 1 0)) = Ret g /\
    ground_of g (Triangle (V 0 0 0) (V 1 0 0) (V 0 1 0)) 1.
Proof.
  assert (A : forall tol, agree tol (V 1 0 0) (V (3 / 2) 0 0) <-> 1 / 2 <= tol).
  { intros tol. unfold agree, dist, pnorm. vunf.
    replace ((1 - 3 / 2) * (1 - 3 / 2) + (0 - 0) * (0 - 0) + (0 - 0) * (0 - 0)) with (1 / 2 * (1 / 2)) by lra.
    replace (1 * 1 + 0 * 0 + 0 * 0) with (1 * 1) by ring. replace (3 / 2 * (3 / 2) + 0 * 0 + 0 * 0) with (3 / 2 * (3 / 2)) by ring.
    rewrite !sqrt_square by lra. rewrite Rmin_left by lra. lra. }
  split; [apply A; lra|]. split; [intros H; apply A in H; lra|]. split; [unfold agree1; rewrite Rabs_left1; lra|].
  unfold mk_tground. replace (nle (nofZ 0) (Fin 1)) with true by (symmetry; apply rleb_true; lra).
  eexists. split; [reflexivity|split; reflexivity].
Qed.

(** ** C111 [isDegenerated] finds the entities without extent. *)
Theorem C111_thin : forall e tol, ent_is_degenerated (fent e) (Fin tol) = true <-> thin tol e.
Proof. exact degenerated_thin. Qed.
Print Assumptions C111_thin.
(** Whatever is not a point but has just one point is degenerate. *)
Theorem C111_one_point : forall e tol, 0 < tol -> one_point e -> match e with EPoint _ => False | _ => True end ->
  ent_is_degenerated (fent e) (Fin tol) = true.
Proof. intros e tol T O N. apply degenerated_thin. exact (one_point_thin e tol T O N). Qed.
Print Assumptions C111_one_point.
(** A triangle without area whose corners are apart is not found. *)
Theorem C111_flat_triangle_refuted : exists t, (forall q, in_triangle t q <-> in_segment (Segment (tv0 t) (tv2 t)) q) /\
  tri_across t = V 0 0 0 /\ forall tol, tol <= 1 -> ent_is_degenerated (fent (ETriangle t)) (Fin tol) = false.
Proof.
  exists (Triangle (V 0 0 0) (V 1 0 0) (V 2 0 0)). split; [|split].
  - intros q. cbn [tv0 tv2]. split.
    + intros (a & b & c & A & B & C & S & ->). exists (b / 2 + c). split; [lra|]. apply vec_eq; vunf; lra.
    + intros (k & K & ->). exists (1 - k), 0, k. repeat (split; [lra|]). apply vec_eq; vunf; lra.
  - unfold tri_across. apply vec_eq; vunf; lra.
  - intros tol T. destruct (ent_is_degenerated _ _) eqn:E; [exfalso|reflexivity]. apply degenerated_thin in E. cbn [thin tv0 tv1 tv2] in E.
    assert (D : forall x y, dist (V x 0 0) (V y 0 0) = Rabs (x - y)).
    { intros x y. unfold dist, pnorm. vunf. replace (_ + _ + _) with ((x - y) * (x - y)) by ring. apply sqrt_Rsqr_abs. }
    rewrite !D in E. rewrite (Rabs_left1 (0 - 1)), (Rabs_left1 (1 - 2)), (Rabs_pos_eq (2 - 0)) in E by lra. lra.
Qed.
Print Assumptions C111_flat_triangle_refuted.
(** A box: its corners agree in the sense of C110 and are in order. *)
Theorem C111_box : forall lo hi i tol, 0 <= tol ->
  (aabb_is_degenerated (fbox lo hi i) (Fin tol) = true <-> agree tol lo hi /\ within lo hi lo).
Proof. exact box_degenerated. Qed.
Print Assumptions C111_box.
(** So a box without volume, a box smaller than the tolerance and an empty box
    are not found. *)
Theorem C111_box_refuted : forall i tol, 0 < tol < 1 ->
  aabb_is_degenerated (fbox (V 1 1 1) (V 3 3 1) i) (Fin tol) = false /\
  aabb_is_degenerated (fbox (V 0 0 0) (V (tol / 2) (tol / 2) (tol / 2)) i) (Fin tol) = false /\
  aabb_is_degenerated (fbox (V 1 0 0) (V 0 0 0) i) (Fin tol) = false.
Proof.
  intros i tol T. split; [|split]; destruct (aabb_is_degenerated _ _) eqn:E; try reflexivity; exfalso; apply box_degenerated in E; try lra;
    destruct E as [E W].
  - unfold agree, dist in E. assert (P : 0 <= pnorm (V 1 1 1)) by apply pnorm_nonneg.
    assert (N : pnorm (V 1 1 1) < 2) by (apply pnorm_lt; [lra|vunf; lra]).
    assert (M : 2 <= pnorm (psub (V 1 1 1) (V 3 3 1))).
    { unfold pnorm. rewrite <- (sqrt_square 2) at 1 by lra. apply sqrt_le_1_alt. vunf. lra. }
    pose proof (Rmin_l (pnorm (V 1 1 1)) (pnorm (V 3 3 1))). nra.
  - apply agree_origin in E. apply (f_equal vx) in E. vunf. lra.
  - unfold within in W. cbn [vx vy vz] in W. lra.
Qed.
Print Assumptions C111_box_refuted.
Example C111_example : thin (1 / 2) (EBall (Ball (1 / 4) (V 1 2 3))) /\ ~ thin (1 / 2) (EBall (Ball 1 (V 1 2 3))) /\
  one_point (ESegment (Segment (V 1 2 3) (V 1 2 3))) /\
  aabb_is_degenerated (fbox (V 1 1 1) (V 1 1 1) 0) (Fin 0) = true.
Proof.
  cbn [thin bl_radius]. rewrite !Rabs_pos_eq by lra. split; [lra|]. split; [lra|]. split.
  - exists (V 1 2 3). intros q. cbn [in_entity]. split.
    + intros (k & K & ->). apply vec_eq; vunf; lra.
    + intros ->. exists 0. split; [lra|]. apply vec_eq; vunf; lra.
  - apply box_degenerated; [lra|]. split; [apply agree_refl; lra|]. unfold within. cbn [vx vy vz]. lra.
Qed.

(** ** C112 [isInside] recognises the points of an entity. *)
Theorem C112_exact : forall e q tol, 0 < tol -> normal_form e ->
  (says_inside e q tol = Some true <-> counts_inside tol e q).
Proof. exact inside_exact. Qed.
Print Assumptions C112_exact.
(** No point of the entity is refused. *)
Theorem C112_complete : forall e q tol, 0 < tol -> normal_form e -> match e with EPoint _ => False | _ => True end ->
  in_entity e q -> says_inside e q tol = Some true.
Proof. exact inside_complete. Qed.
Print Assumptions C112_complete.
(** What is accepted by a plane, a disk or a ball is within the tolerance of it. *)
Theorem C112_near : forall e q tol, 0 < tol -> normal_form e ->
  match e with EPlane _ | EBall _ => True | EDisk _ => True | _ => False end -> says_inside e q tol = Some true -> close_to tol e q.
Proof. exact inside_near. Qed.
Print Assumptions C112_near.
(** What is accepted by a segment of length [L] is within
    [sqrt (tol * (2 * L + tol)) / 2] of it. *)
Theorem C112_segment_near : forall s q tol, 0 < tol -> says_inside (ESegment s) q tol = Some true ->
  close_to (sqrt (tol * (2 * dist (sv0 s) (sv1 s) + tol)) / 2) (ESegment s) q.
Proof. exact inside_segment_near. Qed.
Print Assumptions C112_segment_near.
(** It can be farther than the tolerance. *)
Theorem C112_segment_refuted : exists s q tol, 0 < tol /\ says_inside (ESegment s) q tol = Some true /\ ~ close_to tol (ESegment s) q.
Proof.
  exists (Segment (V (-1) 0 0) (V 1 0 0)), (V 0 (1 / 10) 0), (1 / 50). split; [lra|]. split.
  - apply inside_exact; [lra|exact I|]. cbn [counts_inside sv0 sv1].
    assert (A : dist (V 0 (1 / 10) 0) (V (-1) 0 0) <= 101 / 100) by (apply pnorm_le; [lra|vunf; lra]).
    assert (B : dist (V 0 (1 / 10) 0) (V 1 0 0) <= 101 / 100) by (apply pnorm_le; [lra|vunf; lra]).
    assert (C : dist (V (-1) 0 0) (V 1 0 0) = 2) by (apply pnorm_eq; [lra|vunf; lra]). lra.
  - intros (x & (k & K & ->) & D). apply pnorm_le in D; [|lra]. vunf.
    pose proof (Rle_0_sqr (0 - (-1 + k * (1 - -1)))) as Z. unfold Rsqr in Z. lra.
Qed.
Print Assumptions C112_segment_refuted.
(** A line accepts points at any distance from it, and so does a ray. *)
Theorem C112_line_refuted : forall tol far, 0 < tol -> 0 < far -> exists q,
  (forall x, on_line (Line (V 0 0 0) (V 1 0 0)) x -> far <= dist q x) /\
  says_inside (ELine (Line (V 0 0 0) (V 1 0 0))) q tol = Some true /\
  says_inside (ERay (Ray (V 0 0 0) (V 1 0 0))) q tol = Some true.
Proof.
  intros tol far T F. set (q := V (2 * far / tol) far 0). exists q.
  assert (U : is_unit (V 1 0 0)) by (vunf; ring).
  assert (P : 0 < 2 * far / tol) by (apply Rdiv_lt_0_compat; lra).
  assert (C : in_cone tol (Line (V 0 0 0) (V 1 0 0)) q).
  { right. cbn [lorigin]. assert (D : dist q (foot (Line (V 0 0 0) (V 1 0 0)) q) = far).
    { apply pnorm_eq; [lra|]. unfold foot, q. set (z := 2 * far / tol). cbn [lorigin ldir]. vunf. field. }
    rewrite D. assert (G : 2 * far / tol <= dist q (V 0 0 0)).
    { unfold dist, pnorm. rewrite <- (sqrt_square (2 * far / tol)) by lra. apply sqrt_le_1_alt. unfold q. set (z := 2 * far / tol). vunf.
      pose proof (Rle_0_sqr far) as Z. unfold Rsqr in Z. nra. }
    apply Rmult_le_compat_l with (r := tol) in G; [|lra]. replace (tol * (2 * far / tol)) with (2 * far) in G by (field; lra). lra. }
  split; [|split].
  - intros x (k & ->). unfold dist, pnorm. rewrite <- (sqrt_square far) at 1 by lra. apply sqrt_le_1_alt. unfold q.
    set (z := 2 * far / tol). vunf. pose proof (Rle_0_sqr (z - (0 + k * 1))) as Z. unfold Rsqr in Z. nra.
  - apply inside_exact; auto.
  - apply inside_exact; auto. split; [exact C|]. cbn [ry_origin ry_dir]. unfold q. set (z := 2 * far / tol) in *. vunf. lra.
Qed.
Print Assumptions C112_line_refuted.
(** A triangle without area refuses every point, its corners included. *)
Theorem C112_flat_triangle_refuted : forall t q tol, tri_across t = V 0 0 0 -> says_inside (ETriangle t) q tol = Some false.
Proof. intros t q tol Z. cbn [says_inside]. f_equal. exact (flat_triangle_outside t q tol Z). Qed.
Print Assumptions C112_flat_triangle_refuted.
Example C112_example : normal_form (ETriangle (Triangle (V 0 0 0) (V 1 0 0) (V 0 1 0))) /\
  in_entity (ETriangle (Triangle (V 0 0 0) (V 1 0 0) (V 0 1 0))) (V (1 / 4) (1 / 4) 0) /\
  tri_across (Triangle (V 0 0 0) (V 1 0 0) (V 2 0 0)) = V 0 0 0 /\
  says_inside (EBall (Ball 1 (V 0 0 0))) (V 0 0 2) 5 = Some false.
Proof.
  split; [|split; [|split]].
  - cbn [normal_form]. intros E. apply (f_equal vz) in E. unfold tri_across in E. vunf. lra.
  - exists (1 / 2), (1 / 4), (1 / 4). repeat (split; [lra|]). apply vec_eq; vunf; lra.
  - unfold tri_across. apply vec_eq; vunf; lra.
  - destruct (says_inside _ _ _) as [[|]|] eqn:E; [exfalso| |]; [|reflexivity|discriminate].
    apply inside_exact in E; [|lra|exact I]. cbn [counts_inside] in E. unfold in_ball, dist in E. cbn [bl_center bl_radius] in E.
    apply pnorm_le in E; [|lra]. vunf. lra.
Qed.

(** ** C113 Angles between vectors, distances from a plane, moved boxes. *)
Theorem C113_angle : forall a b, a <> V 0 0 0 -> b <> V 0 0 0 -> exists x, vangle (fv a) (fv b) = Fin x /\ 0 <= x <= PI /\
  pdot a b = pnorm a * pnorm b * cos x.
Proof. exact angle_value. Qed.
Print Assumptions C113_angle.
Theorem C113_angle_null : forall a b, a = V 0 0 0 \/ b = V 0 0 0 -> vangle (fv a) (fv b) = Nan.
Proof. exact angle_null. Qed.
Print Assumptions C113_angle_null.
(** In double precision the argument of [acos] can exceed 1 for a vector and
    itself, so that the angle is not a number. *)
Theorem C113_angle_rounded_refuted : forall lm : libm, let N := F64_Num lm in exists a : vec3 f64,
  @nlt f64 N (fz 1) (@ndiv f64 N (@vdot f64 N a a) (@nmul f64 N (@vnorm f64 N a) (@vnorm f64 N a))) = true /\
  @vangle f64 N a a = @nacos f64 N (@ndiv f64 N (@vdot f64 N a a) (@nmul f64 N (@vnorm f64 N a) (@vnorm f64 N a))).
Proof. intros lm N. exists (V (fz 1) (fz 1) (fz 1)). split; [vm_compute; reflexivity|reflexivity]. Qed.
Print Assumptions C113_angle_rounded_refuted.
(** The three distances from a plane with unit normal. *)
Theorem C113_plane : forall p q, is_unit (pnormal p) ->
  let s := pdot (psub q (porigin p)) (pnormal p) in
  signed_distance (fplane p) (fv q) = Fin s /\ plane_distance (fplane p) (fv q) = Fin (Rabs s) /\
  plane_squared_distance (fplane p) (fv q) = Fin (Rabs s * Rabs s) /\
  (exists x, on_plane p x /\ dist q x = Rabs s /\ q = padd x (pscale s (pnormal p))) /\
  (forall x, on_plane p x -> Rabs s <= dist q x).
Proof. exact plane_nearest. Qed.
Print Assumptions C113_plane.
(** A translated box contains the translated points, and keeps its id. *)
Theorem C113_box : forall lo hi i v q,
  aabb_is_inside (aabb_translate (fbox lo hi i) (fv v)) (fv (padd q v)) = aabb_is_inside (fbox lo hi i) (fv q) /\
  bid (aabb_translate (fbox lo hi i) (fv v)) = i.
Proof. exact box_moved. Qed.
Print Assumptions C113_box.
Example C113_example : V 1 0 0 <> V 0 0 0 /\ is_unit (pnormal (Plane (V 1 2 3) (V 0 0 1))) /\
  on_plane (Plane (V 1 2 3) (V 0 0 1)) (V 7 8 3).
Proof.
  split; [intros E; apply (f_equal vx) in E; cbn in E; lra|]. split; [vunf; ring|]. unfold on_plane. vunf. ring.
Qed.
