(** * Properties of run-time typed entities and collections.  Geometric
    statements are about exact arithmetic (ER.v); the others hold for every
    number type. *)
From Coq Require Import ZArith Bool Reals Lra Lia Permutation List.
From Verif Require Import Base Num Vec Aabb Tree Geom Acme AcmeEntity ER SpecGeom SpecAcme SpecEntity SpecTree.
From Verif Require Import ProofGeom ProofInt ProofAcme ProofCross ProofEntity ProofPred ProofCollinear ProofCollection ProofDispatch.
Import ListNotations.
Local Open Scope R_scope.

(** ** C74 *)
Theorem C74_transform_rigid : forall a e, rigid a ->
  exists e', ent_transform (fa a) (fent e) = fent e' /\ level e' = level e /\ moved (place a) e e'.
Proof. exact transform_rigid. Qed.
Print Assumptions C74_transform_rigid.
(** Any affine map will do for points, lines, rays, segments, triangles. *)
Theorem C74_transform_straight : forall a e, straight e ->
  exists e', ent_transform (fa a) (fent e) = fent e' /\ level e' = level e /\ moved (place a) e e'.
Proof. exact transform_straight. Qed.
Print Assumptions C74_transform_straight.
Theorem C74_translate : forall v e,
  exists e', ent_translate (fv v) (fent e) = fent e' /\ level e' = level e /\ moved (fun q => padd q v) e e'.
Proof. exact translate_moves. Qed.
Print Assumptions C74_translate.
Theorem C74_rotate : forall angle u e, is_unit u ->
  exists e', ent_rotate (Fin angle) (fv u) (fent e) = fent e' /\ level e' = level e /\ moved (turn angle u) e e'.
Proof. exact rotate_moves. Qed.
Print Assumptions C74_rotate.
(** A stretch along x does not keep the points of the plane x + y = 0. *)
Definition stretch : affine R := Aff (M3 2 0 0 0 1 0 0 0 1) (V 0 0 0).
Definition slanted : plane R := Plane (V 0 0 0) (V 1 1 0).
Theorem C74_transform_refuted : exists e',
  ent_transform (fa stretch) (fent (EPlane slanted)) = fent e' /\
  exists q, in_entity (EPlane slanted) q /\ ~ in_entity e' (place stretch q).
Proof.
  exists (EPlane (Plane (V 0 0 0) (V 2 1 0))). split.
  - unfold stretch, slanted. cbn [ent_transform fent]. unfold plane_transform, point_transform, fplane. cbn [porigin pnormal]. rewrite f_aapply.
    unfold vec_transform, fa. cbn [lin]. rewrite f_apply. 
    assert (A : place (Aff (M3 2 0 0 0 1 0 0 0 1) (V 0 0 0)) (V 0 0 0) = V 0 0 0) by (apply vec_eq; unfold place, papply; vunf; cbn; ring).
    assert (B : papply (M3 2 0 0 0 1 0 0 0 1) (V 1 1 0) = V 2 1 0) by (apply vec_eq; unfold papply; vunf; cbn; ring).
    now rewrite A, B.
  - exists (V 1 (-1) 0). split; [cbn [in_entity]; unfold on_plane, slanted; vunf; ring|].
    cbn [in_entity]. unfold on_plane, place, papply, stretch. vunf. cbn. lra.
Qed.
Print Assumptions C74_transform_refuted.
Example C74_example : rigid (Aff (M3 0 (-1) 0 1 0 0 0 0 1) (V 1 2 3)) /\ is_unit (V 0 0 1) /\
  straight (ESegment (Segment (V 0 0 0) (V 1 2 3))).
Proof.
  split; [|split; [vunf; ring|exact I]]. unfold rigid, rotation. cbn [lin]. repeat split; vunf; cbn; try ring; try (apply vec_eq; cbn; ring).
Qed.

(** ** C75 *)
Theorem C75_encloses : forall e lo hi, ent_clamp (fent e) = Some (lo, hi) ->
  exists l h, lo = fv l /\ hi = fv h /\ encloses l h e.
Proof. exact clamp_encloses_entity. Qed.
Print Assumptions C75_encloses.
Theorem C75_smallest : forall e lo hi, (forall d, e <> EDisk d) -> well_posed e -> ent_clamp (fent e) = Some (lo, hi) ->
  exists l h, lo = fv l /\ hi = fv h /\ smallest_box l h e.
Proof. exact clamp_smallest. Qed.
Print Assumptions C75_smallest.
(** The box of a disk is the one of the ball with the same center. *)
Theorem C75_disk : forall d lo hi, 0 <= dradius d -> ent_clamp (fent (EDisk d)) = Some (lo, hi) ->
  exists l h, lo = fv l /\ hi = fv h /\ smallest_box l h (EBall (Ball (dradius d) (porigin (dplane d)))).
Proof. exact clamp_disk. Qed.
Print Assumptions C75_disk.
Theorem C75_unbounded : forall e, well_posed e -> (ent_clamp (fent e) = None <-> ~ bounded e).
Proof. exact clamp_none. Qed.
Print Assumptions C75_unbounded.
Theorem C75_flag : forall K (NK : Num K) (e : entity K), is_clampable e = true <-> ent_clamp e <> None.
Proof. exact @clampable_flag. Qed.
Print Assumptions C75_flag.
Definition floor_disk : disk R := Disk 1 (Plane (V 0 0 0) (V 0 0 1)).
Theorem C75_disk_refuted : exists l h, ent_clamp (fent (EDisk floor_disk)) = Some (fv l, fv h) /\ ~ smallest_box l h (EDisk floor_disk).
Proof.
  destruct (ent_clamp (fent (EDisk floor_disk))) as [[lo hi]|] eqn:E; [|discriminate E].
  destruct (clamp_disk floor_disk lo hi ltac:(cbn; lra) E) as (l & h & -> & -> & B & _). exists l, h. split; [reflexivity|].
  intros [_ S]. destruct (S (V (-1) (-1) 0) (V 1 1 0)) as [_ H].
  - intros q [P D]. unfold on_plane, floor_disk in P. cbn [dplane porigin pnormal] in *. vunf.
    assert (Z : vz q = 0) by lra. unfold dist in D. cbn [floor_disk dplane porigin dradius] in D.
    assert (Q : pdot (psub q (V 0 0 0)) (psub q (V 0 0 0)) <= 1 * 1).
    { rewrite <- pnorm_sq. assert (N : 0 <= pnorm (psub q (V 0 0 0))) by apply sqrt_pos. nra. }
    unfold pdot, psub in Q. cbn [vx vy vz] in Q. unfold within. cbn [vx vy vz].
    repeat split; try lra; nra.
  - assert (T : within l h (V 0 0 1)).
    { apply B. cbn [in_entity]. unfold in_ball, floor_disk. cbn [bl_radius bl_center dradius dplane porigin]. unfold dist.
      rewrite (proj2 (pnorm_eq _ 1 ltac:(lra))); [lra|]. vunf. ring. }
    unfold within in *. cbn [vx vy vz] in *. lra.
Qed.
Print Assumptions C75_disk_refuted.
Example C75_example : well_posed (ETriangle (Triangle (V 0 5 1) (V 2 3 1) (V 1 1 (-4)))) /\ well_posed (EBall (Ball 2 (V 1 1 1))) /\
  well_posed (ERay (Ray (V 0 0 0) (V 1 0 0))) /\
  ent_clamp (fent (EPoint (V 1 2 3))) = Some (fv (V 1 2 3), fv (V 1 2 3)) /\ ent_clamp (fent (ERay (Ray (V 0 0 0) (V 1 0 0)))) = None.
Proof. cbn. repeat split; try lra. intros H. injection H. lra. Qed.

(** ** C82.  For unit vectors the gaps are the sine or the cosine of the
    angle. *)
Theorem C82_parallel : forall e0 e1 tol,
  match facing_of e0, facing_of e1 with
  | Some a, Some b => ent_parallel (fent e0) (fent e1) (Fin tol) = true <-> parallel_gap a b < tol
  | _, _ => ent_parallel (fent e0) (fent e1) (Fin tol) = false
  end.
Proof.
  intros e0 e1 tol. pose proof (parallel_table e0 e1 tol) as H. destruct (facing_of e0), (facing_of e1); try exact H.
  rewrite H. apply rltb_true.
Qed.
Print Assumptions C82_parallel.
Theorem C82_orthogonal : forall e0 e1 tol, ~ line_and_plane e0 e1 ->
  match facing_of e0, facing_of e1 with
  | Some a, Some b => ent_orthogonal (fent e0) (fent e1) (Fin tol) = true <-> orthogonal_gap a b < tol
  | _, _ => ent_orthogonal (fent e0) (fent e1) (Fin tol) = false
  end.
Proof.
  intros e0 e1 tol N. pose proof (orthogonal_table e0 e1 tol N) as H. destruct (facing_of e0), (facing_of e1); try exact H.
  rewrite H. apply rltb_true.
Qed.
Print Assumptions C82_orthogonal.
(** A line and a plane are called orthogonal when they are parallel. *)
Theorem C82_line_plane : forall K (NK : Num K) (e0 e1 : entity K) tol,
  match e0, e1 with ELine _, EPlane _ | EPlane _, ELine _ => True | _, _ => False end ->
  ent_orthogonal e0 e1 tol = ent_parallel e0 e1 tol.
Proof. exact @orthogonal_is_parallel. Qed.
Print Assumptions C82_line_plane.
Definition x_axis : line R := Line (V 0 0 0) (V 1 0 0).
Definition z_axis : line R := Line (V 0 0 0) (V 0 0 1).
Definition floor : plane R := Plane (V 0 0 0) (V 0 0 1).
Theorem C82_line_plane_refuted : forall tol, 0 < tol <= 1 ->
  ent_orthogonal (fent (ELine x_axis)) (fent (EPlane floor)) (Fin tol) = true /\
  ent_orthogonal (fent (ELine z_axis)) (fent (EPlane floor)) (Fin tol) = false /\
  (forall q, on_line x_axis q -> on_plane floor q) /\ ldir z_axis = pnormal floor.
Proof.
  intros tol Ht. rewrite !orthogonal_is_parallel by exact I.
  pose proof (parallel_table (ELine x_axis) (EPlane floor) tol) as H. pose proof (parallel_table (ELine z_axis) (EPlane floor) tol) as H'.
  cbn [facing_of parallel_gap] in H, H'. rewrite H, H'. unfold x_axis, z_axis, floor. cbn [ldir pnormal].
  replace (pdot (V 1 0 0) (V 0 0 1)) with 0 by (vunf; ring). replace (pdot (V 0 0 1) (V 0 0 1)) with 1 by (vunf; ring).
  rewrite Rabs_R0, Rabs_R1, rltb_true, rltb_false. split; [lra|]. split; [lra|]. split; [|reflexivity].
  intros q (t & ->). unfold on_plane. cbn [lorigin ldir porigin pnormal]. vunf. ring.
Qed.
Print Assumptions C82_line_plane_refuted.
Theorem C82_collinear : forall e0 e1 tol, ~ two_rays e0 e1 ->
  (ent_collinear (fent e0) (fent e1) (Fin tol) = true <-> ordered (near_collinear tol) e0 e1).
Proof. exact collinear_table. Qed.
Print Assumptions C82_collinear.
Theorem C82_on_one_line : forall l e0 e1 tol, 0 < tol -> straight_line e0 -> straight_line e1 -> along_line l e0 -> along_line l e1 ->
  ent_collinear (fent e0) (fent e1) (Fin tol) = true.
Proof. exact collinear_complete. Qed.
Print Assumptions C82_on_one_line.
(** For two rays the angle is not looked at. *)
Theorem C82_rays : forall a b tol, 0 < tol ->
  (ent_collinear (fent (ERay a)) (fent (ERay b)) (Fin tol) = true <-> skew (ry_dir a) (psub (ry_origin a) (ry_origin b)) < tol).
Proof. exact collinear_rays. Qed.
Print Assumptions C82_rays.
Definition ray_x : ray R := Ray (V 0 0 0) (V 1 0 0).
Definition ray_y : ray R := Ray (V 0 0 0) (V 0 1 0).
Theorem C82_rays_refuted : forall tol, 0 < tol ->
  ent_collinear (fent (ERay ray_x)) (fent (ERay ray_y)) (Fin tol) = true /\ pdot (ry_dir ray_x) (ry_dir ray_y) = 0.
Proof.
  intros tol Ht. split; [|unfold ray_x, ray_y; vunf; cbn; ring]. apply collinear_rays; [exact Ht|]. unfold ray_x, ray_y, skew. cbn [ry_origin ry_dir].
  rewrite (proj2 (pnorm_eq _ 0 ltac:(lra))); [lra|]. vunf. ring.
Qed.
Print Assumptions C82_rays_refuted.
Theorem C82_coplanar : forall e0 e1 tol, 0 <= tol ->
  (ent_coplanar (fent e0) (fent e1) (Fin tol) = true <-> ordered (near_coplanar tol) e0 e1).
Proof. exact coplanar_table. Qed.
Print Assumptions C82_coplanar.
Theorem C82_in_one_plane : forall p e0 e1 tol, 0 < tol -> pnormal p <> V 0 0 0 ->
  straight_line e0 \/ flat e0 -> straight_line e1 \/ flat e1 -> inside_plane p e0 -> inside_plane p e1 ->
  ent_coplanar (fent e0) (fent e1) (Fin tol) = true.
Proof. exact coplanar_complete. Qed.
Print Assumptions C82_in_one_plane.
Example C82_example : straight_line (ERay ray_x) /\ straight_line (ESegment (Segment (V 1 0 0) (V 3 0 0))) /\
  along_line x_axis (ERay ray_x) /\ along_line x_axis (ESegment (Segment (V 1 0 0) (V 3 0 0))) /\
  inside_plane floor (ERay ray_x) /\ flat (EDisk floor_disk) /\ inside_plane floor (EDisk floor_disk) /\
  ~ line_and_plane (ERay ray_x) (EPlane floor) /\ facing_of (ERay ray_x) <> None.
Proof.
  unfold ray_x, x_axis, floor, floor_disk.
  split; [intros H; injection H; lra|]. split; [intros H; cbn in H; injection H; lra|].
  split; [intros q (t & _ & ->); exists t; reflexivity|].
  split; [intros q (t & _ & ->); exists (1 + 2 * t); apply vec_eq; vunf; ring|].
  split; [intros q (t & _ & ->); unfold on_plane; vunf; cbn; ring|].
  split; [split; cbn; [intros H; injection H; lra|lra]|].
  split; [intros q (P & _); exact P|]. split; [intros []|discriminate].
Qed.

(** ** C83 *)
Theorem C83_undefined : forall K (NK : Num K) (e0 e1 : entity K) tol,
  ent_intersection e0 e1 tol = UB <-> plane_and_disk e0 e1 /\ ent_coplanar e0 e1 neps = false.
Proof. exact @intersection_undefined. Qed.
Print Assumptions C83_undefined.
Definition wall_disk : disk R := Disk 1 (Plane (V 0 0 0) (V 1 0 0)).
Theorem C83_plane_disk_refuted : forall tol, ent_intersection (fent (EPlane floor)) (fent (EDisk wall_disk)) tol = UB /\
  meet (EPlane floor) (EDisk wall_disk).
Proof.
  intros tol. split.
  - apply C83_undefined. split; [exact I|]. destruct (ent_coplanar _ _ _) eqn:C; [|reflexivity]. exfalso.
    change neps with (Fin eps) in C. apply coplanar_table in C; [|left; exact eps_pos].
    destruct C as (a & b & A & B & C). cbn in A, B. injection A as <-. injection B as <-. cbn [level Z.leb Z.compare Pos.compare Pos.compare_cont near_coplanar] in C.
    destruct C as [C _]. unfold skew in C. rewrite (proj2 (pnorm_eq _ 1 ltac:(lra))) in C; [|vunf; ring]. pose proof eps_lt1. lra.
  - exists (V 0 0 0). split; [cbn; unfold on_plane, floor; vunf; ring|]. split; [unfold on_plane, wall_disk; vunf; cbn; ring|].
    unfold wall_disk. cbn [dplane porigin dradius]. unfold dist. rewrite (proj2 (pnorm_eq _ 0 ltac:(lra))); [lra|]. vunf. ring.
Qed.
Print Assumptions C83_plane_disk_refuted.
Theorem C83_order : forall K (NK : Num K) (e0 e1 : entity K) tol, level e0 <> level e1 ->
  ~ either_way plane_and_disk e0 e1 -> ~ either_way plane_and_triangle e0 e1 ->
  ent_intersection e0 e1 tol = ent_intersection e1 e0 tol.
Proof. exact @intersection_order. Qed.
Print Assumptions C83_order.
Theorem C83_answers : forall K (NK : Num K) (e0 e1 : entity K) tol, either_way always_answered e0 e1 \/ plane_and_disk e1 e0 ->
  exists e, ent_intersection e0 e1 tol = Ret e.
Proof. exact @always. Qed.
Print Assumptions C83_answers.
Theorem C83_no_answer : forall K (NK : Num K) (e0 e1 : entity K) tol, either_way never_answered e0 e1 ->
  ent_intersection e0 e1 tol = Throw RuntimeError.
Proof. exact @never. Qed.
Print Assumptions C83_no_answer.
Theorem C83_exceptions : forall K (NK : Num K) (e0 e1 : entity K) tol x, ent_intersection e0 e1 tol = Throw x -> x = RuntimeError.
Proof. exact @intersection_throws. Qed.
Print Assumptions C83_exceptions.
Theorem C83_dimension : forall K (NK : Num K) (e0 e1 e : entity K) tol, ent_intersection e0 e1 tol = Ret e ->
  (dimension e <= Z.min (dimension e0) (dimension e1))%Z.
Proof. exact @intersection_dimension. Qed.
Print Assumptions C83_dimension.
(** A triangle in a plane: found in one order, lost in the other. *)
Definition floor_triangle : triangle R := Triangle (V 0 0 0) (V 1 0 0) (V 0 1 0).
Lemma floor_across : tri_across floor_triangle = V 0 0 1.
Proof. unfold tri_across, floor_triangle. apply vec_eq; vunf; ring. Qed.
Lemma triangle_on_floor : inside_plane floor (ETriangle floor_triangle).
Proof.
  intros q (a & b & c & _ & _ & _ & S & ->). unfold on_plane, floor, floor_triangle. vunf. ring.
Qed.
Theorem C83_plane_triangle_refuted : forall tol, 0 < tol ->
  ent_intersection (fent (EPlane floor)) (fent (ETriangle floor_triangle)) (Fin tol) = Ret (fent (ETriangle floor_triangle)) /\
  ent_intersection (fent (ETriangle floor_triangle)) (fent (EPlane floor)) (Fin tol) = Ret ENone.
Proof.
  intros tol Ht.
  assert (F : flat (EPlane floor)) by (cbn; intros H; injection H; lra).
  assert (C : forall t, 0 < t -> ent_coplanar (fent (EPlane floor)) (fent (ETriangle floor_triangle)) (Fin t) = true).
  { intros t T. apply (coplanar_complete floor); auto; [right; exact I| |apply triangle_on_floor]. intros q Q. exact Q. }
  assert (C' : forall t, 0 < t -> ent_coplanar (fent (ETriangle floor_triangle)) (fent (EPlane floor)) (Fin t) = true).
  { intros t T. apply (coplanar_complete floor); auto; [right; exact I|apply triangle_on_floor|]. intros q Q. exact Q. }
  unfold ent_intersection. cbn [fent is_point orb ent_collinear]. change neps with (Fin eps).
  pose proof (C eps eps_pos) as C1. pose proof (C' eps eps_pos) as C2. pose proof (C tol Ht) as C3. cbn [fent] in C1, C2, C3.
  rewrite C1, C2. cbn [ent_coplanar] in C3. cbn [ent_int_coplanar]. unfold int_plane_tri_tri, found, found_or. rewrite C3. split; [reflexivity|].
  unfold int_plane_triangle. rewrite f_tri_plane.
  assert (N : int_plane_plane (fplane floor) (fplane (Plane (tri_middle floor_triangle) (pscale (/ pnorm (tri_across floor_triangle)) (tri_across floor_triangle)))) (Fin tol) = None).
  { assert (U : pscale (/ pnorm (tri_across floor_triangle)) (tri_across floor_triangle) = V 0 0 1).
    { rewrite floor_across. rewrite (proj2 (pnorm_eq _ 1 ltac:(lra))) by (vunf; ring). apply vec_eq; vunf; field. }
    rewrite U. apply plane_plane_none; [exact Ht|unfold floor; vunf; ring|vunf; ring|]. cbn [pnormal floor].
    replace (pdot _ _) with 0 by (vunf; ring). exact Ht. }
  rewrite N. reflexivity.
Qed.
Print Assumptions C83_plane_triangle_refuted.
(** Two triangles in one plane never have a common part; other flat pairs in
    one plane throw. *)
Theorem C83_coplanar_triangles : forall K (NK : Num K) (a b : triangle K) tol, ent_coplanar (ETriangle a) (ETriangle b) neps = true ->
  match ent_intersection (ETriangle a) (ETriangle b) tol with Ret e => e = ENone | _ => True end.
Proof. exact @coplanar_triangles. Qed.
Print Assumptions C83_coplanar_triangles.
Theorem C83_coplanar_unsupported : forall K (NK : Num K) (e0 e1 : entity K) tol,
  match e0, e1 with ETriangle _, EDisk _ | EDisk _, ETriangle _ | EDisk _, EDisk _ => True | _, _ => False end ->
  ent_coplanar e0 e1 neps = true -> ent_intersection e0 e1 tol = Throw RuntimeError.
Proof. exact @coplanar_unsupported. Qed.
Print Assumptions C83_coplanar_unsupported.
Example C83_example : either_way always_answered (fent (EBall (Ball 1 (V 0 0 0)))) (fent (ELine x_axis)) /\
  either_way never_answered (fent (EPoint (V 0 0 0))) (fent (EBall (Ball 1 (V 0 0 0)))) /\
  level (fent (ERay ray_x)) <> level (fent (EPlane floor)).
Proof. cbn. unfold either_way. cbn. repeat split; auto. discriminate. Qed.

(** ** C84 *)
Theorem C84_common_points : forall l e0 e1 tol, is_unit (ldir l) -> 0 < tol ->
  straight_line e0 -> straight_line e1 -> along_line l e0 -> along_line l e1 ->
  collinear_answer tol e0 e1 (ent_intersection (fent e0) (fent e1) (Fin tol)).
Proof. exact intersection_collinear. Qed.
Print Assumptions C84_common_points.
(** Two rays of one line that do not meet: the call throws. *)
Theorem C84_apart_rays : forall l a b tol, is_unit (ldir l) -> 0 < tol -> straight_line (ERay a) -> straight_line (ERay b) ->
  along_line l (ERay a) -> along_line l (ERay b) -> (forall q, ~ (on_ray a q /\ on_ray b q)) ->
  ent_intersection (fent (ERay a)) (fent (ERay b)) (Fin tol) = Throw RuntimeError.
Proof. exact apart_rays_throw. Qed.
Print Assumptions C84_apart_rays.
Definition ray_left : ray R := Ray (V (-1) 0 0) (V (-1) 0 0).
Theorem C84_apart_rays_refuted : forall tol, 0 < tol ->
  ent_intersection (fent (ERay ray_x)) (fent (ERay ray_left)) (Fin tol) = Throw RuntimeError.
Proof.
  intros tol Ht. apply (apart_rays_throw x_axis); unfold x_axis, ray_x, ray_left; auto.
  - vunf. ring.
  - intros H; injection H; lra.
  - intros H; cbn in H; injection H; lra.
  - intros q (t & _ & ->). exists t. reflexivity.
  - intros q (t & _ & ->). exists (- 1 - t). apply vec_eq; vunf; cbn; ring.
  - intros q [(t & T & ->) (s & S & E)]. apply (f_equal vx) in E. vunf. cbn in E. lra.
Qed.
Print Assumptions C84_apart_rays_refuted.
(** Two rays with a common origin and an acute angle between them: the whole
    second ray is returned. *)
Definition ray_oblique : ray R := Ray (V 0 0 0) (V (3 / 5) (4 / 5) 0).
Theorem C84_oblique_rays_refuted : forall tol, 0 < tol ->
  ent_intersection (fent (ERay ray_x)) (fent (ERay ray_oblique)) (Fin tol) = Ret (fent (ERay ray_oblique)) /\
  forall q, on_ray ray_x q /\ on_ray ray_oblique q -> q = V 0 0 0.
Proof.
  intros tol Ht. split.
  - assert (C : forall t, 0 < t -> ent_collinear (fent (ERay ray_x)) (fent (ERay ray_oblique)) (Fin t) = true).
    { intros t T. apply collinear_rays; [exact T|]. unfold ray_x, ray_oblique, skew. cbn [ry_origin ry_dir].
      rewrite (proj2 (pnorm_eq _ 0 ltac:(lra))); [lra|]. vunf. ring. }
    unfold ent_intersection. cbn [fent is_point orb]. change neps with (Fin eps). pose proof (C eps eps_pos) as C1. pose proof (C tol Ht) as C2. cbn [fent] in C1, C2.
    rewrite C1. cbn [ent_collinear] in C2. cbn [ent_int_collinear]. unfold int_ray_ray_ray. rewrite C2.
    assert (D : ((vdot (ry_dir (fray ray_x)) (ry_dir (fray ray_oblique)) >? nofZ 0)%num = true)).
    { rewrite !f_rdir, f_dot. unfold ray_x, ray_oblique. cbn [ry_dir]. change (nofZ 0) with (Fin 0). cbn [nlt ER_Num eltb]. apply rltb_true. vunf. lra. }
    rewrite D. cbn [andb].
    assert (Q : ray_is_inside (fray ray_x) (ry_origin (fray ray_oblique)) (Fin tol) = true).
    { pose proof (f_ray_inside x_axis ltac:(unfold x_axis; vunf; ring) 0 1 0 tol Ht ltac:(lra)) as G.
      replace (at_ x_axis 0) with (V 0 0 0) in G by (apply vec_eq; unfold at_, x_axis; vunf; ring).
      replace (pscale 1 (ldir x_axis)) with (V 1 0 0) in G by (apply vec_eq; unfold x_axis; vunf; ring).
      apply G. exists 0. split; [lra|]. cbn [ry_origin ry_dir]. apply vec_eq; vunf; ring. }
    rewrite Q. reflexivity.
  - intros q [(t & T & ->) (s & S & E)]. unfold ray_x, ray_oblique in *. cbn [ry_origin ry_dir] in *. pose proof (f_equal vx E) as E1. pose proof (f_equal vy E) as E2.
    vunf. assert (s = 0) by lra. subst s. assert (t = 0) by lra. subst t. apply vec_eq; vunf; ring.
Qed.
Print Assumptions C84_oblique_rays_refuted.
Example C84_example : is_unit (ldir x_axis) /\ straight_line (ERay ray_x) /\ along_line x_axis (ERay ray_x) /\
  straight_line (ESegment (Segment (V (-1) 0 0) (V 3 0 0))) /\ along_line x_axis (ESegment (Segment (V (-1) 0 0) (V 3 0 0))) /\
  common_points (ERay ray_x) (ESegment (Segment (V (-1) 0 0) (V 3 0 0))) (ESegment (Segment (V 0 0 0) (V 3 0 0))).
Proof.
  unfold ray_x, x_axis. split; [vunf; ring|]. split; [intros H; injection H; lra|].
  split; [intros q (t & _ & ->); exists t; reflexivity|]. split; [intros H; cbn in H; injection H; lra|].
  split; [intros q (t & _ & ->); exists (- 1 + 4 * t); apply vec_eq; vunf; ring|].
  intros q. split.
  - intros (t & T & ->). split.
    + exists (3 * t). split; [lra|]. cbn [ry_origin ry_dir]. apply vec_eq; vunf; ring.
    + exists ((1 + 3 * t) / 4). split; [lra|]. apply vec_eq; vunf; field.
  - intros [(t & T & ->) (s & S & E)]. apply (f_equal vx) in E. exists (t / 3). cbn [ry_origin ry_dir] in *. vunf. split; [lra|]. apply vec_eq; vunf; field.
Qed.

(** ** C85 *)
(** The queries by kind are in PropertiesCollection.v. *)
Theorem C85_map : forall K (NK : Num K) (f : entity K -> entity K) es t, co_map f (holding es t) = Ret (holding (map f es) t).
Proof. intros K NK. exact map_ok. Qed.
Print Assumptions C85_map.
Theorem C85_null_entity : forall K (NK : Num K) (p : entity K -> bool) es, In None es -> count_if p es = UB.
Proof. intros K NK. exact null_counted. Qed.
Print Assumptions C85_null_entity.
(** Removing moves the kept entities to the front and removes nothing. *)
Theorem C85_remove : forall K (NK : Num K) (p : entity K -> bool) junk es t, exists c,
  co_remove p junk (holding es t) = Ret c /\ length (co_entities c) = length es /\ co_tree c = t /\
  firstn (length (filter (fun e => negb (p e)) es)) (co_entities c) = map Some (filter (fun e => negb (p e)) es).
Proof. intros K NK. exact remove_keeps_size. Qed.
Print Assumptions C85_remove.
Theorem C85_remove_refuted : forall K (NK : Num K) junk (q : vec3 K) t, exists c,
  co_remove is_point junk (holding [EPoint q] t) = Ret c /\ length (co_entities c) = 1%nat.
Proof.
  intros K NK junk q t. destruct (remove_keeps_size is_point junk [EPoint q] t) as (c & E & L & _). exists c. split; [exact E|exact L].
Qed.
Print Assumptions C85_remove_refuted.
Theorem C85_boxes : forall K (NK : Num K) es i bs, clamp_from i (map Some es) = Ret bs ->
  length bs = length es /\
  forall n e, nth_error es n = Some e -> exists mn mx, ent_clamp e = Some (mn, mx) /\ nth_error bs n = Some (mk_aabb mn mx (i + Z.of_nat n)).
Proof. intros K NK. exact clamp_ok. Qed.
Print Assumptions C85_boxes.
Theorem C85_boxes_exist : forall K (NK : Num K) (es : list (entity K)) i,
  (Forall (fun e => is_clampable e = true) es -> exists bs, clamp_from i (map Some es) = Ret bs) /\
  (~ Forall (fun e => is_clampable e = true) es -> clamp_from i (map Some es) = Throw RuntimeError).
Proof. intros K NK. exact clamp_outcome. Qed.
Print Assumptions C85_boxes_exist.
(** The candidates are the pairs whose boxes overlap, each once. *)
Theorem C85_candidates : forall es fs t u, es <> [] -> fs <> [] ->
  Forall (fun e => is_clampable (fent e) = true /\ well_posed e) es -> Forall (fun e => is_clampable (fent e) = true /\ well_posed e) fs ->
  exists c d ps, co_build (holding (map fent es) t) = Ret c /\ co_build (holding (map fent fs) u) = Ret d /\
    co_candidates c d = Ret (listed ps) /\ exactly (fun p => boxes_meet (fst p) (snd p)) (list_prod es fs) ps.
Proof. exact candidates_exact. Qed.
Print Assumptions C85_candidates.
(** No pair that meets is lost. *)
Theorem C85_candidates_complete : forall es fs t u, es <> [] -> fs <> [] ->
  Forall (fun e => is_clampable (fent e) = true /\ well_posed e) es -> Forall (fun e => is_clampable (fent e) = true /\ well_posed e) fs ->
  exists c d ps, co_build (holding (map fent es) t) = Ret c /\ co_build (holding (map fent fs) u) = Ret d /\
    co_candidates c d = Ret (listed ps) /\
    (forall e f, In (e, f) ps -> In e es /\ In f fs) /\
    (forall e f, In e es -> In f fs -> meet e f -> In (e, f) ps).
Proof. exact candidates_complete. Qed.
Print Assumptions C85_candidates_complete.
Example C85_example : Forall (fun e => is_clampable (fent e) = true /\ well_posed e)
    [EBall (Ball 1 (V 0 0 0)); EPoint (V 5 5 5); ETriangle floor_triangle] /\
  meet (EBall (Ball 1 (V 0 0 0))) (ETriangle floor_triangle).
Proof.
  split; [repeat constructor; cbn; lra|]. exists (V 0 0 0). split.
  - unfold in_entity, in_ball. cbn [bl_radius bl_center]. unfold dist. rewrite (proj2 (pnorm_eq _ 0 ltac:(lra))); [lra|]. vunf. ring.
  - exists 1, 0, 0. repeat split; try lra. unfold floor_triangle. apply vec_eq; vunf; ring.
Qed.

(** ** C86 *)
Theorem C86_same_points :
  (forall l, exists l', line_reverse (fline l) = fline l' /\ same_points (ELine l) (ELine l')) /\
  (forall l, exists l', line_normalize (fline l) = fline l' /\ same_points (ELine l) (ELine l')) /\
  (forall r, exists r', ray_normalize (fray r) = fray r' /\ same_points (ERay r) (ERay r')) /\
  (forall p, exists p', plane_reverse (fplane p) = fplane p' /\ same_points (EPlane p) (EPlane p')) /\
  (forall p, exists p', plane_normalize (fplane p) = fplane p' /\ same_points (EPlane p) (EPlane p')) /\
  (forall s, exists s', seg_swap (fseg s) = fseg s' /\ same_points (ESegment s) (ESegment s')) /\
  (forall d, exists d', disk_reverse (fdisk d) = fdisk d' /\ same_points (EDisk d) (EDisk d')) /\
  (forall d, exists d', disk_normalize (fdisk d) = fdisk d' /\ same_points (EDisk d) (EDisk d')) /\
  (forall t i j, (i < 3)%nat -> (j < 3)%nat ->
     exists t', tri_swap i j (ftri t) = Ret (ftri t') /\ same_points (ETriangle t) (ETriangle t')).
Proof. exact renaming. Qed.
Print Assumptions C86_same_points.
(** A ray and its reverse share their origin and make up the line. *)
Theorem C86_ray_halves : forall r, exists r', ray_reverse (fray r) = fray r' /\
  (forall q, on_line (ray_line r) q <-> on_ray r q \/ on_ray r' q) /\
  (ry_dir r <> V 0 0 0 -> forall q, on_ray r q /\ on_ray r' q <-> q = ry_origin r).
Proof. exact ray_halves. Qed.
Print Assumptions C86_ray_halves.
Example C86_example : ry_dir ray_x <> V 0 0 0.
Proof. intros H. injection H. lra. Qed.
