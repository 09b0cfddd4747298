(** * C127: intersections with a point, with a plane that contains the other
    entity, and of a disk with what runs in its plane (exact arithmetic). *)
From Coq Require Import ZArith Bool Reals Lra Lia List.
From Verif Require Import Base Num Vec Aabb Tree Geom Acme AcmeEntity ER SpecGeom SpecAcme SpecEntity SpecApprox SpecCoplanar.
From Verif Require Import ProofGeom ProofInt ProofAcme ProofCross ProofEntity ProofPred ProofApprox ProofCoplanar.
Import ListNotations.
Local Open Scope R_scope.

(** A point is returned when it counts as inside (C112), in both orders. *)
Theorem C127_point : forall e q tol, 0 < tol -> normal_form e -> takes_points e -> exists c,
  ent_intersection (fent (EPoint q)) (fent e) (Fin tol) = Ret (fent c) /\
  ent_intersection (fent e) (fent (EPoint q)) (Fin tol) = Ret (fent c) /\
  (counts_inside tol e q /\ c = EPoint q \/ ~ counts_inside tol e q /\ c = ENone).
Proof. exact point_answer. Qed.
Print Assumptions C127_point.
Theorem C127_point_on : forall e q tol, 0 < tol -> normal_form e -> takes_points e -> in_entity e q ->
  ent_intersection (fent (EPoint q)) (fent e) (Fin tol) = Ret (fent (EPoint q)) /\
  ent_intersection (fent e) (fent (EPoint q)) (Fin tol) = Ret (fent (EPoint q)).
Proof. exact point_found. Qed.
Print Assumptions C127_point_on.
Theorem C127_two_points : forall p q tol, 0 <= tol -> exists c,
  ent_intersection (fent (EPoint p)) (fent (EPoint q)) (Fin tol) = Ret (fent c) /\
  (agree tol p q /\ c = EPoint p \/ ~ agree tol p q /\ c = ENone).
Proof. exact point_point. Qed.
Print Assumptions C127_two_points.

(** What lies in a plane is returned whole; a triangle only when the plane is
    given first (C83). *)
Theorem C127_in_plane : forall p e tol, 0 < tol -> pnormal p <> V 0 0 0 -> straight_line e \/ flat e -> inside_plane p e ->
  match e with ELine _ | ERay _ | ESegment _ | EDisk _ => True | _ => False end ->
  ent_intersection (fent (EPlane p)) (fent e) (Fin tol) = Ret (fent e) /\
  ent_intersection (fent e) (fent (EPlane p)) (Fin tol) = Ret (fent e).
Proof. exact plane_keeps. Qed.
Print Assumptions C127_in_plane.
Theorem C127_triangle_in_plane : forall p t tol, 0 < tol -> pnormal p <> V 0 0 0 -> inside_plane p (ETriangle t) ->
  ent_intersection (fent (EPlane p)) (fent (ETriangle t)) (Fin tol) = Ret (fent (ETriangle t)).
Proof. exact plane_keeps_triangle. Qed.
Print Assumptions C127_triangle_in_plane.
Theorem C127_same_plane : forall p p' tol, 0 < tol -> pnormal p <> V 0 0 0 -> pnormal p' <> V 0 0 0 -> inside_plane p (EPlane p') ->
  ent_intersection (fent (EPlane p)) (fent (EPlane p')) (Fin tol) = Ret (fent (EPlane p)).
Proof. exact plane_keeps_plane. Qed.
Print Assumptions C127_same_plane.

(** A line, ray or segment in the plane of a disk: the common points, unless
    the squared half chord (times the squared length of the direction) is
    within the tolerance of zero. *)
Theorem C127_disk : forall e l d tol, 0 < tol <= 1 -> carrier e = Some l -> straight_line e -> not_short tol e ->
  is_unit (pnormal (dplane d)) -> tol <= dradius d -> inside_plane (dplane d) e ->
  chord2 l d < - tol \/ tol <= chord2 l d -> exists c,
  ent_intersection (fent e) (fent (EDisk d)) (Fin tol) = Ret (fent c) /\
  ent_intersection (fent (EDisk d)) (fent e) (Fin tol) = Ret (fent c) /\ common_points e (EDisk d) c.
Proof. exact disk_in_plane. Qed.
Print Assumptions C127_disk.
(** Strictly within the tolerance: the point of the line nearest to the
    centre, twice, if it is on the entity. *)
Theorem C127_disk_tangent : forall e l d tol, 0 < tol <= 1 -> carrier e = Some l -> straight_line e -> not_short tol e ->
  is_unit (pnormal (dplane d)) -> tol <= dradius d -> inside_plane (dplane d) e ->
  - tol < chord2 l d < tol -> let f := foot l (porigin (dplane d)) in exists c,
  ent_intersection (fent e) (fent (EDisk d)) (Fin tol) = Ret (fent c) /\
  ent_intersection (fent (EDisk d)) (fent e) (Fin tol) = Ret (fent c) /\
  (in_entity e f /\ c = ESegment (Segment f f) \/ ~ in_entity e f /\ c = ENone).
Proof. exact disk_tangent. Qed.
Print Assumptions C127_disk_tangent.

Definition floor_disk : disk R := Disk 1 (Plane (V 0 0 0) (V 0 0 1)).
Definition grazing_ray (tol : R) : ray R := Ray (V (-5) (sqrt (1 + tol)) 0) (V 1 0 0).
Lemma ray_on_floor : forall tol, inside_plane (dplane floor_disk) (ERay (grazing_ray tol)).
Proof. intros tol q (t & _ & ->). unfold on_plane, floor_disk, grazing_ray. cbn [dplane porigin pnormal ry_origin ry_dir]. vunf. ring. Qed.
Lemma grazing_foot : forall tol, foot (ray_line (grazing_ray tol)) (V 0 0 0) = V 0 (sqrt (1 + tol)) 0.
Proof. intros tol. unfold foot, ray_line, grazing_ray. cbn [lorigin ldir ry_origin ry_dir]. apply vec_eq; vunf; field. Qed.
Lemma grazing_chord : forall tol, 0 < 1 + tol -> chord2 (ray_line (grazing_ray tol)) floor_disk = - tol.
Proof.
  intros tol T. unfold chord2. cbn [floor_disk dplane porigin dradius]. rewrite grazing_foot.
  assert (E : dist (V 0 (sqrt (1 + tol)) 0) (V 0 0 0) ^ 2 = 1 + tol).
  { unfold dist. replace (pnorm _ ^ 2) with (pnorm (psub (V 0 (sqrt (1 + tol)) 0) (V 0 0 0)) * pnorm (psub (V 0 (sqrt (1 + tol)) 0) (V 0 0 0))) by ring.
    rewrite pnorm_sq. pose proof (sqrt_sqrt (1 + tol) ltac:(lra)). vunf. nra. }
  rewrite E. unfold ray_line, grazing_ray. cbn [ldir ry_dir]. vunf. ring.
Qed.
Lemma grazing_facts : is_unit (pnormal (dplane floor_disk)) /\ forall tol, straight_line (ERay (grazing_ray tol)).
Proof. split; [unfold floor_disk; cbn [dplane]; vunf; ring|]. intros tol H. unfold grazing_ray in H. cbn [ry_dir] in H. injection H. lra. Qed.
(** At the tolerance itself the square root of a negative number is taken,
    [std::max] drops the NaN, and a ray that passes by the disk is said to
    meet it in the origin of the ray. *)
Theorem C127_disk_refuted : forall tol, 0 < tol -> exists r d, is_unit (pnormal (dplane d)) /\ inside_plane (dplane d) (ERay r) /\
  ent_intersection (fent (ERay r)) (fent (EDisk d)) (Fin tol) = Ret (fent (ESegment (Segment (ry_origin r) (ry_origin r)))) /\
  (forall q, on_ray r q -> ~ in_disk d q) /\ 5 <= dist (ry_origin r) (porigin (dplane d)).
Proof.
  intros tol T. destruct grazing_facts as (U & S). exists (grazing_ray tol), floor_disk. split; [exact U|]. split; [apply ray_on_floor|].
  assert (Ha : 0 < pdot (ldir (ray_line (grazing_ray tol))) (ldir (ray_line (grazing_ray tol))))
    by (unfold ray_line, grazing_ray; cbn [ldir ry_dir]; vunf; lra).
  pose proof (grazing_chord tol ltac:(lra)) as E. split.
  - destruct (disk_called (ERay (grazing_ray tol)) floor_disk tol (S tol) U ltac:(cbn; lra) (ray_on_floor tol)) as (-> & _).
    cbn [disk_call]. rewrite (ray_disk_edge (grazing_ray tol) floor_disk tol T Ha E). reflexivity.
  - pose proof (sqrt_pos (1 + tol)) as P. pose proof (sqrt_sqrt (1 + tol) ltac:(lra)) as Q. split.
    + intros q (t & K & ->) [_ D]. unfold dist, floor_disk, grazing_ray in D. cbn [dplane porigin dradius ry_origin ry_dir] in D.
      pose proof (pnorm_sq (psub (padd (V (-5) (sqrt (1 + tol)) 0) (pscale t (V 1 0 0))) (V 0 0 0))) as N.
      pose proof (pnorm_nonneg (psub (padd (V (-5) (sqrt (1 + tol)) 0) (pscale t (V 1 0 0))) (V 0 0 0))) as N0.
      set (x := pnorm _) in *. pose proof (Rle_0_sqr (-5 + t)) as Z. unfold Rsqr in Z.
      assert (1 + tol <= x * x) by (rewrite N; vunf; ring_simplify; ring_simplify in Z; ring_simplify in Q; lra). nra.
    + unfold dist, floor_disk, grazing_ray. cbn [dplane porigin ry_origin].
      pose proof (pnorm_sq (psub (V (-5) (sqrt (1 + tol)) 0) (V 0 0 0))) as N.
      pose proof (pnorm_nonneg (psub (V (-5) (sqrt (1 + tol)) 0) (V 0 0 0))) as N0.
      set (x := pnorm _) in *. assert (25 <= x * x) by (rewrite N; vunf; nra). nra.
Qed.
Print Assumptions C127_disk_refuted.
(** The hypotheses are met: a ray through the disk with half chord [1/2], the
    point at the centre, and the disk in its own plane. *)
Example C127_example : chord2 (ray_line (grazing_ray (- (1 / 4)))) floor_disk = 1 / 4 /\
  inside_plane (dplane floor_disk) (ERay (grazing_ray (- (1 / 4)))) /\ straight_line (ERay (grazing_ray (- (1 / 4)))) /\
  normal_form (EDisk floor_disk) /\ in_entity (EDisk floor_disk) (V 0 0 0) /\
  flat (EDisk floor_disk) /\ inside_plane (dplane floor_disk) (EDisk floor_disk).
Proof.
  destruct grazing_facts as (U & S). split; [rewrite grazing_chord; lra|]. split; [apply ray_on_floor|]. split; [apply S|]. split; [exact U|].
  split; [|split].
  - split; [unfold on_plane, floor_disk; cbn [dplane]; vunf; ring|]. unfold floor_disk. cbn [dplane porigin dradius].
    unfold dist. rewrite (proj2 (pnorm_eq _ 0 ltac:(lra))); [lra|]. vunf. ring.
  - split; [|unfold floor_disk; cbn [dradius]; lra]. unfold floor_disk. cbn [dplane pnormal]. intros H. injection H. lra.
  - intros q [Q _]. exact Q.
Qed.
