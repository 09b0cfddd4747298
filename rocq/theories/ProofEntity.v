(** * Motions and bounding boxes of the run-time typed entities. *)
From Coq Require Import ZArith Bool List Reals Lra Lia.
From Verif Require Import Base Num Vec Aabb Geom Acme AcmeEntity ER SpecGeom SpecAcme SpecEntity.
From Verif Require Import ProofGeom ProofInt ProofAcme ProofPose ProofEuler.
Import ListNotations.
Local Open Scope R_scope.

(** ** Affine maps. *)
Lemma f_aapply : forall a p, aapply (fa a) (fv p) = fv (place a p).
Proof. intros. unfold aapply, fa. cbn [lin tra]. rewrite f_apply, f_add. f_equal. unfold place. apply vec_eq; vunf; ring. Qed.
Lemma place_line : forall a o d t, place a (padd o (pscale t d)) = padd (place a o) (pscale t (papply (lin a) d)).
Proof. intros. unfold place. apply vec_eq; vunf; ring. Qed.
Lemma place_sub : forall a p q, psub (place a p) (place a q) = papply (lin a) (psub p q).
Proof. intros. unfold place. apply vec_eq; vunf; ring. Qed.
Lemma place_bary : forall a t x y z, x + y + z = 1 ->
  place a (bary t x y z) = bary (Triangle (place a (tv0 t)) (place a (tv1 t)) (place a (tv2 t))) x y z.
Proof. intros a t x y z H. assert (x = 1 - y - z) as -> by lra. unfold place. apply vec_eq; vunf; ring. Qed.

Lemma line_moved : forall a l, moved (place a) (ELine l) (ELine (Line (place a (lorigin l)) (papply (lin a) (ldir l)))).
Proof.
  intros a [o d] q'. cbn [in_entity lorigin ldir]. unfold on_line. cbn [lorigin ldir]. split.
  - intros (t & ->). exists (padd o (pscale t d)). split; [eauto|]. now rewrite place_line.
  - intros (q & (t & ->) & ->). exists t. apply place_line.
Qed.
Lemma ray_moved : forall a r, moved (place a) (ERay r) (ERay (Ray (place a (ry_origin r)) (papply (lin a) (ry_dir r)))).
Proof.
  intros a [o d] q'. cbn [in_entity ry_origin ry_dir]. unfold on_ray. cbn [ry_origin ry_dir]. split.
  - intros (t & H & ->). exists (padd o (pscale t d)). split; [eauto|]. now rewrite place_line.
  - intros (q & (t & H & ->) & ->). exists t. split; [exact H|apply place_line].
Qed.
Lemma seg_moved : forall a s, moved (place a) (ESegment s) (ESegment (Segment (place a (sv0 s)) (place a (sv1 s)))).
Proof.
  intros a [p q] q'. cbn [in_entity sv0 sv1]. unfold in_segment. cbn [sv0 sv1]. rewrite place_sub. split.
  - intros (t & H & ->). exists (padd p (pscale t (psub q p))). split; [eauto|]. now rewrite place_line.
  - intros (x & (t & H & ->) & ->). exists t. split; [exact H|apply place_line].
Qed.
Lemma tri_moved : forall a t, moved (place a) (ETriangle t) (ETriangle (Triangle (place a (tv0 t)) (place a (tv1 t)) (place a (tv2 t)))).
Proof.
  intros a t q'. cbn [in_entity]. unfold in_triangle, near_triangle. split.
  - intros (x & y & z & H1 & H2 & H3 & H4 & ->). exists (bary t x y z). split; [exists x, y, z; auto|]. now rewrite place_bary.
  - intros (q & (x & y & z & H1 & H2 & H3 & H4 & ->) & ->). exists x, y, z. repeat split; auto. now apply place_bary.
Qed.
(** Rigid motions have an inverse. *)
Lemma place_onto : forall a q', rigid a -> exists q, q' = place a q.
Proof.
  intros a q' R. exists (papply (ptrans (lin a)) (psub q' (tra a))). unfold place. rewrite ptrans_back by exact R.
  apply vec_eq; vunf; ring.
Qed.
Lemma place_dist : forall a p q, rigid a -> dist (place a p) (place a q) = dist p q.
Proof. intros a p q R. unfold dist, pnorm. rewrite place_sub. now rewrite rotation_isometry. Qed.
Lemma place_on_plane : forall a p q, rigid a ->
  (on_plane (Plane (place a (porigin p)) (papply (lin a) (pnormal p))) (place a q) <-> on_plane p q).
Proof. intros a p q R. unfold on_plane. cbn [porigin pnormal]. rewrite place_sub, rotation_isometry by exact R. tauto. Qed.
Lemma plane_moved : forall a p, rigid a -> moved (place a) (EPlane p) (EPlane (Plane (place a (porigin p)) (papply (lin a) (pnormal p)))).
Proof.
  intros a p R q'. cbn [in_entity]. destruct (place_onto a q' R) as [q ->]. rewrite place_on_plane by exact R. split.
  - intros H. now exists q.
  - intros (x & H & E). apply (place_on_plane a p x R) in H. rewrite <- E in H. now apply place_on_plane in H.
Qed.
Lemma disk_moved : forall a d, rigid a -> moved (place a) (EDisk d)
  (EDisk (Disk (dradius d) (Plane (place a (porigin (dplane d))) (papply (lin a) (pnormal (dplane d)))))).
Proof.
  intros a [r p] R q'. cbn [in_entity]. unfold in_disk. cbn [dradius dplane porigin]. split.
  - destruct (place_onto a q' R) as [q ->]. rewrite place_on_plane, place_dist by exact R. intros H. now exists q.
  - intros (x & (H1 & H2) & ->). rewrite place_on_plane, place_dist by exact R. now split.
Qed.
Lemma ball_moved : forall a b, rigid a -> moved (place a) (EBall b) (EBall (Ball (bl_radius b) (place a (bl_center b)))).
Proof.
  intros a [r c] R q'. cbn [in_entity]. unfold in_ball. cbn [bl_radius bl_center]. split.
  - destruct (place_onto a q' R) as [q ->]. rewrite place_dist by exact R. intros H. now exists q.
  - intros (x & H & ->). now rewrite place_dist.
Qed.
Lemma none_moved : forall m, moved m ENone ENone.
Proof. intros m q. cbn. split; [tauto|intros (x & [] & _)]. Qed.
Lemma point_moved : forall m p, moved m (EPoint p) (EPoint (m p)).
Proof. intros m p q. cbn. split; [intros ->; eauto|intros (x & -> & ->); reflexivity]. Qed.

Lemma transform_straight : forall a e, straight e ->
  exists e', ent_transform (fa a) (fent e) = fent e' /\ level e' = level e /\ moved (place a) e e'.
Proof.
  intros a e S. destruct e; try contradiction S; eexists.
  - split; [|split; [|apply none_moved]]; reflexivity.
  - split; [|split; [|apply point_moved]]; [|reflexivity]. cbn [ent_transform fent]. unfold point_transform. now rewrite f_aapply.
  - split; [|split; [|apply line_moved]]; [|reflexivity]. cbn [ent_transform fent]. unfold line_transform, point_transform, fline. cbn [lorigin ldir]. now rewrite f_aapply.
  - split; [|split; [|apply ray_moved]]; [|reflexivity]. cbn [ent_transform fent]. unfold ray_transform, point_transform, fray. cbn [ry_origin ry_dir]. now rewrite f_aapply.
  - split; [|split; [|apply seg_moved]]; [|reflexivity]. cbn [ent_transform fent]. unfold seg_transform, point_transform, fseg. cbn [sv0 sv1]. now rewrite !f_aapply.
  - split; [|split; [|apply tri_moved]]; [|reflexivity]. cbn [ent_transform fent]. unfold tri_transform, point_transform, ftri. cbn [tv0 tv1 tv2]. now rewrite !f_aapply.
Qed.
Lemma transform_rigid : forall a e, rigid a ->
  exists e', ent_transform (fa a) (fent e) = fent e' /\ level e' = level e /\ moved (place a) e e'.
Proof.
  intros a e R. destruct e; try (apply transform_straight; exact I); eexists.
  - split; [|split; [|now apply plane_moved]]; [|reflexivity]. cbn [ent_transform fent]. unfold plane_transform, point_transform, fplane. cbn [porigin pnormal]. now rewrite f_aapply.
  - split; [|split; [|now apply disk_moved]]; [|reflexivity]. cbn [ent_transform fent]. unfold disk_transform, plane_transform, point_transform, fdisk, fplane. cbn [dradius dplane porigin pnormal]. now rewrite f_aapply.
  - split; [|split; [|now apply ball_moved]]; [|reflexivity]. cbn [ent_transform fent]. unfold ball_transform, point_transform, fball. cbn [bl_radius bl_center]. now rewrite f_aapply.
Qed.

(** Translations. *)
Definition shift (v : pt) : affine R := Aff (M3 1 0 0 0 1 0 0 0 1) v.
Lemma shift_rigid : forall v, rigid (shift v).
Proof. intros v. unfold rigid, shift, rotation. cbn [lin]. vunf. cbn [m00 m01 m02 m10 m11 m12 m20 m21 m22]. repeat split; try ring. f_equal; ring. Qed.
Lemma shift_lin : forall v p, papply (lin (shift v)) p = p.
Proof. intros v p. apply vec_eq; unfold shift; vunf; cbn [lin m00 m01 m02 m10 m11 m12 m20 m21 m22]; ring. Qed.
Lemma shift_place : forall v p, place (shift v) p = padd p v.
Proof. intros v p. unfold place. rewrite shift_lin. apply vec_eq; unfold shift; vunf; cbn [tra]; ring. Qed.
Lemma moved_ext : forall f g e e', (forall q, f q = g q) -> moved f e e' -> moved g e e'.
Proof.
  intros f g e e' H M q. rewrite (M q). split; intros (x & Hx & E); exists x; split; auto; [now rewrite <- H|now rewrite H].
Qed.
Lemma translate_same : forall v e, ent_translate (fv v) (fent e) = ent_transform (fa (shift v)) (fent e).
Proof.
  intros v e. assert (A : forall p, vadd (fv v) (fv p) = point_transform (fa (shift v)) (fv p)).
  { intros p. unfold point_transform. rewrite f_aapply, f_add, shift_place. f_equal. apply vec_eq; vunf; ring. }
  assert (A' : forall p, vadd (fv p) (fv v) = point_transform (fa (shift v)) (fv p)).
  { intros p. unfold point_transform. now rewrite f_aapply, f_add, shift_place. }
  assert (B : forall d, vec_transform (fa (shift v)) (fv d) = fv d).
  { intros d. unfold vec_transform, fa. cbn [lin]. rewrite f_apply. now rewrite shift_lin. }
  destruct e; cbn [ent_translate ent_transform fent].
  - reflexivity.
  - unfold point_translate. now rewrite A'.
  - unfold line_translate, line_transform, fline. cbn [lorigin ldir]. now rewrite A, B.
  - unfold ray_translate, ray_transform, fray. cbn [ry_origin ry_dir]. now rewrite A, B.
  - unfold plane_translate, plane_transform, fplane. cbn [porigin pnormal]. now rewrite A, B.
  - unfold seg_translate, seg_transform, fseg. cbn [sv0 sv1]. now rewrite !A.
  - unfold tri_translate, tri_transform, ftri. cbn [tv0 tv1 tv2]. now rewrite !A.
  - unfold disk_translate, disk_transform, plane_translate, plane_transform, fdisk, fplane. cbn [dradius dplane porigin pnormal]. now rewrite A, B.
  - unfold ball_translate, ball_transform, fball, point_translate. cbn [bl_radius bl_center]. now rewrite A'.
Qed.
Lemma translate_moves : forall v e,
  exists e', ent_translate (fv v) (fent e) = fent e' /\ level e' = level e /\ moved (fun q => padd q v) e e'.
Proof.
  intros v e. rewrite translate_same. destruct (transform_rigid (shift v) e (shift_rigid v)) as (e' & E & L & M).
  exists e'. repeat split; auto; [|]; intros H; apply (moved_ext _ _ _ _ (shift_place v) M); exact H.
Qed.
(** Rotations about an axis through the origin. *)
Lemma rotate_same : forall t u e, ent_rotate (Fin t) (fv u) (fent e) = ent_transform (fa (Aff (rrot t u) (V 0 0 0))) (fent e).
Proof.
  intros t u e. unfold ent_rotate. f_equal. unfold arotate, aident, fa. cbn [lin tra]. rewrite f_angle_axis. f_equal.
  change (@mident er _) with (fm (M3 1 0 0 0 1 0 0 0 1)). rewrite f_mmul. f_equal.
  unfold pmul. vunf. cbn [m00 m01 m02 m10 m11 m12 m20 m21 m22]. destruct (rrot t u) as [a b c d e0 f g h k]. cbn [Vec.m00 Vec.m01 Vec.m02 Vec.m10 Vec.m11 Vec.m12 Vec.m20 Vec.m21 Vec.m22]. f_equal; ring.
Qed.
Lemma rrot_turn : forall t u p, is_unit u -> place (Aff (rrot t u) (V 0 0 0)) p = turn t u p.
Proof.
  intros t u p U. unfold place, turn. cbn [lin tra]. unfold rrot. apply vec_eq; vunf; cbn [m00 m01 m02 m10 m11 m12 m20 m21 m22]; ring.
Qed.
Lemma rotate_moves : forall t u e, is_unit u ->
  exists e', ent_rotate (Fin t) (fv u) (fent e) = fent e' /\ level e' = level e /\ moved (turn t u) e e'.
Proof.
  intros t u e U. rewrite rotate_same. destruct (transform_rigid (Aff (rrot t u) (V 0 0 0)) e (rrot_rotation t u U)) as (e' & E & L & M).
  exists e'. repeat split; auto; intros H; apply (moved_ext _ _ _ _ (fun p => rrot_turn t u p U) M); exact H.
Qed.

(** ** Operations that keep the points. *)
Lemma punit_scale : forall v, exists k, 0 < k /\ punit v = pscale k v.
Proof.
  intros v. destruct (Rle_lt_dec (pdot v v) 0) as [L|L].
  - exists 1. split; [lra|]. rewrite punit_zero by (pose proof (pdot_pos v); lra). apply vec_eq; vunf; ring.
  - exists (/ pnorm v). split; [|now apply punit_pos]. apply Rinv_0_lt_compat. unfold pnorm. now apply sqrt_lt_R0.
Qed.
Lemma line_scale : forall o d k, k <> 0 -> same_points (ELine (Line o d)) (ELine (Line o (pscale k d))).
Proof.
  intros o d k K q. cbn [in_entity]. unfold on_line. cbn [lorigin ldir]. split; intros (t & ->).
  - exists (t / k). apply vec_eq; vunf; field; exact K.
  - exists (t * k). apply vec_eq; vunf; ring.
Qed.
Lemma ray_scale : forall o d k, 0 < k -> same_points (ERay (Ray o d)) (ERay (Ray o (pscale k d))).
Proof.
  intros o d k K q. cbn [in_entity]. unfold on_ray. cbn [ry_origin ry_dir]. split; intros (t & H & ->).
  - exists (t / k). split; [now apply Rle_mult_inv_pos|]. apply vec_eq; vunf; field; lra.
  - exists (t * k). split; [now apply Rmult_le_pos; lra|]. apply vec_eq; vunf; ring.
Qed.
Lemma plane_scale : forall o n k q, k <> 0 -> on_plane (Plane o n) q <-> on_plane (Plane o (pscale k n)) q.
Proof.
  intros o n k q K. unfold on_plane. cbn [porigin pnormal]. rewrite pdot_scale_r. split; intros H; [rewrite H; ring|].
  apply Rmult_integral in H. tauto.
Qed.
Lemma renaming : 
  (forall l, exists l', line_reverse (fline l) = fline l' /\ same_points (ELine l) (ELine l')) /\
  (forall l, exists l', line_normalize (fline l) = fline l' /\ same_points (ELine l) (ELine l')) /\
  (forall r, exists r', ray_normalize (fray r) = fray r' /\ same_points (ERay r) (ERay r')) /\
  (forall p, exists p', plane_reverse (fplane p) = fplane p' /\ same_points (EPlane p) (EPlane p')) /\
  (forall p, exists p', plane_normalize (fplane p) = fplane p' /\ same_points (EPlane p) (EPlane p')) /\
  (forall s, exists s', seg_swap (fseg s) = fseg s' /\ same_points (ESegment s) (ESegment s')) /\
  (forall d, exists d', disk_reverse (fdisk d) = fdisk d' /\ same_points (EDisk d) (EDisk d')) /\
  (forall d, exists d', disk_normalize (fdisk d) = fdisk d' /\ same_points (EDisk d) (EDisk d')) /\
  (forall t i j, (i < 3)%nat -> (j < 3)%nat ->
     exists t', tri_swap i j (ftri t) = Ret (ftri t') /\ same_points (ETriangle t) (ETriangle t')).
Proof.
  repeat split.
  - intros [o d]. exists (Line o (pscale (-1) d)). split; [unfold line_reverse, fline; cbn [lorigin ldir]; now rewrite f_opp|]. apply line_scale. lra.
  - intros [o d]. exists (Line o (punit d)). split; [unfold line_normalize, fline; cbn [lorigin ldir]; now rewrite f_normalized|].
    destruct (punit_scale d) as (k & K & ->). apply line_scale. lra.
  - intros [o d]. exists (Ray o (punit d)). split; [unfold ray_normalize, fray; cbn [ry_origin ry_dir]; now rewrite f_normalized|].
    destruct (punit_scale d) as (k & K & ->). now apply ray_scale.
  - intros [o d]. exists (Plane o (pscale (-1) d)). split; [unfold plane_reverse, fplane; cbn [porigin pnormal]; now rewrite f_opp|].
    intros q. apply plane_scale. lra.
  - intros [o d]. exists (Plane o (punit d)). split; [unfold plane_normalize, fplane; cbn [porigin pnormal]; now rewrite f_normalized|].
    destruct (punit_scale d) as (k & K & ->). intros q. apply plane_scale. lra.
  - intros [a b]. exists (Segment b a). split; [reflexivity|]. intros q. cbn [in_entity]. unfold in_segment. cbn [sv0 sv1].
    split; intros (t & H & ->); exists (1 - t); (split; [lra|]); apply vec_eq; vunf; ring.
  - intros [r [o d]]. exists (Disk r (Plane o (pscale (-1) d))).
    split; [unfold disk_reverse, plane_reverse, fdisk, fplane; cbn [dradius dplane porigin pnormal]; now rewrite f_opp|].
    intros q. cbn [in_entity]. unfold in_disk. cbn [dplane dradius porigin]. rewrite (plane_scale o d (-1)) by lra. tauto.
  - intros [r [o d]]. exists (Disk r (Plane o (punit d))).
    split; [unfold disk_normalize, plane_normalize, fdisk, fplane; cbn [dradius dplane porigin pnormal]; now rewrite f_normalized|].
    destruct (punit_scale d) as (k & K & ->).
    intros q. cbn [in_entity]. unfold in_disk. cbn [dplane dradius porigin]. rewrite (plane_scale o d k) by lra. tauto.
  - intros [a b c] i j I J. destruct i as [|[|[|i]]]; [| | |lia]; (destruct j as [|[|[|j]]]; [| | |lia]); cbn [tri_swap].
    1, 5, 9: exists (Triangle a b c); split; [reflexivity|intros q; tauto].
    1, 3: exists (Triangle b a c); split; [reflexivity|].
    3, 5: exists (Triangle c b a); split; [reflexivity|].
    5, 6: exists (Triangle a c b); split; [reflexivity|].
    all: intros q; cbn [in_entity]; unfold in_triangle, near_triangle.
    1, 2: split; intros (x & y & z & H1 & H2 & H3 & H4 & ->); exists y, x, z; repeat split; auto; try lra; apply vec_eq; vunf; ring.
    1, 2: split; intros (x & y & z & H1 & H2 & H3 & H4 & ->); exists z, y, x; repeat split; auto; try lra; apply vec_eq; vunf; ring.
    1, 2: split; intros (x & y & z & H1 & H2 & H3 & H4 & ->); exists x, z, y; repeat split; auto; try lra; apply vec_eq; vunf; ring.
Qed.
(** The reversed ray is the other half of the line. *)
Lemma ray_halves : forall r, exists r', ray_reverse (fray r) = fray r' /\
  (forall q, on_line (ray_line r) q <-> on_ray r q \/ on_ray r' q) /\
  (ry_dir r <> V 0 0 0 -> forall q, on_ray r q /\ on_ray r' q <-> q = ry_origin r).
Proof.
  intros [o d]. exists (Ray o (pscale (-1) d)). split; [unfold ray_reverse, fray; cbn [ry_origin ry_dir]; now rewrite f_opp|].
  unfold on_line, on_ray, ray_line. cbn [ry_origin ry_dir lorigin ldir]. split.
  - intros q. split.
    + intros (t & ->). destruct (Rle_lt_dec 0 t); [left; exists t; auto|right; exists (- t)]. split; [lra|]. apply vec_eq; vunf; ring.
    + intros [(t & H & ->)|(t & H & ->)]; [now exists t|exists (- t)]. apply vec_eq; vunf; ring.
  - intros D q. split.
    + intros ((t & H & ->) & (s & H' & E)). assert (t = 0 \/ 0 < t) as [->|P] by lra; [apply vec_eq; vunf; ring|exfalso].
      apply D. destruct d as [x y z]. destruct o as [u v w]. vunf. injection E as E1 E2 E3.
      assert (Q : 0 < t + s) by lra. assert (x * (t + s) = 0 /\ y * (t + s) = 0 /\ z * (t + s) = 0) as (A & B & C) by (repeat split; lra).
      f_equal; [apply Rmult_integral in A|apply Rmult_integral in B|apply Rmult_integral in C]; intuition lra.
    + intros ->. split; exists 0; split; try lra; apply vec_eq; vunf; ring.
Qed.

(** ** Bounding boxes. *)
Lemma Rmin3_le : forall a b c, Rmin a (Rmin b c) <= a /\ Rmin a (Rmin b c) <= b /\ Rmin a (Rmin b c) <= c.
Proof.
  intros a b c. pose proof (Rmin_l a (Rmin b c)). pose proof (Rmin_r a (Rmin b c)). pose proof (Rmin_l b c). pose proof (Rmin_r b c). lra.
Qed.
Lemma Rmax3_le : forall a b c, a <= Rmax a (Rmax b c) /\ b <= Rmax a (Rmax b c) /\ c <= Rmax a (Rmax b c).
Proof.
  intros a b c. pose proof (Rmax_l a (Rmax b c)). pose proof (Rmax_r a (Rmax b c)). pose proof (Rmax_l b c). pose proof (Rmax_r b c). lra.
Qed.
Lemma combine2 : forall m M a b t, m <= a <= M -> m <= b <= M -> 0 <= t <= 1 -> m <= a + t * (b - a) <= M.
Proof. intros. nra. Qed.
Lemma combine3 : forall m M a b c x y z, m <= a <= M -> m <= b <= M -> m <= c <= M -> 0 <= x -> 0 <= y -> 0 <= z -> x + y + z = 1 ->
  m <= x * a + y * b + z * c <= M.
Proof. intros m M a b c x y z A B C X Y Z S. assert (x = 1 - y - z) as -> by lra. nra. Qed.
Lemma Rmin_in : forall a b m M, m <= a <= M -> m <= b <= M -> m <= Rmin a b <= M.
Proof. intros. unfold Rmin. destruct (Rle_dec a b); lra. Qed.
Lemma Rmax_in : forall a b m M, m <= a <= M -> m <= b <= M -> m <= Rmax a b <= M.
Proof. intros. unfold Rmax. destruct (Rle_dec a b); lra. Qed.

Lemma vertex_in : forall t, in_triangle t (tv0 t) /\ in_triangle t (tv1 t) /\ in_triangle t (tv2 t).
Proof.
  intros t. unfold in_triangle, near_triangle. split; [exists 1, 0, 0|split; [exists 0, 1, 0|exists 0, 0, 1]];
  repeat split; try lra; apply vec_eq; vunf; ring.
Qed.
Lemma end_in : forall s, in_segment s (sv0 s) /\ in_segment s (sv1 s).
Proof. intros s. unfold in_segment. split; [exists 0|exists 1]; (split; [lra|]); apply vec_eq; vunf; ring. Qed.
Lemma abs_le : forall x r, Rabs x <= r -> - r <= x <= r.
Proof. intros x r H. unfold Rabs in H. destruct (Rcase_abs x); lra. Qed.
Lemma ball_coord : forall c q r, dist q c <= r ->
  (vx c - r <= vx q <= vx c + r) /\ (vy c - r <= vy q <= vy c + r) /\ (vz c - r <= vz q <= vz c + r).
Proof.
  intros c q r H.
  assert (A : forall u, is_unit u -> Rabs (pdot (psub q c) u) <= r).
  { intros u U. apply Rle_trans with (dist q c); [|exact H]. unfold dist.
    pose proof (cauchy_schwarz (psub q c) u) as CS. unfold pnorm. unfold is_unit in U. rewrite U, Rmult_1_r in CS.
    rewrite <- sqrt_Rsqr_abs. apply sqrt_le_1_alt. unfold Rsqr. exact CS. }
  assert (A1 := A (V 1 0 0)). assert (A2 := A (V 0 1 0)). assert (A3 := A (V 0 0 1)). clear A.
  assert (U1 : is_unit (V 1 0 0)) by (vunf; ring). assert (U2 : is_unit (V 0 1 0)) by (vunf; ring). assert (U3 : is_unit (V 0 0 1)) by (vunf; ring).
  specialize (A1 U1). specialize (A2 U2). specialize (A3 U3). clear U1 U2 U3. vunf.
  apply abs_le in A1. apply abs_le in A2. apply abs_le in A3. repeat split; lra.
Qed.
Lemma ball_extreme : forall c r u, 0 <= r -> is_unit u -> dist (padd c (pscale r u)) c <= r.
Proof.
  intros c r u R U. unfold dist. replace (psub (padd c (pscale r u)) c) with (pscale r u) by (apply vec_eq; vunf; ring).
  unfold pnorm. rewrite pdot_scale_l, pdot_scale_r. unfold is_unit in U. rewrite U.
  replace (r * (r * 1)) with (r * r) by ring. rewrite sqrt_square by exact R. lra.
Qed.

Lemma f_cube : forall r c, cube_clamp (Fin r) (fv c) =
  (fv (V (vx c - r) (vy c - r) (vz c - r)), fv (V (vx c + r) (vy c + r) (vz c + r))).
Proof. intros r c. unfold cube_clamp, fv. cbn [vx vy vz]. push. do 2 f_equal; f_equal; ring. Qed.
Lemma f_seg_clamp : forall a b, seg_clamp (fseg (Segment a b)) =
  (fv (V (Rmin (vx a) (vx b)) (Rmin (vy a) (vy b)) (Rmin (vz a) (vz b))), fv (V (Rmax (vx a) (vx b)) (Rmax (vy a) (vy b)) (Rmax (vz a) (vz b)))).
Proof. intros a b. unfold seg_clamp, fseg. cbn [sv0 sv1]. unfold fv. cbn [vx vy vz]. now rewrite !e_min, !e_max. Qed.
Lemma f_tri_clamp : forall a b c, tri_clamp (ftri (Triangle a b c)) =
  (fv (V (Rmin (vx a) (Rmin (vx b) (vx c))) (Rmin (vy a) (Rmin (vy b) (vy c))) (Rmin (vz a) (Rmin (vz b) (vz c)))),
   fv (V (Rmax (vx a) (Rmax (vx b) (vx c))) (Rmax (vy a) (Rmax (vy b) (vy c))) (Rmax (vz a) (Rmax (vz b) (vz c))))).
Proof. intros a b c. unfold tri_clamp, ftri. cbn [tv0 tv1 tv2]. unfold fv. cbn [vx vy vz]. now rewrite !e_min, !e_max. Qed.
Definition rclamp (e : entity R) : option (pt * pt) :=
  match e with
  | ENone | ELine _ | ERay _ | EPlane _ => None
  | EPoint p => Some (p, p)
  | ESegment (Segment a b) =>
    Some (V (Rmin (vx a) (vx b)) (Rmin (vy a) (vy b)) (Rmin (vz a) (vz b)), V (Rmax (vx a) (vx b)) (Rmax (vy a) (vy b)) (Rmax (vz a) (vz b)))
  | ETriangle (Triangle a b c) =>
    Some (V (Rmin (vx a) (Rmin (vx b) (vx c))) (Rmin (vy a) (Rmin (vy b) (vy c))) (Rmin (vz a) (Rmin (vz b) (vz c))),
          V (Rmax (vx a) (Rmax (vx b) (vx c))) (Rmax (vy a) (Rmax (vy b) (vy c))) (Rmax (vz a) (Rmax (vz b) (vz c))))
  | EDisk (Disk r (Plane c _)) | EBall (Ball r c) =>
    Some (V (vx c - r) (vy c - r) (vz c - r), V (vx c + r) (vy c + r) (vz c + r))
  end.
Lemma f_clamp : forall e, ent_clamp (fent e) = match rclamp e with Some (l, h) => Some (fv l, fv h) | None => None end.
Proof.
  intros e. destruct e; cbn [ent_clamp fent rclamp]; try reflexivity.
  - destruct s. now rewrite f_seg_clamp.
  - destruct t. now rewrite f_tri_clamp.
  - destruct d as [r [c n]]. unfold disk_clamp, dcenter, fdisk, fplane. cbn [dradius dplane porigin]. now rewrite f_cube.
  - destruct b as [r c]. unfold ball_clamp, fball. cbn [bl_radius bl_center]. now rewrite f_cube.
Qed.
Lemma rclamp_encloses : forall e l h, rclamp e = Some (l, h) -> encloses l h e.
Proof.
  intros e l h H. destruct e; cbn [rclamp] in H; try discriminate H.
  - injection H as <- <-. intros q ->. unfold within. lra.
  - destruct s as [a b]. injection H; intros <- <-. clear H.
    intros q (t & T & ->). unfold within. cbn [sv0 sv1]. vunf.
    assert (P : forall a b, Rmin a b <= a + t * (b - a) <= Rmax a b).
    { intros a0 b0. apply combine2; auto; split; auto using Rmin_l, Rmin_r, Rmax_l, Rmax_r. }
    repeat split; apply P.
  - destruct t as [a b c]. injection H; intros <- <-. clear H.
    intros q (x & y & z & X & Y & Z & S & ->). unfold within. vunf.
    assert (P : forall a b c, Rmin a (Rmin b c) <= x * a + y * b + z * c <= Rmax a (Rmax b c)).
    { intros a0 b0 c0. destruct (Rmin3_le a0 b0 c0) as (M1 & M2 & M3). destruct (Rmax3_le a0 b0 c0) as (N1 & N2 & N3). apply combine3; lra. }
    repeat split; apply P.
  - destruct d as [r [c n]]. injection H; intros <- <-. clear H. intros q (_ & D). apply ball_coord in D. exact D.
  - destruct b as [r c]. injection H; intros <- <-. clear H. intros q D. apply ball_coord in D. exact D.
Qed.
Lemma clamp_some : forall e lo hi, ent_clamp (fent e) = Some (lo, hi) ->
  exists l h, lo = fv l /\ hi = fv h /\ rclamp e = Some (l, h).
Proof.
  intros e lo hi H. rewrite f_clamp in H. destruct (rclamp e) as [[l h]|]; [|discriminate H]. exists l, h. repeat split; congruence.
Qed.
Lemma clamp_encloses_entity : forall e lo hi, ent_clamp (fent e) = Some (lo, hi) ->
  exists l h, lo = fv l /\ hi = fv h /\ encloses l h e.
Proof.
  intros e lo hi H. destruct (clamp_some e lo hi H) as (l & h & -> & -> & E). exists l, h. auto using rclamp_encloses.
Qed.
(** The smallest box, except for disks. *)
Lemma rclamp_smallest : forall e l h, (forall d, e <> EDisk d) -> well_posed e -> rclamp e = Some (l, h) -> smallest_box l h e.
Proof.
  intros e l h ND W H. split; [now apply rclamp_encloses|]. intros l' h' E. destruct e; cbn [rclamp] in H; try discriminate H.
  - injection H as <- <-. split; now apply E.
  - destruct s as [a b]. injection H; intros <- <-. clear H. destruct (end_in (Segment a b)) as [A B].
    apply E in A. apply E in B. cbn [sv0 sv1] in A, B. unfold within in *. cbn [vx vy vz].
    destruct A as (A1 & A2 & A3), B as (B1 & B2 & B3). refine (conj (conj _ (conj _ _)) (conj _ (conj _ _))); (apply Rmin_in || apply Rmax_in); assumption.
  - destruct t as [a b c]. injection H; intros <- <-. clear H. destruct (vertex_in (Triangle a b c)) as (A & B & C).
    apply E in A. apply E in B. apply E in C. cbn [tv0 tv1 tv2] in A, B, C. unfold within in *. cbn [vx vy vz].
    destruct A as (A1 & A2 & A3), B as (B1 & B2 & B3), C as (C1 & C2 & C3).
    refine (conj (conj _ (conj _ _)) (conj _ (conj _ _))); repeat (apply Rmin_in || apply Rmax_in); assumption.
  - destruct (ND d eq_refl).
  - destruct b as [r c]. injection H; intros <- <-. clear H. cbn [well_posed bl_radius] in W.
    assert (G : forall u, is_unit u -> within l' h' (padd c (pscale r u))).
    { intros u U. apply E. cbn [in_entity]. unfold in_ball. cbn [bl_radius bl_center]. now apply ball_extreme. }
    assert (G1 := G (V 1 0 0) ltac:(vunf; ring)). assert (G2 := G (V 0 1 0) ltac:(vunf; ring)). assert (G3 := G (V 0 0 1) ltac:(vunf; ring)).
    assert (G4 := G (V (-1) 0 0) ltac:(vunf; ring)). assert (G5 := G (V 0 (-1) 0) ltac:(vunf; ring)). assert (G6 := G (V 0 0 (-1)) ltac:(vunf; ring)).
    clear - G1 G2 G3 G4 G5 G6. unfold within in *. vunf. lra.
Qed.
Lemma clamp_smallest : forall e lo hi, (forall d, e <> EDisk d) -> well_posed e -> ent_clamp (fent e) = Some (lo, hi) ->
  exists l h, lo = fv l /\ hi = fv h /\ smallest_box l h e.
Proof.
  intros e lo hi ND W H. destruct (clamp_some e lo hi H) as (l & h & -> & -> & E). exists l, h. auto using rclamp_smallest.
Qed.
(** The box of a disk is the smallest one around the ball with the same
    centre and radius. *)
Lemma clamp_disk : forall d lo hi, 0 <= dradius d -> ent_clamp (fent (EDisk d)) = Some (lo, hi) ->
  exists l h, lo = fv l /\ hi = fv h /\ smallest_box l h (EBall (Ball (dradius d) (porigin (dplane d)))).
Proof.
  intros [r [c n]] lo hi R H. apply (clamp_smallest (EBall (Ball r c))); [discriminate|exact R|]. rewrite f_clamp in *. exact H.
Qed.

(** ** Unbounded entities. *)
Lemma unbounded_dir : forall (S : pt -> Prop) o d, d <> V 0 0 0 -> (forall t, 0 <= t -> S (padd o (pscale t d))) ->
  ~ exists lo hi, forall q, S q -> within lo hi q.
Proof.
  intros S o d D A (lo & hi & E).
  assert (P : 0 < pdot d d).
  { destruct (Rle_lt_dec (pdot d d) 0) as [L|L]; [exfalso|exact L]. apply D. destruct d as [x y z]. vunf. f_equal; nra. }
  set (m := vx d * vx hi + vy d * vy hi + vz d * vz hi - (vx d * vx lo + vy d * vy lo + vz d * vz lo)).
  assert (B : forall t, 0 <= t -> t * pdot d d <= Rabs (vx d) * (vx hi - vx lo) + Rabs (vy d) * (vy hi - vy lo) + Rabs (vz d) * (vz hi - vz lo)).
  { intros t T. pose proof (E _ (A t T)) as W. pose proof (E _ (A 0 ltac:(lra))) as W0. unfold within in *. vunf.
    assert (Q : forall x a l h, l <= a + t * x <= h -> l <= a + 0 * x <= h -> t * (x * x) <= Rabs x * (h - l)).
    { intros x a l h H H0. unfold Rabs. destruct (Rcase_abs x); nra. }
    destruct W as (W1 & W2 & W3), W0 as (V1 & V2 & V3).
    pose proof (Q _ _ _ _ W1 V1). pose proof (Q _ _ _ _ W2 V2). pose proof (Q _ _ _ _ W3 V3). lra. }
  set (M := Rabs (vx d) * (vx hi - vx lo) + Rabs (vy d) * (vy hi - vy lo) + Rabs (vz d) * (vz hi - vz lo)) in *.
  assert (M0 : 0 <= M). { specialize (B 0 ltac:(lra)). lra. }
  assert (T : 0 <= (M + 1) / pdot d d). { apply Rle_mult_inv_pos; lra. }
  specialize (B _ T). unfold Rdiv in B. rewrite Rmult_assoc, Rinv_l in B by lra. lra.
Qed.
Lemma perpendicular : forall n, exists d, d <> V 0 0 0 /\ pdot d n = 0.
Proof.
  intros [x y z]. destruct (Req_dec x 0) as [->|X].
  - exists (V 1 0 0). split; [intros H; injection H; lra|vunf; ring].
  - exists (V y (- x) 0). split; [intros H; injection H; lra|vunf; ring].
Qed.
Lemma clamp_none : forall e, well_posed e -> (ent_clamp (fent e) = None <-> ~ bounded e).
Proof.
  intros e W. rewrite f_clamp. split.
  - destruct (rclamp e) as [[l h]|] eqn:E; [discriminate|]. intros _ ((q & Q) & B). destruct e; cbn [rclamp] in E; try (destruct s, t || idtac; discriminate E).
    + exact Q.
    + refine (unbounded_dir (in_entity (ELine l)) (lorigin l) (ldir l) W _ B). intros t _. now exists t.
    + refine (unbounded_dir (in_entity (ERay r)) (ry_origin r) (ry_dir r) W _ B). intros t T. now exists t.
    + destruct (perpendicular (pnormal p)) as (d & D & N). refine (unbounded_dir (in_entity (EPlane p)) (porigin p) d D _ B).
      intros t _. cbn [in_entity]. unfold on_plane. replace (psub (padd (porigin p) (pscale t d)) (porigin p)) with (pscale t d) by (apply vec_eq; vunf; ring).
      rewrite pdot_scale_l, N. ring.
    + destruct s; discriminate E.
    + destruct t; discriminate E.
    + destruct d as [r [c n]]; discriminate E.
    + destruct b; discriminate E.
  - destruct (rclamp e) as [[l h]|] eqn:E; [|reflexivity]. intros NB. exfalso. apply NB. split; [|exists l, h; now apply rclamp_encloses].
    destruct e; cbn [rclamp] in E; try discriminate E.
    + now exists p.
    + exists (sv0 s). apply end_in.
    + exists (tv0 t). apply vertex_in.
    + exists (porigin (dplane d)). cbn [in_entity]. unfold in_disk, on_plane. cbn [well_posed] in W.
      replace (psub (porigin (dplane d)) (porigin (dplane d))) with (V 0 0 0) by (apply vec_eq; vunf; ring).
      split; [vunf; ring|]. unfold dist. replace (psub (porigin (dplane d)) (porigin (dplane d))) with (V 0 0 0) by (apply vec_eq; vunf; ring).
      unfold pnorm. replace (pdot (V 0 0 0) (V 0 0 0)) with 0 by (vunf; ring). rewrite sqrt_0. exact W.
    + exists (bl_center b). cbn [in_entity well_posed] in *. unfold in_ball, dist.
      replace (psub (bl_center b) (bl_center b)) with (V 0 0 0) by (apply vec_eq; vunf; ring).
      unfold pnorm. replace (pdot (V 0 0 0) (V 0 0 0)) with 0 by (vunf; ring). rewrite sqrt_0. exact W.
Qed.
Lemma clampable_flag : forall {K} {NK : Num K} (e : entity K), is_clampable e = true <-> ent_clamp e <> None.
Proof. intros K NK e. destruct e; cbn [is_clampable ent_clamp]; split; intros H; try discriminate; try congruence; now destruct H. Qed.
