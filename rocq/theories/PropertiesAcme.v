(** * Properties of the acme entities and of their intersections (exact
    arithmetic, ER.v). *)
From Coq Require Import ZArith Bool List Reals Lra Lia.
From Verif Require Import Base Num Vec Aabb Geom Acme ER SpecGeom SpecAcme.
From Verif Require Import ProofGeom ProofInt ProofAcme ProofCross.
Import ListNotations.
Local Open Scope R_scope.

(** ** C73 *)
Theorem C73_disk_refuted : exists d : disk R, 0 < dradius d /\
  disk_area (fdisk d) <> Fin (PI * dradius d ^ 2) /\ disk_perimeter (fdisk d) <> Fin (2 * PI * dradius d).
Proof.
  exists (Disk 1 (Plane (V 0 0 0) (V 0 0 1))). cbn [dradius]. split; [lra|].
  destruct (disk_measures (Disk 1 (Plane (V 0 0 0) (V 0 0 1)))) as [-> ->]. cbn [dradius].
  pose proof PI_RGT_0. split; intros H1; apply (f_equal (fun e => match e with Fin x => x | _ => 0 end)) in H1; lra.
Qed.
Print Assumptions C73_disk_refuted.
(** The two measures are exchanged. *)
Theorem C73_disk_exchanged : forall d : disk R,
  disk_area (fdisk d) = Fin (2 * PI * dradius d) /\ disk_perimeter (fdisk d) = Fin (PI * dradius d * dradius d).
Proof. exact disk_measures. Qed.
Print Assumptions C73_disk_exchanged.
Theorem C73_ball : forall b : ball R,
  ball_area (fball b) = Fin (4 * PI * bl_radius b ^ 2) /\ ball_volume (fball b) = Fin (4 / 3 * PI * bl_radius b ^ 3).
Proof. exact ball_measures. Qed.
Print Assumptions C73_ball.
Theorem C73_segment : forall s, seg_length (fseg s) = Fin (dist (sv0 s) (sv1 s)).
Proof. exact segment_measure. Qed.
Print Assumptions C73_segment.
Theorem C73_triangle_perimeter : forall t, tri_perimeter (ftri t) =
  Fin (dist (tv0 t) (tv1 t) + dist (tv1 t) (tv2 t) + dist (tv2 t) (tv0 t)).
Proof. exact triangle_perimeter. Qed.
Print Assumptions C73_triangle_perimeter.
(** Half the base times the height. *)
Theorem C73_triangle_area : forall t, 0 < dist (tv0 t) (tv1 t) ->
  tri_area (ftri t) = Fin (dist (tv0 t) (tv1 t) * triangle_height t / 2).
Proof. exact triangle_area. Qed.
Print Assumptions C73_triangle_area.
Example C73_example : 0 < dist (tv0 (Triangle (V 0 0 0) (V 3 4 0) (V 0 0 2))) (tv1 (Triangle (V 0 0 0) (V 3 4 0) (V 0 0 2))).
Proof.
  cbn [tv0 tv1]. unfold dist. rewrite (proj2 (pnorm_eq _ 5 ltac:(lra))); [lra|]. vunf. ring.
Qed.

(** ** C76 *)
Theorem C76_three_planes : forall p0 p1 p2 tol, 0 < tol ->
  match int_three_planes (fplane p0) (fplane p1) (fplane p2) (Fin tol) with
  | Some v => tol <= Rabs (triple (pnormal p0) (pnormal p1) (pnormal p2)) /\
      exists q, v = fv q /\ forall x, on_plane p0 x /\ on_plane p1 x /\ on_plane p2 x <-> x = q
  | None => Rabs (triple (pnormal p0) (pnormal p1) (pnormal p2)) < tol
  end.
Proof. exact three_planes. Qed.
Print Assumptions C76_three_planes.
Example C76_example : exists q, int_three_planes (fplane (Plane (V 1 2 3) (V 1 0 0))) (fplane (Plane (V 4 5 6) (V 0 1 0)))
    (fplane (Plane (V 7 8 9) (V 0 0 1))) (Fin eps) = Some (fv q) /\ q = V 1 5 9.
Proof.
  pose proof (three_planes (Plane (V 1 2 3) (V 1 0 0)) (Plane (V 4 5 6) (V 0 1 0)) (Plane (V 7 8 9) (V 0 0 1)) eps eps_pos) as H.
  cbn [pnormal] in H. replace (triple (V 1 0 0) (V 0 1 0) (V 0 0 1)) with 1 in H by (unfold triple; vunf; ring).
  rewrite Rabs_R1 in H. destruct (int_three_planes _ _ _ _) as [v|].
  - destruct H as (_ & q & -> & H). exists q. split; auto. symmetry. apply H. unfold on_plane. vunf. lra.
  - pose proof eps_lt1. lra.
Qed.

(** ** C77 *)
Theorem C77_line_ball : forall l b tol, 0 < pdot (ldir l) (ldir l) -> 0 <= bl_radius b -> 0 < tol ->
  match int_line_ball (fline l) (fball b) (Fin tol) with
  | Some s => exists s', s = fseg s' /\ forall q, in_segment s' q <-> on_line l q /\ in_ball b q
  | None => bl_radius b * bl_radius b - line_dist2 l (bl_center b) <= tol
  end.
Proof. intros [o d] b tol H1 H2 H3. exact (line_ball_exact o d b tol H1 H2 H3). Qed.
Print Assumptions C77_line_ball.
Theorem C77_ray_ball : forall r b tol, 0 < pdot (ry_dir r) (ry_dir r) -> 0 <= bl_radius b -> 0 < tol ->
  match int_ray_ball (fray r) (fball b) (Fin tol) with
  | Some s => exists s', s = fseg s' /\ forall q, in_segment s' q <-> on_ray r q /\ in_ball b q
  | None => bl_radius b * bl_radius b - line_dist2 (ray_line r) (bl_center b) <= tol \/
      forall q, ~ (on_ray r q /\ in_ball b q)
  end.
Proof. intros [o d] b tol H1 H2 H3. exact (ray_ball_exact o d b tol H1 H2 H3). Qed.
Print Assumptions C77_ray_ball.
(** A segment of length 4 through the centre of the unit ball: the segment
    returned ends outside the ball. *)
Definition long_seg : segment R := Segment (V (-2) 0 0) (V 2 0 0).
Definition unit_ball : ball R := Ball 1 (V 0 0 0).
Theorem C77_segment_ball_refuted : exists s', int_seg_ball (fseg long_seg) (fball unit_ball) (Fin eps) = Some (fseg s') /\
  in_segment s' (V 2 0 0) /\ ~ in_ball unit_ball (V 2 0 0).
Proof.
  unfold int_seg_ball, seg_vector, fseg, fball, long_seg, unit_ball. cbn [sv0 sv1 bl_radius bl_center]. push.
  replace (pdot (psub (V 2 0 0) (V (-2) 0 0)) (psub (V (-2) 0 0) (V 0 0 0))) with (-8) by (vunf; ring).
  replace (pdot (psub (V (-2) 0 0) (V 0 0 0)) (psub (V (-2) 0 0) (V 0 0 0))) with 4 by (vunf; ring).
  replace (rltb eps (-8 * -8 - (4 - 1 * 1))) with true by (symmetry; apply rltb_true; pose proof eps_lt1; lra).
  rewrite e_nsqrt by lra. push. set (rt := sqrt _). assert (R1 : 7 <= rt) by (unfold rt; rewrite <- (sqrt_square 7) by lra; apply sqrt_le_1_alt; lra).
  assert (R2 : rt <= 8) by (unfold rt; rewrite <- (sqrt_square 8) by lra; apply sqrt_le_1_alt; lra).
  replace (rltb (- -8 - rt) 0) with false by (symmetry; apply rltb_false; lra).
  replace (rltb 1 (- -8 + rt)) with true by (symmetry; apply rltb_true; lra).
  destruct (rltb 1 (- -8 - rt)) eqn:E; cbn [andb orb].
  { rb. exfalso. assert (7 < rt); [|lra]. unfold rt. rewrite <- (sqrt_square 7) by lra. apply sqrt_lt_1_alt. lra. }
  rewrite (Rmax_left (- -8 + rt) 0), (Rmin_right (- -8 + rt) 1) by lra. rewrite f_seg. eexists. split; [reflexivity|]. split.
  - exists 1. split; [lra|]. cbn [sv0 sv1]. apply vec_eq; vunf; ring.
  - unfold in_ball, dist. cbn [bl_center bl_radius]. rewrite (proj2 (pnorm_eq _ 2 ltac:(lra))); [lra|]. vunf. ring.
Qed.
Print Assumptions C77_segment_ball_refuted.
(** The answer is exact for segments of length one only. *)
Theorem C77_unit_segment_ball : forall s0 b tol, dist (sv0 s0) (sv1 s0) = 1 -> 0 <= bl_radius b -> 0 < tol ->
  match int_seg_ball (fseg s0) (fball b) (Fin tol) with
  | Some s => exists s', s = fseg s' /\ forall q, in_segment s' q <-> in_segment s0 q /\ in_ball b q
  | None => bl_radius b * bl_radius b - line_dist2 (seg_line s0) (bl_center b) <= tol \/
      forall q, ~ (in_segment s0 q /\ in_ball b q)
  end.
Proof. exact seg_ball_unit_exact. Qed.
Print Assumptions C77_unit_segment_ball.
Example C77_example : exists s, int_line_ball (fline (Line (V 0 0 0) (V 0 3 4))) (fball unit_ball) (Fin eps) = Some s.
Proof.
  pose proof (line_ball_exact (V 0 0 0) (V 0 3 4) unit_ball eps ltac:(vunf; lra) ltac:(cbn; lra) eps_pos) as H.
  destruct (int_line_ball _ _ _) as [s|]; [eauto|]. exfalso. unfold line_dist2, dist in H. rewrite pnorm_sq in H.
  unfold foot, unit_ball in H. vunf. cbn [bl_radius bl_center vx vy vz] in H. pose proof eps_lt1.
  match type of H with ?x <= _ => replace x with 1 in H by field end. lra.
Qed.

(** ** C78 *)
Theorem C78_plane_ball : forall p b,
  match int_plane_ball (fplane p) (fball b) with
  | Some d => exists d', d = fdisk d' /\ 0 <= dradius d' /\
      forall q, in_disk d' q <-> on_plane p q /\ in_ball b q
  | None => forall q, ~ (on_plane p q /\ in_ball b q)
  end.
Proof. exact plane_ball. Qed.
Print Assumptions C78_plane_ball.
Example C78_example : on_plane (Plane (V 0 0 (/ 2)) (V 0 0 3)) (V 0 0 (/ 2)) /\ in_ball unit_ball (V 0 0 (/ 2)).
Proof.
  split; [unfold on_plane; vunf; ring|]. unfold in_ball, dist. cbn [unit_ball bl_center bl_radius]. apply pnorm_le; [lra|]. vunf. lra.
Qed.

(** ** C79 *)
Theorem C79_ray_plane : forall r p tol, 0 < tol ->
  let at_ t := padd (ry_origin r) (pscale t (ry_dir r)) in
  match int_ray_plane (fray r) (fplane p) (Fin tol) with
  | Some v => exists t, tol < t /\ v = fv (at_ t) /\ forall x, on_ray r x /\ on_plane p x <-> x = at_ t
  | None => Rabs (pdot (ry_dir r) (pnormal p)) <= tol \/ forall t, tol < t -> ~ on_plane p (at_ t)
  end.
Proof. exact ray_plane_exact. Qed.
Print Assumptions C79_ray_plane.
(** A ray perpendicular to the plane that starts on it: no intersection is
    reported. *)
Theorem C79_ray_from_plane_refuted : forall tol, 0 < tol < 1 -> exists r p,
  is_unit (ry_dir r) /\ ry_dir r = pnormal p /\ on_ray r (porigin p) /\ on_plane p (porigin p) /\
  int_ray_plane (fray r) (fplane p) (Fin tol) = None.
Proof.
  intros tol Ht. exists (Ray (V 0 0 0) (V 0 0 1)), (Plane (V 0 0 0) (V 0 0 1)). cbn [ry_dir pnormal porigin].
  split; [vunf; ring|]. split; [reflexivity|]. split; [exists 0; split; [lra|cbn [ry_origin ry_dir]; apply vec_eq; vunf; ring]|].
  split; [unfold on_plane; vunf; ring|].
  pose proof (ray_plane_exact (Ray (V 0 0 0) (V 0 0 1)) (Plane (V 0 0 0) (V 0 0 1)) tol ltac:(lra)) as H. cbv zeta in H.
  destruct (int_ray_plane _ _ _) as [v|]; auto. exfalso. destruct H as (t & T & _ & H).
  assert (E : V 0 0 0 = padd (V 0 0 0) (pscale t (V 0 0 1))).
  { apply H. split; [exists 0; split; [lra|cbn [ry_origin ry_dir]; apply vec_eq; vunf; ring]|unfold on_plane; vunf; ring]. }
  apply (f_equal vz) in E. vunf. lra.
Qed.
Print Assumptions C79_ray_from_plane_refuted.
Theorem C79_plane_segment : forall p s tol, 0 < tol ->
  let at_ t := padd (sv0 s) (pscale t (psub (sv1 s) (sv0 s))) in
  match int_plane_seg (fplane p) (fseg s) (Fin tol) with
  | Some v => exists t, - tol <= t <= 1 + tol /\ v = fv (at_ t) /\
      forall x, on_line (seg_line s) x /\ on_plane p x <-> x = at_ t
  | None => Rabs (pdot (psub (sv1 s) (sv0 s)) (pnormal p)) <= tol \/
      forall x, in_segment s x -> ~ on_plane p x
  end.
Proof. exact plane_seg_exact. Qed.
Print Assumptions C79_plane_segment.
Example C79_example : exists v, int_ray_plane (fray (Ray (V 0 0 1) (V 1 0 (-1)))) (fplane (Plane (V 5 5 0) (V 0 0 1))) (Fin eps) = Some (fv v) /\ v = V 1 0 0.
Proof.
  pose proof (ray_plane_exact (Ray (V 0 0 1) (V 1 0 (-1))) (Plane (V 5 5 0) (V 0 0 1)) eps eps_pos) as H. cbv zeta in H.
  pose proof eps_lt1. assert (O : on_plane (Plane (V 5 5 0) (V 0 0 1)) (V 1 0 0)) by (unfold on_plane; vunf; ring).
  destruct (int_ray_plane _ _ _) as [v|].
  - destruct H as (t & T & -> & H). eexists. split; [reflexivity|]. symmetry. apply H. split; auto.
    exists 1. split; [lra|]. cbn [ry_origin ry_dir]. apply vec_eq; vunf; ring.
  - exfalso. destruct H as [H|H].
    + cbn [ry_dir pnormal] in H. replace (pdot (V 1 0 (-1)) (V 0 0 1)) with (-1) in H by (vunf; ring).
      rewrite (Rabs_left (-1)) in H by lra. lra.
    + apply (H 1); [lra|]. cbn [ry_origin ry_dir]. unfold on_plane. vunf. ring.
Qed.

(** ** C80 *)
Theorem C80_ray_triangle : forall r t tol, 0 < tol ->
  let at_ k := padd (ry_origin r) (pscale k (ry_dir r)) in
  match int_ray_triangle (fray r) (ftri t) (Fin tol) with
  | Some v => exists k, - tol <= k /\ v = fv (at_ k) /\ near_triangle tol t (at_ k) /\
      forall x, on_ray r x -> in_triangle t x -> x = at_ k
  | None => Rabs (triple (psub (tv1 t) (tv0 t)) (ry_dir r) (psub (tv2 t) (tv0 t))) < tol \/
      forall x, ~ (on_ray r x /\ in_triangle t x)
  end.
Proof. exact ray_triangle_exact. Qed.
Print Assumptions C80_ray_triangle.
Theorem C80_segment_triangle : forall s t tol, 0 < tol ->
  let at_ k := padd (sv0 s) (pscale k (psub (sv1 s) (sv0 s))) in
  match int_seg_triangle (fseg s) (ftri t) (Fin tol) with
  | Some v => exists k, - tol <= k <= 1 + tol /\ v = fv (at_ k) /\ near_triangle tol t (at_ k) /\
      forall x, in_segment s x -> in_triangle t x -> x = at_ k
  | None => Rabs (triple (psub (tv1 t) (tv0 t)) (psub (sv1 s) (sv0 s)) (psub (tv2 t) (tv0 t))) < tol \/
      forall x, ~ (in_segment s x /\ in_triangle t x)
  end.
Proof. exact seg_triangle_exact. Qed.
Print Assumptions C80_segment_triangle.
Theorem C80_line_disk : forall l d tol, 0 < tol ->
  match int_line_disk_point (fline l) (fdisk d) (Fin tol) with
  | Some v => exists q, v = fv q /\ forall x, on_line l x /\ in_disk d x <-> x = q
  | None => Rabs (pdot (ldir l) (pnormal (dplane d))) <= tol \/ forall x, ~ (on_line l x /\ in_disk d x)
  end.
Proof. exact line_disk_point_exact. Qed.
Print Assumptions C80_line_disk.
Theorem C80_ray_disk : forall r d tol, 0 < tol ->
  match int_ray_disk_point (fray r) (fdisk d) (Fin tol) with
  | Some v => exists q, v = fv q /\ forall x, on_ray r x /\ in_disk d x <-> x = q
  | None => Rabs (pdot (ry_dir r) (pnormal (dplane d))) <= tol \/
      forall t, tol < t -> ~ in_disk d (padd (ry_origin r) (pscale t (ry_dir r)))
  end.
Proof. exact ray_disk_point_exact. Qed.
Print Assumptions C80_ray_disk.
Theorem C80_segment_disk : forall s d tol, 0 < tol ->
  match int_seg_disk_point (fseg s) (fdisk d) (Fin tol) with
  | Some v => exists t, - tol <= t <= 1 + tol /\
      let q := padd (sv0 s) (pscale t (psub (sv1 s) (sv0 s))) in
      v = fv q /\ in_disk d q /\ forall x, in_segment s x /\ in_disk d x -> x = q
  | None => Rabs (pdot (psub (sv1 s) (sv0 s)) (pnormal (dplane d))) <= tol \/
      forall x, ~ (in_segment s x /\ in_disk d x)
  end.
Proof. exact seg_disk_point_exact. Qed.
Print Assumptions C80_segment_disk.
(** A ray hitting the inside of a triangle, and the answer. *)
Definition floor_tri : triangle R := Triangle (V 0 0 0) (V 4 0 0) (V 0 4 0).
Example C80_example : int_ray_triangle (fray (Ray (V 1 1 2) (V 0 0 (-1)))) (ftri floor_tri) (Fin eps) = Some (fv (V 1 1 0)).
Proof.
  pose proof (ray_triangle_exact (Ray (V 1 1 2) (V 0 0 (-1))) floor_tri eps eps_pos) as H. cbv zeta in H.
  assert (R1 : on_ray (Ray (V 1 1 2) (V 0 0 (-1))) (V 1 1 0)) by (exists 2; split; [lra|cbn [ry_origin ry_dir]; apply vec_eq; vunf; ring]).
  assert (T1 : in_triangle floor_tri (V 1 1 0)).
  { exists (1 / 2), (1 / 4), (1 / 4). repeat split; try lra. unfold floor_tri. apply vec_eq; vunf; field. }
  destruct (int_ray_triangle _ _ _) as [v|].
  - destruct H as (k & _ & -> & _ & H). now rewrite <- (H _ R1 T1).
  - exfalso. destruct H as [H|H]; [|exact (H _ (conj R1 T1))]. unfold floor_tri in H. cbn [ry_dir tv0 tv1 tv2] in H.
    match type of H with Rabs ?x < _ => replace x with 16 in H by (vunf; ring) end.
    rewrite Rabs_pos_eq in H by lra. pose proof eps_lt1. lra.
Qed.

(** ** C81 *)
Theorem C81_line_line : forall a b tol, 0 < tol ->
  match int_line_line (fline a) (fline b) (Fin tol) with
  | Some v => exists p q, v = fv p /\ closest a b p q /\ (forall x, on_line a x -> on_line b x -> p = q)
  | None => skew (ldir a) (ldir b) < tol
  end.
Proof.
  intros a b tol Ht. pose proof (line_line_exact a b tol Ht) as H. destruct (int_line_line _ _ _) as [v|]; auto.
  destruct H as (p & q & -> & H). exists p, q. split; auto. split; auto. intros x Ha Hb. exact (closest_common a b p q x H Ha Hb).
Qed.
Print Assumptions C81_line_line.
Theorem C81_ray_ray : forall a b tol, 0 < tol ->
  match int_ray_ray (fray a) (fray b) (Fin tol) with
  | Some v => exists t0 t1, - tol <= t0 /\ - tol <= t1 /\
      let p := padd (ry_origin a) (pscale t0 (ry_dir a)) in let q := padd (ry_origin b) (pscale t1 (ry_dir b)) in
      v = fv p /\ closest (ray_line a) (ray_line b) p q /\ forall x, on_ray a x -> on_ray b x -> x = p
  | None => skew (ry_dir a) (ry_dir b) < tol \/ forall x, ~ (on_ray a x /\ on_ray b x)
  end.
Proof. exact ray_ray_exact. Qed.
Print Assumptions C81_ray_ray.
Theorem C81_line_ray : forall l b tol, 0 < tol ->
  match int_line_ray (fline l) (fray b) (Fin tol) with
  | Some v => exists p t1, - tol <= t1 /\ v = fv p /\
      closest l (ray_line b) p (padd (ry_origin b) (pscale t1 (ry_dir b))) /\
      forall x, on_line l x -> on_ray b x -> x = p
  | None => skew (ldir l) (ry_dir b) < tol \/ forall x, ~ (on_line l x /\ on_ray b x)
  end.
Proof. exact line_ray_exact. Qed.
Print Assumptions C81_line_ray.
Theorem C81_ray_segment : forall a s tol, 0 < tol -> sv0 s <> sv1 s ->
  match int_ray_seg (fray a) (fseg s) (Fin tol) with
  | Some v => exists t0 t1, - tol <= t0 /\ - tol <= t1 <= 1 + tol /\
      let p := padd (ry_origin a) (pscale t0 (ry_dir a)) in let q := padd (sv0 s) (pscale t1 (psub (sv1 s) (sv0 s))) in
      v = fv p /\ closest (ray_line a) (seg_line s) p q /\ forall x, on_ray a x -> in_segment s x -> x = p
  | None => skew (ry_dir a) (seg_dir s) < tol \/ forall x, ~ (on_ray a x /\ in_segment s x)
  end.
Proof. exact ray_seg_exact. Qed.
Print Assumptions C81_ray_segment.
Theorem C81_segment_segment : forall a s tol, 0 < tol -> sv0 a <> sv1 a -> sv0 s <> sv1 s ->
  match int_seg_seg (fseg a) (fseg s) (Fin tol) with
  | Some v => exists t0 t1, - tol <= t0 <= 1 + tol /\ - tol <= t1 <= 1 + tol /\
      let p := padd (sv0 a) (pscale t0 (psub (sv1 a) (sv0 a))) in let q := padd (sv0 s) (pscale t1 (psub (sv1 s) (sv0 s))) in
      v = fv p /\ closest (seg_line a) (seg_line s) p q /\ forall x, in_segment a x -> in_segment s x -> x = p
  | None => skew (seg_dir a) (seg_dir s) < tol \/ forall x, ~ (in_segment a x /\ in_segment s x)
  end.
Proof. exact seg_seg_exact. Qed.
Print Assumptions C81_segment_segment.
(** Two lines one unit apart are reported to meet. *)
Definition axis_x : line R := Line (V 0 0 0) (V 1 0 0).
Definition above_y : line R := Line (V 0 0 1) (V 0 1 0).
Theorem C81_skew_refuted : forall tol, 0 < tol <= 1 -> exists p,
  int_line_line (fline axis_x) (fline above_y) (Fin tol) = Some (fv p) /\ ~ on_line above_y p /\
  (forall x y, on_line axis_x x -> on_line above_y y -> 1 <= dist x y).
Proof.
  intros tol Ht. pose proof (line_line_exact axis_x above_y tol ltac:(lra)) as H.
  assert (S : skew (ldir axis_x) (ldir above_y) = 1) by (unfold skew, axis_x, above_y; apply pnorm_eq; [lra|]; vunf; ring).
  assert (D : forall x y, on_line axis_x x -> on_line above_y y -> 1 <= dist x y).
  { intros x y (s & ->) (s' & ->). unfold dist. rewrite <- sqrt_1. unfold pnorm. apply sqrt_le_1_alt. unfold axis_x, above_y. vunf.
    pose proof (Rle_0_sqr s). pose proof (Rle_0_sqr s'). unfold Rsqr in *. lra. }
  destruct (int_line_line _ _ _) as [v|]; [|lra]. destruct H as (p & q & -> & (H1 & _)).
  exists p. split; auto. split; auto. intros C. pose proof (D p p H1 C) as DD. unfold dist in DD. rewrite psub_self in DD.
  replace (pnorm (V 0 0 0)) with 0 in DD by (symmetry; apply pnorm_eq; [lra|vunf; ring]). lra.
Qed.
Print Assumptions C81_skew_refuted.
(** Two segments that cross. *)
Example C81_example : int_seg_seg (fseg (Segment (V (-1) 0 0) (V 1 0 0))) (fseg (Segment (V 0 (-1) 0) (V 0 1 0))) (Fin eps) = Some (fv (V 0 0 0)).
Proof.
  assert (N1 : sv0 (Segment (V (-1) 0 0) (V 1 0 0)) <> sv1 (Segment (V (-1) 0 0) (V 1 0 0))) by (cbn; intros E; inversion E; lra).
  assert (N2 : sv0 (Segment (V 0 (-1) 0) (V 0 1 0)) <> sv1 (Segment (V 0 (-1) 0) (V 0 1 0))) by (cbn; intros E; inversion E; lra).
  pose proof (seg_seg_exact (Segment (V (-1) 0 0) (V 1 0 0)) (Segment (V 0 (-1) 0) (V 0 1 0)) eps eps_pos N1 N2) as H. cbv zeta in H.
  assert (S1 : in_segment (Segment (V (-1) 0 0) (V 1 0 0)) (V 0 0 0)) by (exists (1 / 2); split; [lra|apply vec_eq; vunf; field]).
  assert (S2 : in_segment (Segment (V 0 (-1) 0) (V 0 1 0)) (V 0 0 0)) by (exists (1 / 2); split; [lra|apply vec_eq; vunf; field]).
  destruct (int_seg_seg _ _ _) as [v|].
  - destruct H as (t0 & t1 & _ & _ & -> & _ & H). now rewrite <- (H _ S1 S2).
  - exfalso. destruct H as [H|H]; [|exact (H _ (conj S1 S2))]. rewrite <- !seg_dir_eq in H by auto. cbn [sv0 sv1] in H.
    rewrite !punit_pos in H by (vunf; lra).
    replace (pnorm (psub (V 1 0 0) (V (-1) 0 0))) with 2 in H by (symmetry; apply pnorm_eq; [lra|vunf; ring]).
    replace (pnorm (psub (V 0 1 0) (V 0 (-1) 0))) with 2 in H by (symmetry; apply pnorm_eq; [lra|vunf; ring]).
    unfold skew in H. rewrite (proj2 (pnorm_eq _ 1 ltac:(lra))) in H; [pose proof eps_lt1; lra|]. vunf. field.
Qed.
