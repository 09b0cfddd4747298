(** * Geometric properties: ground elements and intersections.

    Exact arithmetic (ER.v) unless the number type is quantified; [fv],
    [fline], [fplane], ... embed real data (SpecGeom.v). *)
From Coq Require Import ZArith Bool Reals Lra Lia Permutation String List Floats.SpecFloat.
From Verif Require Import Base Num Vec Aabb Geom Ground ER F64 SpecGeom.
From Verif Require Import ProofGeom ProofInt ProofTri ProofGround.
From Verif Require SampleShell.
Import ListNotations.
Local Open Scope R_scope.

(** ** C17, the points between the vertices. *)
Theorem C17_triangle_in_bbox : forall id f a b c (g : tground er),
  mk_tground id f (fv a) (fv b) (fv c) = Ret g ->
  forall q, in_triangle (Triangle a b c) q -> aabb_is_inside (tg_bbox g) (fv q) = true.
Proof. exact triangle_in_bbox. Qed.
Print Assumptions C17_triangle_in_bbox.

Lemma sample_friction : nle (nofZ 0) (Fin (1 / 2)) = true.
Proof. cbn. apply rleb_true. lra. Qed.
Lemma sample_ground : forall id a b c, exists g : tground er, mk_tground id (Fin (1 / 2)) (fv a) (fv b) (fv c) = Ret g.
Proof. intros. unfold mk_tground. rewrite sample_friction. eauto. Qed.

Example C17_inner_example : (exists g : tground er,
    mk_tground 3 (Fin (1 / 2)) (fv (V 0 0 0)) (fv (V 3 0 1)) (fv (V 0 3 2)) = Ret g) /\
  in_triangle (Triangle (V 0 0 0) (V 3 0 1) (V 0 3 2)) (V 1 1 1).
Proof.
  split; [apply sample_ground|]. exists (1 / 3), (1 / 3), (1 / 3).
  repeat split; try lra. apply vec_eq; vunf; lra.
Qed.

(** ** C18 *)
Theorem C18_normal : forall id f a b c (g : tground er),
  mk_tground id f (fv a) (fv b) (fv c) = Ret g ->
  pcross (psub b a) (psub c a) <> V 0 0 0 ->
  exists n, tg_normal g = fv n /\ is_unit n /\ 0 <= vz n /\
    pdot n (psub b a) = 0 /\ pdot n (psub c b) = 0 /\ pdot n (psub a c) = 0.
Proof. exact triangle_normal. Qed.
Print Assumptions C18_normal.

(** Unless the triangle is vertical, the normal does not depend on the order
    of the vertices. *)
Theorem C18_vertex_order : forall id f a b c (g : tground er) id' f' a' b' c' g',
  mk_tground id f (fv a) (fv b) (fv c) = Ret g -> mk_tground id' f' (fv a') (fv b') (fv c') = Ret g' ->
  Permutation [a; b; c] [a'; b'; c'] -> vz (pcross (psub b a) (psub c a)) <> 0 ->
  tg_normal g' = tg_normal g.
Proof. exact normal_order. Qed.
Print Assumptions C18_vertex_order.

Example C18_example : (exists g : tground er,
    mk_tground 0 (Fin (1 / 2)) (fv (V 0 0 0)) (fv (V 0 1 0)) (fv (V 1 0 0)) = Ret g) /\
  (exists g : tground er,
    mk_tground 0 (Fin (1 / 2)) (fv (V 0 1 0)) (fv (V 0 0 0)) (fv (V 1 0 0)) = Ret g) /\
  vz (pcross (psub (V 0 1 0) (V 0 0 0)) (psub (V 1 0 0) (V 0 0 0))) = - 1 /\
  Permutation [V 0 0 0; V 0 1 0; V 1 0 0] [V 0 1 0; V 0 0 0; V 1 0 0].
Proof.
  split; [apply sample_ground|]. split; [apply sample_ground|]. split; [vunf; ring|]. apply perm_swap.
Qed.

(** ** C19 *)
Theorem C19_throws_exactly : forall {K : Type} {NK : Num K} f o (n : vec3 K),
  ((exists g, mk_flat f o n = Ret g) \/ mk_flat f o n = Throw RuntimeError) /\
  ((exists g, mk_flat f o n = Ret g) <-> (nle (nofZ 0) f = true /\ nlt (nofZ 0) (vz n) = true)).
Proof. intros K NK f o n. exact (conj (flat_throws_only f o n) (flat_throws f o n)). Qed.
Print Assumptions C19_throws_exactly.

Theorem C19_stored : forall f o n (g : flat er), mk_flat f (fv o) (fv n) = Ret g ->
  exists u k, fl_plane g = fplane (Plane o u) /\ fl_friction g = f /\
    is_unit u /\ 0 < vz u /\ 0 < k /\ u = pscale k n.
Proof. exact flat_stored. Qed.
Print Assumptions C19_stored.

Example C19_example : (exists g : flat er, mk_flat (Fin (1 / 2)) (fv (V 0 0 0)) (fv (V 1 0 2)) = Ret g) /\
  mk_flat (Nan : er) (fv (V 0 0 0)) (fv (V 1 0 2)) = Throw RuntimeError /\
  mk_flat (Fin (1 / 2)) (fv (V 0 0 0)) (fv (V 1 0 0)) = Throw RuntimeError.
Proof.
  split.
  - apply flat_throws. split; [apply sample_friction|]. cbn. apply rltb_true. lra.
  - split; [reflexivity|]. unfold mk_flat. rewrite sample_friction. cbn.
    replace (rltb 0 0) with false; [reflexivity|]. symmetry. apply rltb_false. lra.
Qed.

(** ** C20, flat grounds. *)
Theorem C20_flat_copy : forall (this src : flat er) f o n,
  mk_flat f (fv o) (fv n) = Ret src -> flat_copy this src = src.
Proof. exact flat_copied. Qed.
Print Assumptions C20_flat_copy.

Example C20_example : exists g : flat er, mk_flat (Fin (1 / 2)) (fv (V 0 0 0)) (fv (V 1 0 2)) = Ret g.
Proof. exact (proj1 C19_example). Qed.

(** ** C45 *)
Theorem C45_hit_sound : forall l t tol p, 0 < tol ->
  int_line_triangle (fline l) (ftri t) (Fin tol) = Some p ->
  exists q, p = fv q /\ on_line l q /\ near_triangle tol t q.
Proof. exact line_triangle_sound. Qed.
Print Assumptions C45_hit_sound.

(** The determinant is the component of the direction along the (twice area)
    normal of the triangle. *)
Theorem C45_hit_complete : forall l t tol q, 0 < tol ->
  on_line l q -> in_triangle t q ->
  tol <= Rabs (pdot (ldir l) (pcross (psub (tv1 t) (tv0 t)) (psub (tv2 t) (tv0 t)))) ->
  int_line_triangle (fline l) (ftri t) (Fin tol) = Some (fv q).
Proof.
  intros l t tol q Ht HL HI HA. apply line_triangle_complete; auto.
  replace (pdot _ (pcross (ldir l) _)) with
    (- pdot (ldir l) (pcross (psub (tv1 t) (tv0 t)) (psub (tv2 t) (tv0 t)))) by (vunf; ring).
  now rewrite Rabs_Ropp.
Qed.
Print Assumptions C45_hit_complete.

Example C45_example : let l := Line (V 1 1 5) (V 0 0 (-1)) in
  let t := Triangle (V 0 0 0) (V 3 0 0) (V 0 3 0) in
  on_line l (V 1 1 0) /\ in_triangle t (V 1 1 0) /\
  eps <= Rabs (pdot (ldir l) (pcross (psub (tv1 t) (tv0 t)) (psub (tv2 t) (tv0 t)))).
Proof.
  cbv zeta. split; [exists 5; apply vec_eq; vunf; lra|]. split.
  - exists (1 / 3), (1 / 3), (1 / 3). repeat split; try lra. apply vec_eq; vunf; lra.
  - replace (pdot _ _) with (-9) by (vunf; ring). rewrite Rabs_left by lra. pose proof eps_lt1. lra.
Qed.

(** ** C51 *)
Theorem C51_plane_plane : forall p0 p1 tol r, 0 < tol -> is_unit (pnormal p0) -> is_unit (pnormal p1) ->
  int_plane_plane (fplane p0) (fplane p1) (Fin tol) = Some r ->
  exists l, r = fline l /\ ldir l = pcross (pnormal p0) (pnormal p1) /\
    tol <= pdot (ldir l) (ldir l) /\ forall q, on_line l q <-> on_plane p0 q /\ on_plane p1 q.
Proof. exact plane_plane_sound. Qed.
Print Assumptions C51_plane_plane.

Theorem C51_parallel : forall p0 p1 tol, 0 < tol -> is_unit (pnormal p0) -> is_unit (pnormal p1) ->
  (int_plane_plane (fplane p0) (fplane p1) (Fin tol) = None <->
   pdot (pcross (pnormal p0) (pnormal p1)) (pcross (pnormal p0) (pnormal p1)) < tol).
Proof. exact plane_plane_none. Qed.
Print Assumptions C51_parallel.

Lemma pnorm_002 : pnorm (V 0 0 2) = 2.
Proof. apply pnorm_eq; [lra|]. vunf. ring. Qed.

(** False for a normal that is not of unit length: the plane [z = 1] with
    normal (0,0,2) and the plane [x = 0]. *)
Theorem C51_plane_plane_refuted : exists p0 p1 l,
  int_plane_plane (fplane p0) (fplane p1) (Fin eps) = Some (fline l) /\
  pnormal p0 <> V 0 0 0 /\ is_unit (pnormal p1) /\ ~ on_plane p0 (lorigin l).
Proof.
  exists (Plane (V 0 0 1) (V 0 0 2)), (Plane (V 0 0 0) (V 1 0 0)), (Line (V 0 0 2) (V 0 1 0)).
  cbn [pnormal porigin]. split.
  - unfold int_plane_plane, fplane, plane_d. cbn [porigin pnormal]. push.
    replace (punit (V 0 0 2)) with (V 0 0 1 : pt).
    2:{ rewrite punit_pos by (vunf; lra). rewrite pnorm_002. apply vec_eq; vunf; lra. }
    rewrite (punit_unit (V 1 0 0)) by (vunf; ring).
    rewrite pnorm_sq, f_approx0.
    replace (pdot (pcross (V 0 0 1) (V 1 0 0)) (pcross (V 0 0 1) (V 1 0 0))) with 1 by (vunf; ring).
    rewrite Rabs_R1. replace (rltb 1 eps) with false by (symmetry; apply rltb_false; left; apply eps_lt1).
    replace (pdot (V 0 0 1) (V 1 0 0)) with 0 by (vunf; ring).
    rewrite e_ndiv by lra. push. unfold fline. cbn [lorigin ldir]. do 2 f_equal; f_equal; apply vec_eq; vunf; field.
  - split; [intros E; inversion E; lra|]. split; [vunf; ring|]. unfold on_plane. vunf. lra.
Qed.
Print Assumptions C51_plane_plane_refuted.

Example C51_example : exists r, is_unit (V 0 0 1) /\ is_unit (V (3 / 5) 0 (4 / 5)) /\
  int_plane_plane (fplane (Plane (V 0 0 1) (V 0 0 1))) (fplane (Plane (V 1 2 3) (V (3 / 5) 0 (4 / 5)))) (Fin eps) = Some r.
Proof.
  assert (U0 : is_unit (V 0 0 1)) by (vunf; ring). assert (U1 : is_unit (V (3 / 5) 0 (4 / 5))) by (vunf; field).
  destruct (int_plane_plane (fplane (Plane (V 0 0 1) (V 0 0 1))) (fplane (Plane (V 1 2 3) (V (3 / 5) 0 (4 / 5)))) (Fin eps)) eqn:E; eauto.
  apply plane_plane_none in E; auto using eps_pos. cbn [pnormal] in E.
  replace (pdot _ _) with (9 / 25) in E by (vunf; field). unfold eps in E. exfalso. lra.
Qed.

(** ** C52 *)
(** [chord2] is the squared half chord times the squared length of the
    direction; from the tolerance on, the chord is exact. *)
Theorem C52_chord : forall l d tol, 0 < tol -> 0 <= dradius d -> 0 < pdot (ldir l) (ldir l) ->
  line_in_plane l (dplane d) -> tol <= chord2 l d ->
  exists s, int_line_disk (fline l) (fdisk d) (Fin tol) = Some (fseg s) /\
    on_line l (sv0 s) /\ on_line l (sv1 s) /\ on_circle d (sv0 s) /\ on_circle d (sv1 s) /\
    forall q, in_segment s q <-> on_line l q /\ in_disk d q.
Proof. exact line_disk_chord. Qed.
Print Assumptions C52_chord.

Theorem C52_miss : forall l d tol, 0 < tol -> 0 <= dradius d -> 0 < pdot (ldir l) (ldir l) ->
  int_line_disk (fline l) (fdisk d) (Fin tol) = None -> forall q, on_line l q -> ~ in_disk d q.
Proof. exact line_disk_none. Qed.
Print Assumptions C52_miss.

(** Inside the tolerance band a single point is returned. *)
Theorem C52_tangent : forall l d tol, 0 < tol -> 0 < pdot (ldir l) (ldir l) ->
  - tol < chord2 l d < tol ->
  int_line_disk (fline l) (fdisk d) (Fin tol) =
  Some (fseg (Segment (foot l (porigin (dplane d))) (foot l (porigin (dplane d))))).
Proof. exact line_disk_tangent. Qed.
Print Assumptions C52_tangent.

Definition unit_disk : disk R := Disk 1 (Plane (V 0 0 0) (V 0 1 0)).
Lemma dist_eq : forall a b r, 0 <= r -> pdot (psub a b) (psub a b) = r * r -> dist a b = r.
Proof. intros. unfold dist. now apply pnorm_eq. Qed.

(** Hence the full statement is false: a line through the center of the unit
    disk, with a short direction vector, gets the center only. *)
Theorem C52_chord_refuted : exists l s q,
  0 < pdot (ldir l) (ldir l) /\ line_in_plane l (dplane unit_disk) /\
  int_line_disk (fline l) (fdisk unit_disk) (Fin eps) = Some (fseg s) /\
  on_line l q /\ in_disk unit_disk q /\ ~ in_segment s q.
Proof.
  set (l := Line (V 0 0 0) (V (/ 2 ^ 14) 0 0)).
  assert (F : foot l (V 0 0 0) = V 0 0 0) by (unfold foot, l; apply vec_eq; vunf; field).
  exists l, (Segment (V 0 0 0) (V 0 0 0)), (V 1 0 0).
  assert (P : 0 < pdot (ldir l) (ldir l)).
  { unfold l. cbn [ldir]. vunf. assert (0 < / 2 ^ 14) by (apply Rinv_0_lt_compat; lra). nra. }
  split; [exact P|]. split; [unfold l, line_in_plane, on_plane, unit_disk; cbn [dplane]; vunf; split; ring|].
  split.
  - rewrite line_disk_tangent; auto using eps_pos.
    + cbn [dplane unit_disk porigin]. now rewrite F.
    + unfold chord2. cbn [dplane unit_disk porigin dradius]. rewrite F.
      rewrite (dist_eq _ _ 0) by (try lra; vunf; ring).
      unfold l. cbn [ldir]. unfold eps. vunf. split; field_simplify; lra.
  - split; [exists (2 ^ 14); unfold l; apply vec_eq; vunf; field|]. split.
    + split; [unfold on_plane, unit_disk; cbn [dplane]; vunf; ring|].
      cbn [unit_disk dplane porigin dradius]. right. apply dist_eq; [lra|]. vunf. ring.
    + intros (k & _ & E). apply (f_equal vx) in E. vunf. lra.
Qed.
Print Assumptions C52_chord_refuted.

Example C52_example : let l := Line (V 0 0 (- / 2)) (V 1 0 0) in
  0 < pdot (ldir l) (ldir l) /\ line_in_plane l (dplane unit_disk) /\ eps <= chord2 l unit_disk.
Proof.
  cbv zeta. split; [vunf; lra|]. split; [unfold line_in_plane, on_plane, unit_disk; cbn [dplane]; vunf; split; ring|].
  unfold chord2. cbn [unit_disk dplane porigin dradius ldir].
  rewrite (dist_eq _ _ (/ 2)); [|lra|unfold foot; vunf; field]. unfold eps. vunf. lra.
Qed.

(** ** C53 *)
Theorem C53_part_of_segment : forall s d tol, 0 < tol -> 0 <= dradius d ->
  forall r, int_segment_disk (fseg s) (fdisk d) (Fin tol) = Some r ->
  exists s', r = fseg s' /\ forall q, in_segment s' q -> in_segment s q.
Proof. exact segment_disk_sub. Qed.
Print Assumptions C53_part_of_segment.

Theorem C53_clip : forall s d tol, 0 < tol -> 0 <= dradius d ->
  tol <= dist (sv0 s) (sv1 s) -> tol <= dradius d -> tol <= pnorm (pnormal (dplane d)) ->
  line_in_plane (seg_line s) (dplane d) ->
  chord2 (seg_line s) d < - tol \/ tol <= chord2 (seg_line s) d ->
  match int_segment_disk (fseg s) (fdisk d) (Fin tol) with
  | Some r => exists s', r = fseg s' /\ forall q, in_segment s' q <-> in_segment s q /\ in_disk d q
  | None => forall q, in_segment s q -> ~ in_disk d q
  end.
Proof. exact segment_disk_clip. Qed.
Print Assumptions C53_clip.

Theorem C53_tangent : forall s d tol, 0 < tol -> 0 <= dradius d -> forall r,
  - tol < chord2 (seg_line s) d < tol ->
  int_segment_disk (fseg s) (fdisk d) (Fin tol) = Some r ->
  r = fseg (Segment (foot (seg_line s) (porigin (dplane d))) (foot (seg_line s) (porigin (dplane d)))).
Proof. exact segment_disk_tangent. Qed.
Print Assumptions C53_tangent.

Lemma short_foot : forall h, h <> 0 ->
  foot (seg_line (Segment (V (/ 2) 0 0) (V (/ 2 + h) 0 0))) (V 0 0 0) = V 0 0 0.
Proof.
  intros h Hh. unfold foot, seg_line. cbn [lorigin ldir sv0 sv1].
  replace (psub (V (/ 2 + h) 0 0) (V (/ 2) 0 0)) with (V h 0 0 : pt) by (apply vec_eq; vunf; ring).
  apply vec_eq; vunf; field; auto.
Qed.
Lemma short_chord : forall h, h <> 0 ->
  chord2 (seg_line (Segment (V (/ 2) 0 0) (V (/ 2 + h) 0 0))) unit_disk = h * h.
Proof.
  intros h Hh. unfold chord2. cbn [unit_disk dplane porigin dradius]. rewrite short_foot by auto.
  rewrite (dist_eq _ _ 0); [|lra|vunf; ring]. unfold seg_line. vunf. ring.
Qed.

(** A short segment inside the disk, away from the center, is lost. *)
Theorem C53_clip_refuted : exists s, eps <= dist (sv0 s) (sv1 s) /\
  line_in_plane (seg_line s) (dplane unit_disk) /\
  (forall q, in_segment s q -> in_disk unit_disk q) /\
  int_segment_disk (fseg s) (fdisk unit_disk) (Fin eps) = None.
Proof.
  exists (Segment (V (/ 2) 0 0) (V (/ 2 + / 2 ^ 14) 0 0)). cbn [sv0 sv1].
  assert (D : dist (V (/ 2) 0 0) (V (/ 2 + / 2 ^ 14) 0 0) = / 2 ^ 14).
  { apply dist_eq; [left; apply Rinv_0_lt_compat; lra|]. vunf. field. }
  assert (E14 : eps <= / 2 ^ 14) by (unfold eps; lra).
  split; [rewrite D; exact E14|].
  split; [unfold line_in_plane, on_plane, unit_disk, seg_line; cbn [dplane]; vunf; split; ring|].
  assert (H0 : 0 < / 2 ^ 14) by (apply Rinv_0_lt_compat; lra).
  split.
  - intros q (k & Hk & ->). split; [unfold on_plane, unit_disk; cbn [dplane]; vunf; ring|].
    cbn [unit_disk dplane porigin dradius]. apply pnorm_le; [lra|].
    assert (HX : 0 <= / 2 + k * / 2 ^ 14 <= 1).
    { assert (/ 2 ^ 14 <= / 2) by lra. set (h := / 2 ^ 14) in *. clearbody h. nra. }
    set (x := / 2 + k * / 2 ^ 14) in *.
    replace (padd _ _) with (V x 0 0 : pt) by (unfold x; apply vec_eq; vunf; ring).
    clearbody x. clear - HX. vunf. nra.
  - rewrite segment_disk_eval; [|apply eps_pos|cbn; lra]. cbn [sv0 sv1]. rewrite D.
    replace (rltb (/ 2 ^ 14) eps) with false by (symmetry; now apply rltb_false). cbn [orb].
    set (h := / 2 ^ 14) in *.
    assert (HE : h * h < eps) by (unfold h, eps; lra). clearbody h.
    rewrite short_chord by lra. cbn [unit_disk dplane dradius pnormal porigin].
    replace (rltb 1 eps) with false by (symmetry; apply rltb_false; left; apply eps_lt1). cbn [orb].
    replace (pnorm (V 0 1 0)) with 1 by (symmetry; apply pnorm_eq; [lra|vunf; ring]).
    replace (rltb 1 eps) with false by (symmetry; apply rltb_false; left; apply eps_lt1).
    replace (rltb (h * h) (- eps)) with false by (symmetry; apply rltb_false; pose proof eps_pos; nra).
    replace (rltb (Rabs (h * h)) eps) with true by (symmetry; apply rltb_true; rewrite Rabs_pos_eq by nra; exact HE).
    match goal with |- context [rltb ?T 0] => replace (rltb T 0) with true; [reflexivity|]; assert (ET : T = - / (2 * h)) end.
    { unfold seg_line. cbn [lorigin ldir sv0 sv1].
      replace (psub (V (/ 2 + h) 0 0) (V (/ 2) 0 0)) with (V h 0 0 : pt) by (apply vec_eq; vunf; ring).
      vunf. field. lra. }
    symmetry. apply rltb_true. rewrite ET. assert (0 < / (2 * h)) by (apply Rinv_0_lt_compat; lra). lra.
Qed.
Print Assumptions C53_clip_refuted.

Example C53_example : let s := Segment (V (-2) 0 (- / 2)) (V 0 0 (- / 2)) in
  eps <= dist (sv0 s) (sv1 s) /\ line_in_plane (seg_line s) (dplane unit_disk) /\ eps <= chord2 (seg_line s) unit_disk.
Proof.
  cbv zeta. cbn [sv0 sv1]. split; [rewrite (dist_eq _ _ 2); [unfold eps; lra|lra|vunf; field]|].
  split; [unfold line_in_plane, on_plane, unit_disk, seg_line; cbn [dplane]; vunf; split; field|].
  unfold chord2. cbn [unit_disk dplane porigin dradius].
  rewrite (dist_eq _ _ (/ 2)); [|lra|unfold foot, seg_line; vunf; field]. unfold eps, seg_line. vunf. lra.
Qed.

(** ** C54 *)
(** End points are in the rib plane and in the enlarged triangle; a segment
    with two different end points is in the disk. *)
Theorem C54_triangle_disk : forall t d tol r, 0 < tol -> 0 <= dradius d -> is_unit (pnormal (dplane d)) ->
  int_triangle_disk (ftri t) (fdisk d) (Fin tol) = Ret (Some r) ->
  exists s, r = fseg s /\
    on_plane (dplane d) (sv0 s) /\ on_plane (dplane d) (sv1 s) /\
    near_triangle tol t (sv0 s) /\ near_triangle tol t (sv1 s) /\
    (sv0 s <> sv1 s -> in_disk d (sv0 s) /\ in_disk d (sv1 s)).
Proof. exact triangle_disk_sound. Qed.
Print Assumptions C54_triangle_disk.

(** A triangle crossing the unit disk half a radius below its center. *)
Definition low_tri : triangle R := Triangle (V 0 (-2) (- / 2)) (V 3 2 (- / 2)) (V (-3) 2 (- / 2)).
Lemma low_tri_cut : int_plane_triangle (fplane (dplane unit_disk)) (ftri low_tri) (Fin eps) =
  Ret (Some (fseg (Segment (V (-3 / 2) 0 (- / 2)) (V (3 / 2) 0 (- / 2))))).
Proof.
  unfold int_plane_triangle. rewrite f_tri_plane.
  assert (TC : tri_cross low_tri = V 0 0 24) by (unfold tri_cross, low_tri; cbn [tv0 tv1 tv2]; apply vec_eq; vunf; field).
  assert (PN : pnorm (V 0 0 24) = 24) by (apply pnorm_eq; [lra|vunf; ring]).
  assert (PU : punit (tri_cross low_tri) = V 0 0 1).
  { rewrite TC. rewrite punit_pos by (vunf; lra). rewrite PN. apply vec_eq; vunf; field. }
  rewrite plane_plane_eval; [|unfold unit_disk; cbn [dplane]; vunf; ring|unfold rtri_plane; cbn [pnormal]; rewrite PU; vunf; ring|apply eps_pos].
  match goal with |- context [pp_line ?a ?b] => assert (EL : pp_line a b = Line (V 0 0 (- / 2)) (V 1 0 0)) end.
  { unfold pp_line, rtri_plane, unit_disk. cbn [dplane porigin pnormal]. rewrite PU. unfold low_tri. cbn [tv0 tv1 tv2].
    f_equal; apply vec_eq; vunf; field; lra. }
  rewrite EL. cbn [rtri_plane pnormal unit_disk dplane]. rewrite PU.
  replace (pdot (V 0 1 0) (V 0 0 1)) with 0 by (vunf; ring).
  replace (rltb (1 - 0 * 0) eps) with false by (symmetry; apply rltb_false; pose proof eps_lt1; lra).
  unfold int_line_triangle_seg.
  assert (L : forall x, on_line (Line (V 0 0 (- / 2)) (V 1 0 0)) (V x 0 (- / 2))) by (intros x; exists x; apply vec_eq; vunf; ring).
  change (tri_edge0 (ftri low_tri)) with (fseg (Segment (V 0 (-2) (- / 2)) (V 3 2 (- / 2)))).
  change (tri_edge1 (ftri low_tri)) with (fseg (Segment (V 3 2 (- / 2)) (V (-3) 2 (- / 2)))).
  change (tri_edge2 (ftri low_tri)) with (fseg (Segment (V (-3) 2 (- / 2)) (V 0 (-2) (- / 2)))).
  rewrite (line_segment_complete _ _ eps (V (3 / 2) 0 (- / 2)) eps_pos); auto.
  - rewrite (line_segment_parallel _ (Segment (V 3 2 (- / 2)) _)).
    + rewrite (line_segment_complete _ _ eps (V (-3 / 2) 0 (- / 2)) eps_pos); auto.
      * cbn [sv0 sv1 ldir]. replace (psub (V 0 (-2) (- / 2)) (V (-3) 2 (- / 2))) with (V 3 (-4) 0 : pt) by (apply vec_eq; vunf; field).
        rewrite punit_pos by (vunf; lra). replace (pnorm (V 3 (-4) 0)) with 5 by (symmetry; apply pnorm_eq; [lra|vunf; ring]).
        rewrite (proj2 (pnorm_eq _ (4 / 5) ltac:(lra))); [unfold eps; lra|]. vunf. field.
      * exists (1 / 2). split; [lra|]. cbn [sv0 sv1]. apply vec_eq; vunf; field.
    + cbn [sv0 sv1 ldir]. replace (psub (V (-3) 2 (- / 2)) (V 3 2 (- / 2))) with (V (-6) 0 0 : pt) by (apply vec_eq; vunf; field).
      rewrite punit_pos by (vunf; lra). replace (pnorm (V (-6) 0 0)) with 6 by (symmetry; apply pnorm_eq; [lra|vunf; ring]).
      rewrite (proj2 (pnorm_eq _ 0 ltac:(lra))); [apply eps_pos|]. vunf. field.
  - cbn [sv0 sv1 ldir]. replace (psub (V 3 2 (- / 2)) (V 0 (-2) (- / 2))) with (V 3 4 0 : pt) by (apply vec_eq; vunf; field).
    rewrite punit_pos by (vunf; lra). replace (pnorm (V 3 4 0)) with 5 by (symmetry; apply pnorm_eq; [lra|vunf; ring]).
    rewrite (proj2 (pnorm_eq _ (4 / 5) ltac:(lra))); [unfold eps; lra|]. vunf. field.
  - exists (1 / 2). split; [lra|]. cbn [sv0 sv1]. apply vec_eq; vunf; field.
Qed.
Example C54_example : exists r, int_triangle_disk (ftri low_tri) (fdisk unit_disk) (Fin eps) = Ret (Some r).
Proof.
  unfold int_triangle_disk. change (dplane (fdisk unit_disk)) with (fplane (dplane unit_disk)). rewrite low_tri_cut. cbn [obind].
  destruct (int_segment_disk _ _ _) as [r|] eqn:E; [eauto|]. exfalso.
  set (s := Segment (V (-3 / 2) 0 (- / 2)) (V (3 / 2) 0 (- / 2))) in *.
  pose proof (segment_disk_clip s unit_disk eps eps_pos) as H. rewrite E in H.
  apply (H ltac:(cbn; lra)) with (q := V 0 0 (- / 2)).
  - unfold s. cbn [sv0 sv1]. rewrite (dist_eq _ _ 3); [unfold eps; lra|lra|vunf; field].
  - cbn. pose proof eps_lt1. lra.
  - cbn [unit_disk dplane pnormal]. replace (pnorm (V 0 1 0)) with 1 by (symmetry; apply pnorm_eq; [lra|vunf; ring]).
    left. apply eps_lt1.
  - unfold line_in_plane, on_plane, unit_disk, seg_line, s; cbn [dplane]; vunf; split; field.
  - right. unfold chord2. cbn [unit_disk dplane porigin dradius].
    rewrite (dist_eq _ _ (/ 2)); [|lra|unfold foot, seg_line, s; vunf; field]. unfold eps, seg_line, s. vunf. lra.
  - exists (1 / 2). split; [lra|]. unfold s. cbn [sv0 sv1]. apply vec_eq; vunf; field.
  - split; [unfold on_plane, unit_disk; cbn [dplane]; vunf; ring|]. cbn [unit_disk dplane porigin dradius].
    rewrite (dist_eq _ _ (/ 2)); [lra|lra|vunf; field].
Qed.

(** The degenerate segment is not always in the disk: a triangle 2^-14 wide,
    half a radius below the unit disk, is reported (binary64). *)
Section C54Witness.
  Import SampleShell.
  Definition tiny_tri : triangle f64 :=
    let z := f_of (-3) (-1) in
    Triangle (V (fz 0) (fz (-1)) z) (V (f_of 1 (-14)) (fz 1) z) (V (f_of (-1) (-14)) (fz 1) z).
  Definition udisk64 : disk f64 := Disk (fz 1) (Plane (V (fz 0) (fz 0) (fz 0)) (V (fz 0) (fz 1) (fz 0))).
  Theorem C54_in_disk_refuted : exists s, int_triangle_disk tiny_tri udisk64 neps = Ret (Some s) /\
    vnorm (vsub (sv0 s) (dcenter udisk64)) = f_of 3 (-1) /\ dradius udisk64 = fz 1.
  Proof.
    eexists. split; [vm_compute; reflexivity|]. split; [vm_compute; reflexivity|]. reflexivity.
  Qed.
End C54Witness.
Print Assumptions C54_in_disk_refuted.
