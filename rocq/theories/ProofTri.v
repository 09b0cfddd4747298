(** * Triangles cut by planes and disks. *)
From Coq Require Import ZArith Bool List Reals Lra Lia.
From Verif Require Import Base Num Vec Geom ER SpecGeom ProofGeom ProofInt.
Import ListNotations.
Local Open Scope R_scope.

(** Twice the area vector. *)
Definition tri_cross (t : triangle R) : pt := pcross (psub (tv1 t) (tv0 t)) (psub (tv2 t) (tv0 t)).
Definition rtri_plane (t : triangle R) : plane R :=
  Plane (pscale (/ 3) (padd (padd (tv0 t) (tv1 t)) (tv2 t))) (punit (tri_cross t)).

Lemma f_tri_plane : forall t, tri_plane (ftri t) = fplane (rtri_plane t).
Proof.
  intros t. unfold tri_plane, tri_centroid, tri_normal, ftri, fplane, rtri_plane.
  cbn [tv0 tv1 tv2 porigin pnormal]. push. rewrite f_div by lra. reflexivity.
Qed.
Lemma f_tri_normal : forall t, tri_normal (ftri t) = fv (punit (tri_cross t)).
Proof. intros t. unfold tri_normal, ftri. cbn [tv0 tv1 tv2]. push. reflexivity. Qed.

Lemma tri_edge_normal : forall t, pdot (psub (tv1 t) (tv0 t)) (tri_cross t) = 0 /\
  pdot (psub (tv2 t) (tv0 t)) (tri_cross t) = 0 /\ pdot (psub (tv2 t) (tv1 t)) (tri_cross t) = 0.
Proof.
  intros t. unfold tri_cross. split; [apply pcross_dot_l|]. split; [apply pcross_dot_r|].
  destruct t as [[] [] []]. cbn [tv0 tv1 tv2]. vunf. ring.
Qed.
Lemma tri_on_plane : forall t a b c, 0 < pdot (tri_cross t) (tri_cross t) -> a + b + c = 1 ->
  on_plane (rtri_plane t) (bary t a b c).
Proof.
  intros t a b c Hn H. unfold on_plane, rtri_plane. cbn [porigin pnormal]. rewrite punit_pos by auto.
  rewrite pdot_scale_r. replace (pdot _ (tri_cross t)) with 0; [ring|].
  replace c with (1 - a - b) by lra. unfold tri_cross. destruct t as [[] [] []]. unfold bary. cbn [tv0 tv1 tv2]. vunf. field.
Qed.
Lemma tri_plane_unit : forall t, 0 < pdot (tri_cross t) (tri_cross t) -> is_unit (pnormal (rtri_plane t)).
Proof. intros. cbn. now apply punit_is_unit. Qed.

Lemma near_mono : forall t a b q, a <= b -> near_triangle a t q -> near_triangle b t q.
Proof. intros t a b q H (x & y & z & ? & ? & ? & ? & ?). exists x, y, z. repeat split; auto; lra. Qed.
Lemma near_convex : forall t tol s q, near_triangle tol t (sv0 s) -> near_triangle tol t (sv1 s) ->
  in_segment s q -> near_triangle tol t q.
Proof.
  intros t tol s q (a & b & c & A1 & A2 & A3 & A4 & A5) (a' & b' & c' & B1 & B2 & B3 & B4 & B5) (k & Hk & ->).
  exists (a + k * (a' - a)), (b + k * (b' - b)), (c + k * (c' - c)). rewrite A5, B5.
  repeat split; try nra. unfold bary. apply vec_eq; vunf; ring.
Qed.
Lemma plane_convex : forall p s q, on_plane p (sv0 s) -> on_plane p (sv1 s) -> in_segment s q -> on_plane p q.
Proof.
  intros p s q H0 H1 (k & Hk & ->). unfold on_plane in *.
  replace (pdot _ (pnormal p)) with ((1 - k) * pdot (psub (sv0 s) (porigin p)) (pnormal p)
    + k * pdot (psub (sv1 s) (porigin p)) (pnormal p)) by (vunf; ring).
  rewrite H0, H1. ring.
Qed.

(** A line in the plane of the triangle is coplanar with its edges. *)
Lemma edge_coplanar : forall n (l : line R) s, 0 < pdot n n -> pdot (ldir l) n = 0 ->
  pdot (psub (sv0 s) (lorigin l)) n = 0 -> pdot (psub (sv1 s) (sv0 s)) n = 0 -> coplanar l s.
Proof.
  intros n l s Hn H1 H2 H3. unfold coplanar.
  set (w := psub (sv0 s) (lorigin l)) in *. set (d := ldir l) in *. set (e := psub (sv1 s) (sv0 s)) in *.
  clearbody w d e.
  assert (E : pdot n n * pdot w (pcross d e) =
    pdot d n * (pdot w (pcross n e)) + pdot e n * pdot w (pcross d n) + pdot w n * pdot n (pcross d e)).
  { destruct w, d, e, n. vunf. ring. }
  rewrite H1, H2, H3 in E. assert (pdot n n * pdot w (pcross d e) = 0) by lra.
  apply Rmult_integral in H. destruct H; auto. lra.
Qed.

Section PlaneTri.
  Variables (t : triangle R) (l : line R) (tol : R).
  Hypothesis Ht : 0 < tol.
  Hypothesis Hn : 0 < pdot (tri_cross t) (tri_cross t).
  Hypothesis L1 : pdot (ldir l) (tri_cross t) = 0.
  Hypothesis L2 : pdot (psub (tv0 t) (lorigin l)) (tri_cross t) = 0.

  Lemma edge0_hit : forall p, int_line_segment (fline l) (tri_edge0 (ftri t)) (Fin tol) = Some p ->
    exists q, p = fv q /\ on_line l q /\ near_triangle tol t q.
  Proof.
    intros p H. change (tri_edge0 (ftri t)) with (fseg (Segment (tv0 t) (tv1 t))) in H.
    apply line_segment_sound in H; auto. destruct H as (q & k & -> & HL & Hk & HC).
    exists q. split; [reflexivity|]. split; [exact HL|].
    rewrite HC by (apply (edge_coplanar (tri_cross t)); auto; apply tri_edge_normal).
    exists (1 - k), k, 0. repeat split; try lra. apply vec_eq; vunf; ring.
  Qed.
  Lemma edge1_hit : forall p, int_line_segment (fline l) (tri_edge1 (ftri t)) (Fin tol) = Some p ->
    exists q, p = fv q /\ on_line l q /\ near_triangle tol t q.
  Proof.
    intros p H. change (tri_edge1 (ftri t)) with (fseg (Segment (tv1 t) (tv2 t))) in H.
    apply line_segment_sound in H; auto. destruct H as (q & k & -> & HL & Hk & HC).
    exists q. split; [reflexivity|]. split; [exact HL|].
    rewrite HC.
    - exists 0, (1 - k), k. repeat split; try lra. apply vec_eq; vunf; ring.
    - apply (edge_coplanar (tri_cross t)); auto; cbn [sv0 sv1]; [|apply tri_edge_normal].
      replace (psub (tv1 t) (lorigin l)) with (padd (psub (tv0 t) (lorigin l)) (psub (tv1 t) (tv0 t)))
        by (apply vec_eq; vunf; ring).
      rewrite pdot_add_l, L2. destruct (tri_edge_normal t) as (E & _). rewrite E. ring.
  Qed.
  Lemma edge2_hit : forall p, int_line_segment (fline l) (tri_edge2 (ftri t)) (Fin tol) = Some p ->
    exists q, p = fv q /\ on_line l q /\ near_triangle tol t q.
  Proof.
    intros p H. change (tri_edge2 (ftri t)) with (fseg (Segment (tv2 t) (tv0 t))) in H.
    apply line_segment_sound in H; auto. destruct H as (q & k & -> & HL & Hk & HC).
    exists q. split; [reflexivity|]. split; [exact HL|].
    destruct (tri_edge_normal t) as (_ & E & _).
    rewrite HC.
    - exists k, 0, (1 - k). repeat split; try lra. apply vec_eq; vunf; ring.
    - apply (edge_coplanar (tri_cross t)); auto; cbn [sv0 sv1].
      + replace (psub (tv2 t) (lorigin l)) with (padd (psub (tv0 t) (lorigin l)) (psub (tv2 t) (tv0 t)))
          by (apply vec_eq; vunf; ring).
        rewrite pdot_add_l, L2, E. ring.
      + replace (psub (tv0 t) (tv2 t)) with (pscale (-1) (psub (tv2 t) (tv0 t))) by (apply vec_eq; vunf; ring).
        rewrite pdot_scale_l, E. ring.
  Qed.
  Lemma line_triangle_seg_sound : forall r,
    int_line_triangle_seg (fline l) (ftri t) (Fin tol) = Ret (Some r) ->
    exists s, r = fseg s /\ on_line l (sv0 s) /\ on_line l (sv1 s) /\
      near_triangle tol t (sv0 s) /\ near_triangle tol t (sv1 s).
  Proof.
    intros r H. unfold int_line_triangle_seg in H.
    assert (D : forall a b, (exists q, a = fv q /\ on_line l q /\ near_triangle tol t q) ->
      (exists q, b = fv q /\ on_line l q /\ near_triangle tol t q) -> Segment a b = r ->
      exists s, r = fseg s /\ on_line l (sv0 s) /\ on_line l (sv1 s) /\
      near_triangle tol t (sv0 s) /\ near_triangle tol t (sv1 s)).
    { intros a b (q0 & -> & ? & ?) (q1 & -> & ? & ?) <-. exists (Segment q0 q1). auto. }
    destruct (int_line_segment (fline l) (tri_edge0 (ftri t)) (Fin tol)) as [p0|] eqn:E0;
    destruct (int_line_segment (fline l) (tri_edge1 (ftri t)) (Fin tol)) as [p1|] eqn:E1;
    destruct (int_line_segment (fline l) (tri_edge2 (ftri t)) (Fin tol)) as [p2|] eqn:E2;
      try discriminate; try apply edge0_hit in E0; try apply edge1_hit in E1; try apply edge2_hit in E2.
    - destruct (vis_approx p0 p1 (Fin tol)); [injection H as H; eapply D; [| |exact H]; eauto|].
      destruct (vis_approx p1 p2 (Fin tol)); [injection H as H; eapply D; [| |exact H]; eauto|].
      destruct (vis_approx p0 p2 (Fin tol)); [injection H as H; eapply D; [| |exact H]; eauto|discriminate].
    - injection H as H; eapply D; [| |exact H]; eauto.
    - injection H as H; eapply D; [| |exact H]; eauto.
    - injection H as H; eapply D; [| |exact H]; eauto.
  Qed.
End PlaneTri.

Lemma plane_tri_degenerate : forall p t tol, 0 < tol -> pdot (tri_cross t) (tri_cross t) = 0 ->
  int_plane_plane (fplane p) (tri_plane (ftri t)) (Fin tol) = None.
Proof.
  intros p t tol Ht H. rewrite f_tri_plane. unfold int_plane_plane, fplane, rtri_plane. cbn [porigin pnormal]. push.
  rewrite (punit_zero (tri_cross t)) by auto. rewrite (pdot_zero _ H).
  replace (pcross (punit (pnormal p)) (punit (V 0 0 0))) with (V 0 0 0 : pt).
  2:{ unfold punit at 2. replace (pdot (V 0 0 0) (V 0 0 0)) with 0 by (vunf; ring).
      replace (rltb 0 0) with false by (symmetry; apply rltb_false; lra). apply vec_eq; vunf; ring. }
  rewrite pnorm_sq. replace (pdot (V 0 0 0) (V 0 0 0)) with 0 by (vunf; ring).
  rewrite f_approx0, Rabs_R0. replace (rltb 0 tol) with true by (symmetry; now apply rltb_true). reflexivity.
Qed.

Lemma plane_triangle_sound : forall p t tol r, 0 < tol -> is_unit (pnormal p) ->
  int_plane_triangle (fplane p) (ftri t) (Fin tol) = Ret (Some r) ->
  exists s, r = fseg s /\ on_plane p (sv0 s) /\ on_plane p (sv1 s) /\
    near_triangle tol t (sv0 s) /\ near_triangle tol t (sv1 s) /\ 0 < pdot (tri_cross t) (tri_cross t).
Proof.
  intros p t tol r Ht Hu H. unfold int_plane_triangle in H.
  destruct (Rle_lt_or_eq_dec 0 _ (pdot_pos (tri_cross t))) as [Hn|Hn].
  2:{ rewrite plane_tri_degenerate in H by auto. discriminate. }
  rewrite f_tri_plane in H.
  destruct (int_plane_plane (fplane p) (fplane (rtri_plane t)) (Fin tol)) as [l'|] eqn:E; [|discriminate].
  apply plane_plane_sound in E; auto; [|now apply tri_plane_unit].
  destruct E as (l & -> & HD & HT & HL).
  assert (L0 : on_line l (lorigin l)) by (exists 0; apply vec_eq; vunf; ring).
  assert (L1 : pdot (ldir l) (tri_cross t) = 0).
  { assert (X : pdot (ldir l) (pnormal (rtri_plane t)) = 0) by (rewrite HD, pdot_comm; apply pcross_dot_r).
    cbn in X. rewrite punit_pos, pdot_scale_r in X by auto. apply Rmult_integral in X. destruct X as [X|X]; auto.
    pose proof (pnorm_pos _ Hn). pose proof (Rinv_0_lt_compat _ H0). lra. }
  assert (L2 : pdot (psub (tv0 t) (lorigin l)) (tri_cross t) = 0).
  { apply HL in L0. destruct L0 as [_ L0].
    pose proof (tri_on_plane t 1 0 0 Hn ltac:(lra)) as L0'.
    assert (X : pdot (psub (tv0 t) (lorigin l)) (pnormal (rtri_plane t)) = 0).
    { unfold on_plane in L0, L0'. replace (bary t 1 0 0) with (tv0 t) in L0' by (apply vec_eq; vunf; ring).
      rewrite pdot_sub_l in *. lra. }
    cbn in X. rewrite punit_pos, pdot_scale_r in X by auto. apply Rmult_integral in X. destruct X as [X|X]; auto.
    pose proof (pnorm_pos _ Hn). pose proof (Rinv_0_lt_compat _ H0). lra. }
  apply line_triangle_seg_sound in H; auto. destruct H as (s & -> & A & B & C & D).
  exists s. split; [reflexivity|]. apply HL in A, B. intuition.
Qed.

Lemma segment_disk_in : forall s d tol r, 0 < tol -> 0 <= dradius d ->
  on_plane (dplane d) (sv0 s) -> on_plane (dplane d) (sv1 s) ->
  int_segment_disk (fseg s) (fdisk d) (Fin tol) = Some r ->
  exists s', r = fseg s' /\ in_segment s (sv0 s') /\ in_segment s (sv1 s') /\
    (sv0 s' <> sv1 s' -> in_disk d (sv0 s') /\ in_disk d (sv1 s')).
Proof.
  intros s d tol r Ht Hr P0 P1 H.
  pose proof (segment_disk_sub s d tol Ht Hr r H) as (s' & E & HS).
  assert (I0 : in_segment s' (sv0 s')) by (exists 0; split; [lra|apply vec_eq; vunf; ring]).
  assert (I1 : in_segment s' (sv1 s')) by (exists 1; split; [lra|apply vec_eq; vunf; ring]).
  exists s'. split; auto. split; [now apply HS|]. split; [now apply HS|]. intros NE.
  assert (LP : line_in_plane (seg_line s) (dplane d)).
  { split; cbn; auto. unfold on_plane in P0, P1. rewrite pdot_sub_l in *. lra. }
  pose proof H as H'. rewrite segment_disk_eval in H' by auto.
  destruct (rltb (dist (sv0 s) (sv1 s)) tol) eqn:E0; [discriminate|]. cbn [orb] in H'.
  destruct (rltb (dradius d) tol) eqn:E00; [discriminate|]. cbn [orb] in H'.
  destruct (rltb (pnorm (pnormal (dplane d))) tol) eqn:E01; [discriminate|]. repeat rb.
  assert (HC : chord2 (seg_line s) d < - tol \/ tol <= chord2 (seg_line s) d).
  { destruct (rltb (chord2 (seg_line s) d) (- tol)) eqn:E1; [discriminate|]. repeat rb.
    destruct (rltb (Rabs (chord2 (seg_line s) d)) tol) eqn:E2; repeat rb.
    - destruct (rltb _ 0 || rltb 1 _); [discriminate|]. inversion H'; subst r.
      exfalso. apply NE. unfold fseg in H1. cbn [sv0 sv1] in H1. inversion H1.
      apply fv_inj. unfold fv. congruence.
    - destruct (rltb (chord2 (seg_line s) d) 0) eqn:E3; repeat rb.
      + inversion H'; subst r. exfalso. apply NE. unfold fseg in H1. cbn [sv0 sv1] in H1. inversion H1.
        apply fv_inj. unfold fv. congruence.
      + rewrite Rabs_pos_eq in E2 by auto. now right. }
  pose proof (segment_disk_clip s d tol Ht Hr E0 E00 E01 LP HC) as CL. rewrite H in CL.
  destruct CL as (s2 & E3 & CL). rewrite E in E3.
  assert (s' = s2).
  { unfold fseg in E3. inversion E3. destruct s' as [u v], s2 as [u' v']. cbn [sv0 sv1] in *.
    f_equal; apply fv_inj; unfold fv; congruence. }
  subst s2. split; apply CL; auto.
Qed.

Lemma triangle_disk_sound : forall t d tol r, 0 < tol -> 0 <= dradius d -> is_unit (pnormal (dplane d)) ->
  int_triangle_disk (ftri t) (fdisk d) (Fin tol) = Ret (Some r) ->
  exists s, r = fseg s /\
    on_plane (dplane d) (sv0 s) /\ on_plane (dplane d) (sv1 s) /\
    near_triangle tol t (sv0 s) /\ near_triangle tol t (sv1 s) /\
    (sv0 s <> sv1 s -> in_disk d (sv0 s) /\ in_disk d (sv1 s)).
Proof.
  intros t d tol r Ht Hr Hu H. unfold int_triangle_disk in H.
  change (dplane (fdisk d)) with (fplane (dplane d)) in H.
  destruct (int_plane_triangle (fplane (dplane d)) (ftri t) (Fin tol)) as [[s0|]| |] eqn:E; try discriminate.
  cbn in H. inversion H as [H']. clear H.
  apply plane_triangle_sound in E; auto. destruct E as (s & -> & A & B & C & D & _).
  apply segment_disk_in in H'; auto. destruct H' as (s' & -> & I0 & I1 & ID).
  exists s'. split; [reflexivity|].
  split; [eapply plane_convex; eauto|]. split; [eapply plane_convex; eauto|].
  split; [eapply near_convex; eauto|]. split; [eapply near_convex; eauto|]. exact ID.
Qed.
