(** * Exactness of the cut of a triangle by a plane and by a disk. *)
From Coq Require Import ZArith Bool List Reals Lra Lia.
From Verif Require Import Base Num Vec Geom ER SpecGeom SpecCut ProofGeom ProofInt ProofTri.
Local Open Scope R_scope.

Lemma height_affine : forall p a b k, height p (padd a (pscale k (psub b a))) = height p a + k * (height p b - height p a).
Proof. intros. unfold height. vunf. ring. Qed.
Lemma height_bary : forall p t a b c, a + b + c = 1 ->
  height p (bary t a b c) = a * height p (tv0 t) + b * height p (tv1 t) + c * height p (tv2 t).
Proof.
  intros p t a b c H. unfold height. replace a with (1 - b - c) by lra. vunf. ring.
Qed.

(** A hit on an edge enlarged by [tol] whose ends are clear of the plane is a
    proper crossing. *)
Lemma hit_crosses : forall tol ha hb k, 0 < tol -> tol * Rabs (ha - hb) < Rabs ha -> tol * Rabs (hb - ha) < Rabs hb ->
  - tol <= k <= 1 + tol -> ha + k * (hb - ha) = 0 -> ha * hb < 0.
Proof.
  intros tol ha hb k Ht HA HB Hk H. apply Rnot_le_lt. intros N.
  rewrite (Rabs_minus_sym hb ha) in HB.
  destruct (Rtotal_order ha hb) as [L|[L|L]].
  - rewrite (Rabs_left (ha - hb)) in * by lra.
    destruct (Rlt_le_dec ha 0) as [S|S].
    + assert (hb <= 0) by nra. rewrite Rabs_left1 in HB by lra. rewrite Rabs_left in HA by lra. nra.
    + rewrite Rabs_pos_eq in HA by lra. nra.
  - subst hb. replace (ha - ha) with 0 in * by ring. rewrite Rabs_R0, Rmult_0_r in HA.
    assert (ha = 0) by lra. subst ha. rewrite Rabs_R0 in HA. lra.
  - rewrite (Rabs_pos_eq (ha - hb)) in * by lra.
    destruct (Rlt_le_dec hb 0) as [S|S].
    + assert (ha <= 0) by nra. rewrite Rabs_left in HB by lra. rewrite Rabs_left1 in HA by lra. nra.
    + rewrite (Rabs_pos_eq hb) in HB by lra. nra.
Qed.

Lemma pnorm_sub_sym : forall a b, pnorm (psub a b) = pnorm (psub b a).
Proof. intros a b. unfold pnorm. f_equal. vunf. ring. Qed.

Section Cut.
  Variables (t : triangle R) (p : plane R) (l : line R) (tol : R).
  Let c := tri_cross t.
  Hypothesis Ht : 0 < tol.
  Hypothesis Hc : 0 < pdot c c.
  Hypothesis Hu : is_unit (pnormal p).
  (** [l] is the common line of the two planes. *)
  Hypothesis HL : forall q, on_line l q <-> on_plane p q /\ on_plane (rtri_plane t) q.
  Hypothesis HD : ldir l = pcross (pnormal p) (punit c).

  Lemma cut_L1 : pdot (ldir l) c = 0.
  Proof.
    rewrite HD, punit_pos, pcross_scale_r, pdot_scale_l by exact Hc.
    replace (pdot (pcross (pnormal p) c) c) with 0 by (vunf; ring). ring.
  Qed.
  Lemma cut_L2 : pdot (psub (tv0 t) (lorigin l)) c = 0.
  Proof.
    assert (L0 : on_line l (lorigin l)) by (exists 0; apply vec_eq; vunf; ring).
    apply HL in L0. destruct L0 as [_ L0].
    pose proof (tri_on_plane t 1 0 0 Hc ltac:(lra)) as L0'.
    assert (X : pdot (psub (tv0 t) (lorigin l)) (pnormal (rtri_plane t)) = 0).
    { unfold on_plane in L0, L0'. replace (bary t 1 0 0) with (tv0 t) in L0' by (apply vec_eq; vunf; ring).
      rewrite pdot_sub_l in *. lra. }
    cbn in X. fold c in X. rewrite punit_pos, pdot_scale_r in X by exact Hc. apply Rmult_integral in X. destruct X as [X|X]; auto.
    pose proof (pnorm_pos _ Hc) as H0. pose proof (Rinv_0_lt_compat _ H0). lra.
  Qed.

  Section Edge.
    Variables (a b : pt).
    Hypothesis EA : pdot (psub a (tv0 t)) c = 0.
    Hypothesis EB : pdot (psub b (tv0 t)) c = 0.
    Lemma edge_in_plane : forall k, on_plane (rtri_plane t) (padd a (pscale k (psub b a))).
    Proof.
      intros k. pose proof (tri_on_plane t 1 0 0 Hc ltac:(lra)) as L0. unfold on_plane in *. cbn [rtri_plane porigin pnormal] in *.
      rewrite punit_pos in * by exact Hc. rewrite pdot_scale_r in *. fold c in L0 |- *.
      replace (bary t 1 0 0) with (tv0 t) in L0 by (apply vec_eq; vunf; ring).
      pose proof (pnorm_pos _ Hc) as H0. pose proof (Rinv_0_lt_compat _ H0) as H1. fold c in H1.
      apply Rmult_integral in L0. destruct L0 as [L0|L0]; [lra|].
      match goal with |- _ * ?x = 0 => assert (E : x = 0); [|rewrite E; ring] end.
      clear - EA EB L0. rewrite pdot_sub_l in *. rewrite pdot_add_l, pdot_scale_l, pdot_sub_l.
      replace (pdot a c) with (pdot (tv0 t) c) by lra. replace (pdot b c) with (pdot (tv0 t) c) by lra. lra.
    Qed.
    Lemma edge_coplanar' : coplanar l (Segment a b).
    Proof.
      pose proof cut_L2 as L2. apply (edge_coplanar c); cbn [sv0 sv1]; auto using cut_L1; rewrite pdot_sub_l in *; lra.
    Qed.
    (** The line meets the edge where the height vanishes. *)
    Lemma edge_hit : forall x, int_line_segment (fline l) (fseg (Segment a b)) (Fin tol) = Some x ->
      exists k, x = fv (padd a (pscale k (psub b a))) /\ - tol <= k <= 1 + tol /\
        height p a + k * (height p b - height p a) = 0.
    Proof.
      intros x H. apply line_segment_sound in H; auto. destruct H as (q & k & -> & Hq & Hk & HC).
      specialize (HC edge_coplanar'). cbn [sv0 sv1] in HC. exists k. rewrite <- HC. split; [reflexivity|]. split; [exact Hk|].
      rewrite <- height_affine, <- HC. apply HL in Hq. apply Hq.
    Qed.
    Lemma edge_slope : 0 < pdot (psub b a) (psub b a) ->
      pnorm (pcross (ldir l) (punit (psub b a))) = Rabs (height p b - height p a) / dist a b.
    Proof.
      intros HE. rewrite (punit_pos _ HE), pcross_scale_r, pnorm_scale, HD, (punit_pos _ Hc).
      assert (E : pcross (pcross (pnormal p) (pscale (/ pnorm c) c)) (psub b a) = pscale (height p b - height p a) (pscale (/ pnorm c) c)).
      { assert (X : pdot (pscale (/ pnorm c) c) (psub b a) = 0).
        { rewrite pdot_scale_l, pdot_comm. rewrite pdot_sub_l in *. replace (pdot b c - pdot a c) with 0 by lra. ring. }
        set (u := pscale (/ pnorm c) c) in *. clearbody u. 
        transitivity (psub (pscale (pdot (pnormal p) (psub b a)) u) (pscale (pdot u (psub b a)) (pnormal p))).
        - apply vec_eq; vunf; ring.
        - rewrite X. unfold height. apply vec_eq; vunf; ring. }
      rewrite E. rewrite pnorm_scale. pose proof (pnorm_pos _ Hc) as H0. pose proof (Rinv_0_lt_compat _ H0) as H1.
      rewrite pnorm_scale, (Rabs_pos_eq (/ pnorm c)) by lra.
      pose proof (pnorm_pos _ HE) as H2. pose proof (Rinv_0_lt_compat _ H2) as H3. rewrite (Rabs_pos_eq (/ _)) by lra.
      unfold dist. rewrite (pnorm_sub_sym a b). field. lra.
    Qed.
    Lemma edge_crossed : height p a * height p b < 0 -> tol * dist a b <= Rabs (height p b - height p a) ->
      int_line_segment (fline l) (fseg (Segment a b)) (Fin tol) =
      Some (fv (padd a (pscale (height p a / (height p a - height p b)) (psub b a)))).
    Proof.
      intros HX HS. assert (HE : 0 < pdot (psub b a) (psub b a)).
      { destruct (Rlt_dec 0 (pdot (psub b a) (psub b a))) as [|N]; auto. pose proof (pdot_pos (psub b a)) as P.
        assert (Z : psub b a = V 0 0 0) by (apply pdot_zero; lra).
        assert (b = a) by (apply vec_eq; [apply (f_equal vx) in Z|apply (f_equal vy) in Z|apply (f_equal vz) in Z]; vunf; lra).
        subst b. nra. }
      assert (NE : height p a - height p b <> 0) by (intros E; assert (height p a = height p b) by lra; nra).
      assert (DP : 0 < dist a b) by (unfold dist; rewrite pnorm_sub_sym; now apply pnorm_pos).
      assert (K : 0 <= height p a / (height p a - height p b) <= 1).
      { destruct (Rlt_dec (height p a) 0).
        - assert (0 < height p b) by nra. replace (height p a / (height p a - height p b)) with ((- height p a) * / (height p b - height p a)) by (field; lra).
          split; [apply Rmult_le_pos; [lra|left; apply Rinv_0_lt_compat; lra]|].
          apply Rmult_le_reg_r with (height p b - height p a); [lra|]. rewrite Rmult_assoc, Rinv_l by lra. lra.
        - assert (height p b < 0) by nra. assert (0 < height p a) by nra. unfold Rdiv.
          split; [apply Rmult_le_pos; [lra|left; apply Rinv_0_lt_compat; lra]|].
          apply Rmult_le_reg_r with (height p a - height p b); [lra|]. rewrite Rmult_assoc, Rinv_l by lra. lra. }
      apply line_segment_complete; auto; cbn [sv0 sv1].
      - rewrite edge_slope by auto. apply Rmult_le_reg_r with (dist a b); [exact DP|].
        unfold Rdiv. rewrite Rmult_assoc, Rinv_l by lra. lra.
      - apply HL. split; [|apply edge_in_plane]. change (height p (padd a (pscale (height p a / (height p a - height p b)) (psub b a))) = 0).
        rewrite height_affine. field. exact NE.
      - eexists. split; [exact K|]. reflexivity.
    Qed.
  End Edge.
End Cut.

(** The point of an edge at height 0. *)
Definition zero_at (p : plane R) (a b : pt) : pt :=
  padd a (pscale (height p a / (height p a - height p b)) (psub b a)).
Lemma zero_at_sym : forall p a b, height p a * height p b < 0 -> zero_at p a b = zero_at p b a.
Proof.
  intros p a b H. assert (NE : height p a - height p b <> 0) by (intros E; assert (height p a = height p b) by lra; nra).
  unfold zero_at. apply vec_eq; vunf; field; lra.
Qed.
Lemma in_segment_sym : forall a b q, in_segment (Segment a b) q <-> in_segment (Segment b a) q.
Proof.
  assert (H : forall a b q, in_segment (Segment a b) q -> in_segment (Segment b a) q).
  { intros a b q (k & Hk & ->). exists (1 - k). split; [lra|]. apply vec_eq; vunf; ring. }
  split; apply H.
Qed.
(** The cut of a triangle with one vertex alone on its side. *)
Lemma lone_vertex : forall p a b c, height p a * height p b < 0 -> height p a * height p c < 0 -> forall q,
  in_segment (Segment (zero_at p a b) (zero_at p a c)) q <->
  in_triangle (Triangle a b c) q /\ height p q = 0.
Proof.
  intros p a b c HB HC q. set (ha := height p a) in *. set (hb := height p b) in *. set (hc := height p c) in *.
  assert (NB : ha - hb <> 0) by (intros E; assert (ha = hb) by lra; nra).
  assert (NC : ha - hc <> 0) by (intros E; assert (ha = hc) by lra; nra).
  assert (NA : ha <> 0) by (intros E; rewrite E in HB; lra).
  assert (KB : 0 < ha / (ha - hb) < 1).
  { assert (E : ha / (ha - hb) = / (1 - hb / ha)) by (field; auto).
    assert (hb / ha < 0). { replace (hb / ha) with (ha * hb * / (ha * ha)) by (field; auto).
      assert (0 < / (ha * ha)) by (apply Rinv_0_lt_compat; nra). nra. }
    rewrite E. split; [apply Rinv_0_lt_compat; lra|]. rewrite <- Rinv_1. apply Rinv_lt_contravar; lra. }
  assert (KC : 0 < ha / (ha - hc) < 1).
  { assert (E : ha / (ha - hc) = / (1 - hc / ha)) by (field; auto).
    assert (hc / ha < 0). { replace (hc / ha) with (ha * hc * / (ha * ha)) by (field; auto).
      assert (0 < / (ha * ha)) by (apply Rinv_0_lt_compat; nra). nra. }
    rewrite E. split; [apply Rinv_0_lt_compat; lra|]. rewrite <- Rinv_1. apply Rinv_lt_contravar; lra. }
  unfold zero_at. fold ha hb hc.
  set (kb := ha / (ha - hb)) in *. set (kc := ha / (ha - hc)) in *.
  assert (EB : ha + kb * (hb - ha) = 0) by (unfold kb; field; auto).
  assert (EC : ha + kc * (hc - ha) = 0) by (unfold kc; field; auto).
  split.
  - intros (k & Hk & ->). split.
    + exists (1 - (1 - k) * kb - k * kc), ((1 - k) * kb), (k * kc). repeat split; try nra.
      apply vec_eq; vunf; ring.
    + cbn [sv0 sv1]. rewrite height_affine, !height_affine. fold ha hb hc. rewrite EB, EC. ring.
  - intros [(x & y & z & Hx & Hy & Hz & HS & ->) H0].
    rewrite height_bary in H0 by auto. cbn [tv0 tv1 tv2] in H0. fold ha hb hc in H0.
    assert (IB : / kb = 1 - hb / ha) by (unfold kb; field; auto).
    assert (IC : / kc = 1 - hc / ha) by (unfold kc; field; auto).
    assert (ONE : y * / kb + z * / kc = 1).
    { rewrite IB, IC. replace (y * (1 - hb / ha) + z * (1 - hc / ha)) with (y + z - (y * hb + z * hc) / ha) by (field; auto).
      replace (y * hb + z * hc) with (- (x * ha)) by lra. replace (- (x * ha) / ha) with (- x) by (field; auto). lra. }
    assert (PB : 0 < / kb) by (apply Rinv_0_lt_compat; lra). assert (PC : 0 < / kc) by (apply Rinv_0_lt_compat; lra).
    exists (z * / kc). split; [nra|].
    assert (Y : y = (1 - z * / kc) * kb). { replace (1 - z * / kc) with (y * / kb) by lra. field. lra. }
    assert (Z : z = z * / kc * kc) by (field; lra).
    set (w := z * / kc) in *. clearbody w. subst y z. replace x with (1 - (1 - w) * kb - w * kc) by lra.
    apply vec_eq; vunf; ring.
Qed.
Lemma tri_perm1 : forall a b c q, in_triangle (Triangle a b c) q <-> in_triangle (Triangle b c a) q.
Proof.
  intros a b c q. split; intros (x & y & z & Hx & Hy & Hz & HS & ->).
  - exists y, z, x. repeat split; try lra. apply vec_eq; vunf; ring.
  - exists z, x, y. repeat split; try lra. apply vec_eq; vunf; ring.
Qed.
Lemma tri_eta : forall t : triangle R, Triangle (tv0 t) (tv1 t) (tv2 t) = t.
Proof. now intros []. Qed.

Lemma plane_triangle_cases : forall p t tol, 0 < tol -> is_unit (pnormal p) ->
  (int_plane_triangle (fplane p) (ftri t) (Fin tol) = Ret None /\ ~ transversal tol p t) \/
  exists l, 0 < pdot (tri_cross t) (tri_cross t) /\ ldir l = pcross (pnormal p) (punit (tri_cross t)) /\
    (forall q, on_line l q <-> on_plane p q /\ on_plane (rtri_plane t) q) /\
    int_plane_triangle (fplane p) (ftri t) (Fin tol) = int_line_triangle_seg (fline l) (ftri t) (Fin tol).
Proof.
  intros p t tol Ht Hu. unfold int_plane_triangle, transversal. fold (tri_cross t).
  destruct (Rle_lt_or_eq_dec 0 _ (pdot_pos (tri_cross t))) as [Hn|Hn].
  2:{ left. rewrite plane_tri_degenerate by auto. split; [reflexivity|]. intros [H _]. lra. }
  rewrite f_tri_plane.
  destruct (int_plane_plane (fplane p) (fplane (rtri_plane t)) (Fin tol)) as [l'|] eqn:E.
  - apply plane_plane_sound in E; auto; [|now apply tri_plane_unit].
    destruct E as (l & -> & HD & HT & HL). right. exists l. auto.
  - left. split; [reflexivity|]. apply plane_plane_none in E; auto; [|now apply tri_plane_unit].
    intros [_ H]. cbn [rtri_plane pnormal] in E. rewrite (punit_pos _ Hn), pcross_scale_r in E.
    rewrite pdot_scale_l, pdot_scale_r in E. rewrite <- pnorm_sq in H at 1.
    pose proof (pnorm_pos _ Hn) as P. pose proof (Rinv_0_lt_compat _ P) as P'.
    set (N := pnorm (tri_cross t)) in *. set (X := pdot (pcross (pnormal p) (tri_cross t)) (pcross (pnormal p) (tri_cross t))) in *.
    apply (Rmult_lt_compat_r (N * N)) in E; [|nra]. replace (/ N * (/ N * X) * (N * N)) with X in E by (field; lra). lra.
Qed.

Section Exact.
  Variables (t : triangle R) (p : plane R) (tol : R).
  Hypothesis Ht : 0 < tol.
  Hypothesis Hu : is_unit (pnormal p).
  Hypothesis CL : clear tol p t.
  Let h0 := height p (tv0 t).
  Let h1 := height p (tv1 t).
  Let h2 := height p (tv2 t).
  Lemma V0 : vertex_of t (tv0 t). Proof. now left. Qed.
  Lemma V1 : vertex_of t (tv1 t). Proof. right; now left. Qed.
  Lemma V2 : vertex_of t (tv2 t). Proof. right; now right. Qed.
  Lemma clear_nz : forall a, vertex_of t a -> height p a <> 0.
  Proof. intros a A E. specialize (CL a a A A). rewrite E in CL. replace (0 - 0) with 0 in CL by ring. rewrite Rabs_R0 in CL. lra. Qed.
  Section OnLine.
    Variable l : line R.
    Hypothesis Hc : 0 < pdot (tri_cross t) (tri_cross t).
    Hypothesis HL : forall q, on_line l q <-> on_plane p q /\ on_plane (rtri_plane t) q.
    Hypothesis HD : ldir l = pcross (pnormal p) (punit (tri_cross t)).
    Lemma vertex_plane : forall a, vertex_of t a -> pdot (psub a (tv0 t)) (tri_cross t) = 0.
    Proof.
      destruct (tri_edge_normal t) as (E1 & E2 & _). intros a [-> | [-> | ->]]; auto.
      replace (psub (tv0 t) (tv0 t)) with (V 0 0 0 : pt) by (apply vec_eq; vunf; ring). vunf. ring.
    Qed.
    Lemma same_side : forall a b, vertex_of t a -> vertex_of t b -> 0 < height p a * height p b ->
      int_line_segment (fline l) (fseg (Segment a b)) (Fin tol) = None.
    Proof.
      intros a b A B H. destruct (int_line_segment _ _ _) as [x|] eqn:E; auto.
      apply (edge_hit t p l tol Ht Hc HL HD a b) in E; auto using vertex_plane. destruct E as (k & _ & Hk & E).
      pose proof (hit_crosses tol (height p a) (height p b) k Ht (CL a b A B) (CL b a B A) Hk E). lra.
    Qed.
    Lemma crossing : forall a b, steep tol p t -> vertex_of t a -> vertex_of t b -> height p a * height p b < 0 ->
      int_line_segment (fline l) (fseg (Segment a b)) (Fin tol) = Some (fv (zero_at p a b)).
    Proof.
      intros a b ST A B H. apply (edge_crossed t p l tol Ht Hc HL HD); auto using vertex_plane.
      destruct (Rlt_dec (height p a) 0).
      - assert (0 < height p b) by nra. rewrite Rabs_pos_eq by lra. apply ST; auto; lra.
      - assert (height p b < 0) by nra. assert (0 < height p a) by nra. rewrite Rabs_left by lra. rewrite dist_sym.
        replace (- (height p b - height p a)) with (height p a - height p b) by ring. apply ST; auto.
    Qed.
    Lemma seg_no_throw : exists o, int_line_triangle_seg (fline l) (ftri t) (Fin tol) = Ret o.
    Proof.
      unfold int_line_triangle_seg.
      change (tri_edge0 (ftri t)) with (fseg (Segment (tv0 t) (tv1 t))). change (tri_edge1 (ftri t)) with (fseg (Segment (tv1 t) (tv2 t))).
      change (tri_edge2 (ftri t)) with (fseg (Segment (tv2 t) (tv0 t))).
      pose proof (clear_nz _ V0) as N0. pose proof (clear_nz _ V1) as N1. pose proof (clear_nz _ V2) as N2. fold h0 in N0. fold h1 in N1. fold h2 in N2.
      assert (P : 0 < h0 * h1 \/ 0 < h1 * h2 \/ 0 < h2 * h0).
      { destruct (Rlt_dec h0 0), (Rlt_dec h1 0), (Rlt_dec h2 0);
          first [left; nra | right; left; nra | right; right; nra]. }
      pose proof V0 as v0. pose proof V1 as v1. pose proof V2 as v2.
      destruct P as [P|[P|P]]; apply same_side in P; auto; rewrite P; repeat destruct (int_line_segment _ _ _); eauto.
    Qed.
    Lemma seg_exact : steep tol p t ->
      (exists s, int_line_triangle_seg (fline l) (ftri t) (Fin tol) = Ret (Some (fseg s)) /\
         forall q, in_segment s q <-> in_triangle t q /\ on_plane p q) \/
      (int_line_triangle_seg (fline l) (ftri t) (Fin tol) = Ret None /\ forall q, in_triangle t q -> ~ on_plane p q).
    Proof.
      intros ST. unfold int_line_triangle_seg.
      change (tri_edge0 (ftri t)) with (fseg (Segment (tv0 t) (tv1 t))). change (tri_edge1 (ftri t)) with (fseg (Segment (tv1 t) (tv2 t))).
      change (tri_edge2 (ftri t)) with (fseg (Segment (tv2 t) (tv0 t))).
      pose proof (clear_nz _ V0) as N0. pose proof (clear_nz _ V1) as N1. pose proof (clear_nz _ V2) as N2. fold h0 in N0. fold h1 in N1. fold h2 in N2.
      pose proof V0 as v0. pose proof V1 as v1. pose proof V2 as v2.
      assert (ALT : (0 < h0 * h1 /\ 0 < h1 * h2 /\ 0 < h2 * h0) \/ (h0 * h1 < 0 /\ h2 * h0 < 0 /\ 0 < h1 * h2) \/
                    (h0 * h1 < 0 /\ h1 * h2 < 0 /\ 0 < h2 * h0) \/ (h1 * h2 < 0 /\ h2 * h0 < 0 /\ 0 < h0 * h1)).
      { destruct (Rlt_dec h0 0), (Rlt_dec h1 0), (Rlt_dec h2 0);
          first [left; repeat split; nra | right; left; repeat split; nra | right; right; left; repeat split; nra | right; right; right; repeat split; nra]. }
      destruct ALT as [(A & B & C)|[(A & B & C)|[(A & B & C)|(A & B & C)]]].
      - right. rewrite !same_side by auto. split; [reflexivity|].
        intros q (x & y & z & Hx & Hy & Hz & HS & ->) HP. change (height p (bary t x y z) = 0) in HP.
        rewrite height_bary in HP by auto. fold h0 h1 h2 in HP.
        assert (PP : (0 < h0 /\ 0 < h1 /\ 0 < h2) \/ (h0 < 0 /\ h1 < 0 /\ h2 < 0)).
        { destruct (Rlt_dec h0 0); [right|left]; repeat split; nra. }
        destruct PP as [(P0 & P1 & P2)|(P0 & P1 & P2)].
        + assert (0 <= x * h0) by nra. assert (0 <= y * h1) by nra. assert (0 <= z * h2) by nra.
          assert (X0 : x * h0 = 0) by lra. assert (Y0 : y * h1 = 0) by lra. assert (Z0 : z * h2 = 0) by lra.
          apply Rmult_integral in X0, Y0, Z0. destruct X0, Y0, Z0; lra.
        + assert (x * h0 <= 0) by nra. assert (y * h1 <= 0) by nra. assert (z * h2 <= 0) by nra.
          assert (X0 : x * h0 = 0) by lra. assert (Y0 : y * h1 = 0) by lra. assert (Z0 : z * h2 = 0) by lra.
          apply Rmult_integral in X0, Y0, Z0. destruct X0, Y0, Z0; lra.
      - left. rewrite (crossing _ _ ST v0 v1 A), (same_side _ _ v1 v2 C), (crossing _ _ ST v2 v0 B).
        exists (Segment (zero_at p (tv2 t) (tv0 t)) (zero_at p (tv0 t) (tv1 t))). split; [reflexivity|].
        intros q. rewrite in_segment_sym, (zero_at_sym p (tv2 t) (tv0 t)) by exact B.
        rewrite lone_vertex by (fold h0 h1 h2; lra). now rewrite tri_eta.
      - left. rewrite (crossing _ _ ST v0 v1 A), (same_side _ _ v2 v0 C), (crossing _ _ ST v1 v2 B).
        exists (Segment (zero_at p (tv0 t) (tv1 t)) (zero_at p (tv1 t) (tv2 t))). split; [reflexivity|].
        intros q. rewrite in_segment_sym, (zero_at_sym p (tv0 t) (tv1 t)) by exact A.
        rewrite lone_vertex by (fold h0 h1 h2; lra). rewrite <- tri_perm1. now rewrite tri_eta.
      - left. rewrite (crossing _ _ ST v1 v2 A), (same_side _ _ v0 v1 C), (crossing _ _ ST v2 v0 B).
        exists (Segment (zero_at p (tv1 t) (tv2 t)) (zero_at p (tv2 t) (tv0 t))). split; [reflexivity|].
        intros q. rewrite in_segment_sym, (zero_at_sym p (tv1 t) (tv2 t)) by exact A.
        rewrite lone_vertex by (fold h0 h1 h2; lra). rewrite tri_perm1. now rewrite tri_eta.
    Qed.
  End OnLine.
  Lemma plane_triangle_no_throw : exists o, int_plane_triangle (fplane p) (ftri t) (Fin tol) = Ret o.
  Proof.
    destruct (plane_triangle_cases p t tol Ht Hu) as [[-> _]|(l & Hc & HD & HL & ->)]; eauto using seg_no_throw.
  Qed.
  Lemma plane_triangle_exact : transversal tol p t -> steep tol p t ->
    (exists s, int_plane_triangle (fplane p) (ftri t) (Fin tol) = Ret (Some (fseg s)) /\
       forall q, in_segment s q <-> in_triangle t q /\ on_plane p q) \/
    (int_plane_triangle (fplane p) (ftri t) (Fin tol) = Ret None /\ forall q, in_triangle t q -> ~ on_plane p q).
  Proof.
    intros TR ST. destruct (plane_triangle_cases p t tol Ht Hu) as [[_ N]|(l & Hc & HD & HL & ->)]; [contradiction|].
    now apply seg_exact.
  Qed.
End Exact.

(** The part of a triangle inside a disk. *)
Lemma triangle_disk_exact : forall t d tol, 0 < tol <= 1 -> tol <= dradius d -> is_unit (pnormal (dplane d)) ->
  clear tol (dplane d) t -> transversal tol (dplane d) t -> steep tol (dplane d) t ->
  (forall s, (forall q, in_segment s q <-> in_triangle t q /\ on_plane (dplane d) q) ->
     tol <= dist (sv0 s) (sv1 s) /\ (chord2 (seg_line s) d < - tol \/ tol <= chord2 (seg_line s) d)) ->
  (exists s, int_triangle_disk (ftri t) (fdisk d) (Fin tol) = Ret (Some (fseg s)) /\
     forall q, in_segment s q <-> in_triangle t q /\ in_disk d q) \/
  (int_triangle_disk (ftri t) (fdisk d) (Fin tol) = Ret None /\ forall q, in_triangle t q -> ~ in_disk d q).
Proof.
  intros t d tol Ht HR HU CL TR ST HS. unfold int_triangle_disk.
  change (dplane (fdisk d)) with (fplane (dplane d)).
  destruct (plane_triangle_exact t (dplane d) tol ltac:(lra) HU CL TR ST) as [(s & -> & E)|[-> E]]; cbn [obind].
  - destruct (HS s E) as [H1 H2].
    assert (IN : forall k, 0 <= k <= 1 -> on_plane (dplane d) (padd (sv0 s) (pscale k (psub (sv1 s) (sv0 s))))).
    { intros k Hk. apply (proj1 (E _)). now exists k. }
    assert (LP : line_in_plane (seg_line s) (dplane d)).
    { pose proof (IN 0 ltac:(lra)) as I0. pose proof (IN 1 ltac:(lra)) as I1. unfold on_plane in I0, I1.
      unfold line_in_plane, on_plane, seg_line. cbn [lorigin ldir].
      replace (padd (sv0 s) (pscale 0 (psub (sv1 s) (sv0 s)))) with (sv0 s) in I0 by (apply vec_eq; vunf; ring).
      replace (padd (sv0 s) (pscale 1 (psub (sv1 s) (sv0 s)))) with (sv1 s) in I1 by (apply vec_eq; vunf; ring).
      split; [exact I0|]. replace (psub (sv1 s) (sv0 s)) with (psub (psub (sv1 s) (porigin (dplane d))) (psub (sv0 s) (porigin (dplane d)))) by (apply vec_eq; vunf; ring).
      transitivity (pdot (psub (sv1 s) (porigin (dplane d))) (pnormal (dplane d)) - pdot (psub (sv0 s) (porigin (dplane d))) (pnormal (dplane d))); [vunf; ring|rewrite I0, I1; ring]. }
    assert (N1 : pnorm (pnormal (dplane d)) = 1) by (apply pnorm_eq; [lra|rewrite HU; ring]).
    pose proof (segment_disk_clip s d tol ltac:(lra) ltac:(lra) H1 HR ltac:(lra) LP H2) as C.
    destruct (int_segment_disk _ _ _) as [r|].
    + left. destruct C as (s' & -> & C). exists s'. split; [reflexivity|]. intros q. rewrite C, E. unfold in_disk. tauto.
    + right. split; [reflexivity|]. intros q Hq HD. apply (C q); auto. apply E. split; auto. apply HD.
  - right. split; [reflexivity|]. intros q Hq [HP _]. exact (E q Hq HP).
Qed.
Lemma triangle_disk_no_throw : forall t d tol, 0 < tol -> is_unit (pnormal (dplane d)) -> clear tol (dplane d) t ->
  exists o, int_triangle_disk (ftri t) (fdisk d) (Fin tol) = Ret o.
Proof.
  intros t d tol Ht HU CL. unfold int_triangle_disk. change (dplane (fdisk d)) with (fplane (dplane d)).
  destruct (plane_triangle_no_throw t (dplane d) tol Ht HU CL) as [[s|] ->]; cbn [obind]; eauto.
Qed.
