(** * Ribs on flat ground. *)
From Coq Require Import ZArith Bool Reals Lra Lia.
From Verif Require Import Base Num Vec Geom Ground Rib ER SpecGeom SpecRib ProofGeom ProofInt ProofSegArea.
Local Open Scope R_scope.

Lemma f_center : forall r a, center_grd (frib r) (fa a) = fv (place a (rb_center r)).
Proof. intros. unfold center_grd, rb_center, frib, fdisk, dcenter, fa. cbn. reflexivity. Qed.
Lemma f_normal : forall r a, normal_grd (frib r) (fa a) = fv (papply (lin a) (rb_normal r)).
Proof. intros. unfold normal_grd, rb_normal, frib, fdisk, dnormal, fa. cbn. reflexivity. Qed.
Lemma f_disk : forall r a, disk_grd (frib r) (fa a) = fdisk (posed_disk r a).
Proof. intros. unfold disk_grd. rewrite f_center, f_normal. reflexivity. Qed.
Lemma posed_unit : forall r a, good_rib r -> rigid a -> is_unit (papply (lin a) (rb_normal r)).
Proof. intros r a (_ & _ & U) H. unfold is_unit. rewrite rotation_isometry; auto. Qed.

Lemma foot_unique : forall l c p, 0 < pdot (ldir l) (ldir l) -> on_line l p ->
  pdot (psub c p) (ldir l) = 0 -> foot l c = p.
Proof.
  intros l c p H [t ->] HP. unfold foot. f_equal. f_equal.
  assert (pdot (psub c (lorigin l)) (ldir l) = t * pdot (ldir l) (ldir l)).
  { replace (psub c (padd (lorigin l) (pscale t (ldir l)))) with
      (psub (psub c (lorigin l)) (pscale t (ldir l))) in HP by (apply vec_eq; vunf; ring).
    rewrite pdot_sub_l, pdot_scale_l in HP. lra. }
  rewrite H0. field. lra.
Qed.
Lemma foot_on : forall l c, on_line l (foot l c).
Proof. intros. eexists. reflexivity. Qed.
Lemma foot_perp : forall l c, 0 < pdot (ldir l) (ldir l) -> pdot (psub c (foot l c)) (ldir l) = 0.
Proof.
  intros l c H. unfold foot. set (k := _ / _).
  replace (psub c (padd (lorigin l) (pscale k (ldir l)))) with
      (psub (psub c (lorigin l)) (pscale k (ldir l))) by (apply vec_eq; vunf; ring).
  rewrite pdot_sub_l, pdot_scale_l. unfold k. field. lra.
Qed.
Lemma foot_nearest : forall l c, 0 < pdot (ldir l) (ldir l) -> forall q, on_line l q -> dist (foot l c) c <= dist q c.
Proof.
  intros l c H q [t ->]. pose proof (foot_perp l c H) as P. destruct (foot_on l c) as [k E].
  set (f := foot l c) in *. unfold dist at 1. apply pnorm_le; [apply pnorm_nonneg|].
  unfold dist. rewrite pnorm_sq.
  assert (psub (padd (lorigin l) (pscale t (ldir l))) c = padd (psub f c) (pscale (t - k) (ldir l))).
  { rewrite E. apply vec_eq; vunf; ring. }
  rewrite H0. rewrite !pdot_add_l, !pdot_add_r, !pdot_scale_l, !pdot_scale_r.
  replace (pdot (psub f c) (ldir l)) with (- pdot (psub c f) (ldir l)) by (vunf; ring).
  rewrite (pdot_comm (ldir l) (psub f c)).
  replace (pdot (psub f c) (ldir l)) with (- pdot (psub c f) (ldir l)) by (vunf; ring).
  rewrite P. assert (0 <= (t - k) * ((t - k) * pdot (ldir l) (ldir l))).
  { replace ((t - k) * ((t - k) * pdot (ldir l) (ldir l))) with (((t - k) * (t - k)) * pdot (ldir l) (ldir l)) by ring.
    apply Rmult_le_pos; [exact (Rle_0_sqr (t - k))|lra]. }
  lra.
Qed.

(** The chord cut by the ground in the rib disk. *)
Section FlatGeo.
  Variables (r : rib R) (a : affine R) (gp : plane R) (f : R).
  Hypothesis HR : good_rib r.
  Hypothesis HA : rigid a.
  Hypothesis HG : is_unit (pnormal gp).
  Let cg := place a (rb_center r).
  Let ng := papply (lin a) (rb_normal r).
  Let gn := pnormal gp.
  Let D := posed_disk r a.
  Let l := pp_line gp (dplane D).
  Let s2 := sin2 gn ng.
  Let h := center_height r a gp.

  Lemma ng_unit : is_unit ng.
  Proof. now apply posed_unit. Qed.
  Lemma l_dir : ldir l = pcross gn ng.
  Proof. reflexivity. Qed.
  Lemma l_len : pdot (ldir l) (ldir l) = s2.
  Proof. rewrite l_dir. apply (pp_sq gp (dplane D)); auto. exact ng_unit. Qed.
  Lemma l_points : 0 < s2 -> forall q, on_line l q <-> on_plane gp q /\ on_plane (dplane D) q.
  Proof. intros H. apply pp_line_in; auto; [exact ng_unit|]. unfold s2, sin2 in H. exact ltac:(fold gn; cbn; fold ng; lra). Qed.
  (** The nearest point of the common line. *)
  Lemma foot_value : 0 < s2 -> foot l cg = psub cg (pscale (h / s2) (psub gn (pscale (pdot gn ng) ng))).
  Proof.
    intros H. pose proof ng_unit as NU. apply foot_unique; [rewrite l_len; auto| |].
    - apply l_points; auto. split; unfold on_plane.
      + fold gn. replace (psub (psub cg (pscale (h / s2) (psub gn (pscale (pdot gn ng) ng)))) (porigin gp))
          with (psub (psub cg (porigin gp)) (pscale (h / s2) (psub gn (pscale (pdot gn ng) ng)))) by (apply vec_eq; vunf; ring).
        rewrite (pdot_sub_l (psub cg (porigin gp))), pdot_scale_l, (pdot_sub_l gn), pdot_scale_l.
        change (pdot (psub cg (porigin gp)) gn) with h. rewrite (pdot_comm ng gn).
        replace (pdot gn gn) with 1 by (symmetry; exact HG). fold (sin2 gn ng). fold s2. 
        unfold sin2 in s2. unfold s2. field. unfold s2, sin2 in H. lra.
      + cbn [D posed_disk dplane porigin pnormal]. fold cg ng.
        replace (psub (psub cg (pscale (h / s2) (psub gn (pscale (pdot gn ng) ng)))) cg)
          with (pscale (- (h / s2)) (psub gn (pscale (pdot gn ng) ng))) by (apply vec_eq; vunf; ring).
        rewrite pdot_scale_l, pdot_sub_l, pdot_scale_l. replace (pdot ng ng) with 1 by (symmetry; exact NU). ring.
    - replace (psub cg (psub cg (pscale (h / s2) (psub gn (pscale (pdot gn ng) ng)))))
        with (pscale (h / s2) (psub gn (pscale (pdot gn ng) ng))) by (apply vec_eq; vunf; ring).
      rewrite l_dir, pdot_scale_l, pdot_sub_l, pdot_scale_l, pcross_dot_l, pcross_dot_r. ring.
  Qed.
  Lemma foot_dist2 : 0 < s2 -> dist (foot l cg) cg ^ 2 = h * h / s2.
  Proof.
    intros H. rewrite foot_value by auto. unfold dist. rewrite <- Rsqr_pow2. unfold Rsqr. rewrite pnorm_sq.
    replace (psub (psub cg (pscale (h / s2) (psub gn (pscale (pdot gn ng) ng)))) cg)
          with (pscale (- (h / s2)) (psub gn (pscale (pdot gn ng) ng))) by (apply vec_eq; vunf; ring).
    rewrite pdot_scale_l, pdot_scale_r, !pdot_sub_l, !pdot_sub_r, !pdot_scale_l, !pdot_scale_r.
    replace (pdot ng ng) with 1 by (symmetry; exact ng_unit). replace (pdot gn gn) with 1 by (symmetry; exact HG).
    rewrite (pdot_comm ng gn). unfold s2, sin2 in *. field. lra.
  Qed.
  Lemma chord2_value : 0 < s2 -> chord2 l D = s2 * (rb_radius r * rb_radius r) - h * h.
  Proof.
    intros H. unfold chord2. change (porigin (dplane D)) with cg. change (dradius D) with (rb_radius r).
    rewrite l_len, foot_dist2 by auto. field. lra.
  Qed.

  Lemma flat_plane_disk : int_plane_disk (fplane gp) (fdisk D) (Fin eps) =
    if rltb s2 eps then None else int_line_disk (fline l) (fdisk D) (Fin eps).
  Proof.
    unfold int_plane_disk. change (dplane (fdisk D)) with (fplane (dplane D)).
    rewrite plane_plane_eval; auto using eps_pos; [|exact ng_unit].
    fold gn. change (pnormal (dplane D)) with ng. fold (sin2 gn ng). fold s2. destruct (rltb s2 eps); reflexivity.
  Qed.

  Lemma seg_zero_length : forall p, seg_length (fseg (Segment p p)) = Fin 0.
  Proof.
    intros p. unfold seg_length, fseg. cbn [sv0 sv1]. push. rewrite psub_self. unfold pnorm.
    replace (pdot (V 0 0 0) (V 0 0 0)) with 0 by (vunf; ring). now rewrite sqrt_0.
  Qed.
  (** What the geometric method computes. *)
  Lemma flat_eval : envelop_geometric_flat (frib r) (fflat gp f) (fa a) =
    let p := foot l cg in
    let d := rb_radius r - dist p cg in
    if rltb s2 eps || rltb (s2 * (rb_radius r * rb_radius r) - h * h) eps
    then envelop_none (frib r) (fa a)
    else (true, Output (fv p) (fv gn) (Fin f) (Fin d)
            (Fin (chord (rb_radius r) d * rb_width r)) (Fin (rvol (rb_radius r) (rb_width r) d))).
  Proof.
    destruct HR as (Rpos & Wpos & _).
    unfold envelop_geometric_flat. rewrite f_disk. fold D. change (fl_plane (fflat gp f)) with (fplane gp).
    rewrite neps_eps, flat_plane_disk. destruct (rltb s2 eps) eqn:E; [reflexivity|]. cbn [orb]. rb.
    pose proof eps_pos as EP. assert (SP : 0 < s2) by lra.
    assert (LD : 0 < pdot (ldir l) (ldir l)) by (rewrite l_len; lra).
    rewrite <- (chord2_value SP). cbv zeta.
    rewrite line_disk_eval; auto. cbv zeta.
    destruct (rltb (chord2 l D) (- eps)) eqn:E1; rb.
    { replace (rltb (chord2 l D) eps) with true by (symmetry; apply rltb_true; lra). reflexivity. }
    destruct (rltb (Rabs (chord2 l D)) eps) eqn:E2; rb.
    { rewrite seg_zero_length. push. replace (rltb eps 0) with false by (symmetry; apply rltb_false; lra).
      replace (rltb (chord2 l D) eps) with true by (symmetry; apply rltb_true; unfold Rabs in E2; destruct (Rcase_abs _); lra).
      reflexivity. }
    destruct (rltb (chord2 l D) 0) eqn:E3; rb.
    { replace (rltb (chord2 l D) eps) with true by (symmetry; apply rltb_true; lra). reflexivity. }
    rewrite Rabs_pos_eq in E2 by auto.
    replace (rltb (chord2 l D) eps) with false by (symmetry; now apply rltb_false).
    set (a2 := pdot (ldir l) (ldir l)) in *. change (porigin (dplane D)) with cg.
    set (a1 := pdot (psub (lorigin l) cg) (ldir l)). set (root := sqrt (chord2 l D)).
    assert (RP : 0 < root) by (apply sqrt_lt_R0; lra).
    assert (RE : eps < root).
    { pose proof eps_lt1. assert (RR : root * root = chord2 l D) by (apply sqrt_sqrt; lra). nra. }
    assert (A2 : a2 <= 1).
    { unfold a2. rewrite l_len. unfold s2, sin2. nra. }
    assert (LEN : seg_length (fseg (Segment (padd (lorigin l) (pscale (- (a1 + root) * / a2) (ldir l)))
        (padd (lorigin l) (pscale (- (a1 - root) * / a2) (ldir l))))) = Fin (2 * root / a2 * sqrt a2)).
    { unfold seg_length, fseg. cbn [sv0 sv1]. push. f_equal.
      match goal with |- pnorm ?v = _ => replace v with (pscale (- (2 * root / a2)) (ldir l)) end.
      2:{ clearbody root a1 a2. apply vec_eq; vunf; field; lra. }
      rewrite pnorm_scale, Rabs_Ropp, Rabs_pos_eq; [reflexivity|].
      apply Rmult_le_pos; [lra|]. left. now apply Rinv_0_lt_compat. }
    rewrite LEN. push.
    assert (LL : eps < 2 * root / a2 * sqrt a2).
    { assert (SQ : sqrt a2 * sqrt a2 = a2) by (apply sqrt_sqrt; lra). assert (0 < sqrt a2) by now apply sqrt_lt_R0.
      assert (sqrt a2 <= 1) by nra. apply (Rmult_lt_reg_r (sqrt a2)); auto.
      replace (2 * root / a2 * sqrt a2 * sqrt a2) with (2 * root) by (rewrite Rmult_assoc, SQ; field; lra). nra. }
    rewrite (proj2 (rltb_true _ _) LL).
    (* the centroid *)
    assert (CE : seg_centroid (fseg (Segment (padd (lorigin l) (pscale (- (a1 + root) * / a2) (ldir l)))
        (padd (lorigin l) (pscale (- (a1 - root) * / a2) (ldir l))))) = fv (foot l cg)).
    { unfold seg_centroid, fseg. cbn [sv0 sv1]. push. rewrite f_div by lra. f_equal. unfold foot. fold a2.
      replace (pdot (psub cg (lorigin l)) (ldir l)) with (- a1) by (unfold a1; vunf; ring).
      clearbody root a1 a2. apply vec_eq; vunf; field; lra. }
    rewrite CE, f_center, f_normal. fold cg ng. unfold fflat. cbn [fl_plane fl_friction fplane pnormal]. push.
    fold gn.
    assert (NT : pdot gn (punit (pcross ng (psub cg (foot l cg)))) = 0).
    { assert (Z : pdot gn (pcross ng (psub cg (foot l cg))) = 0).
      { replace (pdot gn (pcross ng (psub cg (foot l cg)))) with (pdot (psub cg (foot l cg)) (pcross gn ng))
          by (clearbody gn ng cg; vunf; ring).
        rewrite <- l_dir. now apply foot_perp. }
      unfold punit. destruct (rltb 0 _); [rewrite pdot_scale_r, Z; ring|exact Z]. }
    rewrite NT, pscale_0.
    replace (psub gn (V 0 0 0)) with gn by (apply vec_eq; vunf; ring). rewrite punit_unit by exact HG.
    change (rb_radius (frib r)) with (Fin (rb_radius r)). change (rb_width (frib r)) with (Fin (rb_width r)). push.
    fold (dist (foot l cg) cg).
    assert (DD : 0 <= dist (foot l cg) cg < rb_radius r).
    { split; [apply pnorm_nonneg|]. pose proof (chord2_dir l D LD ltac:(lra)) as CD.
      change (porigin (dplane D)) with cg in CD. change (dradius D) with (rb_radius r) in CD.
      pose proof (pnorm_nonneg (psub (foot l cg) cg)) as PN. fold (dist (foot l cg) cg) in PN. nra. }
    rewrite f_seg_area, f_seg_volume by lra. reflexivity.
  Qed.

  (** Contact point, depth, normal. *)
  Lemma flat_contact : forall o, envelop_geometric_flat (frib r) (fflat gp f) (fa a) = (true, o) ->
    exists p, o_point o = fv p /\ on_plane gp p /\ on_plane (dplane D) p /\
      (forall q, on_plane gp q -> on_plane (dplane D) q -> dist p cg <= dist q cg) /\
      o_normal o = fv gn /\
      o_depth o = Fin (rb_radius r - dist p cg) /\ 0 < rb_radius r - dist p cg <= rb_radius r /\
      o_area o = Fin (chord (rb_radius r) (rb_radius r - dist p cg) * rb_width r) /\
      o_volume o = Fin (rvol (rb_radius r) (rb_width r) (rb_radius r - dist p cg)).
  Proof.
    intros o H. rewrite flat_eval in H. cbv zeta in H.
    destruct (rltb s2 eps) eqn:E; [cbn [orb] in H; unfold envelop_none in H; discriminate|].
    destruct (rltb (_ - _) eps) eqn:E1; [cbn [orb] in H; unfold envelop_none in H; discriminate|].
    cbn [orb] in H. injection H as <-. repeat rb. pose proof eps_pos.
    assert (SP : 0 < s2) by lra. assert (LD : 0 < pdot (ldir l) (ldir l)) by (rewrite l_len; lra).
    exists (foot l cg). cbn [o_point o_normal o_depth o_area o_volume].
    assert (F : on_line l (foot l cg)) by apply foot_on. apply l_points in F; auto. destruct F as [F1 F2].
    split; [reflexivity|]. split; [exact F1|]. split; [exact F2|].
    split; [intros q Q1 Q2; apply foot_nearest; auto; apply l_points; auto|].
    split; [reflexivity|]. split; [reflexivity|]. split; [|split; reflexivity].
    pose proof (foot_dist2 SP) as FD. pose proof (pnorm_nonneg (psub (foot l cg) cg)) as PN.
    fold (dist (foot l cg) cg) in PN. destruct HR as (RP & _).
    assert (dist (foot l cg) cg ^ 2 * s2 = h * h) by (rewrite FD; field; lra).
    assert (dist (foot l cg) cg ^ 2 < rb_radius r * rb_radius r).
    { apply (Rmult_lt_reg_r s2); auto. nra. }
    split; nra.
  Qed.
  Lemma flat_contact_iff : fst (envelop_geometric_flat (frib r) (fflat gp f) (fa a)) = true <->
    eps <= s2 /\ eps <= s2 * (rb_radius r * rb_radius r) - h * h.
  Proof.
    rewrite flat_eval. cbv zeta. destruct (rltb s2 eps) eqn:E; [cbn [orb]; rb|].
    - split; [discriminate|]. intros. lra.
    - cbn [orb]. destruct (rltb (_ - _) eps) eqn:E1; repeat rb.
      + split; [discriminate|]. intros. lra.
      + split; auto.
  Qed.
  Lemma flat_no_touch : (forall q, on_plane gp q -> ~ in_disk D q) ->
    fst (envelop_geometric_flat (frib r) (fflat gp f) (fa a)) = false.
  Proof.
    intros H. destruct (envelop_geometric_flat (frib r) (fflat gp f) (fa a)) as [[|] o] eqn:E; auto.
    exfalso. apply flat_contact in E. destruct E as (p & _ & P1 & P2 & _ & _ & _ & P3 & _).
    apply (H p P1). split; auto. change (porigin (dplane D)) with cg. change (dradius D) with (rb_radius r). lra.
  Qed.
End FlatGeo.
