(** * Lowering a wheel; the sampling method. *)
From Coq Require Import ZArith Bool Reals Lra Lia.
From Verif Require Import Base Num Vec Geom Ground Rib ER SpecGeom SpecRib ProofGeom ProofInt ProofSegArea ProofFlat.
Local Open Scope R_scope.

(** ** Lowering an upright wheel over level ground. *)
Lemma upright_depth : forall r a go f, good_rib r -> rigid a -> vz (papply (lin a) (rb_normal r)) = 0 ->
  let h := vz (place a (rb_center r)) - vz go in
  o_depth (snd (envelop_geometric_flat (frib r) (fflat (Plane go (V 0 0 1)) f) (fa a))) =
    Fin (if rltb (rb_radius r * rb_radius r - h * h) eps then 0 else rb_radius r - Rabs h) /\
  fst (envelop_geometric_flat (frib r) (fflat (Plane go (V 0 0 1)) f) (fa a)) =
    negb (rltb (rb_radius r * rb_radius r - h * h) eps).
Proof.
  intros r a go f HR HA HZ h.
  assert (HG : is_unit (pnormal (Plane go (V 0 0 1)))) by (cbn [pnormal]; vunf; ring).
  assert (S2 : sin2 (pnormal (Plane go (V 0 0 1))) (papply (lin a) (rb_normal r)) = 1).
  { unfold sin2. cbn [pnormal]. set (n := papply _ _) in *. clearbody n. vunf. rewrite HZ. ring. }
  assert (CH : center_height r a (Plane go (V 0 0 1)) = h).
  { unfold center_height, h. cbn [porigin pnormal]. set (q := place _ _). clearbody q. vunf. ring. }
  pose proof (flat_eval r a (Plane go (V 0 0 1)) f HR HA HG) as FE.
  pose proof (foot_dist2 r a (Plane go (V 0 0 1)) HR HA HG ltac:(rewrite S2; lra)) as FD.
  cbv zeta in FE. rewrite S2, CH in FE, FD. rewrite FE.
  replace (rltb 1 eps) with false by (symmetry; apply rltb_false; left; apply eps_lt1). cbn [orb].
  rewrite Rmult_1_l. destruct (rltb (rb_radius r * rb_radius r - h * h) eps); [split; reflexivity|].
  cbn [snd fst o_depth negb]. split; [|reflexivity]. do 2 f_equal.
  set (p := foot _ _) in *. unfold dist in *. 
  pose proof (pnorm_nonneg (psub p (place a (rb_center r)))) as PN. set (m := pnorm _) in *.
  assert (MM : m * m = h * h) by (simpl in FD; lra).
  apply Rsqr_inj; auto using Rabs_pos. unfold Rsqr. rewrite MM. unfold Rabs. destruct (Rcase_abs h); ring.
Qed.
Lemma place_lowered : forall a k p, vz (place (lowered a k) p) = vz (place a p) - k.
Proof. intros. unfold place, lowered, padd. cbn [tra lin vz]. ring. Qed.
Lemma rigid_lowered : forall a k, rigid a -> rigid (lowered a k).
Proof. intros a k H. exact H. Qed.
Lemma lowering : forall r a go f k, good_rib r -> rigid a -> vz (papply (lin a) (rb_normal r)) = 0 ->
  0 <= k -> vz go <= vz (place a (rb_center r)) - k ->
  exists d d', o_depth (snd (envelop_geometric_flat (frib r) (fflat (Plane go (V 0 0 1)) f) (fa a))) = Fin d /\
    o_depth (snd (envelop_geometric_flat (frib r) (fflat (Plane go (V 0 0 1)) f) (fa (lowered a k)))) = Fin d' /\ d <= d'.
Proof.
  intros r a go f k HR HA HZ Hk HH.
  destruct (upright_depth r a go f HR HA HZ) as [E _].
  destruct (upright_depth r (lowered a k) go f HR (rigid_lowered a k HA) HZ) as [E' _].
  cbv zeta in E, E'. rewrite place_lowered in E'. rewrite E, E'. do 2 eexists. split; [reflexivity|]. split; [reflexivity|].
  destruct HR as (RP & _). pose proof eps_pos.
  set (h := vz (place a (rb_center r))) in *. clearbody h.
  rewrite !Rabs_pos_eq by lra.
  destruct (rltb (_ - (h - vz go) * _) eps) eqn:E1; destruct (rltb (_ - (h - k - vz go) * _) eps) eqn:E2; repeat rb; try lra.
  - nra.
  - exfalso. nra.
Qed.

(** ** The sampling method, any ground. *)

(** A normalised vector is at most of length one, or has a NaN. *)
Definition has_nan (v : vec3 er) : Prop := vx v = Nan \/ vy v = Nan \/ vz v = Nan.
Lemma normalized_cases : forall v : vec3 er, (exists u, vnormalized v = fv u /\ pdot u u <= 1) \/ has_nan (vnormalized v).
Proof.
  intros v. destruct v as [[x|s|] [y|t|] [z|w|]].
  1:{ left. exists (punit (V x y z)). split; [apply (f_normalized (V x y z))|apply punit_le1]. }
  all: right; unfold vnormalized, vsqnorm, vdot, has_nan; cbn;
    repeat match goal with s : bool |- _ => destruct s end; cbn; auto.
Qed.
Lemma eadd_nan_l : forall x, eadd Nan x = Nan. Proof. reflexivity. Qed.
Lemma eadd_nan_r : forall x, eadd x Nan = Nan. Proof. intros [|[]|]; reflexivity. Qed.
Lemma emul_nan_l : forall x, emul Nan x = Nan. Proof. reflexivity. Qed.
Lemma emul_nan_r : forall x, emul x Nan = Nan. Proof. intros [|[]|]; reflexivity. Qed.
Lemma dot_nan_l : forall a b, has_nan a -> vdot a b = (Nan : er).
Proof.
  intros a b [H|[H|H]]; unfold vdot; rewrite H; cbn [nadd nmul ER_Num];
    rewrite emul_nan_l, ?eadd_nan_l, ?eadd_nan_r, ?eadd_nan_l; reflexivity.
Qed.
Lemma dot_nan_r : forall a b, has_nan b -> vdot a b = (Nan : er).
Proof.
  intros a b [H|[H|H]]; unfold vdot; rewrite H; cbn [nadd nmul ER_Num];
    rewrite emul_nan_r, ?eadd_nan_l, ?eadd_nan_r, ?eadd_nan_l; reflexivity.
Qed.
Lemma dot_normalized : forall a b : vec3 er,
  vdot (vnormalized a) (vnormalized b) = Nan \/
  exists k, vdot (vnormalized a) (vnormalized b) = Fin k /\ Rabs k <= 1.
Proof.
  intros a b. destruct (normalized_cases a) as [(u & Hu & Uu)|N]; [|left; now apply dot_nan_l].
  destruct (normalized_cases b) as [(w & Hw & Uw)|N]; [|left; now apply dot_nan_r].
  right. rewrite Hu, Hw. exists (pdot u w). split; [apply f_dot|].
  pose proof (cauchy_schwarz u w). pose proof (pdot_pos u). pose proof (pdot_pos w).
  assert (pdot u w * pdot u w <= 1) by nra. unfold Rabs. destruct (Rcase_abs _); nra.
Qed.
Lemma norm_cases : forall v : vec3 er, vnorm v = Nan \/ vnorm v = Inf false \/ exists m, vnorm v = Fin m /\ 0 <= m.
Proof.
  intros v. unfold vnorm. cbn [nsqrt ER_Num]. destruct (vsqnorm v) as [x|[]|]; cbn; auto.
  destruct (rltb x 0) eqn:E; rb; auto. right. right. exists (sqrt x). split; auto. apply sqrt_pos.
Qed.
Lemma depth_bound : forall r (a b c : vec3 er), 0 < r ->
  nlt (nofZ 0) (nsub (nmul (Fin r) (nabs (vdot (vnormalized a) (vnormalized b)))) (vnorm c)) = true ->
  exists d, nsub (nmul (Fin r) (nabs (vdot (vnormalized a) (vnormalized b)))) (vnorm c) = Fin d /\ 0 < d <= r.
Proof.
  intros r a b c Hr H. destruct (dot_normalized a b) as [N|(k & K & B)].
  { rewrite N in H. cbn in H. discriminate. }
  rewrite K in *. destruct (norm_cases c) as [N|[N|(m & N & M)]]; rewrite N in *; try (cbn in H; discriminate).
  cbn in H. apply rltb_true in H. exists (r * Rabs k - m). split; [reflexivity|]. split; [lra|].
  pose proof (Rabs_pos k). nra.
Qed.

Lemma sampling_bounds : forall (fn : line er -> option (vec3 er * er)) g0 g1 g2 g3 r pose o,
  0 < rb_radius r -> 0 <= rb_width r ->
  envelop_sampling_with fn g0 g1 g2 g3 (frib r) pose = (true, o) ->
  exists d, o_depth o = Fin d /\ 0 < d <= rb_radius r /\
    o_area o = Fin (chord (rb_radius r) d * rb_width r) /\ o_volume o = Fin (rvol (rb_radius r) (rb_width r) d).
Proof.
  intros fn g0 g1 g2 g3 r pose o HR HW H. unfold envelop_sampling_with in H.
  destruct (sampling_lines (frib r) pose) as [[[l0 l1] l2] l3].
  destruct (sample fn true l0 _) as [ok0 [p0 f0]]. destruct (sample fn ok0 l1 _) as [ok1 [p1 f1]].
  destruct (sample fn ok1 l2 _) as [ok2 [p2 f2]]. destruct (sample fn ok2 l3 _) as [ok3 [p3 f3]].
  change (rb_radius (frib r)) with (Fin (rb_radius r)) in H. change (rb_width (frib r)) with (Fin (rb_width r)) in H.
  match type of H with (if _ && ?c then _ else _) = _ => destruct c eqn:E end;
    [|rewrite andb_false_r in H; discriminate].
  destruct ok3; [|discriminate]. cbn [andb] in H. apply depth_bound in E; auto. destruct E as (d & E & B).
  rewrite E in H. apply (f_equal snd) in H. cbn [snd] in H. subst o. exists d. cbn [o_depth o_area o_volume].
  split; [reflexivity|]. split; [exact B|]. rewrite f_seg_area, f_seg_volume by lra. auto.
Qed.

(** ** The sampling method on flat ground. *)
Lemma sample_true : forall (fn : line er -> option (vec3 er * er)) ok l g ok' h,
  sample fn ok l g = (ok', h) -> ok' = true -> ok = true /\ fn l = Some h.
Proof.
  intros fn ok l g ok' h H E. unfold sample in H. destruct ok; [|inversion H; congruence].
  destruct (fn l); inversion H; subst; auto. discriminate.
Qed.
Lemma flat_line : forall gp f o p fr,
  sampling_line_flat (fflat gp f) (Line (fv o) (vopp unit_z)) = Some (p, fr) ->
  fr = Fin f /\ vz (pnormal gp) <> 0 /\
  p = fv (padd o (V 0 0 (- pdot (psub o (porigin gp)) (pnormal gp) / vz (pnormal gp)))).
Proof.
  intros gp f o p fr H. unfold sampling_line_flat, int_line_plane, fflat in H. cbn [fl_plane fl_friction] in H.
  rewrite neps_eps in H. unfold fplane in H. cbn [lorigin ldir pnormal porigin] in H.
  change (vopp unit_z) with (fv (V (- 0) (- 0) (- 1))) in H. pushin H.
  set (det := pdot (pnormal gp) (V (- 0) (- 0) (- 1))) in *.
  assert (ED : det = - vz (pnormal gp)) by (unfold det; vunf; ring).
  destruct (rltb eps (Rabs det)) eqn:E; [|discriminate]. rb.
  assert (NZ : det <> 0).
  { intros Z. rewrite Z, Rabs_R0 in E. pose proof eps_pos. lra. }
  rewrite e_ndiv in H by auto. pushin H. injection H as <- <-. split; [reflexivity|].
  split; [intros Z; apply NZ; rewrite ED, Z; ring|].
  f_equal. unfold padd, pscale. cbn [vx vy vz]. rewrite ED.
  assert (vz (pnormal gp) <> 0) by (intros Z; apply NZ; rewrite ED, Z; ring).
  f_equal; [ring|ring|].
  replace (pdot (psub (porigin gp) o) (pnormal gp)) with (- pdot (psub o (porigin gp)) (pnormal gp)) by (vunf; ring).
  f_equal. field. auto.
Qed.

Section FlatSample.
  Variables (r : rib R) (a : affine R) (gp : plane R) (f : R).
  Hypothesis HR : good_rib r.
  Hypothesis HA : rigid a.
  Hypothesis HG : is_unit (pnormal gp).
  Let gn := pnormal gp.
  Let dx := 1 / 10 * rb_radius r.
  Let dy := 3 / 10 * rb_width r.
  (** Vertical projection on the ground. *)
  Let proj (o : pt) : pt := padd o (V 0 0 (- pdot (psub o (porigin gp)) gn / vz gn)).

  Lemma proj_on : forall o, vz gn <> 0 -> on_plane gp (proj o).
  Proof. intros o H. unfold on_plane, proj. fold gn. clearbody gn. vunf. field. auto. Qed.
  Lemma proj_diff : forall x y, vz gn <> 0 -> pdot (psub (proj x) (proj y)) gn = 0.
  Proof.
    intros x y H. pose proof (proj_on x H) as A. pose proof (proj_on y H) as B. unfold on_plane in *. fold gn in A, B.
    rewrite pdot_sub_l in *. lra.
  Qed.
  (** The cross product of two differences of projections. *)
  Lemma proj_cross : forall x y z w, vz gn <> 0 ->
    pcross (psub (proj x) (proj y)) (psub (proj z) (proj w)) =
    pscale (vz (pcross (psub x y) (psub z w)) / vz gn) gn.
  Proof.
    intros x y z w H.
    assert (G : forall u v, vz gn <> 0 -> pdot u gn = 0 -> pdot v gn = 0 ->
      pcross u v = pscale (vz (pcross u v) / vz gn) gn).
    { clear - gn. clearbody gn. intros u v H Hu Hv.
      assert (E : pcross gn (pcross u v) = V 0 0 0).
      { rewrite pcross_pcross, (pdot_comm gn v), (pdot_comm gn u), Hu, Hv. apply vec_eq; vunf; ring. }
      set (n := pcross u v) in *. clearbody n.
      pose proof (f_equal vx E) as Ex. pose proof (f_equal vy E) as Ey. vunf.
      apply vec_eq; cbn [vx vy vz].
      - apply (Rmult_eq_reg_r (vz gn)); auto. field_simplify; auto. lra.
      - apply (Rmult_eq_reg_r (vz gn)); auto. field_simplify; auto. lra.
      - field. auto. }
    rewrite (G _ _ H (proj_diff x y H) (proj_diff z w H)). f_equal. f_equal.
    unfold proj. clearbody gn. vunf. ring.
  Qed.

  Let cg := place a (rb_center r).
  Let X := pcol0 (lin a).
  Let Y := pcol1 (lin a).
  Lemma f_lines : sampling_lines (frib r) (fa a) =
    (Line (fv (padd cg (pscale dx X))) (vopp unit_z), Line (fv (psub cg (pscale dx X))) (vopp unit_z),
     Line (fv (padd cg (pscale dy Y))) (vopp unit_z), Line (fv (psub cg (pscale dy Y))) (vopp unit_z)).
  Proof.
    unfold sampling_lines. change (rb_radius (frib r)) with (Fin (rb_radius r)).
    change (rb_width (frib r)) with (Fin (rb_width r)). change (rb_center (frib r)) with (fv (rb_center r)).
    change (@n01 er _) with (Fin (1 / 10)). change (@n03 er _) with (Fin (3 / 10)). push.
    change (@unit_x er _) with (fv (V 1 0 0)). change (@unit_y er _) with (fv (V 0 1 0)). push.
    change (tra (fa a)) with (fv (tra a)). change (lin (fa a)) with (fm (lin a)). push.
    fold dx dy. unfold cg, X, Y, place.
    repeat match goal with |- (_, _) = (_, _) => f_equal end; f_equal; f_equal; apply vec_eq; vunf; ring.
  Qed.

  Lemma flat_sampling : forall g0 g1 g2 g3 o,
    envelop_sampling_flat g0 g1 g2 g3 (frib r) (fflat gp f) (fa a) = (true, o) ->
    exists p, o_point o = fv p /\ on_plane gp p /\
      m22 (lin a) <> 0 /\ vz gn <> 0 /\
      o_normal o = fv (if rltb 0 (m22 (lin a) * vz gn) then gn else pscale (-1) gn) /\
      o_friction o = Fin f.
  Proof.
    intros g0 g1 g2 g3 o H. destruct HR as (RP & WP & _).
    pose proof (sampling_bounds _ _ _ _ _ _ _ _ RP WP H) as SB.
    unfold envelop_sampling_flat, envelop_sampling_with in H. rewrite f_lines in H.
    destruct (sample _ true _ _) as [ok0 [p0 f0]] eqn:S0. destruct (sample _ ok0 _ _) as [ok1 [p1 f1]] eqn:S1.
    destruct (sample _ ok1 _ _) as [ok2 [p2 f2]] eqn:S2. destruct (sample _ ok2 _ _) as [ok3 [p3 f3]] eqn:S3.
    match type of H with (if _ && ?c then _ else _) = _ => destruct c eqn:E end;
      [|rewrite andb_false_r in H; discriminate].
    destruct ok3; [|discriminate]. cbn [andb] in H.
    apply sample_true in S3; auto. destruct S3 as [-> S3]. apply sample_true in S2; auto. destruct S2 as [-> S2].
    apply sample_true in S1; auto. destruct S1 as [-> S1]. apply sample_true in S0; auto. destruct S0 as [_ S0].
    apply flat_line in S0, S1, S2, S3. destruct S0 as (-> & NZ & ->), S1 as (-> & _ & ->), S2 as (-> & _ & ->), S3 as (-> & _ & ->).
    fold gn in H, E, NZ |- *.
    change (padd ?o (V 0 0 (- pdot (psub ?o (porigin gp)) gn / vz gn))) with (proj o) in H, E.
    set (q0 := padd cg (pscale dx X)) in *. set (q1 := psub cg (pscale dx X)) in *.
    set (q2 := padd cg (pscale dy Y)) in *. set (q3 := psub cg (pscale dy Y)) in *.
    pushin H. pushin E. rewrite proj_cross in H, E by auto.
    assert (CZ : vz (pcross (psub q0 q1) (psub q2 q3)) = 4 * dx * dy * m22 (lin a)).
    { destruct HA as (_ & _ & _ & _ & _ & _ & HC). apply (f_equal vz) in HC. change (vz (pcol2 (lin a))) with (m22 (lin a)) in HC.
      rewrite <- HC. unfold q0, q1, q2, q3, X, Y. set (u := pcol0 _). set (v := pcol1 _). clearbody u v cg. vunf. ring. }
    rewrite CZ in H, E. set (lam := 4 * dx * dy * m22 (lin a) / vz gn) in *.
    assert (GU : pdot gn gn = 1) by exact HG.
    assert (NL : lam <> 0).
    { intros Z. rewrite Z, pscale_0 in E. unfold punit in E.
      replace (pdot (V 0 0 0) (V 0 0 0)) with 0 in E by (vunf; ring).
      replace (rltb 0 0) with false in E by (symmetry; apply rltb_false; lra).
      change (rb_radius (frib r)) with (Fin (rb_radius r)) in E.
      change (V 0 0 0 : pt) with (V 0 0 0 : pt) in E.
      rewrite f_center in E. rewrite f_div in E by lra. pushin E.
      match type of E with context [vnormalized ?b] => destruct (normalized_cases b) as [(w & Hw & _)|N] end.
      - rewrite Hw in E. pushin E. rewrite (pdot_comm (V 0 0 0)) in E.
        replace (pdot w (V 0 0 0)) with 0 in E by (vunf; ring). rewrite Rabs_R0, Rmult_0_r in E. apply rltb_true in E.
        match type of E with _ < _ - ?m => assert (0 <= m) by apply pnorm_nonneg end. lra.
      - rewrite dot_nan_r in E by auto. cbn in E. discriminate. }
    assert (DP : 0 < 4 * dx * dy \/ 4 * dx * dy = 0).
    { assert (0 <= dy) by (unfold dy; lra). assert (0 < dx) by (unfold dx; lra). destruct (Req_dec dy 0) as [->|]; [right; ring|left; nra]. }
    assert (DP' : 0 < 4 * dx * dy).
    { destruct DP as [|Z]; auto. exfalso. apply NL. unfold lam. rewrite Z. field. auto. }
    assert (NM : m22 (lin a) <> 0).
    { intros Z. apply NL. unfold lam. rewrite Z. field. auto. }
    apply (f_equal snd) in H. cbn [snd] in H. subst o. cbn [o_point o_normal o_friction].
    rewrite f_div by lra. eexists. split; [reflexivity|]. split; [|split; [exact NM|split; [exact NZ|split]]].
    - unfold on_plane. fold gn.
      pose proof (proj_on q0 NZ) as A0. pose proof (proj_on q1 NZ) as A1.
      pose proof (proj_on q2 NZ) as A2. pose proof (proj_on q3 NZ) as A3. unfold on_plane in *. fold gn in A0, A1, A2, A3.
      set (w0 := proj q0) in *. set (w1 := proj q1) in *. set (w2 := proj q2) in *. set (w3 := proj q3) in *.
      clearbody w0 w1 w2 w3. rewrite pdot_sub_l in *. rewrite pdot_scale_l, !pdot_add_l. lra.
    - f_equal. assert (PP : 0 < pdot (pscale lam gn) (pscale lam gn)).
      { rewrite pdot_scale_l, pdot_scale_r, GU. assert (0 < lam * lam) by nra. lra. }
      rewrite punit_pos by auto. rewrite pnorm_scale, (is_unit_norm gn HG), Rmult_1_r, pscale_scale.
      assert (SG : lam = (m22 (lin a) * vz gn) * (4 * dx * dy / (vz gn * vz gn))) by (unfold lam; field; auto).
      assert (KP : 0 < 4 * dx * dy / (vz gn * vz gn)) by (apply Rmult_lt_0_compat; [auto|apply Rinv_0_lt_compat; nra]).
      destruct (rltb 0 (m22 (lin a) * vz gn)) eqn:EM; rb.
      + assert (0 < lam) by (rewrite SG; nra). rewrite Rabs_pos_eq by lra. rewrite Rinv_l by auto. apply pscale_1.
      + assert (lam < 0).
        { destruct (Req_dec (m22 (lin a) * vz gn) 0) as [Z|Z]; [apply Rmult_integral in Z; destruct Z; contradiction|]. rewrite SG. nra. }
        rewrite Rabs_left by lra. f_equal. field. auto.
    - unfold fflat. push. rewrite e_ndiv by lra. f_equal. field.
  Qed.
End FlatSample.

(** ** In terms of the dispatching functions. *)
From Coq Require Import String List.
Import ListNotations.
Local Open Scope R_scope.

Lemma flat_geo_ret : forall {K} {NK : Num K} gb (r : rib K) g pose b o,
  envelop_flat gb r g pose "geometric" = Ret (b, o) -> envelop_geometric_flat r g pose = (b, o).
Proof. intros K NK [[[g0 g1] g2] g3] r g pose b o H. unfold envelop_flat in H. simpl in H. now injection H. Qed.
Lemma flat_sam_ret : forall {K} {NK : Num K} gb (r : rib K) g pose b o,
  envelop_flat gb r g pose "sampling" = Ret (b, o) -> exists g0 g1 g2 g3, envelop_sampling_flat g0 g1 g2 g3 r g pose = (b, o).
Proof.
  intros K NK [[[g0 g1] g2] g3] r g pose b o H. unfold envelop_flat in H. exists g0, g1, g2, g3.
  change (String.eqb "sampling" "geometric") with false in H. change (String.eqb "sampling" "sampling") with true in H.
  cbn [orb] in H. now injection H.
Qed.
Lemma sam_ret : forall {K} {NK : Num K} gb (r : rib K) g pose b o,
  envelop gb r g pose "sampling" = Ret (b, o) -> exists g0 g1 g2 g3, envelop_sampling g0 g1 g2 g3 r g pose = (b, o).
Proof.
  intros K NK [[[g0 g1] g2] g3] r g pose b o H. unfold envelop in H. exists g0, g1, g2, g3.
  change (String.eqb "sampling" "geometric") with false in H. change (String.eqb "sampling" "sampling") with true in H.
  cbn [orb] in H. now injection H.
Qed.

Lemma flat_contact_point : forall gb r a gp f o, good_rib r -> rigid a -> is_unit (pnormal gp) ->
  envelop_flat gb (frib r) (fflat gp f) (fa a) "geometric" = Ret (true, o) ->
  exists p, o_point o = fv p /\ on_plane gp p /\ on_plane (dplane (posed_disk r a)) p /\
    (forall q, on_plane gp q -> on_plane (dplane (posed_disk r a)) q ->
       dist p (place a (rb_center r)) <= dist q (place a (rb_center r))) /\
    o_normal o = fv (pnormal gp) /\
    o_depth o = Fin (rb_radius r - dist p (place a (rb_center r))) /\
    0 < rb_radius r - dist p (place a (rb_center r)) <= rb_radius r.
Proof.
  intros gb r a gp f o HR HA HG H. apply flat_geo_ret in H. apply flat_contact in H; auto.
  destruct H as (p & H1 & H2 & H3 & H4 & H5 & H6 & H7 & _). exists p. auto 10.
Qed.
Lemma flat_detection : forall gb r a gp f b o, good_rib r -> rigid a -> is_unit (pnormal gp) ->
  envelop_flat gb (frib r) (fflat gp f) (fa a) "geometric" = Ret (b, o) ->
  let s2 := sin2 (pnormal gp) (papply (lin a) (rb_normal r)) in
  b = true <-> eps <= s2 /\ eps <= s2 * (rb_radius r * rb_radius r) - center_height r a gp * center_height r a gp.
Proof.
  intros gb r a gp f b o HR HA HG H s2. apply flat_geo_ret in H. unfold s2.
  rewrite <- (flat_contact_iff r a gp f HR HA HG), H. reflexivity.
Qed.
Lemma flat_no_false_contact : forall gb r a gp f b o, good_rib r -> rigid a -> is_unit (pnormal gp) ->
  envelop_flat gb (frib r) (fflat gp f) (fa a) "geometric" = Ret (b, o) ->
  (forall q, on_plane gp q -> ~ in_disk (posed_disk r a) q) -> b = false.
Proof.
  intros gb r a gp f b o HR HA HG H N. apply flat_geo_ret in H.
  pose proof (flat_no_touch r a gp f HR HA HG N) as E. now rewrite H in E.
Qed.
Lemma volume_characterised : forall r w, 0 < r -> 0 <= w ->
  exists vol : R -> R,
    (forall d, 0 <= d <= 2 * r -> seg_volume (Fin r) (Fin d) (Fin w) = Fin (vol d)) /\
    vol 0 = 0 /\ vol (2 * r) = PI * (r * r) * w /\
    (forall d d', 0 <= d <= d' -> d' <= 2 * r -> vol d <= vol d') /\
    (forall d, 0 < d < 2 * r -> derivable_pt_lim vol d (chord r d * w)).
Proof.
  intros r w HR HW. exists (rvol r w). split; [intros; now apply f_seg_volume|]. split; [now apply rvol_0|].
  split; [now apply rvol_full|]. split; [intros; apply rvol_mono; lra|]. intros. now apply rvol_derivative.
Qed.
Lemma flat_area_volume : forall gb r a gp f o, good_rib r -> rigid a -> is_unit (pnormal gp) ->
  envelop_flat gb (frib r) (fflat gp f) (fa a) "geometric" = Ret (true, o) ->
  exists d, o_depth o = Fin d /\ 0 <= d <= 2 * rb_radius r /\
    o_area o = seg_area (Fin (rb_radius r)) (Fin d) (Fin (rb_width r)) /\
    o_volume o = seg_volume (Fin (rb_radius r)) (Fin d) (Fin (rb_width r)).
Proof.
  intros gb r a gp f o HR HA HG H. apply flat_geo_ret in H. apply flat_contact in H; auto.
  destruct H as (p & H1 & H2 & H3 & H4 & H5 & H6 & H7 & H8 & H9). eexists. split; [exact H6|]. destruct HR.
  split; [lra|]. rewrite f_seg_area, f_seg_volume by lra. auto.
Qed.
Lemma sampling_area_volume : forall gb r ground pose o, 0 < rb_radius r -> 0 <= rb_width r ->
  envelop gb (frib r) ground pose "sampling" = Ret (true, o) ->
  exists d, o_depth o = Fin d /\ 0 <= d <= 2 * rb_radius r /\
    o_area o = seg_area (Fin (rb_radius r)) (Fin d) (Fin (rb_width r)) /\
    o_volume o = seg_volume (Fin (rb_radius r)) (Fin d) (Fin (rb_width r)).
Proof.
  intros gb r ground pose o HR HW H. apply sam_ret in H. destruct H as (g0 & g1 & g2 & g3 & H).
  apply sampling_bounds in H; auto. destruct H as (d & H1 & H2 & H3 & H4). exists d.
  rewrite f_seg_area, f_seg_volume by lra. split; [auto|]. split; [lra|]. auto.
Qed.
Lemma sampling_all_bounds : forall gb r ground pose o, 0 < rb_radius r -> 0 <= rb_width r ->
  envelop gb (frib r) ground pose "sampling" = Ret (true, o) ->
  exists d ar vol, o_depth o = Fin d /\ 0 < d <= rb_radius r /\ o_area o = Fin ar /\ 0 <= ar /\
    o_volume o = Fin vol /\ 0 <= vol.
Proof.
  intros gb r ground pose o HR HW H. apply sam_ret in H. destruct H as (g0 & g1 & g2 & g3 & H).
  apply sampling_bounds in H; auto. destruct H as (d & H1 & H2 & H3 & H4). do 3 eexists.
  split; [exact H1|]. split; [exact H2|]. split; [exact H3|]. split; [apply Rmult_le_pos; auto using chord_nonneg|].
  split; [exact H4|]. apply rvol_bounds; lra.
Qed.
Lemma flat_lowering : forall gb r a go f k b o b' o', good_rib r -> rigid a ->
  vz (papply (lin a) (rb_normal r)) = 0 -> 0 <= k -> vz go <= vz (place a (rb_center r)) - k ->
  envelop_flat gb (frib r) (fflat (Plane go (V 0 0 1)) f) (fa a) "geometric" = Ret (b, o) ->
  envelop_flat gb (frib r) (fflat (Plane go (V 0 0 1)) f) (fa (lowered a k)) "geometric" = Ret (b', o') ->
  exists d d', o_depth o = Fin d /\ o_depth o' = Fin d' /\ d <= d'.
Proof.
  intros gb r a go f k b o b' o' HR HA HZ HK HH E E'. apply flat_geo_ret in E, E'.
  pose proof (lowering r a go f k HR HA HZ HK HH) as L. now rewrite E, E' in L.
Qed.
Lemma flat_sampling_friction : forall gb r a gp f o, good_rib r -> rigid a -> is_unit (pnormal gp) ->
  envelop_flat gb (frib r) (fflat gp f) (fa a) "sampling" = Ret (true, o) -> o_friction o = Fin f.
Proof.
  intros gb r a gp f o HR HA HG H. apply flat_sam_ret in H. destruct H as (g0 & g1 & g2 & g3 & H).
  apply flat_sampling in H; auto. destruct H as (p & _ & _ & _ & _ & _ & H). exact H.
Qed.
Lemma flat_sampling_geometry : forall gb r a gp f o, good_rib r -> rigid a -> is_unit (pnormal gp) ->
  envelop_flat gb (frib r) (fflat gp f) (fa a) "sampling" = Ret (true, o) ->
  exists p n d, o_point o = fv p /\ on_plane gp p /\
    o_normal o = fv n /\ (n = pnormal gp \/ n = pscale (-1) (pnormal gp)) /\
    o_depth o = Fin d /\ 0 < d <= rb_radius r.
Proof.
  intros gb r a gp f o HR HA HG H. apply flat_sam_ret in H. destruct H as (g0 & g1 & g2 & g3 & H).
  pose proof (sampling_bounds _ _ _ _ _ _ _ _ (proj1 HR) (proj1 (proj2 HR)) H) as (d & D & B & _).
  apply flat_sampling in H; auto. destruct H as (p & P & O & _ & _ & N & _). do 3 eexists.
  split; [exact P|]. split; [exact O|]. split; [exact N|]. split; [destruct (rltb _ _); auto|]. split; [exact D|exact B].
Qed.
Lemma flat_sampling_side : forall gb r a gp f o, good_rib r -> rigid a -> is_unit (pnormal gp) ->
  envelop_flat gb (frib r) (fflat gp f) (fa a) "sampling" = Ret (true, o) ->
  exists n, o_normal o = fv n /\ 0 < vz n * vz (papply (lin a) (V 0 0 1)).
Proof.
  intros gb r a gp f o HR HA HG H. apply flat_sam_ret in H. destruct H as (g0 & g1 & g2 & g3 & H).
  apply flat_sampling in H; auto. destruct H as (p & P & O & NM & NZ & N & _). eexists.
  split; [exact N|]. unfold papply. cbn [vx vy vz].
  destruct (rltb 0 (m22 (lin a) * vz (pnormal gp))) eqn:E; rb; unfold pscale; cbn [vz].
  - lra.
  - assert (m22 (lin a) * vz (pnormal gp) <> 0) by (apply Rmult_integral_contrapositive; auto). nra.
Qed.
Lemma flat_line_hit : forall gp f o, eps < Rabs (vz (pnormal gp)) ->
  sampling_line_flat (fflat gp f) (Line (fv o) (vopp unit_z)) =
  Some (fv (padd o (V 0 0 (- pdot (psub o (porigin gp)) (pnormal gp) / vz (pnormal gp)))), Fin f).
Proof.
  intros gp f o H. destruct (sampling_line_flat (fflat gp f) (Line (fv o) (vopp unit_z))) as [[p fr]|] eqn:E.
  - apply flat_line in E. destruct E as (-> & _ & ->). reflexivity.
  - exfalso. unfold sampling_line_flat, int_line_plane, fflat in E. cbn [fl_plane fl_friction] in E.
    rewrite neps_eps in E. unfold fplane in E. cbn [lorigin ldir pnormal porigin] in E.
    change (vopp unit_z) with (fv (V (- 0) (- 0) (- 1))) in E. pushin E.
    replace (Rabs (pdot (pnormal gp) (V (- 0) (- 0) (- 1)))) with (Rabs (vz (pnormal gp))) in E.
    2:{ rewrite <- Rabs_Ropp. f_equal. vunf. ring. }
    replace (rltb eps _) with true in E by (symmetry; now apply rltb_true). discriminate.
Qed.

Lemma flat_chord : forall r a gp p q, good_rib r -> rigid a -> is_unit (pnormal gp) ->
  let s2 := sin2 (pnormal gp) (papply (lin a) (rb_normal r)) in 0 < s2 ->
  on_plane gp p -> on_plane gp q -> on_circle (posed_disk r a) p -> on_circle (posed_disk r a) q -> p <> q ->
  s2 * (dist p q / 2) ^ 2 = s2 * (rb_radius r * rb_radius r) - center_height r a gp * center_height r a gp.
Proof.
  intros r a gp p q HR HA HG s2 S P1 Q1 [P2 P3] [Q2 Q3] PQ.
  pose proof (l_points r a gp HR HA HG S) as LP. pose proof (foot_dist2 r a gp HR HA HG S) as FD.
  pose proof (l_len r a gp HR HA HG) as LL. fold s2 in FD, LL.
  set (l := pp_line gp (dplane (posed_disk r a))) in *. set (h := center_height r a gp) in *.
  change (porigin (dplane (posed_disk r a))) with (place a (rb_center r)) in *.
  change (dradius (posed_disk r a)) with (rb_radius r) in *.
  set (c := place a (rb_center r)) in *.
  assert (LD : 0 < pdot (ldir l) (ldir l)) by lra.
  pose proof (foot_perp l c LD) as FP. destruct (foot_on l c) as [k FK].
  destruct (proj2 (LP p) (conj P1 P2)) as [t T]. destruct (proj2 (LP q) (conj Q1 Q2)) as [u U].
  set (m := foot l c) in *.
  assert (G : forall x, dist (padd (lorigin l) (pscale x (ldir l))) c ^ 2 = dist m c ^ 2 + (x - k) * (x - k) * s2).
  { intros x. unfold dist. rewrite <- !Rsqr_pow2. unfold Rsqr. rewrite !pnorm_sq.
    replace (psub (padd (lorigin l) (pscale x (ldir l))) c) with (padd (psub m c) (pscale (x - k) (ldir l)))
      by (rewrite FK; apply vec_eq; vunf; ring).
    rewrite !pdot_add_l, !pdot_add_r, !pdot_scale_l, !pdot_scale_r, (pdot_comm (ldir l) (psub m c)), LL.
    replace (pdot (psub m c) (ldir l)) with (- pdot (psub c m) (ldir l)) by (vunf; ring). rewrite FP. ring. }
  pose proof (G t) as Gt. pose proof (G u) as Gu. rewrite <- T, P3 in Gt. rewrite <- U, Q3 in Gu.
  assert (TU : t <> u) by (intros ->; apply PQ; congruence).
  assert (E : (t - k) * (t - k) = (u - k) * (u - k)).
  { apply (Rmult_eq_reg_r s2); lra. }
  assert (E' : u - k = - (t - k)).
  { assert ((t - u) * ((t - k) + (u - k)) = 0) by lra. apply Rmult_integral in H. destruct H; lra. }
  assert (DD : dist p q ^ 2 = 4 * ((t - k) * (t - k)) * s2).
  { unfold dist. rewrite <- Rsqr_pow2. unfold Rsqr. rewrite pnorm_sq.
    replace (psub p q) with (pscale (t - u) (ldir l)) by (rewrite T, U; apply vec_eq; vunf; ring).
    rewrite pdot_scale_l, pdot_scale_r, LL. replace (t - u) with (2 * (t - k)) by lra. ring. }
  replace (s2 * (dist p q / 2) ^ 2) with (s2 * (dist p q ^ 2) / 4) by field. rewrite DD.
  rewrite FD in Gt. assert (H : s2 * (h * h / s2) = h * h) by (field; lra).
  replace (rb_radius r * rb_radius r) with (rb_radius r ^ 2) by ring. rewrite Gt. rewrite Rmult_plus_distr_l, H. field.
Qed.

(** An upright wheel over level ground, sampling method. *)
Lemma level_sampling_contact : forall r z f g0 g1 g2 g3, 0 < rb_radius r -> 0 < rb_width r -> rb_center r = V 0 0 0 ->
  0 <= z < rb_radius r -> exists o,
  envelop_sampling_flat g0 g1 g2 g3 (frib r) (fflat (Plane (V 0 0 0) (V 0 0 1)) f) (fa (Aff (M3 1 0 0 0 1 0 0 0 1) (V 0 0 z))) = (true, o).
Proof.
  intros r z f g0 g1 g2 g3 HR HW HC HZ. set (a := Aff _ _).
  assert (CG : place a (rb_center r) = V 0 0 z).
  { rewrite HC. unfold a, place. cbn [lin tra]. apply vec_eq; vunf; cbn; ring. }
  unfold envelop_sampling_flat, envelop_sampling_with. rewrite f_lines.
  assert (EP : eps < Rabs (vz (pnormal (Plane (V 0 0 0) (V 0 0 1))))).
  { cbn [pnormal vz]. rewrite Rabs_pos_eq by lra. apply eps_lt1. }
  unfold sample. rewrite !flat_line_hit by exact EP. cbn [porigin pnormal andb].
  change (rb_radius (frib r)) with (Fin (rb_radius r)). change (lin (fa a)) with (fm (lin a)).
  change (col1 (fm (lin a))) with (fv (V 0 1 0)).
  rewrite f_center, CG. set (dx := 1 / 10 * rb_radius r). set (dy := 3 / 10 * rb_width r).
  assert (X : 0 < dx) by (unfold dx; lra). assert (Y : 0 < dy) by (unfold dy; lra). clearbody dx dy.
  change (pcol0 (lin a)) with (V 1 0 0). change (pcol1 (lin a)) with (V 0 1 0). clear CG.
  assert (Q : forall x y, padd (V x y z) (V 0 0 (- pdot (psub (V x y z) (V 0 0 0)) (V 0 0 1) / vz (V 0 0 1))) = V x y 0).
  { intros x y. apply vec_eq; vunf; field. }
  replace (padd (V 0 0 z) (pscale dx (V 1 0 0))) with (V dx 0 z) by (apply vec_eq; vunf; ring).
  replace (psub (V 0 0 z) (pscale dx (V 1 0 0))) with (V (- dx) 0 z) by (apply vec_eq; vunf; ring).
  replace (padd (V 0 0 z) (pscale dy (V 0 1 0))) with (V 0 dy z) by (apply vec_eq; vunf; ring).
  replace (psub (V 0 0 z) (pscale dy (V 0 1 0))) with (V 0 (- dy) z) by (apply vec_eq; vunf; ring).
  rewrite !Q. push.
  assert (N : punit (pcross (psub (V dx 0 0) (V (- dx) 0 0)) (psub (V 0 dy 0) (V 0 (- dy) 0))) = V 0 0 1).
  { replace (pcross _ _) with (pscale (4 * dx * dy) (V 0 0 1)) by (apply vec_eq; vunf; ring).
    assert (0 < 4 * dx * dy) by nra. rewrite punit_pos.
    - rewrite pnorm_scale. replace (pnorm (V 0 0 1)) with 1. rewrite Rabs_pos_eq by lra. apply vec_eq; vunf; field; lra.
      unfold pnorm. replace (pdot _ _) with 1 by (vunf; ring). now rewrite sqrt_1.
    - vunf. nra. }
  assert (U : forall u, is_unit u -> punit u = u).
  { intros u Hu. rewrite punit_pos by (unfold is_unit in Hu; lra). rewrite (is_unit_norm u Hu). apply vec_eq; vunf; field. }
  rewrite N. rewrite (U (V 0 1 0)) by (vunf; ring).
  rewrite (U (pcross (V 0 0 1) (V 0 1 0))) by (vunf; ring).
  rewrite U by (vunf; ring).
  rewrite f_div by lra. push.
  match goal with |- context [if rltb 0 ?x then _ else _] => replace (rltb 0 x) with true end; [eauto|].
  symmetry. apply rltb_true.
  replace (pdot (V 0 0 1) _) with 1 by (vunf; ring). rewrite Rabs_pos_eq by lra.
  match goal with |- 0 < _ - pnorm ?v => replace (pnorm v) with z end; [lra|].
  unfold pnorm. replace (pdot _ _) with (Rsqr z) by (vunf; unfold Rsqr; field). now rewrite sqrt_Rsqr by lra.
Qed.

(** The result depends on the ground only through the four sampled lines. *)
Lemma sampling_with_ext : forall {K} {NK : Num K} (fn fn' : line K -> option (vec3 K * K)) g0 g1 g2 g3 r pose,
  (let '(l0, l1, l2, l3) := sampling_lines r pose in fn l0 = fn' l0 /\ fn l1 = fn' l1 /\ fn l2 = fn' l2 /\ fn l3 = fn' l3) ->
  envelop_sampling_with fn g0 g1 g2 g3 r pose = envelop_sampling_with fn' g0 g1 g2 g3 r pose.
Proof.
  intros K NK fn fn' g0 g1 g2 g3 r pose H. unfold envelop_sampling_with.
  destruct (sampling_lines r pose) as [[[l0 l1] l2] l3]. destruct H as (H0 & H1 & H2 & H3).
  unfold sample. now rewrite H0, H1, H2, H3.
Qed.
