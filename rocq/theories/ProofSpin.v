(** * Turning the wheel about its axle. *)
From Coq Require Import ZArith Bool Reals Lra Lia String List.
From Verif Require Import Base Num Vec Aabb Geom Ground Shape Rib Str Mesh Shell ER SpecGeom SpecRib SpecShape SpecShell SpecPose SpecAvg SpecCut SpecFrame.
From Verif Require Import ProofGeom ProofInt ProofTri ProofShape ProofShell ProofPose ProofFlat ProofSample ProofAvg ProofMeshGeo ProofMeshEval ProofPolar ProofCut ProofFrame ProofFrameMesh ProofFrameGeo ProofFrameShell.
Import ListNotations.
Local Open Scope R_scope.

Section Spin.
  Variables (r : rib R) (a : affine R) (t : R).
  Hypothesis HX : axial_rib r.
  Hypothesis HA : rigid a.
  Let a' := spun a t.
  Lemma spun_lin : forall v, papply (lin a') v = papply (lin a) (V (cos t * vx v + sin t * vz v) (vy v) (- sin t * vx v + cos t * vz v)).
  Proof. intros [x y z]. unfold a', spun. cbn [lin]. unfold after. apply vec_eq; munf; ring. Qed.
  Lemma spun_center : place a' (rb_center r) = place a (rb_center r).
  Proof.
    destruct HX as (_ & E0 & E2). unfold place. rewrite spun_lin. unfold a', spun. cbn [tra]. do 2 f_equal.
    rewrite E0, E2. destruct (rb_center r) as [x y z]. cbn [vx vy vz] in *. subst. f_equal; ring.
  Qed.
  Lemma spun_normal : papply (lin a') (rb_normal r) = papply (lin a) (rb_normal r).
  Proof. destruct HX as (-> & _). rewrite spun_lin. cbn [vx vy vz]. do 2 f_equal; ring. Qed.
  Lemma spun_disk : posed_disk r a' = posed_disk r a.
  Proof. unfold posed_disk. now rewrite spun_center, spun_normal. Qed.
  Lemma spun_col0 : pcol0 (lin a') = psub (pscale (cos t) (pcol0 (lin a))) (pscale (sin t) (pcol2 (lin a))).
  Proof. unfold a', spun. cbn [lin]. unfold after. apply vec_eq; munf; ring. Qed.
  Lemma spun_col1 : pcol1 (lin a') = pcol1 (lin a).
  Proof. unfold a', spun. cbn [lin]. unfold after. apply vec_eq; munf; ring. Qed.
  Lemma spun_col2 : pcol2 (lin a') = padd (pscale (sin t) (pcol0 (lin a))) (pscale (cos t) (pcol2 (lin a))).
  Proof. unfold a', spun. cbn [lin]. unfold after. apply vec_eq; munf; ring. Qed.
  Lemma cs1 : cos t * cos t + sin t * sin t = 1.
  Proof. pose proof (sin2_cos2 t) as E. unfold Rsqr in E. lra. Qed.
  Lemma spun_rigid : rigid a'.
  Proof.
    pose proof HA as (U0 & U1 & U2 & O1 & O2 & O3 & C2). unfold is_unit in *. pose proof cs1 as CS.
    set (c := cos t) in *. set (s := sin t) in *.
    unfold rigid, rotation. unfold is_unit. rewrite spun_col0, spun_col1, spun_col2. fold c s.
    assert (C1 : pcross (pcol2 (lin a)) (pcol1 (lin a)) = pscale (-1) (pcol0 (lin a))).
    { rewrite <- C2, pcross_anti, pcross_pcross, (pdot_comm (pcol1 _) (pcol0 _)), O1, U1. apply vec_eq; vunf; ring. }
    set (x := pcol0 (lin a)) in *. set (y := pcol1 (lin a)) in *. set (z := pcol2 (lin a)) in *. clearbody x y z c s.
    assert (E : forall p q u v, pdot (psub (pscale p x) (pscale q z)) (padd (pscale u x) (pscale v z)) = p * u * pdot x x + (p * v - q * u) * pdot z x - q * v * pdot z z)
      by (intros; vunf; ring).
    split; [|split; [exact U1|]]; [|split].
    - transitivity (c * c * pdot x x + s * s * pdot z z - 2 * c * s * pdot z x); [vunf; ring|]. rewrite U0, U2, O3. lra.
    - transitivity (s * s * pdot x x + c * c * pdot z z + 2 * c * s * pdot z x); [vunf; ring|]. rewrite U0, U2, O3. lra.
    - split; [|split; [|split]].
      + transitivity (c * pdot x y - s * pdot y z); [vunf; ring|]. rewrite O1, O2. ring.
      + transitivity (s * pdot x y + c * pdot y z); [vunf; ring|]. rewrite O1, O2. ring.
      + rewrite pdot_comm, E, U0, U2, O3. ring.
      + transitivity (psub (pscale c (pcross x y)) (pscale s (pcross z y))); [apply vec_eq; vunf; ring|].
        rewrite C1, C2. apply vec_eq; vunf; ring.
  Qed.

  (** ** Flat ground, geometric method. *)
  Lemma spun_flat : forall gp f, good_rib r -> is_unit (pnormal gp) ->
    (fst (envelop_geometric_flat (frib r) (fflat gp f) (fa a)) = true /\
     envelop_geometric_flat (frib r) (fflat gp f) (fa a') = envelop_geometric_flat (frib r) (fflat gp f) (fa a)) \/
    (envelop_geometric_flat (frib r) (fflat gp f) (fa a) = envelop_none (frib r) (fa a) /\
     envelop_geometric_flat (frib r) (fflat gp f) (fa a') = envelop_none (frib r) (fa a')).
  Proof.
    intros gp f HR HG. rewrite (flat_eval r a gp f HR HA HG), (flat_eval r a' gp f HR spun_rigid HG).
    unfold center_height. rewrite spun_normal, spun_center, spun_disk. cbv zeta.
    match goal with |- context [if ?c then _ else _] => destruct c end; [now right|left; split; reflexivity].
  Qed.

  (** ** Triangles, geometric method. *)
  Lemma spun_in_rib : forall p, in_rib r a' p =
    let q := in_rib r a p in V (cos t * vx q - sin t * vz q) (vy q) (sin t * vx q + cos t * vz q).
  Proof.
    intros p. rewrite !in_rib_cols, spun_center, spun_col0, spun_col1, spun_col2. cbv zeta. cbn [vx vy vz].
    set (w := psub p (place a (rb_center r))). f_equal; vunf; ring.
  Qed.
  Lemma spun_rad : forall p, rad_at r a' p = rad_at r a p.
  Proof.
    intros p. unfold rad_at. f_equal. unfold pnorm. f_equal. rewrite spun_in_rib. cbv zeta.
    destruct (in_rib r a p) as [x y z]. pose proof cs1 as E. vunf. transitivity ((cos t * cos t + sin t * sin t) * (x * x + z * z) + y * y); [ring|rewrite E; ring].
  Qed.
  Lemma under_in_rib : forall b p, under_axle r b p -> vz (in_rib r b p) < 0.
  Proof. intros b p H. unfold under_axle in H. rewrite in_rib_cols. cbn [vz]. now rewrite pdot_comm. Qed.
  Lemma under_ang : forall b p, under_axle r b p ->
    - PI < ang r b p < 0 /\ exists k, 0 < k /\ vx (in_rib r b p) = k * cos (ang r b p) /\ vz (in_rib r b p) = k * sin (ang r b p).
  Proof.
    intros b p H. apply under_in_rib in H. unfold ang. set (x := vx _) in *. set (z := vz _) in *.
    destruct (atan2_polar x z ltac:(right; lra)) as (C & S & B).
    pose proof (hyp_pos x z ltac:(right; lra)) as K. split.
    - split; [lra|]. destruct (Rlt_dec (ratan2 z x) 0) as [L|L]; auto. exfalso.
      assert (0 <= sin (ratan2 z x)) by (apply sin_ge_0; lra). nra.
    - exists (hyp x z). auto.
  Qed.
  Lemma spun_ang : forall p, under_axle r a p -> under_axle r a' p ->
    cos (ang r a' p) = cos (ang r a p + t) /\ sin (ang r a' p) = sin (ang r a p + t).
  Proof.
    intros p U U'. destruct (under_ang a p U) as (_ & k & K & X & Z). destruct (under_ang a' p U') as (_ & k' & K' & X' & Z').
    rewrite spun_in_rib in X', Z'. cbv zeta in X', Z'. cbn [vx vz] in X', Z'. rewrite X, Z in X', Z'.
    set (u := ang r a p) in *. set (u' := ang r a' p) in *.
    assert (X2 : k * cos (u + t) = k' * cos u') by (rewrite cos_plus; lra).
    assert (Z2 : k * sin (u + t) = k' * sin u') by (rewrite sin_plus; lra).
    assert (KK : k = k').
    { pose proof (sin2_cos2 (u + t)) as A. pose proof (sin2_cos2 u') as B. unfold Rsqr in A, B.
      assert (k * k = k' * k').
      { transitivity ((k * cos (u + t)) * (k * cos (u + t)) + (k * sin (u + t)) * (k * sin (u + t))); [|rewrite X2, Z2]; nra. }
      nra. }
    subst k'. split; apply (Rmult_eq_reg_l k); lra.
  Qed.
  (** Two angles under the axle keep their difference. *)
  Lemma spun_diff : forall p q, under_axle r a p -> under_axle r a' p -> under_axle r a q -> under_axle r a' q ->
    ang r a' q - ang r a' p = ang r a q - ang r a p.
  Proof.
    intros p q P P' Q Q'.
    destruct (spun_ang p P P') as [C S]. destruct (spun_ang q Q Q') as [C' S'].
    destruct (under_ang a p P) as (B1 & _). destruct (under_ang a q Q) as (B2 & _).
    destruct (under_ang a' p P') as (B3 & _). destruct (under_ang a' q Q') as (B4 & _).
    apply same_angle; try lra.
    - rewrite !cos_minus, C, S, C', S', <- !cos_minus. f_equal. ring.
    - rewrite !sin_minus, C, S, C', S', <- !sin_minus. f_equal. ring.
  Qed.
  Definition both_under (s : segment R) : Prop :=
    under_axle r a (sv0 s) /\ under_axle r a' (sv0 s) /\ under_axle r a (sv1 s) /\ under_axle r a' (sv1 s).
  Lemma spun_minmax : forall s, both_under s -> exists k, lo_ang r a' s = lo_ang r a s + k /\ hi_ang r a' s = hi_ang r a s + k /\
    cos (mid_ang r a s + k) = cos (mid_ang r a s + t) /\ sin (mid_ang r a s + k) = sin (mid_ang r a s + t).
  Proof.
    intros s (P & P' & Q & Q'). pose proof (spun_diff _ _ P P' Q Q') as D.
    destruct (spun_ang _ P P') as [C S].
    exists (ang r a' (sv0 s) - ang r a (sv0 s)). unfold lo_ang, hi_ang.
    assert (E1 : ang r a' (sv1 s) = ang r a (sv1 s) + (ang r a' (sv0 s) - ang r a (sv0 s))) by lra.
    set (k := ang r a' (sv0 s) - ang r a (sv0 s)) in *.
    assert (E0 : ang r a' (sv0 s) = ang r a (sv0 s) + k) by (unfold k; ring).
    rewrite E0, E1. split; [|split].
    - unfold Rmin. destruct (Rle_dec _ _), (Rle_dec _ _); lra.
    - unfold Rmax. destruct (Rle_dec _ _), (Rle_dec _ _); lra.
    - rewrite E0 in C, S. set (u := ang r a (sv0 s)) in *. set (w := mid_ang r a s).
      replace (w + k) with ((u + k) + (w - u)) by ring. replace (w + t) with ((u + t) + (w - u)) by ring.
      rewrite (cos_plus (u + k)), (sin_plus (u + k)), (cos_plus (u + t)), (sin_plus (u + t)). rewrite C, S. auto.
  Qed.
  Lemma spun_contribution : forall n f s, both_under s -> contribution r a' n f s = contribution r a n f s /\ dropped r a' s = dropped r a s.
  Proof.
    intros n f s U. destruct (spun_minmax s U) as (k & L & H & C & S).
    assert (HF : half_ang r a' s = half_ang r a s) by (unfold half_ang; rewrite L, H; f_equal; ring).
    assert (MD : mid_ang r a' s = mid_ang r a s + k) by (unfold mid_ang; rewrite L, H; field).
    assert (DR : papply (lin a') (V (cos (mid_ang r a' s)) 0 (sin (mid_ang r a' s))) = papply (lin a) (V (cos (mid_ang r a s)) 0 (sin (mid_ang r a s)))).
    { rewrite spun_lin, MD. cbn [vx vy vz]. rewrite C, S, cos_plus, sin_plus. pose proof cs1 as E. f_equal.
      set (c := cos t) in *. set (d := sin t) in *. set (u := cos _). set (v := sin _). f_equal.
      - transitivity (u * (c * c + d * d)); [ring|rewrite E; ring].
      - transitivity (v * (c * c + d * d)); [ring|rewrite E; ring]. }
    split.
    - unfold contribution. f_equal.
      + unfold c_point, rad_c. rewrite HF, !spun_rad. set (k0 := Rmin _ _).
        rewrite !place_add, spun_center, !apply_scale. now rewrite DR.
      + unfold c_normal. cbv zeta. rewrite spun_normal.
        assert (NT : papply (lin a') (V (- cos (mid_ang r a' s)) 0 (- sin (mid_ang r a' s))) = papply (lin a) (V (- cos (mid_ang r a s)) 0 (- sin (mid_ang r a s)))).
        { assert (NEG : forall M x z, papply M (V (- x) 0 (- z)) = pscale (-1) (papply M (V x 0 z))) by (intros; apply vec_eq; munf; ring).
          rewrite !NEG. now rewrite DR. }
        now rewrite NT.
      + unfold c_volume. rewrite HF, L, H, !spun_rad.
        replace (hi_ang r a s + k - (lo_ang r a s + k)) with (hi_ang r a s - lo_ang r a s) by ring. reflexivity.
    - unfold dropped. rewrite L, H. replace (hi_ang r a s + k - (lo_ang r a s + k)) with (hi_ang r a s - lo_ang r a s) by ring. reflexivity.
  Qed.
  Hypothesis HR : good_rib r.
  Lemma spun_loop : forall gs, (forall g, In g gs -> exists t f, ground_of t f g) ->
    (forall g s, In g gs -> int_triangle_disk (tg_tri g) (disk_grd (frib r) (fa a)) neps = Ret (Some (fseg s)) -> both_under s) ->
    forall b cs, geo_loop (frib r) (fa a') gs (sums b cs) = geo_loop (frib r) (fa a) gs (sums b cs).
  Proof.
    induction gs as [|g gs IH]; intros HG HU b cs; [reflexivity|]. cbn [geo_loop].
    destruct (HG g (or_introl eq_refl)) as (t0 & f & G). apply ground_of_fields in G. destruct G as (E1 & E2 & E3 & _).
    assert (DK : disk_grd (frib r) (fa a') = disk_grd (frib r) (fa a)) by now rewrite !f_disk, spun_disk.
    rewrite DK. assert (HU0 := fun s => HU g s (or_introl eq_refl)).
    assert (IH' : forall b cs, geo_loop (frib r) (fa a') gs (sums b cs) = geo_loop (frib r) (fa a) gs (sums b cs)).
    { apply IH; intros; [apply HG; now right|]. apply (HU g0); auto. now right. }
    destruct (int_triangle_disk (tg_tri g) (disk_grd (frib r) (fa a)) neps) as [[sg|]|e|] eqn:EI; cbn [obind]; auto.
    assert (RS : exists s, sg = fseg s).
    { rewrite E1, f_disk in EI. change (neps : er) with (Fin eps) in EI.
      apply triangle_disk_sound in EI; [|apply eps_pos|destruct HR; cbn; unfold rb_radius in *; lra|now apply posed_unit].
      destruct EI as (s' & -> & _). eauto. }
    destruct RS as [s ->]. destruct (spun_contribution (up_normal t0) f s (HU0 s eq_refl)) as [EC ED].
    rewrite !(contrib_eval r _ g s _ f b cs E3 E2), EC, ED. destruct (dropped r a s); auto.
  Qed.
  Lemma spun_mesh : forall gs, (forall g, In g gs -> exists t f, ground_of t f g) ->
    (forall g s, In g gs -> int_triangle_disk (tg_tri g) (disk_grd (frib r) (fa a)) neps = Ret (Some (fseg s)) -> both_under s) ->
    (exists o, envelop_geometric (frib r) gs (fa a) = Ret (true, o) /\ envelop_geometric (frib r) gs (fa a') = Ret (true, o)) \/
    (envelop_geometric (frib r) gs (fa a) = Ret (envelop_none (frib r) (fa a)) /\ envelop_geometric (frib r) gs (fa a') = Ret (envelop_none (frib r) (fa a'))) \/
    exists e, envelop_geometric (frib r) gs (fa a) = Throw e /\ envelop_geometric (frib r) gs (fa a') = Throw e.
  Proof.
    intros gs HG HU. unfold envelop_geometric. rewrite sums0, (spun_loop gs HG HU).
    rewrite !f_center, spun_center.
    destruct (geo_loop (frib r) (fa a) gs (sums false [])) as [x|e|] eqn:E; cbn [obind].
    - match goal with |- context [if ?c then _ else _] => destruct c end; [left; eauto|right; left; auto].
    - right. right. eauto.
    - exfalso. revert E. apply geo_loop_not_ub.
  Qed.
End Spin.
