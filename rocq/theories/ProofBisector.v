(** * The geometric contact point is on the cut it was found on (for C136). *)
From Coq Require Import ZArith Bool Reals Lra Lia String List.
From Verif Require Import Base Num Vec Aabb Tree Geom Ground Shape Rib Str Mesh Shell ER SpecGeom SpecRib SpecShape SpecShell SpecPose SpecAvg SpecCut SpecFrame SpecRoof SpecHull.
From Verif Require Import SpecTree SpecMesh ProofMesh.
From Verif Require Import ProofGeom ProofInt ProofTri ProofSegArea ProofFlat ProofSample ProofShape ProofShapeFacts ProofShell ProofShellFacts ProofPose ProofRoof ProofAvg ProofMeshGeo ProofPolar ProofMeshEval ProofChord ProofSetupData ProofPaved ProofTerrain ProofUpward ProofHull.
Import ListNotations.
Local Open Scope R_scope.

Lemma below_angle : forall t, - PI < t <= PI -> sin t < 0 -> - PI < t < 0.
Proof.
  intros t T S. split; [lra|]. destruct (Rlt_le_dec t 0) as [H|H]; [exact H|]. pose proof (sin_ge_0 t H ltac:(lra)). lra.
Qed.

Section Bisector.
  Variables (r : rib R) (a : affine R).
  Hypothesis HR : good_rib r.
  Hypothesis HN : rb_normal r = V 0 1 0.
  Hypothesis HA : rigid a.
  Let cg := place a (rb_center r).
  Let D := posed_disk r a.

  Lemma local_polar : forall p, on_plane (dplane D) p -> dist p cg <= rb_radius r -> vz (in_rib r a p) <= - eps ->
    in_rib r a p = V (rad_at r a p * cos (ang r a p)) 0 (rad_at r a p * sin (ang r a p)) /\ - PI < ang r a p < 0 /\ eps <= rad_at r a p <= rb_radius r.
  Proof.
    intros p HP HD HZ. pose proof (local_flat r a HN p HP) as Y. pose proof eps_pos as EP.
    assert (RA : rad_at r a p = hyp (vx (in_rib r a p)) (vz (in_rib r a p))).
    { unfold rad_at. rewrite Rmin_right; [|rewrite (norm_local r a HA p); exact HD].
      unfold pnorm, hyp. f_equal. unfold pdot. rewrite Y. ring. }
    destruct (atan2_polar (vx (in_rib r a p)) (vz (in_rib r a p))) as (C & S & T); [right; lra|].
    pose proof (hyp_pos (vx (in_rib r a p)) (vz (in_rib r a p)) ltac:(right; lra)) as HPOS.
    pose proof (hyp_sq (vx (in_rib r a p)) (vz (in_rib r a p))) as SQ.
    fold (ang r a p) in C, S, T. rewrite <- RA in *. split; [|split].
    - rewrite C, S. rewrite <- Y. now destruct (in_rib r a p).
    - apply below_angle; [exact T|]. destruct (Rlt_le_dec (sin (ang r a p)) 0) as [H|H]; [exact H|].
      pose proof (Rmult_le_pos _ _ (Rlt_le _ _ HPOS) H). lra.
    - split; [|apply Rmin_l]. destruct (Rle_lt_dec eps (rad_at r a p)) as [H|H]; [exact H|]. exfalso.
      pose proof (Rle_0_sqr (vx (in_rib r a p))) as X. unfold Rsqr in X. nra.
  Qed.

  Lemma on_cut : forall s, on_plane (dplane D) (sv0 s) -> on_plane (dplane D) (sv1 s) ->
    dist (sv0 s) cg <= rb_radius r -> dist (sv1 s) cg <= rb_radius r ->
    vz (in_rib r a (sv0 s)) <= - eps -> vz (in_rib r a (sv1 s)) <= - eps ->
    exists k, 0 <= k <= 1 /\ c_point r a s = padd (pscale k (sv0 s)) (pscale (1 - k) (sv1 s)).
  Proof.
    intros s P0 P1 D0 D1 Z0 Z1. pose proof eps_pos as EP.
    destruct (local_polar _ P0 D0 Z0) as (E0 & A0 & B0). destruct (local_polar _ P1 D1 Z1) as (E1 & A1 & B1).
    set (r0 := rad_at r a (sv0 s)) in *. set (r1 := rad_at r a (sv1 s)) in *.
    set (t0 := ang r a (sv0 s)) in *. set (t1 := ang r a (sv1 s)) in *.
    assert (SC : cos (half_ang r a s) * cos (mid_ang r a s) = (cos t0 + cos t1) / 2 /\ cos (half_ang r a s) * sin (mid_ang r a s) = (sin t0 + sin t1) / 2 /\
      0 <= half_ang r a s < PI / 2).
    { assert (U : hi_ang r a s = mid_ang r a s + half_ang r a s) by (unfold mid_ang, half_ang; field).
      assert (L : lo_ang r a s = mid_ang r a s - half_ang r a s) by (unfold mid_ang, half_ang; field).
      pose proof (cos_plus (mid_ang r a s) (half_ang r a s)) as C1. pose proof (cos_minus (mid_ang r a s) (half_ang r a s)) as C2.
      pose proof (sin_plus (mid_ang r a s) (half_ang r a s)) as S1. pose proof (sin_minus (mid_ang r a s) (half_ang r a s)) as S2.
      rewrite <- U in C1, S1. rewrite <- L in C2, S2.
      assert (Q : (lo_ang r a s = t0 /\ hi_ang r a s = t1 /\ t0 <= t1) \/ (lo_ang r a s = t1 /\ hi_ang r a s = t0 /\ t1 <= t0)).
      { unfold lo_ang, hi_ang. fold t0 t1. destruct (Rle_dec t0 t1) as [H|H].
        - left. rewrite Rmin_left, Rmax_right by exact H. auto.
        - right. rewrite Rmin_right, Rmax_left by lra. repeat split; lra. }
      destruct Q as [(Q0 & Q1 & Q)|(Q0 & Q1 & Q)]; rewrite Q0 in C2, S2; rewrite Q1 in C1, S1;
        (split; [lra|]; split; [lra|]; unfold half_ang; rewrite Q0, Q1; lra). }
    destruct SC as (C & S & H).
    assert (CH : 0 <= cos (half_ang r a s) <= 1) by (split; [apply cos_ge_0; lra|apply COS_bound]).
    assert (SUM : 0 < r0 + r1) by lra.
    set (b := 2 * r0 * r1 / (r0 + r1)).
    assert (BB : 0 <= b <= rb_radius r).
    { unfold b. split; apply Rmult_le_reg_r with (r0 + r1); auto; unfold Rdiv; rewrite Rmult_assoc, Rinv_l by lra; nra. }
    assert (RC : rad_c r a s = b * cos (half_ang r a s)).
    { unfold rad_c. fold r0 r1. rewrite (Rmax_right eps) by lra. fold b. rewrite Rmax_right by nra. rewrite Rmin_right by nra. reflexivity. }
    exists (r1 / (r0 + r1)). split.
    { split; apply Rmult_le_reg_r with (r0 + r1); auto; unfold Rdiv; rewrite Rmult_assoc, Rinv_l by lra; lra. }
    rewrite <- (from_local r a HA (sv0 s)) at 1. rewrite <- (from_local r a HA (sv1 s)) at 1. rewrite E0, E1.
    unfold c_point. rewrite RC.
    replace (pscale (b * cos (half_ang r a s)) (V (cos (mid_ang r a s)) 0 (sin (mid_ang r a s))))
      with (V (b * ((cos t0 + cos t1) / 2)) 0 (b * ((sin t0 + sin t1) / 2)))
      by (rewrite <- C, <- S; apply vec_eq; vunf; ring).
    replace (1 - r1 / (r0 + r1)) with (r0 / (r0 + r1)) by (field; lra).
    unfold place. unfold b. apply vec_eq; vunf; field; lra.
  Qed.

  (** Every contribution comes from a cut. *)
  Definition from_cut (gs : list (tground er)) (c : output R) : Prop :=
    exists g t f s, In g gs /\ ground_of t f g /\ c = contribution r a (up_normal t) f s /\
      on_plane (dplane D) (sv0 s) /\ on_plane (dplane D) (sv1 s) /\ dist (sv0 s) cg <= rb_radius r /\ dist (sv1 s) cg <= rb_radius r /\
      near_triangle eps t (sv0 s) /\ near_triangle eps t (sv1 s).
  Lemma loop_cuts : forall gs b cs x, (forall g, In g gs -> exists t f, ground_of t f g) ->
    geo_loop (frib r) (fa a) gs (sums b cs) = Ret x ->
    exists cs', x = sums (b || match cs' with [] => false | _ => true end) (cs ++ cs') /\ Forall (from_cut gs) cs'.
  Proof.
    induction gs as [|g gs IH]; intros b cs x HG H; cbn [geo_loop] in H.
    - exists []. injection H as <-. rewrite orb_false_r, app_nil_r. split; auto.
    - destruct (HG g (or_introl eq_refl)) as (t & f & Hg).
      destruct (ground_of_fields _ _ _ Hg) as (E1 & E2 & E3 & _).
      assert (HG' : forall g, In g gs -> exists t f, ground_of t f g) by (intros; apply HG; now right).
      assert (W : forall c, from_cut gs c -> from_cut (g :: gs) c).
      { intros c (g' & t' & f' & s' & H1 & H2). exists g', t', f', s'. split; auto. now right. }
      rewrite E1, f_disk in H. change (neps : er) with (Fin eps) in H.
      destruct (int_triangle_disk (ftri t) (fdisk (posed_disk r a)) (Fin eps)) as [[s|]| |] eqn:EI; cbn [obind] in H; try discriminate.
      + apply triangle_disk_sound in EI; [|apply eps_pos|destruct HR; cbn; unfold rb_radius in *; lra|now apply posed_unit].
        destruct EI as (s' & -> & O0 & O1 & N0 & N1 & DD).
        rewrite (contrib_eval r a g s' _ f b cs E3 E2) in H.
        destruct (dropped r a s') eqn:DR.
        * exists []. injection H as <-. rewrite orb_false_r, app_nil_r. split; auto.
        * assert (NE : sv0 s' <> sv1 s').
          { intros E. destruct s' as [p q]. cbn [sv0 sv1] in E. subst q. rewrite dropped_point in DR. discriminate. }
          destruct (DD NE) as [[_ I0] [_ I1]].
          apply IH in H; auto. destruct H as (cs' & -> & HF).
          exists (contribution r a (up_normal t) f s' :: cs'). split.
          -- rewrite orb_true_r. cbn [orb]. rewrite <- app_assoc. reflexivity.
          -- constructor; [exists g, t, f, s'; split; [now left|]; repeat (split; [assumption || reflexivity|]); assumption|]. eapply Forall_impl; [|exact HF]. exact W.
      + apply IH in H; auto. destruct H as (cs' & -> & HF). exists cs'. split; auto.
        eapply Forall_impl; [|exact HF]. exact W.
  Qed.
End Bisector.

(** ** The rib. *)
(** The ground is under the axle of the wheel, seen in its own frame. *)
Lemma near_below : forall r a l h t q, between (pcol2 (lin a)) l h t ->
  h + 3 * eps * (h - l) + eps <= pdot (pcol2 (lin a)) (place a (rb_center r)) -> near_triangle eps t q -> vz (in_rib r a q) <= - eps.
Proof.
  intros r a l h t q B H N. destruct (near_slab _ _ _ _ _ B N) as [_ S].
  replace (vz (in_rib r a q)) with (pdot (pcol2 (lin a)) q - pdot (pcol2 (lin a)) (place a (rb_center r))); [lra|].
  unfold in_rib. set (c := place a (rb_center r)). unfold ptrans, pcol2. vunf. cbn [m00 m01 m02 m10 m11 m12 m20 m21 m22]. ring.
Qed.
Lemma near_convex : forall u l h k p q, 0 <= k <= 1 -> slab u l h p -> slab u l h q -> slab u l h (padd (pscale k p) (pscale (1 - k) q)).
Proof.
  intros u l h k p q K [P0 P1] [Q0 Q1]. unfold slab in *.
  replace (pdot u (padd (pscale k p) (pscale (1 - k) q))) with (k * pdot u p + (1 - k) * pdot u q) by (unfold pdot, padd, pscale; cbn [vx vy vz]; ring).
  set (x := pdot u p) in *. set (y := pdot u q) in *. set (e := 3 * eps * (h - l)) in *. split; nra.
Qed.
Lemma geo_slab : forall r a ts gs o v, good_rib r -> rb_normal r = V 0 1 0 -> rigid a -> grounds ts gs -> below_hub a (rb_center r) ts ->
  envelop_geometric (frib r) gs (fa a) = Ret (true, o) -> o_volume o = Fin v -> v <> 0 ->
  exists p, o_point o = fv p /\ forall u lo hi, (forall t f, In (t, f) ts -> between u lo hi t) -> slab u lo hi p.
Proof.
  intros r a ts gs o v HR HN HA G (l0 & h0 & BW & BH) H HV NV.
  assert (HG : forall g, In g gs -> exists t f, ground_of t f g) by (intros g I; destruct (grounds_in ts gs g G I) as (t & f & _ & K); eauto).
  unfold envelop_geometric in H.
  destruct (geo_loop (frib r) (fa a) gs gacc0) as [x| |] eqn:EL; cbn [obind] in H; try discriminate.
  rewrite sums0 in EL. apply (loop_cuts r a HR HA) in EL; [|exact HG].
  destruct EL as (cs & -> & HF). cbn [orb app] in H. rewrite Forall_forall in HF.
  assert (N : total o_volume cs <> 0).
  { intros Z. apply NV. cbn [sums ga_int ga_area ga_volume ga_point ga_normal ga_friction] in H.
    match type of H with (if ?c then _ else _) = _ => destruct c eqn:EC end; [|discriminate].
    injection H as H. rewrite <- H in HV. cbn [o_volume] in HV. injection HV as HV. now rewrite <- HV. }
  pose proof (finish_pos r a (match cs with [] => false | _ => true end) cs N) as E. cbv zeta in E.
  rewrite E in H. match type of H with (if ?c then _ else _) = _ => destruct c eqn:EC end; [|discriminate].
  injection H as <-. exists (o_point (mean_of r a cs)). split; [reflexivity|]. intros u lo hi W.
  assert (V0 : forall c, In c cs -> 0 <= o_volume c).
  { intros c Hc. destruct (HF c Hc) as (g & t & f & s & _ & _ & -> & _). cbn [contribution o_volume]. now apply c_volume_nonneg. }
  assert (T0 : 0 < total o_volume cs) by (pose proof (total_nonneg _ o_volume cs V0); lra).
  assert (K : forall c, In c cs -> slab u lo hi (o_point c)).
  { intros c Hc. destruct (HF c Hc) as (g & t & f & s & Ig & Gg & -> & O0 & O1 & D0 & D1 & N0 & N1). cbn [contribution o_point].
    destruct (grounds_in ts gs g G Ig) as (t' & f' & It & Gt).
    assert (ET : t' = t).
    { apply ground_of_fields in Gg. apply ground_of_fields in Gt. destruct Gg as (X & _). destruct Gt as (Y & _). apply ftri_inj. congruence. }
    subst t'. pose proof (BW t f' It) as B. pose proof (W t f' It) as B'.
    destruct (on_cut r a HN HA s O0 O1 D0 D1 (near_below r a l0 h0 t _ B BH N0) (near_below r a l0 h0 t _ B BH N1)) as (k & KK & ->).
    apply near_convex; [exact KK|apply (near_slab u lo hi t); assumption|apply (near_slab u lo hi t); assumption]. }
  unfold slab, mean_of. cbn [o_point].
  rewrite pdot_scale_r, pdot_vtotal.
  pose proof (mean_bounds _ o_volume (fun c => pdot u (o_point c)) cs (lo - 3 * eps * (hi - lo)) (hi + 3 * eps * (hi - lo)) T0 V0 (fun c Hc _ => K c Hc)) as M.
  rewrite (total_ext _ (fun a0 => pdot u (pscale (o_volume a0) (o_point a0))) (fun c => pdot u (o_point c) * o_volume c)) by (intros; rewrite pdot_scale_r; ring).
  rewrite (Rmult_comm (/ total o_volume cs)). exact M.
Qed.

(** ** The wheel. *)
Lemma hub_slides : forall a c ts, rigid a -> vx c = 0 -> vz c = 0 -> below_hub a (V 0 0 0) ts -> below_hub a c ts.
Proof.
  intros a c ts HA X Z (l & h & B & H). exists l, h. split; [exact B|].
  replace (pdot (pcol2 (lin a)) (place a c)) with (pdot (pcol2 (lin a)) (place a (V 0 0 0)) + pdot (pcol1 (lin a)) (pcol2 (lin a)) * vy c).
  - destruct HA as (_ & _ & _ & _ & O & _). rewrite O. lra.
  - destruct c as [cx cy cz]. cbn [vx vz] in X, Z. subst. unfold place, pcol1, pcol2. vunf. ring.
Qed.
Lemma wheel_geo_slab : forall gb sp s m ts a s' b v, real_shell sp s -> rigid a -> grounds ts (me_tris m) -> below_hub a (V 0 0 0) ts ->
  setup_mesh gb s m (fa a) "geometric" = Ok s' b -> (forall i, (i < sh_size s')%nat -> contact_friction_i s' i <> Ret Nan) ->
  contact_volume s' = Ret (Fin v) -> eps <= v ->
  exists p, contact_point s' = Ret (fv p) /\
    forall u lo hi, (forall t f, In (t, f) ts -> between u lo hi t) -> slab u lo hi p.
Proof.
  intros gb sp s m ts a s' b v RS HA GR BH E NN CV HV. destruct (some_range ts) as (lo & hi & RG).
  destruct (mesh_data gb sp s m ts lo hi a "geometric" s' b RS HA GR RG (or_introl eq_refl) E NN) as (os & RD & HN & HO).
  assert (NV : forall o, In o os -> 0 <= o_volume o) by (intros o Ho; apply (HO o Ho)).
  assert (TV : total o_volume os = v) by (pose proof (total_volume s' os RD) as T; rewrite CV in T; injection T as T; now symmetry).
  destruct (point_hull s' os RD HN NV) as (p & EP & HP). exists p. split; [exact EP|]. intros u l h W.
  assert (K : forall o, (In o os /\ (total o_volume os < eps \/ 0 < o_volume o)) -> slab u l h (o_point o)).
  { intros o [Ho M]. assert (VO : 0 < o_volume o) by (destruct M; lra). apply In_nth_error in Ho. destruct Ho as [i Hi].
    assert (L : (i < sh_size s')%nat) by (rewrite <- (proj1 RD); apply nth_error_Some; congruence).
    destruct (mesh_rib_call gb sp s m a "geometric" s' b RS E i L) as (r & q & HR & EO & C).
    destruct (proj2 RD i o Hi) as (A0 & _ & _ & _ & _ & A1). unfold contact_volume_i in A1. rewrite EO in A1. cbn [obind] in A1.
    unfold contact_point_i in A0. rewrite EO in A0. cbn [obind] in A0.
    destruct C as [->|(cs & SB & F)].
    - exfalso. cbn in A1. assert (Q : 0 = o_volume o) by (injection A1 as Q; exact Q). lra.
    - destruct (has_rib_axial sp s i r RS HR) as ((AX & X & Z) & GD & _). destruct (sub_grounds ts (me_tris m) cs GR SB) as (ts' & G' & S' & _).
      assert (BS : below_hub a (rb_center r) ts').
      { apply hub_slides; auto. destruct BH as (l0 & h0 & B0 & B1). exists l0, h0. split; [|exact B1]. intros t f I. apply (B0 t f). now apply S'. }
      assert (A1' : o_volume q = Fin (o_volume o)) by congruence.
      assert (F' : envelop_geometric (frib r) cs (fa a) = Ret (true, q)) by (destruct (gb i) as [[[? ?] ?] ?]; exact F).
      destruct (geo_slab r a ts' cs q (o_volume o) GD AX HA G' BS F' A1' ltac:(lra)) as (p' & P1 & P2).
      rewrite P1 in A0. assert (Q : p' = o_point o) by (apply fv_inj; congruence). rewrite <- Q. apply P2. intros t f I; apply (W t f); now apply S'. }
  split.
  - apply HP. intros o M. apply (K o M).
  - assert (N : - (h + 3 * eps * (h - l)) <= pdot (pscale (-1) u) p).
    { apply HP. intros o M. destruct (K o M) as [_ Q]. replace (pdot (pscale (-1) u) (o_point o)) with (- pdot u (o_point o)) by (unfold pscale, pdot; cbn [vx vy vz]; ring). lra. }
    replace (pdot (pscale (-1) u) p) with (- pdot u p) in N by (unfold pscale, pdot; cbn [vx vy vz]; ring). lra.
Qed.

(** ** One triangle. *)
Lemma single_cut : forall r a g t f s o, good_rib r -> rb_normal r = V 0 1 0 -> rigid a -> ground_of t f g ->
  int_triangle_disk (tg_tri g) (disk_grd (frib r) (fa a)) neps = Ret (Some (fseg s)) -> in_disk (posed_disk r a) (sv0 s) -> in_disk (posed_disk r a) (sv1 s) ->
  pdot (psub (sv0 s) (place a (rb_center r))) (pcol2 (lin a)) <= - eps -> pdot (psub (sv1 s) (place a (rb_center r))) (pcol2 (lin a)) <= - eps ->
  envelop_geometric (frib r) [g] (fa a) = Ret (true, o) -> o_volume o <> Fin 0 ->
  exists k, 0 <= k <= 1 /\ o_point o = fv (padd (pscale k (sv0 s)) (pscale (1 - k) (sv1 s))).
Proof.
  intros r a g t f s o HR HN HA G EI [O0 D0] [O1 D1] Z0 Z1 H HV.
  assert (LZ : forall p, pdot (psub p (place a (rb_center r))) (pcol2 (lin a)) = vz (in_rib r a p)).
  { intros p. unfold in_rib. set (c := place a (rb_center r)). unfold ptrans, pcol2. vunf. cbn [m00 m01 m02 m10 m11 m12 m20 m21 m22]. ring. }
  rewrite LZ in Z0, Z1. destruct (on_cut r a HN HA s O0 O1 D0 D1 Z0 Z1) as (k & K & E). exists k. split; [exact K|].
  destruct (dropped r a s) eqn:DR.
  { unfold envelop_geometric in H. rewrite sums0, (loop_drop r a g t f s [] false [] G EI DR) in H. discriminate. }
  assert (GV : gives r a g [contribution r a (up_normal t) f s]) by (right; exists t, f, s; auto).
  destruct (Req_dec (c_volume r a s) 0) as [Z|NZ].
  - exfalso. destruct (ground_of_fields _ _ _ G) as (_ & E2 & E3 & _). unfold envelop_geometric in H. cbn [geo_loop] in H.
    rewrite EI in H. cbn [obind] in H. rewrite sums0, (contrib_eval r a g s _ f false [] E3 E2), DR in H. cbn [geo_loop obind app] in H.
    cbn [sums ga_int ga_area ga_volume ga_point ga_normal ga_friction] in H.
    match type of H with (if ?c then _ else _) = _ => destruct c eqn:EC end; [|discriminate].
    injection H as H. apply HV. rewrite <- H. cbn [o_volume total contribution]. rewrite Z. f_equal. ring.
  - rewrite (geo_eval r a [g] [[contribution r a (up_normal t) f s]]) in H.
    2:{ constructor; [exact GV|constructor]. }
    2:{ cbn. rewrite Rplus_0_r. exact NZ. }
    match type of H with (if ?c then _ else _) = _ => destruct c eqn:EC end; [|discriminate].
    injection H as <-. cbn [concat app]. rewrite mean_single by exact NZ. cbn [fout o_point contribution]. now rewrite E.
Qed.
