(** * The geometric method on triangles, over the reals. *)
From Coq Require Import ZArith Bool Reals Lra Lia Permutation List.
From Verif Require Import Base Num Vec Aabb Geom Ground Rib ER SpecGeom SpecRib SpecAvg.
From Verif Require Import ProofGeom ProofInt ProofTri ProofSegArea ProofFlat ProofAvg.
Import ListNotations.
Local Open Scope R_scope.

Definition ptrans (m : mat3 R) : mat3 R :=
  M3 (m00 m) (m10 m) (m20 m) (m01 m) (m11 m) (m21 m) (m02 m) (m12 m) (m22 m).
Lemma f_mtrans : forall m, mtrans (fm m) = fm (ptrans m).
Proof. reflexivity. Qed.
Lemma f_length : forall s, seg_length (fseg s) = Fin (dist (sv0 s) (sv1 s)).
Proof. intros s. unfold seg_length, fseg. cbn [sv0 sv1]. push. reflexivity. Qed.

(** ** One contribution. *)
Section Contribution.
  Variables (r : rib R) (a : affine R).
  Let R0 := rb_radius r.
  Let cg := place a (rb_center r).
  Definition in_rib (p : pt) : pt := papply (ptrans (lin a)) (psub p cg).
  Definition ang (p : pt) : R := ratan2 (vz (in_rib p)) (vx (in_rib p)).
  Definition lo_ang (s : segment R) : R := Rmin (ang (sv0 s)) (ang (sv1 s)).
  Definition hi_ang (s : segment R) : R := Rmax (ang (sv0 s)) (ang (sv1 s)).
  Definition half_ang (s : segment R) : R := (hi_ang s - lo_ang s) / 2.
  Definition mid_ang (s : segment R) : R := (lo_ang s + hi_ang s) / 2.
  Definition rad_at (p : pt) : R := Rmin R0 (pnorm (in_rib p)).
  Definition rad_c (s : segment R) : R :=
    Rmin R0 (Rmax 0 (2 * rad_at (sv0 s) * rad_at (sv1 s) / Rmax eps (rad_at (sv0 s) + rad_at (sv1 s)) * cos (half_ang s))).
  Definition c_area (s : segment R) : R := dist (sv0 s) (sv1 s) * rb_width r.
  Definition c_volume (s : segment R) : R :=
    (R0 * R0 * half_ang s - rad_at (sv0 s) * rad_at (sv1 s) * sin (hi_ang s - lo_ang s) / 2) * rb_width r.
  Definition c_point (s : segment R) : pt :=
    place a (padd (rb_center r) (pscale (rad_c s) (V (cos (mid_ang s)) 0 (sin (mid_ang s))))).
  Definition c_normal (n : pt) (s : segment R) : pt :=
    let nt := papply (lin a) (V (- cos (mid_ang s)) 0 (- sin (mid_ang s))) in
    let ng := papply (lin a) (rb_normal r) in
    punit (padd nt (pscale (pdot (psub n nt) ng) ng)).
  Definition contribution (n : pt) (f : R) (s : segment R) : output R :=
    Output (c_point s) (c_normal n s) f 0 (c_area s) (c_volume s).
  Definition dropped (s : segment R) : bool :=
    rltb (hi_ang s - lo_ang s) eps && rltb (dist (sv0 s) (sv1 s)) eps.

  (** The accumulators after the contributions [cs]. *)
  Definition sums (b : bool) (cs : list (output R)) : gacc er :=
    GAcc b (Fin (total o_area cs)) (Fin (total o_volume cs))
      (fv (vtotal (fun o => pscale (o_volume o) (o_point o)) cs))
      (fv (vtotal (fun o => pscale (o_volume o) (o_normal o)) cs))
      (Fin (total (fun o => o_friction o * o_volume o) cs)).

  Lemma swap_angles : forall x y,
    (if nlt (Fin y) (Fin x) then Fin y else Fin x) = Fin (Rmin x y) /\
    (if nlt (Fin y) (Fin x) then Fin x else Fin y) = Fin (Rmax x y).
  Proof.
    intros x y. rewrite e_lt. unfold Rmin, Rmax. destruct (rltb y x) eqn:E; rb;
      destruct (Rle_dec x y); split; f_equal; lra.
  Qed.

  Lemma total_app : forall A (f : A -> R) l x, total f (l ++ [x]) = total f l + f x.
  Proof. induction l as [|b l IH]; intros x; cbn; [ring|]. rewrite IH. ring. Qed.
  Lemma vtotal_app : forall A (f : A -> pt) l x, vtotal f (l ++ [x]) = padd (vtotal f l) (f x).
  Proof. intros. unfold vtotal. rewrite !total_app. reflexivity. Qed.

  Lemma contrib_eval : forall g s n f b cs, tg_normal g = fv n -> tg_friction g = Fin f ->
    geo_contrib (frib r) (fa a) g (fseg s) (sums b cs) =
    if dropped s then None else Some (sums true (cs ++ [contribution n f s])).
  Proof.
    intros g s n f b cs Hn Hf. unfold geo_contrib.
    rewrite f_center, f_normal. fold cg.
    change (lin (fa a)) with (fm (lin a)). change (tra (fa a)) with (fv (tra a)).
    rewrite f_mtrans. change (sv0 (fseg s)) with (fv (sv0 s)). change (sv1 (fseg s)) with (fv (sv1 s)).
    change (rb_radius (frib r)) with (Fin R0). change (rb_width (frib r)) with (Fin (rb_width r)).
    change (rb_center (frib r)) with (fv (rb_center r)).
    rewrite !f_sub, !f_apply. fold (in_rib (sv0 s)) (in_rib (sv1 s)).
    change (natan2 (vz (fv (in_rib (sv0 s)))) (vx (fv (in_rib (sv0 s))))) with (Fin (ang (sv0 s))).
    change (natan2 (vz (fv (in_rib (sv1 s)))) (vx (fv (in_rib (sv1 s))))) with (Fin (ang (sv1 s))).
    cbv zeta.
    destruct (swap_angles (ang (sv0 s)) (ang (sv1 s))) as [-> ->].
    fold (lo_ang s) (hi_ang s). rewrite f_length, !f_norm, Hn, Hf.
    push. change (neps : er) with (Fin eps). push. fold (dropped s).
    destruct (dropped s); auto. f_equal.
    fold (rad_at (sv0 s)) (rad_at (sv1 s)).
    rewrite !(e_ndiv _ 2) by lra. fold (half_ang s) (mid_ang s).
    assert (0 < Rmax eps (rad_at (sv0 s) + rad_at (sv1 s))).
    { apply Rlt_le_trans with eps; [apply eps_pos|apply Rmax_l]. }
    rewrite (e_ndiv _ (Rmax _ _)) by lra.
    change (ncos (Fin (half_ang s))) with (Fin (cos (half_ang s))).
    change (ncos (Fin (mid_ang s))) with (Fin (cos (mid_ang s))).
    change (nsin (Fin (mid_ang s))) with (Fin (sin (mid_ang s))).
    change (nsin (Fin (hi_ang s - lo_ang s))) with (Fin (sin (hi_ang s - lo_ang s))).
    push. rewrite (e_ndiv _ 2) by lra. push.
    unfold sums. cbn [ga_area ga_volume ga_point ga_normal ga_friction].
    rewrite !total_app, !vtotal_app. cbn [contribution o_area o_volume o_point o_normal o_friction].
    change (V (Fin (cos (mid_ang s))) (Fin 0) (Fin (sin (mid_ang s)))) with (fv (V (cos (mid_ang s)) 0 (sin (mid_ang s)))).
    change (V (Fin (- cos (mid_ang s))) (Fin 0) (Fin (- sin (mid_ang s)))) with (fv (V (- cos (mid_ang s)) 0 (- sin (mid_ang s)))).
    push. f_equal; try (f_equal; fail). f_equal. f_equal. unfold c_volume. ring.
  Qed.
End Contribution.

Definition up_normal (t : triangle R) : pt :=
  if rltb (vz (punit (tri_cross t))) 0 then pscale (-1) (punit (tri_cross t)) else punit (tri_cross t).
Lemma ground_of_fields : forall t f g, ground_of t f g ->
  tg_tri g = ftri t /\ tg_friction g = Fin f /\ tg_normal g = fv (up_normal t) /\ 0 <= f.
Proof.
  intros t f g [id H]. unfold mk_tground in H. rewrite e_ofZ in H.
  destruct (nle (Fin 0) (Fin f)) eqn:E; [|discriminate]. rewrite e_le in E. rb.
  injection H as <-. destruct t as [v0 v1 v2]. cbn [tg_tri tg_friction tg_normal tv0 tv1 tv2].
  split; [reflexivity|]. split; [reflexivity|]. split; [|exact E].
  unfold tg_update_normal. change (Triangle (fv v0) (fv v1) (fv v2)) with (ftri (Triangle v0 v1 v2)).
  rewrite f_tri_normal. unfold up_normal. set (n := punit _).
  change (nlt (vz (fv n)) (nofZ 0)) with (rltb (vz n) 0). destruct (rltb (vz n) 0); auto.
  now rewrite e_ofZ, f_mulr.
Qed.

(** ** Bounds of a contribution. *)
Section Bounds.
  Variables (r : rib R) (a : affine R).
  Hypothesis HR : good_rib r.
  Hypothesis HA : rigid a.

  Lemma ang_order : forall s, 0 <= half_ang r a s.
  Proof.
    intros s. unfold half_ang, lo_ang, hi_ang.
    pose proof (Rmin_l (ang r a (sv0 s)) (ang r a (sv1 s))). pose proof (Rmax_l (ang r a (sv0 s)) (ang r a (sv1 s))). lra.
  Qed.
  Lemma rad_bounds : forall p, 0 <= rad_at r a p <= rb_radius r.
  Proof.
    intros p. unfold rad_at. destruct HR as [Hr _]. split; [|apply Rmin_l].
    apply Rmin_glb; [lra|apply pnorm_nonneg].
  Qed.
  Lemma rad_c_bounds : forall s, 0 <= rad_c r a s <= rb_radius r.
  Proof.
    intros s. unfold rad_c. destruct HR as [Hr _]. split; [|apply Rmin_l]. apply Rmin_glb; [lra|apply Rmax_l].
  Qed.
  Lemma c_area_nonneg : forall s, 0 <= c_area r s.
  Proof. intros s. unfold c_area. destruct HR as (_ & Hw & _). apply Rmult_le_pos; auto. apply pnorm_nonneg. Qed.
  Lemma c_volume_nonneg : forall s, 0 <= c_volume r a s.
  Proof.
    intros s. unfold c_volume. destruct HR as (Hr & Hw & _). apply Rmult_le_pos; auto.
    pose proof (ang_order s) as H0.
    replace (hi_ang r a s - lo_ang r a s) with (2 * half_ang r a s) by (unfold half_ang; field).
    pose proof (rad_bounds (sv0 s)) as B0. pose proof (rad_bounds (sv1 s)) as B1.
    set (h := half_ang r a s) in *. set (x := rad_at r a (sv0 s)) in *. set (y := rad_at r a (sv1 s)) in *.
    set (rr := rb_radius r) in *.
    assert (P : 0 <= x * y <= rr * rr) by (split; [apply Rmult_le_pos; lra|apply Rmult_le_compat; lra]).
    pose proof (sin_le_id (2 * h) ltac:(lra)) as S.
    destruct (Rle_dec (sin (2 * h)) 0) as [N|N].
    - assert (0 <= rr * rr * h) by (apply Rmult_le_pos; [nra|lra]). nra.
    - assert (x * y * sin (2 * h) <= rr * rr * (2 * h)) by (apply Rmult_le_compat; lra). lra.
  Qed.
  Lemma c_point_near : forall s, dist (c_point r a s) (place a (rb_center r)) <= rb_radius r.
  Proof.
    intros s. pose proof (rad_c_bounds s) as B. unfold dist. apply pnorm_le; [destruct HR; lra|].
    unfold c_point.
    replace (psub (place a (padd (rb_center r) (pscale (rad_c r a s) (V (cos (mid_ang r a s)) 0 (sin (mid_ang r a s))))))
               (place a (rb_center r)))
      with (papply (lin a) (pscale (rad_c r a s) (V (cos (mid_ang r a s)) 0 (sin (mid_ang r a s)))))
      by (unfold place; apply vec_eq; vunf; ring).
    rewrite rotation_isometry by exact HA. rewrite pdot_scale_l, pdot_scale_r.
    replace (pdot (V (cos (mid_ang r a s)) 0 (sin (mid_ang r a s))) (V (cos (mid_ang r a s)) 0 (sin (mid_ang r a s)))) with 1.
    - nra.
    - pose proof (sin2_cos2 (mid_ang r a s)) as E. unfold Rsqr in E. vunf. lra.
  Qed.
  Lemma c_normal_le1 : forall n s, pdot (c_normal r a n s) (c_normal r a n s) <= 1.
  Proof. intros. unfold c_normal. apply punit_le1. Qed.

  (** ** The loop. *)
  Definition from (gs : list (tground er)) (c : output R) : Prop :=
    exists g t f s, In g gs /\ ground_of t f g /\ c = contribution r a (up_normal t) f s.

  Lemma loop_sums : forall gs b cs x, (forall g, In g gs -> exists t f, ground_of t f g) ->
    geo_loop (frib r) (fa a) gs (sums b cs) = Ret x ->
    exists cs', x = sums (b || match cs' with [] => false | _ => true end) (cs ++ cs') /\ Forall (from gs) cs'.
  Proof.
    induction gs as [|g gs IH]; intros b cs x HG H; cbn [geo_loop] in H.
    - exists []. injection H as <-. rewrite orb_false_r, app_nil_r. split; auto.
    - destruct (HG g (or_introl eq_refl)) as (t & f & Hg).
      destruct (ground_of_fields _ _ _ Hg) as (E1 & E2 & E3 & _).
      assert (HG' : forall g, In g gs -> exists t f, ground_of t f g) by (intros; apply HG; now right).
      assert (W : forall c, from gs c -> from (g :: gs) c).
      { intros c (g' & t' & f' & s' & H1 & H2). exists g', t', f', s'. split; auto. now right. }
      rewrite E1, f_disk in H. change (neps : er) with (Fin eps) in H.
      destruct (int_triangle_disk (ftri t) (fdisk (posed_disk r a)) (Fin eps)) as [[s|]| |] eqn:EI; cbn [obind] in H; try discriminate.
      + apply triangle_disk_sound in EI; [|apply eps_pos|destruct HR; cbn; unfold rb_radius in *; lra|now apply posed_unit].
        destruct EI as (s' & -> & _).
        rewrite (contrib_eval r a g s' _ f b cs E3 E2) in H.
        destruct (dropped r a s').
        * exists []. injection H as <-. rewrite orb_false_r, app_nil_r. split; auto.
        * apply IH in H; auto. destruct H as (cs' & -> & HF).
          exists (contribution r a (up_normal t) f s' :: cs'). split.
          -- rewrite orb_true_r. cbn [orb]. rewrite <- app_assoc. reflexivity.
          -- constructor; [exists g, t, f, s'; split; [now left|auto]|]. eapply Forall_impl; [|exact HF]. exact W.
      + apply IH in H; auto. destruct H as (cs' & -> & HF). exists cs'. split; auto.
        eapply Forall_impl; [|exact HF]. exact W.
  Qed.

  Lemma sums0 : gacc0 = sums false [].
  Proof. reflexivity. Qed.

  Lemma from_bounds : forall gs c, from gs c ->
    0 <= o_area c /\ 0 <= o_volume c /\ dist (o_point c) (place a (rb_center r)) <= rb_radius r /\
    pdot (o_normal c) (o_normal c) <= 1.
  Proof.
    intros gs c (g & t & f & s & _ & _ & ->). cbn [contribution o_area o_volume o_point o_normal].
    split; [apply c_area_nonneg|]. split; [apply c_volume_nonneg|]. split; [apply c_point_near|apply c_normal_le1].
  Qed.

  (** Weighted mean of points of a ball. *)
  Lemma mean_in_ball : forall (cs : list (output R)) (f : output R -> pt) c k, 0 <= k ->
    (forall o, In o cs -> 0 <= o_volume o) -> (forall o, In o cs -> dist (f o) c <= k) -> 0 < total o_volume cs ->
    dist (pscale (/ total o_volume cs) (vtotal (fun o => pscale (o_volume o) (f o)) cs)) c <= k.
  Proof.
    intros cs f c k Hk HV HD HT.
    set (p := pscale (/ total o_volume cs) (vtotal (fun o => pscale (o_volume o) (f o)) cs)).
    set (d := psub p c). unfold dist. fold d.
    destruct (pdot_pos d) as [DP|DZ]; [|apply pnorm_le; auto; rewrite <- DZ; nra].
    (* |d| = u.d is a mean of u.(f o - c) <= k *)
    set (u := punit d). assert (U : is_unit u) by now apply punit_is_unit.
    assert (E : pnorm d = pdot u d).
    { unfold u. rewrite punit_pos, pdot_scale_l, <- pnorm_sq by auto. pose proof (pnorm_pos d DP). field. lra. }
    rewrite E. unfold d. rewrite pdot_sub_r. unfold p. rewrite pdot_scale_r, pdot_vtotal.
    assert (B : forall o, In o cs -> pdot u (pscale (o_volume o) (f o)) <= (pdot u c + k) * o_volume o).
    { intros o Ho. rewrite pdot_scale_r. pose proof (HV o Ho). pose proof (HD o Ho) as D.
      unfold dist in D. apply pnorm_le in D; auto.
      pose proof (cauchy_schwarz u (psub (f o) c)) as CS. unfold is_unit in U. rewrite U in CS.
      rewrite pdot_sub_r in CS. assert (pdot u (f o) - pdot u c <= k) by nra. nra. }
    apply total_le in B. rewrite total_scale in B.
    apply Rmult_le_reg_l with (total o_volume cs); auto.
    rewrite Rmult_minus_distr_l, <- Rmult_assoc, Rinv_r, Rmult_1_l by lra. lra.
  Qed.

  Lemma geometric_bounds : forall gs o lo hi,
    (forall g, In g gs -> exists t f, ground_of t f g /\ lo <= f <= hi) ->
    envelop_geometric (frib r) gs (fa a) = Ret (true, o) -> o_volume o <> Fin 0 ->
    exists o', o = fout o' /\ lo <= o_friction o' <= hi /\ 0 <= o_area o' /\ 0 < o_volume o' /\
      0 <= o_depth o' <= rb_radius r /\ o_depth o' = rb_radius r - dist (o_point o') (place a (rb_center r)) /\
      (is_unit (o_normal o') \/ o_normal o' = V 0 0 0).
  Proof.
    intros gs o lo hi HG H HV. unfold envelop_geometric in H.
    destruct (geo_loop (frib r) (fa a) gs gacc0) as [x| |] eqn:EL; cbn [obind] in H; try discriminate.
    rewrite sums0 in EL. apply loop_sums in EL; [|intros g Hg; destruct (HG g Hg) as (t & f & ? & _); eauto].
    destruct EL as (cs & -> & HF). cbn [orb app] in H.
    rewrite Forall_forall in HF.
    cbn [sums ga_int ga_area ga_volume ga_point ga_normal ga_friction] in H.
    match type of H with (if ?c then _ else _) = _ => destruct c eqn:EC end; [|discriminate].
    assert (T0 : 0 <= total o_volume cs).
    { apply total_nonneg. intros c Hc. now apply (from_bounds gs), HF. }
    assert (TN : total o_volume cs <> 0).
    { intros E. apply HV. injection H as H. rewrite <- H. cbn [o_volume]. now rewrite E. }
    rewrite !f_div in H by auto. rewrite e_ndiv in H by auto. rewrite f_normalized, f_center in H.
    change (rb_radius (frib r)) with (Fin (rb_radius r)) in H. pushin H.
    assert (TP : 0 < total o_volume cs) by lra.
    set (p := pscale (/ total o_volume cs) (vtotal (fun o0 => pscale (o_volume o0) (o_point o0)) cs)) in *.
    exists (Output p (punit (pscale (/ total o_volume cs) (vtotal (fun o0 => pscale (o_volume o0) (o_normal o0)) cs)))
              (total (fun o => o_friction o * o_volume o) cs / total o_volume cs)
              (rb_radius r - pnorm (psub p (place a (rb_center r)))) (total o_area cs) (total o_volume cs)).
    split; [injection H as <-; reflexivity|]. cbn [o_friction o_area o_volume o_depth o_point o_normal].
    split.
    { apply mean_bounds; auto.
      - intros c Hc. now apply (from_bounds gs), HF.
      - intros c Hc _. destruct (HF c Hc) as (g & t & f & s & Hg & G & ->). cbn [contribution o_friction].
        destruct (HG g Hg) as (t' & f' & G' & B). apply ground_of_fields in G. apply ground_of_fields in G'.
        replace f with f'; auto. destruct G as (_ & G & _). destruct G' as (_ & G' & _). congruence. }
    split; [apply total_nonneg; intros c Hc; now apply (from_bounds gs), HF|].
    split; [exact TP|].
    assert (D : dist p (place a (rb_center r)) <= rb_radius r).
    { apply mean_in_ball; auto; [destruct HR; lra| |]; intros c Hc; now apply (from_bounds gs), HF. }
    split; [pose proof (pnorm_nonneg (psub p (place a (rb_center r)))); unfold dist in D; lra|].
    split; [reflexivity|].
    set (m := pscale (/ total o_volume cs) _). destruct (pdot_pos m) as [P|Z].
    - left. now apply punit_is_unit.
    - right. rewrite punit_zero by auto. now apply pdot_zero.
  Qed.
End Bounds.

(** ** Order of the triangles. *)
Section Order.
  Variables (r : rib R) (a : affine R).
  (** What a triangle adds. *)
  Definition gives (g : tground er) (c : list (output R)) : Prop :=
    (int_triangle_disk (tg_tri g) (disk_grd (frib r) (fa a)) neps = Ret None /\ c = []) \/
    exists t f s, ground_of t f g /\ int_triangle_disk (tg_tri g) (disk_grd (frib r) (fa a)) neps = Ret (Some (fseg s)) /\
      dropped r a s = false /\ c = [contribution r a (up_normal t) f s].

  Lemma clean_gives : forall g, (exists t f, ground_of t f g) -> cut_cleanly (frib r) (fa a) g -> exists c, gives g c.
  Proof.
    intros g (t & f & G) [H|(s & H & L)]; [exists []; now left|].
    exists [contribution r a (up_normal t) f s]. right. exists t, f, s. repeat split; auto.
    unfold dropped. replace (rltb (dist _ _) eps) with false by (symmetry; now apply rltb_false). apply andb_false_r.
  Qed.
  Definition some_contact (cs : list (output R)) : bool := match cs with [] => false | _ => true end.
  Lemma loop_clean : forall gs css, Forall2 gives gs css -> forall b cs,
    geo_loop (frib r) (fa a) gs (sums b cs) = Ret (sums (b || some_contact (concat css)) (cs ++ concat css)).
  Proof.
    induction 1 as [|g c gs css Hg HF IH]; intros b cs; cbn [geo_loop concat].
    - now rewrite orb_false_r, app_nil_r.
    - destruct Hg as [[E ->]|(t & f & s & G & E & D & ->)]; rewrite E; cbn [obind].
      + rewrite IH. reflexivity.
      + destruct (ground_of_fields _ _ _ G) as (_ & E2 & E3 & _).
        rewrite (contrib_eval r a g s _ f b cs E3 E2), D, IH. cbn [orb app some_contact].
        now rewrite orb_true_r, <- app_assoc.
  Qed.
  Lemma total_perm : forall A (f : A -> R) l l', Permutation l l' -> total f l = total f l'.
  Proof. intros A f l l' P. induction P; cbn; lra. Qed.
  Lemma sums_perm : forall b cs cs', Permutation cs cs' -> sums b cs = sums b cs'.
  Proof. intros b cs cs' P. unfold sums, vtotal. now rewrite !(total_perm _ _ _ _ P). Qed.
  Lemma forall2_perm : forall A B (P : A -> B -> Prop) l l', Permutation l l' ->
    forall m, Forall2 P l m -> exists m', Permutation m m' /\ Forall2 P l' m'.
  Proof.
    intros A B P l l' HP. induction HP as [|x l l' HP IH|x y l|l1 l2 l3 HP1 IH1 HP2 IH2]; intros m H.
    - exists m. inversion H. auto.
    - inversion H as [|? b ? m0 Hb HF]; subst. destruct (IH _ HF) as (m' & Q & F). exists (b :: m'). auto.
    - inversion H as [|? b ? m0 Hb HF]; subst. inversion HF as [|? b' ? m1 Hb' HF']; subst.
      exists (b' :: b :: m1). split; [apply perm_swap|auto].
    - destruct (IH1 _ H) as (m' & Q & F). destruct (IH2 _ F) as (m'' & Q' & F').
      exists m''. split; auto. now transitivity m'.
  Qed.
  Lemma concat_perm : forall A (l l' : list (list A)), Permutation l l' -> Permutation (concat l) (concat l').
  Proof.
    intros A l l' P. induction P; cbn; auto.
    - now apply Permutation_app_head.
    - rewrite !app_assoc. apply Permutation_app_tail, Permutation_app_comm.
    - etransitivity; eauto.
  Qed.
  Lemma all_gives : forall gs, (forall g, In g gs -> exists c, gives g c) -> exists css, Forall2 gives gs css.
  Proof.
    induction gs as [|g gs IH]; intros H; [exists []; constructor|].
    destruct (H g (or_introl eq_refl)) as [c Hc]. destruct IH as [css F]; [intros; apply H; now right|].
    exists (c :: css). now constructor.
  Qed.
  Lemma geometric_order : forall gs gs', Permutation gs gs' ->
    (forall g, In g gs -> (exists t f, ground_of t f g) /\ cut_cleanly (frib r) (fa a) g) ->
    envelop_geometric (frib r) gs (fa a) = envelop_geometric (frib r) gs' (fa a).
  Proof.
    intros gs gs' P H. destruct (all_gives gs) as [css F].
    { intros g Hg. destruct (H g Hg). now apply clean_gives. }
    destruct (forall2_perm _ _ _ _ _ P _ F) as (css' & Q & F').
    unfold envelop_geometric. rewrite sums0, (loop_clean _ _ F), (loop_clean _ _ F'). cbn [orb app].
    apply concat_perm in Q. rewrite (sums_perm _ _ _ Q).
    replace (some_contact (concat css)) with (some_contact (concat css')); auto.
    destruct (concat css) eqn:E1, (concat css') eqn:E2; auto.
    - apply Permutation_nil in Q. discriminate.
    - symmetry in Q. apply Permutation_nil in Q. discriminate.
  Qed.
End Order.
