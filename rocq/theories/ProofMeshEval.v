(** * The geometric mesh method evaluated on given cuts. *)
From Coq Require Import ZArith Bool Reals Lra Lia List Permutation.
From Verif Require Import Base Num Vec Aabb Geom Ground Rib ER SpecGeom SpecRib SpecAvg.
From Verif Require Import ProofGeom ProofInt ProofTri ProofSegArea ProofFlat ProofAvg ProofMeshGeo ProofPolar.
Import ListNotations.
Local Open Scope R_scope.

Section Eval.
  Variables (r : rib R) (a : affine R).

  (** The volume-weighted mean of the contributions. *)
  Definition mean_of (cs : list (output R)) : output R :=
    let v := total o_volume cs in
    let p := pscale (/ v) (vtotal (fun o => pscale (o_volume o) (o_point o)) cs) in
    Output p (punit (pscale (/ v) (vtotal (fun o => pscale (o_volume o) (o_normal o)) cs)))
      (total (fun o => o_friction o * o_volume o) cs / v)
      (rb_radius r - dist p (place a (rb_center r))) (total o_area cs) v.

  Lemma finish_pos : forall b cs, total o_volume cs <> 0 ->
    (let x := sums b cs in
     if ga_int x && (nlt neps (ga_area x) || nlt neps (ga_volume x)) then
      let p := vdiv (ga_point x) (ga_volume x) in
      Ret (true, Output p (vnormalized (vdiv (ga_normal x) (ga_volume x))) (ndiv (ga_friction x) (ga_volume x))
             (nsub (rb_radius (frib r)) (vnorm (vsub p (center_grd (frib r) (fa a))))) (ga_area x) (ga_volume x))
     else Ret (envelop_none (frib r) (fa a))) =
    if b && (rltb eps (total o_area cs) || rltb eps (total o_volume cs)) then Ret (true, fout (mean_of cs))
    else Ret (envelop_none (frib r) (fa a)).
  Proof.
    intros b cs H. cbn zeta. unfold sums. cbn [ga_int ga_area ga_volume ga_point ga_normal ga_friction].
    change (nlt neps (Fin (total o_area cs))) with (rltb eps (total o_area cs)).
    change (nlt neps (Fin (total o_volume cs))) with (rltb eps (total o_volume cs)).
    destruct (b && _); [|reflexivity].
    rewrite !f_div by auto. rewrite e_ndiv by auto. rewrite f_normalized, f_center.
    change (rb_radius (frib r)) with (Fin (rb_radius r)). push. reflexivity.
  Qed.

  Lemma geo_eval : forall gs css, Forall2 (gives r a) gs css -> total o_volume (concat css) <> 0 ->
    envelop_geometric (frib r) gs (fa a) =
    if some_contact (concat css) && (rltb eps (total o_area (concat css)) || rltb eps (total o_volume (concat css)))
    then Ret (true, fout (mean_of (concat css))) else Ret (envelop_none (frib r) (fa a)).
  Proof.
    intros gs css F H. unfold envelop_geometric. rewrite sums0, (loop_clean _ _ _ _ F). cbn [obind orb app].
    exact (finish_pos _ _ H).
  Qed.
  (** One contribution: the mean is the contribution itself. *)
  Lemma mean_single : forall c, o_volume c <> 0 ->
    mean_of [c] = Output (o_point c) (punit (o_normal c)) (o_friction c)
       (rb_radius r - dist (o_point c) (place a (rb_center r))) (o_area c) (o_volume c).
  Proof.
    intros c H. unfold mean_of, vtotal. cbn [total].
    replace (o_volume c + 0) with (o_volume c) by ring.
    assert (E : forall v, pscale (/ o_volume c) (V (vx (pscale (o_volume c) v) + 0) (vy (pscale (o_volume c) v) + 0) (vz (pscale (o_volume c) v) + 0)) = v).
    { intros v. apply vec_eq; vunf; field; auto. }
    rewrite !E. f_equal; try ring. field. auto.
  Qed.
  Lemma contrib_unit : forall n s, is_unit (c_normal r a n s) \/ c_normal r a n s = V 0 0 0.
  Proof.
    intros n s. unfold c_normal. match goal with |- context [punit ?m] => destruct (pdot_pos m) as [P|Z] end.
    - left. now apply punit_is_unit.
    - right. rewrite punit_zero by auto. now apply pdot_zero.
  Qed.
  Lemma punit_idem : forall v, is_unit v \/ v = V 0 0 0 -> punit v = v.
  Proof.
    intros v [U|Z].
    - assert (P : 0 < pdot v v) by (rewrite U; lra). rewrite punit_pos by auto.
      replace (pnorm v) with 1 by (symmetry; apply pnorm_eq; [lra|rewrite U; ring]).
      rewrite Rinv_1. apply pscale_1.
    - subst v. apply punit_zero. vunf. ring.
  Qed.
  Lemma geo_single : forall g t f s, ground_of t f g ->
    int_triangle_disk (tg_tri g) (disk_grd (frib r) (fa a)) neps = Ret (Some (fseg s)) ->
    dropped r a s = false -> c_volume r a s <> 0 -> eps < c_area r s \/ eps < c_volume r a s ->
    envelop_geometric (frib r) [g] (fa a) = Ret (true, fout
      (Output (c_point r a s) (c_normal r a (up_normal t) s) f
        (rb_radius r - dist (c_point r a s) (place a (rb_center r))) (c_area r s) (c_volume r a s))).
  Proof.
    intros g t f s G E D V C.
    rewrite (geo_eval [g] [[contribution r a (up_normal t) f s]]); cycle 1.
    - constructor; [|constructor]. right. exists t, f, s. auto.
    - cbn. rewrite Rplus_0_r. exact V.
    - cbn [concat app some_contact]. rewrite mean_single by exact V. cbn [contribution o_point o_normal o_friction o_area o_volume total].
      rewrite !Rplus_0_r. rewrite punit_idem by apply contrib_unit.
      replace (true && _) with true; [reflexivity|]. symmetry. cbn [andb]. apply orb_true_iff.
      destruct C; [left|right]; now apply rltb_true.
  Qed.
  (** Drops: a degenerate cut ends the loop. *)
  Lemma loop_drop : forall g t f s gs b cs, ground_of t f g ->
    int_triangle_disk (tg_tri g) (disk_grd (frib r) (fa a)) neps = Ret (Some (fseg s)) ->
    dropped r a s = true -> geo_loop (frib r) (fa a) (g :: gs) (sums b cs) = Ret (sums b cs).
  Proof.
    intros g t f s gs b cs G E D. cbn [geo_loop]. rewrite E. cbn [obind].
    destruct (ground_of_fields _ _ _ G) as (_ & E2 & E3 & _). rewrite (contrib_eval r a g s _ f b cs E3 E2), D. reflexivity.
  Qed.
  Lemma dropped_point : forall p, dropped r a (Segment p p) = true.
  Proof.
    intros p. unfold dropped, hi_ang, lo_ang. cbn [sv0 sv1].
    replace (dist p p) with 0 by (unfold dist; symmetry; apply pnorm_eq; [lra|vunf; ring]).
    pose proof eps_pos. apply andb_true_iff. split; apply rltb_true; auto.
    rewrite Rmax_left, Rmin_left by lra. lra.
  Qed.

  (** ** Finite data. *)
  Definition undefined (o : output er) : Prop :=
    o_volume o = Fin 0 /\ o_point o = V Nan Nan Nan /\ o_friction o = Nan /\ o_depth o = Nan.

  Lemma zero_total : forall (f : output R -> R) cs,
    (forall c, In c cs -> 0 <= o_volume c) -> total o_volume cs = 0 ->
    (forall c, o_volume c = 0 -> f c = 0) -> total f cs = 0.
  Proof.
    intros f. induction cs as [|c cs IH]; intros H0 HT HF; cbn in *; auto.
    pose proof (H0 c (or_introl eq_refl)).
    pose proof (total_nonneg _ o_volume cs ltac:(intros; apply H0; now right)).
    rewrite HF by lra. rewrite IH; [lra|intros; apply H0; now right|lra|auto].
  Qed.
  Hypothesis HR : good_rib r.
  Hypothesis HA : rigid a.
  Lemma geometric_data : forall gs o, (forall g, In g gs -> exists t f, ground_of t f g) ->
    envelop_geometric (frib r) gs (fa a) = Ret (true, o) ->
    (exists o', o = fout o') \/ undefined o.
  Proof.
    intros gs o HG H. unfold envelop_geometric in H.
    destruct (geo_loop (frib r) (fa a) gs gacc0) as [x| |] eqn:EL; cbn [obind] in H; try discriminate.
    rewrite sums0 in EL. apply loop_sums in EL; auto.
    destruct EL as (cs & -> & HF). cbn [orb app] in H. rewrite Forall_forall in HF.
    destruct (Req_dec (total o_volume cs) 0) as [Z|N].
    - right. cbn [sums ga_int ga_area ga_volume ga_point ga_normal ga_friction] in H.
      match type of H with (if ?c then _ else _) = _ => destruct c eqn:EC end; [|discriminate].
      assert (V0 : forall c, In c cs -> 0 <= o_volume c) by (intros c Hc; now apply (from_bounds r a HR HA gs), HF).
      assert (EP : vtotal (fun o => pscale (o_volume o) (o_point o)) cs = V 0 0 0).
      { unfold vtotal. f_equal; apply zero_total; auto; intros c Hc; rewrite Hc; vunf; ring. }
      rewrite Z, EP in H. rewrite (zero_total (fun o0 => o_friction o0 * o_volume o0)) in H; auto; [|intros c Hc; rewrite Hc; ring].
      assert (D : ndiv (Fin 0) (Fin 0) = Nan).
      { cbn [ndiv ER_Num ediv]. replace (reqb 0 0) with true; [reflexivity|]. symmetry. now apply reqb_true. }
      assert (DV : vdiv (fv (V 0 0 0)) (Fin 0) = V Nan Nan Nan).
      { unfold vdiv, fv. cbn [vx vy vz]. now rewrite D. }
      rewrite DV, D in H. injection H as <-. repeat split.
    - left. pose proof (finish_pos (match cs with [] => false | _ => true end) cs N) as E. cbv zeta in E.
      rewrite E in H. match type of H with (if ?c then _ else _) = _ => destruct c eqn:EC end; [|discriminate].
      injection H as <-. eauto.
  Qed.
End Eval.
