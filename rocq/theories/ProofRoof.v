(** * Proofs: the sampling method on triangles, in full. *)
From Coq Require Import ZArith Bool Reals Lra Lia String List.
From Verif Require Import Base Num Vec Aabb Geom Ground Rib ER SpecGeom SpecRib SpecAvg SpecCut SpecFrame SpecRoof.
From Verif Require Import ProofGeom ProofInt ProofTri ProofSegArea ProofFlat ProofSample ProofAvg ProofMeshGeo ProofChord ProofCut ProofShell ProofFrame ProofFrameMesh.
Import ListNotations.
Local Open Scope R_scope.

Lemma over_down : forall q p, over q p <-> on_line (Line q (V 0 0 (-1))) p.
Proof.
  intros q p. split.
  - intros [H1 H2]. exists (vz q - vz p). cbn [lorigin ldir]. apply vec_eq; vunf; rewrite ?H1, ?H2; ring.
  - intros [k ->]. cbn [lorigin ldir]. split; vunf; ring.
Qed.
Lemma edge_shadow : forall t,
  Rabs (pdot (psub (tv1 t) (tv0 t)) (pcross (V 0 0 (-1)) (psub (tv2 t) (tv0 t)))) = shadow t.
Proof.
  intros t. unfold shadow. set (e := psub (tv1 t) _). set (h := psub (tv2 t) _). clearbody e h.
  replace (pdot e (pcross (V 0 0 (-1)) h)) with (- - vz (pcross e h)) by (vunf; ring).
  now rewrite Ropp_involutive.
Qed.

Lemma roof_found : forall ts gs q h, grounds ts gs -> sampling_line gs (down q) = Some h ->
  exists p f, h = (fv p, Fin f) /\ roof ts q p f.
Proof.
  intros ts gs q [p0 f0] HG H.
  assert (FIN : forall g p, In g gs -> int_line_triangle (down q) (tg_tri g) neps = Some p ->
    exists t f p', In (t, f) ts /\ tg_tri g = ftri t /\ tg_friction g = Fin f /\ p = fv p' /\ over q p' /\ near_triangle eps t p').
  { intros g p Hg Hp. clear H. induction HG as [|[t f] g' ts gs HG' HG IH]; [easy|]. destruct Hg as [->|Hg].
    - cbn [fst snd] in HG'. apply ground_of_fields in HG'. destruct HG' as (E1 & E2 & _).
      rewrite E1, down_line, neps_eps in Hp. apply line_triangle_sound in Hp; [|apply eps_pos].
      destruct Hp as (p' & -> & L & N). exists t, f, p'. repeat split; auto; try now left. all: now apply over_down.
    - destruct (IH Hg) as (t' & f' & p' & H1 & H2). exists t', f', p'. split; [now right|exact H2]. }
  assert (BACK : forall t f, In (t, f) ts -> exists g, In g gs /\ tg_tri g = ftri t).
  { intros t f Hin. clear H FIN. induction HG as [|[t' f'] g' ts gs HG' HG IH]; [easy|]. destruct Hin as [[= -> ->]|Hin].
    - cbn [fst snd] in HG'. apply ground_of_fields in HG'. exists g'. split; [now left|apply HG'].
    - destruct (IH Hin) as (g & H1 & H2). exists g. split; [now right|auto]. }
  apply highest_hit in H.
  2:{ intros g x Hg Hx. destruct (FIN g x Hg Hx) as (t & f & p' & _ & _ & _ & -> & _).
      unfold isnum. change (vz (fv p')) with (Fin (vz p')). rewrite e_le. apply rleb_true. lra. }
  destruct H as (pre & g & post & EG & HP & -> & H1 & H2).
  destruct (FIN g p0) as (t & f & p & T1 & T2 & T3 & -> & T5 & T6); [rewrite EG; apply in_elt|exact HP|].
  rewrite T3. exists p, f. split; [reflexivity|]. split; [exact T5|]. split; [now exists t|].
  intros t' f' p' Hin Hs Ht Ho. destruct (BACK t' f' Hin) as (g' & G1 & G2).
  assert (HIT : int_line_triangle (down q) (tg_tri g') neps = Some (fv p')).
  { rewrite G2, down_line, neps_eps. apply line_triangle_complete; [apply eps_pos|now apply over_down|exact Ht|].
    cbn [ldir]. rewrite edge_shadow. exact Hs. }
  rewrite EG in G1. apply in_app_or in G1. destruct G1 as [G1|[<-|G1]].
  - specialize (H1 _ _ G1 HIT). change (vz (fv p')) with (Fin (vz p')) in H1. change (vz (fv p)) with (Fin (vz p)) in H1.
    rewrite e_lt in H1. rb. lra.
  - rewrite HIT in HP. injection HP as _ _ E. lra.
  - specialize (H2 _ _ G1 HIT). change (vz (fv p')) with (Fin (vz p')) in H2. change (vz (fv p)) with (Fin (vz p)) in H2.
    rewrite e_le in H2. apply rleb_true in H2. lra.
Qed.
Lemma roof_missing : forall ts gs q, grounds ts gs -> sampling_line gs (down q) = None -> roofless ts q.
Proof.
  intros ts gs q HG H t f p Hin Hs Ht Ho. rewrite no_hit in H.
  induction HG as [|[t' f'] g' ts gs HG' HG IH]; [easy|]. destruct Hin as [[= -> ->]|Hin].
  - cbn [fst snd] in HG'. apply ground_of_fields in HG'. destruct HG' as (E1 & _).
    specialize (H g' (or_introl eq_refl)). rewrite E1, down_line, neps_eps in H.
    erewrite line_triangle_complete in H; [discriminate|apply eps_pos|apply over_down; exact Ho|exact Ht|].
    cbn [ldir]. rewrite edge_shadow. exact Hs.
  - apply IH; auto. intros g Hg. apply H. now right.
Qed.

Lemma along_unit : forall v, along v (punit v).
Proof.
  intros v. pose proof (pdot_pos v) as P. destruct (Req_dec (pdot v v) 0) as [Z|Z].
  - left. rewrite punit_zero by auto. assert (v = V 0 0 0) by (destruct v as [x y z]; unfold pdot in Z; cbn in Z; apply vec_eq; cbn; nra). auto.
  - right. split; [apply punit_is_unit; lra|]. exists (pnorm v).
    assert (0 < pnorm v) by (unfold pnorm; apply sqrt_lt_R0; lra). split; [auto|].
    rewrite punit_pos by lra. rewrite pscale_scale. rewrite Rinv_r by lra. now rewrite pscale_1.
Qed.
Lemma along_fun : forall v n n', along v n -> along v n' -> n = n'.
Proof.
  intros v n n' [[-> ->]|(U & k & K & ->)] [[E ->]|(U' & k' & K' & E)].
  - reflexivity.
  - exfalso. apply (f_equal (fun u => pdot u u)) in E. rewrite pdot_scale_l, pdot_scale_r, U' in E.
    replace (pdot (V 0 0 0) (V 0 0 0)) with 0 in E by (vunf; ring). nra.
  - exfalso. apply (f_equal (fun u => pdot u u)) in E. rewrite pdot_scale_l, pdot_scale_r, U in E.
    replace (pdot (V 0 0 0) (V 0 0 0)) with 0 in E by (vunf; ring). nra.
  - assert (k = k').
    { apply (f_equal (fun u => pdot u u)) in E. rewrite !pdot_scale_l, !pdot_scale_r, U, U' in E. nra. }
    subst k'. apply (f_equal (pscale (/ k))) in E. rewrite !pscale_scale, Rinv_l, !pscale_1 in E by lra. exact E.
Qed.

(** The two cross products only measure the angle to the axle. *)
Lemma axle_angle : forall n y, is_unit y -> (is_unit n \/ n = V 0 0 0) ->
  n <> V 0 0 0 ->
  Rabs (pdot n (punit (pcross y (punit (pcross n y))))) = sqrt (1 - pdot n y * pdot n y).
Proof.
  intros n y UY UN NZ. destruct UN as [UN|UN]; [|contradiction].
  set (c := pdot n y).
  assert (X2 : pdot (pcross n y) (pcross n y) = 1 - c * c).
  { unfold c. assert (L : pdot (pcross n y) (pcross n y) = pdot n n * pdot y y - pdot n y * pdot n y) by (vunf; ring).
    rewrite L, UN, UY. ring. }
  destruct (Req_dec (1 - c * c) 0) as [Z|Z].
  - rewrite Z, sqrt_0. assert (E : pcross n y = V 0 0 0).
    { rewrite Z in X2. destruct (pcross n y) as [x1 x2 x3]. unfold pdot in X2. cbn in X2. apply vec_eq; cbn; nra. }
    rewrite E. rewrite (punit_zero (V 0 0 0)) by (vunf; ring).
    replace (pcross y (V 0 0 0)) with (V 0 0 0 : pt) by (apply vec_eq; vunf; ring).
    rewrite punit_zero by (vunf; ring). replace (pdot n (V 0 0 0)) with 0 by (vunf; ring). apply Rabs_R0.
  - pose proof (pdot_pos (pcross n y)) as P. assert (S : 0 < 1 - c * c) by lra.
    set (x := pcross n y) in *. set (ex := punit x).
    assert (UX : pdot ex ex = 1) by (apply punit_is_unit; lra).
    assert (XY : pdot ex y = 0).
    { unfold ex. rewrite punit_pos by lra. rewrite pdot_scale_l. unfold x. replace (pdot (pcross n y) y) with 0 by (vunf; ring). ring. }
    assert (UZ : pdot (pcross y ex) (pcross y ex) = 1).
    { assert (L : pdot (pcross y ex) (pcross y ex) = pdot y y * pdot ex ex - pdot ex y * pdot ex y) by (vunf; ring).
      rewrite L, UY, UX, XY. ring. }
    rewrite punit_unit by exact UZ.
    assert (D : pdot n (pcross y ex) = / pnorm x * (1 - c * c)).
    { unfold ex. rewrite punit_pos by lra.
      replace (pcross y (pscale (/ pnorm x) x)) with (pscale (/ pnorm x) (pcross y x)) by (apply vec_eq; vunf; ring).
      rewrite pdot_scale_r. f_equal. rewrite <- X2. unfold x. assert (L : pdot n (pcross y (pcross n y)) = pdot (pcross n y) (pcross n y)) by (vunf; ring). exact L. }
    rewrite D. assert (N : pnorm x = sqrt (1 - c * c)) by (unfold pnorm; now rewrite X2).
    rewrite N. set (q := sqrt (1 - c * c)). assert (Q : 0 < q) by (apply sqrt_lt_R0; lra).
    assert (QQ : q * q = 1 - c * c) by (apply sqrt_sqrt; lra). rewrite <- QQ.
    replace (/ q * (q * q)) with q by (field; lra). apply Rabs_pos_eq. lra.
Qed.

Section Eval.
  Variables (r : rib R) (a : affine R) (fn : line er -> option (vec3 er * er)).
  Hypothesis (HR : 0 < rb_radius r) (HW : 0 <= rb_width r) (HA : rigid a).
  Let q0 := probe r a (rb_radius r / 10) 0.
  Let q1 := probe r a (- (rb_radius r / 10)) 0.
  Let q2 := probe r a 0 (3 / 10 * rb_width r).
  Let q3 := probe r a 0 (- (3 / 10 * rb_width r)).
  Let c := place a (rb_center r).
  Let y := pcol1 (lin a).

  Lemma probe_lines : sampling_lines (frib r) (fa a) = (down q0, down q1, down q2, down q3).
  Proof.
    rewrite f_lines. unfold down, q0, q1, q2, q3, probe, place.
    repeat match goal with |- (_, _) = (_, _) => f_equal end; f_equal; f_equal; apply vec_eq; munf; field.
  Qed.
  Lemma envelop_none_false : forall o, envelop_none (frib r) (fa a) = (true, o) -> False.
  Proof. intros o H. unfold envelop_none in H. discriminate. Qed.

  Lemma probes_hit : forall g0 g1 g2 g3 b o,
    envelop_sampling_with fn g0 g1 g2 g3 (frib r) (fa a) = (b, o) ->
    (b = false /\ exists q, In q [q0; q1; q2; q3] /\ fn (down q) = None) \/
    (exists h0 h1 h2 h3, fn (down q0) = Some h0 /\ fn (down q1) = Some h1 /\ fn (down q2) = Some h2 /\ fn (down q3) = Some h3).
  Proof.
    intros g0 g1 g2 g3 b o H.
    destruct (fn (down q0)) as [h0|] eqn:E0; [|left].
    destruct (fn (down q1)) as [h1|] eqn:E1; [|left].
    destruct (fn (down q2)) as [h2|] eqn:E2; [|left].
    destruct (fn (down q3)) as [h3|] eqn:E3; [|left].
    - right. exists h0, h1, h2, h3. auto.
    - split; [|exists q3; split; [cbn; tauto|auto]]. unfold envelop_sampling_with in H. rewrite probe_lines in H. unfold sample in H.
      rewrite E0, E1, E2, E3 in H. destruct h0, h1, h2. cbn [andb] in H. destruct b; auto. now apply envelop_none_false in H.
    - split; [|exists q2; split; [cbn; tauto|auto]]. unfold envelop_sampling_with in H. rewrite probe_lines in H. unfold sample in H.
      rewrite E0, E1, E2 in H. destruct h0, h1. cbn [andb] in H. destruct b; auto. now apply envelop_none_false in H.
    - split; [|exists q1; split; [cbn; tauto|auto]]. unfold envelop_sampling_with in H. rewrite probe_lines in H. unfold sample in H.
      rewrite E0, E1 in H. destruct h0. cbn [andb] in H. destruct b; auto. now apply envelop_none_false in H.
    - split; [|exists q0; split; [cbn; tauto|auto]]. unfold envelop_sampling_with in H. rewrite probe_lines in H. unfold sample in H.
      rewrite E0 in H. cbn [andb] in H. destruct b; auto. now apply envelop_none_false in H.
  Qed.

  Lemma probes_eval : forall g0 g1 g2 g3 b o p0 p1 p2 p3 f0 f1 f2 f3,
    fn (down q0) = Some (fv p0, Fin f0) -> fn (down q1) = Some (fv p1, Fin f1) ->
    fn (down q2) = Some (fv p2, Fin f2) -> fn (down q3) = Some (fv p3, Fin f3) ->
    envelop_sampling_with fn g0 g1 g2 g3 (frib r) (fa a) = (b, o) ->
    let p := pscale (/ 4) (padd (padd (padd p0 p1) p2) p3) in
    let n := punit (pcross (psub p0 p1) (psub p2 p3)) in
    (b = true -> exists o', o = fout o' /\ o_point o' = p /\ o_normal o' = n /\
       o_friction o' = (f0 + f1 + f2 + f3) / 4 /\ o_depth o' = sink (rb_radius r) y c n p /\ 0 < o_depth o' /\ is_unit n) /\
    (b = false -> n <> V 0 0 0 -> sink (rb_radius r) y c n p <= 0).
  Proof.
    intros g0 g1 g2 g3 b o p0 p1 p2 p3 f0 f1 f2 f3 E0 E1 E2 E3 H p n.
    assert (UY : is_unit y) by (unfold y; apply HA).
    unfold envelop_sampling_with in H. rewrite probe_lines in H. unfold sample in H. rewrite E0, E1, E2, E3 in H.
    cbn [andb] in H. rewrite !f_center in H.
    change (rb_radius (frib r)) with (Fin (rb_radius r)) in H. change (rb_width (frib r)) with (Fin (rb_width r)) in H.
    change (col1 (lin (fa a))) with (fv y) in H. change (place a (rb_center r)) with c in H.
    pushin H. rewrite !f_div in H by lra. pushin H. rewrite !e_ndiv in H by lra.
    change (pscale (/ 4) (padd (padd (padd p0 p1) p2) p3)) with p in H.
    change (punit (pcross (psub p0 p1) (psub p2 p3))) with n in H.
    rewrite (punit_unit y UY) in H.
    set (d := rb_radius r * _ - _) in H.
    assert (NC : n = V 0 0 0 \/ is_unit n).
    { unfold n. destruct (along_unit (pcross (psub p0 p1) (psub p2 p3))) as [[_ ->]|[U _]]; auto. }
    assert (ND : n <> V 0 0 0 -> d = sink (rb_radius r) y c n p).
    { intros NZ. unfold d, sink. rewrite axle_angle by tauto. reflexivity. }
    destruct (rltb 0 d) eqn:ED; rb.
    - assert (NZ : n <> V 0 0 0).
      { intros Z. unfold d in ED. rewrite Z in ED.
        match type of ED with context [pdot (V 0 0 0) ?w] => replace (pdot (V 0 0 0) w) with 0 in ED by (vunf; ring) end.
        rewrite Rabs_R0, Rmult_0_r in ED. match type of ED with _ < _ - ?x => assert (0 <= x) by apply pnorm_nonneg end. lra. }
      specialize (ND NZ). pose proof (f_equal fst H) as B. apply (f_equal snd) in H. cbn [fst snd] in B, H. subst b.
      split; [|discriminate]. intros _.
      assert (DB : 0 <= d <= 2 * rb_radius r).
      { split; [lra|]. rewrite ND. unfold sink.
        assert (0 <= dist p c) by (unfold dist; apply pnorm_nonneg).
        assert (sqrt (1 - pdot n y * pdot n y) <= 1).
        { rewrite <- sqrt_1 at 2. apply sqrt_le_1_alt. nra. }
        nra. }
      rewrite f_seg_area, f_seg_volume in H by lra. subst o. eexists (Output _ _ _ _ _ _). split; [reflexivity|].
      cbn [o_point o_normal o_friction o_depth]. repeat split; auto. destruct NC; [contradiction|auto].
    - split.
      + intros ->. now apply envelop_none_false in H.
      + intros _ NZ. rewrite <- (ND NZ). exact ED.
  Qed.
End Eval.

Lemma sampling_described : forall gb r a ts gs o, 0 < rb_radius r -> 0 <= rb_width r -> rigid a -> grounds ts gs ->
  envelop gb (frib r) gs (fa a) "sampling" = Ret (true, o) ->
  exists p0 p1 p2 p3 f0 f1 f2 f3 o', probed ts r a p0 p1 p2 p3 f0 f1 f2 f3 /\ o = fout o' /\
    o_point o' = pscale (/ 4) (padd (padd (padd p0 p1) p2) p3) /\
    o_friction o' = (f0 + f1 + f2 + f3) / 4 /\
    is_unit (o_normal o') /\ along (pcross (psub p0 p1) (psub p2 p3)) (o_normal o') /\
    o_depth o' = sink (rb_radius r) (pcol1 (lin a)) (place a (rb_center r)) (o_normal o') (o_point o') /\
    0 < o_depth o'.
Proof.
  intros gb r a ts gs o HR HW HA HG H. apply sam_ret in H. destruct H as (g0 & g1 & g2 & g3 & H). unfold envelop_sampling in H.
  destruct (probes_hit _ _ _ _ _ _ _ _ _ H) as [[? _]|(h0 & h1 & h2 & h3 & E0 & E1 & E2 & E3)]; [discriminate|].
  destruct (roof_found _ _ _ _ HG E0) as (p0 & f0 & -> & R0). destruct (roof_found _ _ _ _ HG E1) as (p1 & f1 & -> & R1).
  destruct (roof_found _ _ _ _ HG E2) as (p2 & f2 & -> & R2). destruct (roof_found _ _ _ _ HG E3) as (p3 & f3 & -> & R3).
  destruct (proj1 (probes_eval _ _ _ HR HA _ _ _ _ _ _ _ _ _ _ _ _ _ _ E0 E1 E2 E3 H) eq_refl) as (o' & -> & P & N & F & D & DP & U).
  exists p0, p1, p2, p3, f0, f1, f2, f3, o'. split; [constructor; auto|]. split; [reflexivity|]. rewrite P, N, F, D.
  repeat split; auto; try apply along_unit. now rewrite <- D.
Qed.
Lemma sampling_missed : forall gb r a ts gs o, 0 < rb_radius r -> 0 <= rb_width r -> rigid a -> grounds ts gs ->
  envelop gb (frib r) gs (fa a) "sampling" = Ret (false, o) ->
  (exists x y, (Rabs x = rb_radius r / 10 /\ y = 0 \/ x = 0 /\ Rabs y = 3 / 10 * rb_width r) /\ roofless ts (probe r a x y)) \/
  exists p0 p1 p2 p3 f0 f1 f2 f3, probed ts r a p0 p1 p2 p3 f0 f1 f2 f3 /\
    forall n, along (pcross (psub p0 p1) (psub p2 p3)) n -> is_unit n ->
    sink (rb_radius r) (pcol1 (lin a)) (place a (rb_center r)) n (pscale (/ 4) (padd (padd (padd p0 p1) p2) p3)) <= 0.
Proof.
  intros gb r a ts gs o HR HW HA HG H. apply sam_ret in H. destruct H as (g0 & g1 & g2 & g3 & H). unfold envelop_sampling in H.
  destruct (probes_hit _ _ _ _ _ _ _ _ _ H) as [[_ (q & Hq & E)]|(h0 & h1 & h2 & h3 & E0 & E1 & E2 & E3)].
  - left. apply (roof_missing ts) in E; auto.
    assert (A1 : Rabs (rb_radius r / 10) = rb_radius r / 10) by (apply Rabs_pos_eq; lra).
    assert (A2 : Rabs (3 / 10 * rb_width r) = 3 / 10 * rb_width r) by (apply Rabs_pos_eq; lra).
    destruct Hq as [<-|[<-|[<-|[<-|[]]]]]; do 2 eexists; (split; [|exact E]); rewrite ?Rabs_Ropp; auto.
  - right. destruct (roof_found _ _ _ _ HG E0) as (p0 & f0 & -> & R0). destruct (roof_found _ _ _ _ HG E1) as (p1 & f1 & -> & R1).
    destruct (roof_found _ _ _ _ HG E2) as (p2 & f2 & -> & R2). destruct (roof_found _ _ _ _ HG E3) as (p3 & f3 & -> & R3).
    exists p0, p1, p2, p3, f0, f1, f2, f3. split; [constructor; auto|]. intros n AL U.
    rewrite (along_fun _ _ _ AL (along_unit _)).
    apply (proj2 (probes_eval _ _ _ HR HA _ _ _ _ _ _ _ _ _ _ _ _ _ _ E0 E1 E2 E3 H) eq_refl).
    rewrite <- (along_fun _ _ _ AL (along_unit _)). intros ->. unfold is_unit in U. vunf. lra.
Qed.
