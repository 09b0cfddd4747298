(** * Frame independence of the geometric method on triangles. *)
From Coq Require Import ZArith Bool Reals Lra Lia List.
From Verif Require Import Base Num Vec Aabb Geom Ground Rib ER SpecGeom SpecRib SpecAvg SpecCut SpecFrame.
From Verif Require Import ProofGeom ProofInt ProofTri ProofSegArea ProofFlat ProofSample ProofAvg ProofMeshGeo ProofMeshEval ProofChord ProofCut ProofFrame ProofFrameMesh.
Import ListNotations.
Local Open Scope R_scope.

Section Cut.
  Variable m : affine R.
  Hypothesis HM : rigid m.
  Let Q := lin m.
  Definition carry_disk (d : disk R) : disk R := Disk (dradius d) (carry_plane m (dplane d)).
  Definition cut_res (r r' : outcome (option (segment er))) : Prop :=
    (r = Ret None /\ r' = Ret None) \/ exists s, r = Ret (Some (fseg s)) /\ r' = Ret (Some (fseg (carry_seg m s))).

  Lemma seg_moved : forall p t tol l l', 0 < tol -> clear tol p t -> 0 < pdot (tri_cross t) (tri_cross t) ->
    (forall q, on_line l q <-> on_plane p q /\ on_plane (rtri_plane t) q) ->
    ldir l = pcross (pnormal p) (punit (tri_cross t)) -> line_moved m l l' ->
    cut_res (int_line_triangle_seg (fline l) (ftri t) (Fin tol))
            (int_line_triangle_seg (fline l') (ftri (carry_triangle m t)) (Fin tol)).
  Proof.
    intros p t tol l l' Ht CL HC HL HD HLM. unfold int_line_triangle_seg.
    change (tri_edge0 (ftri t)) with (fseg (Segment (tv0 t) (tv1 t))). change (tri_edge1 (ftri t)) with (fseg (Segment (tv1 t) (tv2 t))).
    change (tri_edge2 (ftri t)) with (fseg (Segment (tv2 t) (tv0 t))).
    change (tri_edge0 (ftri (carry_triangle m t))) with (fseg (carry_seg m (Segment (tv0 t) (tv1 t)))).
    change (tri_edge1 (ftri (carry_triangle m t))) with (fseg (carry_seg m (Segment (tv1 t) (tv2 t)))).
    change (tri_edge2 (ftri (carry_triangle m t))) with (fseg (carry_seg m (Segment (tv2 t) (tv0 t)))).
    set (h0 := height p (tv0 t)). set (h1 := height p (tv1 t)). set (h2 := height p (tv2 t)).
    pose proof (clear_nz t p tol CL _ (V0 t)) as N0. pose proof (clear_nz t p tol CL _ (V1 t)) as N1.
    pose proof (clear_nz t p tol CL _ (V2 t)) as N2. fold h0 in N0. fold h1 in N1. fold h2 in N2.
    pose proof (V0 t) as v0. pose proof (V1 t) as v1. pose proof (V2 t) as v2.
    assert (P : 0 < h0 * h1 \/ 0 < h1 * h2 \/ 0 < h2 * h0).
    { destruct (Rlt_dec h0 0), (Rlt_dec h1 0), (Rlt_dec h2 0);
        first [left; nra | right; left; nra | right; right; nra]. }
    destruct (line_seg_moved m HM l l' (Segment (tv0 t) (tv1 t)) tol Ht HLM) as [[A0 B0]|(q0 & A0 & B0)],
             (line_seg_moved m HM l l' (Segment (tv1 t) (tv2 t)) tol Ht HLM) as [[A1 B1]|(q1 & A1 & B1)],
             (line_seg_moved m HM l l' (Segment (tv2 t) (tv0 t)) tol Ht HLM) as [[A2 B2]|(q2 & A2 & B2)];
      rewrite ?A0, ?A1, ?A2, ?B0, ?B1, ?B2;
      try (left; split; reflexivity);
      try (right; match goal with |- exists _, Ret (Some (Segment (fv ?a) (fv ?b))) = _ /\ _ =>
             exists (Segment a b); split; reflexivity end).
    exfalso.
    destruct P as [P|[P|P]]; eapply (same_side t p tol Ht CL l HC HL HD) in P; eauto; congruence.
  Qed.

  Lemma plane_tri_moved : forall p t tol, 0 < tol -> is_unit (pnormal p) -> clear tol p t ->
    cut_res (int_plane_triangle (fplane p) (ftri t) (Fin tol))
            (int_plane_triangle (fplane (carry_plane m p)) (ftri (carry_triangle m t)) (Fin tol)).
  Proof.
    intros p t tol Ht HU CL. unfold int_plane_triangle.
    destruct (Rle_lt_or_eq_dec 0 _ (pdot_pos (tri_cross t))) as [Hn|Hn].
    2:{ left. rewrite !plane_tri_degenerate; auto. symmetry.
        change (0 = pdot (tri_cross (carry_triangle m t)) (tri_cross (carry_triangle m t))).
        rewrite tri_cross_moved, q_dot by auto. exact Hn. }
    rewrite !f_tri_plane, tri_plane_moved by auto.
    assert (U1 : is_unit (pnormal (rtri_plane t))) by now apply tri_plane_unit.
    assert (UC : is_unit (pnormal (carry_plane m p))) by now apply q_is_unit.
    assert (UC1 : is_unit (pnormal (carry_plane m (rtri_plane t)))) by now apply q_is_unit.
    destruct (int_plane_plane (fplane p) (fplane (rtri_plane t)) (Fin tol)) as [l|] eqn:E,
             (int_plane_plane (fplane (carry_plane m p)) (fplane (carry_plane m (rtri_plane t))) (Fin tol)) as [l'|] eqn:E'.
    - apply plane_plane_sound in E; auto. apply plane_plane_sound in E'; auto.
      destruct E as (k & -> & D & T & L), E' as (k' & -> & D' & T' & L').
      apply (seg_moved p t tol k k'); auto.
      apply (line_planes_moved m HM p (rtri_plane t)); auto; [lra|].
      rewrite D', D. cbn [carry_plane pnormal]. unfold Q. now rewrite q_cross.
    - exfalso. apply plane_plane_none in E'; auto. apply plane_plane_sound in E; auto.
      destruct E as (k & -> & D & T & L). cbn [carry_plane pnormal] in E'. rewrite q_cross, q_dot in E' by auto. rewrite D in T. lra.
    - exfalso. apply plane_plane_none in E; auto. apply plane_plane_sound in E'; auto.
      destruct E' as (k & -> & D & T & L). rewrite D in T. cbn [carry_plane pnormal] in T. rewrite q_cross, q_dot in T by auto. lra.
    - now left.
  Qed.

  Lemma foot_moved : forall o d c, foot (Line (place m o) (papply Q d)) (place m c) = place m (foot (Line o d) c).
  Proof. intros. unfold foot. cbn [lorigin ldir]. rewrite place_sub. unfold Q. rewrite !q_dot by auto. now rewrite place_add, apply_scale. Qed.
  Lemma chord2_moved : forall s d, chord2 (seg_line (carry_seg m s)) (carry_disk d) = chord2 (seg_line s) d.
  Proof.
    intros s d. unfold chord2, seg_line, carry_disk, carry_seg, carry_plane. cbn [sv0 sv1 ldir lorigin dradius dplane porigin].
    rewrite place_sub. fold Q. rewrite foot_moved, q_dist by auto. unfold Q. now rewrite q_dot.
  Qed.
  Lemma seg_disk_moved : forall s d tol, 0 < tol -> 0 <= dradius d -> is_unit (pnormal (dplane d)) ->
    (int_segment_disk (fseg s) (fdisk d) (Fin tol) = None /\
     int_segment_disk (fseg (carry_seg m s)) (fdisk (carry_disk d)) (Fin tol) = None) \/
    exists s', int_segment_disk (fseg s) (fdisk d) (Fin tol) = Some (fseg s') /\
     int_segment_disk (fseg (carry_seg m s)) (fdisk (carry_disk d)) (Fin tol) = Some (fseg (carry_seg m s')).
  Proof.
    intros s d tol Ht Hr HU. rewrite !segment_disk_eval by auto. rewrite chord2_moved.
    cbn [carry_seg carry_disk carry_plane sv0 sv1 dradius dplane porigin pnormal].
    set (L := seg_line (carry_seg m s)). set (L0 := seg_line s).
    assert (LO : lorigin L = place m (lorigin L0)) by reflexivity.
    assert (LD : ldir L = papply Q (ldir L0)) by (unfold L, L0, seg_line; cbn [carry_seg sv0 sv1 ldir]; now rewrite place_sub).
    rewrite LO, LD, place_sub. unfold Q. rewrite q_dist, q_norm, !q_dot by auto. fold Q.
    assert (P : forall k, padd (place m (lorigin L0)) (pscale k (papply Q (ldir L0))) = place m (padd (lorigin L0) (pscale k (ldir L0))))
      by (intros k; now rewrite place_add, apply_scale).
    rewrite !P. clearbody L L0.
    repeat match goal with |- context [if ?c then None else _] => destruct c; [now left|] | |- context [if ?c then _ else _] => destruct c end;
      right; eexists; split; reflexivity.
  Qed.
  Lemma tri_disk_moved : forall t d tol, 0 < tol -> 0 <= dradius d -> is_unit (pnormal (dplane d)) -> clear tol (dplane d) t ->
    cut_res (int_triangle_disk (ftri t) (fdisk d) (Fin tol))
            (int_triangle_disk (ftri (carry_triangle m t)) (fdisk (carry_disk d)) (Fin tol)).
  Proof.
    intros t d tol Ht Hr HU CL. unfold int_triangle_disk.
    change (dplane (fdisk d)) with (fplane (dplane d)). change (dplane (fdisk (carry_disk d))) with (fplane (carry_plane m (dplane d))).
    destruct (plane_tri_moved (dplane d) t tol Ht HU CL) as [[-> ->]|(s & -> & ->)]; cbn [obind]; [now left|].
    destruct (seg_disk_moved s d tol Ht Hr HU) as [[-> ->]|(s' & -> & ->)]; [now left|right; eauto].
  Qed.
  Lemma disk_moved : forall r a, posed_disk r (after m a) = carry_disk (posed_disk r a).
  Proof.
    intros r a. unfold posed_disk, carry_disk, carry_plane. cbn [dradius dplane porigin pnormal]. now rewrite after_place, after_lin.
  Qed.

  (** ** One contribution. *)
  Section Contrib.
    Variables (r : rib R) (a : affine R).
    Let a' := after m a.
    Lemma in_rib_cols : forall b p, in_rib r b p =
      V (pdot (pcol0 (lin b)) (psub p (place b (rb_center r)))) (pdot (pcol1 (lin b)) (psub p (place b (rb_center r))))
        (pdot (pcol2 (lin b)) (psub p (place b (rb_center r)))).
    Proof. intros b p. unfold in_rib. set (w := psub _ _). unfold ptrans. apply vec_eq; munf; ring. Qed.
    Lemma in_rib_moved : forall p, in_rib r a' (place m p) = in_rib r a p.
    Proof.
      intros p. rewrite !in_rib_cols. unfold a'. rewrite after_place, place_sub, after_col0, after_col1, after_col2.
      rewrite !q_dot by auto. reflexivity.
    Qed.
    Lemma ang_moved : forall p, ang r a' (place m p) = ang r a p.
    Proof. intros. unfold ang. now rewrite in_rib_moved. Qed.
    Lemma rad_moved : forall p, rad_at r a' (place m p) = rad_at r a p.
    Proof. intros. unfold rad_at. now rewrite in_rib_moved. Qed.
    Lemma lo_moved : forall s, lo_ang r a' (carry_seg m s) = lo_ang r a s.
    Proof. intros. unfold lo_ang. cbn [carry_seg sv0 sv1]. now rewrite !ang_moved. Qed.
    Lemma hi_moved : forall s, hi_ang r a' (carry_seg m s) = hi_ang r a s.
    Proof. intros. unfold hi_ang. cbn [carry_seg sv0 sv1]. now rewrite !ang_moved. Qed.
    Lemma half_moved : forall s, half_ang r a' (carry_seg m s) = half_ang r a s.
    Proof. intros. unfold half_ang. now rewrite lo_moved, hi_moved. Qed.
    Lemma mid_moved : forall s, mid_ang r a' (carry_seg m s) = mid_ang r a s.
    Proof. intros. unfold mid_ang. now rewrite lo_moved, hi_moved. Qed.
    Lemma radc_moved : forall s, rad_c r a' (carry_seg m s) = rad_c r a s.
    Proof. intros. unfold rad_c. rewrite half_moved. cbn [carry_seg sv0 sv1]. now rewrite !rad_moved. Qed.
    Lemma dropped_moved : forall s, dropped r a' (carry_seg m s) = dropped r a s.
    Proof. intros. unfold dropped. rewrite lo_moved, hi_moved. cbn [carry_seg sv0 sv1]. now rewrite q_dist. Qed.
    Lemma contribution_moved : forall n f s,
      contribution r a' (papply Q n) f (carry_seg m s) = carry_out m (contribution r a n f s).
    Proof.
      intros n f s. unfold contribution, carry_out. cbn [o_point o_normal o_friction o_depth o_area o_volume]. f_equal.
      - unfold c_point. rewrite radc_moved, mid_moved. unfold a'. now rewrite after_place.
      - unfold c_normal. cbv zeta. rewrite mid_moved. unfold a'. rewrite !after_lin. fold Q. rewrite <- apply_sub. unfold Q. rewrite q_dot by auto.
        rewrite <- apply_scale, <- apply_add. now rewrite q_unit.
      - unfold c_area. cbn [carry_seg sv0 sv1]. now rewrite q_dist.
      - unfold c_volume. rewrite half_moved, hi_moved, lo_moved. cbn [carry_seg sv0 sv1]. now rewrite !rad_moved.
    Qed.
    Lemma up_moved : keeps_vertical m -> forall t, up_normal (carry_triangle m t) = papply Q (up_normal t).
    Proof.
      intros HV t. unfold up_normal. rewrite tri_cross_moved by auto. unfold Q. rewrite q_unit, q_vz by auto.
      destruct (rltb _ 0); auto. now rewrite apply_scale.
    Qed.

    (** ** The loop and the mean. *)
    Hypothesis HV : keeps_vertical m.
    Hypothesis HR : good_rib r.
    Hypothesis HA : rigid a.
    Lemma loop_moved : forall ts gs gs', grounds ts gs -> grounds (carry_ground m ts) gs' ->
      (forall tf, In tf ts -> clear eps (dplane (posed_disk r a)) (fst tf)) ->
      forall b cs, (forall c, In c cs -> 0 <= o_volume c) -> exists b' cs', (forall c, In c cs' -> 0 <= o_volume c) /\
        geo_loop (frib r) (fa a) gs (sums b cs) = Ret (sums b' cs') /\
        geo_loop (frib r) (fa a') gs' (sums b (map (carry_out m) cs)) = Ret (sums b' (map (carry_out m) cs')).
    Proof.
      intros ts gs gs' H. revert gs'. induction H as [|[t f] g ts gs HG H IH]; intros gs' H' CL b cs NN; cbn [carry_ground map] in H'; inversion H'; subst.
      - exists b, cs. auto.
      - cbn [fst snd] in *. rename y into g'. pose proof HG as G1. pose proof H2 as G2. apply ground_of_fields in G1. apply ground_of_fields in G2.
        destruct G1 as (E1 & E2 & E3 & _), G2 as (E1' & E2' & E3' & _).
        cbn [geo_loop]. rewrite neps_eps, E1, E1', !f_disk. unfold a' at 1. rewrite disk_moved.
        pose proof HR as (Hr & _ & _).
        destruct (tri_disk_moved t (posed_disk r a) eps eps_pos) as [[-> ->]|(s & -> & ->)]; cbn [obind].
        { unfold posed_disk. cbn [dradius]. lra. }
        { unfold posed_disk. cbn [dplane pnormal]. now apply posed_unit. }
        { apply (CL (t, f)). now left. }
        + apply IH; auto. intros; apply CL; now right.
        + rewrite (contrib_eval r a g s _ f b cs E3 E2), (contrib_eval r a' g' (carry_seg m s) _ f b _ E3' E2'), dropped_moved.
          destruct (dropped r a s) eqn:ED; [exists b, cs; auto|].
          rewrite up_moved, contribution_moved by auto.
          replace (map (carry_out m) cs ++ [carry_out m (contribution r a (up_normal t) f s)]) with
                  (map (carry_out m) (cs ++ [contribution r a (up_normal t) f s])) by now rewrite map_app.
          apply IH; auto. { intros; apply CL; now right. }
          intros c Hc. apply in_app_or in Hc. destruct Hc as [Hc|[<-|[]]]; auto.
          cbn [contribution o_volume]. now apply c_volume_nonneg.
    Qed.
    Lemma total_map : forall A B (h : A -> B) (f : B -> R) l, total f (map h l) = total (fun x => f (h x)) l.
    Proof. induction l; cbn; congruence. Qed.
    Lemma carry_sum : forall cs, vtotal (fun o => pscale (o_volume o) (o_point o)) (map (carry_out m) cs) =
      padd (papply Q (vtotal (fun o => pscale (o_volume o) (o_point o)) cs)) (pscale (total o_volume cs) (tra m)).
    Proof.
      induction cs as [|c cs IH]; [cbn [map]; unfold vtotal; cbn [total]; apply vec_eq; vunf; ring|].
      assert (S : forall (f : output R -> pt) x l, vtotal f (x :: l) = padd (f x) (vtotal f l)) by reflexivity.
      cbn [map]. rewrite !S, IH, apply_add, apply_scale. cbn [total carry_out o_volume o_point].
      generalize (vtotal (fun o => pscale (o_volume o) (o_point o)) cs) (total o_volume cs). intros v w.
      unfold place. fold Q. generalize (papply Q v) (papply Q (o_point c)). intros x y. apply vec_eq; vunf; ring.
    Qed.
    Lemma carry_nsum : forall cs, vtotal (fun o => pscale (o_volume o) (o_normal o)) (map (carry_out m) cs) =
      papply Q (vtotal (fun o => pscale (o_volume o) (o_normal o)) cs).
    Proof.
      induction cs as [|c cs IH]; [cbn [map]; unfold vtotal; cbn [total]; apply vec_eq; vunf; ring|].
      assert (S : forall (f : output R -> pt) x l, vtotal f (x :: l) = padd (f x) (vtotal f l)) by reflexivity.
      cbn [map]. rewrite !S, IH, apply_add, apply_scale. reflexivity.
    Qed.
    Lemma mean_moved : forall cs, total o_volume cs <> 0 -> mean_of r a' (map (carry_out m) cs) = carry_out m (mean_of r a cs).
    Proof.
      intros cs H. unfold mean_of. rewrite carry_sum, carry_nsum. rewrite !total_map. cbn [carry_out o_volume o_area o_friction].
      set (v := total o_volume cs) in *. change (total (fun x => o_volume x) cs) with v.
      set (w := vtotal _ cs). set (u := vtotal _ cs).
      assert (P : pscale (/ v) (padd (papply Q w) (pscale v (tra m))) = place m (pscale (/ v) w)).
      { unfold place. fold Q. rewrite apply_scale. generalize (papply Q w). intros x. apply vec_eq; vunf; field; auto. }
      rewrite P, <- apply_scale. unfold Q. rewrite q_unit by auto. unfold a'. rewrite after_place, q_dist by auto.
      unfold carry_out. cbn [o_point o_normal o_friction o_depth o_area o_volume]. reflexivity.
    Qed.
    Theorem mesh_geo_carried : forall ts gs gs', grounds ts gs -> grounds (carry_ground m ts) gs' ->
      (forall tf, In tf ts -> clear eps (dplane (posed_disk r a)) (fst tf)) ->
      exists b o o', envelop_geometric (frib r) gs (fa a) = Ret (b, o) /\
        envelop_geometric (frib r) gs' (fa a') = Ret (b, o') /\ carried m o o'.
    Proof.
      intros ts gs gs' HG HG' CL.
      destruct (loop_moved ts gs gs' HG HG' CL false [] ltac:(intros c [])) as (b & cs & NN & L & L').
      unfold envelop_geometric. cbn [map] in L'. rewrite sums0, L, L'. cbn [obind].
      destruct (none_carried m r a) as (no & N & N').
      assert (VM : total o_volume (map (carry_out m) cs) = total o_volume cs) by now rewrite total_map.
      assert (AM : total o_area (map (carry_out m) cs) = total o_area cs) by now rewrite total_map.
      destruct (Req_dec (total o_volume cs) 0) as [Z|NZ].
      - assert (ZP : forall l, (forall c, In c l -> 0 <= o_volume c) -> total o_volume l = 0 ->
            vtotal (fun o => pscale (o_volume o) (o_point o)) l = V 0 0 0 /\
            vtotal (fun o => pscale (o_volume o) (o_normal o)) l = V 0 0 0 /\
            total (fun o => o_friction o * o_volume o) l = 0).
        { intros l Hl Hz. unfold vtotal. repeat split; [f_equal; apply zero_total| f_equal; apply zero_total|apply zero_total]; auto;
            intros c Hc; rewrite Hc; vunf; ring. }
        assert (NN' : forall c, In c (map (carry_out m) cs) -> 0 <= o_volume c).
        { intros c Hc. apply in_map_iff in Hc. destruct Hc as (x & <- & Hx). exact (NN x Hx). }
        destruct (ZP cs NN Z) as (Z1 & Z2 & Z3). destruct (ZP _ NN' ltac:(congruence)) as (Z1' & Z2' & Z3').
        unfold sums. cbn [ga_int ga_area ga_volume ga_point ga_normal ga_friction].
        rewrite VM, AM, Z1, Z2, Z3, Z1', Z2', Z3', Z.
        assert (D : ndiv (Fin 0) (Fin 0) = Nan).
        { cbn [ndiv ER_Num ediv]. replace (reqb 0 0) with true; [reflexivity|]. symmetry. now apply reqb_true. }
        assert (DV : vdiv (fv (V 0 0 0)) (Fin 0) = V Nan Nan Nan).
        { unfold vdiv, fv. cbn [vx vy vz]. now rewrite D. }
        rewrite D, DV. destruct (b && _).
        + do 3 eexists. split; [reflexivity|]. split; [reflexivity|]. right. split; [|split; reflexivity].
          f_equal.
        + exists false, (fout no), (fout (carry_out m no)). rewrite N. fold a' in N'. rewrite N'. split; [auto|]. split; [auto|]. left. eauto.
      - pose proof (finish_pos r a b cs NZ) as F. cbv zeta in F. rewrite F.
        pose proof (finish_pos r a' b (map (carry_out m) cs) ltac:(congruence)) as F'. cbv zeta in F'. rewrite F'.
        rewrite VM, AM. destruct (b && _).
        + rewrite mean_moved by auto. do 3 eexists. split; [reflexivity|]. split; [reflexivity|]. left. eauto.
        + exists false, (fout no), (fout (carry_out m no)). rewrite N. fold a' in N'. rewrite N'. split; [auto|]. split; [auto|]. left. eauto.
    Qed.
  End Contrib.
End Cut.
