(** * Frame independence: the two sampled grounds and the geometric method on
    triangles. *)
From Coq Require Import ZArith Bool Reals Lra Lia List.
From Verif Require Import Base Num Vec Aabb Geom Ground Rib ER SpecGeom SpecRib SpecAvg SpecCut SpecFrame.
From Verif Require Import ProofGeom ProofInt ProofTri ProofSegArea ProofFlat ProofSample ProofAvg ProofMeshGeo ProofChord ProofCut ProofFrame.
Import ListNotations.
Local Open Scope R_scope.

Lemma down_line : forall p, down p = fline (Line p (V 0 0 (-1))).
Proof. intros. unfold down, fline. cbn [lorigin ldir]. f_equal. unfold vopp, unit_z, fv. cbn. f_equal; f_equal; ring. Qed.

Section Sampled.
  Variable m : affine R.
  Hypothesis HM : rigid m.
  Hypothesis HV : keeps_vertical m.
  Let Q := lin m.

  Lemma q_down : papply Q (V 0 0 (-1)) = V 0 0 (-1).
  Proof.
    transitivity (papply Q (pscale (-1) (V 0 0 1))); [apply vec_eq; munf; ring|].
    rewrite apply_scale. unfold Q. rewrite HV. apply vec_eq; vunf; ring.
  Qed.
  Lemma flat_match : forall gp f p,
    hits_match m (sampling_line_flat (fflat gp f) (down p)) (sampling_line_flat (fflat (carry_plane m gp) f) (down (place m p))).
  Proof.
    intros gp f p. rewrite !down_line. unfold sampling_line_flat, int_line_plane, fflat. cbn [fl_plane fl_friction].
    rewrite neps_eps. unfold fplane, fline. cbn [lorigin ldir pnormal porigin carry_plane]. push.
    rewrite place_sub. fold Q.
    assert (D : pdot (papply Q (pnormal gp)) (V 0 0 (-1)) = pdot (pnormal gp) (V 0 0 (-1))).
    { rewrite <- q_down at 1. unfold Q. now rewrite q_dot. }
    rewrite D. set (det := pdot (pnormal gp) (V 0 0 (-1))).
    destruct (rltb eps (Rabs det)) eqn:E; [|now left]. rb. right.
    assert (NZ : det <> 0) by (intros Z; rewrite Z, Rabs_R0 in E; pose proof eps_pos; lra).
    unfold Q. rewrite q_dot by auto. fold Q.
    rewrite !e_ndiv by auto. push. do 2 eexists. split; [reflexivity|].
    do 3 f_equal. rewrite place_add, apply_scale. fold Q. now rewrite q_down.
  Qed.

  Lemma line_tri_match : forall t p d,
    (int_line_triangle (fline (Line p d)) (ftri t) (Fin eps) = None /\
     int_line_triangle (fline (Line (place m p) (papply Q d))) (ftri (carry_triangle m t)) (Fin eps) = None) \/
    exists q, int_line_triangle (fline (Line p d)) (ftri t) (Fin eps) = Some (fv q) /\
     int_line_triangle (fline (Line (place m p) (papply Q d))) (ftri (carry_triangle m t)) (Fin eps) = Some (fv (place m q)).
  Proof.
    intros t p d. rewrite !line_triangle_eval by apply eps_pos.
    cbn [carry_triangle tv0 tv1 tv2 lorigin ldir]. rewrite !place_sub. unfold Q. rewrite !q_cross, !q_dot by auto.
    match goal with |- context [if ?c then None else _] => destruct c; [now left|] end.
    match goal with |- context [if ?c then None else _] => destruct c; [now left|] end.
    match goal with |- context [if ?c then None else _] => destruct c; [now left|] end.
    right. eexists. split; [reflexivity|]. rewrite place_add, apply_scale. reflexivity.
  Qed.
  Definition hit_moved (h h' : vec3 er * er) : Prop := exists p f, h = (fv p, Fin f) /\ h' = (fv (place m p), Fin f).
  Lemma hits_moved : forall ts gs gs' p, grounds ts gs -> grounds (carry_ground m ts) gs' ->
    Forall2 hit_moved (sampling_hits gs (down p)) (sampling_hits gs' (down (place m p))).
  Proof.
    intros ts gs gs' p H. revert gs'. induction H as [|[t f] g ts gs HG H IH]; intros gs' H'; cbn [carry_ground map] in H'; inversion H'; subst.
    - constructor.
    - cbn [fst snd] in *. apply ground_of_fields in HG. apply ground_of_fields in H2.
      destruct HG as (E1 & E2 & _), H2 as (E1' & E2' & _). unfold sampling_hits. cbn [flat_map].
      rewrite neps_eps, E1, E1', E2, E2'. apply Forall2_app; [|apply IH; auto].
      replace (down (place m p)) with (fline (Line (place m p) (papply Q (V 0 0 (-1))))) by now rewrite q_down, down_line.
      rewrite down_line. destruct (line_tri_match t p (V 0 0 (-1))) as [[-> ->]|(q & -> & ->)]; constructor; [|constructor].
      exists q, f. auto.
  Qed.
  Lemma highest_moved : forall hs hs', Forall2 hit_moved hs hs' -> forall h h', hit_moved h h' ->
    hit_moved (fold_left higher hs h) (fold_left higher hs' h').
  Proof.
    intros hs hs' H. induction H as [|x x' hs hs' HX H IH]; intros h h' HH; cbn [fold_left]; auto.
    apply IH. destruct HX as (p & f & -> & ->), HH as (q & g & -> & ->). unfold higher. cbn [fst].
    change (vz (fv ?a)) with (Fin (vz a)). rewrite !e_lt, !(place_vz m HM HV).
    replace (rltb (vz (tra m) + vz q) (vz (tra m) + vz p)) with (rltb (vz q) (vz p)).
    2:{ destruct (rltb (vz q) (vz p)) eqn:E; symmetry; rb; [apply rltb_true|apply rltb_false]; lra. }
    destruct (rltb (vz q) (vz p)); [exists p, f|exists q, g]; auto.
  Qed.
  Lemma mesh_match : forall ts gs gs' p, grounds ts gs -> grounds (carry_ground m ts) gs' ->
    hits_match m (sampling_line gs (down p)) (sampling_line gs' (down (place m p))).
  Proof.
    intros ts gs gs' p H H'. pose proof (hits_moved ts gs gs' p H H') as F. unfold sampling_line.
    inversion F as [|h h' hs hs' HH HF]; subst; [now left|]. right.
    destruct (highest_moved hs hs' HF h h' HH) as (q & f & -> & ->). eauto.
  Qed.
End Sampled.

(** ** The cut of a triangle. *)
Lemma line_segment_eval : forall l s tol, 0 < tol ->
  let d0 := ldir l in let d1 := psub (sv1 s) (sv0 s) in let w := psub (sv0 s) (lorigin l) in let a0 := pcross d0 d1 in
  int_line_segment (fline l) (fseg s) (Fin tol) =
  if rltb (pnorm (pcross d0 (punit d1))) tol then None else
  let t1 := pdot (pcross w d0) a0 / pdot a0 a0 in
  if rltb t1 (0 - tol) || rltb (1 + tol) t1 then None
  else Some (fv (padd (lorigin l) (pscale (pdot (pcross w d1) a0 / pdot a0 a0) d0))).
Proof.
  intros l s tol Ht d0 d1 w a0. unfold int_line_segment.
  unfold line_seg_parallel, vec_parallel, seg_unit_vector, seg_vector, fline, fseg.
  cbn [lorigin ldir sv0 sv1]. push. rewrite f_approx0. fold d0 d1. fold w.
  rewrite Rabs_pos_eq by apply pnorm_nonneg.
  destruct (rltb (pnorm (pcross d0 (punit d1))) tol) eqn:E; [reflexivity|]. cbn [negb]. rb.
  fold a0.
  assert (HA : pdot a0 a0 <> 0).
  { intros Z. apply pdot_zero in Z. assert (Z2 : pcross d0 (punit d1) = V 0 0 0).
    { unfold punit. destruct (rltb _ _); [rewrite pcross_scale_r; fold a0; rewrite Z; apply vec_eq; vunf; ring|exact Z]. }
    rewrite Z2 in E. unfold pnorm in E. replace (pdot (V 0 0 0) (V 0 0 0)) with 0 in E by (vunf; ring). rewrite sqrt_0 in E. lra. }
  assert (EO : pdot (pscale (-1) a0) (pscale (-1) a0) = pdot a0 a0) by (clearbody a0; vunf; ring).
  rewrite EO, !e_ndiv by auto. push.
  replace (pdot (pcross (psub (lorigin l) (sv0 s)) d0) (pscale (-1) a0)) with (pdot (pcross w d0) a0)
    by (unfold w; clearbody a0 d0; vunf; ring).
  reflexivity.
Qed.

Section CutMoved.
  Variable m : affine R.
  Hypothesis HM : rigid m.
  Let Q := lin m.
  Definition carry_seg (s : segment R) : segment R := Segment (place m (sv0 s)) (place m (sv1 s)).
  (** A line carried by the motion and slid along itself. *)
  Definition line_moved (l l' : line R) : Prop :=
    ldir l' = papply Q (ldir l) /\ exists k, lorigin l' = padd (place m (lorigin l)) (pscale k (ldir l')).
  Definition seg_res (r r' : option (segment er)) : Prop :=
    (r = None /\ r' = None) \/ exists s, r = Some (fseg s) /\ r' = Some (fseg (carry_seg s)).

  Lemma line_seg_moved : forall l l' s tol, 0 < tol -> line_moved l l' ->
    (int_line_segment (fline l) (fseg s) (Fin tol) = None /\ int_line_segment (fline l') (fseg (carry_seg s)) (Fin tol) = None) \/
    exists q, int_line_segment (fline l) (fseg s) (Fin tol) = Some (fv q) /\
      int_line_segment (fline l') (fseg (carry_seg s)) (Fin tol) = Some (fv (place m q)).
  Proof.
    intros l l' s tol Ht [D [k O]]. rewrite !line_segment_eval by auto. cbv zeta.
    cbn [carry_seg sv0 sv1]. rewrite place_sub. rewrite D. fold Q.
    set (d0 := ldir l) in *. set (d1 := psub (sv1 s) (sv0 s)). set (w := psub (sv0 s) (lorigin l)).
    assert (W : psub (place m (sv0 s)) (lorigin l') = papply Q (psub w (pscale k d0))).
    { rewrite O, D. unfold w. rewrite apply_sub, <- (place_sub m), apply_scale. fold Q d0. apply vec_eq; vunf; ring. }
    rewrite W. unfold Q. rewrite q_unit, !q_cross, q_norm, !q_dot by auto. fold Q.
    replace (pcross (psub w (pscale k d0)) d0) with (pcross w d0) by (clearbody d0 w; apply vec_eq; vunf; ring).
    destruct (rltb (pnorm (pcross d0 (punit d1))) tol) eqn:E; [now left|].
    set (a0 := pcross d0 d1).
    destruct (rltb (pdot (pcross w d0) a0 / pdot a0 a0) (0 - tol) || _); [now left|]. right.
    eexists. split; [reflexivity|]. rb.
    assert (HA : pdot a0 a0 <> 0).
    { intros Z. apply pdot_zero in Z. assert (Z2 : pcross d0 (punit d1) = V 0 0 0).
      { unfold punit. destruct (rltb _ _); [rewrite pcross_scale_r; fold a0; rewrite Z; apply vec_eq; vunf; ring|exact Z]. }
      rewrite Z2 in E. unfold pnorm in E. replace (pdot (V 0 0 0) (V 0 0 0)) with 0 in E by (vunf; ring). rewrite sqrt_0 in E. lra. }
    do 2 f_equal. rewrite O, D, place_add, apply_scale. fold Q d0.
    replace (pdot (pcross (psub w (pscale k d0)) d1) a0) with (pdot (pcross w d1) a0 - k * pdot a0 a0)
      by (unfold a0; clearbody d0 d1 w; vunf; ring).
    replace ((pdot (pcross w d1) a0 - k * pdot a0 a0) / pdot a0 a0) with (pdot (pcross w d1) a0 / pdot a0 a0 - k) by (field; auto).
    set (x := _ / _). apply vec_eq; vunf; ring.
  Qed.

  Lemma tri_cross_moved : forall t, tri_cross (carry_triangle m t) = papply Q (tri_cross t).
  Proof. intros t. unfold tri_cross. cbn [carry_triangle tv0 tv1 tv2]. rewrite !place_sub. unfold Q. now rewrite q_cross. Qed.
  Lemma tri_plane_moved : forall t, rtri_plane (carry_triangle m t) = carry_plane m (rtri_plane t).
  Proof.
    intros t. unfold rtri_plane, carry_plane. rewrite tri_cross_moved. cbn [porigin pnormal]. unfold Q. rewrite q_unit by auto.
    f_equal. cbn [carry_triangle tv0 tv1 tv2]. apply vec_eq; munf; field.
  Qed.
  Lemma on_plane_moved : forall p q, on_plane (carry_plane m p) (place m q) <-> on_plane p q.
  Proof. intros p q. unfold on_plane. cbn [carry_plane porigin pnormal]. rewrite place_sub, q_dot by auto. tauto. Qed.
  Lemma line_planes_moved : forall p0 p1 l l', 0 < pdot (ldir l) (ldir l) -> ldir l' = papply Q (ldir l) ->
    (forall q, on_line l q <-> on_plane p0 q /\ on_plane p1 q) ->
    (forall q, on_line l' q <-> on_plane (carry_plane m p0) q /\ on_plane (carry_plane m p1) q) -> line_moved l l'.
  Proof.
    intros p0 p1 l l' HD D H H'. split; auto.
    assert (P : on_line l' (place m (lorigin l))).
    { apply H'. rewrite !on_plane_moved. apply H. exists 0. apply vec_eq; vunf; ring. }
    destruct P as [k P]. exists (- k). rewrite P. apply vec_eq; vunf; ring.
  Qed.
End CutMoved.
