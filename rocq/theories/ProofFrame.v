(** * The enveloping methods do not depend on the frame of the world. *)
From Coq Require Import ZArith Bool Reals Lra Lia List.
From Verif Require Import Base Num Vec Aabb Geom Ground Rib ER SpecGeom SpecRib SpecAvg SpecCut SpecFrame.
From Verif Require Import ProofGeom ProofInt ProofTri ProofSegArea ProofFlat ProofSample ProofAvg ProofMeshGeo ProofChord ProofCut.
Import ListNotations.
Local Open Scope R_scope.

(** ** The motion on points and directions. *)
Ltac munf := unfold after in *; unfold place in *; vunf; cbn [lin tra m00 m01 m02 m10 m11 m12 m20 m21 m22] in *; vunf.
Lemma after_place : forall m a p, place (after m a) p = place m (place a p).
Proof. intros. apply vec_eq; munf; ring. Qed.
Lemma after_lin : forall m a v, papply (lin (after m a)) v = papply (lin m) (papply (lin a) v).
Proof. intros. apply vec_eq; munf; ring. Qed.
Lemma place_sub : forall m p q, psub (place m p) (place m q) = papply (lin m) (psub p q).
Proof. intros. apply vec_eq; munf; ring. Qed.
Lemma place_add : forall m p v, place m (padd p v) = padd (place m p) (papply (lin m) v).
Proof. intros. apply vec_eq; munf; ring. Qed.
Lemma place_psub : forall m p v, place m (psub p v) = psub (place m p) (papply (lin m) v).
Proof. intros. apply vec_eq; munf; ring. Qed.
Lemma apply_add : forall M u v, papply M (padd u v) = padd (papply M u) (papply M v).
Proof. intros. apply vec_eq; munf; ring. Qed.
Lemma apply_sub : forall M u v, papply M (psub u v) = psub (papply M u) (papply M v).
Proof. intros. apply vec_eq; munf; ring. Qed.
Lemma apply_scale : forall M k v, papply M (pscale k v) = pscale k (papply M v).
Proof. intros. apply vec_eq; munf; ring. Qed.

Lemma after_col0 : forall m a, pcol0 (lin (after m a)) = papply (lin m) (pcol0 (lin a)).
Proof. intros. apply vec_eq; munf; ring. Qed.
Lemma after_col1 : forall m a, pcol1 (lin (after m a)) = papply (lin m) (pcol1 (lin a)).
Proof. intros. apply vec_eq; munf; ring. Qed.
Lemma after_col2 : forall m a, pcol2 (lin (after m a)) = papply (lin m) (pcol2 (lin a)).
Proof. intros. apply vec_eq; munf; ring. Qed.

Lemma apply_cross : forall M u v, rotation M -> pcross (papply M u) (papply M v) = papply M (pcross u v).
Proof.
  intros M u v H. pose proof H as (U0 & U1 & U2 & O1 & O2 & O3 & C2).
  assert (C0 : pcross (pcol1 M) (pcol2 M) = pcol0 M).
  { rewrite <- C2, pcross_pcross, (pdot_comm (pcol1 M) (pcol0 M)), O1. unfold is_unit in U1. rewrite U1. apply vec_eq; vunf; ring. }
  assert (C1 : pcross (pcol2 M) (pcol0 M) = pcol1 M).
  { rewrite pcross_anti, <- C2, pcross_pcross, O1. unfold is_unit in U0. rewrite U0. apply vec_eq; vunf; ring. }
  transitivity (padd (padd (pscale (vx (pcross u v)) (pcross (pcol1 M) (pcol2 M))) (pscale (vy (pcross u v)) (pcross (pcol2 M) (pcol0 M))))
                     (pscale (vz (pcross u v)) (pcross (pcol0 M) (pcol1 M)))).
  - apply vec_eq; munf; ring.
  - rewrite C0, C1, C2. apply vec_eq; munf; ring.
Qed.

Section Motion.
  Variable m : affine R.
  Hypothesis HM : rigid m.
  Let Q := lin m.
  Lemma q_dot : forall u v, pdot (papply Q u) (papply Q v) = pdot u v.
  Proof. intros. now apply rotation_isometry. Qed.
  Lemma q_norm : forall u, pnorm (papply Q u) = pnorm u.
  Proof. intros. unfold pnorm. now rewrite q_dot. Qed.
  Lemma q_unit : forall u, punit (papply Q u) = papply Q (punit u).
  Proof. intros. unfold punit. rewrite q_dot, q_norm. destruct (rltb _ _); auto. now rewrite apply_scale. Qed.
  Lemma q_cross : forall u v, pcross (papply Q u) (papply Q v) = papply Q (pcross u v).
  Proof. intros. now apply apply_cross. Qed.
  Lemma q_dist : forall p q, dist (place m p) (place m q) = dist p q.
  Proof. intros. unfold dist. rewrite place_sub. apply q_norm. Qed.
  Lemma q_is_unit : forall u, is_unit u -> is_unit (papply Q u).
  Proof. intros u H. unfold is_unit. now rewrite q_dot. Qed.
  Lemma after_rigid : forall a, rigid a -> rigid (after m a).
  Proof.
    intros a (U0 & U1 & U2 & O1 & O2 & O3 & C2).
    unfold rigid, rotation. rewrite after_col0, after_col1, after_col2. repeat split; try (now apply q_is_unit); rewrite ?q_dot; auto.
    rewrite q_cross. now rewrite C2.
  Qed.

  (** ** No contact. *)
  Lemma none_eval : forall r a, envelop_none (frib r) (fa a) =
    (false, fout (Output (place a (psub (rb_center r) (pscale (rb_radius r) (V 0 0 1)))) (papply (lin a) (V 0 0 1)) 0 0 0 0)).
  Proof.
    intros r a. unfold envelop_none. change (rb_center (frib r)) with (fv (rb_center r)).
    change (rb_radius (frib r)) with (Fin (rb_radius r)). change (@unit_z er _) with (fv (V 0 0 1)).
    rewrite f_mul, f_sub, f_place. change (lin (fa a)) with (fm (lin a)). rewrite f_apply. reflexivity.
  Qed.
  Lemma none_carried : forall r a, exists o, envelop_none (frib r) (fa a) = (false, fout o) /\
    envelop_none (frib r) (fa (after m a)) = (false, fout (carry_out m o)).
  Proof.
    intros r a. eexists. rewrite !none_eval. split; [reflexivity|]. unfold carry_out.
    cbn [o_point o_normal o_friction o_depth o_area o_volume]. now rewrite after_place, after_lin.
  Qed.

  (** ** Flat ground, geometric method. *)
  Lemma flat_geo_carried : forall r a gp f, good_rib r -> rigid a -> is_unit (pnormal gp) ->
    exists b o, envelop_geometric_flat (frib r) (fflat gp f) (fa a) = (b, fout o) /\
      envelop_geometric_flat (frib r) (fflat (carry_plane m gp) f) (fa (after m a)) = (b, fout (carry_out m o)).
  Proof.
    intros r a gp f HR HA HG.
    assert (HA' : rigid (after m a)) by now apply after_rigid.
    assert (HG' : is_unit (pnormal (carry_plane m gp))) by now apply q_is_unit.
    rewrite (flat_eval r a gp f HR HA HG), (flat_eval r (after m a) (carry_plane m gp) f HR HA' HG').
    set (n := pnormal gp) in *. set (w := papply (lin a) (rb_normal r)).
    assert (S : sin2 (pnormal (carry_plane m gp)) (papply (lin (after m a)) (rb_normal r)) = sin2 n w).
    { unfold sin2. rewrite after_lin. cbn [carry_plane pnormal]. fold Q n w. now rewrite q_dot. }
    assert (H : center_height r (after m a) (carry_plane m gp) = center_height r a gp).
    { unfold center_height. rewrite after_place. cbn [carry_plane pnormal porigin]. rewrite place_sub. fold Q. now rewrite q_dot. }
    cbv zeta. rewrite S, H. fold n w.
    destruct (rltb (sin2 n w) eps) eqn:E1; cbn [orb].
    { destruct (none_carried r a) as (o & N1 & N2). exists false, o. split; [exact N1|exact N2]. }
    match goal with |- context [if ?c then _ else _] => destruct c eqn:E2 end.
    { destruct (none_carried r a) as (o & N1 & N2). exists false, o. split; [exact N1|exact N2]. }
    repeat rb. pose proof eps_pos.
    assert (F : foot (pp_line (carry_plane m gp) (dplane (posed_disk r (after m a)))) (place (after m a) (rb_center r)) =
                place m (foot (pp_line gp (dplane (posed_disk r a))) (place a (rb_center r)))).
    { rewrite (foot_value r a gp HR HA HG), (foot_value r (after m a) (carry_plane m gp) HR HA' HG'); rewrite ?S; fold n w; try lra.
      rewrite H, after_place, after_lin. cbn [carry_plane pnormal]. fold Q n w. rewrite q_dot, place_psub. fold Q.
      rewrite apply_scale, apply_sub, apply_scale. reflexivity. }
    rewrite F. rewrite after_place, q_dist. eexists true, (Output _ _ _ _ _ _). split; reflexivity.
  Qed.

  (** ** Sampling. *)
  Hypothesis HV : keeps_vertical m.
  Lemma q_z : papply Q (V 0 0 1) = V 0 0 1.
  Proof. exact HV. Qed.
  Lemma q_vz : forall v, vz (papply Q v) = vz v.
  Proof.
    intros v. assert (E : forall u, vz u = pdot u (V 0 0 1)) by (intros [x y z]; vunf; ring).
    rewrite (E (papply Q v)), <- q_z, q_dot. symmetry. apply E.
  Qed.
  Lemma place_vz : forall p, vz (place m p) = vz (tra m) + vz p.
  Proof. intros p. unfold place. unfold padd. cbn [vz]. fold Q. now rewrite q_vz. Qed.
  Definition down (p : pt) : line er := Line (fv p) (vopp unit_z).
  Definition hits_match (h h' : option (vec3 er * er)) : Prop :=
    (h = None /\ h' = None) \/ exists p f, h = Some (fv p, Fin f) /\ h' = Some (fv (place m p), Fin f).

  Section Sampling.
    Variables fn fn' : line er -> option (vec3 er * er).
    Hypothesis MATCH : forall p, hits_match (fn (down p)) (fn' (down (place m p))).
    Lemma sample_match : forall ok p g g', exists ok', 
      (exists q f, sample fn ok (down p) g = (true, (fv q, Fin f)) /\ sample fn' ok (down (place m p)) g' = (true, (fv (place m q), Fin f)) /\ ok' = true) \/
      (fst (sample fn ok (down p) g) = false /\ fst (sample fn' ok (down (place m p)) g') = false /\ ok' = false).
    Proof.
      intros [] p g g'; unfold sample.
      - destruct (MATCH p) as [[-> ->]|(q & f & -> & ->)]; [exists false; auto|exists true]. left. eauto.
      - exists false. auto.
    Qed.
    Lemma sample_false : forall (f : line er -> option (vec3 er * er)) l g, sample f false l g = (false, g).
    Proof. reflexivity. Qed.
    Lemma lines_carried : forall r a, exists q0 q1 q2 q3, sampling_lines (frib r) (fa a) = (down q0, down q1, down q2, down q3) /\
      sampling_lines (frib r) (fa (after m a)) = (down (place m q0), down (place m q1), down (place m q2), down (place m q3)).
    Proof.
      intros r a. rewrite !f_lines. do 4 eexists. split; [reflexivity|]. unfold down.
      rewrite after_col0, after_col1, after_place, !place_add, !place_psub, !apply_scale. reflexivity.
    Qed.
    Lemma sampling_carried : forall r a g0 g1 g2 g3 g0' g1' g2' g3',
      exists b o, envelop_sampling_with fn g0 g1 g2 g3 (frib r) (fa a) = (b, fout o) /\
        envelop_sampling_with fn' g0' g1' g2' g3' (frib r) (fa (after m a)) = (b, fout (carry_out m o)).
    Proof.
      intros. destruct (none_carried r a) as (on & N1 & N2). unfold envelop_sampling_with.
      destruct (lines_carried r a) as (q0 & q1 & q2 & q3 & -> & ->).
      assert (FAIL : forall (x y : bool * output er) c c', exists b o,
        (if false && c then x else envelop_none (frib r) (fa a)) = (b, fout o) /\
        (if false && c' then y else envelop_none (frib r) (fa (after m a))) = (b, fout (carry_out m o))).
      { intros. exists false, on. cbn [andb]. auto. }
      destruct (sample_match true q0 (g0, nofZ 0) (g0', nofZ 0)) as (ok0 & [(p0 & f0 & -> & -> & ->)|(A & B & ->)]).
      2:{ destruct (sample fn true (down q0) _) as [x [y1 y2]]. destruct (sample fn' true (down (place m q0)) _) as [x' [y1' y2']].
          cbn [fst] in A, B. subst x x'. rewrite !sample_false. apply FAIL. }
      destruct (sample_match true q1 (g1, nofZ 0) (g1', nofZ 0)) as (ok1 & [(p1 & f1 & -> & -> & ->)|(A & B & ->)]).
      2:{ destruct (sample fn true (down q1) _) as [x [y1 y2]]. destruct (sample fn' true (down (place m q1)) _) as [x' [y1' y2']].
          cbn [fst] in A, B. subst x x'. rewrite !sample_false. apply FAIL. }
      destruct (sample_match true q2 (g2, nofZ 0) (g2', nofZ 0)) as (ok2 & [(p2 & f2 & -> & -> & ->)|(A & B & ->)]).
      2:{ destruct (sample fn true (down q2) _) as [x [y1 y2]]. destruct (sample fn' true (down (place m q2)) _) as [x' [y1' y2']].
          cbn [fst] in A, B. subst x x'. rewrite !sample_false. apply FAIL. }
      destruct (sample_match true q3 (g3, nofZ 0) (g3', nofZ 0)) as (ok3 & [(p3 & f3 & -> & -> & ->)|(A & B & ->)]).
      2:{ destruct (sample fn true (down q3) _) as [x [y1 y2]]. destruct (sample fn' true (down (place m q3)) _) as [x' [y1' y2']].
          cbn [fst] in A, B. subst x x'. apply FAIL. }
      clear FAIL. cbn [andb]. rewrite !f_center.
      change (rb_radius (frib r)) with (Fin (rb_radius r)). change (rb_width (frib r)) with (Fin (rb_width r)).
      assert (COL : forall b, col1 (lin (fa b)) = fv (pcol1 (lin b))) by reflexivity. rewrite !COL, after_col1, after_place.
      push. rewrite !f_div by lra. push. rewrite !place_sub. fold Q. rewrite !q_cross, !q_unit, !q_cross, !q_unit, !q_cross, !q_unit, !q_dot.
      assert (CEN : pscale (/ 4) (padd (padd (padd (place m p0) (place m p1)) (place m p2)) (place m p3)) =
                    place m (pscale (/ 4) (padd (padd (padd p0 p1) p2) p3))) by (apply vec_eq; munf; field).
      rewrite CEN. rewrite place_sub. fold Q. rewrite q_norm. push. rewrite e_ndiv by lra.
      destruct (rltb 0 _) eqn:ED; [|exists false, on; auto]. rb.
      set (d := rb_radius r * _ - _) in *.
      assert (DB : 0 <= d <= 2 * rb_radius r \/ rb_radius r <= 0).
      { destruct (Rle_dec (rb_radius r) 0); [right; lra|left]. split; [lra|].
        assert (forall u v : pt, Rabs (pdot (punit u) (punit v)) <= 1).
        { intros u v. pose proof (cauchy_schwarz (punit u) (punit v)) as CS. pose proof (punit_le1 u). pose proof (punit_le1 v).
          pose proof (pdot_pos (punit u)). pose proof (pdot_pos (punit v)).
          apply Rabs_le. set (x := pdot (punit u) (punit v)) in *. nra. }
        unfold d. match goal with |- _ * Rabs (pdot (punit ?u) (punit ?v)) - pnorm ?w <= _ => pose proof (H u v); pose proof (pnorm_nonneg w) end.
        nra. }
      destruct DB as [DB|DB].
      - rewrite f_seg_area, f_seg_volume by lra. eexists true, (Output _ _ _ _ _ _). split; reflexivity.
      - exfalso. assert (forall x y, rb_radius r * Rabs x - pnorm y <= 0).
        { intros x y. pose proof (Rabs_pos x). pose proof (pnorm_nonneg y). nra. }
        unfold d in ED. match type of ED with 0 < _ * Rabs ?x - pnorm ?y => pose proof (H x y) end. lra.
    Qed.
  End Sampling.
End Motion.
