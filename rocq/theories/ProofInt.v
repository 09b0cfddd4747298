(** * The intersection functions on finite numbers. *)
From Coq Require Import ZArith Bool List Reals Lra Lia.
From Verif Require Import Base Num Vec Geom ER SpecGeom ProofGeom.
Import ListNotations.
Local Open Scope R_scope.

#[export] Hint Rewrite f_add f_sub f_opp f_mul f_mulr f_dot f_cross f_sqnorm f_norm f_normalized f_apply : fv.

(** The arithmetic of [er] on finite numbers. *)
Lemma e_lt : forall x y, nlt (Fin x) (Fin y) = rltb x y. Proof. reflexivity. Qed.
Lemma e_le : forall x y, nle (Fin x) (Fin y) = rleb x y. Proof. reflexivity. Qed.
Lemma e_add : forall x y, nadd (Fin x) (Fin y) = Fin (x + y). Proof. reflexivity. Qed.
Lemma e_sub : forall x y, nsub (Fin x) (Fin y) = Fin (x - y). Proof. reflexivity. Qed.
Lemma e_mul : forall x y, nmul (Fin x) (Fin y) = Fin (x * y). Proof. reflexivity. Qed.
Lemma e_opp : forall x, nopp (Fin x) = Fin (- x). Proof. reflexivity. Qed.
Lemma e_abs : forall x, nabs (Fin x) = Fin (Rabs x). Proof. reflexivity. Qed.
Lemma e_ofZ : forall z, (nofZ z : er) = Fin (IZR z). Proof. reflexivity. Qed.
Lemma e_ndiv : forall x y, y <> 0 -> ndiv (Fin x) (Fin y) = Fin (x / y). Proof. exact e_div. Qed.
Lemma e_nsqrt : forall x, 0 <= x -> nsqrt (Fin x) = Fin (sqrt x). Proof. exact e_sqrt. Qed.
Lemma e_max : forall x y, nmax (Fin x) (Fin y) = Fin (Rmax x y).
Proof.
  intros x y. unfold nmax. rewrite e_lt. unfold Rmax. destruct (rltb x y) eqn:E; rb;
    destruct (Rle_dec x y); f_equal; lra.
Qed.
Lemma e_min : forall x y, nmin (Fin x) (Fin y) = Fin (Rmin x y).
Proof.
  intros x y. unfold nmin. rewrite e_lt. unfold Rmin. destruct (rltb y x) eqn:E; rb;
    destruct (Rle_dec x y); f_equal; lra.
Qed.
#[export] Hint Rewrite e_lt e_le e_add e_sub e_mul e_opp e_abs e_ofZ e_max e_min : fv.

Ltac push := autorewrite with fv.
Ltac pushin H := autorewrite with fv in H.

Lemma f_approx0 : forall x tol, is_approx (Fin x) (nofZ 0) (Fin tol) = rltb (Rabs x) tol.
Proof. intros. unfold is_approx. push. now rewrite Rminus_0_r. Qed.

(** ** Line and triangle. *)
Section LineTriangle.
  Variables (l : line R) (t : triangle R).
  Let e1 := psub (tv1 t) (tv0 t).
  Let e2 := psub (tv2 t) (tv0 t).
  Let s := psub (lorigin l) (tv0 t).
  Let d := ldir l.
  Let a := pdot e1 (pcross d e2).
  Let u := / a * pdot s (pcross d e2).
  Let v := / a * pdot d (pcross s e1).
  Let k := / a * pdot e2 (pcross s e1).

  Lemma line_triangle_eval : forall tol, 0 < tol ->
    int_line_triangle (fline l) (ftri t) (Fin tol) =
    if rltb (- tol) a && rltb a tol then None
    else if rltb u (0 - tol) || rltb (1 + tol) u then None
    else if rltb v (0 - tol) || rltb (1 + tol) (u + v) then None
    else Some (fv (padd (lorigin l) (pscale k d))).
  Proof.
    intros tol Ht. unfold int_line_triangle, fline, ftri. cbn [lorigin ldir tv0 tv1 tv2]. push.
    fold e1 e2 s d. fold a. destruct (rltb (- tol) a && rltb a tol) eqn:E; auto.
    assert (Ha : a <> 0).
    { intros Ha. rewrite Ha in E. replace (rltb (- tol) 0) with true in E by (symmetry; apply rltb_true; lra).
      replace (rltb 0 tol) with true in E by (symmetry; apply rltb_true; lra). discriminate. }
    rewrite e_ndiv by auto. push. unfold Rdiv. rewrite !Rmult_1_l. fold u v k.
    destruct (rltb u (0 - tol) || rltb (1 + tol) u); auto.
  Qed.
  Lemma mt_identity : padd (pscale a s) (pscale (pdot e2 (pcross s e1)) d) =
    padd (pscale (pdot s (pcross d e2)) e1) (pscale (pdot d (pcross s e1)) e2).
  Proof. unfold a. clearbody e1 e2 s d. apply vec_eq; vunf; ring. Qed.
  Lemma mt_point : a <> 0 -> padd (lorigin l) (pscale k d) = bary t (1 - u - v) u v.
  Proof.
    intros Ha. pose proof mt_identity as H.
    assert (E : padd s (pscale k d) = padd (pscale u e1) (pscale v e2)).
    { transitivity (pscale (/ a) (padd (pscale a s) (pscale (pdot e2 (pcross s e1)) d))).
      - unfold k. apply vec_eq; unfold padd, pscale; cbn [vx vy vz]; field; exact Ha.
      - rewrite H. unfold u, v. apply vec_eq; unfold padd, pscale; cbn [vx vy vz]; ring. }
    apply vec_eq; [apply (f_equal vx) in E|apply (f_equal vy) in E|apply (f_equal vz) in E];
      unfold s, e1, e2 in E; clearbody u v k d; unfold bary, padd, pscale, psub in *; cbn [vx vy vz] in *; lra.
  Qed.
  Lemma mt_unique : forall q k' u' v', a <> 0 -> q = padd (lorigin l) (pscale k' d) ->
    q = bary t (1 - u' - v') u' v' -> u = u' /\ v = v' /\ k = k'.
  Proof.
    intros q k' u' v' Ha H1 H2.
    assert (E : s = psub (padd (pscale u' e1) (pscale v' e2)) (pscale k' d)).
    { rewrite H2 in H1. clear H2. unfold s, e1, e2. clearbody d.
      apply vec_eq; [apply (f_equal vx) in H1|apply (f_equal vy) in H1|apply (f_equal vz) in H1];
        unfold bary, padd, pscale, psub in *; cbn [vx vy vz] in *; lra. }
    unfold u, v, k. rewrite E.
    assert (P1 : pdot (psub (padd (pscale u' e1) (pscale v' e2)) (pscale k' d)) (pcross d e2) = u' * a)
      by (unfold a; clearbody d e1 e2; vunf; ring).
    assert (P2 : pdot d (pcross (psub (padd (pscale u' e1) (pscale v' e2)) (pscale k' d)) e1) = v' * a)
      by (unfold a; clearbody d e1 e2; vunf; ring).
    assert (P3 : pdot e2 (pcross (psub (padd (pscale u' e1) (pscale v' e2)) (pscale k' d)) e1) = k' * a)
      by (unfold a; clearbody d e1 e2; vunf; ring).
    rewrite P1, P2, P3. repeat split; field; exact Ha.
  Qed.

  Lemma line_triangle_sound : forall tol p, 0 < tol ->
    int_line_triangle (fline l) (ftri t) (Fin tol) = Some p ->
    exists q, p = fv q /\ on_line l q /\ near_triangle tol t q.
  Proof.
    intros tol p Ht H. rewrite line_triangle_eval in H by auto.
    destruct (rltb (- tol) a && rltb a tol) eqn:E; [discriminate|].
    destruct (rltb u (0 - tol) || rltb (1 + tol) u) eqn:E1; [discriminate|].
    destruct (rltb v (0 - tol) || rltb (1 + tol) (u + v)) eqn:E2; [discriminate|].
    apply orb_false_elim in E1, E2. destruct E1 as [U1 U2], E2 as [V1 V2]. repeat rb.
    assert (Ha : a <> 0).
    { intros Ha. rewrite Ha in E. replace (rltb (- tol) 0) with true in E by (symmetry; apply rltb_true; lra).
      replace (rltb 0 tol) with true in E by (symmetry; apply rltb_true; lra). discriminate. }
    inversion H; subst p. eexists. split; [reflexivity|]. split; [eexists; reflexivity|].
    rewrite mt_point by auto. exists (1 - u - v), u, v. repeat split; lra.
  Qed.
  Lemma line_triangle_complete : forall tol q, 0 < tol ->
    on_line l q -> in_triangle t q -> tol <= Rabs a ->
    int_line_triangle (fline l) (ftri t) (Fin tol) = Some (fv q).
  Proof.
    intros tol q Ht [k' Hq] (x & u' & v' & H1 & H2 & H3 & H4 & H5) Ha.
    assert (Ha0 : a <> 0) by (intros E; rewrite E, Rabs_R0 in Ha; lra).
    replace x with (1 - u' - v') in H5 by lra.
    destruct (mt_unique q k' u' v' Ha0 Hq H5) as (EU & EV & EK).
    rewrite line_triangle_eval by auto.
    replace (rltb (- tol) a && rltb a tol) with false.
    2:{ symmetry. apply andb_false_iff. unfold Rabs in Ha. destruct (Rcase_abs a); [left|right]; apply rltb_false; lra. }
    rewrite EU, EV, EK.
    replace (rltb u' (0 - tol) || rltb (1 + tol) u') with false
      by (symmetry; apply orb_false_iff; split; apply rltb_false; lra).
    replace (rltb v' (0 - tol) || rltb (1 + tol) (u' + v')) with false
      by (symmetry; apply orb_false_iff; split; apply rltb_false; lra).
    now rewrite Hq.
  Qed.
End LineTriangle.

(** ** Line and segment. *)
Lemma four_points : forall w d0 d1, let a0 := pcross d0 d1 in
  pscale (pdot a0 a0) w = padd (psub (pscale (pdot (pcross w d1) a0) d0) (pscale (pdot (pcross w d0) a0) d1))
    (pscale (pdot w a0) a0).
Proof. intros [x y z] [a b c] [d e f]. cbv zeta. apply vec_eq; vunf; ring. Qed.

Definition coplanar (l : line R) (s : segment R) : Prop :=
  pdot (psub (sv0 s) (lorigin l)) (pcross (ldir l) (psub (sv1 s) (sv0 s))) = 0.

Lemma line_segment_sound : forall l s tol p, 0 < tol ->
  int_line_segment (fline l) (fseg s) (Fin tol) = Some p ->
  exists q t, p = fv q /\ on_line l q /\ - tol <= t <= 1 + tol /\
    (coplanar l s -> q = padd (sv0 s) (pscale t (psub (sv1 s) (sv0 s)))).
Proof.
  intros l s tol p Ht H. unfold int_line_segment in H.
  unfold line_seg_parallel, vec_parallel, seg_unit_vector, seg_vector, fline, fseg in H.
  cbn [lorigin ldir sv0 sv1] in H. pushin H. rewrite f_approx0 in H.
  destruct (rltb (Rabs (pnorm (pcross (ldir l) (punit (psub (sv1 s) (sv0 s)))))) tol) eqn:E; [discriminate|].
  cbn [negb] in H. rb. rewrite Rabs_pos_eq in E by apply pnorm_nonneg.
  set (d0 := ldir l) in *. set (d1 := psub (sv1 s) (sv0 s)) in *. set (w := psub (sv0 s) (lorigin l)) in *.
  assert (HD : 0 < pdot d1 d1).
  { destruct (Rlt_dec 0 (pdot d1 d1)) as [|N]; auto. pose proof (pdot_pos d1) as P.
    assert (Z : pdot d1 d1 = 0) by lra. rewrite (punit_zero d1 Z), (pdot_zero d1 Z) in E.
    replace (pcross d0 (V 0 0 0)) with (V 0 0 0 : pt) in E by (apply vec_eq; vunf; ring).
    unfold pnorm, pdot in E. cbn [vx vy vz] in E. replace (0 * 0 + 0 * 0 + 0 * 0) with 0 in E by ring.
    rewrite sqrt_0 in E. lra. }
  rewrite punit_pos in E by auto. rewrite pcross_scale_r, pnorm_scale in E.
  set (a0 := pcross d0 d1) in *.
  assert (HA : 0 < pdot a0 a0).
  { rewrite <- pnorm_sq. assert (0 < pnorm a0); [|nra].
    destruct (Rle_lt_or_eq_dec 0 (pnorm a0) (pnorm_nonneg a0)) as [|Z]; auto.
    rewrite <- Z, Rmult_0_r in E. lra. }
  assert (EO : pdot (pscale (-1) a0) (pscale (-1) a0) = pdot a0 a0) by (clearbody a0; vunf; ring).
  rewrite EO in H. rewrite !e_ndiv in H by lra. pushin H.
  set (t0 := pdot (pcross w d1) a0 / pdot a0 a0) in *.
  set (t1 := pdot (pcross (psub (lorigin l) (sv0 s)) d0) (pscale (-1) a0) / pdot a0 a0) in *.
  destruct (rltb t1 (0 - tol) || rltb (1 + tol) t1) eqn:ET; [discriminate|].
  apply orb_false_elim in ET. destruct ET as [T1 T2]. repeat rb. inversion H; subst p.
  exists (padd (lorigin l) (pscale t0 d0)), t1. split; [reflexivity|]. split; [exists t0; reflexivity|].
  split; [lra|]. intros HC. unfold coplanar in HC. fold d0 d1 w a0 in HC.
  pose proof (four_points w d0 d1) as F. cbv zeta in F. fold a0 in F. rewrite HC in F.
  assert (E1 : t1 = pdot (pcross w d0) a0 / pdot a0 a0).
  { unfold t1. f_equal. unfold w. clearbody a0. vunf. ring. }
  assert (W : w = psub (pscale t0 d0) (pscale t1 d1)).
  { transitivity (pscale (/ pdot a0 a0) (pscale (pdot a0 a0) w)).
    - rewrite pscale_scale, Rinv_l by lra. now rewrite pscale_1.
    - rewrite F, E1. unfold t0. clearbody a0 w d0 d1.
      apply vec_eq; unfold padd, psub, pscale; cbn [vx vy vz]; field; lra. }
  unfold w in W. clearbody t0 t1.
  apply vec_eq; [apply (f_equal vx) in W|apply (f_equal vy) in W|apply (f_equal vz) in W];
    unfold padd, psub, pscale in *; cbn [vx vy vz] in *; lra.
Qed.

Lemma line_segment_complete : forall l s tol q, 0 < tol ->
  tol <= pnorm (pcross (ldir l) (punit (psub (sv1 s) (sv0 s)))) ->
  on_line l q -> in_segment s q ->
  int_line_segment (fline l) (fseg s) (Fin tol) = Some (fv q).
Proof.
  intros l s tol q Ht E [k Hk] (u & Hu & Hq). unfold int_line_segment.
  unfold line_seg_parallel, vec_parallel, seg_unit_vector, seg_vector, fline, fseg.
  cbn [lorigin ldir sv0 sv1]. push. rewrite f_approx0.
  set (d0 := ldir l) in *. set (d1 := psub (sv1 s) (sv0 s)) in *. set (w := psub (sv0 s) (lorigin l)) in *.
  rewrite Rabs_pos_eq by apply pnorm_nonneg.
  replace (rltb (pnorm (pcross d0 (punit d1))) tol) with false by (symmetry; now apply rltb_false). cbn [negb].
  assert (HD : 0 < pdot d1 d1).
  { destruct (Rlt_dec 0 (pdot d1 d1)) as [|N]; auto. pose proof (pdot_pos d1) as P.
    assert (Z : pdot d1 d1 = 0) by lra. rewrite (punit_zero d1 Z), (pdot_zero d1 Z) in E.
    replace (pcross d0 (V 0 0 0)) with (V 0 0 0 : pt) in E by (apply vec_eq; vunf; ring).
    unfold pnorm, pdot in E. cbn [vx vy vz] in E. replace (0 * 0 + 0 * 0 + 0 * 0) with 0 in E by ring.
    rewrite sqrt_0 in E. lra. }
  rewrite punit_pos in E by auto. rewrite pcross_scale_r, pnorm_scale in E.
  set (a0 := pcross d0 d1) in *.
  assert (HA : 0 < pdot a0 a0).
  { rewrite <- pnorm_sq. assert (0 < pnorm a0); [|nra].
    destruct (Rle_lt_or_eq_dec 0 (pnorm a0) (pnorm_nonneg a0)) as [|Z]; auto.
    rewrite <- Z, Rmult_0_r in E. lra. }
  assert (EO : pdot (pscale (-1) a0) (pscale (-1) a0) = pdot a0 a0) by (clearbody a0; vunf; ring).
  rewrite EO. rewrite !e_ndiv by lra. push.
  assert (W : w = psub (pscale k d0) (pscale u d1)).
  { unfold w. rewrite Hk in Hq. clear - Hq.
    apply vec_eq; [apply (f_equal vx) in Hq|apply (f_equal vy) in Hq|apply (f_equal vz) in Hq];
      unfold padd, psub, pscale in *; cbn [vx vy vz] in *; lra. }
  assert (T0 : pdot (pcross w d1) a0 / pdot a0 a0 = k).
  { rewrite W. replace (pcross (psub (pscale k d0) (pscale u d1)) d1) with (pscale k a0)
      by (unfold a0; clearbody d0 d1; apply vec_eq; vunf; ring). rewrite pdot_scale_l. field. lra. }
  assert (T1 : pdot (pcross (psub (lorigin l) (sv0 s)) d0) (pscale (-1) a0) / pdot a0 a0 = u).
  { replace (psub (lorigin l) (sv0 s)) with (pscale (-1) w) by (unfold w; apply vec_eq; vunf; ring).
    rewrite W. replace (pcross (pscale (-1) (psub (pscale k d0) (pscale u d1))) d0) with (pscale (-1) (pscale u a0))
      by (unfold a0; clearbody d0 d1; apply vec_eq; vunf; ring). rewrite !pdot_scale_l, pdot_scale_r. field. lra. }
  rewrite T0, T1.
  replace (rltb u (0 - tol) || rltb (1 + tol) u) with false
    by (symmetry; apply orb_false_iff; split; apply rltb_false; lra).
  now rewrite Hk.
Qed.
Lemma line_segment_parallel : forall l s tol,
  pnorm (pcross (ldir l) (punit (psub (sv1 s) (sv0 s)))) < tol ->
  int_line_segment (fline l) (fseg s) (Fin tol) = None.
Proof.
  intros l s tol H. unfold int_line_segment.
  unfold line_seg_parallel, vec_parallel, seg_unit_vector, seg_vector, fline, fseg.
  cbn [lorigin ldir sv0 sv1]. push. rewrite f_approx0, Rabs_pos_eq by apply pnorm_nonneg.
  replace (rltb _ tol) with true by (symmetry; now apply rltb_true). reflexivity.
Qed.

(** ** Two planes. *)
Section PlanePlane.
  Variables (p0 p1 : plane R).
  Hypothesis U0 : is_unit (pnormal p0).
  Hypothesis U1 : is_unit (pnormal p1).
  Let n0 := pnormal p0.
  Let n1 := pnormal p1.
  Let c := pdot n0 n1.
  Let d0 := pdot (porigin p0) n0.
  Let d1 := pdot (porigin p1) n1.
  (** The line of the code. *)
  Definition pp_line : line R :=
    Line (padd (pscale ((d0 - c * d1) * / (1 - c * c)) n0) (pscale ((d1 - c * d0) * / (1 - c * c)) n1))
         (pcross n0 n1).
  Lemma pp_sq : pdot (pcross n0 n1) (pcross n0 n1) = 1 - c * c.
  Proof. rewrite pcross_sq. unfold n0, n1. rewrite U0, U1. fold n0 n1 c. ring. Qed.
  Lemma plane_plane_eval : forall tol, 0 < tol ->
    int_plane_plane (fplane p0) (fplane p1) (Fin tol) =
    if rltb (1 - c * c) tol then None else Some (fline pp_line).
  Proof.
    intros tol Ht. unfold int_plane_plane, fplane, plane_d. cbn [porigin pnormal]. push.
    rewrite !punit_unit by auto. fold n0 n1. push. fold c d0 d1.
    rewrite f_approx0, pnorm_sq, pp_sq. rewrite Rabs_pos_eq by (rewrite <- pp_sq; apply pdot_pos).
    destruct (rltb (1 - c * c) tol) eqn:E; auto. rb.
    rewrite e_ndiv by lra. push. unfold fline, pp_line. cbn [lorigin ldir].
    do 2 f_equal. rewrite !Ropp_involutive. unfold Rdiv. rewrite Rmult_1_l. reflexivity.
  Qed.
  Lemma pp_line_in : c * c < 1 -> forall q, on_line pp_line q <-> on_plane p0 q /\ on_plane p1 q.
  Proof.
    intros HC q.
    assert (D : 1 - c * c <> 0) by lra.
    assert (S0 : pdot n0 n0 = 1) by exact U0. assert (S1 : pdot n1 n1 = 1) by exact U1.
    assert (O0 : pdot (lorigin pp_line) n0 = d0).
    { unfold pp_line. cbn [lorigin]. rewrite pdot_add_l, !pdot_scale_l, S0, (pdot_comm n1 n0). fold c. field. exact D. }
    assert (O1 : pdot (lorigin pp_line) n1 = d1).
    { unfold pp_line. cbn [lorigin]. rewrite pdot_add_l, !pdot_scale_l, S1. fold c. field. exact D. }
    assert (X0 : pdot (ldir pp_line) n0 = 0) by (unfold pp_line; cbn [ldir]; rewrite pdot_comm; apply pcross_dot_l).
    assert (X1 : pdot (ldir pp_line) n1 = 0) by (unfold pp_line; cbn [ldir]; rewrite pdot_comm; apply pcross_dot_r).
    unfold on_plane. fold n0 n1. rewrite !pdot_sub_l. fold d0 d1. split.
    - intros [k ->]. rewrite !pdot_add_l, !pdot_scale_l, O0, O1, X0, X1. split; ring.
    - intros [Q0 Q1]. set (w := psub q (lorigin pp_line)).
      assert (W0 : pdot w n0 = 0) by (unfold w; rewrite pdot_sub_l; lra).
      assert (W1 : pdot w n1 = 0) by (unfold w; rewrite pdot_sub_l; lra).
      assert (XX : pdot (ldir pp_line) (ldir pp_line) = 1 - c * c) by exact pp_sq.
      exists (pdot w (ldir pp_line) / (1 - c * c)).
      assert (E : pscale (1 - c * c) w = pscale (pdot w (ldir pp_line)) (ldir pp_line)).
      { rewrite <- XX. unfold pp_line. cbn [ldir]. 
        assert (G : forall w n0 n1, pdot w n0 = 0 -> pdot w n1 = 0 ->
          pscale (pdot (pcross n0 n1) (pcross n0 n1)) w = pscale (pdot w (pcross n0 n1)) (pcross n0 n1)).
        { clear. intros w n0 n1 H0 H1. 
          assert (I : pcross w (pcross n0 n1) = V 0 0 0).
          { rewrite pcross_pcross, H0, H1. apply vec_eq; vunf; ring. }
          set (x := pcross n0 n1) in *. clearbody x.
          assert (J : psub (pscale (pdot x x) w) (pscale (pdot w x) x) = pcross x (pcross w x))
            by (apply vec_eq; vunf; ring).
          rewrite I in J.
          apply vec_eq; [apply (f_equal vx) in J|apply (f_equal vy) in J|apply (f_equal vz) in J];
            unfold psub, pscale, pcross in J; cbn [vx vy vz] in J; unfold pscale; cbn [vx vy vz]; lra. }
        apply G; auto. }
      assert (W : w = pscale (pdot w (ldir pp_line) / (1 - c * c)) (ldir pp_line)).
      { transitivity (pscale (/ (1 - c * c)) (pscale (1 - c * c) w)).
        - rewrite pscale_scale, Rinv_l by exact D. now rewrite pscale_1.
        - rewrite E, pscale_scale. f_equal. field. exact D. }
      rewrite <- W. unfold w. symmetry. apply padd_psub.
  Qed.
End PlanePlane.

Lemma plane_plane_sound : forall p0 p1 tol r, 0 < tol -> is_unit (pnormal p0) -> is_unit (pnormal p1) ->
  int_plane_plane (fplane p0) (fplane p1) (Fin tol) = Some r ->
  exists l, r = fline l /\ ldir l = pcross (pnormal p0) (pnormal p1) /\
    tol <= pdot (ldir l) (ldir l) /\ forall q, on_line l q <-> on_plane p0 q /\ on_plane p1 q.
Proof.
  intros p0 p1 tol r Ht U0 U1 H. rewrite plane_plane_eval in H by auto.
  destruct (rltb _ tol) eqn:E; [discriminate|]. rb. inversion H.
  exists (pp_line p0 p1). split; auto. split; [reflexivity|].
  pose proof (pp_sq p0 p1 U0 U1) as P. cbv zeta in P. split; [|apply pp_line_in; auto; lra].
  unfold pp_line. cbn [ldir]. rewrite P. exact E.
Qed.
Lemma plane_plane_none : forall p0 p1 tol, 0 < tol -> is_unit (pnormal p0) -> is_unit (pnormal p1) ->
  (int_plane_plane (fplane p0) (fplane p1) (Fin tol) = None <->
   pdot (pcross (pnormal p0) (pnormal p1)) (pcross (pnormal p0) (pnormal p1)) < tol).
Proof.
  intros p0 p1 tol Ht U0 U1. rewrite plane_plane_eval by auto. rewrite (pp_sq p0 p1 U0 U1).
  destruct (rltb _ tol) eqn:E; rb; split; intros; auto; try discriminate. lra.
Qed.

(** ** Line and disk. *)
Section LineDisk.
  Variables (l : line R) (c : pt) (r : R).
  Let diff := psub (lorigin l) c.
  Let a2 := pdot (ldir l) (ldir l).
  Let a1 := pdot diff (ldir l).
  Let a0 := pdot diff diff - r * r.
  Let disc := a1 * a1 - a0 * a2.
  Hypothesis Dir : 0 < a2.

  Lemma line_point_dist : forall t,
    dist (padd (lorigin l) (pscale t (ldir l))) c ^ 2 = a2 * t * t + 2 * a1 * t + pdot diff diff.
  Proof.
    intros t. unfold dist. rewrite <- Rsqr_pow2. unfold Rsqr. rewrite pnorm_sq.
    unfold a2, a1, diff. vunf. ring.
  Qed.
  Lemma foot_dist : dist (foot l c) c ^ 2 = pdot diff diff - a1 * a1 / a2.
  Proof.
    unfold foot. rewrite line_point_dist.
    replace (pdot (psub c (lorigin l)) (ldir l)) with (- a1) by (unfold a1, diff; vunf; ring).
    fold a2. field. lra.
  Qed.
  Lemma disc_eq : disc = a2 * (r * r - dist (foot l c) c ^ 2).
  Proof. rewrite foot_dist. unfold disc, a0. field. lra. Qed.
  Lemma in_iff : 0 <= r -> forall t,
    (dist (padd (lorigin l) (pscale t (ldir l))) c <= r <-> (a2 * t + a1) * (a2 * t + a1) <= disc).
  Proof.
    intros Hr t. pose proof (line_point_dist t) as E. set (D := dist _ c) in *.
    assert (D0 : 0 <= D) by apply pnorm_nonneg.
    assert (Q : (a2 * t + a1) * (a2 * t + a1) - disc = a2 * (D ^ 2 - r * r)).
    { rewrite E. unfold disc, a0. ring. }
    split; intros H.
    - assert (D ^ 2 <= r * r) by nra. nra.
    - assert (D ^ 2 - r * r <= 0) by nra. nra.
  Qed.
  Lemma in_iff_root : 0 <= r -> 0 <= disc -> forall t,
    (dist (padd (lorigin l) (pscale t (ldir l))) c <= r <->
     - (a1 + sqrt disc) * / a2 <= t <= - (a1 - sqrt disc) * / a2).
  Proof.
    intros Hr Hd t. rewrite in_iff by auto.
    pose proof (sqrt_sqrt disc Hd) as SS. pose proof (sqrt_pos disc) as SP.
    set (w := sqrt disc) in *.
    assert (E1 : - (a1 + w) * / a2 <= t <-> - (a1 + w) <= a2 * t).
    { split; intros H.
      - apply (Rmult_le_compat_l a2) in H; [|lra]. replace (a2 * (- (a1 + w) * / a2)) with (- (a1 + w)) in H by (field; lra). lra.
      - apply (Rmult_le_reg_l a2); auto. replace (a2 * (- (a1 + w) * / a2)) with (- (a1 + w)) by (field; lra). lra. }
    assert (E2 : t <= - (a1 - w) * / a2 <-> a2 * t <= - (a1 - w)).
    { split; intros H.
      - apply (Rmult_le_compat_l a2) in H; [|lra]. replace (a2 * (- (a1 - w) * / a2)) with (- (a1 - w)) in H by (field; lra). lra.
      - apply (Rmult_le_reg_l a2); auto. replace (a2 * (- (a1 - w) * / a2)) with (- (a1 - w)) by (field; lra). lra. }
    rewrite E1, E2. split; [intros H|intros [H1 H2]]; [split|]; nra.
  Qed.
  Lemma on_iff : 0 <= r -> 0 <= disc -> forall t,
    t = - (a1 + sqrt disc) * / a2 \/ t = - (a1 - sqrt disc) * / a2 ->
    dist (padd (lorigin l) (pscale t (ldir l))) c = r.
  Proof.
    intros Hr Hd t Ht. pose proof (line_point_dist t) as E. set (D := dist _ c) in *.
    assert (0 <= D) by apply pnorm_nonneg. pose proof (sqrt_sqrt disc Hd) as SS. set (w := sqrt disc) in *.
    assert (Q : (a2 * t + a1) * (a2 * t + a1) = disc).
    { destruct Ht as [-> | ->]; rewrite <- SS; field; lra. }
    assert (Q' : a2 * (D ^ 2) = a2 * (r * r)) by (rewrite E; unfold disc, a0 in Q; lra).
    apply Rmult_eq_reg_l in Q'; [|lra].
    apply Rsqr_inj; auto. unfold Rsqr. simpl in Q'. lra.
  Qed.
End LineDisk.

Lemma chord2_eq : forall l d, 0 < pdot (ldir l) (ldir l) ->
  let diff := psub (lorigin l) (porigin (dplane d)) in
  pdot diff (ldir l) * pdot diff (ldir l) - (pdot diff diff - dradius d * dradius d) * pdot (ldir l) (ldir l) = chord2 l d.
Proof. intros l d H diff. unfold chord2. apply (disc_eq l (porigin (dplane d)) (dradius d) H). Qed.

Lemma chord2_dir : forall l d, 0 < pdot (ldir l) (ldir l) -> 0 < chord2 l d ->
  dist (foot l (porigin (dplane d))) (porigin (dplane d)) ^ 2 < dradius d * dradius d.
Proof. intros l d H HC. unfold chord2 in HC. nra. Qed.

Lemma pscale_opp : forall k a b, psub b (pscale k a) = padd b (pscale (- k) a).
Proof. vring. Qed.
Lemma on_plane_line : forall l p, line_in_plane l p -> forall q, on_line l q -> on_plane p q.
Proof.
  intros l p [H1 H2] q [t ->]. unfold on_plane in *. rewrite pdot_sub_l, pdot_add_l, pdot_scale_l, H2.
  rewrite pdot_sub_l in H1. lra.
Qed.
Lemma in_segment_line : forall l t0 t1, t0 <= t1 -> forall t, t0 <= t <= t1 ->
  in_segment (Segment (padd (lorigin l) (pscale t0 (ldir l))) (padd (lorigin l) (pscale t1 (ldir l))))
    (padd (lorigin l) (pscale t (ldir l))).
Proof.
  intros l t0 t1 H t Ht. unfold in_segment. cbn [sv0 sv1]. destruct (Req_dec t0 t1) as [E|E].
  - exists 0. split; [lra|]. assert (t = t0) by lra. subst. apply vec_eq; vunf; ring.
  - exists ((t - t0) / (t1 - t0)). split.
    + split; [apply Rmult_le_pos; [lra|left; apply Rinv_0_lt_compat; lra]|].
      apply (Rmult_le_reg_r (t1 - t0)); [lra|]. unfold Rdiv. rewrite Rmult_assoc, Rinv_l by lra. lra.
    + apply vec_eq; vunf; field; lra.
Qed.
Lemma in_segment_line_inv : forall l t0 t1, t0 <= t1 -> forall q,
  in_segment (Segment (padd (lorigin l) (pscale t0 (ldir l))) (padd (lorigin l) (pscale t1 (ldir l)))) q ->
  exists t, t0 <= t <= t1 /\ q = padd (lorigin l) (pscale t (ldir l)).
Proof.
  intros l t0 t1 H q (k & Hk & ->). cbn [sv0 sv1]. exists (t0 + k * (t1 - t0)). split; [nra|].
  apply vec_eq; vunf; ring.
Qed.

Lemma line_disk_eval : forall l d tol, 0 < tol -> 0 < pdot (ldir l) (ldir l) ->
  let c := porigin (dplane d) in
  let a2 := pdot (ldir l) (ldir l) in
  let a1 := pdot (psub (lorigin l) c) (ldir l) in
  let root := sqrt (chord2 l d) in
  int_line_disk (fline l) (fdisk d) (Fin tol) =
  if rltb (chord2 l d) (- tol) then None
  else if rltb (Rabs (chord2 l d)) tol then Some (fseg (Segment (foot l c) (foot l c)))
  else if rltb (chord2 l d) 0 then Some (Segment nan_vec nan_vec)
  else Some (fseg (Segment (padd (lorigin l) (pscale (- (a1 + root) * / a2) (ldir l)))
                           (padd (lorigin l) (pscale (- (a1 - root) * / a2) (ldir l))))).
Proof.
  intros l d tol Ht Ha c a2 a1 root. unfold int_line_disk, fline, fdisk, fplane, dcenter.
  cbn [lorigin ldir dradius dplane porigin]. push.
  pose proof (chord2_eq l d Ha) as E. cbv zeta in E. fold c in E |- *.
  fold a2 a1 in E |- *. rewrite E. unfold root. clear root.
  destruct (rltb (chord2 l d) (- tol)) eqn:E1; auto. rb.
  rewrite e_ndiv by (unfold a2; lra). push.
  destruct (rltb (Rabs (chord2 l d)) tol) eqn:E2; rb.
  - unfold fseg. cbn [sv0 sv1].
    assert (F : psub (lorigin l) (pscale (a1 * (1 / a2)) (ldir l)) = foot l c).
    { rewrite pscale_opp. unfold foot. f_equal. f_equal. fold a2. unfold a1. 
      replace (pdot (psub c (lorigin l)) (ldir l)) with (- pdot (psub (lorigin l) c) (ldir l)) by (vunf; ring).
      field. unfold a2. lra. }
    rewrite F. reflexivity.
  - destruct (rltb (chord2 l d) 0) eqn:E3.
    { cbn [nsqrt ER_Num]. unfold esqrt. rewrite E3. reflexivity. }
    rb. rewrite e_nsqrt by auto. push. unfold fseg. cbn [sv0 sv1]. rewrite !pscale_opp.
    replace (- ((a1 + sqrt (chord2 l d)) * (1 / a2))) with (- (a1 + sqrt (chord2 l d)) * / a2) by (field; unfold a2; lra).
    replace (- ((a1 - sqrt (chord2 l d)) * (1 / a2))) with (- (a1 - sqrt (chord2 l d)) * / a2) by (field; unfold a2; lra).
    reflexivity.
Qed.

Lemma roots_le : forall a1 a2 w, 0 < a2 -> 0 <= w -> - (a1 + w) * / a2 <= - (a1 - w) * / a2.
Proof. intros. apply Rmult_le_compat_r; [left; now apply Rinv_0_lt_compat|lra]. Qed.

Lemma line_disk_chord : forall l d tol, 0 < tol -> 0 <= dradius d -> 0 < pdot (ldir l) (ldir l) ->
  line_in_plane l (dplane d) -> tol <= chord2 l d ->
  exists s, int_line_disk (fline l) (fdisk d) (Fin tol) = Some (fseg s) /\
    on_line l (sv0 s) /\ on_line l (sv1 s) /\ on_circle d (sv0 s) /\ on_circle d (sv1 s) /\
    forall q, in_segment s q <-> on_line l q /\ in_disk d q.
Proof.
  intros l d tol Ht Hr Ha HP HC. pose proof (line_disk_eval l d tol Ht Ha) as E. cbv zeta in E.
  rewrite E. clear E.
  replace (rltb (chord2 l d) (- tol)) with false by (symmetry; apply rltb_false; lra).
  replace (rltb (Rabs (chord2 l d)) tol) with false by (symmetry; apply rltb_false; rewrite Rabs_pos_eq; lra).
  replace (rltb (chord2 l d) 0) with false by (symmetry; apply rltb_false; lra).
  pose proof (chord2_eq l d Ha) as CE. cbv zeta in CE.
  pose proof (in_iff_root l (porigin (dplane d)) (dradius d) Ha Hr) as II.
  pose proof (on_iff l (porigin (dplane d)) (dradius d) Ha Hr) as OI.
  rewrite CE in II, OI. specialize (II ltac:(lra)). specialize (OI ltac:(lra)).
  pose proof (roots_le (pdot (psub (lorigin l) (porigin (dplane d))) (ldir l)) _ _ Ha (sqrt_pos (chord2 l d))) as RL.
  eexists. split; [reflexivity|]. cbn [sv0 sv1].
  assert (L0 : forall t, on_line l (padd (lorigin l) (pscale t (ldir l)))) by (intros t; exists t; reflexivity).
  split; [apply L0|]. split; [apply L0|].
  split; [split; [apply (on_plane_line l _ HP); apply L0|apply OI; now left]|].
  split; [split; [apply (on_plane_line l _ HP); apply L0|apply OI; now right]|].
  intros q. split.
  - intros H. apply in_segment_line_inv in H; auto. destruct H as (t & H & ->).
    split; [apply L0|]. split; [apply (on_plane_line l _ HP); apply L0|]. now apply II.
  - intros [[t ->] [_ HD]]. apply in_segment_line; auto. now apply II.
Qed.
Lemma line_disk_none : forall l d tol, 0 < tol -> 0 <= dradius d -> 0 < pdot (ldir l) (ldir l) ->
  int_line_disk (fline l) (fdisk d) (Fin tol) = None -> forall q, on_line l q -> ~ in_disk d q.
Proof.
  intros l d tol Ht Hr Ha E q [t ->] [_ HD]. rewrite line_disk_eval in E by auto. cbv zeta in E.
  destruct (rltb (chord2 l d) (- tol)) eqn:E1; [rb|destruct (rltb (Rabs _) tol); [discriminate|destruct (rltb _ 0); discriminate]].
  apply (in_iff l (porigin (dplane d)) (dradius d) Ha Hr) in HD.
  pose proof (chord2_eq l d Ha) as CE. cbv zeta in CE. rewrite CE in HD.
  match type of HD with ?x * ?x <= _ => pose proof (Rle_0_sqr x) as P; unfold Rsqr in P end. lra.
Qed.
Lemma line_disk_tangent : forall l d tol, 0 < tol -> 0 < pdot (ldir l) (ldir l) ->
  - tol < chord2 l d < tol ->
  int_line_disk (fline l) (fdisk d) (Fin tol) =
  Some (fseg (Segment (foot l (porigin (dplane d))) (foot l (porigin (dplane d))))).
Proof.
  intros l d tol Ht Ha HC. rewrite line_disk_eval by auto. cbv zeta.
  replace (rltb (chord2 l d) (- tol)) with false by (symmetry; apply rltb_false; lra).
  replace (rltb (Rabs (chord2 l d)) tol) with true; auto.
  symmetry. apply rltb_true. unfold Rabs. destruct (Rcase_abs _); lra.
Qed.

(** ** Segment and disk. *)
Lemma seg_degenerated : forall s tol, seg_is_degenerated (fseg s) (Fin tol) = rltb (dist (sv0 s) (sv1 s)) tol.
Proof.
  intros. unfold seg_is_degenerated, fseg. cbn [sv0 sv1]. push. rewrite f_approx0, Rabs_pos_eq by apply pnorm_nonneg.
  reflexivity.
Qed.
Lemma disk_degenerated : forall d tol, 0 <= dradius d ->
  disk_is_degenerated (fdisk d) (Fin tol) = rltb (dradius d) tol || rltb (pnorm (pnormal (dplane d))) tol.
Proof.
  intros. unfold disk_is_degenerated, plane_is_degenerated, fdisk, fplane. cbn [dradius dplane pnormal]. push.
  rewrite !f_approx0, !Rabs_pos_eq by (auto using pnorm_nonneg). reflexivity.
Qed.
Lemma seg_vec_pos : forall s tol, 0 < tol -> tol <= dist (sv0 s) (sv1 s) ->
  0 < pdot (ldir (seg_line s)) (ldir (seg_line s)).
Proof.
  intros s tol Ht H. rewrite dist_sym in H. unfold dist in H. unfold seg_line. cbn [ldir].
  rewrite <- pnorm_sq. nra.
Qed.
Section SegDisk.
  Variables (s : segment R) (d : disk R) (tol : R).
  Hypothesis Ht : 0 < tol.
  Hypothesis Hr : 0 <= dradius d.
  Let l := seg_line s.
  Let c := porigin (dplane d).
  Let a2 := pdot (ldir l) (ldir l).
  Let a1 := pdot (psub (lorigin l) c) (ldir l).
  Let root := sqrt (chord2 l d).
  Let P (t : R) : pt := padd (lorigin l) (pscale t (ldir l)).
  Let t0 := - (a1 + root) * / a2.
  Let t1 := - (a1 - root) * / a2.
  Let T := - a1 * / a2.

  Lemma segment_disk_eval :
    int_segment_disk (fseg s) (fdisk d) (Fin tol) =
    if rltb (dist (sv0 s) (sv1 s)) tol || (rltb (dradius d) tol || rltb (pnorm (pnormal (dplane d))) tol) then None
    else if rltb (chord2 l d) (- tol) then None
    else if rltb (Rabs (chord2 l d)) tol then
      if rltb T 0 || rltb 1 T then None else Some (fseg (Segment (P T) (P T)))
    else if rltb (chord2 l d) 0 then Some (fseg (Segment (P 0) (P 0)))
    else if (rltb t0 0 && rltb t1 0) || (rltb 1 t0 && rltb 1 t1) then None
    else Some (fseg (Segment (P (Rmax 0 (Rmin t0 1))) (P (Rmax 0 (Rmin t1 1))))).
  Proof.
    unfold int_segment_disk. rewrite seg_degenerated, disk_degenerated by auto.
    destruct (rltb (dist (sv0 s) (sv1 s)) tol) eqn:E0; [reflexivity|]. cbn [orb].
    destruct (rltb (dradius d) tol || _) eqn:E00; [reflexivity|]. rb.
    pose proof (seg_vec_pos s tol Ht E0) as Ha. fold l in Ha. fold a2 in Ha.
    unfold seg_vector, fdisk, fplane, dcenter, fseg.
    cbn [sv0 sv1 dradius dplane porigin]. push.
    pose proof (chord2_eq l d Ha) as E. cbv zeta in E. fold c in E |- *.
    change (psub (sv1 s) (sv0 s)) with (ldir l). change (sv0 s) with (lorigin l).
    fold a2 a1 in E |- *. rewrite E.
    destruct (rltb (chord2 l d) (- tol)) eqn:E1; auto. rb.
    rewrite e_ndiv by lra. push. replace (1 / a2) with (/ a2) by (field; lra). 
    destruct (rltb (Rabs (chord2 l d)) tol) eqn:E2; rb.
    - fold T. destruct (rltb T 0 || rltb 1 T); reflexivity.
    - destruct (rltb (chord2 l d) 0) eqn:E3.
      { cbn [nsqrt ER_Num]. unfold esqrt. rewrite E3. unfold nmax, nmin. cbn [nlt nle nadd nsub nopp nmul ER_Num eadd esub eopp emul eltb andb orb].
        push. unfold P. reflexivity. }
      rb. rewrite e_nsqrt by auto. push. fold root. fold t0 t1.
      destruct ((rltb t0 0 && rltb t1 0) || (rltb 1 t0 && rltb 1 t1)); auto.
  Qed.
  Lemma seg_point : forall t, 0 <= t <= 1 -> in_segment s (P t).
  Proof. intros t H. exists t. split; auto. Qed.
  Lemma seg_segment : Segment (P 0) (P 1) = s.
  Proof.
    unfold P, l, seg_line. destruct s as [a b]. cbn [lorigin ldir sv0 sv1]. f_equal; apply vec_eq; vunf; ring.
  Qed.
  Lemma clip_range : forall t, 0 <= Rmax 0 (Rmin t 1) <= 1.
  Proof. intros. unfold Rmax, Rmin. destruct (Rle_dec t 1); destruct (Rle_dec _ _); lra. Qed.
  Lemma clip_mono : forall x y, x <= y -> Rmax 0 (Rmin x 1) <= Rmax 0 (Rmin y 1).
  Proof. intros. unfold Rmax, Rmin. destruct (Rle_dec x 1), (Rle_dec y 1); repeat destruct (Rle_dec _ _); lra. Qed.

  (** Whatever is returned is part of the segment. *)
  Lemma segment_disk_sub : forall r, int_segment_disk (fseg s) (fdisk d) (Fin tol) = Some r ->
    exists s', r = fseg s' /\ forall q, in_segment s' q -> in_segment s q.
  Proof.
    intros r H. rewrite segment_disk_eval in H.
    destruct (rltb (dist (sv0 s) (sv1 s)) tol) eqn:E0; [discriminate|]. cbn [orb] in H.
    destruct (rltb (dradius d) tol || _) eqn:E00; [discriminate|]. rb.
    destruct (rltb (chord2 l d) (- tol)) eqn:E1; [discriminate|].
    pose proof (seg_vec_pos s tol Ht E0) as Ha. fold l in Ha. fold a2 in Ha.
    destruct (rltb (Rabs (chord2 l d)) tol) eqn:E2.
    - destruct (rltb T 0 || rltb 1 T) eqn:E3; [discriminate|]. apply orb_false_elim in E3.
      destruct E3 as [U1 U2]. repeat rb. inversion H; subst. eexists. split; [reflexivity|].
      intros q Hq. apply in_segment_line_inv in Hq; [|lra]. destruct Hq as (t & HH & ->). apply seg_point. lra.
    - destruct (rltb (chord2 l d) 0) eqn:E3.
      { inversion H; subst. eexists. split; [reflexivity|].
        intros q Hq. apply in_segment_line_inv in Hq; [|lra]. destruct Hq as (t & HH & ->). apply seg_point. lra. }
      destruct ((rltb t0 0 && rltb t1 0) || (rltb 1 t0 && rltb 1 t1)); [discriminate|].
      inversion H; subst. eexists. split; [reflexivity|].
      assert (t0 <= t1) by (apply roots_le; [exact Ha|apply sqrt_pos]).
      pose proof (clip_mono _ _ H0). pose proof (clip_range t0). pose proof (clip_range t1).
      intros q Hq. apply in_segment_line_inv in Hq; auto. destruct Hq as (t & HH & ->). apply seg_point. lra.
  Qed.
  (** Away from tangency the segment is clipped exactly. *)
  Lemma segment_disk_clip : tol <= dist (sv0 s) (sv1 s) -> tol <= dradius d -> tol <= pnorm (pnormal (dplane d)) ->
    line_in_plane l (dplane d) -> chord2 l d < - tol \/ tol <= chord2 l d ->
    match int_segment_disk (fseg s) (fdisk d) (Fin tol) with
    | Some r => exists s', r = fseg s' /\ forall q, in_segment s' q <-> in_segment s q /\ in_disk d q
    | None => forall q, in_segment s q -> ~ in_disk d q
    end.
  Proof.
    intros H1 H2 H3 HP HC. rewrite segment_disk_eval.
    replace (rltb (dist (sv0 s) (sv1 s)) tol) with false by (symmetry; now apply rltb_false).
    replace (rltb (dradius d) tol) with false by (symmetry; now apply rltb_false).
    replace (rltb (pnorm (pnormal (dplane d))) tol) with false by (symmetry; now apply rltb_false). cbn [orb].
    pose proof (seg_vec_pos s tol Ht H1) as Ha. fold l in Ha.
    assert (L0 : forall t, on_line l (P t)) by (intros t; exists t; reflexivity).
    pose proof (chord2_eq l d Ha) as CE. cbv zeta in CE.
    destruct (rltb (chord2 l d) (- tol)) eqn:E1; rb.
    { intros q (t & Hk & ->) [_ HD].
      apply (in_iff l (porigin (dplane d)) (dradius d) Ha Hr t) in HD. rewrite CE in HD.
      match type of HD with ?x * ?x <= _ => pose proof (Rle_0_sqr x) as PP; unfold Rsqr in PP end. lra. }
    assert (HC0 : 0 <= chord2 l d) by lra.
    replace (rltb (Rabs (chord2 l d)) tol) with false by (symmetry; apply rltb_false; rewrite Rabs_pos_eq; lra).
    replace (rltb (chord2 l d) 0) with false by (symmetry; now apply rltb_false).
    pose proof (in_iff_root l (porigin (dplane d)) (dradius d) Ha Hr) as II.
    rewrite CE in II. specialize (II HC0). fold root in II. fold c in II. fold a1 in II. fold a2 in II. fold t0 t1 in II.
    assert (TT : t0 <= t1) by (apply roots_le; [exact Ha|apply sqrt_pos]).
    destruct ((rltb t0 0 && rltb t1 0) || (rltb 1 t0 && rltb 1 t1)) eqn:E2.
    - intros q (t & Hk & ->) [_ HD]. apply II in HD.
      apply orb_true_elim in E2. destruct E2 as [E2|E2]; apply andb_prop in E2; destruct E2 as [X Y];
        apply rltb_true in X, Y; lra.
    - apply orb_false_elim in E2. destruct E2 as [X Y].
      assert (X' : 0 <= t1) by (apply andb_false_iff in X; destruct X as [X|X]; apply rltb_false in X; lra).
      assert (Y' : t0 <= 1) by (apply andb_false_iff in Y; destruct Y as [Y|Y]; apply rltb_false in Y; lra).
      eexists. split; [reflexivity|]. intros q. pose proof (clip_mono _ _ TT) as CM. split.
      + intros Hq. apply in_segment_line_inv in Hq; auto. destruct Hq as (t & HH & ->).
        pose proof (clip_range t0). pose proof (clip_range t1).
        split; [apply seg_point; lra|]. split; [apply (on_plane_line l _ HP); apply L0|]. apply II.
        clear - HH X' Y' TT. unfold Rmax, Rmin in HH.
        destruct (Rle_dec t0 1), (Rle_dec t1 1); repeat destruct (Rle_dec _ _); lra.
      + intros [(t & Hk & ->) [_ HD]]. apply II in HD. apply in_segment_line; auto.
        clear - HD X' Y' TT Hk. unfold Rmax, Rmin.
        destruct (Rle_dec t0 1), (Rle_dec t1 1); repeat destruct (Rle_dec _ _); lra.
  Qed.
  (** Near tangency: the foot of the center, if it is on the segment. *)
  Lemma segment_disk_tangent : forall r, - tol < chord2 l d < tol ->
    int_segment_disk (fseg s) (fdisk d) (Fin tol) = Some r ->
    r = fseg (Segment (foot l c) (foot l c)).
  Proof.
    intros r HC H. rewrite segment_disk_eval in H.
    destruct (rltb (dist (sv0 s) (sv1 s)) tol) eqn:E0; [discriminate|]. cbn [orb] in H.
    destruct (rltb (dradius d) tol || _) eqn:E00; [discriminate|]. rb.
    destruct (rltb (chord2 l d) (- tol)) eqn:E1; [discriminate|]. rb.
    pose proof (seg_vec_pos s tol Ht E0) as Ha. fold l in Ha. fold a2 in Ha.
    replace (rltb (Rabs (chord2 l d)) tol) with true in H
      by (symmetry; apply rltb_true; unfold Rabs; destruct (Rcase_abs _); lra).
    destruct (rltb T 0 || rltb 1 T) eqn:E3; [discriminate|]. inversion H.
    assert (E : P T = foot l c).
    { unfold P, foot, T. do 2 f_equal. fold a2. unfold a1. vunf. field. exact (Rgt_not_eq _ _ Ha). }
    now rewrite E.
  Qed.
End SegDisk.
