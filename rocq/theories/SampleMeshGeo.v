(** * Concrete triangles cut by a unit rib, over exact arithmetic. *)
From Coq Require Import ZArith Bool Reals Lra Lia List.
From Verif Require Import Base Num Vec Aabb Geom Ground Rib ER SpecGeom SpecRib SpecAvg.
From Verif Require Import ProofGeom ProofInt ProofTri ProofFlat ProofAvg ProofMeshGeo ProofPolar.
Import ListNotations.
Local Open Scope R_scope.

Definition thin_rib (w : R) : rib R := Rib (Disk 1 (Plane (V 0 0 0) (V 0 1 0))) 0 0 w 0.
Definition stand : affine R := Aff (M3 1 0 0 0 1 0 0 0 1) (V 0 0 0).
Definition big_disk : disk R := Disk 1 (Plane (V 0 0 0) (V 0 1 0)).
Lemma thin_good : forall w, 0 <= w -> good_rib (thin_rib w).
Proof. intros w H. unfold good_rib, thin_rib, rb_radius, rb_width, rb_normal, dnormal. cbn. vunf. repeat split; lra. Qed.
Lemma stand_rigid : rigid stand.
Proof. unfold rigid, rotation, stand. cbn [lin]. vunf. cbn [m00 m01 m02 m10 m11 m12 m20 m21 m22]. repeat split; try ring. apply vec_eq; cbn; ring. Qed.
Lemma stand_place : forall p, place stand p = p.
Proof. intros p. unfold place, stand. cbn [lin tra]. apply vec_eq; vunf; cbn [m00 m01 m02 m10 m11 m12 m20 m21 m22]; ring. Qed.
Lemma stand_apply : forall p, papply (lin stand) p = p.
Proof. intros p. unfold stand. cbn [lin]. apply vec_eq; vunf; cbn [m00 m01 m02 m10 m11 m12 m20 m21 m22]; ring. Qed.
Lemma stand_disk : forall w, posed_disk (thin_rib w) stand = big_disk.
Proof. intros w. unfold posed_disk. rewrite stand_place, stand_apply. reflexivity. Qed.

(** An isosceles triangle crossing the plane y = 0 in the segment of half
    length [h] and direction [u = (ux,0,uz)] centered at [m = (mx,0,mz)]. *)
Definition plank (h ux uz mx mz : R) : triangle R :=
  Triangle (V mx (-2) mz) (V (mx + 2 * h * ux) 2 (mz + 2 * h * uz)) (V (mx - 2 * h * ux) 2 (mz - 2 * h * uz)).

Section Cut.
  Variables h ux uz mx mz : R.
  Hypothesis Hh : 0 < h <= 2.
  Hypothesis Hu : ux * ux + uz * uz = 1.
  Let t := plank h ux uz mx mz.
  Let u : pt := V ux 0 uz.
  Let n : pt := V (- uz) 0 ux.

  Lemma plank_cross : tri_cross t = pscale (16 * h) n.
  Proof. unfold tri_cross, t, plank, n. cbn [tv0 tv1 tv2]. apply vec_eq; vunf; ring. Qed.
  Lemma n_unit : is_unit n.
  Proof. unfold n. vunf. lra. Qed.
  Lemma plank_normal : punit (tri_cross t) = n.
  Proof.
    assert (E : pdot (tri_cross t) (tri_cross t) = (16 * h) * (16 * h)).
    { rewrite plank_cross, pdot_scale_l, pdot_scale_r. rewrite n_unit. ring. }
    rewrite punit_pos by (rewrite E; nra).
    replace (pnorm (tri_cross t)) with (16 * h) by (symmetry; apply pnorm_eq; [lra|exact E]).
    rewrite plank_cross, pscale_scale. replace (/ (16 * h) * (16 * h)) with 1 by (field; lra). apply pscale_1.
  Qed.
  Lemma slanted : forall k, k = 2 * h \/ k = - (2 * h) -> forall y, y = 4 \/ y = -4 ->
    eps <= pnorm (pcross u (punit (padd (pscale k u) (V 0 y 0)))).
  Proof.
    intros k Hk y Hy. set (e := padd _ _).
    assert (E : pdot e e = 4 * h * h + 16).
    { unfold e, u. vunf. replace (k * ux + 0) with (k * ux) by ring. 
      transitivity (k * k * (ux * ux + uz * uz) + y * y); [ring|]. rewrite Hu.
      destruct Hk as [-> | ->]; destruct Hy as [-> | ->]; ring. }
    assert (P : 0 < pdot e e) by (rewrite E; nra).
    rewrite punit_pos, pcross_scale_r, pnorm_scale by auto.
    assert (N : pnorm (pcross u e) = 4).
    { apply pnorm_eq; [lra|]. unfold e, u. vunf.
      transitivity (y * y * (ux * ux + uz * uz)); [ring|]. rewrite Hu. destruct Hy as [-> | ->]; ring. }
    rewrite N. pose proof (pnorm_pos e P) as PP.
    assert (L : pnorm e <= 8) by (apply pnorm_le; [lra|rewrite E; nra]).
    rewrite Rabs_pos_eq by (left; now apply Rinv_0_lt_compat).
    assert (/ 8 <= / pnorm e) by (apply Rinv_le_contravar; lra). pose proof eps_lt1.
    assert (eps <= / 2) by (unfold eps; lra). lra.
  Qed.
  Lemma plank_cut : int_plane_triangle (fplane (dplane big_disk)) (ftri t) (Fin eps) =
    Ret (Some (fseg (Segment (V (mx - h * ux) 0 (mz - h * uz)) (V (mx + h * ux) 0 (mz + h * uz))))).
  Proof.
    unfold int_plane_triangle. rewrite f_tri_plane.
    rewrite plane_plane_eval; [|unfold big_disk; cbn [dplane]; vunf; ring|unfold rtri_plane; cbn [pnormal]; rewrite plank_normal; exact n_unit|apply eps_pos].
    set (k := - mx * uz + mz * ux).
    match goal with |- context [pp_line ?a ?b] => assert (EL : pp_line a b = Line (V (- k * uz) 0 (k * ux)) u) end.
    { unfold pp_line, rtri_plane, big_disk. cbn [dplane porigin pnormal]. rewrite plank_normal. unfold t, plank, n, u, k. cbn [tv0 tv1 tv2].
      f_equal; apply vec_eq; vunf; field; lra. }
    rewrite EL. cbn [rtri_plane pnormal big_disk dplane]. rewrite plank_normal.
    replace (pdot (V 0 1 0) n) with 0 by (unfold n; vunf; ring).
    replace (rltb (1 - 0 * 0) eps) with false by (symmetry; apply rltb_false; pose proof eps_lt1; lra).
    unfold int_line_triangle_seg.
    assert (L : forall x, on_line (Line (V (- k * uz) 0 (k * ux)) u) (V (mx + x * ux) 0 (mz + x * uz))).
    { intros x. exists (mx * ux + mz * uz + x). unfold k, u. apply vec_eq; vunf.
      - transitivity (mx * (ux * ux + uz * uz) + x * ux); [rewrite Hu; ring|ring].
      - ring.
      - transitivity (mz * (ux * ux + uz * uz) + x * uz); [rewrite Hu; ring|ring]. }
    change (tri_edge0 (ftri t)) with (fseg (Segment (tv0 t) (tv1 t))).
    change (tri_edge1 (ftri t)) with (fseg (Segment (tv1 t) (tv2 t))).
    change (tri_edge2 (ftri t)) with (fseg (Segment (tv2 t) (tv0 t))).
    rewrite (line_segment_complete _ _ eps (V (mx + h * ux) 0 (mz + h * uz)) eps_pos); auto.
    - rewrite (line_segment_parallel _ (Segment (tv1 t) (tv2 t))).
      + rewrite (line_segment_complete _ _ eps (V (mx - h * ux) 0 (mz - h * uz)) eps_pos); auto.
        * cbn [sv0 sv1 ldir].
          replace (psub (tv0 t) (tv2 t)) with (padd (pscale (2 * h) u) (V 0 (-4) 0)).
          -- apply slanted; auto.
          -- unfold t, plank, u. cbn [tv0 tv2]. apply vec_eq; vunf; ring.
        * replace (V (mx - h * ux) 0 (mz - h * uz)) with (V (mx + (- h) * ux) 0 (mz + (- h) * uz)) by (f_equal; ring). apply L.
        * exists (1 / 2). split; [lra|]. cbn [sv0 sv1]. unfold t, plank. cbn [tv0 tv2]. apply vec_eq; vunf; field.
      + cbn [sv0 sv1 ldir]. replace (psub (tv2 t) (tv1 t)) with (pscale (- (4 * h)) u)
          by (unfold t, plank, u; cbn [tv1 tv2]; apply vec_eq; vunf; ring).
        assert (UU : pdot u u = 1) by (unfold u; vunf; lra).
        rewrite punit_pos by (rewrite pdot_scale_l, pdot_scale_r, UU; nra).
        rewrite !pcross_scale_r, !pnorm_scale.
        replace (pcross u u) with (V 0 0 0 : pt) by (unfold u; apply vec_eq; vunf; ring).
        replace (pnorm (V 0 0 0)) with 0 by (symmetry; apply pnorm_eq; [lra|vunf; ring]).
        rewrite !Rmult_0_r. apply eps_pos.
    - cbn [sv0 sv1 ldir].
      replace (psub (tv1 t) (tv0 t)) with (padd (pscale (2 * h) u) (V 0 4 0))
        by (unfold t, plank, u; cbn [tv0 tv1]; apply vec_eq; vunf; ring).
      apply slanted; auto.
    - exists (1 / 2). split; [lra|]. cbn [sv0 sv1]. unfold t, plank. cbn [tv0 tv1]. apply vec_eq; vunf; field.
  Qed.

  (** The cut clipped by the unit disk; [m] is the point of the line nearest
      to the center up to [k u]. *)
  Let s := Segment (V (mx - h * ux) 0 (mz - h * uz)) (V (mx + h * ux) 0 (mz + h * uz)).
  Lemma plank_clip : (eps <= 2 * h) ->
    int_triangle_disk (ftri t) (fdisk big_disk) (Fin eps) = Ret
     (let q := mx * ux + mz * uz in let c2 := (4 * h * h) * (1 - mx * mx - mz * mz + q * q) in
      let P x := V (mx + x * ux) 0 (mz + x * uz) in
      if rltb c2 (- eps) then None
      else if rltb (Rabs c2) eps then
        (if rltb (h - q) 0 || rltb (2 * h) (h - q) then None else Some (fseg (Segment (P (- q)) (P (- q)))))
      else if rltb c2 0 then Some (fseg (Segment (P (- h)) (P (- h))))
      else let w := sqrt (1 - mx * mx - mz * mz + q * q) in
        if (rltb (- q - w) (- h) && rltb (- q + w) (- h)) || (rltb h (- q - w) && rltb h (- q + w)) then None
        else Some (fseg (Segment (P (Rmax (- h) (Rmin (- q - w) h))) (P (Rmax (- h) (Rmin (- q + w) h)))))).
  Proof.
    intros He. unfold int_triangle_disk. change (dplane (fdisk big_disk)) with (fplane (dplane big_disk)).
    rewrite plank_cut. cbn [obind]. f_equal. fold s. rewrite segment_disk_eval; [|apply eps_pos|cbn; lra].
    assert (D : dist (sv0 s) (sv1 s) = 2 * h).
    { unfold dist. apply pnorm_eq; [lra|]. unfold s. vunf.
      transitivity (4 * h * h * (ux * ux + uz * uz)); [ring|]. rewrite Hu. ring. }
    rewrite D. replace (rltb (2 * h) eps) with false by (symmetry; now apply rltb_false).
    cbn [big_disk dplane dradius pnormal porigin]. pose proof eps_lt1 as E1. pose proof eps_pos as E0.
    replace (rltb 1 eps) with false by (symmetry; apply rltb_false; lra).
    replace (pnorm (V 0 1 0)) with 1 by (symmetry; apply pnorm_eq; [lra|vunf; ring]).
    replace (rltb 1 eps) with false by (symmetry; apply rltb_false; lra). cbn [orb].
    set (q := mx * ux + mz * uz).
    assert (DD : ldir (seg_line s) = pscale (2 * h) u) by (unfold seg_line, s, u; cbn [ldir sv0 sv1]; apply vec_eq; vunf; ring).
    assert (UU : pdot u u = 1) by (unfold u; vunf; lra).
    assert (A2 : pdot (ldir (seg_line s)) (ldir (seg_line s)) = 4 * h * h).
    { rewrite DD, pdot_scale_l, pdot_scale_r, UU. ring. }
    assert (LO : lorigin (seg_line s) = V (mx - h * ux) 0 (mz - h * uz)) by reflexivity.
    assert (A1 : pdot (psub (lorigin (seg_line s)) (V 0 0 0)) (ldir (seg_line s)) = 2 * h * (q - h)).
    { rewrite LO, DD. unfold u, q. vunf.
      transitivity (2 * h * (mx * ux + mz * uz - h * (ux * ux + uz * uz))); [ring|]. rewrite Hu. ring. }
    assert (C2 : chord2 (seg_line s) (Disk 1 (Plane (V 0 0 0) (V 0 1 0))) = 4 * h * h * (1 - mx * mx - mz * mz + q * q)).
    { pose proof (chord2_eq (seg_line s) (Disk 1 (Plane (V 0 0 0) (V 0 1 0))) ltac:(rewrite A2; nra)) as CE.
      cbv zeta in CE. cbn [dplane porigin dradius] in CE. rewrite <- CE, A1, A2.
      replace (pdot (psub (lorigin (seg_line s)) (V 0 0 0)) (psub (lorigin (seg_line s)) (V 0 0 0)))
        with (mx * mx + mz * mz - 2 * h * q + h * h).
      - ring.
      - rewrite LO. unfold q. vunf.
        transitivity (mx * mx + mz * mz - 2 * h * (mx * ux + mz * uz) + h * h * (ux * ux + uz * uz)); [rewrite Hu; ring|ring]. }
    change (Disk 1 (Plane (V 0 0 0) (V 0 1 0))) with big_disk in C2.
    rewrite C2, A1, A2. set (c0 := 1 - mx * mx - mz * mz + q * q). set (c2 := 4 * h * h * c0).
    cbn zeta.
    assert (PT : forall x, padd (lorigin (seg_line s)) (pscale x (ldir (seg_line s))) =
                   V (mx + (2 * h * x - h) * ux) 0 (mz + (2 * h * x - h) * uz)).
    { intros x. rewrite LO, DD. unfold u. apply vec_eq; vunf; ring. }
    destruct (rltb c2 (- eps)) eqn:R1; auto.
    destruct (rltb (Rabs c2) eps) eqn:R2.
    { replace (- (2 * h * (q - h)) * / (4 * h * h)) with ((h - q) * / (2 * h)) by (field; lra).
      assert (HI : 0 < / (2 * h)) by (apply Rinv_0_lt_compat; lra).
      assert (HM : 2 * h * / (2 * h) = 1) by (field; lra).
      replace (rltb ((h - q) * / (2 * h)) 0) with (rltb (h - q) 0).
      2:{ destruct (rltb (h - q) 0) eqn:X; symmetry; [apply rltb_true in X; apply rltb_true|apply rltb_false in X; apply rltb_false]; nra. }
      replace (rltb 1 ((h - q) * / (2 * h))) with (rltb (2 * h) (h - q)).
      2:{ destruct (rltb (2 * h) (h - q)) eqn:X; symmetry; [apply rltb_true in X; apply rltb_true|apply rltb_false in X; apply rltb_false]; nra. }
      destruct (rltb (h - q) 0 || rltb (2 * h) (h - q)); auto.
      rewrite PT. replace (2 * h * ((h - q) * / (2 * h)) - h) with (- q) by (field; lra). reflexivity. }
    destruct (rltb c2 0) eqn:R3.
    { rewrite PT. replace (2 * h * 0 - h) with (- h) by ring. reflexivity. }
    apply rltb_false in R3. assert (H4 : 0 < 4 * h * h) by nra.
    assert (C0 : 0 <= c0) by (apply Rnot_lt_le; intros N; unfold c2 in R3; nra).
    replace (sqrt c2) with (2 * h * sqrt c0).
    2:{ unfold c2. replace (4 * h * h) with ((2 * h) * (2 * h)) by ring. rewrite sqrt_mult_alt, sqrt_square by nra. reflexivity. }
    set (w := sqrt c0).
    replace (- (2 * h * (q - h) + 2 * h * w) * / (4 * h * h)) with ((- q - w + h) * / (2 * h)) by (field; lra).
    replace (- (2 * h * (q - h) - 2 * h * w) * / (4 * h * h)) with ((- q + w + h) * / (2 * h)) by (field; lra).
    assert (HI : 0 < / (2 * h)) by (apply Rinv_0_lt_compat; lra).
    assert (HM : 2 * h * / (2 * h) = 1) by (field; lra).
    assert (B0 : forall x, rltb ((x + h) * / (2 * h)) 0 = rltb x (- h)).
    { intros x. destruct (rltb x (- h)) eqn:X; [apply rltb_true in X; apply rltb_true|apply rltb_false in X; apply rltb_false]; nra. }
    assert (B1 : forall x, rltb 1 ((x + h) * / (2 * h)) = rltb h x).
    { intros x. destruct (rltb h x) eqn:X; [apply rltb_true in X; apply rltb_true|apply rltb_false in X; apply rltb_false]; nra. }
    assert (B2 : forall x, 2 * h * Rmax 0 (Rmin ((x + h) * / (2 * h)) 1) - h = Rmax (- h) (Rmin x h)).
    { intros x. set (y := (x + h) * / (2 * h)). assert (X : x = 2 * h * y - h) by (unfold y; field; lra). rewrite X. clearbody y.
      unfold Rmax, Rmin. repeat destruct (Rle_dec _ _); nra. }
    rewrite !B0, !B1. destruct (_ || _); auto. rewrite !PT, !B2. reflexivity.
  Qed.
End Cut.

Lemma sqrt_is : forall x y, 0 <= y -> x = y * y -> sqrt x = y.
Proof. intros x y H ->. now apply sqrt_square. Qed.
Lemma eps_small : eps < / 100.
Proof. unfold eps. lra. Qed.

(** A piece of road 3/5 below the axle. *)
Definition road : triangle R := plank (3 / 2) 1 0 0 (-3 / 5).
Lemma road_cut : int_triangle_disk (ftri road) (fdisk big_disk) (Fin eps) =
  Ret (Some (fseg (Segment (V (-4 / 5) 0 (-3 / 5)) (V (4 / 5) 0 (-3 / 5))))).
Proof.
  pose proof eps_small as ES. pose proof eps_pos as EP. unfold road. rewrite plank_clip by lra. cbn zeta.
  replace (4 * (3 / 2) * (3 / 2) * (1 - 0 * 0 - -3 / 5 * (-3 / 5) + (0 * 1 + -3 / 5 * 0) * (0 * 1 + -3 / 5 * 0))) with (144 / 25) by field.
  replace (sqrt (1 - 0 * 0 - -3 / 5 * (-3 / 5) + (0 * 1 + -3 / 5 * 0) * (0 * 1 + -3 / 5 * 0))) with (4 / 5)
    by (symmetry; apply sqrt_is; lra).
  rewrite Rabs_pos_eq by lra.
  replace (rltb (144 / 25) (- eps)) with false by (symmetry; apply rltb_false; lra).
  replace (rltb (144 / 25) eps) with false by (symmetry; apply rltb_false; lra).
  replace (rltb (144 / 25) 0) with false by (symmetry; apply rltb_false; lra).
  replace (- (0 * 1 + -3 / 5 * 0) - 4 / 5) with (-4 / 5) by field. replace (- (0 * 1 + -3 / 5 * 0) + 4 / 5) with (4 / 5) by field.
  replace (rltb (-4 / 5) (- (3 / 2))) with false by (symmetry; apply rltb_false; lra).
  replace (rltb (3 / 2) (-4 / 5)) with false by (symmetry; apply rltb_false; lra). cbn [andb orb].
  rewrite !Rmin_left, !Rmax_right by lra. do 3 f_equal. f_equal; apply vec_eq; cbn [vx vy vz]; field.
Qed.
(** A chip 2^-13 wide at the same place. *)
Definition chip : triangle R := plank (/ 2 ^ 14) 1 0 0 (-3 / 5).
Lemma chip_cut : int_triangle_disk (ftri chip) (fdisk big_disk) (Fin eps) =
  Ret (Some (fseg (Segment (V 0 0 (-3 / 5)) (V 0 0 (-3 / 5))))).
Proof.
  pose proof eps_small as ES. pose proof eps_pos as EP. unfold chip.
  assert (H0 : 0 < / 2 ^ 14) by (apply Rinv_0_lt_compat; lra).
  assert (EH : eps = 4 * (/ 2 ^ 14) * (/ 2 ^ 14)) by (unfold eps; field).
  assert (H2 : / 2 ^ 14 <= / 100) by lra.
  set (h := / 2 ^ 14) in *. clearbody h.
  rewrite plank_clip by (try lra; nra). cbn zeta.
  replace (1 - 0 * 0 - -3 / 5 * (-3 / 5) + (0 * 1 + -3 / 5 * 0) * (0 * 1 + -3 / 5 * 0)) with (16 / 25) by field.
  assert (P : 0 <= 4 * h * h * (16 / 25)) by nra. rewrite (Rabs_pos_eq _ P).
  replace (rltb (4 * h * h * (16 / 25)) (- eps)) with false by (symmetry; apply rltb_false; lra).
  replace (rltb (4 * h * h * (16 / 25)) eps) with true by (symmetry; apply rltb_true; nra).
  replace (0 * 1 + -3 / 5 * 0) with 0 by field. rewrite Rminus_0_r, Ropp_0.
  replace (rltb h 0) with false by (symmetry; apply rltb_false; lra).
  replace (rltb (2 * h) h) with false by (symmetry; apply rltb_false; lra). cbn [orb].
  do 3 f_equal. f_equal; apply vec_eq; cbn [vx vy vz]; field.
Qed.
(** A step edge under the axle: a vertical triangle in the plane x = 0. *)
Definition step : triangle R := plank (3 / 2) 0 1 0 (-2).
Lemma step_cut : int_triangle_disk (ftri step) (fdisk big_disk) (Fin eps) =
  Ret (Some (fseg (Segment (V 0 0 (-1)) (V 0 0 (- / 2))))).
Proof.
  pose proof eps_small as ES. pose proof eps_pos as EP. unfold step. rewrite plank_clip by lra. cbn zeta.
  replace (1 - 0 * 0 - -2 * -2 + (0 * 0 + -2 * 1) * (0 * 0 + -2 * 1)) with 1 by field. rewrite sqrt_1.
  replace (4 * (3 / 2) * (3 / 2) * 1) with 9 by field.
  rewrite Rabs_pos_eq by lra.
  replace (rltb 9 (- eps)) with false by (symmetry; apply rltb_false; lra).
  replace (rltb 9 eps) with false by (symmetry; apply rltb_false; lra).
  replace (rltb 9 0) with false by (symmetry; apply rltb_false; lra).
  replace (- (0 * 0 + -2 * 1) - 1) with 1 by field. replace (- (0 * 0 + -2 * 1) + 1) with 3 by field.
  replace (rltb 1 (- (3 / 2))) with false by (symmetry; apply rltb_false; lra).
  replace (rltb (3 / 2) 1) with false by (symmetry; apply rltb_false; lra). cbn [andb orb].
  rewrite (Rmin_left 1) by lra. rewrite (Rmin_right 3) by lra. rewrite !Rmax_right by lra.
  do 3 f_equal. f_equal; apply vec_eq; cbn [vx vy vz]; field.
Qed.
(** A wall behind the wheel: the plane x = -3/5. *)
Definition wall : triangle R := plank (3 / 2) 0 1 (-3 / 5) 0.
Lemma wall_cut : int_triangle_disk (ftri wall) (fdisk big_disk) (Fin eps) =
  Ret (Some (fseg (Segment (V (-3 / 5) 0 (-4 / 5)) (V (-3 / 5) 0 (4 / 5))))).
Proof.
  pose proof eps_small as ES. pose proof eps_pos as EP. unfold wall. rewrite plank_clip by lra. cbn zeta.
  replace (1 - -3 / 5 * (-3 / 5) - 0 * 0 + (-3 / 5 * 0 + 0 * 1) * (-3 / 5 * 0 + 0 * 1)) with (16 / 25) by field.
  replace (4 * (3 / 2) * (3 / 2) * (16 / 25)) with (144 / 25) by field.
  replace (sqrt (16 / 25)) with (4 / 5) by (symmetry; apply sqrt_is; lra).
  rewrite Rabs_pos_eq by lra.
  replace (rltb (144 / 25) (- eps)) with false by (symmetry; apply rltb_false; lra).
  replace (rltb (144 / 25) eps) with false by (symmetry; apply rltb_false; lra).
  replace (rltb (144 / 25) 0) with false by (symmetry; apply rltb_false; lra).
  replace (- (-3 / 5 * 0 + 0 * 1) - 4 / 5) with (-4 / 5) by field. replace (- (-3 / 5 * 0 + 0 * 1) + 4 / 5) with (4 / 5) by field.
  replace (rltb (-4 / 5) (- (3 / 2))) with false by (symmetry; apply rltb_false; lra).
  replace (rltb (3 / 2) (-4 / 5)) with false by (symmetry; apply rltb_false; lra). cbn [andb orb].
  rewrite !Rmin_left, !Rmax_right by lra. do 3 f_equal. f_equal; apply vec_eq; cbn [vx vy vz]; field.
Qed.

Lemma ground_exists : forall t f, 0 <= f -> exists g, ground_of t f g.
Proof.
  intros t f H. unfold ground_of, mk_tground. rewrite e_ofZ, e_le.
  rewrite (proj2 (rleb_true 0 f) H). eexists. exists 0%Z. reflexivity.
Qed.
Lemma stand_in_rib : forall w p, in_rib (thin_rib w) stand p = p.
Proof.
  intros w p. unfold in_rib. rewrite stand_place. unfold stand, ptrans. cbn [lin m00 m01 m02 m10 m11 m12 m20 m21 m22].
  unfold thin_rib, rb_center, dcenter. cbn [rb_disk dplane porigin]. apply vec_eq; vunf; cbn [m00 m01 m02 m10 m11 m12 m20 m21 m22]; ring.
Qed.
Lemma cut_of : forall w t f g r, ground_of t f g -> int_triangle_disk (ftri t) (fdisk big_disk) (Fin eps) = r ->
  int_triangle_disk (tg_tri g) (disk_grd (frib (thin_rib w)) (fa stand)) neps = r.
Proof. intros w t f g r G H. destruct (ground_of_fields _ _ _ G) as (-> & _). now rewrite f_disk, stand_disk. Qed.
