(** * Intersections of entities on one line. *)
From Coq Require Import ZArith Bool List Reals Lra Lia.
From Verif Require Import Base Num Vec Aabb Geom Acme AcmeEntity ER SpecGeom SpecAcme SpecEntity.
From Verif Require Import ProofGeom ProofInt ProofAcme ProofCross ProofEntity ProofPred.
Import ListNotations.
Local Open Scope R_scope.

(** ** Abscissas on a line. *)
Section Abscissa.
  Variable l : line R.
  Hypothesis U : is_unit (ldir l).
  Definition at_ (x : R) : pt := padd (lorigin l) (pscale x (ldir l)).
  Lemma at_sub : forall x y, psub (at_ x) (at_ y) = pscale (x - y) (ldir l).
  Proof. intros. unfold at_. apply vec_eq; vunf; ring. Qed.
  Lemma at_dist : forall x y, dist (at_ x) (at_ y) = Rabs (x - y).
  Proof.
    intros. unfold dist. rewrite at_sub, pnorm_scale. replace (pnorm (ldir l)) with 1; [ring|].
    symmetry. apply pnorm_eq; [lra|]. unfold is_unit in U. rewrite U. ring.
  Qed.
  Lemma at_add : forall x t k, padd (at_ x) (pscale t (pscale k (ldir l))) = at_ (x + t * k).
  Proof. intros. unfold at_. apply vec_eq; vunf; ring. Qed.
  Lemma at_inj : forall x y, at_ x = at_ y -> x = y.
  Proof.
    intros x y E. assert (D : dist (at_ x) (at_ y) = 0).
    { rewrite E. unfold dist. replace (psub (at_ y) (at_ y)) with (V 0 0 0) by (apply vec_eq; vunf; ring).
      unfold pnorm. replace (pdot (V 0 0 0) (V 0 0 0)) with 0 by (vunf; ring). apply sqrt_0. }
    rewrite at_dist in D. unfold Rabs in D. destruct (Rcase_abs (x - y)); lra.
  Qed.

  Lemma at_ray : forall s k x, k <> 0 -> (on_ray (Ray (at_ s) (pscale k (ldir l))) (at_ x) <-> 0 <= (x - s) * k).
  Proof.
    intros s k x K. unfold on_ray. cbn [ry_origin ry_dir]. split.
    - intros (t & T & E). rewrite at_add in E. apply at_inj in E. subst x. replace ((s + t * k - s) * k) with (t * (k * k)) by ring.
      apply Rmult_le_pos; [exact T|]. apply Rle_0_sqr.
    - intros H. exists ((x - s) / k). split.
      + replace ((x - s) / k) with ((x - s) * k * / (k * k)) by (field; exact K). apply Rmult_le_pos; [exact H|].
        left. apply Rinv_0_lt_compat. destruct (Rdichotomy k 0 K); nra.
      + rewrite at_add. f_equal. field. exact K.
  Qed.
  Lemma at_segment : forall a b x, in_segment (Segment (at_ a) (at_ b)) (at_ x) <-> Rmin a b <= x <= Rmax a b.
  Proof.
    intros a b x. unfold in_segment. cbn [sv0 sv1]. rewrite at_sub. split.
    - intros (t & T & E). rewrite at_add in E. apply at_inj in E. subst x. unfold Rmin, Rmax. destruct (Rle_dec a b); nra.
    - intros H. destruct (Req_dec a b) as [->|N].
      + exists 0. split; [lra|]. rewrite at_add. f_equal. unfold Rmin, Rmax in H. destruct (Rle_dec b b); lra.
      + exists ((x - a) / (b - a)). split.
        * unfold Rmin, Rmax in H. destruct (Rle_dec a b).
          -- split; [apply Rle_mult_inv_pos; lra|]. apply Rmult_le_reg_r with (b - a); [lra|]. unfold Rdiv. rewrite Rmult_assoc, Rinv_l by lra. lra.
          -- replace ((x - a) / (b - a)) with ((a - x) / (a - b)) by (field; lra).
             split; [apply Rle_mult_inv_pos; lra|]. apply Rmult_le_reg_r with (a - b); [lra|]. unfold Rdiv. rewrite Rmult_assoc, Rinv_l by lra. lra.
        * rewrite at_add. f_equal. field. lra.
  Qed.
  Lemma ray_on : forall s k q, on_ray (Ray (at_ s) (pscale k (ldir l))) q -> exists x, q = at_ x.
  Proof. intros s k q (t & T & ->). cbn [ry_origin ry_dir]. rewrite at_add. eauto. Qed.
  Lemma segment_on : forall a b q, in_segment (Segment (at_ a) (at_ b)) q -> exists x, q = at_ x.
  Proof. intros a b q (t & T & ->). cbn [sv0 sv1]. rewrite at_sub, at_add. eauto. Qed.

  Lemma f_ray_inside : forall s k x tol, 0 < tol -> k <> 0 ->
    (ray_is_inside (fray (Ray (at_ s) (pscale k (ldir l)))) (fv (at_ x)) (Fin tol) = true <-> on_ray (Ray (at_ s) (pscale k (ldir l))) (at_ x)).
  Proof.
    intros s k x tol T K. rewrite at_ray by exact K. unfold ray_is_inside. rewrite f_rorigin, f_rdir. cbn [ry_origin ry_dir].
    rewrite f_sub, at_sub, f_normalized. destruct (punit_scale (pscale (x - s) (ldir l))) as (c & C & E). rewrite E.
    rewrite f_cross, f_norm, f_dot, f_approx0. replace (pscale c (pscale (x - s) (ldir l))) with (pscale (c * (x - s)) (ldir l)) by (apply vec_eq; vunf; ring).
    rewrite !pdot_scale_l, pdot_scale_r. change (pnorm (pcross (pscale (c * (x - s)) (ldir l)) (pscale k (ldir l)))) with (skew (pscale (c * (x - s)) (ldir l)) (pscale k (ldir l))).
    rewrite skew_same, Rabs_R0. push. rewrite andb_true_iff, rltb_true, rleb_true. unfold is_unit in U. rewrite U.
    replace (c * (x - s) * (k * 1)) with (c * ((x - s) * k)) by ring. split.
    - intros [_ H]. destruct (Rle_lt_dec 0 ((x - s) * k)) as [L|L]; [exact L|exfalso]. nra.
    - intros H. split; [exact T|]. apply Rmult_le_pos; lra.
  Qed.
  Lemma f_seg_inside : forall a b x tol, seg_is_inside (fseg (Segment (at_ a) (at_ b))) (fv (at_ x)) (Fin tol) =
    rleb (Rabs (Rabs (a - b) - Rabs (x - a) - Rabs (x - b))) tol.
  Proof.
    intros a b x tol. unfold seg_is_inside. rewrite segment_measure. unfold fseg. cbn [sv0 sv1]. rewrite !f_sub, !f_norm.
    fold (dist (at_ x) (at_ a)). fold (dist (at_ x) (at_ b)). rewrite !at_dist. now push.
  Qed.
  Lemma seg_inside_iff : forall a b x tol, 0 <= tol ->
    (seg_is_inside (fseg (Segment (at_ a) (at_ b))) (fv (at_ x)) (Fin tol) = true <-> Rmin a b - tol / 2 <= x <= Rmax a b + tol / 2).
  Proof.
    intros a b x tol T. rewrite f_seg_inside, rleb_true. unfold Rmin, Rmax.
    destruct (Rle_dec a b) as [H|H];
      [rewrite (Rabs_left1 (a - b)) by lra|rewrite (Rabs_pos_eq (a - b)) by lra];
      (destruct (Rle_lt_dec x a) as [A|A]; [rewrite (Rabs_left1 (x - a)) by lra|rewrite (Rabs_pos_eq (x - a)) by lra]);
      (destruct (Rle_lt_dec x b) as [B|B]; [rewrite (Rabs_left1 (x - b)) by lra|rewrite (Rabs_pos_eq (x - b)) by lra]);
      unfold Rabs; (match goal with |- context [Rcase_abs ?z] => destruct (Rcase_abs z) end); lra.
  Qed.
  (** Segments on the line. *)
  Lemma overlap_1d : forall a0 a1 b0 b1 tol p q, 0 <= tol ->
    (forall x, Rmin a0 a1 <= x <= Rmax a0 a1 -> Rmin b0 b1 <= x <= Rmax b0 b1 -> Rmin p q <= x <= Rmax p q) ->
    (Rmin a0 a1 - tol / 2 <= p <= Rmax a0 a1 + tol / 2) -> (Rmin a0 a1 - tol / 2 <= q <= Rmax a0 a1 + tol / 2) ->
    (Rmin b0 b1 - tol / 2 <= p <= Rmax b0 b1 + tol / 2) -> (Rmin b0 b1 - tol / 2 <= q <= Rmax b0 b1 + tol / 2) ->
    common_points_upto (tol / 2) (ESegment (Segment (at_ a0) (at_ a1))) (ESegment (Segment (at_ b0) (at_ b1))) (ESegment (Segment (at_ p) (at_ q))).
  Proof.
    intros a0 a1 b0 b1 tol p q T C A1 A2 B1 B2. split.
    - intros z H0 H1. cbn [in_entity] in *. destruct (segment_on _ _ _ H0) as [x ->]. rewrite at_segment in *. auto.
    - intros z H. cbn [in_entity] in *. destruct (segment_on _ _ _ H) as [x ->]. rewrite at_segment in H.
      assert (G : forall c d, (Rmin c d - tol / 2 <= p <= Rmax c d + tol / 2) -> (Rmin c d - tol / 2 <= q <= Rmax c d + tol / 2) ->
        close_to (tol / 2) (ESegment (Segment (at_ c) (at_ d))) (at_ x)).
      { intros c d P Q. assert (X : Rmin c d - tol / 2 <= x <= Rmax c d + tol / 2).
        { clear - H P Q. unfold Rmin at 1, Rmax at 1 in H. destruct (Rle_dec p q); lra. }
        assert (M : Rmin c d <= Rmax c d) by (unfold Rmin, Rmax; destruct (Rle_dec c d); lra).
        exists (at_ (Rmax (Rmin c d) (Rmin x (Rmax c d)))). cbn [in_entity]. rewrite at_segment, at_dist.
        set (m := Rmin c d) in *. set (M' := Rmax c d) in *. clearbody m M'. unfold Rmin, Rmax.
        destruct (Rle_dec x M'); [destruct (Rle_dec m x)|destruct (Rle_dec m M')]; (split; [lra|]); unfold Rabs;
        (match goal with |- context [Rcase_abs ?z] => destruct (Rcase_abs z) end); lra. }
      split; apply G; assumption.
  Qed.
End Abscissa.

Lemma segs_collinear : forall l a0 a1 b0 b1 tol, 0 < tol ->
  col_seg_seg (fseg (Segment (at_ l a0) (at_ l a1))) (fseg (Segment (at_ l b0) (at_ l b1))) (Fin tol) = true.
Proof.
  intros l a0 a1 b0 b1 tol T. unfold col_seg_seg. rewrite !f_seg_unit, !f_sv0, f_sub, !f_parallel, rltb_and. unfold seg_dir.
  cbn [sv0 sv1]. rewrite !at_sub.
  replace (pscale (/ dist (at_ l a0) (at_ l a1)) (pscale (a1 - a0) (ldir l))) with (pscale (/ dist (at_ l a0) (at_ l a1) * (a1 - a0)) (ldir l)) by (apply vec_eq; vunf; ring).
  replace (pscale (/ dist (at_ l b0) (at_ l b1)) (pscale (b1 - b0) (ldir l))) with (pscale (/ dist (at_ l b0) (at_ l b1) * (b1 - b0)) (ldir l)) by (apply vec_eq; vunf; ring).
  now rewrite !skew_same.
Qed.
Lemma outside : forall m x M, (false = true <-> m <= x <= M) -> x < m \/ M < x.
Proof.
  intros m x M [_ H]. destruct (Rlt_le_dec x m); [now left|]. destruct (Rlt_le_dec M x); [now right|]. exfalso. discriminate H. lra.
Qed.
Lemma segs_overlap : forall l a0 a1 b0 b1 tol, is_unit (ldir l) -> 0 < tol ->
  exists r, int_seg_seg_seg (fseg (Segment (at_ l a0) (at_ l a1))) (fseg (Segment (at_ l b0) (at_ l b1))) (Fin tol) = Ret r /\
  match r with
  | Some s => exists c, s = fseg c /\
      common_points_upto (tol / 2) (ESegment (Segment (at_ l a0) (at_ l a1))) (ESegment (Segment (at_ l b0) (at_ l b1))) (ESegment c)
  | None => forall q, ~ (in_segment (Segment (at_ l a0) (at_ l a1)) q /\ in_segment (Segment (at_ l b0) (at_ l b1)) q)
  end.
Proof.
  intros l a0 a1 b0 b1 tol U T. unfold int_seg_seg_seg. rewrite segs_collinear by exact T.
  assert (T0 : 0 <= tol) by lra.
  pose proof (seg_inside_iff l U b0 b1 a0 tol T0) as I0. pose proof (seg_inside_iff l U b0 b1 a1 tol T0) as I1.
  pose proof (seg_inside_iff l U a0 a1 b0 tol T0) as I2. pose proof (seg_inside_iff l U a0 a1 b1 tol T0) as I3.
  change (sv0 (fseg (Segment (at_ l a0) (at_ l a1)))) with (fv (at_ l a0)). change (sv1 (fseg (Segment (at_ l a0) (at_ l a1)))) with (fv (at_ l a1)).
  change (sv0 (fseg (Segment (at_ l b0) (at_ l b1)))) with (fv (at_ l b0)). change (sv1 (fseg (Segment (at_ l b0) (at_ l b1)))) with (fv (at_ l b1)).
  rewrite !f_seg.
  destruct (seg_is_inside _ (fv (at_ l a0)) _); destruct (seg_is_inside _ (fv (at_ l a1)) _);
  destruct (seg_is_inside _ (fv (at_ l b0)) _); destruct (seg_is_inside _ (fv (at_ l b1)) _).
  all: repeat match goal with
       | H : true = true <-> _ |- _ => pose proof (proj1 H eq_refl); clear H
       | H : false = true <-> _ |- _ => apply outside in H
       end.
  all: first [ eexists; split; [reflexivity|] | exfalso ].
  all: try (eexists; split; [reflexivity|]; apply overlap_1d; [exact U|exact T0|intros x X1 X2|..]).
  all: try (intros q (Q1 & Q2); destruct (segment_on _ _ _ _ Q1) as [x ->]; rewrite (at_segment l U) in Q1, Q2).
  all: unfold Rmin, Rmax in *; destruct (Rle_dec a0 a1), (Rle_dec b0 b1).
  all: repeat match goal with H : _ \/ _ |- _ => destruct H end; try lra.
  all: repeat match goal with |- context [Rle_dec ?a ?b] => destruct (Rle_dec a b) end; lra.
Qed.

(** ** Lines, rays and segments on the line. *)
Lemma on_line_forms : forall l e, straight_line e -> along_line l e ->
  (exists s k, k <> 0 /\ e = ELine (Line (at_ l s) (pscale k (ldir l)))) \/
  (exists s k, k <> 0 /\ e = ERay (Ray (at_ l s) (pscale k (ldir l)))) \/
  (exists a b, e = ESegment (Segment (at_ l a) (at_ l b))).
Proof.
  intros l e S A.
  assert (Z : forall k v, v = pscale k (ldir l) -> v <> V 0 0 0 -> k <> 0).
  { intros k v E N ->. apply N. rewrite E. apply vec_eq; vunf; ring. }
  destruct e; cbn [straight_line] in S; try (exfalso; exact S).
  - left. destruct (carrier_on l (ELine l0) S A) as (o & u & s & k & F & Eo & Eu). injection F as <- <-.
    exists s, k. split; [now apply Z with (ldir l0)|]. destruct l0 as [o d]. cbn [lorigin ldir] in *. unfold at_. now rewrite <- Eo, <- Eu.
  - right. left. destruct (carrier_on l (ERay r) S A) as (o & u & s & k & F & Eo & Eu). injection F as <- <-.
    exists s, k. split; [now apply Z with (ry_dir r)|]. destruct r as [o d]. cbn [ry_origin ry_dir] in *. unfold at_. now rewrite <- Eo, <- Eu.
  - right. right. destruct (end_in s) as [H0 H1]. apply A in H0. apply A in H1. destruct H0 as [a H0], H1 as [b H1]. exists a, b.
    destruct s as [p q]. cbn [sv0 sv1] in *. unfold at_. now rewrite <- H0, <- H1.
Qed.
Lemma whole_line : forall l s k q, k <> 0 -> (on_line (Line (at_ l s) (pscale k (ldir l))) q <-> exists x, q = at_ l x).
Proof.
  intros l s k q K. unfold on_line. cbn [lorigin ldir]. split.
  - intros (t & ->). rewrite at_add. eauto.
  - intros (x & ->). exists ((x - s) / k). rewrite at_add. f_equal. field. exact K.
Qed.
Lemma f_line_dot : forall l s k t j, is_unit (ldir l) ->
  vdot (ry_dir (fray (Ray (at_ l s) (pscale k (ldir l))))) (ry_dir (fray (Ray (at_ l t) (pscale j (ldir l))))) = Fin (k * j).
Proof.
  intros l s k t j U. rewrite !f_rdir. cbn [ry_dir]. rewrite f_dot, pdot_scale_l, pdot_scale_r. unfold is_unit in U. rewrite U. f_equal. ring.
Qed.
Lemma rays_collinear : forall l s k t j tol, 0 < tol -> k <> 0 -> j <> 0 ->
  col_ray_ray (fray (Ray (at_ l s) (pscale k (ldir l)))) (fray (Ray (at_ l t) (pscale j (ldir l)))) (Fin tol) = true.
Proof.
  intros l s k t j tol T K J. apply (collinear_rays (Ray (at_ l s) (pscale k (ldir l))) (Ray (at_ l t) (pscale j (ldir l)))); [exact T|].
  cbn [ry_dir ry_origin]. rewrite at_sub, skew_same. exact T.
Qed.
Section Rays.
  Variables (l : line R) (s k t j tol : R).
  Hypothesis U : is_unit (ldir l).
  Hypothesis T : 0 < tol.
  Hypothesis K : k <> 0.
  Hypothesis J : j <> 0.
  Let a := Ray (at_ l s) (pscale k (ldir l)).
  Let b := Ray (at_ l t) (pscale j (ldir l)).
  Lemma same_way : 0 < k * j -> exists c, int_ray_ray_ray (fray a) (fray b) (Fin tol) = Some (fray c) /\ common_points (ERay a) (ERay b) (ERay c).
  Proof.
    intros KJ. unfold int_ray_ray_ray, a, b. rewrite rays_collinear, f_line_dot by assumption. push.
    rewrite (proj2 (rltb_true 0 (k * j)) KJ). cbn [andb].
    change (ry_origin (fray (Ray (at_ l t) (pscale j (ldir l))))) with (fv (at_ l t)).
    change (ry_origin (fray (Ray (at_ l s) (pscale k (ldir l))))) with (fv (at_ l s)).
    pose proof (f_ray_inside l U s k t tol T K) as I1. pose proof (f_ray_inside l U t j s tol T J) as I2.
    rewrite at_ray in I1, I2 by assumption.
    destruct (ray_is_inside (fray (Ray (at_ l s) _)) _ _).
    - exists b. split; [reflexivity|]. intros q. cbn [in_entity]. unfold a, b. split; [|tauto]. intros H. split; [|exact H].
      destruct (ray_on l t j q H) as [x ->]. rewrite at_ray in * by assumption. pose proof (proj1 I1 eq_refl) as P. clear I1 I2.
      destruct (Rdichotomy k 0 K), (Rdichotomy j 0 J); nra.
    - assert (N : (t - s) * k < 0). { destruct (Rle_lt_dec 0 ((t - s) * k)) as [L|L]; [|exact L]. apply I1 in L. discriminate L. }
      assert (P : 0 <= (s - t) * j). { clear I1 I2. destruct (Rdichotomy k 0 K), (Rdichotomy j 0 J); nra. }
      rewrite (proj2 I2 P). exists a. split; [reflexivity|]. intros q. cbn [in_entity]. unfold a, b. split; [|tauto]. intros H. split; [exact H|].
      destruct (ray_on l s k q H) as [x ->]. rewrite at_ray in * by assumption. clear I1 I2.
      destruct (Rdichotomy k 0 K), (Rdichotomy j 0 J); nra.
  Qed.
  Lemma opposite_ways : k * j < 0 -> int_ray_ray_ray (fray a) (fray b) (Fin tol) = None /\
    match int_ray_ray_seg (fray a) (fray b) (Fin tol) with
    | Some z => exists c, z = fseg c /\ common_points (ERay a) (ERay b) (ESegment c)
    | None => forall q, ~ (on_ray a q /\ on_ray b q)
    end.
  Proof.
    intros KJ. unfold int_ray_ray_ray, int_ray_ray_seg, a, b. rewrite rays_collinear, f_line_dot by assumption. push.
    replace (rltb 0 (k * j)) with false by (symmetry; apply rltb_false; lra). rewrite (proj2 (rltb_true (k * j) 0) KJ). cbn [andb].
    split; [reflexivity|].
    change (ry_origin (fray (Ray (at_ l t) (pscale j (ldir l))))) with (fv (at_ l t)).
    change (ry_origin (fray (Ray (at_ l s) (pscale k (ldir l))))) with (fv (at_ l s)).
    pose proof (f_ray_inside l U s k t tol T K) as I1. pose proof (f_ray_inside l U t j s tol T J) as I2.
    rewrite at_ray in I1, I2 by assumption.
    assert (FF : forall P : Prop, (false = true <-> P) -> ~ P) by (intros P [_ HP] p; discriminate (HP p)).
    assert (EQ : 0 <= (t - s) * k <-> 0 <= (s - t) * j).
    { destruct (Rdichotomy k 0 K), (Rdichotomy j 0 J); split; intros; nra. }
    destruct (ray_is_inside (fray (Ray (at_ l s) _)) _ _).
    - pose proof (proj1 I1 eq_refl) as P. rewrite (proj2 I2 (proj1 EQ P)). cbn [andb]. rewrite f_seg. eexists. split; [reflexivity|].
      intros q. cbn [in_entity]. clear I1 I2 FF EQ. split.
      + intros H. destruct (segment_on l _ _ q H) as [x ->]. rewrite !at_ray, at_segment in * by assumption. unfold Rmin, Rmax in H.
        destruct (Rle_dec s t), (Rdichotomy k 0 K), (Rdichotomy j 0 J); split; nra.
      + intros [H1 H2]. destruct (ray_on l s k q H1) as [x ->]. rewrite !at_ray, at_segment in * by assumption. unfold Rmin, Rmax.
        destruct (Rle_dec s t), (Rdichotomy k 0 K), (Rdichotomy j 0 J); split; nra.
    - cbn [andb]. apply FF in I1. intros q [H1 H2]. destruct (ray_on l s k q H1) as [x ->]. rewrite !at_ray in * by assumption.
      clear I2 EQ. apply I1. destruct (Rdichotomy k 0 K), (Rdichotomy j 0 J); nra.
  Qed.
  Lemma ray_seg_common : forall x0 x1, match int_ray_seg_seg (fray a) (fseg (Segment (at_ l x0) (at_ l x1))) (Fin tol) with
    | Some z => exists c, z = fseg c /\ common_points (ERay a) (ESegment (Segment (at_ l x0) (at_ l x1))) (ESegment c)
    | None => forall q, ~ (on_ray a q /\ in_segment (Segment (at_ l x0) (at_ l x1)) q)
    end.
  Proof.
    intros x0 x1. unfold int_ray_seg_seg.
    assert (C : col_ray_seg (fray a) (fseg (Segment (at_ l x0) (at_ l x1))) (Fin tol) = true).
    { unfold col_ray_seg, a. rewrite f_rdir, f_rorigin, f_sv0, f_seg_unit, f_sub, !f_parallel, rltb_and. cbn [ry_dir ry_origin sv0]. unfold seg_dir. cbn [sv0 sv1].
      rewrite !at_sub. replace (pscale (/ dist (at_ l x0) (at_ l x1)) (pscale (x1 - x0) (ldir l))) with (pscale (/ dist (at_ l x0) (at_ l x1) * (x1 - x0)) (ldir l)) by (apply vec_eq; vunf; ring).
      now rewrite !skew_same. }
    rewrite C. clear C. unfold a.
    change (sv0 (fseg (Segment (at_ l x0) (at_ l x1)))) with (fv (at_ l x0)). change (sv1 (fseg (Segment (at_ l x0) (at_ l x1)))) with (fv (at_ l x1)).
    pose proof (f_ray_inside l U s k x0 tol T K) as I1. pose proof (f_ray_inside l U s k x1 tol T K) as I2. rewrite at_ray in I1, I2 by assumption.
    assert (FF : forall m, (false = true <-> 0 <= m) -> m < 0). { intros m [_ HP]. destruct (Rle_lt_dec 0 m) as [L|L]; [discriminate (HP L)|exact L]. }
    assert (RS : forall x, on_ray (Ray (at_ l s) (pscale k (ldir l))) (at_ l x) <-> 0 <= (x - s) * k) by (intros; now apply at_ray).
    assert (SS : forall x y z, in_segment (Segment (at_ l x) (at_ l y)) (at_ l z) <-> Rmin x y <= z <= Rmax x y) by (intros; now apply at_segment).
    destruct (ray_is_inside _ (fv (at_ l x0)) _), (ray_is_inside _ (fv (at_ l x1)) _).
    - apply (fun H => proj1 H eq_refl) in I1. apply (fun H => proj1 H eq_refl) in I2. eexists. split; [reflexivity|]. intros q. cbn [in_entity].
      split; [|tauto]. intros H. split; [|exact H]. destruct (segment_on l _ _ q H) as [x ->]. rewrite RS. rewrite SS in H.
      unfold Rmin, Rmax in H. destruct (Rle_dec x0 x1), (Rdichotomy k 0 K); nra.
    - apply (fun H => proj1 H eq_refl) in I1. apply FF in I2. change (ry_origin (fray (Ray (at_ l s) (pscale k (ldir l))))) with (fv (at_ l s)).
      rewrite f_seg. eexists. split; [reflexivity|]. intros q. cbn [in_entity]. split.
      + intros H. destruct (segment_on l _ _ q H) as [x ->]. rewrite RS, SS in *. unfold Rmin, Rmax in *. destruct (Rle_dec x0 x1), (Rle_dec s x0), (Rdichotomy k 0 K); split; nra.
      + intros [H1 H2]. destruct (segment_on l _ _ q H2) as [x ->]. rewrite RS, SS in *. unfold Rmin, Rmax in *. destruct (Rle_dec x0 x1), (Rle_dec s x0), (Rdichotomy k 0 K); split; nra.
    - apply (fun H => proj1 H eq_refl) in I2. apply FF in I1. change (ry_origin (fray (Ray (at_ l s) (pscale k (ldir l))))) with (fv (at_ l s)).
      rewrite f_seg. eexists. split; [reflexivity|]. intros q. cbn [in_entity]. split.
      + intros H. destruct (segment_on l _ _ q H) as [x ->]. rewrite RS, SS in *. unfold Rmin, Rmax in *. destruct (Rle_dec x0 x1), (Rle_dec s x1), (Rdichotomy k 0 K); split; nra.
      + intros [H1 H2]. destruct (segment_on l _ _ q H2) as [x ->]. rewrite RS, SS in *. unfold Rmin, Rmax in *. destruct (Rle_dec x0 x1), (Rle_dec s x1), (Rdichotomy k 0 K); split; nra.
    - apply FF in I1. apply FF in I2. intros q [H1 H2]. destruct (segment_on l _ _ q H2) as [x ->]. rewrite RS in H1. rewrite SS in H2.
      unfold Rmin, Rmax in *. destruct (Rle_dec x0 x1), (Rdichotomy k 0 K); nra.
  Qed.
End Rays.

(** ** The dispatcher on collinear entities. *)
Lemma eps_pos : 0 < eps.
Proof. unfold eps. apply Rinv_0_lt_compat, pow_lt. lra. Qed.
Lemma straight_not_point : forall e, straight_line e -> is_point (fent e) = false.
Proof. intros e S. destruct e; cbn in *; tauto || reflexivity. Qed.
Lemma dispatch_collinear : forall l e0 e1 tol, 0 < tol -> straight_line e0 -> straight_line e1 -> along_line l e0 -> along_line l e1 ->
  ent_intersection (fent e0) (fent e1) (Fin tol) = ent_int_collinear (fent e0) (fent e1) (Fin tol).
Proof.
  intros l e0 e1 tol T S0 S1 A0 A1. unfold ent_intersection. rewrite !straight_not_point by assumption. cbn [orb].
  change (@neps er _) with (Fin eps). now rewrite (collinear_complete l e0 e1 eps eps_pos S0 S1 A0 A1).
Qed.
Lemma common_sym : forall e0 e1 c, common_points e0 e1 c -> common_points e1 e0 c.
Proof. intros e0 e1 c H q. rewrite (H q). tauto. Qed.
Lemma common_none : forall e0 e1, (forall q, ~ (in_entity e0 q /\ in_entity e1 q)) -> common_points e0 e1 ENone.
Proof. intros e0 e1 H q. cbn [in_entity]. split; [tauto|]. apply H. Qed.
Lemma intersection_collinear : forall l e0 e1 tol, is_unit (ldir l) -> 0 < tol ->
  straight_line e0 -> straight_line e1 -> along_line l e0 -> along_line l e1 ->
  collinear_answer tol e0 e1 (ent_intersection (fent e0) (fent e1) (Fin tol)).
Proof.
  intros l e0 e1 tol U T S0 S1 A0 A1. rewrite (dispatch_collinear l) by assumption.
  assert (CC := collinear_complete l e0 e1 tol T S0 S1 A0 A1).
  assert (CS := collinear_complete l e1 e0 tol T S1 S0 A1 A0).
  assert (WL : forall e s k, k <> 0 -> along_line l e -> common_points (ELine (Line (at_ l s) (pscale k (ldir l)))) e e).
  { intros e s k K A q. cbn [in_entity]. rewrite whole_line by exact K. split; [|tauto]. intros H. split; [|exact H].
    destruct (A q H) as [x X]. exists x. exact X. }
  destruct (on_line_forms l e0 S0 A0) as [(s & k & K & E0)|[(s & k & K & E0)|(x0 & x1 & E0)]];
  destruct (on_line_forms l e1 S1 A1) as [(t & j & J & E1)|[(t & j & J & E1)|(y0 & y1 & E1)]]; subst e0 e1; cbn [fent ent_int_collinear ent_collinear] in *.
  - unfold int_line_line_col. rewrite CC. cbn [found]. eexists (ELine _). split; [reflexivity|]. split; [intros []|intros _]. now apply common_sym, WL.
  - unfold int_line_ray_ray. rewrite CC. eexists (ERay _). split; [reflexivity|]. split; [intros []|intros _]. now apply WL.
  - unfold int_line_seg_seg. rewrite CC. eexists (ESegment _). split; [reflexivity|]. split; [intros []|intros _]. now apply WL.
  - unfold int_line_ray_ray. rewrite CC. eexists (ERay _). split; [reflexivity|]. split; [intros []|intros _]. now apply common_sym, WL.
  - destruct (Rdichotomy (k * j) 0 (Rmult_integral_contrapositive_currified _ _ K J)) as [N|P].
    + destruct (opposite_ways l s k t j tol U T K J N) as [-> H]. destruct (int_ray_ray_seg _ _ _) as [z|].
      * destruct H as (c & -> & H). exists (ESegment c). split; [reflexivity|]. split; [intros []|intros _; exact H].
      * cbn. split; [reflexivity|]. split; [exact I|]. exact H.
    + destruct (same_way l s k t j tol U T K J P) as (c & -> & H). exists (ERay c). split; [reflexivity|]. split; [intros []|intros _; exact H].
  - pose proof (ray_seg_common l s k tol U T K y0 y1) as H. destruct (int_ray_seg_seg _ _ _) as [z|].
    + destruct H as (c & -> & H). exists (ESegment c). split; [reflexivity|]. split; [intros []|intros _; exact H].
    + exists ENone. split; [reflexivity|]. split; [intros []|intros _]. now apply common_none.
  - unfold int_line_seg_seg. rewrite CC. eexists (ESegment _). split; [reflexivity|]. split; [intros []|intros _]. now apply common_sym, WL.
  - pose proof (ray_seg_common l t j tol U T J x0 x1) as H. destruct (int_ray_seg_seg _ _ _) as [z|].
    + destruct H as (c & -> & H). exists (ESegment c). split; [reflexivity|]. split; [intros []|intros _; now apply common_sym].
    + exists ENone. split; [reflexivity|]. split; [intros []|intros _]. apply common_sym. now apply common_none.
  - destruct (segs_overlap l x0 x1 y0 y1 tol U T) as (r & -> & H). cbn [found_or found obind]. destruct r as [z|].
    + destruct H as (c & -> & H). exists (ESegment c). split; [reflexivity|]. split; [intros _; exact H|intros N; destruct (N I)].
    + exists ENone. split; [reflexivity|]. split; [|intros N; destruct (N I)]. intros _. split.
      * intros q Q0 Q1. exact (H q (conj Q0 Q1)).
      * intros q [].
Qed.
(** Two opposite rays on a line that do not meet: an exception. *)
Lemma apart_rays_throw : forall l a b tol, is_unit (ldir l) -> 0 < tol -> straight_line (ERay a) -> straight_line (ERay b) ->
  along_line l (ERay a) -> along_line l (ERay b) -> (forall q, ~ (on_ray a q /\ on_ray b q)) ->
  ent_intersection (fent (ERay a)) (fent (ERay b)) (Fin tol) = Throw RuntimeError.
Proof.
  intros l a b tol U T S0 S1 A0 A1 N. pose proof (intersection_collinear l (ERay a) (ERay b) tol U T S0 S1 A0 A1) as H.
  rewrite (dispatch_collinear l) in H |- * by assumption. cbn [fent ent_int_collinear] in *.
  assert (NB : forall c, common_points (ERay a) (ERay b) (ERay c) -> False).
  { intros c C. apply (N (ry_origin c)). apply C. cbn [in_entity]. exists 0. split; [lra|]. apply vec_eq; vunf; ring. }
  assert (NS : forall c, common_points (ERay a) (ERay b) (ESegment c) -> False).
  { intros c C. apply (N (sv0 c)). apply C. apply end_in. }
  assert (RI : forall r c, ERay r = fent c -> exists x, c = ERay x). { intros r c E. destruct c; try discriminate E. eauto. }
  assert (SI : forall r c, ESegment r = fent c -> exists x, c = ESegment x). { intros r c E. destruct c; try discriminate E. eauto. }
  destruct (int_ray_ray_ray _ _ _) as [r|].
  - exfalso. destruct H as (c & E & _ & H). destruct (RI r c E) as (x & ->). apply (NB x). apply H. intros [].
  - destruct (int_ray_ray_seg _ _ _) as [z|]; [|reflexivity].
    exfalso. destruct H as (c & E & _ & H). destruct (SI z c E) as (x & ->). apply (NS x). apply H. intros [].
Qed.
