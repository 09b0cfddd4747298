(** * Boxes: from two corners, common part, distances. *)
From Coq Require Import ZArith Bool List Reals Lra Lia.
From Verif Require Import Base Num Vec Aabb Geom Acme ER SpecGeom SpecTree SpecMesh SpecAcme.
From Verif Require Import ProofTree ProofGeom ProofInt.
Import ListNotations.

Section Corners.
  Context {K : Type} {NK : Num K} {OK : OrdNum K}.

  Lemma swap_between : forall a b q : K, isnum a -> isnum b ->
    (nle (swap_min a b) q = true /\ nle q (swap_max a b) = true <-> between a b q).
  Proof.
    intros a b q Ha Hb. unfold swap_min, swap_max, between. destruct (nlt b a) eqn:E.
    - split; [auto|]. intros [[H1 H2]|H]; auto.
      split; [apply (ord_trans _ a); auto; now apply lt_le|apply (ord_trans _ b); auto; now apply lt_le].
    - apply not_lt_le in E; auto. split; [auto|]. intros [H|[H1 H2]]; auto.
      split; [apply (ord_trans _ b); auto|apply (ord_trans _ a); auto].
  Qed.
  Lemma swap_ordered : forall a b : K, isnum a -> isnum b -> nle (swap_min a b) (swap_max a b) = true.
  Proof.
    intros a b Ha Hb. unfold swap_min, swap_max. destruct (nlt b a) eqn:E; [now apply lt_le|now apply not_lt_le].
  Qed.
  Lemma corners_box : forall (a b : vec3 K) id, vnum a -> vnum b ->
    proper_box (mk_aabb a b id) /\ bid (mk_aabb a b id) = id /\
    (forall q, in_box q (mk_aabb a b id) <->
       between (vx a) (vx b) (vx q) /\ between (vy a) (vy b) (vy q) /\ between (vz a) (vz b) (vz q)).
  Proof.
    intros a b id (A1 & A2 & A3) (B1 & B2 & B3). unfold mk_aabb, update_max_min.
    split; [|split; [reflexivity|]].
    - unfold proper_box. cbn [bmin bmax vx vy vz]. repeat split; now apply swap_ordered.
    - intros q. unfold in_box. cbn [bmin bmax vx vy vz].
      rewrite <- (swap_between (vx a) (vx b)), <- (swap_between (vy a) (vy b)), <- (swap_between (vz a) (vz b)) by auto.
      tauto.
  Qed.
  Lemma corners_flag : forall b : aabb K, vnum (bmin b) -> vnum (bmax b) ->
    (update_max_min_ok b = true <-> proper_box b) /\ (check_max_min b = true <-> proper_box b) /\
    (update_max_min_ok b = true -> update_max_min b = b).
  Proof.
    intros b (A1 & A2 & A3) (B1 & B2 & B3). unfold update_max_min_ok, proper_box, check_max_min.
    rewrite !andb_true_iff, !negb_true_iff.
    assert (H : forall x y : K, isnum x -> isnum y -> (nlt y x = false <-> nle x y = true)).
    { intros x y Hx Hy. rewrite (ord_lt _ _ Hy Hx). destruct (nle x y); cbn; split; congruence. }
    split; [rewrite !H by auto; tauto|]. split; [tauto|]. intros [[E1 E2] E3].
    unfold update_max_min, swap_min, swap_max. rewrite E1, E2, E3. now destruct b as [[] [] ?].
  Qed.

  Lemma lo_le : forall x y q : K, isnum x -> isnum y ->
    (nle (if nle x y then y else x) q = true <-> nle x q = true /\ nle y q = true).
  Proof.
    intros x y q Hx Hy. destruct (nle x y) eqn:E.
    - split; [|tauto]. intros H. split; auto. now apply (ord_trans _ y).
    - destruct (ord_total x y Hx Hy) as [E'|E']; [congruence|]. split; [|tauto]. intros H. split; auto. now apply (ord_trans _ x).
  Qed.
  Lemma hi_le : forall x y q : K, isnum x -> isnum y ->
    (nle q (if nle x y then x else y) = true <-> nle q x = true /\ nle q y = true).
  Proof.
    intros x y q Hx Hy. destruct (nle x y) eqn:E.
    - split; [|tauto]. intros H. split; auto. now apply (ord_trans _ x).
    - destruct (ord_total x y Hx Hy) as [E'|E']; [congruence|]. split; [|tauto]. intros H. split; auto. now apply (ord_trans _ y).
  Qed.
  Lemma box_box : forall a b out : aabb K, proper_box a -> proper_box b ->
    match int_box_box a b out with
    | Some r => proper_box r /\ bid r = bid out /\ forall q, in_box q r <-> in_box q a /\ in_box q b
    | None => forall q, ~ (in_box q a /\ in_box q b)
    end.
  Proof.
    intros a b out (A1 & A2 & A3) (B1 & B2 & B3).
    pose proof (nle_num_l _ _ A1). pose proof (nle_num_r _ _ A1). pose proof (nle_num_l _ _ A2).
    pose proof (nle_num_r _ _ A2). pose proof (nle_num_l _ _ A3). pose proof (nle_num_r _ _ A3).
    pose proof (nle_num_l _ _ B1). pose proof (nle_num_r _ _ B1). pose proof (nle_num_l _ _ B2).
    pose proof (nle_num_r _ _ B2). pose proof (nle_num_l _ _ B3). pose proof (nle_num_r _ _ B3).
    unfold int_box_box. destruct (intersects a b) eqn:E; cbn [negb].
    - unfold intersects in E. rewrite !andb_true_iff in E. destruct E as (((((E1 & E2) & E3) & E4) & E5) & E6).
      split; [|split; [reflexivity|]].
      + unfold proper_box. cbn [bmin bmax vx vy vz]. rewrite !lo_le, !hi_le by auto. tauto.
      + intros q. unfold in_box. cbn [bmin bmax vx vy vz]. rewrite !lo_le, !hi_le by auto. tauto.
    - intros q ((P1 & P2 & P3 & P4 & P5 & P6) & (Q1 & Q2 & Q3 & Q4 & Q5 & Q6)).
      assert (intersects a b = true); [|congruence]. unfold intersects. rewrite !andb_true_iff.
      repeat split; eapply ord_trans; eassumption.
  Qed.
End Corners.

(** ** Distances. *)
Local Open Scope R_scope.
Definition gap (lo hi x : R) : R := Rmax 0 (Rmax (lo - x) (x - hi)).
Definition reach (lo hi x : R) : R := Rmax (Rabs (x - lo)) (Rabs (x - hi)).

Lemma gap_eq : forall lo hi x, lo < hi ->
  let c := (hi + lo) / 2 in let m := hi - c in
  Rmax 0 (Rabs (x - c) * Rabs (1 / m) - 1) / Rabs (1 / m) = gap lo hi x.
Proof.
  intros lo hi x H c m. assert (Hm : m = (hi - lo) / 2) by (unfold m, c; lra).
  assert (0 < m) by lra. rewrite (Rabs_pos_eq (1 / m)).
  2:{ unfold Rdiv. rewrite Rmult_1_l. left. now apply Rinv_0_lt_compat. }
  assert (E : Rabs (x - c) * (1 / m) - 1 = (Rabs (x - c) - m) / m) by (field; lra). rewrite E.
  replace (Rmax 0 ((Rabs (x - c) - m) / m)) with (Rmax 0 (Rabs (x - c) - m) / m).
  2:{ unfold Rmax at 1. destruct (Rle_dec 0 (Rabs (x - c) - m)) as [L|L].
      - rewrite Rmax_right; auto. apply Rmult_le_pos; auto. left. now apply Rinv_0_lt_compat.
      - rewrite Rmax_left; [field; lra|]. apply Rnot_le_lt in L.
        apply Rmult_le_reg_r with m; auto. unfold Rdiv. rewrite Rmult_assoc, Rinv_l by lra. lra. }
  replace (Rmax 0 (Rabs (x - c) - m) / m / (1 / m)) with (Rmax 0 (Rabs (x - c) - m)) by (field; lra).
  unfold gap. f_equal. unfold Rmax. unfold c, m, c in *. destruct (Rle_dec (lo - x) (x - hi));
    unfold Rabs; destruct Rcase_abs; lra.
Qed.
Lemma gap_le : forall lo hi x q, lo <= q <= hi -> gap lo hi x * gap lo hi x <= (x - q) * (x - q).
Proof.
  intros lo hi x q H. unfold gap, Rmax. pose proof (Rle_0_sqr (x - q)) as S. unfold Rsqr in S.
  destruct (Rle_dec (lo - x) (x - hi)).
  - destruct (Rle_dec 0 (x - hi)); [|lra]. apply Rmult_le_compat; lra.
  - destruct (Rle_dec 0 (lo - x)); [|lra]. replace ((x - q) * (x - q)) with ((q - x) * (q - x)) by ring.
    apply Rmult_le_compat; lra.
Qed.
Definition nearest (lo hi x : R) : R := Rmax lo (Rmin x hi).
Lemma nearest_in : forall lo hi x, lo <= hi -> lo <= nearest lo hi x <= hi.
Proof. intros. unfold nearest, Rmax, Rmin. destruct Rle_dec; destruct Rle_dec; lra. Qed.
Lemma nearest_gap : forall lo hi x, lo <= hi ->
  (x - nearest lo hi x) * (x - nearest lo hi x) = gap lo hi x * gap lo hi x.
Proof.
  intros lo hi x H. unfold nearest, gap, Rmin. destruct (Rle_dec x hi); unfold Rmax.
  - destruct (Rle_dec lo x); destruct (Rle_dec (lo - x) (x - hi)); destruct Rle_dec; try lra;
      try (replace (lo - x) with 0 by lra); try (replace (x - hi) with 0 by lra); nra.
  - destruct (Rle_dec lo hi); destruct (Rle_dec (lo - x) (x - hi)); destruct Rle_dec; try lra.
Qed.
Lemma reach_ge : forall lo hi x q, lo <= q <= hi -> (x - q) * (x - q) <= reach lo hi x * reach lo hi x.
Proof.
  intros lo hi x q H. unfold reach, Rmax. destruct Rle_dec; unfold Rabs in *;
    destruct (Rcase_abs (x - lo)); destruct (Rcase_abs (x - hi)); nra.
Qed.
Definition farthest (lo hi x : R) : R := if Rle_dec (Rabs (x - lo)) (Rabs (x - hi)) then hi else lo.
Lemma farthest_in : forall lo hi x, lo <= hi -> lo <= farthest lo hi x <= hi.
Proof. intros. unfold farthest. destruct Rle_dec; lra. Qed.
Lemma farthest_reach : forall lo hi x,
  (x - farthest lo hi x) * (x - farthest lo hi x) = reach lo hi x * reach lo hi x.
Proof.
  intros lo hi x. unfold farthest, reach, Rmax. destruct Rle_dec; rewrite <- Rabs_mult, Rabs_pos_eq;
    try reflexivity; apply Rle_0_sqr.
Qed.

Lemma f_center_distance : forall lo hi id p, vx lo < vx hi -> vy lo < vy hi -> vz lo < vz hi ->
  center_distance (fbox lo hi id) (fv p) =
  Fin (pnorm (V (gap (vx lo) (vx hi) (vx p)) (gap (vy lo) (vy hi) (vy p)) (gap (vz lo) (vz hi) (vz p)))).
Proof.
  intros lo hi id p H1 H2 H3. unfold center_distance, fbox. cbn [bmin bmax]. push.
  rewrite f_div by lra. push. cbn [fv vx vy vz]. unfold padd, psub, pscale. cbn [vx vy vz]. push.
  assert (E : forall a b, a < b -> b - / 2 * (b + a) <> 0) by (intros; lra).
  assert (E' : forall a b, a < b -> Rabs (1 / (b - / 2 * (b + a))) <> 0).
  { intros. apply Rabs_no_R0. unfold Rdiv. rewrite Rmult_1_l. apply Rinv_neq_0_compat. now apply E. }
  rewrite !e_ndiv by (now apply E). push.
  rewrite !e_ndiv by (now apply E').
  assert (G : forall a b x, a < b ->
    Rmax 0 (Rabs (x - / 2 * (b + a)) * Rabs (1 / (b - / 2 * (b + a))) - 1) / Rabs (1 / (b - / 2 * (b + a))) = gap a b x).
  { intros a b x L. rewrite <- (gap_eq a b x L). cbv zeta. unfold Rdiv. rewrite (Rmult_comm (/ 2)). reflexivity. }
  rewrite !G by auto. push. rewrite e_nsqrt; [|apply (pdot_pos (V _ _ _))]. reflexivity.
Qed.
Lemma f_exterior_distance : forall lo hi id p,
  exterior_distance (fbox lo hi id) (fv p) =
  Fin (pnorm (V (reach (vx lo) (vx hi) (vx p)) (reach (vy lo) (vy hi) (vy p)) (reach (vz lo) (vz hi) (vz p)))).
Proof.
  intros lo hi id p. unfold exterior_distance, fbox. cbn [bmin bmax fv vx vy vz]. push.
  rewrite e_nsqrt; [|apply (pdot_pos (V _ _ _))]. reflexivity.
Qed.
Lemma pnorm_mono : forall a b, pdot a a <= pdot b b -> pnorm a <= pnorm b.
Proof. intros. now apply sqrt_le_1_alt. Qed.

Lemma center_distance_exact : forall lo hi id p, vx lo < vx hi -> vy lo < vy hi -> vz lo < vz hi ->
  exists d, center_distance (fbox lo hi id) (fv p) = Fin d /\
    (exists q, within lo hi q /\ dist p q = d) /\ (forall q, within lo hi q -> d <= dist p q).
Proof.
  intros lo hi id p H1 H2 H3. eexists. split; [now apply f_center_distance|]. split.
  - exists (V (nearest (vx lo) (vx hi) (vx p)) (nearest (vy lo) (vy hi) (vy p)) (nearest (vz lo) (vz hi) (vz p))).
    split. { unfold within. cbn [vx vy vz]. repeat split; apply nearest_in; lra. }
    unfold dist, pnorm. f_equal. vunf. now rewrite !nearest_gap by lra.
  - intros q (Q1 & Q2 & Q3). apply pnorm_mono. vunf.
    pose proof (gap_le _ _ (vx p) _ Q1). pose proof (gap_le _ _ (vy p) _ Q2). pose proof (gap_le _ _ (vz p) _ Q3). lra.
Qed.
Lemma exterior_distance_exact : forall lo hi id p, vx lo <= vx hi -> vy lo <= vy hi -> vz lo <= vz hi ->
  exists d, exterior_distance (fbox lo hi id) (fv p) = Fin d /\
    (exists q, within lo hi q /\ dist p q = d) /\ (forall q, within lo hi q -> dist p q <= d).
Proof.
  intros lo hi id p H1 H2 H3. eexists. split; [now apply f_exterior_distance|]. split.
  - exists (V (farthest (vx lo) (vx hi) (vx p)) (farthest (vy lo) (vy hi) (vy p)) (farthest (vz lo) (vz hi) (vz p))).
    split. { unfold within. cbn [vx vy vz]. repeat split; apply farthest_in; lra. }
    unfold dist, pnorm. f_equal. vunf. now rewrite !farthest_reach.
  - intros q (Q1 & Q2 & Q3). apply pnorm_mono. vunf.
    pose proof (reach_ge _ _ (vx p) _ Q1). pose proof (reach_ge _ _ (vy p) _ Q2). pose proof (reach_ge _ _ (vz p) _ Q3). lra.
Qed.
(** A box flat along x, for a point off its plane. *)
Lemma flat_center_distance : forall lo hi id p, vx lo = vx hi -> vx p <> vx lo ->
  center_distance (fbox lo hi id) (fv p) = Nan.
Proof.
  intros lo hi id p H Hp. unfold center_distance, fbox. cbn [bmin bmax]. push.
  rewrite f_div by lra. push. cbn [fv vx vy vz]. unfold padd, psub, pscale. cbn [vx vy vz]. rewrite H.
  replace (vx hi - / 2 * (vx hi + vx hi)) with 0 by lra.
  cbn [nofZ ndiv ediv nabs eabs ER_Num]. replace (reqb 0 0) with true by (symmetry; now apply reqb_true).
  replace (reqb 1 0) with false by (symmetry; apply reqb_false; lra). cbn [eabs].
  set (y := Rabs (vx p - / 2 * (vx hi + vx hi))).
  assert (E : (Fin y * Inf false)%num = Inf false).
  { cbn [nmul ER_Num emul]. replace (reqb y 0) with false.
    2:{ symmetry. apply reqb_false. unfold y. apply Rabs_no_R0. lra. }
    replace (rltb y 0) with false; [reflexivity|]. symmetry. apply rltb_false. apply Rabs_pos. }
  rewrite E. reflexivity.
Qed.
