(** * Ground elements on finite numbers. *)
From Coq Require Import ZArith Bool Reals Lra Lia Permutation List.
From Verif Require Import Base Num Vec Aabb Geom Ground ER SpecGeom ProofGeom ProofInt ProofTri.
Import ListNotations.
Local Open Scope R_scope.

(** The points of a triangle are in its box. *)
Lemma rmin3 : forall x y z, (Rmin x (Rmin y z) <= x /\ Rmin x (Rmin y z) <= y /\ Rmin x (Rmin y z) <= z) .
Proof. intros. unfold Rmin. destruct (Rle_dec y z); destruct (Rle_dec _ _); lra. Qed.
Lemma rmax3 : forall x y z, (x <= Rmax x (Rmax y z) /\ y <= Rmax x (Rmax y z) /\ z <= Rmax x (Rmax y z)).
Proof. intros. unfold Rmax. destruct (Rle_dec y z); destruct (Rle_dec _ _); lra. Qed.

Lemma triangle_in_bbox : forall id f a b c (g : tground er),
  mk_tground id f (fv a) (fv b) (fv c) = Ret g ->
  forall q, in_triangle (Triangle a b c) q -> aabb_is_inside (tg_bbox g) (fv q) = true.
Proof.
  intros id f a b c g H q (x & y & z & X & Y & Z & S & ->).
  unfold mk_tground in H. destruct (nle _ f); [|discriminate]. injection H as <-.
  unfold tg_update_bbox, clamp, aabb_is_inside. cbn [tg_bbox tv0 tv1 tv2 bmin bmax]. unfold fv. cbn [vx vy vz]. push.
  rewrite !andb_true_iff, !rleb_true. unfold bary, padd, pscale. cbn [vx vy vz tv0 tv1 tv2].
  rewrite Ropp_0 in *.
  destruct (rmin3 (vx a) (vx b) (vx c)) as (A1 & A2 & A3). destruct (rmin3 (vy a) (vy b) (vy c)) as (B1 & B2 & B3).
  destruct (rmin3 (vz a) (vz b) (vz c)) as (C1 & C2 & C3). destruct (rmax3 (vx a) (vx b) (vx c)) as (D1 & D2 & D3).
  destruct (rmax3 (vy a) (vy b) (vy c)) as (E1 & E2 & E3). destruct (rmax3 (vz a) (vz b) (vz c)) as (F1 & F2 & F3).
  replace z with (1 - x - y) in * by lra. repeat split; nra.
Qed.

(** The normal. *)
Definition rup (n : pt) : pt := if rltb (vz n) 0 then pscale (-1) n else n.
Lemma f_tg_normal : forall id f a b c (g : tground er),
  mk_tground id f (fv a) (fv b) (fv c) = Ret g ->
  tg_normal g = fv (rup (punit (tri_cross (Triangle a b c)))) /\ tg_tri g = ftri (Triangle a b c) /\ tg_friction g = f
  /\ nle (nofZ 0) f = true.
Proof.
  intros id f a b c g H. unfold mk_tground in H. destruct (nle _ f) eqn:E; [|discriminate]. injection H as <-.
  cbn [tg_normal tg_tri tg_friction]. split; [|auto].
  unfold tg_update_normal. change (Triangle (fv a) (fv b) (fv c)) with (ftri (Triangle a b c)).
  rewrite f_tri_normal. unfold rup. set (n := punit _). cbn [fv vz]. rewrite e_ofZ, e_lt.
  destruct (rltb (vz n) 0); auto. rewrite e_ofZ. now rewrite f_mulr.
Qed.
Lemma cross_nonzero : forall a : pt, a <> V 0 0 0 -> 0 < pdot a a.
Proof.
  intros a H. destruct (Rle_lt_or_eq_dec 0 _ (pdot_pos a)) as [P|P]; auto.
  exfalso. apply H. now apply pdot_zero.
Qed.
Lemma rup_unit : forall n, is_unit n -> is_unit (rup n) /\ 0 <= vz (rup n).
Proof.
  intros n H. unfold rup. destruct (rltb (vz n) 0) eqn:E; rb.
  - split; [unfold is_unit in *; rewrite pdot_scale_l, pdot_scale_r; lra|]. cbn. lra.
  - auto.
Qed.
Lemma rup_perp : forall n e, pdot n e = 0 -> pdot (rup n) e = 0.
Proof. intros n e H. unfold rup. destruct (rltb _ 0); auto. rewrite pdot_scale_l, H. ring. Qed.
Lemma triangle_normal : forall id f a b c (g : tground er),
  mk_tground id f (fv a) (fv b) (fv c) = Ret g ->
  pcross (psub b a) (psub c a) <> V 0 0 0 ->
  exists n, tg_normal g = fv n /\ is_unit n /\ 0 <= vz n /\
    pdot n (psub b a) = 0 /\ pdot n (psub c b) = 0 /\ pdot n (psub a c) = 0.
Proof.
  intros id f a b c g H Hn. apply f_tg_normal in H. destruct H as (-> & _). apply cross_nonzero in Hn.
  exists (rup (punit (tri_cross (Triangle a b c)))). split; auto.
  destruct (rup_unit (punit (tri_cross (Triangle a b c)))) as [U Z]; [now apply punit_is_unit|].
  split; auto. split; auto. destruct (tri_edge_normal (Triangle a b c)) as (E1 & E2 & E3). cbn [tv0 tv1 tv2] in *.
  rewrite punit_pos in * by auto.
  assert (G : forall e, pdot e (tri_cross (Triangle a b c)) = 0 ->
    pdot (rup (pscale (/ pnorm (tri_cross (Triangle a b c))) (tri_cross (Triangle a b c)))) e = 0).
  { intros e He. apply rup_perp. rewrite pdot_scale_l, pdot_comm, He. ring. }
  split; [now apply G|]. split; [now apply G|]. apply G.
  replace (psub a c) with (pscale (-1) (psub c a)) by (apply vec_eq; vunf; ring).
  rewrite pdot_scale_l, E2. ring.
Qed.

Definition cross3 (l : list pt) : pt :=
  match l with [a; b; c] => tri_cross (Triangle a b c) | _ => V 0 0 0 end.
Lemma cross3_perm : forall l l', Permutation l l' -> cross3 l' = cross3 l \/ cross3 l' = pscale (-1) (cross3 l).
Proof.
  apply Permutation_ind_transp.
  - auto.
  - intros x y l1 l2. destruct l1 as [|u [|v l1]]; destruct l2 as [|w [|w' l2]]; cbn [app cross3]; auto.
    + right. unfold tri_cross. apply vec_eq; vunf; ring.
    + right. unfold tri_cross. apply vec_eq; vunf; ring.
    + left. destruct l1 as [|w0 [|w1 l1]]; reflexivity.
    + left. destruct l1 as [|w0 [|w1 l1]]; reflexivity.
    + left. destruct l1 as [|w0 [|w1 l1]]; reflexivity.
  - intros l l' l'' _ H1 _ H2. destruct H1 as [H1|H1], H2 as [H2|H2]; rewrite H2, H1; auto.
    left. apply vec_eq; vunf; ring.
Qed.
Lemma rup_opp : forall n, vz n <> 0 -> rup (pscale (-1) n) = rup n.
Proof.
  intros n H. unfold rup, pscale at 1. cbn [vz].
  destruct (rltb (-1 * vz n) 0) eqn:E1, (rltb (vz n) 0) eqn:E2; repeat rb; try lra.
  - apply vec_eq; vunf; ring.
  - reflexivity.
Qed.
Lemma punit_opp : forall n, punit (pscale (-1) n) = pscale (-1) (punit n).
Proof.
  intros n. assert (E : pdot (pscale (-1) n) (pscale (-1) n) = pdot n n) by (vunf; ring).
  unfold punit. rewrite E. unfold pnorm. rewrite E. destruct (rltb 0 (pdot n n)); auto.
  apply vec_eq; vunf; ring.
Qed.
Lemma normal_order : forall id f a b c (g : tground er) id' f' a' b' c' g',
  mk_tground id f (fv a) (fv b) (fv c) = Ret g -> mk_tground id' f' (fv a') (fv b') (fv c') = Ret g' ->
  Permutation [a; b; c] [a'; b'; c'] -> vz (pcross (psub b a) (psub c a)) <> 0 ->
  tg_normal g' = tg_normal g.
Proof.
  intros id f a b c g id' f' a' b' c' g' H H' P Z. apply f_tg_normal in H, H'.
  destruct H as (-> & _), H' as (-> & _). f_equal. apply cross3_perm in P. cbn [cross3] in P.
  destruct P as [-> | ->]; auto. rewrite punit_opp. apply rup_opp.
  assert (0 < pdot (tri_cross (Triangle a b c)) (tri_cross (Triangle a b c))).
  { apply cross_nonzero. intros E. apply Z. apply (f_equal vz) in E. exact E. }
  rewrite punit_pos by auto. unfold pscale. cbn [vz]. intros E. apply Rmult_integral in E. destruct E as [E|E]; auto.
  pose proof (pnorm_pos _ H). pose proof (Rinv_0_lt_compat _ H0). lra.
Qed.

(** ** Flat ground. *)
Lemma flat_throws : forall {K} {NK : Num K} f o n,
  (exists g, mk_flat f o n = Ret g) <-> (nle (nofZ 0) f = true /\ nlt (nofZ 0) (vz n) = true).
Proof.
  intros K NK f o n. unfold mk_flat. destruct (nle (nofZ 0) f) eqn:E1, (nlt (nofZ 0) (vz n)) eqn:E2;
    split; intros H; auto; try (destruct H as [g H]; discriminate); try (destruct H; discriminate).
  eauto.
Qed.
Lemma flat_throws_only : forall {K} {NK : Num K} f o (n : vec3 K),
  (exists g, mk_flat f o n = Ret g) \/ mk_flat f o n = Throw RuntimeError.
Proof.
  intros K NK f o n. unfold mk_flat. destruct (nle _ f); auto. destruct (nlt _ (vz n)); eauto.
Qed.
Lemma flat_stored : forall f o n g, mk_flat f (fv o) (fv n) = Ret g ->
  exists u k, fl_plane g = fplane (Plane o u) /\ fl_friction g = f /\
    is_unit u /\ 0 < vz u /\ 0 < k /\ u = pscale k n.
Proof.
  intros f o n g H. unfold mk_flat in H. destruct (nle _ f) eqn:E; [|discriminate].
  destruct (nlt (nofZ 0) (vz (fv n))) eqn:E2; [|discriminate]. injection H as <-.
  unfold fv in E2. cbn [vz] in E2. rewrite e_ofZ, e_lt in E2. rb.
  assert (P : 0 < pdot n n) by (unfold pdot; nra).
  unfold plane_normalize. cbn [fl_plane fl_friction porigin pnormal]. push.
  exists (punit n), (/ pnorm n). split; [reflexivity|]. split; auto. split; [now apply punit_is_unit|].
  pose proof (Rinv_0_lt_compat _ (pnorm_pos _ P)) as K0. rewrite punit_pos by auto.
  split; [unfold pscale; cbn [vz]; nra|]. auto.
Qed.
Lemma flat_copied : forall (this src : flat er) f o n, mk_flat f (fv o) (fv n) = Ret src -> flat_copy this src = src.
Proof.
  intros this src f o n H. apply flat_stored in H. destruct H as (u & k & HP & HF & HU & _).
  destruct src as [p fr]. cbn [fl_plane fl_friction] in *. subst. unfold flat_copy, plane_normalize, fplane.
  cbn [fl_plane fl_friction porigin pnormal]. push. now rewrite punit_unit.
Qed.
