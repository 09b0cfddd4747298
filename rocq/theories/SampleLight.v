(** * A wheel of three ribs that barely touches level ground, for C126. *)
From Coq Require Import ZArith Bool Reals Lra Lia String List.
From Verif Require Import Base Num Vec Aabb Geom Ground Shape Rib Str Mesh Shell ER SpecGeom SpecRib SpecShape SpecShell SpecPose SpecAvg SpecLight.
From Verif Require Import ProofGeom ProofInt ProofSegArea ProofFlat ProofSample ProofShape ProofShell ProofShellFacts ProofPose ProofAvg ProofSetupData ProofSmooth ProofLight SamplePose.
Import ListNotations.
Local Open Scope R_scope.

(** Level ground [h] below the axle, of friction 3/4. *)
Definition ground_below (h : R) : plane R := Plane (V 0 0 (- h)) (V 0 0 1).
Lemma below_unit : forall h, is_unit (pnormal (ground_below h)).
Proof. intros h. unfold ground_below. cbn [pnormal]. vunf. ring. Qed.

Lemma three_ribs : exists s, real_shell round_tire s /\ sh_size s = 3%nat /\
  sh_ribs s = map frib (slices round_tire 3).
Proof.
  destruct (mk_shell_eval round_tire round_good 3 ltac:(lia)) as (s & E & R & S). exists s.
  split; [split; [exact (r_new _ _ _ _ _ _ _ E)|split; [exact S|exact round_good]]|]. split; [|exact R].
  unfold sh_size. rewrite R. reflexivity.
Qed.
Definition rib3 (k : nat) : rib R :=
  real_rib round_tire (slice_width (sLy round_tire) 3) (int_of_size k) (slice_center (sLy round_tire) 3 k).
Lemma rib3_ribs : slices round_tire 3 = [rib3 0; rib3 1; rib3 2].
Proof. reflexivity. Qed.
Lemma rib3_center : forall k, rb_center (rib3 k) = V 0 (slice_center (sLy round_tire) 3 k) 0.
Proof. reflexivity. Qed.
Lemma rib3_width : forall k, rb_width (rib3 k) = 1 / 6.
Proof. intros k. unfold rib3, real_rib, slice_width, round_tire. cbn. field. Qed.
Lemma mid3_radius : rb_radius (rib3 1) = 1.
Proof.
  unfold rib3, real_rib, rb_radius. cbn [rb_disk dradius]. unfold radius_at.
  replace (slice_center (sLy round_tire) 3 1) with 0 by (unfold slice_center, slice_width, round_tire; cbn; field).
  unfold round_tire. cbn [sRx sMx sRy sMy]. rewrite Rabs_R0. unfold Rdiv. rewrite Rmult_0_l, hpow_0, Rminus_0_r, hpow_1. ring.
Qed.
Lemma side3_radius : forall k, k = 0%nat \/ k = 2%nat -> rb_radius (rib3 k) * rb_radius (rib3 k) <= 8 / 9.
Proof.
  intros k Hk. unfold rib3, real_rib, rb_radius. cbn [rb_disk dradius]. unfold radius_at.
  assert (Y : Rabs (slice_center (sLy round_tire) 3 k) = 1 / 6).
  { destruct Hk as [->| ->]; unfold slice_center, slice_width, round_tire; cbn.
    - rewrite Rabs_left; lra.
    - rewrite Rabs_right; lra. }
  rewrite Y. change (sRx round_tire) with 1. change (sMx round_tire) with 2. change (sRy round_tire) with (1 / 2). change (sMy round_tire) with 2.
  pose proof (hpow_sq (1 / 6 / (1 / 2)) 2 ltac:(lra) ltac:(lra)) as L.
  pose proof (hpow_le (1 / 6 / (1 / 2)) 1 2 ltac:(lra) ltac:(lra) ltac:(lra)) as U. rewrite hpow_1 in U.
  set (q := 1 - hpow (1 / 6 / (1 / 2)) 2) in *. assert (Q : 0 <= q <= 8 / 9) by (unfold q; lra).
  pose proof (hpow_inv q 2 ltac:(lra) ltac:(lra)) as I.
  pose proof (hpow_le q 1 (/ 2) ltac:(lra) ltac:(lra) ltac:(lra)) as U2. rewrite hpow_1 in U2.
  pose proof (hpow_nonneg q (/ 2)) as N.
  pose proof (hpow_sq (hpow q (/ 2)) 2 ltac:(lra) ltac:(lra)) as S. rewrite I in S. rewrite !Rmult_1_l. lra.
Qed.
Lemma rib3_good : forall k, (k < 3)%nat -> good_rib (rib3 k).
Proof.
  intros k Hk. destruct three_ribs as (s & RS & _ & RB). apply (has_rib_axial round_tire s k (rib3 k) RS).
  unfold has_rib, rib_at. rewrite RB, rib3_ribs. destruct k as [|[|[|k]]]; try reflexivity. lia.
Qed.
Lemma rib3_level : forall h k, sin2 (pnormal (ground_below h)) (papply (lin upright) (rb_normal (rib3 k))) = 1.
Proof.
  intros h k. change (rb_normal (rib3 k)) with (V 0 1 0 : pt). unfold sin2, upright, ground_below, papply. cbn. vunf. ring.
Qed.
Lemma rib3_height : forall h k, center_height (rib3 k) upright (ground_below h) = h.
Proof.
  intros h k. unfold center_height. rewrite rib3_center. unfold place, upright, ground_below, papply. cbn. vunf. ring.
Qed.

(** What rib [k] of the wheel holds after the setup. *)
Lemma rib3_out : forall gb s h f s' b k, sh_ribs s = map frib (slices round_tire 3) -> (k < 3)%nat ->
  setup_flat gb s (fflat (ground_below h) f) (fa upright) "geometric" = Ok s' b ->
  exists c o, envelop_geometric_flat (frib (rib3 k)) (fflat (ground_below h) f) (fa upright) = (c, o) /\ out_at s' k = Ret o.
Proof.
  intros gb s h f s' b k RB Hk E. destruct (setup_flat_reports _ _ _ _ _ _ _ E) as (RB' & _ & flags & LF & HR & _).
  assert (S3 : sh_size s' = 3%nat) by (unfold sh_size; rewrite RB', RB; reflexivity).
  destruct (nth_error flags k) as [c|] eqn:NF; [|apply nth_error_None in NF; lia].
  destruct (HR k c NF) as (x & o & NX & EF & EO). apply flat_geo_ret in EF.
  rewrite RB', RB, rib3_ribs in NX.
  assert (X : x = frib (rib3 k)) by (destruct k as [|[|[|k]]]; cbn [map nth_error] in NX; [congruence|congruence|congruence|lia]).
  subst x. eauto.
Qed.

(** The ground 2^-26 above the lowest point of the wheel. *)
Lemma barely : forall gb, exists s s' b o, real_shell round_tire s /\
  setup_flat gb s (fflat (ground_below (1 - eps)) (3 / 4)) (fa upright) "geometric" = Ok s' b /\
  out_at s' 1 = Ret (fout o) /\ 0 < o_depth o /\ o_friction o = 3 / 4 /\
  (exists v, contact_volume s' = Ret (Fin v) /\ v < eps) /\
  contact_friction s' = Ret (Fin (1 / 4)).
Proof.
  intros gb. destruct three_ribs as (s & RS & S3 & RB). set (gp := ground_below (1 - eps)).
  pose proof (below_unit (1 - eps)) as U. fold gp in U.
  destruct (setup_flat_returns gb s (fflat gp (3 / 4)) (fa upright)) as (s' & b & E); [apply RS|lia|].
  assert (EB : eps < / 100). { unfold eps. lra. } pose proof eps_pos as EP.
  destruct (flat_setup_data gb round_tire s gp (3 / 4) upright s' b RS upright_rigid U E) as (os & RD & HN & HO).
  assert (S3' : sh_size s' = 3%nat) by (destruct (setup_flat_reports _ _ _ _ _ _ _ E) as (RB' & _); unfold sh_size in *; rewrite RB'; exact S3).
  destruct os as [|o0 [|o1 [|o2 [|o3 os]]]]; try (destruct RD as [L _]; rewrite S3' in L; discriminate).
  assert (OUT : forall k o, nth_error [o0; o1; o2] k = Some o -> out_at s' k = Ret (fout o)).
  { intros k o NO. destruct RD as [_ RD]. destruct (RD k o NO) as (A1 & A2 & A3 & A4 & A5 & A6). apply out_of_accessors; assumption. }
  (* the sides are in the air *)
  assert (SIDE : forall k o, k = 0%nat \/ k = 2%nat -> nth_error [o0; o1; o2] k = Some o -> o_depth o = 0 /\ o_volume o = 0).
  { intros k o Hk NO. assert (K3 : (k < 3)%nat) by (destruct Hk; lia).
    destruct (rib3_out gb s (1 - eps) (3 / 4) s' b k RB K3 E) as (c & ox & EE & EO).
    rewrite (OUT k o NO) in EO. assert (EO' : fout o = ox) by congruence. subst ox. destruct c.
    - exfalso. assert (F : fst (envelop_geometric_flat (frib (rib3 k)) (fflat gp (3 / 4)) (fa upright)) = true) by (unfold gp; rewrite EE; reflexivity).
      apply (flat_contact_iff (rib3 k) upright gp (3 / 4) (rib3_good k K3) upright_rigid U) in F. destruct F as [_ F].
      unfold gp in F. rewrite rib3_level, rib3_height in F. pose proof (side3_radius k Hk). nra.
    - assert (Q : envelop_flat (gb 0%nat) (frib (rib3 k)) (fflat gp (3 / 4)) (fa upright) "geometric" = Ret (false, fout o)).
      { destruct (gb 0%nat) as [[[g0 g1] g2] g3]. unfold envelop_flat. cbn [String.eqb Ascii.eqb Bool.eqb]. unfold gp. rewrite EE. reflexivity. }
      apply envelop_flat_no_contact in Q. destruct Q as (_ & _ & _ & Q1 & _ & Q2). cbn [fout o_depth o_volume] in Q1, Q2.
      split; [change (Fin (o_depth o) = Fin 0) in Q1|change (Fin (o_volume o) = Fin 0) in Q2]; congruence. }
  destruct (SIDE 0%nat o0 (or_introl eq_refl) eq_refl) as [D0 V0].
  destruct (SIDE 2%nat o2 (or_intror eq_refl) eq_refl) as [D2 V2].
  (* the middle touches *)
  destruct (rib3_out gb s (1 - eps) (3 / 4) s' b 1 RB ltac:(lia) E) as (c & ox & EE & EO).
  rewrite (OUT 1%nat o1 eq_refl) in EO. assert (EO' : fout o1 = ox) by congruence. subst ox.
  assert (C : c = true).
  { replace c with (fst (envelop_geometric_flat (frib (rib3 1)) (fflat gp (3 / 4)) (fa upright))) by (unfold gp; rewrite EE; reflexivity).
    apply (flat_contact_iff (rib3 1) upright gp (3 / 4) (rib3_good 1 ltac:(lia)) upright_rigid U).
    unfold gp. rewrite rib3_level, rib3_height, mid3_radius. split; nra. }
  subst c. destruct (flat_contact (rib3 1) upright gp (3 / 4) (rib3_good 1 ltac:(lia)) upright_rigid U (fout o1) EE)
    as (p & P1 & P2 & _ & _ & _ & P6 & P7 & _ & P9).
  cbn [fout o_point o_depth o_volume] in P1, P6, P9. apply fv_inj in P1. rewrite mid3_radius, rib3_width in *.
  set (dd := dist p (place upright (rb_center (rib3 1)))) in *.
  assert (D1 : o_depth o1 = 1 - dd) by congruence. assert (V1 : o_volume o1 = rvol 1 (1 / 6) (1 - dd)) by congruence.
  assert (DD : 1 - eps <= dd).
  { unfold dd, dist, pnorm. rewrite <- (sqrt_square (1 - eps)) by lra. apply sqrt_le_1_alt.
    rewrite rib3_center. unfold on_plane, gp, ground_below in P2. cbn [porigin pnormal] in P2. unfold place, upright, papply. cbn. 
    destruct p as [px py pz]. vunf. assert (Z : pz = - (1 - eps)) by lra. rewrite Z. 
    match goal with |- _ <= ?A => replace A with (px * px + (py - slice_center (sLy round_tire) 3 1) * (py - slice_center (sLy round_tire) 3 1) + (1 - eps) * (1 - eps)) by (unfold round_tire; cbn; ring) end.
    pose proof (Rle_0_sqr px). pose proof (Rle_0_sqr (py - slice_center (sLy round_tire) 3 1)). unfold Rsqr in *. lra. }
  assert (VB : 0 <= o_volume o1 <= eps / 3).
  { rewrite V1. pose proof (vol_lipschitz 1 (1 / 6) 0 (1 - dd) ltac:(lra) ltac:(lra) ltac:(lra) ltac:(lra) ltac:(lra)) as VL.
    rewrite rvol_0 in VL by lra. pose proof (rvol_bounds 1 (1 / 6) (1 - dd) ltac:(lra) ltac:(lra) ltac:(lra)). lra. }
  assert (F1 : o_friction o1 = 3 / 4).
  { destruct (HO o1 ltac:(right; left; reflexivity)) as (_ & _ & _ & [(F & _)|(_ & _ & _ & D & _)]); [exact F|lra]. }
  assert (F0 : o_friction o0 = 0).
  { destruct (HO o0 ltac:(left; reflexivity)) as (_ & _ & _ & [(_ & _ & D)|(F & _)]); [lra|exact F]. }
  assert (F2 : o_friction o2 = 0).
  { destruct (HO o2 ltac:(right; right; left; reflexivity)) as (_ & _ & _ & [(_ & _ & D)|(F & _)]); [lra|exact F]. }
  pose proof (total_volume s' _ RD) as TV. cbn [total] in TV. 
  exists s, s', b, o1. split; [exact RS|]. split; [exact E|]. split; [exact (OUT 1%nat o1 eq_refl)|].
  split; [rewrite D1; lra|]. split; [exact F1|]. split.
  - eexists. split; [exact TV|]. lra.
  - rewrite (friction_eval s' _ RD HN). cbn [total]. rewrite S3'.
    replace (rltb _ eps) with true by (symmetry; apply rltb_true; lra).
    rewrite F0, F1, F2. do 2 f_equal. cbn [INR]. field.
Qed.

(** The axle at the height of the ground: plenty of volume. *)
Lemma loaded : forall gb, exists s s' b v, real_shell round_tire s /\
  setup_flat gb s (fflat (ground_below 0) (3 / 4)) (fa upright) "geometric" = Ok s' b /\
  contact_volume s' = Ret (Fin v) /\ eps <= v.
Proof.
  intros gb. destruct three_ribs as (s & RS & S3 & RB). set (gp := ground_below 0).
  pose proof (below_unit 0) as U. fold gp in U.
  destruct (setup_flat_returns gb s (fflat gp (3 / 4)) (fa upright)) as (s' & b & E); [apply RS|lia|].
  assert (EB : eps < / 100). { unfold eps. lra. } pose proof eps_pos as EP.
  destruct (flat_setup_data gb round_tire s gp (3 / 4) upright s' b RS upright_rigid U E) as (os & RD & HN & HO).
  assert (S3' : sh_size s' = 3%nat) by (destruct (setup_flat_reports _ _ _ _ _ _ _ E) as (RB' & _); unfold sh_size in *; rewrite RB'; exact S3).
  destruct os as [|o0 [|o1 [|o2 [|o3 os]]]]; try (destruct RD as [L _]; rewrite S3' in L; discriminate).
  destruct (rib3_out gb s 0 (3 / 4) s' b 1 RB ltac:(lia) E) as (c & ox & EE & EO).
  assert (EO' : fout o1 = ox).
  { destruct (proj2 RD 1%nat o1 eq_refl) as (A1 & A2 & A3 & A4 & A5 & A6).
    pose proof (out_of_accessors s' 1 o1 A1 A2 A3 A4 A5 A6) as Q. congruence. }
  subst ox.
  assert (C : c = true).
  { replace c with (fst (envelop_geometric_flat (frib (rib3 1)) (fflat gp (3 / 4)) (fa upright))) by (unfold gp; rewrite EE; reflexivity).
    apply (flat_contact_iff (rib3 1) upright gp (3 / 4) (rib3_good 1 ltac:(lia)) upright_rigid U).
    unfold gp. rewrite rib3_level, rib3_height, mid3_radius. lra. }
  subst c. destruct (flat_contact (rib3 1) upright gp (3 / 4) (rib3_good 1 ltac:(lia)) upright_rigid U (fout o1) EE)
    as (p & _ & _ & _ & P4 & _ & _ & _ & _ & P9).
  cbn [fout o_volume] in P9. rewrite mid3_radius, rib3_width in *.
  set (cg := place upright (rb_center (rib3 1))) in *.
  assert (CZ : cg = V 0 (slice_center (sLy round_tire) 3 1) 0).
  { unfold cg. rewrite rib3_center. unfold place, upright, papply. apply vec_eq; cbn [vx vy vz]; vunf; cbn; ring. }
  assert (DD : dist p cg = 0).
  { apply Rle_antisym; [|apply pnorm_nonneg]. apply Rle_trans with (dist cg cg).
    - apply P4; unfold on_plane, gp, ground_below, posed_disk; cbn [porigin pnormal dplane].
      + rewrite CZ. vunf. ring.
      + fold cg. destruct cg as [x y z]. destruct (papply (lin upright) (rb_normal (rib3 1))) as [x' y' z']. vunf. ring.
    - right. unfold dist, pnorm. replace (pdot _ _) with 0 by (destruct cg; vunf; ring). apply sqrt_0. }
  assert (V1 : o_volume o1 = rvol 1 (1 / 6) 1) by (rewrite DD, Rminus_0_r in P9; congruence).
  rewrite rvol_half in V1 by lra.
  pose proof (total_volume s' _ RD) as TV. cbn [total] in TV.
  pose proof (proj1 (HO o0 ltac:(left; reflexivity))). pose proof (proj1 (HO o2 ltac:(right; right; left; reflexivity))).
  exists s, s', b, (o_volume o0 + (o_volume o1 + (o_volume o2 + 0))). split; [exact RS|]. split; [exact E|]. split; [exact TV|].
  pose proof PI_RGT_0. pose proof PI2_3_2. rewrite V1. unfold PI2 in *. lra.
Qed.
