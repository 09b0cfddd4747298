(** * A wheel standing on level ground, over exact arithmetic, and a wheel with a
      heading of 35 degrees on level ground, over binary64. *)
From Coq Require Import ZArith Bool Reals Lra Lia Floats.SpecFloat String List.
From Verif Require Import Base Num Vec Aabb Tree Geom Ground Shape Rib Str Mesh Shell ER F64.
From Verif Require Import SpecGeom SpecRib SpecShape SpecShell SpecPose SpecAvg SpecEuler.
From Verif Require Import ProofGeom ProofShape ProofShapeFacts ProofPose ProofAvg ProofShell ProofSetupData ProofEuler SampleShell SamplePose.
Import ListNotations.
Local Open Scope R_scope.

Definition floor : flat er := fflat (Plane (V 0 0 (- (1 / 2))) (V 0 0 1)) (3 / 4).
Lemma upright_axle : pcross (pcol1 (lin upright)) (V 0 0 1) <> V 0 0 0.
Proof. unfold upright, pcol1. cbn. intros H. apply (f_equal vx) in H. cbn in H. lra. Qed.
Lemma stands : forall n, (0 < n <= 200)%nat -> exists s, real_shell round_tire s /\ sh_size s = n /\
  forall gb, exists s' b p, setup_flat gb s floor (fa upright) "geometric" = Ok s' b /\
    sh_affine s' = fa upright /\ contact_point s' = Ret (fv p) /\ contact_normal s' = Ret (fv (V 0 0 1)) /\
    forall i, (i < n)%nat ->
      rib_at s' i = Ret (frib (real_rib round_tire (slice_width (sLy round_tire) n) (int_of_size i) (slice_center (sLy round_tire) n i))) /\
      exists q, contact_point_i s' i = Ret (fv q) /\ contact_normal_i s' i = Ret (fv (V 0 0 1)).
Proof.
  intros n Hn.
  destruct (mk_shell_eval round_tire round_good n ltac:(lia)) as (s & E0 & RB & SS).
  assert (RS : real_shell round_tire s). { split; [exact (r_new _ _ _ _ _ _ _ E0)|]. split; [exact SS|exact round_good]. }
  assert (SZ : sh_size s = n). { unfold sh_size. rewrite RB, map_length. unfold slices. now rewrite map_length, seq_length. }
  exists s. split; [exact RS|]. split; [exact SZ|].
  intros gb. set (gp := Plane (V 0 0 (- (1 / 2))) (V 0 0 1)).
  assert (U : is_unit (pnormal gp)) by (unfold gp; cbn [pnormal]; vunf; ring).
  destruct (setup_flat_returns gb s (fflat gp (3 / 4)) (fa upright)) as (s' & b & E); [apply RS|lia|].
  destruct (flat_setup_data gb round_tire s gp (3 / 4) upright s' b RS upright_rigid U E) as (os & RD & HN & HO).
  destruct (point_hull s' os RD HN) as (p & EP & _); [intros o Ho; apply HO; auto|].
  assert (UP : papply (lin upright) (V 0 0 1) = V 0 0 1) by (unfold upright; apply vec_eq; cbn; ring).
  assert (NZ : forall o, In o os -> o_normal o = V 0 0 1).
  { intros o Ho. destruct (HO o Ho) as (_ & _ & _ & [(_ & H & _)|(_ & _ & _ & _ & H)]); rewrite H; auto. }
  exists s', b, p. split; [exact E|]. split; [eapply setup_flat_pose; eassumption|]. split; [exact EP|]. split.
  - destruct (normal_side s' os RD HN) with (u := V 0 0 1 : pt) (c := 1) as (m & EN & NU & NS); try lra.
    + intros o Ho. now apply HO.
    + vunf. ring.
    + intros o [Ho _]. rewrite (NZ o Ho). vunf. lra.
    + intros o [Ho _]. rewrite (NZ o Ho). vunf. ring.
    + rewrite EN. do 2 f_equal. destruct m as [x y z]. unfold is_unit, pdot in *. cbn [vx vy vz] in *. apply vec_eq; cbn; nra.
  - destruct (setup_flat_reports _ _ _ _ _ _ _ E) as (RB' & _).
    intros i Hi. split.
    + unfold rib_at. rewrite RB', RB, nth_error_map, (slices_nth round_tire n i Hi). reflexivity.
    + destruct RD as (L & RD). destruct (nth_error os i) as [o|] eqn:NO.
      * destruct (RD i o NO) as (D1 & D2 & _). exists (o_point o). split; [exact D1|].
        rewrite <- (NZ o (nth_error_In _ _ NO)). exact D2.
      * apply nth_error_None in NO. unfold sh_size in *. rewrite RB' in L. lia.
Qed.

(** The first of two ribs is inclined. *)
Definition side_rib : rib R := real_rib round_tire (slice_width (sLy round_tire) 2) (int_of_size 0) (slice_center (sLy round_tire) 2 0).
Lemma side_angle : 0 < rb_angle side_rib < PI / 2.
Proof.
  unfold side_rib, real_rib. cbn [rb_angle]. unfold angle_at.
  assert (Y : slice_center (sLy round_tire) 2 0 = - (1 / 8)) by (unfold slice_center, slice_width, round_tire; cbn; field).
  rewrite Y. assert (A : Rabs (- (1 / 8)) = 1 / 8) by (rewrite Rabs_Ropp; apply Rabs_pos_eq; lra).
  assert (L : rltb eps (Rabs (- (1 / 8))) = true).
  { apply rltb_true. rewrite A. unfold eps. lra. }
  rewrite L. pose proof (slope_sign round_tire round_good (- (1 / 8)) ltac:(lra)) as SL.
  split; [|apply atan_bound]. rewrite <- atan_0. apply atan_increasing. nra.
Qed.

(** ** Binary64.  [pow], [acos] and [atan] as in [SampleShell]; [sin], [cos] and
       [atan2] any functions. *)
Section Heading.
  Variable sn cs : f64 -> f64.
  Variable at2 : f64 -> f64 -> f64.
  Definition lm35 : libm := Libm sn cs (fun x => x) (fun _ => half_pi) at2 (fun x y => if SFeqb y (fz 0) then fz 1 else x).
  Definition N35 : Num f64 := F64_Num lm35.
  Definition cos35 : f64 := f_of 7378265682839367 (-53).
  Definition sin35 : f64 := f_of 5166317250038136 (-53).
  (** The wheel turned by 35 degrees about the vertical. *)
  Definition heading35 : affine f64 :=
    Aff (M3 cos35 (SFopp sin35) (fz 0) sin35 cos35 (fz 0) (fz 0) (fz 0) (fz 1)) (V (fz 0) (fz 0) (fz 0)).
  Definition built35 : outcome (shell f64) := @mk_shell f64 N35 1 (fz 1) (fz 1) (fz 2) (fz 1) (fz 1).
  Definition after35 : shell f64 := after no_shell (@setup_flat f64 N35 gb0 (got no_shell built35) level heading35 "geometric").
  Lemma built35_ok : built35 = Ret (got no_shell built35).
  Proof. vm_compute. reflexivity. Qed.
  Lemma after35_ok : @setup_flat f64 N35 gb0 (got no_shell built35) level heading35 "geometric" = Ok after35 true.
  Proof. vm_compute. reflexivity. Qed.
End Heading.
