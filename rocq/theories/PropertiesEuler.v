(** * Properties: attitude of the wheel and of its contact with the ground. *)
From Coq Require Import ZArith Bool Reals Lra Lia Floats.SpecFloat String List.
From Verif Require Import Base Num Vec Aabb Tree Geom Ground Shape Rib Str Mesh Shell ER F64.
From Verif Require Import SpecGeom SpecRib SpecShape SpecShell SpecPose SpecAvg SpecEuler.
From Verif Require Import ProofGeom ProofShape ProofShapeFacts ProofPose ProofAvg ProofSetupData ProofEuler SampleShell SamplePose SampleEuler.
Import ListNotations.
Local Open Scope R_scope.

(** ** C67: the three angles of the shell name its rotation, for every pose. *)
Theorem C67_euler_angles : forall s a, sh_affine s = fa a -> rigid a -> exists e, sh_euler s = fv e /\
  0 <= vx e < PI /\ - PI <= vy e < PI /\ - PI <= vz e < PI /\ forall p, papply (lin a) p = turn_zxy e p.
Proof. exact shell_euler. Qed.
Print Assumptions C67_euler_angles.

(** Angles relative to the contact frame: turning the contact frame by them
    gives the wheel; there is no yaw, and the sine of the camber is the
    component of the axle along the normal of the ground. *)
Theorem C67_relative_angles : forall s a p n, sh_affine s = fa a -> rigid a ->
  contact_point s = Ret (fv p) -> contact_normal s = Ret (fv n) -> is_unit n -> pcross (pcol1 (lin a)) n <> V 0 0 0 ->
  exists A e, contact_affine s = Ret (fa A) /\ frame_of (pcol1 (lin a)) p n A /\ relative_angles s = Ret (fv e) /\
  vx e = 0 /\ - (PI / 2) < vy e < PI / 2 /\ sin (vy e) = pdot (pcol1 (lin a)) n /\ - PI <= vz e < PI /\
  forall q, papply (lin a) q = papply (lin A) (turn_zxy e q).
Proof. exact total_angles. Qed.
Print Assumptions C67_relative_angles.

(** The wheel on its side, where the first and third angle turn about the same
    axis, is a rigid pose too. *)
Example C67_example : rigid (Aff (M3 1 0 0 0 0 (-1) 0 1 0) (V 0 0 0)) /\
  exists s, real_shell round_tire s /\ forall gb, exists s' b p,
    setup_flat gb s floor (fa upright) "geometric" = Ok s' b /\
    sh_affine s' = fa upright /\ rigid upright /\ contact_point s' = Ret (fv p) /\ contact_normal s' = Ret (fv (V 0 0 1)) /\
    is_unit (V 0 0 1) /\ pcross (pcol1 (lin upright)) (V 0 0 1) <> V 0 0 0.
Proof.
  split.
  { unfold rigid, rotation. cbn [lin]. vunf. cbn [m00 m01 m02 m10 m11 m12 m20 m21 m22]. repeat split; try ring. f_equal; ring. }
  destruct (stands 1 ltac:(lia)) as (s & RS & _ & H). exists s. split; [exact RS|].
  intros gb. destruct (H gb) as (s' & b & p & H1 & H2 & H3 & H4 & _). exists s', b, p.
  repeat (split; [assumption || exact upright_rigid|]). split; [vunf; ring|exact upright_axle].
Qed.

(** With rounding the claim is false: the scalar product of two orthogonal
    vectors is not exactly zero, and its sign decides between yaw 0 and yaw pi.
    A wheel with a heading of 35 degrees on level ground is reported with a
    yaw of pi, whatever [sin], [cos] and [atan2] are, as long as [atan2] is
    positive in the first quadrant. *)
Theorem C67_rounded_yaw_refuted : forall sn cs at2,
  (forall y x, SFltb (fz 0) y = true -> SFltb (fz 0) x = true -> SFltb (fz 0) (at2 y x) = true) ->
  let N := F64_Num (lm35 sn cs at2) in
  exists s s' e y x, @mk_shell f64 N 1 (fz 1) (fz 1) (fz 2) (fz 1) (fz 1) = Ret s /\
    @setup_flat f64 N gb0 s level heading35 "geometric" = Ok s' true /\
    @contact_normal f64 N s' = Ret (V (fz 0) (fz 0) (fz 1)) /\ @relative_angles f64 N s' = Ret e /\
    SFltb (fz 0) y = true /\ SFltb y (f_of 1 (-53)) = true /\ SFltb (f_of 1 (-1)) x = true /\
    vx e = SFopp (SFsub fprec femax (at2 y x) (@npi f64 N)).
Proof.
  intros sn cs at2 POS N. exists (got no_shell (built35 sn cs at2)), (after35 sn cs at2).
  pose (m := mmul (mtrans (lin (contact_frame (sh_y (after35 sn cs at2)) (V (fz 0) (fz 0) (fz 0)) (V (fz 0) (fz 0) (fz 1)))))
     (lin (sh_affine (after35 sn cs at2)))).
  exists (@euler201 f64 N m), (m01 m), (m11 m).
  assert (NE : @contact_normal f64 N (after35 sn cs at2) = Ret (V (fz 0) (fz 0) (fz 1))) by (vm_compute; reflexivity).
  split; [exact (built35_ok sn cs at2)|]. split; [exact (after35_ok sn cs at2)|]. split; [exact NE|].
  split.
  { unfold relative_angles, contact_affine. rewrite NE.
    destruct (@contact_point f64 N (after35 sn cs at2)) as [p| |] eqn:EP; [reflexivity| |]; vm_compute in EP; discriminate EP. }
  assert (A1 : SFltb (fz 0) (m01 m) = true) by (vm_compute; reflexivity).
  assert (A2 : SFltb (f_of 1 (-1)) (m11 m) = true) by (vm_compute; reflexivity).
  split; [exact A1|]. split; [vm_compute; reflexivity|]. split; [exact A2|].
  unfold euler201. cbn [vx].
  assert (A3 : @nlt f64 N (@nofZ f64 N 0) (@natan2 f64 N (m01 m) (m11 m)) = true).
  { apply POS; [exact A1|vm_compute; reflexivity]. }
  rewrite A3. reflexivity.
Qed.
Print Assumptions C67_rounded_yaw_refuted.

(** The hypothesis on [atan2] is not contradictory; with the value of [atan2]
    at this point (a tiny angle is its own tangent) the reported yaw is pi. *)
Example C67_rounded_example :
  (forall y x, SFltb (fz 0) y = true -> SFltb (fz 0) x = true -> SFltb (fz 0) ((fun y _ : f64 => y) y x) = true) /\
  match @relative_angles f64 (F64_Num lm1) (after35 (fun x => x) (fun x => x) (fun y _ => y)) with
  | Ret e => vx e = @npi f64 (F64_Num lm1) | _ => False end.
Proof. split; [auto|vm_compute; reflexivity]. Qed.

(** ** C68: the angles of a rib. *)
Theorem C68_rib_angles : forall s a i p n r, sh_affine s = fa a -> rigid a ->
  contact_point_i s i = Ret (fv p) -> contact_normal_i s i = Ret (fv n) -> is_unit n -> pcross (pcol1 (lin a)) n <> V 0 0 0 ->
  rib_at s i = Ret (frib r) ->
  exists A e, contact_affine_i s i = Ret (fa A) /\ frame_of (pcol1 (lin a)) p n A /\ relative_angles_i s i = Ret (fv (V (- rb_angle r) (vy e) (vz e))) /\
  vx e = 0 /\ - (PI / 2) < vy e < PI / 2 /\ sin (vy e) = pdot (pcol1 (lin a)) n /\ - PI <= vz e < PI /\
  forall q, papply (lin a) q = papply (lin A) (turn_zxy e q).
Proof. exact rib_angles. Qed.
Print Assumptions C68_rib_angles.

(** So they name the attitude of the wheel relative to the contact frame of the
    rib only when the rib is not inclined: the inclination of the rib, a turn
    about the forward axis, is subtracted from the angle about the normal. *)
Theorem C68_rib_attitude : forall s a i p n r, sh_affine s = fa a -> rigid a ->
  contact_point_i s i = Ret (fv p) -> contact_normal_i s i = Ret (fv n) -> is_unit n -> pcross (pcol1 (lin a)) n <> V 0 0 0 ->
  rib_at s i = Ret (frib r) -> - (PI / 2) < rb_angle r < PI / 2 ->
  exists A e, contact_affine_i s i = Ret (fa A) /\ relative_angles_i s i = Ret (fv e) /\
  ((forall q, papply (lin a) q = papply (lin A) (turn_zxy e q)) <-> rb_angle r = 0).
Proof. exact rib_attitude. Qed.
Print Assumptions C68_rib_attitude.

Theorem C68_rib_attitude_refuted : exists s, real_shell round_tire s /\ forall gb, exists s' b A e,
  setup_flat gb s floor (fa upright) "geometric" = Ok s' b /\
  contact_affine_i s' 0 = Ret (fa A) /\ relative_angles_i s' 0 = Ret (fv e) /\
  exists q, papply (lin upright) q <> papply (lin A) (turn_zxy e q).
Proof.
  destruct (stands 2 ltac:(lia)) as (s & RS & _ & H). exists s. split; [exact RS|]. intros gb.
  destruct (H gb) as (s' & b & p & H1 & H2 & _ & _ & H4). destruct (H4 0%nat ltac:(lia)) as (HR & q & HQ & HN).
  destruct (rib_attitude_not s' upright 0 q (V 0 0 1) side_rib H2 upright_rigid HQ HN ltac:(vunf; ring) upright_axle HR)
    as (A & e & EA & EE & Hq); [pose proof side_angle; lra|pose proof side_angle; lra|].
  exists s', b, A, e. auto.
Qed.
Print Assumptions C68_rib_attitude_refuted.

Example C68_example : exists s, real_shell round_tire s /\ forall gb, exists s' b p,
  setup_flat gb s floor (fa upright) "geometric" = Ok s' b /\ sh_affine s' = fa upright /\
  contact_point_i s' 0 = Ret (fv p) /\ contact_normal_i s' 0 = Ret (fv (V 0 0 1)) /\
  rib_at s' 0 = Ret (frib side_rib) /\ 0 < rb_angle side_rib < PI / 2.
Proof.
  destruct (stands 2 ltac:(lia)) as (s & RS & _ & H). exists s. split; [exact RS|]. intros gb.
  destruct (H gb) as (s' & b & p & H1 & H2 & _ & _ & H4). destruct (H4 0%nat ltac:(lia)) as (HR & q & HQ & HN).
  exists s', b, q. repeat (split; [assumption|]). exact side_angle.
Qed.
