(** * C120: contact data in double precision, rounding included. *)
From Coq Require Import ZArith Bool String List Floats.SpecFloat.
From Verif Require Import Base Num Vec Aabb Geom Ground Rib F64 SampleShell SpecDouble ProofDouble.
Import ListNotations.

(** Sampling method on flat ground: contact has positive depth, and if the
    depth is at most the diameter the depth, the area and the volume are finite
    and the area is not negative. *)
Theorem C120_sampling_flat : forall lm gb (r : rib f64) (ground : flat f64) pose out,
  sound_acos lm -> sound_rib r -> double_pose pose -> double_plane (fl_plane ground) ->
  @envelop_flat f64 (F64_Num lm) gb r ground pose "sampling" = Ret (true, out) ->
  SFltb (S754_zero false) (o_depth out) = true /\
  (SFleb (o_depth out) (SFmul 53 1024 (f_of 2 0) (dradius (rb_disk r))) = true ->
   is_finite (o_depth out) = true /\ is_finite (o_area out) = true /\
   SFleb (S754_zero false) (o_area out) = true /\ is_finite (o_volume out) = true).
Proof. exact sampling_flat_doubles. Qed.
Print Assumptions C120_sampling_flat.

(** The same on triangles. *)
Theorem C120_sampling_triangles : forall lm gb (r : rib f64) (ground : list (tground f64)) pose out,
  sound_acos lm -> sound_rib r -> double_pose pose ->
  Forall (fun g => double_triangle (tg_tri g)) ground ->
  @envelop f64 (F64_Num lm) gb r ground pose "sampling" = Ret (true, out) ->
  SFltb (S754_zero false) (o_depth out) = true /\
  (SFleb (o_depth out) (SFmul 53 1024 (f_of 2 0) (dradius (rb_disk r))) = true ->
   is_finite (o_depth out) = true /\ is_finite (o_area out) = true /\
   SFleb (S754_zero false) (o_area out) = true /\ is_finite (o_volume out) = true).
Proof. exact sampling_triangles_doubles. Qed.
Print Assumptions C120_sampling_triangles.

(** Geometric method on flat ground: a depth that is not negative is at most
    the radius, and then all the data are finite. *)
Theorem C120_geometric_flat : forall lm gb (r : rib f64) (ground : flat f64) pose out,
  sound_acos lm -> sound_rib r -> double_pose pose -> double_plane (fl_plane ground) ->
  @envelop_flat f64 (F64_Num lm) gb r ground pose "geometric" = Ret (true, out) ->
  SFleb (S754_zero false) (o_depth out) = true ->
  SFleb (o_depth out) (dradius (rb_disk r)) = true /\
  is_finite (o_depth out) = true /\ is_finite (o_area out) = true /\
  SFleb (S754_zero false) (o_area out) = true /\ is_finite (o_volume out) = true.
Proof. exact geometric_flat_doubles. Qed.
Print Assumptions C120_geometric_flat.

Local Instance L : Num f64 := F64_Num lm1.
(** A wheel of radius 1/4 and width 1/8 whose heading is (0.6, 0.8, 0). *)
Definition far_rib : rib f64 := mk_rib 0 (f_of 1 (-2)) (fz 0) (f_of 1 (-3)) (fz 0).
Definition f06 : f64 := f_of 5404319552844595 (-53).
Definition f08 : f64 := f_of 7205759403792794 (-53).
Definition heading : mat3 f64 :=
  M3 f06 (SFopp f08) (fz 0)  f08 f06 (fz 0)  (fz 0) (fz 0) (fz 1).
(** Its centre 0.2 above level ground at the origin. *)
Definition near_pose : affine f64 := Aff heading (V (fz 0) (fz 0) (f_of 7205759403792794 (-55))).
(** Its centre 0.26 above level ground, 4075 km east and 4271 km north of the
    origin of the coordinates: 10 mm of air under the wheel. *)
Definition far_pose : affine f64 :=
  Aff heading (V (fz 4074895) (fz 4270808) (f_of 4683743612465316 (-54))).

Lemma lm1_acos : sound_acos lm1.
Proof. intros x _ _ _. repeat split; vm_compute; reflexivity. Qed.
Lemma far_rib_sound : sound_rib far_rib.
Proof. split; repeat split; vm_compute; reflexivity. Qed.

(** Far from the origin the geometric method reports contact for a wheel in
    the air, with negative depth and with area and volume NaN.  The sampling
    method reports no contact. *)
Theorem C120_far_refuted :
  sound_acos lm1 /\ sound_rib far_rib /\ double_pose far_pose /\ double_plane (fl_plane level) /\
  (exists out, envelop_flat (gb0 0) far_rib level far_pose "geometric" = Ret (true, out) /\
     SFltb (o_depth out) (f_of (-5) (-9)) = true /\
     o_area out = S754_nan /\ o_volume out = S754_nan) /\
  (exists out, envelop_flat (gb0 0) far_rib level far_pose "sampling" = Ret (false, out)).
Proof.
  split; [exact lm1_acos|]. split; [exact far_rib_sound|].
  split; [repeat split; vm_compute; reflexivity|].
  split; [repeat split; vm_compute; reflexivity|]. split.
  - eexists. split; [vm_compute; reflexivity|]. repeat split; vm_compute; reflexivity.
  - eexists. vm_compute. reflexivity.
Qed.
Print Assumptions C120_far_refuted.

(** The wheel at the origin meets the hypotheses with both methods. *)
Example C120_example :
  sound_acos lm1 /\ sound_rib far_rib /\ double_pose near_pose /\ double_plane (fl_plane level) /\
  (exists out, envelop_flat (gb0 0) far_rib level near_pose "geometric" = Ret (true, out) /\
     SFleb (S754_zero false) (o_depth out) = true) /\
  (exists out, envelop_flat (gb0 0) far_rib level near_pose "sampling" = Ret (true, out) /\
     SFleb (o_depth out) (SFmul 53 1024 (f_of 2 0) (dradius (rb_disk far_rib))) = true) /\
  Forall (fun g => double_triangle (tg_tri g)) square_tris.
Proof.
  split; [exact lm1_acos|]. split; [exact far_rib_sound|].
  split; [repeat split; vm_compute; reflexivity|].
  split; [repeat split; vm_compute; reflexivity|]. split; [|split].
  - eexists. split; [vm_compute; reflexivity|]. vm_compute. reflexivity.
  - eexists. split; [vm_compute; reflexivity|]. vm_compute. reflexivity.
  - repeat constructor; vm_compute; reflexivity.
Qed.
