(** * C125: area and volume of a contact in double precision. *)
From Coq Require Import ZArith Reals Lra Bool String List Floats.SpecFloat.
From Verif Require Import Base Num Vec Aabb Geom Ground Shape Rib F64 SampleShell SpecDouble SpecPlaces
  SpecVolume ProofVolume.
Import ListNotations.

(** The sampling method reports the area and the volume of the slice up to
    2^-22, and no volume below zero by more than that. *)
Theorem C125_sampling_flat : forall lm gb (r : rib f64) (ground : flat f64) pose out,
  near_acos lm -> thick_rib r -> double_pose pose -> double_plane (fl_plane ground) ->
  @envelop_flat f64 (F64_Num lm) gb r ground pose "sampling" = Ret (true, out) ->
  SFleb (o_depth out) (SFmul 53 1024 (f_of 2 0) (dradius (rb_disk r))) = true -> near_slice r out.
Proof. exact sampling_flat_slice. Qed.
Print Assumptions C125_sampling_flat.

Theorem C125_sampling_triangles : forall lm gb (r : rib f64) (ground : list (tground f64)) pose out,
  near_acos lm -> thick_rib r -> double_pose pose -> Forall (fun g => double_triangle (tg_tri g)) ground ->
  @envelop f64 (F64_Num lm) gb r ground pose "sampling" = Ret (true, out) ->
  SFleb (o_depth out) (SFmul 53 1024 (f_of 2 0) (dradius (rb_disk r))) = true -> near_slice r out.
Proof. exact sampling_triangles_slice. Qed.
Print Assumptions C125_sampling_triangles.

(** So does the geometric method on flat ground, if the depth is not negative. *)
Theorem C125_geometric_flat : forall lm gb (r : rib f64) (ground : flat f64) pose out,
  near_acos lm -> thick_rib r -> double_pose pose -> double_plane (fl_plane ground) ->
  @envelop_flat f64 (F64_Num lm) gb r ground pose "geometric" = Ret (true, out) ->
  SFleb (S754_zero false) (o_depth out) = true -> near_slice r out.
Proof. exact geometric_flat_slice. Qed.
Print Assumptions C125_geometric_flat.

(** A rib of radius 3/4 and width 1/8, its centre one unit in the last place
    below 3/4 above level ground. *)
Definition shallow_rib : rib f64 := mk_rib 0 (f_of 3 (-2)) (fz 0) (f_of 1 (-3)) (fz 0).
Definition shallow_pose : affine f64 := Aff (lin aid) (V (fz 0) (fz 0) (f_of 6755399441055743 (-53))).

(** With a C library as above, whose arccosine of 1-2^-53 is 2^-26, the
    correctly rounded value, contact with positive depth is reported with a
    negative volume. *)
Theorem C125_positive_refuted :
  (Rabs (acos (1 - / 2 ^ 53) - / 2 ^ 26) <= / 2 ^ 80)%R /\
  exists lm, near_acos lm /\ lm_acos lm (f_of 9007199254740991 (-53)) = f_of 1 (-26) /\
  thick_rib shallow_rib /\ double_pose shallow_pose /\ double_plane (fl_plane level) /\
  exists out, @envelop_flat f64 (F64_Num lm) (gb0 0) shallow_rib level shallow_pose "sampling" = Ret (true, out) /\
    SFltb (f_of 0 0) (o_depth out) = true /\ SFltb (o_volume out) (f_of 0 0) = true.
Proof.
  split; [exact acos_there|]. exists near_libm. split; [exact near_libm_acos|]. split; [vm_compute; reflexivity|].
  split; [split; [constructor|split]; repeat split; vm_compute; reflexivity|].
  split; [repeat split; vm_compute; reflexivity|]. split; [repeat split; vm_compute; reflexivity|].
  eexists. split; [vm_compute; reflexivity|]. split; vm_compute; reflexivity.
Qed.
Print Assumptions C125_positive_refuted.

(** The same C library and rib, 1/4 deep, meet the hypotheses with both
    methods, on flat ground and on triangles. *)
Definition deep_pose : affine f64 := Aff (lin aid) (V (f_of 1 (-1)) (f_of 1 (-2)) (f_of 1 (-1))).
Definition reports (e : outcome (bool * output f64)) : bool :=
  match e with
  | Ret (b, out) => b && SFleb (f_of 0 0) (o_depth out) &&
      SFleb (o_depth out) (SFmul 53 1024 (f_of 2 0) (dradius (rb_disk shallow_rib)))
  | _ => false
  end.
Lemma reports_out : forall e, reports e = true -> exists out, e = Ret (true, out) /\
  SFleb (f_of 0 0) (o_depth out) = true /\
  SFleb (o_depth out) (SFmul 53 1024 (f_of 2 0) (dradius (rb_disk shallow_rib))) = true.
Proof.
  intros [[b out]| |] H; try discriminate. apply andb_prop in H. destruct H as [H H2].
  apply andb_prop in H. destruct H as [H H1]. subst b. eauto.
Qed.
Example C125_example :
  near_acos near_libm /\ thick_rib shallow_rib /\ double_pose deep_pose /\ double_plane (fl_plane level) /\
  Forall (fun g => double_triangle (tg_tri g)) square_tris /\
  forall e, In e [@envelop_flat f64 (F64_Num near_libm) (gb0 0) shallow_rib level deep_pose "sampling";
                  @envelop_flat f64 (F64_Num near_libm) (gb0 0) shallow_rib level deep_pose "geometric";
                  @envelop f64 (F64_Num near_libm) (gb0 0) shallow_rib square_tris deep_pose "sampling"] ->
  exists out, e = Ret (true, out) /\ SFleb (f_of 0 0) (o_depth out) = true /\
    SFleb (o_depth out) (SFmul 53 1024 (f_of 2 0) (dradius (rb_disk shallow_rib))) = true.
Proof.
  split; [exact near_libm_acos|]. split; [split; [constructor|split]; repeat split; vm_compute; reflexivity|].
  split; [repeat split; vm_compute; reflexivity|]. split; [repeat split; vm_compute; reflexivity|].
  split; [repeat constructor; vm_compute; reflexivity|].
  intros e [<-|[<-|[<-|[]]]]; apply reports_out; vm_compute; reflexivity.
Qed.
