(** * Double precision numbers (for C120).

    A number of the program is a binary64 datum in canonical form.  [finite]
    excludes infinities and NaN. *)
From Coq Require Import ZArith Bool List Floats.SpecFloat.
From Verif Require Import Num Vec Geom Ground Rib F64.

(** A binary64 datum: mantissa and exponent within the format. *)
Definition is_double (x : f64) : Prop := valid_binary 53 1024 x = true.

Definition is_finite (x : f64) : bool :=
  match x with S754_zero _ | S754_finite _ _ _ => true | _ => false end.

Definition double_vec (v : vec3 f64) : Prop :=
  is_double (vx v) /\ is_double (vy v) /\ is_double (vz v).

Definition double_mat (m : mat3 f64) : Prop :=
  double_vec (V (m00 m) (m01 m) (m02 m)) /\ double_vec (V (m10 m) (m11 m) (m12 m)) /\
  double_vec (V (m20 m) (m21 m) (m22 m)).

Definition double_pose (p : affine f64) : Prop := double_mat (lin p) /\ double_vec (tra p).

Definition double_plane (p : plane f64) : Prop :=
  double_vec (porigin p) /\ double_vec (pnormal p).

Definition double_triangle (t : triangle f64) : Prop :=
  double_vec (tv0 t) /\ double_vec (tv1 t) /\ double_vec (tv2 t).

(** A rib whose data are doubles, of radius above 0 and at most 2^300, and of
    width between 0 and 2^300. *)
Record sound_rib (r : rib f64) : Prop := {
  sr_center : double_vec (dcenter (rb_disk r));
  sr_normal : double_vec (dnormal (rb_disk r));
  sr_radius : is_double (dradius (rb_disk r));
  sr_radius_low : SFltb (S754_zero false) (dradius (rb_disk r)) = true;
  sr_radius_high : SFleb (dradius (rb_disk r)) (f_of 1 300) = true;
  sr_width : is_double (rb_width r);
  sr_width_low : SFleb (S754_zero false) (rb_width r) = true;
  sr_width_high : SFleb (rb_width r) (f_of 1 300) = true }.

(** The arccosine of the C library, where it is defined: between -1 and 1 it
    returns a double between 0 and 4.  Nothing is asked of it elsewhere. *)
Definition sound_acos (lm : libm) : Prop :=
  forall x, is_double x -> SFleb (f_of (-1) 0) x = true -> SFleb x (f_of 1 0) = true ->
  is_double (lm_acos lm x) /\ SFleb (S754_zero false) (lm_acos lm x) = true /\
  SFleb (lm_acos lm x) (f_of 4 0) = true.

(** A double of magnitude at most 2^1000. *)
Definition moderate (x : f64) : Prop :=
  is_double x /\ SFleb (f_of (-1) 1000) x = true /\ SFleb x (f_of 1 1000) = true.
