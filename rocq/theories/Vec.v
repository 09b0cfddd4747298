(** * Three-vectors, 3x3 matrices and affine maps.

    [acme::vec3]/[acme::point] are [Eigen::Matrix<double,3,1>] and
    [acme::affine] is [Eigen::Transform<double,3,Affine>]
    (toolbox/src/acme.hh:88-101).  Eigen is not part of the repository; the
    operations below state what the model assumes of it (trusted base). *)
From Coq Require Import ZArith Bool.
From Verif Require Import Num.
Local Open Scope num_scope.

Record vec3 (K : Type) : Type := V { vx : K; vy : K; vz : K }.
Arguments V {K} vx vy vz.
Arguments vx {K} v.
Arguments vy {K} v.
Arguments vz {K} v.

(** Entries [mRC]: row [R], column [C]. *)
Record mat3 (K : Type) : Type := M3 {
  m00 : K; m01 : K; m02 : K;
  m10 : K; m11 : K; m12 : K;
  m20 : K; m21 : K; m22 : K }.
Arguments M3 {K}.
Arguments m00 {K}. Arguments m01 {K}. Arguments m02 {K}.
Arguments m10 {K}. Arguments m11 {K}. Arguments m12 {K}.
Arguments m20 {K}. Arguments m21 {K}. Arguments m22 {K}.

Record affine (K : Type) : Type := Aff { lin : mat3 K; tra : vec3 K }.
Arguments Aff {K} lin tra.
Arguments lin {K} a.
Arguments tra {K} a.

Section Vec.
  Context {K : Type} {NK : Num K}.

  (** [vec3::Constant(x)], NAN_POINT / NAN_VEC3 (toolbox/src/acme.hh:137). *)
  Definition vconst (x : K) : vec3 K := V x x x.
  Definition nan_vec : vec3 K := vconst nnan.
  Definition unit_x : vec3 K := V #1 #0 #0.
  Definition unit_y : vec3 K := V #0 #1 #0.
  Definition unit_z : vec3 K := V #0 #0 #1.

  Definition vadd (a b : vec3 K) := V (vx a + vx b) (vy a + vy b) (vz a + vz b).
  Definition vsub (a b : vec3 K) := V (vx a - vx b) (vy a - vy b) (vz a - vz b).
  Definition vopp (a : vec3 K) := V (- vx a) (- vy a) (- vz a).
  Definition vmul (s : K) (a : vec3 K) := V (s * vx a) (s * vy a) (s * vz a).
  (** [v * s]: the scalar on the right. *)
  Definition vmulr (a : vec3 K) (s : K) := V (vx a * s) (vy a * s) (vz a * s).
  Definition vdiv (a : vec3 K) (s : K) := V (vx a / s) (vy a / s) (vz a / s).
  (** [a.dot(b)]; Eigen's reduction order is taken to be left to right. *)
  Definition vdot (a b : vec3 K) : K := vx a * vx b + vy a * vy b + vz a * vz b.
  (** [a.cross(b)]. *)
  Definition vcross (a b : vec3 K) : vec3 K :=
    V (vy a * vz b - vz a * vy b)
      (vz a * vx b - vx a * vz b)
      (vx a * vy b - vy a * vx b).
  Definition vsqnorm (a : vec3 K) : K := vdot a a.
  Definition vnorm (a : vec3 K) : K := nsqrt (vsqnorm a).
  (** [a.normalized()] / [a.normalize()]: Eigen divides by the norm only if
      the squared norm is [> 0], else returns the vector unchanged. *)
  Definition vnormalized (a : vec3 K) : vec3 K :=
    if vsqnorm a >? #0 then vdiv a (nsqrt (vsqnorm a)) else a.
  (** [a.isApprox(b, tol)]: Eigen's relative test
      [|a-b|^2 <= tol*tol*min(|a|^2,|b|^2)]. *)
  Definition vis_approx (a b : vec3 K) (tol : K) : bool :=
    vsqnorm (vsub a b) <=? tol * tol * nmin (vsqnorm a) (vsqnorm b).

  Definition col0 (m : mat3 K) := V (m00 m) (m10 m) (m20 m).
  Definition col1 (m : mat3 K) := V (m01 m) (m11 m) (m21 m).
  Definition col2 (m : mat3 K) := V (m02 m) (m12 m) (m22 m).
  Definition row0 (m : mat3 K) := V (m00 m) (m01 m) (m02 m).
  Definition row1 (m : mat3 K) := V (m10 m) (m11 m) (m12 m).
  Definition row2 (m : mat3 K) := V (m20 m) (m21 m) (m22 m).
  Definition of_cols (a b c : vec3 K) : mat3 K :=
    M3 (vx a) (vx b) (vx c) (vy a) (vy b) (vy c) (vz a) (vz b) (vz c).
  Definition mident : mat3 K := M3 #1 #0 #0 #0 #1 #0 #0 #0 #1.
  Definition mvmul (m : mat3 K) (v : vec3 K) : vec3 K :=
    V (vdot (row0 m) v) (vdot (row1 m) v) (vdot (row2 m) v).
  Definition mmul (a b : mat3 K) : mat3 K :=
    of_cols (mvmul a (col0 b)) (mvmul a (col1 b)) (mvmul a (col2 b)).
  Definition mtrans (m : mat3 K) : mat3 K :=
    M3 (m00 m) (m10 m) (m20 m) (m01 m) (m11 m) (m21 m) (m02 m) (m12 m) (m22 m).
  Definition mdet (m : mat3 K) : K :=
    m00 m * (m11 m * m22 m - m12 m * m21 m)
    - m01 m * (m10 m * m22 m - m12 m * m20 m)
    + m02 m * (m10 m * m21 m - m11 m * m20 m).

  (** [pose * p]: linear part applied to [p], plus translation. *)
  Definition aapply (a : affine K) (p : vec3 K) : vec3 K :=
    vadd (mvmul (lin a) p) (tra a).
  (** [IDENTITY_AFFINE]-like pose. *)
  Definition aident : affine K := Aff mident (vconst #0).
  (** [affine.translate(v)]: post-multiplication by a translation. *)
  Definition atranslate (a : affine K) (v : vec3 K) : affine K :=
    Aff (lin a) (vadd (tra a) (mvmul (lin a) v)).
  (** [affine.rotate(R)]: post-multiplication by a rotation. *)
  Definition arotate (a : affine K) (r : mat3 K) : affine K :=
    Aff (mmul (lin a) r) (tra a).
  (** [angleaxis(angle, axis)] converted to a matrix
      (Eigen::AngleAxis::toRotationMatrix). *)
  Definition angle_axis (angle : K) (axis : vec3 K) : mat3 K :=
    let s := nsin angle in
    let c := ncos angle in
    let t := #1 - c in
    let sx := s * vx axis in let sy := s * vy axis in let sz := s * vz axis in
    let tx := t * vx axis in let ty := t * vy axis in let tz := t * vz axis in
    let xy := tx * vy axis in
    let xz := tx * vz axis in
    let yz := ty * vz axis in
    M3 (tx * vx axis + c) (xy - sz) (xz + sy)
       (xy + sz) (ty * vy axis + c) (yz - sx)
       (xz - sy) (yz + sx) (tz * vz axis + c).
End Vec.
