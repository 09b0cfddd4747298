(** * The shell shape (src/shape.cc). *)
From Coq Require Import ZArith Bool List.
From Verif Require Import Base Num Vec Geom.
Import ListNotations.
Local Open Scope num_scope.

(** src/shape.cc:61-74. *)
Record shape (K : Type) : Type := Shape {
  sRx : K; sMx : K; sRy : K; sMy : K; sLy : K }.
Arguments Shape {K} sRx sMx sRy sMy sLy.
Arguments sRx {K} s.
Arguments sMx {K} s.
Arguments sRy {K} s.
Arguments sMy {K} s.
Arguments sLy {K} s.

Section Shape.
  Context {K : Type} {NK : Num K}.

  (** shape::copy, src/shape.cc:78-88. *)
  Definition shape_copy (this src : shape K) : shape K :=
    Shape (sRx src) (sMx src) (sRy src) (sMy src) (sLy src).

  (** shape::isApprox, src/shape.cc:92-104. *)
  Definition shape_is_approx (a b : shape K) (tol : K) : bool :=
    is_approx (sRx a) (sRx b) tol && is_approx (sMx a) (sMx b) tol
    && is_approx (sRy a) (sRy b) tol && is_approx (sMy a) (sMy b) tol
    && is_approx (sLy a) (sLy b) tol.

  (** shape::surfaceMaxRadius / surfaceMaxWidth / surfaceWidth,
      src/shape.cc:193-207 and 243-248. *)
  Definition surface_max_radius (s : shape K) : K := sRx s.
  Definition surface_max_width (s : shape K) : K := sLy s.
  Definition surface_width (s : shape K) : K := sLy s.

  (** shape::checkWidthBound, src/shape.cc:211-221. *)
  Definition check_width_bound (s : shape K) (y : K) : bool :=
    if nabs y >? sLy s then false else true.

  (** shape::surfaceRadius, src/shape.cc:225-238. *)
  Definition surface_radius (s : shape K) (y : K) : outcome K :=
    if check_width_bound s y then
      Ret (sRx s * npow (#1 - npow (nabs y / sRy s) (sMy s)) (#1 / sMx s))
    else Throw RuntimeError.

  (** The value of a C++ [bool] converted to [real]. *)
  Definition nofbool (b : bool) : K := if b then #1 else #0.

  (** shape::surfaceDerivative, src/shape.cc:252-280. *)
  Definition surface_derivative (s : shape K) (y tol : K) : outcome K :=
    if check_width_bound s y then
      let y_abs := nabs y in
      if y_abs >? tol then
        let sign := nofbool (#0 <? y) - nofbool (y <? #0) in
        let y_val := sign * y in
        let y_pre := npow (y_val / sRy s) (sMy s) in
        Ret (- sign * npow (#1 - y_pre) ((#1 - sMx s) / sMx s) * y_pre * sRx s * sMy s
             / (sMx s * y_val))
      else Ret #0
    else Throw RuntimeError.

  (** shape::surfaceAngle, src/shape.cc:284-292. *)
  Definition surface_angle (s : shape K) (y tol : K) : outcome K :=
    let* d := surface_derivative s y tol in Ret (natan d).
End Shape.
