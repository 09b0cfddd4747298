(** * The number type.

    The C++ code uses [double] everywhere (toolbox/src/acme.hh:84,
    [typedef double real]).  The model is generic in the number type: the
    class [Num] lists the operations the code uses and nothing else.  No
    algebraic law is part of the class, so a theorem proved for every [Num]
    instance holds of IEEE doubles, NaN and rounding included. *)
From Coq Require Import ZArith Bool.

Class Num (K : Type) : Type := {
  nofZ : Z -> K;      (* integer literals [real(2.0)] and int -> double *)
  n01  : K;           (* literal 0.1 *)
  n03  : K;           (* literal 0.3 *)
  nnan : K;           (* QUIET_NAN,    toolbox/src/acme.hh:119 *)
  ninf : K;           (* INFTY,        toolbox/src/acme.hh:118 *)
  neps : K;           (* EPSILON_ENVE, src/enve.hh:88 and acme.hh:115,117 *)
  npi  : K;           (* PI,           toolbox/src/acme.hh:120 *)
  nadd : K -> K -> K;
  nsub : K -> K -> K;
  nmul : K -> K -> K;
  ndiv : K -> K -> K;
  nopp : K -> K;
  nabs : K -> K;      (* std::abs *)
  nsqrt : K -> K;     (* std::sqrt *)
  nlt : K -> K -> bool;  (* operator<  *)
  nle : K -> K -> bool;  (* operator<= *)
  neq : K -> K -> bool;  (* operator== *)
  nsin : K -> K;
  ncos : K -> K;
  natan : K -> K;
  nacos : K -> K;
  natan2 : K -> K -> K;
  npow : K -> K -> K     (* std::pow *)
}.

Declare Scope num_scope.
Delimit Scope num_scope with num.
Infix "+" := nadd : num_scope.
Infix "-" := nsub : num_scope.
Infix "*" := nmul : num_scope.
Infix "/" := ndiv : num_scope.
Notation "- x" := (nopp x) : num_scope.
Infix "<?" := nlt : num_scope.
Infix "<=?" := nle : num_scope.
Infix "=?" := neq : num_scope.
Notation "x >? y" := (nlt y x) (only parsing) : num_scope.
Notation "x >=? y" := (nle y x) (only parsing) : num_scope.
Notation "'#' n" := (nofZ n) (at level 0, n at level 0, format "# n") : num_scope.

Section MinMax.
  Context {K : Type} {NK : Num K}.
  (** [std::min(a, b)]: [(b < a) ? b : a] (ISO C++ [alg.min.max]). *)
  Definition nmin (a b : K) : K := if nlt b a then b else a.
  (** [std::max(a, b)]: [(a < b) ? b : a]. *)
  Definition nmax (a b : K) : K := if nlt a b then b else a.
End MinMax.

(** A number that is not NaN (the only value not [<=] itself). *)
Definition isnum {K} {NK : Num K} (x : K) : Prop := nle x x = true.

(** Order laws of [double] comparison: a total order away from NaN, and
    every comparison with NaN is false.  IEEE 754 binary64 satisfies them
    (instance in F64.v) and so does exact arithmetic (ER.v). *)
Class OrdNum (K : Type) {NK : Num K} : Prop := {
  ord_trans : forall x y z : K, nle x y = true -> nle y z = true -> nle x z = true;
  ord_total : forall x y : K, isnum x -> isnum y -> nle x y = true \/ nle y x = true;
  ord_lt : forall x y : K, isnum x -> isnum y -> nlt x y = negb (nle y x);
  ord_le_num : forall x y : K, nle x y = true -> isnum x /\ isnum y;
  ord_lt_num : forall x y : K, nlt x y = true -> isnum x /\ isnum y;
  ord_nan : ~ isnum nnan
}.
