(** * Outcomes of C++ code.

    A C++ function either returns normally, throws, or executes undefined
    behaviour.  The three are kept apart everywhere: no partial operation of
    the code is totalised by a default value. *)
From Coq Require Import List.
Import ListNotations.

(** Exceptions that the code can throw: [ENVE_ERROR]/[ENVE_ASSERT]
    (src/enve.hh:37-50) and [ACME_ERROR]/[ACME_ASSERT]
    (toolbox/src/acme.hh:38-51) throw [std::runtime_error];
    [std::stoi]/[std::stod] throw [std::invalid_argument] or
    [std::out_of_range]; [std::string::substr] and [std::vector::at] throw
    [std::out_of_range].  Messages are not modelled. *)
Inductive exn : Type := RuntimeError | InvalidArgument | OutOfRange.

(** Result of a function without side effects on modelled state. *)
Inductive outcome (A : Type) : Type :=
| Ret (a : A)
| Throw (e : exn)
| UB.
Arguments Ret {A} a.
Arguments Throw {A} e.
Arguments UB {A}.

Definition obind {A B} (x : outcome A) (f : A -> outcome B) : outcome B :=
  match x with Ret a => f a | Throw e => Throw e | UB => UB end.

(** Result of a method that mutates an object of type [S]: the state is
    also observable after an exception (no rollback in C++). *)
Inductive result (S A : Type) : Type :=
| Ok (s : S) (a : A)
| Exn (s : S) (e : exn)
| Undef.
Arguments Ok {S A} s a.
Arguments Exn {S A} s e.
Arguments Undef {S A}.

Declare Scope out_scope.
Notation "'let*' x ':=' e 'in' b" := (obind e (fun x => b))
  (at level 200, x name, e at level 100, b at level 200) : out_scope.
Open Scope out_scope.

(** [for (i = 0; i < v.size(); ++i) out.push_back(f(v[i]))] where [f] may
    throw: elements in order, first failure wins. *)
Fixpoint omap {A B} (f : A -> outcome B) (l : list A) : outcome (list B) :=
  match l with
  | [] => Ret []
  | a :: l' => let* b := f a in let* bs := omap f l' in Ret (b :: bs)
  end.
