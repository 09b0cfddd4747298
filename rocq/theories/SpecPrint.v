(** * Reading a report. *)
From Coq Require Import ZArith Bool String List.
From Verif Require Import Num Vec Print.
Import ListNotations.

Section SpecPrint.
  Context {K : Type}.

  (** The things written right after a label, in order. *)
  Fixpoint under (label : string) (r : list (item K)) : list (item K) :=
    match r with
    | [] => []
    | Say t :: r' =>
        (if String.eqb t label then match r' with x :: _ => [x] | [] => [] end else []) ++ under label r'
    | _ :: r' => under label r'
    end.

  (** The things written right after an integer and a label, with the integer. *)
  Fixpoint numbered (label : string) (r : list (item K)) : list (Z * item K) :=
    match r with
    | [] => []
    | PInt i :: r' =>
        match r' with
        | Say t :: x :: _ => if String.eqb t label then [(i, x)] else []
        | _ => []
        end ++ numbered label r'
    | _ :: r' => numbered label r'
    end.

  (** 0, 1, ..., each with the element of a list it is the place of. *)
  Definition places {A} (l : list A) : list (Z * A) := combine (map Z.of_nat (seq 0 (List.length l))) l.

  (** The boxes in the report of a tree: least corner and greatest corner. *)
  Definition boxes_in (r : list (item K)) : list (item K * item K) :=
    combine (under "Minimum = " r) (under "Maximum = " r).
End SpecPrint.
