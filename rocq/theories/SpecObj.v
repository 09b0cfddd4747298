(** * Face lines that the OBJ loader cannot read safely. *)
From Coq Require Import ZArith String List.
From Verif Require Import Base Str SpecLoad.
Import ListNotations.
Local Open Scope Z_scope.

(** The three words of a face, with [n] vertices declared so far: the first
    word read as [INT_MIN] (one is subtracted from it), or the first index
    after readable ones; or three indices from 1 on, one of them above [n]. *)
Definition face_undefined (n : Z) (a b c : text) : Prop :=
  stoi a = Ret (- 2 ^ 31) \/
  (exists i, stoi a = Ret i) /\ stoi b = Ret (- 2 ^ 31) \/
  (exists i j, stoi a = Ret i /\ stoi b = Ret j) /\ stoi c = Ret (- 2 ^ 31) \/
  exists i j k, stoi a = Ret i /\ stoi b = Ret j /\ stoi c = Ret k /\
    (1 <= i /\ 1 <= j /\ 1 <= k) /\ (n < i \/ n < j \/ n < k).
