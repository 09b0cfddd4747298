(** * Specification of decimal integers in text (no model helpers). *)
From Coq Require Import ZArith List Ascii.
From Verif Require Import SpecLoad.
Import ListNotations.

(** White space of the C locale, and the ten digits. *)
Definition white (c : ascii) : Prop :=
  c = " "%char \/ (9 <= nat_of_ascii c <= 13)%nat.
Definition decimal (c : ascii) : Prop := (nat_of_ascii "0" <= nat_of_ascii c <= nat_of_ascii "9")%nat.
Definition digit_value (c : ascii) : Z := Z.of_nat (nat_of_ascii c - nat_of_ascii "0").
(** The value of a run of digits, most significant first. *)
Inductive run_value : text -> Z -> Prop :=
| rv_one : forall c, decimal c -> run_value [c] (digit_value c)
| rv_more : forall ds v c, run_value ds v -> decimal c -> run_value (ds ++ [c]) (10 * v + digit_value c).
Inductive sign : text -> Z -> Prop :=
| sg_none : sign [] 1
| sg_plus : sign ["+"%char] 1
| sg_minus : sign ["-"%char] (-1).

(** [s] starts with the integer [z]: white space, at most one sign, and the
    longest run of digits; what follows is not looked at. *)
Definition reads_int (s : text) (z : Z) : Prop :=
  exists blanks sg ds rest k v,
    s = blanks ++ sg ++ ds ++ rest /\ Forall white blanks /\ sign sg k /\ run_value ds v /\
    (forall c r, rest = c :: r -> ~ decimal c) /\ z = (k * v)%Z.
