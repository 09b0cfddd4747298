(** * Byte strings: the parts of [std::string], [std::getline] and
      [std::stoi] used by the mesh loaders. *)
From Coq Require Import ZArith Bool List Ascii String.
From Verif Require Import Base.
Import ListNotations.

Definition str : Type := list ascii.
Definition lit (s : string) : str := list_ascii_of_string s.

Fixpoint str_eqb (a b : str) : bool :=
  match a, b with
  | [], [] => true
  | x :: a', y :: b' => Ascii.eqb x y && str_eqb a' b'
  | _, _ => false
  end.

Definition c_space : ascii := " "%char.
Definition c_tab : ascii := "009"%char.
Definition c_cr : ascii := "013"%char.
Definition c_nl : ascii := "010"%char.
Definition c_nul : ascii := "000"%char.

(** The character sets [" \t"] and [" \t\r\n"] of src/mesh.cc:571-595. *)
Definition is_blank (c : ascii) : bool := Ascii.eqb c c_space || Ascii.eqb c c_tab.
Definition is_blank4 (c : ascii) : bool :=
  is_blank c || Ascii.eqb c c_cr || Ascii.eqb c c_nl.

(** Position of the first character satisfying [p]; [None] is [npos]. *)
Fixpoint index_of (p : ascii -> bool) (s : str) : option nat :=
  match s with
  | [] => None
  | c :: s' => if p c then Some 0 else option_map S (index_of p s')
  end.

(** [s.find_first_of]/[find_first_not_of] from a position ([npos] allowed). *)
Definition find_first (p : ascii -> bool) (s : str) (pos : option nat) : option nat :=
  match pos with
  | None => None
  | Some n => option_map (Nat.add n) (index_of p (skipn n s))
  end.

(** [s.find_last_not_of]: position of the last character satisfying [p]. *)
Fixpoint find_last (p : ascii -> bool) (s : str) : option nat :=
  match s with
  | [] => None
  | c :: s' => match find_last p s' with
               | Some n => Some (S n)
               | None => if p c then Some 0 else None
               end
  end.

(** [s.substr(pos, n)] for [pos <= s.size()] (true at every use below). *)
Definition sub (s : str) (pos n : nat) : str := firstn n (skipn pos s).

(** [while (std::getline(file, line))]: the lines of a file.  A last line
    without terminator counts when it is not empty. *)
Fixpoint getlines_aux (s : str) (cur : str) : list str :=
  match s with
  | [] => match cur with [] => [] | _ => [rev cur] end
  | c :: s' => if Ascii.eqb c c_nl then rev cur :: getlines_aux s' []
               else getlines_aux s' (c :: cur)
  end.
Definition getlines (s : str) : list str := getlines_aux s [].

(** [isspace] in the C locale. *)
Definition is_space (c : ascii) : bool :=
  let n := nat_of_ascii c in (Nat.eqb n 32) || (Nat.leb 9 n && Nat.leb n 13).

Definition digit (c : ascii) : option Z :=
  let n := nat_of_ascii c in
  if Nat.leb 48 n && Nat.leb n 57 then Some (Z.of_nat (n - 48)) else None.

Fixpoint drop_spaces (s : str) : str :=
  match s with
  | c :: s' => if is_space c then drop_spaces s' else s
  | [] => []
  end.

(** Longest prefix of digits: value and number of digits. *)
Fixpoint read_digits (s : str) (acc : Z) (n : nat) : Z * nat :=
  match s with
  | c :: s' => match digit c with
               | Some d => read_digits s' (acc * 10 + d)%Z (S n)
               | None => (acc, n)
               end
  | [] => (acc, n)
  end.

Definition int_min : Z := (- 2 ^ 31)%Z.
Definition int_max : Z := (2 ^ 31 - 1)%Z.

(** [std::stoi(s)] (base 10): leading white space, optional sign, digits;
    trailing characters are ignored.  [std::invalid_argument] without digits,
    [std::out_of_range] outside [int]. *)
Definition stoi (s : str) : outcome Z :=
  let s := drop_spaces s in
  let '(neg, s) := match s with
                   | c :: s' => if Ascii.eqb c "-"%char then (true, s')
                                else if Ascii.eqb c "+"%char then (false, s')
                                else (false, s)
                   | [] => (false, [])
                   end in
  let '(v, n) := read_digits s 0%Z 0 in
  match n with
  | O => Throw InvalidArgument
  | _ => let z := if neg then (- v)%Z else v in
         if (int_min <=? z)%Z && (z <=? int_max)%Z then Ret z else Throw OutOfRange
  end.

(** Conversion [size_t -> int] (modulo 2^32, implementation-defined and
    modular on every platform the project targets). *)
Definition int_of_size (n : nat) : Z :=
  let z := (Z.of_nat n mod 2 ^ 32)%Z in
  if (z <=? int_max)%Z then z else (z - 2 ^ 32)%Z.
