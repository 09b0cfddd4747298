(** * Specification of the mesh file formats (no model helpers).

    Lines, words and fields are defined here from scratch; the relations
    [rdf_file] and [obj_file] say what a file means. *)
From Coq Require Import ZArith Bool List Ascii String.
From Verif Require Import Base Num Vec.
Import ListNotations.

Definition text : Type := list ascii.
Definition txt (s : string) : text := list_ascii_of_string s.

Definition sp : ascii := " "%char.
Definition tab : ascii := "009"%char.
Definition cr : ascii := "013"%char.
Definition nl : ascii := "010"%char.

Definition space1 (c : ascii) : bool := Ascii.eqb c sp.
Definition blank2 (c : ascii) : bool := Ascii.eqb c sp || Ascii.eqb c tab.
Definition blank4 (c : ascii) : bool :=
  Ascii.eqb c sp || Ascii.eqb c tab || Ascii.eqb c cr || Ascii.eqb c nl.

Fixpoint drop_while (p : ascii -> bool) (s : text) : text :=
  match s with
  | c :: s' => if p c then drop_while p s' else s
  | [] => []
  end.
Fixpoint take_while (p : ascii -> bool) (s : text) : text :=
  match s with
  | c :: s' => if p c then c :: take_while p s' else []
  | [] => []
  end.
Definition no (p : ascii -> bool) (c : ascii) : bool := negb (p c).

(** Words: the maximal runs of non-separators, as a relation. *)
Inductive words (sep : ascii -> bool) : text -> list text -> Prop :=
| words_nil : words sep [] []
| words_sep : forall c s ws, sep c = true -> words sep s ws -> words sep (c :: s) ws
| words_word : forall w s ws,
    w <> [] -> forallb (no sep) w = true ->
    match s with [] => True | c :: _ => sep c = true end ->
    words sep s ws -> words sep (w ++ s) (w :: ws).

(** First word of a line. *)
Definition first_word (l : text) : text :=
  take_while (no blank4) (drop_while blank4 l).

(** The line without its first word, trimmed on both sides. *)
Definition after_first (l : text) : text :=
  rev (drop_while blank2 (rev
    (drop_while blank2 (drop_while (no blank2) (drop_while blank2 l))))).

Definition head_is (c : ascii) (w : text) : Prop := exists w', w = c :: w'.

(** ** RDF. *)
Definition nodes_header (l : text) : Prop :=
  first_word l = txt "[NODES]" \/ first_word l = txt "NODES".
Definition elements_header (l : text) : Prop :=
  first_word l = txt "[ELEMENTS]" \/ first_word l = txt "ELEMENTS".
Definition rdf_comment (l : text) : Prop :=
  head_is "{" (first_word l) \/ head_is "%" (first_word l) \/ head_is "#" (first_word l).
Definition rdf_data (l : text) : Prop :=
  ~ nodes_header l /\ ~ elements_header l /\ ~ rdf_comment l.

Inductive section : Type := NoSection | InNodes | InElements.

Section Files.
  Context {K : Type} {NK : Num K}.
  (** How numbers are read. *)
  Variable read_real : text -> outcome K.
  Variable read_int : text -> outcome Z.

  (** Placing a point. *)
  Definition placed (pose : affine K) (x y z : K) : vec3 K :=
    let m := lin pose in
    V (nadd (nadd (nadd (nmul (m00 m) x) (nmul (m01 m) y)) (nmul (m02 m) z)) (vx (tra pose)))
      (nadd (nadd (nadd (nmul (m10 m) x) (nmul (m11 m) y)) (nmul (m12 m) z)) (vy (tra pose)))
      (nadd (nadd (nadd (nmul (m20 m) x) (nmul (m21 m) y)) (nmul (m22 m) z)) (vz (tra pose))).

  (** A triangle of a file: three vertices and a friction. *)
  Definition face : Type := (vec3 K * vec3 K * vec3 K * K)%type.

  (** Line [l] is a node [x y z]. *)
  Definition node_line (l : text) (x y z : K) : Prop :=
    exists a b c, words space1 (after_first l) [a; b; c] /\
      read_real a = Ret x /\ read_real b = Ret y /\ read_real c = Ret z.

  (** Line [l] is an element: three indices and a friction. *)
  Definition element_line (l : text) (i j k : Z) (f : K) : Prop :=
    exists a b c d, words space1 l [a; b; c; d] /\
      read_int a = Ret i /\ read_int b = Ret j /\ read_int c = Ret k /\ read_real d = Ret f.

  (** The node of index [i] among those read so far. *)
  Definition node_is (ns : list (vec3 K)) (i : Z) (p : vec3 K) : Prop :=
    (0 <= i)%Z /\ nth_error ns (Z.to_nat i) = Some p.

  (** [rdf_file pose s ns ls ts s' ns']: reading the lines [ls] in section [s]
      with nodes [ns] already known adds the triangles [ts] and ends in
      section [s'] with nodes [ns']. *)
  Inductive rdf_file (pose : affine K)
    : section -> list (vec3 K) -> list text -> list face -> section -> list (vec3 K) -> Prop :=
  | rf_nil : forall s ns, rdf_file pose s ns [] [] s ns
  | rf_nodes : forall s ns l ls ts s' ns', nodes_header l ->
      rdf_file pose InNodes ns ls ts s' ns' -> rdf_file pose s ns (l :: ls) ts s' ns'
  | rf_elements : forall s ns l ls ts s' ns', elements_header l ->
      rdf_file pose InElements ns ls ts s' ns' -> rdf_file pose s ns (l :: ls) ts s' ns'
  | rf_comment : forall s ns l ls ts s' ns',
      ~ nodes_header l -> ~ elements_header l -> rdf_comment l ->
      rdf_file pose s ns ls ts s' ns' -> rdf_file pose s ns (l :: ls) ts s' ns'
  | rf_preamble : forall ns l ls ts s' ns', rdf_data l ->
      rdf_file pose NoSection ns ls ts s' ns' -> rdf_file pose NoSection ns (l :: ls) ts s' ns'
  | rf_node : forall ns l ls ts s' ns' x y z, rdf_data l -> node_line l x y z ->
      rdf_file pose InNodes (ns ++ [placed pose x y z]) ls ts s' ns' ->
      rdf_file pose InNodes ns (l :: ls) ts s' ns'
  | rf_element : forall ns l ls ts s' ns' i j k f p q r, rdf_data l -> element_line l i j k f ->
      node_is ns i p -> node_is ns j q -> node_is ns k r -> nle (nofZ 0) f = true ->
      rdf_file pose InElements ns ls ts s' ns' ->
      rdf_file pose InElements ns (l :: ls) ((p, q, r, f) :: ts) s' ns'.

  (** ** OBJ. *)
  Definition face_line (l : text) (i j k : Z) : Prop :=
    exists a b c, words space1 (after_first l) [a; b; c] /\
      read_int a = Ret i /\ read_int b = Ret j /\ read_int c = Ret k.

  (** [obj_file pose f ns ls ts ns']; indices in the file start from 1. *)
  Inductive obj_file (pose : affine K) (f : K)
    : list (vec3 K) -> list text -> list face -> list (vec3 K) -> Prop :=
  | of_nil : forall ns, obj_file pose f ns [] [] ns
  | of_other : forall ns l ls ts ns',
      first_word l <> txt "v" -> first_word l <> txt "f" ->
      obj_file pose f ns ls ts ns' -> obj_file pose f ns (l :: ls) ts ns'
  | of_vertex : forall ns l ls ts ns' x y z,
      first_word l = txt "v" -> node_line l x y z ->
      obj_file pose f (ns ++ [placed pose x y z]) ls ts ns' ->
      obj_file pose f ns (l :: ls) ts ns'
  | of_face : forall ns l ls ts ns' i j k p q r,
      first_word l = txt "f" -> face_line l i j k ->
      node_is ns (i - 1) p -> node_is ns (j - 1) q -> node_is ns (k - 1) r ->
      nle (nofZ 0) f = true ->
      obj_file pose f ns ls ts ns' ->
      obj_file pose f ns (l :: ls) ((p, q, r, f) :: ts) ns'.
End Files.

(** A file made of newline-terminated lines. *)
Definition file_of (ls : list text) : text := flat_map (fun l => l ++ [nl]) ls.

(** The lines of a file: cut at every newline; a last unterminated line
    counts when it is not empty. *)
Inductive lines : text -> list text -> Prop :=
| lines_nil : lines [] []
| lines_last : forall l, l <> [] -> ~ In nl l -> lines l [l]
| lines_cons : forall l s ls, ~ In nl l -> lines s ls -> lines (l ++ nl :: s) (l :: ls).

(** ** Concrete layouts. *)
Definition spaces (n : nat) : text := repeat sp n.

(** [n1] spaces, word 1, [n2] spaces, word 2, ..., then [m] spaces. *)
Fixpoint layout (ws : list (nat * text)) (m : nat) : text :=
  match ws with
  | [] => spaces m
  | (n, w) :: ws' => spaces n ++ w ++ layout ws' m
  end.

(** A word: not empty, no space, no newline, no tab, no carriage return. *)
Definition word (w : text) : Prop := w <> [] /\ forallb (no blank4) w = true.

(** ** Files as a user writes them. *)

(** Decimal numerals. *)
Definition digit_char (d : nat) : ascii := ascii_of_nat (48 + d).
Inductive numeral : text -> Z -> Prop :=
| num_one : forall d, d < 10 -> numeral [digit_char d] (Z.of_nat d)
| num_more : forall s v d, numeral s v -> d < 10 ->
    numeral (s ++ [digit_char d]) (10 * v + Z.of_nat d).

(** A comment line of an RDF file. *)
Definition comment_text (l : text) : Prop :=
  ~ In nl l /\ exists c l', l = c :: l' /\ (c = "{" \/ c = "%" \/ c = "#")%char.

(** Data lines written one after the other, with comments in between. *)
Inductive block {A : Type} (written : text -> A -> Prop) : list text -> list A -> Prop :=
| block_nil : block written [] []
| block_comment : forall l ls xs, comment_text l -> block written ls xs -> block written (l :: ls) xs
| block_data : forall l x ls xs, written l x -> block written ls xs ->
    block written (l :: ls) (x :: xs).

Section Written.
  Context {K : Type} {NK : Num K}.
  Variable read_real : text -> outcome K.

  (** A node: an identifier, then x, y and z, separated by runs of spaces. *)
  Definition node_written (l : text) (n : K * K * K) : Prop :=
    exists s0 s1 s2 s3 s4 w a b c x y z,
      l = layout [(s0, w); (S s1, a); (S s2, b); (S s3, c)] s4 /\ n = (x, y, z) /\
      word w /\ word a /\ word b /\ word c /\
      ~ In w [txt "[NODES]"; txt "NODES"; txt "[ELEMENTS]"; txt "ELEMENTS"] /\
      ~ head_is "{" w /\ ~ head_is "%" w /\ ~ head_is "#" w /\
      read_real a = Ret x /\ read_real b = Ret y /\ read_real c = Ret z.

  (** An element: three indices and a friction. *)
  Definition element_written (l : text) (e : Z * Z * Z * K) : Prop :=
    exists s0 s1 s2 s3 s4 a b c d i j k f,
      l = layout [(s0, a); (S s1, b); (S s2, c); (S s3, d)] s4 /\ e = (i, j, k, f) /\
      numeral a i /\ numeral b j /\ numeral c k /\ word d /\ read_real d = Ret f /\
      (i < 2 ^ 31)%Z /\ (j < 2 ^ 31)%Z /\ (k < 2 ^ 31)%Z.

  (** The triangle that an element describes. *)
  Definition vertex_of (pose : affine K) (nodes : list (K * K * K)) (i : Z) (p : vec3 K) : Prop :=
    (0 <= i)%Z /\ exists x y z, nth_error nodes (Z.to_nat i) = Some (x, y, z) /\ p = placed pose x y z.
  Definition face_of (pose : affine K) (nodes : list (K * K * K)) (e : Z * Z * Z * K) (t : face) : Prop :=
    let '(i, j, k, f) := e in let '(p, q, r, g) := t in
    vertex_of pose nodes i p /\ vertex_of pose nodes j q /\ vertex_of pose nodes k r /\ g = f.

  (** OBJ files line by line; [ns] are the vertices declared so far. *)
  Inductive obj_written (pose : affine K) (f : K)
    : list (K * K * K) -> list text -> list face -> Prop :=
  | ow_nil : forall ns, obj_written pose f ns [] []
  | ow_other : forall ns l ls ts, ~ In nl l -> first_word l <> txt "v" -> first_word l <> txt "f" ->
      obj_written pose f ns ls ts -> obj_written pose f ns (l :: ls) ts
  | ow_vertex : forall ns s0 s1 s2 s3 s4 a b c x y z ls ts,
      word a -> word b -> word c ->
      read_real a = Ret x -> read_real b = Ret y -> read_real c = Ret z ->
      obj_written pose f (ns ++ [(x, y, z)]) ls ts ->
      obj_written pose f ns (layout [(s0, txt "v"); (S s1, a); (S s2, b); (S s3, c)] s4 :: ls) ts
  | ow_face : forall ns s0 s1 s2 s3 s4 a b c i j k p q r ls ts,
      numeral a i -> numeral b j -> numeral c k ->
      (i < 2 ^ 31)%Z -> (j < 2 ^ 31)%Z -> (k < 2 ^ 31)%Z ->
      vertex_of pose ns (i - 1) p -> vertex_of pose ns (j - 1) q -> vertex_of pose ns (k - 1) r ->
      obj_written pose f ns ls ts ->
      obj_written pose f ns (layout [(s0, txt "f"); (S s1, a); (S s2, b); (S s3, c)] s4 :: ls)
        ((p, q, r, f) :: ts).
End Written.
