(** * Specification vocabulary for meshes (observable content only). *)
From Coq Require Import ZArith Bool List Permutation.
From Verif Require Import Base Num Vec Aabb Tree Geom Ground Mesh SpecTree SpecLoad.
Import ListNotations.

(** The path ends with this text. *)
Definition ends_with (path ext : text) : Prop := exists base, path = base ++ ext.

(** A conversion of text to number that returns or throws. *)
Definition defined_reader {K} (read : text -> outcome K) : Prop := forall s, read s <> UB.

(** The data lines of an RDF file, by section: the lines between a section
    header and the next one that are neither headers nor comments. *)
Inductive data_lines : section -> list text -> list text -> list text -> Prop :=
| dl_nil : forall s, data_lines s [] [] []
| dl_nodes : forall s l ls a b, nodes_header l -> data_lines InNodes ls a b -> data_lines s (l :: ls) a b
| dl_elements : forall s l ls a b, elements_header l -> data_lines InElements ls a b ->
    data_lines s (l :: ls) a b
| dl_comment : forall s l ls a b, ~ nodes_header l -> ~ elements_header l -> rdf_comment l ->
    data_lines s ls a b -> data_lines s (l :: ls) a b
| dl_preamble : forall l ls a b, rdf_data l -> data_lines NoSection ls a b ->
    data_lines NoSection (l :: ls) a b
| dl_node : forall l ls a b, rdf_data l -> data_lines InNodes ls a b ->
    data_lines InNodes (l :: ls) (l :: a) b
| dl_element : forall l ls a b, rdf_data l -> data_lines InElements ls a b ->
    data_lines InElements (l :: ls) a (l :: b).

(** A node line has three fields after the first; an element line has four. *)
Definition three_fields (l : text) : Prop := exists a b c, words space1 (after_first l) [a; b; c].
Definition four_fields (l : text) : Prop := exists a b c d, words space1 l [a; b; c; d].

(** A line with nothing on it, or only a carriage return. *)
Definition blank_line (l : text) : Prop := l = [] \/ l = [cr].

Section SpecMesh.
  Context {K : Type} {NK : Num K}.

  (** Triangle [t] of the mesh: vertices, friction and identifier, the
      identifier being also the one of its bounding box. *)
  Definition is_triangle (t : tground K) (p q r : vec3 K) (f : K) (id : Z) : Prop :=
    tg_tri t = Triangle p q r /\ tg_friction t = f /\ tg_id t = id /\ bid (tg_bbox t) = id.

  (** The mesh holds exactly the triangles [ts], in order, numbered from 0. *)
  Definition describes (m : mesh K) (ts : list face) : Prop :=
    mesh_size m = length ts /\
    forall i p q r f, nth_error ts i = Some (p, q, r, f) ->
      exists t, nth_error (me_tris m) i = Some t /\ is_triangle t p q r f (Z.of_nat i).

  (** A vertex without NaN. *)
  Definition vnum (p : vec3 K) : Prop := isnum (vx p) /\ isnum (vy p) /\ isnum (vz p).
  Definition tri_num (t : tground K) : Prop :=
    vnum (tv0 (tg_tri t)) /\ vnum (tv1 (tg_tri t)) /\ vnum (tv2 (tg_tri t)).

  (** [b] is the smallest box around the three points. *)
  Definition encloses (b : aabb K) (p q r : vec3 K) : Prop :=
    in_box p b /\ in_box q b /\ in_box r b.
  Definition one_of (x a b c : K) : Prop := x = a \/ x = b \/ x = c.
  Definition tight (b : aabb K) (p q r : vec3 K) : Prop :=
    one_of (vx (bmin b)) (vx p) (vx q) (vx r) /\ one_of (vx (bmax b)) (vx p) (vx q) (vx r) /\
    one_of (vy (bmin b)) (vy p) (vy q) (vy r) /\ one_of (vy (bmax b)) (vy p) (vy q) (vy r) /\
    one_of (vz (bmin b)) (vz p) (vz q) (vz r) /\ one_of (vz (bmax b)) (vz p) (vz q) (vz r).

  (** Histories: a load, with either result, moves a mesh to a new state. *)
  Variable stod : text -> outcome K.
  Variable fs : text -> option text.
  Inductive loaded : mesh K -> mesh K -> Prop :=
  | ld_rdf_ok : forall path pose m m' b, load_rdf stod fs path pose m = Ok m' b -> loaded m m'
  | ld_rdf_exn : forall path pose m m' e, load_rdf stod fs path pose m = Exn m' e -> loaded m m'
  | ld_obj_ok : forall path f pose m m' b, load_obj stod fs path f pose m = Ok m' b -> loaded m m'
  | ld_obj_exn : forall path f pose m m' e, load_obj stod fs path f pose m = Exn m' e -> loaded m m'.
  Inductive many_loads : mesh K -> mesh K -> Prop :=
  | ml_done : forall m, many_loads m m
  | ml_more : forall m m1 m2, loaded m m1 -> many_loads m1 m2 -> many_loads m m2.

  (** One load that returned true. *)
  Definition load_succeeds (m m' : mesh K) : Prop :=
    (exists path pose, load_rdf stod fs path pose m = Ok m' true) \/
    (exists path f pose, load_obj stod fs path f pose m = Ok m' true).

  (** What a triangle says, without its identifier. *)
  Definition content (t : tground K) : triangle K * K := (tg_tri t, tg_friction t).

  (** A triangle as its constructor makes it. *)
  Definition made (t : tground K) : Prop :=
    exists p q r, mk_tground (tg_id t) (tg_friction t) p q r = Ret t.
End SpecMesh.
