(** * The mesh ground and its loaders (src/mesh.cc). *)
From Coq Require Import ZArith Bool List Ascii String.
From Verif Require Import Base Num Vec Aabb Tree Geom Ground Str.
Import ListNotations.
Local Open Scope num_scope.

(** src/enve/mesh.hxx: triangles, their boxes and the tree. *)
Record mesh (K : Type) : Type := Mesh {
  me_tris : list (tground K);
  me_bboxes : list (aabb K);
  me_tree : tree K }.
Arguments Mesh {K} me_tris me_bboxes me_tree.
Arguments me_tris {K} m.
Arguments me_bboxes {K} m.
Arguments me_tree {K} m.

Section MeshDef.
  Context {K : Type} {NK : Num K}.

  (** mesh::mesh(), src/mesh.cc:52-56. *)
  Definition mesh_empty : mesh K := Mesh [] [] tempty.

  (** mesh::copy, src/mesh.cc:104-110: triangles only. *)
  Definition mesh_copy (this src : mesh K) : mesh K :=
    Mesh (me_tris src) (me_bboxes this) (me_tree this).

  (** mesh::clear, src/mesh.cc:114-123: triangles only. *)
  Definition mesh_clear (this : mesh K) : mesh K :=
    Mesh [] (me_bboxes this) (me_tree this).

  (** mesh::size, src/mesh.cc:202-207. *)
  Definition mesh_size (m : mesh K) : nat := List.length (me_tris m).

  (** mesh::ptrTriangleground(i) / operator[](i), src/mesh.cc:136-154; the
      index is an [int] converted to [size_t] at the call of line 490, so a
      negative one is out of range too. *)
  Definition mesh_nth (m : mesh K) (i : Z) : outcome (tground K) :=
    if (i <? 0)%Z then UB
    else match nth_error (me_tris m) (Z.to_nat i) with
         | Some t => Ret t
         | None => UB
         end.

  (** mesh::updateBBoxes and mesh::buildAABBtree, src/mesh.cc:501-524. *)
  Definition mesh_build (m : mesh K) : outcome (mesh K) :=
    let boxes := map tg_bbox (me_tris m) in
    let* t := build boxes in
    Ret (Mesh (me_tris m) boxes t).

  (** mesh::mesh(triangles), src/mesh.cc:60-67. *)
  Definition mesh_of_triangles (ts : list (tground K)) : outcome (mesh K) :=
    mesh_build (Mesh ts [] tempty).

  (** mesh::intersection, src/mesh.cc:472-497: the triangles returned; the
      boolean result is [negb (null triangles)]. *)
  Definition mesh_intersection (m : mesh K) (box : aabb K) : outcome (list (tground K)) :=
    let* q := build [box] in
    let* pairs := tree_intersection (me_tree m) q in
    omap (fun pr => mesh_nth m (bid (fst pr))) pairs.

  Definition mesh_intersection_flag (ts : list (tground K)) : bool :=
    Nat.ltb 0 (List.length ts).
End MeshDef.

(** ** String helpers. *)

(** mesh::split, src/mesh.cc:528-561, on the suffix of [in] starting at the
    loop index; [n = token.size()].  Each round consumes at least one
    character, [fuel] is the length of the suffix. *)
Fixpoint split_loop (fuel : nat) (token : str) (s tmp : str) (out : list str) : list str :=
  match fuel with
  | O => out
  | S fuel' =>
    match s with
    | [] => out
    | c :: s' =>
      let n := List.length token in
      let test := sub s 0 n in
      if str_eqb test token then
        match tmp with
        | [] => split_loop fuel' token s' tmp out
        | _ => split_loop fuel' token (skipn (n - 1) s') [] (out ++ [tmp])
        end
      else if Nat.leb (List.length s) n then out ++ [tmp ++ sub s 0 n]
      else split_loop fuel' token s' (tmp ++ [c]) out
    end
  end.
Definition split (s token : str) : list str := split_loop (List.length s) token s [] [].

(** mesh::tail, src/mesh.cc:565-580. *)
Definition tail (s : str) : str :=
  let token_start := find_first (fun c => negb (is_blank c)) s (Some 0) in
  let space_start := find_first is_blank s token_start in
  let tail_start := find_first (fun c => negb (is_blank c)) s space_start in
  let tail_end := find_last (fun c => negb (is_blank c)) s in
  match tail_start, tail_end with
  | Some a, Some b => sub s a (b - a + 1)
  | Some a, None => skipn a s
  | None, _ => []
  end.

(** mesh::firstToken, src/mesh.cc:584-603. *)
Definition first_token (s : str) : str :=
  match s with
  | [] => []
  | _ => match find_first (fun c => negb (is_blank4 c)) s (Some 0) with
         | Some a => match find_first is_blank4 s (Some a) with
                     | Some b => sub s a (b - a)
                     | None => skipn a s
                     end
         | None => []
         end
  end.

(** [token[0]]: the terminating NUL when the token is empty. *)
Definition char0 (s : str) : ascii := match s with c :: _ => c | [] => c_nul end.

(** [path.substr(path.size() - 4, 4)]: for a path shorter than 4 the
    subtraction wraps and [substr] throws [std::out_of_range]. *)
Definition extension (path : str) : outcome str :=
  if Nat.ltb (List.length path) 4 then Throw OutOfRange
  else Ret (sub path (List.length path - 4) 4).

Section Loader.
  Context {K : Type} {NK : Num K}.
  (** [std::stod]: any function from byte strings to numbers that may throw
      (decimal conversion is not modelled). *)
  Variable stod : str -> outcome K.
  (** The file system: [None] when the file cannot be opened. *)
  Variable fs : str -> option str.

  (** Local variables of the loaders, src/mesh.cc:240-254 and 384-395, with
      [m_triangles] of the object being loaded. *)
  Record lstate : Type := LState {
    ls_nodes : list (vec3 K);
    ls_tris : list (tground K);
    ls_ncount : nat;
    ls_ecount : nat;
    ls_np : bool;
    ls_ep : bool }.

  (** [nodes[i]] with [i : int], src/mesh.cc:318 and 432: no bounds check. *)
  Definition node_at (nodes : list (vec3 K)) (i : Z) : outcome (vec3 K) :=
    if (i <? 0)%Z then UB
    else match nth_error nodes (Z.to_nat i) with Some p => Ret p | None => UB end.

  (** src/mesh.cc:285-292 and 402-409: push [pose * p]. *)
  Definition read_node (pose : affine K) (line : str) (st : lstate) : outcome lstate :=
    match split (tail line) (lit " ") with
    | [a; b; c] =>
      let* x := stod a in
      let* y := stod b in
      let* z := stod c in
      Ret (LState (ls_nodes st ++ [aapply pose (V x y z)]) (ls_tris st)
                  (S (ls_ncount st)) (ls_ecount st) (ls_np st) (ls_ep st))
    | _ => Throw RuntimeError
    end.

  (** src/mesh.cc:315-320 and 429-434: push one triangle. *)
  Definition push_tri (i j k : Z) (friction : K) (st : lstate) : outcome lstate :=
    let* p0 := node_at (ls_nodes st) i in
    let* p1 := node_at (ls_nodes st) j in
    let* p2 := node_at (ls_nodes st) k in
    let* t := mk_tground (int_of_size (ls_ecount st)) friction p0 p1 p2 in
    Ret (LState (ls_nodes st) (ls_tris st ++ [t])
                (ls_ncount st) (S (ls_ecount st)) (ls_np st) (ls_ep st)).

  Definition assert (b : bool) : outcome unit := if b then Ret tt else Throw RuntimeError.

  (** src/mesh.cc:298-321. *)
  Definition read_element (line : str) (st : lstate) : outcome lstate :=
    match split line (lit " ") with
    | [a; b; c; d] =>
      let* i := stoi a in
      let* j := stoi b in
      let* k := stoi c in
      let* f := stod d in
      let* _ := assert (0 <=? i)%Z in
      let* _ := assert (0 <=? j)%Z in
      let* _ := assert (0 <=? k)%Z in
      let* _ := assert (f >=? #0) in
      push_tri i j k f st
    | _ => Throw RuntimeError
    end.

  (** Body of the while loop of the RDF loader, src/mesh.cc:257-322. *)
  Definition rdf_line (pose : affine K) (line : str) (st : lstate) : outcome lstate :=
    let token := first_token line in
    if str_eqb token (lit "[NODES]") || str_eqb token (lit "NODES") then
      Ret (LState (ls_nodes st) (ls_tris st) (ls_ncount st) (ls_ecount st) true false)
    else if str_eqb token (lit "[ELEMENTS]") || str_eqb token (lit "ELEMENTS") then
      Ret (LState (ls_nodes st) (ls_tris st) (ls_ncount st) (ls_ecount st) false true)
    else if Ascii.eqb (char0 token) "{" then Ret st
    else if Ascii.eqb (char0 token) "%" || Ascii.eqb (char0 token) "#"
            || Ascii.eqb (char0 token) c_cr then Ret st
    else
      let* st := (if ls_np st then read_node pose line st else Ret st) in
      if ls_ep st then read_element line st else Ret st.

  (** [int] subtraction [std::stoi(s) - 1], src/mesh.cc:418-420: overflow at
      [INT_MIN] is undefined behaviour. *)
  Definition stoi_minus1 (s : str) : outcome Z :=
    let* i := stoi s in if (i =? int_min)%Z then UB else Ret (i - 1)%Z.

  (** src/mesh.cc:414-435. *)
  Definition read_face (friction : K) (line : str) (st : lstate) : outcome lstate :=
    match split (tail line) (lit " ") with
    | [a; b; c] =>
      let* i := stoi_minus1 a in
      let* j := stoi_minus1 b in
      let* k := stoi_minus1 c in
      let* _ := assert (0 <=? i)%Z in
      let* _ := assert (0 <=? j)%Z in
      let* _ := assert (0 <=? k)%Z in
      push_tri i j k friction st
    | _ => Throw RuntimeError
    end.

  (** Body of the while loop of the OBJ loader, src/mesh.cc:398-441. *)
  Definition obj_line (friction : K) (pose : affine K) (line : str) (st : lstate)
    : outcome lstate :=
    let token := first_token line in
    if str_eqb token (lit "v") then read_node pose line st
    else if str_eqb token (lit "f") then read_face friction line st
    else Ret st.

  (** The while loop; an exception leaves the triangles read so far in the
      object. *)
  Fixpoint line_loop (f : str -> lstate -> outcome lstate) (ls : list str) (st : lstate)
    : result lstate unit :=
    match ls with
    | [] => Ok st tt
    | l :: ls' =>
      match f l st with
      | Ret st' => line_loop f ls' st'
      | Throw e => Exn st e
      | UB => Undef
      end
    end.

  (** Common structure of the two mesh::load, src/mesh.cc:211-350 and
      354-468 (messages to [std::cout] not modelled). *)
  Definition load_with (ext : str) (body : str -> lstate -> outcome lstate)
    (path : str) (m : mesh K) : result (mesh K) bool :=
    match extension path with
    | UB => Undef
    | Throw e => Exn m e
    | Ret x =>
      if negb (str_eqb x ext) then Exn m RuntimeError
      else match fs path with
           | None => Exn m RuntimeError
           | Some content =>
             let with_tris := fun ts => Mesh ts (me_bboxes m) (me_tree m) in
             match line_loop body (getlines content)
                     (LState [] (me_tris m) 0 0 false false) with
             | Undef => Undef
             | Exn st e => Exn (with_tris (ls_tris st)) e
             | Ok st _ =>
               let m' := with_tris (ls_tris st) in
               if Nat.eqb (List.length (ls_nodes st)) (ls_ncount st)
                  && Nat.eqb (List.length (ls_tris st)) (ls_ecount st) then
                 match ls_tris st with
                 | [] => Exn m' RuntimeError
                 | _ => match mesh_build m' with
                        | Ret m'' => Ok m'' true
                        | Throw e => Exn m' e
                        | UB => Undef
                        end
                 end
               else Exn m' RuntimeError
             end
           end
    end.

  (** mesh::load(path, pose), src/mesh.cc:211-350. *)
  Definition load_rdf (path : str) (pose : affine K) (m : mesh K) : result (mesh K) bool :=
    load_with (lit ".rdf") (rdf_line pose) path m.

  (** mesh::load(path, friction, pose), src/mesh.cc:354-468. *)
  Definition load_obj (path : str) (friction : K) (pose : affine K) (m : mesh K)
    : result (mesh K) bool :=
    load_with (lit ".obj") (obj_line friction pose) path m.

  (** mesh::mesh(path, ...), src/mesh.cc:71-100: construct and load. *)
  Definition mesh_from (r : result (mesh K) bool) : outcome (mesh K) :=
    match r with
    | Ok m true => Ret m
    | Ok _ false => Throw RuntimeError
    | Exn _ e => Throw e
    | Undef => UB
    end.
End Loader.
