(** * What the print methods write (src/shape.cc, src/flat.cc,
      src/triangleground.cc, src/mesh.cc, src/shell.cc, toolbox/src/AABBtree.cc
      and the operators of toolbox/src/utilities.cc).

    A report is the list of the things sent to the stream: pieces of text,
    integers, numbers, vectors and matrices.  The digits a number is written
    with, and the brackets a vector or a matrix is written between, are left
    out; so are the line ends, except that a text after a line end is a piece of
    its own.  Writing to the stream always succeeds. *)
From Coq Require Import ZArith Bool String List.
From Verif Require Import Base Num Vec Geom Aabb Tree Acme Ground Shape Rib Mesh Shell.
Import ListNotations.
Local Open Scope string_scope.
Local Open Scope list_scope.

Inductive item (K : Type) : Type :=
| Say (s : string)
| PInt (z : Z)
| PNum (x : K)
| PVec (v : vec3 K)
| PMat (a : affine K).
Arguments Say {K} s.
Arguments PInt {K} z.
Arguments PNum {K} x.
Arguments PVec {K} v.
Arguments PMat {K} a.

Section Print.
  Context {K : Type} {NK : Num K}.

  (** shape::print, src/shape.cc:297-309. *)
  Definition shape_print (s : shape K) : list (item K) :=
    [Say "SHAPE DATA";
     Say "Rx = "; PNum (sRx s); Say ": real - Section radius on x axis (m)";
     Say "Mx = "; PNum (sMx s); Say ": real - Section curve degree for x axis (-)";
     Say "Ry = "; PNum (sRy s); Say ": real - Section radius on y axis (m)";
     Say "My = "; PNum (sMy s); Say ": real - Section curve degree for y axis (-)";
     Say "Ly = "; PNum (sLy s); Say ": real - Section surface effective half width (m)"].

  (** flat::print, src/flat.cc:189-203. *)
  Definition flat_print (g : flat K) : list (item K) :=
    [Say "TRINGLEGROUND DATA";
     Say "F = "; PNum (fl_friction g); Say ": real - Friction coefficient scaling factor (-)";
     Say "O = "; PVec (porigin (fl_plane g)); Say ": point - Plane origin point (m)";
     Say "N = "; PVec (pnormal (fl_plane g)); Say ": vec3 - Plane unit normal (-)"].

  (** triangleground::print, src/triangleground.cc:229-252. *)
  Definition tground_print (t : tground K) : list (item K) :=
    [Say "TRINGLEGROUND DATA";
     Say "ID  = "; PInt (tg_id t); Say ": integer - ID (-)";
     Say "F   = "; PNum (tg_friction t); Say ": real - Friction coefficient scaling factor (-)";
     Say "V0  = "; PVec (tv0 (tg_tri t)); Say ": point - Vertex 0 (m)";
     Say "V1  = "; PVec (tv1 (tg_tri t)); Say ": point - Vertex 1 (m)";
     Say "V2  = "; PVec (tv2 (tg_tri t)); Say ": point - Vertex 2 (m)";
     Say "N   = "; PVec (tg_normal t); Say ": vec3 - Unit normal (-)";
     Say "Max = "; PVec (bmax (tg_bbox t)); Say ": point - Aabb maximum point (m)";
     Say "Min = "; PVec (bmin (tg_bbox t)); Say ": point - Aabb minimum point (m)"].

  (** [for (i = k; i < l.size(); ++i) body(i, l[i])]. *)
  Fixpoint each_line {A} (body : Z -> A -> list (item K)) (k : Z) (l : list A) : list (item K) :=
    match l with
    | [] => []
    | x :: l' => body k x ++ each_line body (k + 1) l'
    end.

  (** mesh::print, src/mesh.cc:158-197, on a file that can be opened. *)
  Definition mesh_print (m : mesh K) : list (item K) :=
    [Say "MESH DATA"; Say "Legend:"; Say "T  : i-th triangle position"; Say "V0 : triangle vertex 0";
     Say "V1 : triangle vertex 1"; Say "V2 : triangle vertex 2"; Say "N  : normal to the face";
     Say "F  : friction coefficient"] ++
    each_line (fun i t =>
      [Say "T  = "; PInt i; Say "V0 = "; PVec (tv0 (tg_tri t)); Say "V1 = "; PVec (tv1 (tg_tri t));
       Say "V2 = "; PVec (tv2 (tg_tri t)); Say "N  = "; PVec (tg_normal t); Say "F  = "; PNum (tg_friction t)])
      0 (me_tris m).

  (** AABBtree::print, toolbox/src/AABBtree.cc:183-208.  A node with children
      and no box would dereference the null [m_ptrbox]. *)
  Fixpoint tree_print (t : tree K) : outcome (list (item K)) :=
    match t with
    | Tree None [] => Ret [Say "[EMPTY AABB tree]"]
    | Tree None (_ :: _) => UB
    | Tree (Some b) cs =>
        let* y := oconcat (map tree_print cs) in
        Ret ([Say "Box ="; Say "Minimum = "; PVec (bmin b); Say "Maximum = "; PVec (bmax b)] ++ y)
    end.

  (** The operators [<<] of toolbox/src/utilities.cc:79-205. *)
  Definition line_print (l : line K) : list (item K) :=
    [Say "Line origin    = "; PVec (lorigin l); Say "Line direction = "; PVec (ldir l)].
  Definition ray_print (r : ray K) : list (item K) :=
    [Say "Ray origin    = "; PVec (ry_origin r); Say "Ray direction = "; PVec (ry_dir r)].
  Definition plane_print (p : plane K) : list (item K) :=
    [Say "Plane origin = "; PVec (porigin p); Say "Plane normal = "; PVec (pnormal p)].
  Definition segment_print (s : segment K) : list (item K) :=
    [Say "Segment vertex 0 = "; PVec (sv0 s); Say "Segment vertex 1 = "; PVec (sv1 s)].
  Definition aabb_print (b : aabb K) : list (item K) :=
    [Say "Aabb minimum point = "; PVec (bmin b); Say "Aabb maximum point = "; PVec (bmax b)].
  Definition triangle_print (t : triangle K) : list (item K) :=
    [Say "Triangle vertex 0 = "; PVec (tv0 t); Say "Triangle vertex 1 = "; PVec (tv1 t);
     Say "Triangle vertex 2 = "; PVec (tv2 t)].
  Definition disk_print (d : disk K) : list (item K) :=
    [Say "Disk radius = "; PNum (dradius d); Say "Disk center = "; PVec (porigin (dplane d));
     Say "Disk normal = "; PVec (pnormal (dplane d))].
  Definition ball_print (b : ball K) : list (item K) :=
    [Say "Ball radius = "; PNum (bl_radius b); Say "Ball center = "; PVec (bl_center b)].

  Local Open Scope num_scope.

  (** The loops over the ribs of shell::print, src/shell.cc:965-1000. *)
  Definition rib_lines {A} (label : string) (f : A -> item K) (unit : list (item K)) (l : list A) : list (item K) :=
    each_line (fun i x => [Say "Rib "; PInt i; Say label; f x] ++ unit) 0 l.

  (** shell::print, src/shell.cc:892-1000.  [pose_vec] and [relative_angles_vec]
      are made with [size()] elements, whose values do not matter. *)
  Definition shell_print (s : shell K) : outcome (list (item K)) :=
    let* cpoint := contact_point s in
    let* normal := contact_normal s in
    let* friction := contact_friction s in
    let* depth := contact_depth s in
    let* area := contact_area s in
    let* volume := contact_volume s in
    let* relative := relative_angles s in
    let* pose := contact_affine s in
    let* points := contact_point_v s in
    let* normals := contact_normal_v s in
    let* frictions := contact_friction_v s in
    let* depths := contact_depth_v s in
    let* areas := contact_area_v s in
    let* volumes := contact_volume_v s in
    let* poses := contact_affine_v s (repeat aident (sh_size s)) in
    let* relatives := relative_angles_v s (repeat (vconst #0) (sh_size s)) in
    let euler := sh_euler s in
    Ret ([Say "------------ SHELL PRINT ------------"] ++
      shape_print (sh_shape s) ++
      [Say "Ribs info:"] ++
      each_line (fun i r =>
        [Say "Rib "; PInt i; Say " : C = "; PVec (rb_center r); Say "R = "; PNum (rb_radius r); Say " m";
         Say "W = "; PNum (rb_width r); Say " m"; Say "A = "; PNum (rb_angle r); Say " rad"]) 0 (sh_ribs s) ++
      [Say "Contact parameters:";
       Say "Shell maximum radius"; Say "R = "; PNum (surface_max_radius (sh_shape s)); Say " m";
       Say "Camber angle"; Say "Γ = "; PNum (vy euler / npi); Say "pi rad";
       Say "Rotation angle"; Say "ß = "; PNum (vz euler / npi); Say "pi rad";
       Say "Yaw angle"; Say "α = "; PNum (vx euler / npi); Say "pi rad";
       Say "Contact point (absolute reference frame)"; Say "P = "; PVec cpoint;
       Say "Contact point (absolute reference frame)"] ++
      rib_lines " - P = " PVec [Say " m"] points ++
      [Say "Contact normal (absolute reference frame)"; Say "N = "; PVec normal;
       Say "Contact normal vector (absolute reference frame)"] ++
      rib_lines " - N = " PVec [] normals ++
      [Say "Contact point friction"; Say "f = "; PNum friction; Say "Contact point friction vector"] ++
      rib_lines " - f = " PNum [] frictions ++
      [Say "Contact depth (on average point)"; Say "d = "; PNum depth; Say " m"; Say "Contact depth vector"] ++
      rib_lines " - d = " PNum [Say " m"] depths ++
      [Say "Contact area (total)"; Say "A = "; PNum area; Say " m^2"; Say "Contact area vector"] ++
      rib_lines " - A = " PNum [Say " m^2"] areas ++
      [Say "Contact volume (total)"; Say "V = "; PNum volume; Say " m^3"; Say "Contact volume vector"] ++
      rib_lines " - V = " PNum [Say " m^3"] volumes ++
      [Say "Shell reference frame"; PMat (sh_affine s); Say "Local contact point reference frame"; PMat pose;
       Say "Relative pose angles"; Say "[Γ ß α]' = "; PVec (vdiv relative npi); Say "pi rad";
       Say "Ribs relative pose angles"] ++
      rib_lines " - [Γ ß α]' = " (fun v => PVec (vdiv v npi)) [Say "pi rad"] relatives ++
      [Say "------------     END     ------------"]).
End Print.
