(** * The shell (src/shell.cc). *)
From Coq Require Import ZArith Bool List String.
From Verif Require Import Base Num Vec Aabb Tree Geom Ground Shape Rib Str Mesh.
Import ListNotations.
Local Open Scope num_scope.

(** src/enve/shell.hxx:53-58.  [m_out] is a [std::vector<output>] that is
    never resized: [sh_osize] is its [size()], and [sh_cells] is the reserved
    storage behind it ([None]: never written).  [reserve(200)] is taken to
    allocate exactly 200 cells (libstdc++, libc++, MSVC). *)
Record shell (K : Type) : Type := Shell {
  sh_affine : affine K;
  sh_shape : shape K;
  sh_bbox : aabb K;
  sh_ribs : list (rib K);
  sh_osize : nat;
  sh_cells : list (option (output K));
  sh_cands : list (list (tground K)) }.
Arguments Shell {K} sh_affine sh_shape sh_bbox sh_ribs sh_osize sh_cells sh_cands.
Arguments sh_affine {K} s.
Arguments sh_shape {K} s.
Arguments sh_bbox {K} s.
Arguments sh_ribs {K} s.
Arguments sh_osize {K} s.
Arguments sh_cells {K} s.
Arguments sh_cands {K} s.

(** Replace the [n]-th element. *)
Fixpoint set_nth {A} (n : nat) (x : A) (l : list A) : list A :=
  match l, n with
  | [], _ => []
  | _ :: l', O => x :: l'
  | y :: l', S n' => y :: set_nth n' x l'
  end.

(** A loop [for i < size: f(i, v[i])] over a caller's vector that is not
    resized: an index beyond its length is undefined behaviour; elements
    beyond [size()] are kept. *)
Fixpoint fill {A : Type} (f : nat -> outcome A) (n i : nat) (v : list A)
  : outcome (list A) :=
  match n, v with
  | O, _ => Ret v
  | S _, [] => UB
  | S n', _ :: v' => let* a := f i in let* r := fill f n' (S i) v' in Ret (a :: r)
  end.

Section ShellDef.
  Context {K : Type} {NK : Num K}.

  (** The reserved capacity of src/shell.cc:83-85. *)
  Definition capacity : nat := 200.

  (** shell::size, src/shell.cc:115-120. *)
  Definition sh_size (s : shell K) : nat := List.length (sh_ribs s).

  (** [size_t] converted to [double]. *)
  Definition nofsize (n : nat) : K := nofZ (Z.of_nat n).

  (** The loop of shell::resize, src/shell.cc:96-108, from index [i] with [n]
      iterations left: the ribs emplaced, and the exception that stopped it. *)
  Fixpoint make_ribs (s : shape K) (w : K) (i n : nat) (y : K)
    : list (rib K) * option exn :=
    match n with
    | O => ([], None)
    | S n' =>
      let y := y + w in
      match surface_radius s y, surface_angle s y neps with
      | Ret r, Ret a =>
        if (r >? #0) && (r =? r) && (a =? a) then
          let (rs, e) := make_ribs s w (S i) n' y in
          (mk_rib (int_of_size i) r y w a :: rs, e)
        else ([], Some RuntimeError)
      | _, _ => ([], Some RuntimeError)
      end
    end.

  (** shell::resize, src/shell.cc:70-111. *)
  Definition resize (s : shell K) (size : nat) : result (shell K) unit :=
    match size with
    | O => Exn s RuntimeError
    | _ =>
      let width := surface_width (sh_shape s) in
      let w := #2 * width / nofsize size in
      let y0 := - width - w / #2 in
      let (rs, e) := make_ribs (sh_shape s) w 0 size y0 in
      let s' := Shell (sh_affine s) (sh_shape s) (sh_bbox s) rs 0
                      (sh_cells s) (repeat [] size) in
      match e with
      | None => Ok s' tt
      | Some x => Exn s' x
      end
    end.

  (** shell::updateBBox, src/shell.cc:416-425. *)
  Definition update_bbox (s : shell K) : shell K :=
    let r := surface_max_radius (sh_shape s) in
    let o := tra (sh_affine s) in
    let b := update_max_min (Box (vsub o (vconst r)) (vadd o (vconst r)) (bid (sh_bbox s))) in
    Shell (sh_affine s) (sh_shape s) b (sh_ribs s) (sh_osize s) (sh_cells s) (sh_cands s).

  (** shell::shell(size, Rx, Mx, Ry, My, Ly), src/shell.cc:52-66. *)
  Definition mk_shell (size : nat) (rx mx ry my ly : K) : outcome (shell K) :=
    let s := Shell aident (Shape rx mx ry my ly) nan_aabb [] 0 (repeat None capacity) [] in
    match resize s size with
    | Ok s' _ => Ret (update_bbox s')
    | Exn _ e => Throw e
    | Undef => UB
    end.

  (** shell::ribRadius / ribCenter / ribWidth / ribAngle, src/shell.cc:208-248
      (no bounds check). *)
  Definition rib_at (s : shell K) (i : nat) : outcome (rib K) :=
    match nth_error (sh_ribs s) i with Some r => Ret r | None => UB end.

  Definition with_affine (s : shell K) (a : affine K) : shell K :=
    Shell a (sh_shape s) (sh_bbox s) (sh_ribs s) (sh_osize s) (sh_cells s) (sh_cands s).

  (** shell::translate, src/shell.cc:263-269. *)
  Definition sh_translate (s : shell K) (v : vec3 K) : shell K :=
    with_affine s (atranslate (sh_affine s) v).
  (** shell::rotate, src/shell.cc:282-289. *)
  Definition sh_rotate (s : shell K) (angle : K) (axis : vec3 K) : shell K :=
    with_affine s (arotate (sh_affine s) (angle_axis angle axis)).
  (** shell::checkTransformation, src/shell.cc:331-354.  Simplified:
      the pose has 0 0 0 1 as its last row, and then the determinant of the
      4x4 matrix is that of its linear part.  (Eigen does not enforce that
      row: a caller who writes the matrix entry by entry can store another.) *)
  Definition check_transformation (pose : affine K) (tol : K) : bool :=
    nabs (mdet (lin pose) - #1) <? tol.
  (** shell::checkTransformation on any 4x4 matrix, src/shell.cc:331-342, [r]
      being the last row and [d] the corner; the determinant is that of Eigen
      3.4 (LU/Determinant.h, determinant_impl<_, 4>). *)
  Definition mdet4 (pose : affine K) (r : vec3 K) (d : K) : K :=
    let m := lin pose in let t := tra pose in
    let det2 := fun a b c e => a * e - c * b in
    let d2_01 := det2 (m00 m) (m01 m) (m10 m) (m11 m) in
    let d2_02 := det2 (m00 m) (m01 m) (m20 m) (m21 m) in
    let d2_03 := det2 (m00 m) (m01 m) (vx r) (vy r) in
    let d2_12 := det2 (m10 m) (m11 m) (m20 m) (m21 m) in
    let d2_13 := det2 (m10 m) (m11 m) (vx r) (vy r) in
    let d2_23 := det2 (m20 m) (m21 m) (vx r) (vy r) in
    let det3 := fun a x b y c z => a * x + (- b * y + c * z) in
    let d3_0 := det3 (m12 m) d2_23 (m22 m) d2_13 (vz r) d2_12 in
    let d3_1 := det3 (m02 m) d2_23 (m22 m) d2_03 (vz r) d2_02 in
    let d3_2 := det3 (m02 m) d2_13 (m12 m) d2_03 (vz r) d2_01 in
    let d3_3 := det3 (m02 m) d2_12 (m12 m) d2_02 (m22 m) d2_01 in
    (- vx t * d3_0 + vy t * d3_1) + (- vz t * d3_2 + d * d3_3).
  Definition check_matrix (pose : affine K) (r : vec3 K) (d : K) (tol : K) : bool :=
    nabs (mdet4 pose r d - #1) <? tol.
  (** shell::transform, src/shell.cc:311-318: the check has no effect. *)
  Definition transform (s : shell K) (pose : affine K) : shell K := with_affine s pose.

  (** shell::x / y / z, src/shell.cc:358-381. *)
  Definition sh_x (s : shell K) : vec3 K := col0 (lin (sh_affine s)).
  Definition sh_y (s : shell K) : vec3 K := col1 (lin (sh_affine s)).
  Definition sh_z (s : shell K) : vec3 K := col2 (lin (sh_affine s)).

  (** [m.eulerAngles(2, 0, 1)] (Eigen/src/Geometry/EulerAngles.h, 3.3/3.4). *)
  Definition euler201 (m : mat3 K) : vec3 K :=
    let r0 := natan2 (m01 m) (m11 m) in
    let c2 := nsqrt (m22 m * m22 m + m20 m * m20 m) in
    let r0' := if r0 >? #0 then r0 - npi else r0 in
    let r1 := if r0 >? #0 then natan2 (- m21 m) (- c2) else natan2 (- m21 m) c2 in
    let s1 := nsin r0' in
    let c1 := ncos r0' in
    let r2 := natan2 (s1 * m12 m - c1 * m02 m) (c1 * m00 m - s1 * m10 m) in
    V (- r0') (- r1) (- r2).

  (** shell::eulerAngles, src/shell.cc:385-392. *)
  Definition sh_euler (s : shell K) : vec3 K := euler201 (lin (sh_affine s)).

  (** [sign] of src/shell.cc:1043-1045 as a [real]. *)
  Definition sgn (d : K) : K := nofbool (#0 <? d) - nofbool (d <? #0).

  (** The test of src/shell.cc:1043-1048. *)
  Definition straddles (d0 d1 d2 y : K) : bool :=
    let sum := sgn (d0 - y) + sgn (d1 - y) + sgn (d2 - y) in
    (#(-3) <? sum) && (sum <? #3).

  (** Mid plane and distances, src/shell.cc:1019-1030. *)
  Definition mid_plane (s : shell K) : plane K :=
    plane_normalize (Plane (tra (sh_affine s)) (sh_y s)).

  (** Does refineIntersection push triangle [g] on the list of rib [r]?
      src/shell.cc:1036-1049. *)
  Definition is_candidate (s : shell K) (refine : bool) (r : rib K) (g : tground K) : bool :=
    if refine then
      let p := mid_plane s in
      straddles (signed_distance p (tv0 (tg_tri g)))
                (signed_distance p (tv1 (tg_tri g)))
                (signed_distance p (tv2 (tg_tri g)))
                (vy (rb_center r))
    else true.

  (** shell::refineIntersection, src/shell.cc:1004-1052.  The triangle loop is
      outside the rib loop in the code; the lists built are the same.  The
      lists beyond [size()] (left by a failed resize) are kept. *)
  Definition refine_intersection (s : shell K) (local : list (tground K)) (refine : bool)
    : list (list (tground K)) :=
    map (fun r => filter (is_candidate s refine r) local) (sh_ribs s)
    ++ skipn (sh_size s) (sh_cands s).

  (** [m_out[i] = ...]: a write to the reserved storage; outside it is a heap
      overflow. *)
  Definition write_cell (cells : list (option (output K))) (i : nat) (o : output K)
    : option (list (option (output K))) :=
    if Nat.ltb i (List.length cells) then Some (set_nth i (Some o) cells) else None.

  (** The rib loops of the two setups, src/shell.cc:461-462, 472-473, 497-498:
      [f i r] is the call made for rib [i], [comb] combines the flags. *)
  Fixpoint run_ribs (f : nat -> rib K -> outcome (bool * output K))
    (comb : bool -> bool -> bool) (i : nat) (ribs : list (rib K))
    (cells : list (option (output K))) (acc : bool)
    : result (list (option (output K))) bool :=
    match ribs with
    | [] => Ok cells acc
    | r :: rs =>
      match f i r with
      | Ret (b, o) =>
        match write_cell cells i o with
        | Some cells' => run_ribs f comb (S i) rs cells' (comb b acc)
        | None => Undef
        end
      | Throw e => Exn cells e
      | UB => Undef
      end
    end.

  Definition with_cells (s : shell K) (cs : list (list (tground K)))
    (r : result (list (option (output K))) bool) : result (shell K) bool :=
    let mk := fun cells => Shell (sh_affine s) (sh_shape s) (sh_bbox s) (sh_ribs s)
                                 (sh_osize s) cells cs in
    match r with
    | Ok cells b => Ok (mk cells) b
    | Exn cells e => Exn (mk cells) e
    | Undef => Undef
    end.

  (** shell::setup(mesh, pose, method), src/shell.cc:440-478.  [gb i] is the
      content of the uninitialised temporaries of the call for rib [i]. *)
  Definition setup_mesh (gb : nat -> garbage4 K) (s : shell K) (m : mesh K)
    (pose : affine K) (method : string) : result (shell K) bool :=
    let s := update_bbox (transform s pose) in
    match mesh_intersection m (sh_bbox s) with
    | UB => Undef
    | Throw e => Exn s e
    | Ret local =>
      match local with
      | [] =>
        match run_ribs (fun _ r => Ret (envelop_none r pose)) (fun _ acc => acc) 0
                (sh_ribs s) (sh_cells s) false with
        | Ok cells _ => with_cells s (sh_cands s) (Ok cells false)
        | x => with_cells s (sh_cands s) x
        end
      | _ =>
        let cands := refine_intersection s local
                       (String.eqb method "geometric" && Nat.ltb 3 (List.length local)) in
        with_cells s cands
          (run_ribs (fun i r => match nth_error cands i with
                                | Some c => envelop (gb i) r c pose method
                                | None => UB
                                end)
                    (fun b acc => b || acc) 0 (sh_ribs s) (sh_cells s) false)
      end
    end.

  (** shell::setup(flat, pose, method), src/shell.cc:482-502: the result is
      that of the last rib. *)
  Definition setup_flat (gb : nat -> garbage4 K) (s : shell K) (g : flat K)
    (pose : affine K) (method : string) : result (shell K) bool :=
    let s := update_bbox (transform s pose) in
    with_cells s (sh_cands s)
      (run_ribs (fun i r => envelop_flat (gb i) r g pose method)
                (fun b _ => b) 0 (sh_ribs s) (sh_cells s) false).

  (** ** Contact accessors, src/shell.cc:517-888. *)

  (** [m_out[i]]: reading a cell that was never written is undefined. *)
  Definition out_at (s : shell K) (i : nat) : outcome (output K) :=
    match nth_error (sh_cells s) i with
    | Some (Some o) => Ret o
    | _ => UB
    end.

  (** [m_out[0]] .. [m_out[size-1]] in loop order. *)
  Definition outs (s : shell K) : outcome (list (output K)) :=
    omap (out_at s) (seq 0 (sh_size s)).

  (** [sum = 0; for (...) sum += f(m_out[i])]. *)
  Definition sum_by (f : output K -> K) (os : list (output K)) : K :=
    fold_left (fun a o => a + f o) os #0.
  Definition vsum_by (f : output K -> vec3 K) (os : list (output K)) : vec3 K :=
    fold_left (fun a o => vadd a (f o)) os (vconst #0).

  (** shell::contactVolume(real &), src/shell.cc:764-773. *)
  Definition contact_volume (s : shell K) : outcome K :=
    let* os := outs s in Ret (sum_by o_volume os).
  (** shell::contactArea(real &), src/shell.cc:725-734 (sums the frictions). *)
  Definition contact_area (s : shell K) : outcome K :=
    let* os := outs s in Ret (sum_by o_friction os).
  (** shell::contactPoint(point &), src/shell.cc:517-539. *)
  Definition contact_point (s : shell K) : outcome (vec3 K) :=
    let* os := outs s in
    let v := sum_by o_volume os in
    if v <? neps then Ret (vdiv (vsum_by o_point os) (nofsize (sh_size s)))
    else Ret (vdiv (vsum_by (fun o => vmulr (o_point o) (o_volume o)) os) v).
  (** shell::contactNormal(vec3 &), src/shell.cc:569-593. *)
  Definition contact_normal (s : shell K) : outcome (vec3 K) :=
    let* os := outs s in
    let v := sum_by o_volume os in
    if v <? neps then Ret (vnormalized (vdiv (vsum_by o_normal os) (nofsize (sh_size s))))
    else Ret (vnormalized (vdiv (vsum_by (fun o => vmulr (o_normal o) (o_volume o)) os) v)).
  (** shell::contactFriction(real &), src/shell.cc:623-645. *)
  Definition contact_friction (s : shell K) : outcome K :=
    let* os := outs s in
    let v := sum_by o_volume os in
    if v <? neps then Ret (sum_by o_friction os / nofsize (sh_size s))
    else Ret (sum_by (fun o => o_friction o * o_volume o) os / v).
  (** shell::contactDepth(real &), src/shell.cc:675-695. *)
  Definition contact_depth (s : shell K) : outcome K :=
    let* os := outs s in
    let v := sum_by o_volume os in
    if v <? neps then Ret (v / nofsize (sh_size s))
    else Ret (sum_by (fun o => o_depth o * o_volume o) os / v).

  (** Per-rib accessors, src/shell.cc:543-551, 597-605, 649-657, 699-707,
      738-746, 777-785. *)
  Definition contact_point_i (s : shell K) (i : nat) : outcome (vec3 K) :=
    let* o := out_at s i in Ret (o_point o).
  Definition contact_normal_i (s : shell K) (i : nat) : outcome (vec3 K) :=
    let* o := out_at s i in Ret (o_normal o).
  Definition contact_friction_i (s : shell K) (i : nat) : outcome K :=
    let* o := out_at s i in Ret (o_friction o).
  Definition contact_depth_i (s : shell K) (i : nat) : outcome K :=
    let* o := out_at s i in Ret (o_depth o).
  Definition contact_area_i (s : shell K) (i : nat) : outcome K :=
    let* o := out_at s i in Ret (o_area o).
  Definition contact_volume_i (s : shell K) (i : nat) : outcome K :=
    let* o := out_at s i in Ret (o_volume o).

  (** Vector accessors, src/shell.cc:555-565, 609-619, 661-671, 711-721,
      750-760, 789-799: the caller's vector is resized to [size()] and every
      element is overwritten, so its previous content does not matter. *)
  Definition contact_point_v (s : shell K) : outcome (list (vec3 K)) :=
    let* os := outs s in Ret (map o_point os).
  Definition contact_normal_v (s : shell K) : outcome (list (vec3 K)) :=
    let* os := outs s in Ret (map o_normal os).
  Definition contact_friction_v (s : shell K) : outcome (list K) :=
    let* os := outs s in Ret (map o_friction os).
  Definition contact_depth_v (s : shell K) : outcome (list K) :=
    let* os := outs s in Ret (map o_depth os).
  Definition contact_area_v (s : shell K) : outcome (list K) :=
    let* os := outs s in Ret (map o_area os).
  Definition contact_volume_v (s : shell K) : outcome (list K) :=
    let* os := outs s in Ret (map o_volume os).

  (** The frame of src/shell.cc:813-817 and 829-833. *)
  Definition contact_frame (y point normal : vec3 K) : affine K :=
    let x_vec := vnormalized (vcross y normal) in
    let y_vec := vnormalized (vcross normal x_vec) in
    Aff (of_cols x_vec y_vec normal) point.

  (** shell::contactPointAffine(affine &), src/shell.cc:803-818. *)
  Definition contact_affine (s : shell K) : outcome (affine K) :=
    let* p := contact_point s in
    let* n := contact_normal s in
    Ret (contact_frame (sh_y s) p n).
  (** shell::contactPointAffine(i, affine &), src/shell.cc:822-834. *)
  Definition contact_affine_i (s : shell K) (i : nat) : outcome (affine K) :=
    let* o := out_at s i in Ret (contact_frame (sh_y s) (o_point o) (o_normal o)).

  (** shell::contactPointAffine(vector), src/shell.cc:838-846. *)
  Definition contact_affine_v (s : shell K) (v : list (affine K)) : outcome (list (affine K)) :=
    fill (contact_affine_i s) (sh_size s) 0 v.

  (** shell::relativeAngles(vec3 &), src/shell.cc:850-860. *)
  Definition relative_angles (s : shell K) : outcome (vec3 K) :=
    let* a := contact_affine s in
    Ret (euler201 (mmul (mtrans (lin a)) (lin (sh_affine s)))).
  (** shell::relativeAngles(i, vec3 &), src/shell.cc:864-876. *)
  Definition relative_angles_i (s : shell K) (i : nat) : outcome (vec3 K) :=
    let* a := contact_affine_i s i in
    let* r := rib_at s i in
    let e := euler201 (mmul (mtrans (lin a)) (lin (sh_affine s))) in
    Ret (V (vx e - rb_angle r) (vy e) (vz e)).
  (** shell::relativeAngles(vector), src/shell.cc:880-888. *)
  Definition relative_angles_v (s : shell K) (v : list (vec3 K)) : outcome (list (vec3 K)) :=
    fill (relative_angles_i s) (sh_size s) 0 v.
End ShellDef.
