(** * Ribs and the enveloping methods (src/rib.cc). *)
From Coq Require Import ZArith Bool List String.
From Verif Require Import Base Num Vec Aabb Geom Ground.
Import ListNotations.
Local Open Scope num_scope.

(** src/enve/output.hxx:47-55. *)
Record output (K : Type) : Type := Output {
  o_point : vec3 K;
  o_normal : vec3 K;
  o_friction : K;
  o_depth : K;
  o_area : K;
  o_volume : K }.
Arguments Output {K} o_point o_normal o_friction o_depth o_area o_volume.
Arguments o_point {K} o.
Arguments o_normal {K} o.
Arguments o_friction {K} o.
Arguments o_depth {K} o.
Arguments o_area {K} o.
Arguments o_volume {K} o.

(** src/enve/rib.hxx: a disk with id, y, width and angle. *)
Record rib (K : Type) : Type := Rib {
  rb_disk : disk K; rb_id : Z; rb_y : K; rb_width : K; rb_angle : K }.
Arguments Rib {K} rb_disk rb_id rb_y rb_width rb_angle.
Arguments rb_disk {K} r.
Arguments rb_id {K} r.
Arguments rb_y {K} r.
Arguments rb_width {K} r.
Arguments rb_angle {K} r.

Section Rib.
  Context {K : Type} {NK : Num K}.

  (** rib::rib(id, radius, y, width, angle), src/rib.cc:63-76. *)
  Definition mk_rib (id : Z) (radius y width angle : K) : rib K :=
    Rib (mk_disk radius (V #0 y #0) unit_y) id y width angle.

  (** rib::copy, src/rib.cc:80-89 ([m_y] is not copied). *)
  Definition rib_copy (this src : rib K) : rib K :=
    Rib (rb_disk src) (rb_id src) (rb_y this) (rb_width src) (rb_angle src).

  Definition rb_radius (r : rib K) : K := dradius (rb_disk r).
  Definition rb_center (r : rib K) : vec3 K := dcenter (rb_disk r).
  Definition rb_normal (r : rib K) : vec3 K := dnormal (rb_disk r).

  (** rib::isApprox, src/rib.cc:127-139 (ids converted to [real]). *)
  Definition rib_is_approx (a b : rib K) (tol : K) : bool :=
    disk_is_approx (rb_disk a) (rb_disk b) tol
    && is_approx (nofZ (rb_id a)) (nofZ (rb_id b)) tol
    && is_approx (rb_y a) (rb_y b) tol
    && is_approx (rb_width a) (rb_width b) tol
    && is_approx (rb_angle a) (rb_angle b) tol.

  (** rib::envelop(pose, out), src/rib.cc:189-204. *)
  Definition envelop_none (r : rib K) (pose : affine K) : bool * output K :=
    (false,
     Output (vadd (tra pose)
                  (mvmul (lin pose) (vsub (rb_center r) (vmul (rb_radius r) unit_z))))
            (mvmul (lin pose) unit_z) #0 #0 #0 #0).

  (** Rib frame in the ground, src/rib.cc:222-226, 342-345, 390-393, 460-463. *)
  Definition center_grd (r : rib K) (pose : affine K) : vec3 K :=
    vadd (tra pose) (mvmul (lin pose) (rb_center r)).
  Definition normal_grd (r : rib K) (pose : affine K) : vec3 K :=
    mvmul (lin pose) (rb_normal r).
  Definition disk_grd (r : rib K) (pose : affine K) : disk K :=
    mk_disk (rb_radius r) (center_grd r pose) (normal_grd r pose).

  (** Area and volume formulas shared by src/rib.cc:361-363, 431-433 and
      501-503. *)
  Definition seg_area (radius depth width : K) : K :=
    #2 * nsqrt (depth * (#2 * radius - depth)) * width.
  Definition seg_volume (radius depth width : K) : K :=
    (radius * radius * nacos ((radius - depth) / radius)
     - (radius - depth) * nsqrt (depth * (#2 * radius - depth))) * width.

  (** Accumulators of envelopGeometric(triangles), src/rib.cc:231-246. *)
  Record gacc : Type := GAcc {
    ga_int : bool;
    ga_area : K;
    ga_volume : K;
    ga_point : vec3 K;
    ga_normal : vec3 K;
    ga_friction : K }.

  Definition gacc0 : gacc := GAcc false #0 #0 (vconst #0) (vconst #0) #0.

  (** Contribution of one triangle whose intersection with the rib is the
      segment [s], src/rib.cc:254-303.  [None] stands for the [break] at line
      274.  The variables [r_a] and [r_b] swapped (uninitialised) at line 266
      are overwritten at 279-280 before any use; the swap is not modelled. *)
  Definition geo_contrib (r : rib K) (pose : affine K) (g : tground K) (s : segment K)
    (acc : gacc) : option gacc :=
    let radius := rb_radius r in
    let width := rb_width r in
    let origin := tra pose in
    let rotation := lin pose in
    let rotation_inv := mtrans rotation in
    let p_a := mvmul rotation_inv (vsub (sv0 s) (center_grd r pose)) in
    let p_b := mvmul rotation_inv (vsub (sv1 s) (center_grd r pose)) in
    let t_a' := natan2 (vz p_a) (vx p_a) in
    let t_b' := natan2 (vz p_b) (vx p_b) in
    let t_a := if t_b' <? t_a' then t_b' else t_a' in
    let t_b := if t_b' <? t_a' then t_a' else t_b' in
    let t_c := (t_a + t_b) / #2 in
    let t_d := (t_b - t_a) / #2 in
    let len := seg_length s in
    if (t_b - t_a <? neps) && (len <? neps) then None
    else
      let r_a := nmin radius (vnorm p_a) in
      let r_b := nmin radius (vnorm p_b) in
      let r_c := nmin radius (nmax #0 (#2 * r_a * r_b / nmax neps (r_a + r_b) * ncos t_d)) in
      let section_area := radius * radius * t_d - r_a * r_b * nsin (t_b - t_a) / #2 in
      let cos_c := ncos t_c in
      let sin_c := nsin t_c in
      let area := len * width in
      let volume := section_area * width in
      let cp := vadd origin (mvmul rotation
                  (vadd (rb_center r) (vmul r_c (V cos_c #0 sin_c)))) in
      let nt := mvmul rotation (V (- cos_c) #0 (- sin_c)) in
      let ng := normal_grd r pose in
      let cn := vnormalized (vadd nt (vmulr ng (vdot (vsub (tg_normal g) nt) ng))) in
      let cf := tg_friction g in
      Some (GAcc true
                 (ga_area acc + area)
                 (ga_volume acc + volume)
                 (vadd (ga_point acc) (vmul volume cp))
                 (vadd (ga_normal acc) (vmul volume cn))
                 (ga_friction acc + volume * cf)).

  (** The loop of envelopGeometric(triangles), src/rib.cc:249-305. *)
  Fixpoint geo_loop (r : rib K) (pose : affine K) (ground : list (tground K)) (acc : gacc)
    : outcome gacc :=
    match ground with
    | [] => Ret acc
    | g :: gs =>
      let* o := int_triangle_disk (tg_tri g) (disk_grd r pose) neps in
      match o with
      | None => geo_loop r pose gs acc
      | Some s =>
        match geo_contrib r pose g s acc with
        | None => Ret acc
        | Some acc' => geo_loop r pose gs acc'
        end
      end
    end.

  (** rib::envelopGeometric(triangles), src/rib.cc:208-324. *)
  Definition envelop_geometric (r : rib K) (ground : list (tground K)) (pose : affine K)
    : outcome (bool * output K) :=
    let* a := geo_loop r pose ground gacc0 in
    if ga_int a && ((ga_area a >? neps) || (ga_volume a >? neps)) then
      let p := vdiv (ga_point a) (ga_volume a) in
      Ret (true,
           Output p
                  (vnormalized (vdiv (ga_normal a) (ga_volume a)))
                  (ga_friction a / ga_volume a)
                  (rb_radius r - vnorm (vsub p (center_grd r pose)))
                  (ga_area a)
                  (ga_volume a))
    else Ret (envelop_none r pose).

  (** rib::envelopGeometric(flat), src/rib.cc:328-372. *)
  Definition envelop_geometric_flat (r : rib K) (ground : flat K) (pose : affine K)
    : bool * output K :=
    match int_plane_disk (fl_plane ground) (disk_grd r pose) neps with
    | Some s =>
      if seg_length s >? neps then
        let p := seg_centroid s in
        let cg := center_grd r pose in
        let nt := vnormalized (vcross (normal_grd r pose) (vsub cg p)) in
        let gn := pnormal (fl_plane ground) in
        let depth := rb_radius r - vnorm (vsub p cg) in
        (true,
         Output p
                (vnormalized (vsub gn (vmulr nt (vdot gn nt))))
                (fl_friction ground)
                depth
                (seg_area (rb_radius r) depth (rb_width r))
                (seg_volume (rb_radius r) depth (rb_width r)))
      else envelop_none r pose
    | None => envelop_none r pose
    end.

  (** First loop of rib::samplingLine(triangles), src/rib.cc:534-542: the
      hits in order with the friction of the triangle hit. *)
  Definition sampling_hits (ground : list (tground K)) (l : line K) : list (vec3 K * K) :=
    flat_map (fun g => match int_line_triangle l (tg_tri g) neps with
                       | Some p => [(p, tg_friction g)]
                       | None => []
                       end) ground.

  (** Selection of the highest hit, src/rib.cc:552-561. *)
  Definition higher (best cand : vec3 K * K) : vec3 K * K :=
    if vz (fst cand) >? vz (fst best) then cand else best.

  (** rib::samplingLine(triangles), src/rib.cc:516-581.  The final [else]
      (line 574) is unreachable: [int_bool] is true exactly when [point_vec]
      is not empty. *)
  Definition sampling_line (ground : list (tground K)) (l : line K) : option (vec3 K * K) :=
    match sampling_hits ground l with
    | [] => None
    | h :: hs => Some (fold_left higher hs h)
    end.

  (** rib::samplingLine(flat), src/rib.cc:585-603. *)
  Definition sampling_line_flat (ground : flat K) (l : line K) : option (vec3 K * K) :=
    match int_line_plane l (fl_plane ground) neps with
    | Some p => Some (p, fl_friction ground)
    | None => None
    end.

  (** The four sampling lines, src/rib.cc:396-406 and 466-476. *)
  Definition sampling_lines (r : rib K) (pose : affine K)
    : line K * line K * line K * line K :=
    let dx := n01 * rb_radius r in
    let dy := n03 * rb_width r in
    let mk := fun c => Line (vadd (tra pose) (mvmul (lin pose) c)) (vopp unit_z) in
    (mk (vadd (rb_center r) (vmul dx unit_x)),
     mk (vsub (rb_center r) (vmul dx unit_x)),
     mk (vadd (rb_center r) (vmul dy unit_y)),
     mk (vsub (rb_center r) (vmul dy unit_y))).

  (** One guarded sampling, [sampling = sampling && samplingLine(...)],
      src/rib.cc:410-413: when a previous line failed nothing is written, and
      a failing line writes nothing; [garbage] is the previous content. *)
  Definition sample (f : line K -> option (vec3 K * K)) (ok : bool) (l : line K)
    (garbage : vec3 K * K) : bool * (vec3 K * K) :=
    if ok then match f l with Some h => (true, h) | None => (false, garbage) end
    else (false, garbage).

  (** rib::envelopSampling, src/rib.cc:376-442 (triangles) and 446-512
      (flat): identical but for the sampling function [f].  [g0..g3] are the
      uninitialised points of [point_vec] (src/rib.cc:399; the default
      constructor in toolbox/src/point.cc:50-53 writes nothing);
      [friction_vec] is value-initialised to 0. *)
  Definition envelop_sampling_with (f : line K -> option (vec3 K * K))
    (g0 g1 g2 g3 : vec3 K) (r : rib K) (pose : affine K) : bool * output K :=
    let radius := rb_radius r in
    let width := rb_width r in
    let '(l0, l1, l2, l3) := sampling_lines r pose in
    let '(ok0, (p0, f0)) := sample f true l0 (g0, #0) in
    let '(ok1, (p1, f1)) := sample f ok0 l1 (g1, #0) in
    let '(ok2, (p2, f2)) := sample f ok1 l2 (g2, #0) in
    let '(ok3, (p3, f3)) := sample f ok2 l3 (g3, #0) in
    let point := vdiv (vadd (vadd (vadd p0 p1) p2) p3) #4 in
    let normal := vnormalized (vcross (vsub p0 p1) (vsub p2 p3)) in
    let e_y := vnormalized (col1 (lin pose)) in
    let e_x := vnormalized (vcross normal e_y) in
    let e_z := vnormalized (vcross e_y e_x) in
    let depth := radius * nabs (vdot normal e_z)
                 - vnorm (vsub point (center_grd r pose)) in
    if ok3 && (depth >? #0) then
      (true,
       Output point normal ((f0 + f1 + f2 + f3) / #4) depth
              (seg_area radius depth width) (seg_volume radius depth width))
    else envelop_none r pose.

  Definition envelop_sampling (g0 g1 g2 g3 : vec3 K) (r : rib K)
    (ground : list (tground K)) (pose : affine K) : bool * output K :=
    envelop_sampling_with (sampling_line ground) g0 g1 g2 g3 r pose.

  Definition envelop_sampling_flat (g0 g1 g2 g3 : vec3 K) (r : rib K)
    (ground : flat K) (pose : affine K) : bool * output K :=
    envelop_sampling_with (sampling_line_flat ground) g0 g1 g2 g3 r pose.

  (** Content of the four uninitialised temporaries. *)
  Definition garbage4 : Type := (vec3 K * vec3 K * vec3 K * vec3 K)%type.

  (** rib::envelop(triangles, pose, method, out), src/rib.cc:143-162. *)
  Definition envelop (gb : garbage4) (r : rib K) (ground : list (tground K))
    (pose : affine K) (method : string) : outcome (bool * output K) :=
    let '(g0, g1, g2, g3) := gb in
    if String.eqb method "geometric" then envelop_geometric r ground pose
    else if String.eqb method "sampling" then Ret (envelop_sampling g0 g1 g2 g3 r ground pose)
    else Throw RuntimeError.

  (** rib::envelop(flat, pose, method, out), src/rib.cc:166-185. *)
  Definition envelop_flat (gb : garbage4) (r : rib K) (ground : flat K)
    (pose : affine K) (method : string) : outcome (bool * output K) :=
    let '(g0, g1, g2, g3) := gb in
    if String.eqb method "geometric" then Ret (envelop_geometric_flat r ground pose)
    else if String.eqb method "sampling" then Ret (envelop_sampling_flat g0 g1 g2 g3 r ground pose)
    else Throw RuntimeError.
End Rib.
Arguments gacc K : clear implicits.
Arguments garbage4 K : clear implicits.
