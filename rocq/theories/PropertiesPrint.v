(** * Property C116: printed reports. *)
From Coq Require Import ZArith Bool String Reals Lra Lia List.
From Verif Require Import Base Num Vec Geom Aabb Tree Acme Ground Shape Rib Str Mesh Shell ER F64 SpecGeom SpecRib SpecShape SpecShell SpecPose SpecAvg SpecEuler
  ProofGeom ProofShape ProofShapeFacts ProofPose ProofFlat ProofAvg ProofShell ProofSetupData ProofEuler SampleShell SamplePose SampleMeshGeo SampleEuler
  Print SpecPrint ProofPrint.
Import ListNotations.

(** What follows each label in the report of a shape, of a plane and of a
    triangle. *)
Theorem C116_shape : forall {K} (s : shape K), let r := shape_print s in
  under "Rx = " r = [PNum (sRx s)] /\ under "Mx = " r = [PNum (sMx s)] /\ under "Ry = " r = [PNum (sRy s)] /\
  under "My = " r = [PNum (sMy s)] /\ under "Ly = " r = [PNum (sLy s)].
Proof. intros. repeat split. Qed.
Print Assumptions C116_shape.

Theorem C116_flat : forall {K} (g : flat K), let r := flat_print g in
  under "F = " r = [PNum (fl_friction g)] /\ under "O = " r = [PVec (porigin (fl_plane g))] /\
  under "N = " r = [PVec (pnormal (fl_plane g))].
Proof. intros. repeat split. Qed.
Print Assumptions C116_flat.

Theorem C116_triangle : forall {K} (t : tground K), let r := tground_print t in
  under "ID  = " r = [PInt (tg_id t)] /\ under "F   = " r = [PNum (tg_friction t)] /\
  under "V0  = " r = [PVec (tv0 (tg_tri t))] /\ under "V1  = " r = [PVec (tv1 (tg_tri t))] /\
  under "V2  = " r = [PVec (tv2 (tg_tri t))] /\ under "N   = " r = [PVec (tg_normal t)] /\
  under "Max = " r = [PVec (bmax (tg_bbox t))] /\ under "Min = " r = [PVec (bmin (tg_bbox t))].
Proof. intros. repeat split. Qed.
Print Assumptions C116_triangle.

(** The title of a report does not say what it is the report of: a plane is
    announced as a triangle. *)
Theorem C116_title_refuted : forall {K} (g : flat K) (t : tground K),
  hd_error (flat_print g) = Some (Say "TRINGLEGROUND DATA") /\ hd_error (tground_print t) = Some (Say "TRINGLEGROUND DATA").
Proof. now split. Qed.
Print Assumptions C116_title_refuted.

(** The file written by mesh::print: every triangle, in order, numbered from 0. *)
Theorem C116_mesh : forall {K} (m : mesh K), let r := mesh_print m in let ts := me_tris m in
  under "T  = " r = map (fun i => PInt (Z.of_nat i)) (seq 0 (List.length ts)) /\
  under "V0 = " r = map (fun t => PVec (tv0 (tg_tri t))) ts /\
  under "V1 = " r = map (fun t => PVec (tv1 (tg_tri t))) ts /\
  under "V2 = " r = map (fun t => PVec (tv2 (tg_tri t))) ts /\
  under "N  = " r = map (fun t => PVec (tg_normal t)) ts /\
  under "F  = " r = map (fun t => PNum (tg_friction t)) ts.
Proof. intros K. exact mesh_lines. Qed.
Print Assumptions C116_mesh.

(** Two meshes have the same file exactly when their triangles agree in
    vertices, normal and friction. *)
Theorem C116_mesh_file : forall {K} (m m' : mesh K), mesh_print m = mesh_print m' <->
  map (fun t => (tg_tri t, tg_normal t, tg_friction t)) (me_tris m) =
  map (fun t => (tg_tri t, tg_normal t, tg_friction t)) (me_tris m').
Proof. intros K. exact mesh_whole. Qed.
Print Assumptions C116_mesh_file.

(** AABBtree::print: one box for each node, each box the tree was built on
    among them. *)
Theorem C116_tree : forall {K} {NK : Num K} (boxes : list (aabb K)), exists t rep, build boxes = Ret t /\ tree_print t = Ret rep /\
  (boxes = [] -> rep = [Say "[EMPTY AABB tree]"]) /\
  (boxes <> [] -> (List.length (boxes_in rep) + 1 = 2 * List.length boxes)%nat /\
     forall b, In b boxes -> In (PVec (bmin b), PVec (bmax b)) (boxes_in rep)).
Proof. intros K NK. exact tree_lines. Qed.
Print Assumptions C116_tree.

(** The report of an ACME entity determines it, except for the number of a
    box. *)
Theorem C116_entities : forall {K},
  (forall a b : line K, line_print a = line_print b -> a = b) /\
  (forall a b : ray K, ray_print a = ray_print b -> a = b) /\
  (forall a b : plane K, plane_print a = plane_print b -> a = b) /\
  (forall a b : segment K, segment_print a = segment_print b -> a = b) /\
  (forall a b : triangle K, triangle_print a = triangle_print b -> a = b) /\
  (forall a b : disk K, disk_print a = disk_print b -> a = b) /\
  (forall a b : ball K, ball_print a = ball_print b -> a = b) /\
  (forall a b : aabb K, aabb_print a = aabb_print b <-> bmin a = bmin b /\ bmax a = bmax b).
Proof.
  intros K. repeat split.
  all: try (intros [] [] H; injection H; intros; subst; reflexivity).
  - intros [r1 []] [r2 []] H. injection H. intros. cbn in *. now subst.
  - now injection H.
  - now injection H.
  - intros [H1 H2]. unfold aabb_print. now rewrite H1, H2.
Qed.
Print Assumptions C116_entities.

(** shell::print returns exactly when every rib has been written by a setup. *)
Theorem C116_shell_returns : forall {K} {NK : Num K} (s : shell K), (exists rep, shell_print s = Ret rep) <->
  forall i, (i < sh_size s)%nat -> exists o, contact_depth_i s i = Ret o.
Proof.
  intros K NK s. rewrite shell_prints. split; intros H i Hi; destruct (H i Hi) as [o E].
  - exists (o_depth o). unfold contact_depth_i. now rewrite E.
  - unfold contact_depth_i in E. destruct (out_at s i) as [x| |]; try discriminate. now exists x.
Qed.
Print Assumptions C116_shell_returns.

(** What follows each label in it: the answers of the queries. *)
Theorem C116_shell : forall {K} {NK : Num K} (s : shell K) rep, shell_print s = Ret rep ->
  (under "Rx = " rep = [PNum (sRx (sh_shape s))] /\ under "Mx = " rep = [PNum (sMx (sh_shape s))] /\
   under "Ry = " rep = [PNum (sRy (sh_shape s))] /\ under "My = " rep = [PNum (sMy (sh_shape s))] /\
   under "Ly = " rep = [PNum (sLy (sh_shape s))]) /\
  (numbered " : C = " rep = places (map (fun r => PVec (rb_center r)) (sh_ribs s)) /\
   under "R = " rep = map (fun r => PNum (rb_radius r)) (sh_ribs s) ++ [PNum (surface_max_radius (sh_shape s))] /\
   under "W = " rep = map (fun r => PNum (rb_width r)) (sh_ribs s)) /\
  (under "Γ = " rep = [PNum (ndiv (vy (sh_euler s)) npi)] /\ under "ß = " rep = [PNum (ndiv (vz (sh_euler s)) npi)] /\
   under "α = " rep = [PNum (ndiv (vx (sh_euler s)) npi)]) /\
  (exists p, contact_point s = Ret p /\ under "P = " rep = [PVec p]) /\
  (exists n, contact_normal s = Ret n /\ under "N = " rep = [PVec n]) /\
  (exists f, contact_friction s = Ret f /\ under "f = " rep = [PNum f]) /\
  (exists d, contact_depth s = Ret d /\ under "d = " rep = [PNum d]) /\
  (exists a, contact_area s = Ret a /\ under "A = " rep = map (fun r => PNum (rb_angle r)) (sh_ribs s) ++ [PNum a]) /\
  (exists v, contact_volume s = Ret v /\ under "V = " rep = [PNum v]) /\
  (exists l, contact_point_v s = Ret l /\ numbered " - P = " rep = places (map PVec l)) /\
  (exists l, contact_normal_v s = Ret l /\ numbered " - N = " rep = places (map PVec l)) /\
  (exists l, contact_friction_v s = Ret l /\ numbered " - f = " rep = places (map PNum l)) /\
  (exists l, contact_depth_v s = Ret l /\ numbered " - d = " rep = places (map PNum l)) /\
  (exists l, contact_area_v s = Ret l /\ numbered " - A = " rep = places (map PNum l)) /\
  (exists l, contact_volume_v s = Ret l /\ numbered " - V = " rep = places (map PNum l)) /\
  under "Shell reference frame" rep = [PMat (sh_affine s)] /\
  (exists A, contact_affine s = Ret A /\ under "Local contact point reference frame" rep = [PMat A]) /\
  (exists e, relative_angles s = Ret e /\ under "[Γ ß α]' = " rep = [PVec (vdiv e npi)]) /\
  (exists l, List.length l = sh_size s /\
     (forall i, (i < sh_size s)%nat -> exists e, nth_error l i = Some e /\ relative_angles_i s i = Ret e) /\
     numbered " - [Γ ß α]' = " rep = places (map (fun e => PVec (vdiv e npi)) l)).
Proof. intros K NK. exact shell_lines. Qed.
Print Assumptions C116_shell.

Local Open Scope R_scope.

(** A wheel that has rolled a quarter turn. *)
Definition rolled : affine R := Aff (M3 0 0 1 0 1 0 (-1) 0 0) (V 0 0 0).
Lemma rolled_rigid : rigid rolled.
Proof. unfold rolled, rigid, rotation, is_unit, pcol0, pcol1, pcol2. cbn. repeat split; try (vunf; ring); apply vec_eq; vunf; ring. Qed.

Lemma rolled_stands : exists s, real_shell round_tire s /\ forall gb, exists s' b p,
  setup_flat gb s floor (fa rolled) "geometric" = Ok s' b /\ sh_affine s' = fa rolled /\
  contact_point s' = Ret (fv p) /\ contact_normal s' = Ret (fv (V 0 0 1)).
Proof.
  destruct one_slice as (s & RS & S1 & RB). exists s. split; [exact RS|].
  intros gb. set (gp := Plane (V 0 0 (- (1 / 2))) (V 0 0 1)).
  assert (U : is_unit (pnormal gp)) by (unfold gp; cbn [pnormal]; vunf; ring).
  destruct (setup_flat_returns gb s (fflat gp (3 / 4)) (fa rolled)) as (s' & b & E); [apply RS|lia|].
  destruct (flat_setup_data gb round_tire s gp (3 / 4) rolled s' b RS rolled_rigid U E) as (os & RD & HN & HO).
  destruct (setup_flat_reports _ _ _ _ _ _ _ E) as (RB' & _ & flags & LF & HR & _).
  assert (L1 : sh_size s' = 1%nat) by (unfold sh_size in *; rewrite RB'; exact S1).
  destruct flags as [|c flags]; [rewrite L1 in LF; discriminate|].
  destruct (HR 0%nat c eq_refl) as (x & ox & NX & EF & EO). rewrite RB', RB, mid_slices in NX. cbn in NX.
  assert (EX : x = frib mid_rib) by congruence. subst x.
  assert (GR : good_rib mid_rib).
  { apply (has_rib_axial round_tire s 0 mid_rib); auto. unfold has_rib, rib_at. rewrite RB, mid_slices. reflexivity. }
  assert (EE : envelop_geometric_flat (frib mid_rib) (fflat gp (3 / 4)) (fa rolled) = (c, ox)).
  { destruct (gb 0%nat) as [[[g0 g1] g2] g3]. cbn in EF. congruence. }
  assert (C : c = true).
  { replace c with (fst (envelop_geometric_flat (frib mid_rib) (fflat gp (3 / 4)) (fa rolled))) by now rewrite EE.
    apply (proj2 (flat_contact_iff mid_rib rolled gp (3 / 4) GR rolled_rigid U)).
    pose proof SampleMeshGeo.eps_small. pose proof eps_pos.
    assert (S : sin2 (pnormal gp) (papply (lin rolled) (rb_normal mid_rib)) = 1).
    { change (rb_normal mid_rib) with (V 0 1 0 : pt). unfold sin2, rolled, gp, papply. cbn. vunf. ring. }
    rewrite S, mid_radius. unfold center_height. rewrite mid_center.
    replace (pdot (psub (place rolled (V 0 0 0)) (porigin gp)) (pnormal gp)) with (1 / 2)
      by (unfold place, rolled, gp, papply; cbn; vunf; field).
    lra. }
  subst c. destruct (flat_contact mid_rib rolled gp (3 / 4) GR rolled_rigid U ox EE) as (p & _ & _ & _ & _ & _ & DP & _).
  destruct os as [|o [|o' os]]; [destruct RD as [L _]; rewrite L1 in L; discriminate| |destruct RD as [L _]; rewrite L1 in L; discriminate].
  assert (NZ : o_normal o = V 0 0 1).
  { destruct (HO o (or_introl eq_refl)) as (_ & _ & _ & [(_ & H & _)|(_ & _ & _ & D & _)]); [exact H|exfalso].
    destruct RD as [_ RD]. destruct (RD 0%nat o eq_refl) as (_ & _ & _ & ED & _). unfold contact_depth_i in ED. rewrite EO in ED. cbn [obind] in ED.
    destruct (flat_contact mid_rib rolled gp (3 / 4) GR rolled_rigid U ox EE) as (q & _ & _ & _ & _ & _ & DQ & BD & _).
    assert (X : rb_radius mid_rib - dist q (place rolled (rb_center mid_rib)) = o_depth o) by congruence. lra. }
  destruct (point_hull s' [o] RD HN) as (q & EP & _); [intros o' Ho; apply HO; auto|].
  exists s', b, q. split; [exact E|]. split; [eapply setup_flat_pose; eassumption|]. split; [exact EP|].
  destruct (normal_side s' [o] RD HN) with (u := V 0 0 1 : pt) (c := 1) as (m & EN & NU & NS); try lra.
  + intros o' Ho. now apply HO.
  + vunf. ring.
  + intros o' [[<-|[]] _]. rewrite NZ. vunf. lra.
  + intros o' [[<-|[]] _]. rewrite NZ. vunf. ring.
  + rewrite EN. do 2 f_equal. destruct m as [mx my mz]. unfold is_unit, pdot in *. cbn [vx vy vz] in *. apply vec_eq; cbn; nra.
Qed.

(** The relative angles are printed as camber, rotation and yaw; the number in
    the place of the yaw is the rotation: a wheel rolled by a quarter turn, with
    no yaw, is reported with one. *)
Theorem C116_angle_names_refuted : exists s, real_shell round_tire s /\ forall gb, exists s' b rep A e,
  setup_flat gb s floor (fa rolled) "geometric" = Ok s' b /\ shell_print s' = Ret rep /\
  contact_affine s' = Ret (fa A) /\ (forall q, papply (lin rolled) q = papply (lin A) (turn_zxy e q)) /\
  vx e = 0 /\ exists alpha, under "[Γ ß α]' = " rep = [PVec (fv alpha)] /\ vz alpha <> 0.
Proof.
  destruct rolled_stands as (s & RS & H). exists s. split; [exact RS|]. intros gb.
  destruct (H gb) as (s' & b & p & E & EA & EP & EN).
  destruct (proj2 (shell_prints s') (setup_flat_written _ _ _ _ _ _ _ E)) as (rep & EQ).
  destruct (total_angles s' rolled p (V 0 0 1) EA rolled_rigid EP EN) as (A & e & E1 & F & E2 & Y & C1 & C2 & Rz & T).
  { vunf. ring. }
  { unfold rolled, pcol1. cbn. intros X. apply (f_equal vx) in X. cbn in X. lra. }
  exists s', b, rep, A, e. split; [exact E|]. split; [exact EQ|]. split; [exact E1|]. split; [exact T|]. split; [exact Y|].
  destruct (shell_lines s' rep EQ) as (_ & _ & _ & _ & _ & _ & _ & _ & _ & _ & _ & _ & _ & _ & _ & _ & _ & (e' & E3 & U) & _).
  assert (e' = fv e) as -> by congruence.
  pose proof PI_RGT_0 as PP. assert (P0 : PI <> 0) by lra.
  exists (V (vx e / PI) (vy e / PI) (vz e / PI)). split.
  - rewrite U. change (@npi er _) with (Fin PI). rewrite f_div by exact P0. do 2 f_equal. apply (f_equal fv). apply vec_eq; vunf; unfold Rdiv; ring.
  - cbn [vz]. intros Z. assert (Z0 : vz e = 0).
    { replace (vz e) with (vz e / PI * PI) by (field; exact P0). rewrite Z. ring. }
    destruct F as (RA & _ & F2 & _). destruct RA as (_ & _ & _ & _ & _ & O & _).
    specialize (T (V 1 0 0)). unfold turn_zxy, turn_z, turn_x, turn_y in T. cbn [vx vy vz] in T. rewrite Y, Z0, cos_0, sin_0 in T.
    assert (C0 : pcol0 (lin A) = V 0 0 (-1)).
    { destruct (lin A) as [a b' c d e' f g h i] eqn:LA. unfold rolled, papply, pcol0 in *. cbn in *. injection T as X1 X2 X3. apply vec_eq; cbn; lra. }
    rewrite C0, F2 in O. revert O. vunf. lra.
Qed.
Print Assumptions C116_angle_names_refuted.

(** A wheel of two ribs on level ground has a report; one that was never set up
    has none. *)
Example C116_example : shell_print wheel2 = UB /\
  exists s' rep, setup_flat gb0 wheel2 level aid "geometric" = Ok s' true /\ shell_print s' = Ret rep /\
    List.length (numbered " - P = " rep) = 2%nat.
Proof.
  split; [vm_compute; reflexivity|].
  exists (SampleShell.after no_shell (setup_flat gb0 wheel2 level aid "geometric")).
  exists (got [] (shell_print (SampleShell.after no_shell (setup_flat gb0 wheel2 level aid "geometric")))).
  split; [vm_compute; reflexivity|]. split; vm_compute; reflexivity.
Qed.
