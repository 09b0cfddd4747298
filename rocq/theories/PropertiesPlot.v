(** * C115: what is drawn of a wheel. *)
From Coq Require Import ZArith Bool String Reals Lra Lia List.
From Verif Require Import Base Num Vec Aabb Geom Ground Shape Rib Str Mesh Shell Mex ER SpecGeom SpecRib SpecShape SpecShell SpecPose SpecMex
  ProofGeom ProofInt ProofShape ProofShapeFacts ProofPose Matlab SpecMatlab ProofMatlabE Plot SpecPlot ProofPlot.
Import ListNotations.
Local Open Scope R_scope.

(** The grid of meshShell: 101 circles from one edge of the tread to the other,
    101 points around each. *)
Theorem C115_mesh : forall e w a s sp, live w a (OShell s) -> sh_shape s = fshape sp -> good_shape sp ->
  exists rows, only_draws e w (mesh_shell_m (obj_shell a)) rows /\ rectangular 101 101 rows /\
    forall i j, (i <= 100)%nat -> (j <= 100)%nat -> exists r,
      surface_radius (sh_shape s) (Fin (station (sLy sp) 50 i)) = Ret (Fin r) /\
      point_at rows i j = Some (fv (on_ring r (station (sLy sp) 50 i) 100 j)).
Proof. exact mesh_drawn. Qed.
Print Assumptions C115_mesh.

(** All its points are on the tread. *)
Theorem C115_mesh_on_tread : forall e w a s sp, live w a (OShell s) -> sh_shape s = fshape sp -> good_shape sp ->
  forall rows i j p, only_draws e w (mesh_shell_m (obj_shell a)) rows -> point_at rows i j = Some p ->
  exists v, p = fv v /\ on_tread sp v.
Proof. exact mesh_on_tread. Qed.
Print Assumptions C115_mesh_on_tread.

(** plotShape: the axes of the wheel and its tread, where the wheel is. *)
Theorem C115_shape : forall e w a s sp, live w a (OShell s) -> sh_shape s = fshape sp -> good_shape sp ->
  forall A, sh_affine s = fa A ->
  exists rows, only_draws e w (plot_shape_m (obj_shell a)) (axes A ++ [Surf rows]) /\ rectangular 51 51 rows /\
    forall i j, (i <= 50)%nat -> (j <= 50)%nat -> exists r,
      surface_radius (sh_shape s) (Fin (station (sLy sp) 25 i)) = Ret (Fin r) /\
      point_at rows i j = Some (fv (place A (on_ring r (station (sLy sp) 25 i) 50 j))).
Proof. exact plot_shape_drawn. Qed.
Print Assumptions C115_shape.

Theorem C115_shape_on_tread : forall e w a s sp, live w a (OShell s) -> sh_shape s = fshape sp -> good_shape sp ->
  forall A fig rows i j p, sh_affine s = fa A -> only_draws e w (plot_shape_m (obj_shell a)) fig ->
  In (Surf rows) fig -> point_at rows i j = Some p -> exists v, p = fv (place A v) /\ on_tread sp v.
Proof. exact shape_on_tread. Qed.
Print Assumptions C115_shape_on_tread.

(** shellShape: the same in the frame of the wheel. *)
Theorem C115_shape_static : forall e w a s sp, live w a (OShell s) -> sh_shape s = fshape sp -> good_shape sp ->
  let I := Aff (M3 1 0 0 0 1 0 0 0 1) (V 0 0 0) in
  exists rows, only_draws e w (shell_shape_m (obj_shell a)) (axes I ++ [Surf rows]) /\ rectangular 51 51 rows /\
    forall i j, (i <= 50)%nat -> (j <= 50)%nat -> exists r,
      surface_radius (sh_shape s) (Fin (station (sLy sp) 25 i)) = Ret (Fin r) /\
      point_at rows i j = Some (fv (on_ring r (station (sLy sp) 25 i) 50 j)).
Proof. exact shell_shape_drawn. Qed.
Print Assumptions C115_shape_static.

(** profile: 101 points of the generating curve. *)
Theorem C115_profile : forall e w a s sp, live w a (OShell s) -> sh_shape s = fshape sp -> good_shape sp ->
  exists l, only_draws e w (profile_m (obj_shell a)) [Curve l] /\ List.length l = 101%nat /\
    forall i, (i <= 100)%nat -> exists r, nth_error l i = Some (Fin (station (sLy sp) 50 i), Fin r) /\
      surface_radius (sh_shape s) (Fin (station (sLy sp) 50 i)) = Ret (Fin r).
Proof. exact profile_drawn. Qed.
Print Assumptions C115_profile.

(** plotRibs: the disks that [setup] intersects with the ground, in order.
    Each rib leaves one acme_point behind. *)
Theorem C115_ribs : forall e w a s sp, live w a (OShell s) -> sh_shape s = fshape sp -> good_shape sp ->
  forall A, reach s -> sh_affine s = fa A -> (Z.of_nat (sh_size s) < 2 ^ 31)%Z ->
  exists rs, sh_ribs s = map frib rs /\
    draws e w (plot_ribs_m (obj_shell a)) (axes A ++ map (fun r => DiskAt (fdisk (posed_disk r A))) rs)
      (map (fun r => OPoint (fv (rb_center r))) rs).
Proof. exact plot_ribs_drawn. Qed.
Print Assumptions C115_ribs.

Theorem C115_ribs_static : forall e w a s sp, live w a (OShell s) -> sh_shape s = fshape sp -> good_shape sp ->
  reach s -> (Z.of_nat (sh_size s) < 2 ^ 31)%Z ->
  let I := Aff (M3 1 0 0 0 1 0 0 0 1) (V 0 0 0) in
  exists rs, sh_ribs s = map frib rs /\
    draws e w (shell_ribs_m (obj_shell a)) (axes I ++ map (fun r => DiskAt (fdisk (rb_disk r))) rs)
      (map (fun r => OPoint (fv (rb_center r))) rs).
Proof. exact shell_ribs_drawn. Qed.
Print Assumptions C115_ribs_static.

(** plotEnve: the cones tangent to the tread along the ribs, where the wheel
    is, from the last rib to the first. *)
Theorem C115_bands : forall e w a s sp, live w a (OShell s) -> sh_shape s = fshape sp -> good_shape sp ->
  forall A, reach s -> sh_affine s = fa A -> (Z.of_nat (sh_size s) < 2 ^ 31)%Z -> e_toint e (Fin 1) = Ret 1%Z ->
  exists surfs,
    draws e w (plot_enve_m (obj_shell a)) (axes A ++ map (@Surf er) surfs) (map OPoint (map rb_center (sh_ribs s))) /\
    List.length surfs = sh_size s /\
    forall k rows, nth_error surfs k = Some rows -> rectangular 2 101 rows /\
      exists r d, has_rib s (sh_size s - 1 - k) r /\
        surface_derivative (sh_shape s) (Fin (vy (rb_center r))) neps = Ret (Fin d) /\
        forall i j, (i <= 1)%nat -> (j <= 100)%nat ->
          point_at rows i j = Some (fv (place A
            (on_ring (cone_radius r d (rib_end r i)) (vy (rb_center r) + rib_end r i) 100 j))).
Proof. exact plot_bands_drawn. Qed.
Print Assumptions C115_bands.

Theorem C115_bands_static : forall e w a s sp, live w a (OShell s) -> sh_shape s = fshape sp -> good_shape sp ->
  let I := Aff (M3 1 0 0 0 1 0 0 0 1) (V 0 0 0) in
  reach s -> (Z.of_nat (sh_size s) < 2 ^ 31)%Z -> e_toint e (Fin 1) = Ret 1%Z ->
  exists surfs,
    draws e w (shell_enve_m (obj_shell a)) (axes I ++ map (@Surf er) surfs) (map OPoint (map rb_center (sh_ribs s))) /\
    List.length surfs = sh_size s /\
    forall k rows, nth_error surfs k = Some rows -> rectangular 2 101 rows /\
      exists r d, has_rib s (sh_size s - 1 - k) r /\
        surface_derivative (sh_shape s) (Fin (vy (rb_center r))) neps = Ret (Fin d) /\
        forall i j, (i <= 1)%nat -> (j <= 100)%nat ->
          point_at rows i j = Some (fv
            (on_ring (cone_radius r d (rib_end r i)) (vy (rb_center r) + rib_end r i) 100 j)).
Proof. exact shell_bands_drawn. Qed.
Print Assumptions C115_bands_static.

Lemma two_ribs : exists s, mk_shell 2 (Fin 1) (Fin 2) (Fin (1 / 2)) (Fin 3) (Fin (1 / 4)) = Ret s /\
  sh_shape s = fshape (Shape 1 2 (1 / 2) 3 (1 / 4)) /\ sh_ribs s = map frib (slices (Shape 1 2 (1 / 2) 3 (1 / 4)) 2).
Proof.
  destruct (mk_shell_eval (Shape 1 2 (1 / 2) 3 (1 / 4)) ltac:(unfold good_shape; cbn; lra) 2 ltac:(lia)) as (s & E & R & S).
  exists s. auto.
Qed.

(** So the surface drawn for rib [k] is not where rib [k] is: here the first
    rib lies on one side of the middle plane, the surface drawn for it on the
    other. *)
Theorem C115_band_of_rib_refuted : exists sp s r, real_shell sp s /\ has_rib s 0 r /\
  vy (rb_center r) + rb_width r / 2 <= 0 /\
  forall e w a, live w a (OShell s) -> e_toint e (Fin 1) = Ret 1%Z ->
  exists fig l surfs rows, draws e w (shell_enve_m (obj_shell a)) fig l /\
    fig = axes (Aff (M3 1 0 0 0 1 0 0 0 1) (V 0 0 0)) ++ map (@Surf er) surfs /\ nth_error surfs 0 = Some rows /\
    forall i j p, point_at rows i j = Some p -> exists v, p = fv v /\ 0 <= vy v.
Proof.
  destruct two_ribs as (s & E & S & R). set (sp := Shape 1 2 (1 / 2) 3 (1 / 4)) in *.
  assert (G : good_shape sp) by (unfold good_shape; cbn; lra).
  assert (RC : reach s) by exact (r_new _ _ _ _ _ _ _ E).
  exists sp, s, (real_rib sp (slice_width (sLy sp) 2) (int_of_size 0) (slice_center (sLy sp) 2 0)).
  split; [split; [exact RC|split; [exact S|exact G]]|]. split; [unfold has_rib, rib_at; rewrite R, nth_error_map, slices_nth by lia; reflexivity|].
  split; [cbn; unfold slice_center, slice_width; cbn; lra|]. intros e w a Hl H1.
  assert (SZ : sh_size s = 2%nat) by (unfold sh_size; now rewrite R, map_length, slices_length).
  destruct (shell_bands_drawn e w a s sp Hl S G RC) as (surfs & D & L & F); [rewrite SZ; lia|exact H1|].
  destruct surfs as [|rows surfs]; [cbn in L; congruence|].
  eexists _, _, (rows :: surfs), rows. split; [exact D|]. split; [reflexivity|]. split; [reflexivity|].
  destruct (F 0%nat rows eq_refl) as (B & r & d & H & _ & P).
  assert (r = real_rib sp (slice_width (sLy sp) 2) (int_of_size 1) (slice_center (sLy sp) 2 1)) as ->.
  { unfold has_rib, rib_at in H. rewrite R, SZ, nth_error_map, slices_nth in H by lia. cbn [option_map] in H.
    apply frib_inj. apply (f_equal (fun o => match o with Ret x => x | _ => frib r end)) in H. symmetry. exact H. }
  intros i j p Hp. destruct (point_bounds _ _ _ _ _ _ B Hp). rewrite P in Hp by lia. injection Hp as <-.
  eexists. split; [reflexivity|]. cbn [on_ring vy]. destruct i as [|[|i]]; [| |lia]; cbn; unfold slice_center, slice_width; cbn; lra.
Qed.
Print Assumptions C115_band_of_rib_refuted.

(** plotSetupAvg, plotSetupRib and plotSetupVec: the contact frames. *)
Theorem C115_frames : forall {K} {NK : Num K} (e : env K) w a s, live w a (OShell s) ->
  (forall T, contact_affine s = Ret T -> only_draws e w (plot_setup_avg_m (obj_shell a)) (arrows T)) /\
  (forall m i T, whole e m i -> (1 <= i < 2 ^ 31)%Z -> contact_affine_i s (Z.to_nat (i - 1)) = Ret T ->
     only_draws e w (plot_setup_rib_m (obj_shell a) m) (arrows T)) /\
  (forall Ts, (Z.of_nat (sh_size s) < 2 ^ 31)%Z -> omap (contact_affine_i s) (seq 0 (sh_size s)) = Ret Ts ->
     only_draws e w (plot_setup_vec_m (obj_shell a)) (concat (map arrows Ts))).
Proof. intros K NK. exact frames_drawn. Qed.
Print Assumptions C115_frames.

(** A wheel with two ribs, moved. *)
Example C115_example : exists (w : world er) s A e, live w 1 (OShell s) /\
  sh_shape s = fshape (Shape 1 2 (1 / 2) 3 (1 / 4)) /\ good_shape (Shape 1 2 (1 / 2) 3 (1 / 4)) /\ reach s /\
  sh_affine s = fa A /\ tra A = V 3 4 5 /\ sh_size s = 2%nat /\ e_toint e (Fin 1) = Ret 1%Z.
Proof.
  destruct two_ribs as (s & E & S & R).
  exists (World [(1%Z, OShell (sh_translate s (fv (V 3 4 5))))] (fun _ => 0%Z) 0), (sh_translate s (fv (V 3 4 5))),
    (Aff (M3 1 0 0 0 1 0 0 0 1) (V 3 4 5)),
    (Env 2%Z (fun _ => None) (fun _ => UB) (fun _ => Ret 1%Z) (fun _ => let v := V Nan Nan Nan in (v, v, v, v)) (fun m => m)).
  split; [reflexivity|]. split; [exact S|]. split; [unfold good_shape; cbn; lra|].
  split; [apply r_translate; exact (r_new _ _ _ _ _ _ _ E)|].
  split; [|split; [reflexivity|split; [|reflexivity]]].
  - unfold sh_translate, with_affine. cbn [sh_affine]. rewrite (new_shell_affine _ _ _ _ _ _ _ E).
    unfold atranslate, aident. cbn. unfold fa, fm, fv. cbn. f_equal. unfold vadd, mvmul, vdot. cbn. f_equal; f_equal; ring.
  - unfold sh_size. cbn. now rewrite R, map_length, slices_length.
Qed.
