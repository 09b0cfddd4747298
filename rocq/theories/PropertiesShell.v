(** * Properties of shells, ribs and the S-function, any arithmetic. *)
From Coq Require Import ZArith Bool Lia String List Floats.SpecFloat.
From Verif Require Import Base Num Vec Aabb Tree Geom Ground Shape Rib Str Mesh Shell Sfun F64.
From Verif Require Import SpecShell SpecResults ProofResults SpecSfun ProofShell ProofSfun ProofShellFacts SampleShell.
Import ListNotations.

(** ** C20: false of the code for ribs and ground triangles. *)
Theorem C20_rib_copy_refuted : exists this src : rib f64,
  (exists s, reach s /\ In this (sh_ribs s) /\ In src (sh_ribs s)) /\
  rb_y (rib_copy this src) <> rb_y src.
Proof.
  exists (nth 0 (sh_ribs wheel2) (mk_rib 0 (fz 0) (fz 0) (fz 0) (fz 0))),
         (nth 1 (sh_ribs wheel2) (mk_rib 0 (fz 0) (fz 0) (fz 0) (fz 0))).
  split; [exists wheel2; split; [exact (r_new _ _ _ _ _ _ _ wheel2_ok)|vm_compute; tauto]|].
  vm_compute. discriminate.
Qed.
Print Assumptions C20_rib_copy_refuted.

Theorem C20_triangle_copy_refuted : exists this src : tground f64,
  In this square_tris /\ In src square_tris /\ tg_id (tg_copy this src) <> tg_id src.
Proof.
  exists (nth 0 square_tris (nth 1 square_tris (TGround (Triangle (V (fz 0) (fz 0) (fz 0)) (V (fz 0) (fz 0) (fz 0)) (V (fz 0) (fz 0) (fz 0))) 0 (fz 0) (V (fz 0) (fz 0) (fz 0)) nan_aabb))),
         (nth 1 square_tris (TGround (Triangle (V (fz 0) (fz 0) (fz 0)) (V (fz 0) (fz 0) (fz 0)) (V (fz 0) (fz 0) (fz 0))) 0 (fz 0) (V (fz 0) (fz 0) (fz 0)) nan_aabb)).
  vm_compute. split; [now left|]. split; [right; now left|]. discriminate.
Qed.
Print Assumptions C20_triangle_copy_refuted.

(** Everything else is copied. *)
Theorem C20_copies : forall {K : Type} {NK : Num K} (r r' : rib K) (t t' : tground K) (s s' : shape K) (f f' : flat K),
  let rc := rib_copy r r' in let tc := tg_copy t t' in let fc := flat_copy f f' in
  (rb_radius rc = rb_radius r' /\ rb_center rc = rb_center r' /\ rb_normal rc = rb_normal r' /\
   rb_id rc = rb_id r' /\ rb_width rc = rb_width r' /\ rb_angle rc = rb_angle r') /\
  (tg_tri tc = tg_tri t' /\ tg_friction tc = tg_friction t' /\ tg_normal tc = tg_normal t' /\ tg_bbox tc = tg_bbox t') /\
  shape_copy s s' = s' /\
  (porigin (fl_plane fc) = porigin (fl_plane f') /\ fl_friction fc = fl_friction f').
Proof. intros K NK r r' t t' [] [] f f'. repeat split. Qed.
Print Assumptions C20_copies.

(** ** C26 *)
Theorem C26_resize_zero_throws : forall {K : Type} {NK : Num K} (s : shell K),
  resize s 0 = Exn s RuntimeError.
Proof. intros K NK. exact resize_zero. Qed.
Print Assumptions C26_resize_zero_throws.

Theorem C26_resize_history_independent : forall {K : Type} {NK : Num K} (s : shell K) n s',
  resize s n = Ok s' tt ->
  sh_size s' = n /\ sh_shape s' = sh_shape s /\ sh_affine s' = sh_affine s /\ sh_bbox s' = sh_bbox s /\
  forall t, sh_shape t = sh_shape s -> exists t', resize t n = Ok t' tt /\ sh_ribs t' = sh_ribs s'.
Proof. intros K NK. exact resize_returns. Qed.
Print Assumptions C26_resize_history_independent.

Theorem C26_resize_defined : forall {K : Type} {NK : Num K} (s : shell K) n, resize s n <> Undef.
Proof. intros K NK. exact resize_defined. Qed.
Print Assumptions C26_resize_defined.

Example C26_example : exists s', resize wheel1 3 = Ok s' tt /\ reach s' /\
  map rb_id (sh_ribs s') = [0; 1; 2]%Z.
Proof.
  assert (E : resize wheel1 3 = Ok (after no_shell (resize wheel1 3)) tt) by (vm_compute; reflexivity).
  eexists. split; [exact E|]. split; [|vm_compute; reflexivity].
  eapply r_resize; [|exact E]. exact (r_new _ _ _ _ _ _ _ wheel1_ok).
Qed.

(** ** C32 *)
Theorem C32_mesh_setup_history_independent : forall {K : Type} {NK : Num K} gb gb' (s t : shell K) m pose method,
  reach s -> reach t -> sh_shape s = sh_shape t -> sh_size s = sh_size t ->
  same_run (setup_mesh gb s m pose method) (setup_mesh gb' t m pose method).
Proof. intros K NK. exact mesh_history. Qed.
Print Assumptions C32_mesh_setup_history_independent.

Theorem C32_flat_setup_history_independent : forall {K : Type} {NK : Num K} gb gb' (s t : shell K) g pose method,
  reach s -> reach t -> sh_shape s = sh_shape t -> sh_size s = sh_size t ->
  same_run (setup_flat gb s g pose method) (setup_flat gb' t g pose method).
Proof. intros K NK. exact flat_history. Qed.
Print Assumptions C32_flat_setup_history_independent.

(** A fresh wheel and one that was resized and set up elsewhere. *)
Definition used1 : shell f64 :=
  after no_shell (resize (after no_shell (setup_flat gb0 wheel2 slope aid "geometric")) 1).
Example C32_example : reach wheel1 /\ reach used1 /\ used1 <> wheel1 /\
  sh_shape used1 = sh_shape wheel1 /\ sh_size used1 = sh_size wheel1 /\
  exists s', setup_mesh gb0 used1 square aid "sampling" = Ok s' true.
Proof.
  split; [exact (r_new _ _ _ _ _ _ _ wheel1_ok)|].
  assert (E1 : setup_flat gb0 wheel2 slope aid "geometric" =
    Ok (after no_shell (setup_flat gb0 wheel2 slope aid "geometric")) false) by (vm_compute; reflexivity).
  assert (E2 : resize (after no_shell (setup_flat gb0 wheel2 slope aid "geometric")) 1 = Ok used1 tt)
    by (vm_compute; reflexivity).
  split; [eapply r_resize; [|exact E2]; eapply r_flat_ok; [|exact E1]; exact (r_new _ _ _ _ _ _ _ wheel2_ok)|].
  split; [vm_compute; discriminate|]. split; [vm_compute; reflexivity|]. split; [vm_compute; reflexivity|].
  eexists. vm_compute. reflexivity.
Qed.

(** ** C33 *)
Theorem C33_mesh_setup_reports : forall {K : Type} {NK : Num K} gb (s : shell K) m pose method s' b,
  setup_mesh gb s m pose method = Ok s' b ->
  sh_ribs s' = sh_ribs s /\ sh_affine s' = pose /\
  exists local, mesh_intersection m (sh_bbox s') = Ret local /\
    ((local = [] /\ b = false /\
      forall i, i < sh_size s' -> rib_result (fun _ r => Ret (envelop_none r pose)) s' i false) \/
     (local <> [] /\
      exists flags, length flags = sh_size s' /\
        (forall i c, nth_error flags i = Some c ->
           exists r cs, nth_error (sh_ribs s') i = Some r /\
             nth_error (sh_cands s') i = Some cs /\
             rib_result (fun _ r => envelop (gb i) r cs pose method) s' i c) /\
        (b = true <-> In true flags))).
Proof. intros K NK. exact setup_mesh_reports. Qed.
Print Assumptions C33_mesh_setup_reports.

Example C33_example : exists s', setup_mesh gb0 wheel2 square aid "sampling" = Ok s' true /\ sh_size s' = 2.
Proof. eexists. split; [vm_compute; reflexivity|]. vm_compute. reflexivity. Qed.

(** ** C34: false of the code, the result is the last rib's. *)
Theorem C34_flat_setup_refuted : exists gb (s s' : shell f64) g pose,
  reach s /\ mk_flat (fl_friction g) (porigin (fl_plane g)) (V (fz 0) (fz (-1)) (fz 1)) = Ret g /\
  setup_flat gb s g pose "geometric" = Ok s' false /\
  rib_result (fun i r => envelop_flat (gb i) r g pose "geometric") s' 0 true.
Proof.
  exists gb0, wheel2, (after no_shell (setup_flat gb0 wheel2 slope aid "geometric")), slope, aid.
  split; [exact (r_new _ _ _ _ _ _ _ wheel2_ok)|]. split; [vm_compute; reflexivity|].
  split; [vm_compute; reflexivity|]. unfold rib_result.
  do 2 eexists. split; [vm_compute; reflexivity|]. split; [vm_compute; reflexivity|]. vm_compute. reflexivity.
Qed.
Print Assumptions C34_flat_setup_refuted.

Theorem C34_flat_setup_reports_last : forall {K : Type} {NK : Num K} gb (s : shell K) g pose method s' b,
  reach s -> setup_flat gb s g pose method = Ok s' b ->
  rib_result (fun i r => envelop_flat (gb i) r g pose method) s' (sh_size s' - 1) b.
Proof. intros K NK. exact flat_last. Qed.
Print Assumptions C34_flat_setup_reports_last.

Theorem C34_flat_setup_stores_every_rib : forall {K : Type} {NK : Num K} gb (s : shell K) g pose method s' b,
  setup_flat gb s g pose method = Ok s' b -> forall i, i < sh_size s' ->
  exists c, rib_result (fun i r => envelop_flat (gb i) r g pose method) s' i c.
Proof. intros K NK. exact flat_all. Qed.
Print Assumptions C34_flat_setup_stores_every_rib.

Example C34_example : reach wheel2 /\ sh_size wheel2 = 2 /\
  exists s', setup_flat gb0 wheel2 slope aid "geometric" = Ok s' false.
Proof.
  split; [exact (r_new _ _ _ _ _ _ _ wheel2_ok)|]. split; [vm_compute; reflexivity|]. eexists. vm_compute. reflexivity.
Qed.

(** ** C35 *)
Theorem C35_no_contact_mesh : forall {K : Type} {NK : Num K} gb (r : rib K) ground pose method o,
  envelop gb r ground pose method = Ret (false, o) -> no_contact r pose o.
Proof. intros K NK. exact envelop_no_contact. Qed.
Print Assumptions C35_no_contact_mesh.

Theorem C35_no_contact_flat : forall {K : Type} {NK : Num K} gb (r : rib K) g pose method o,
  envelop_flat gb r g pose method = Ret (false, o) -> no_contact r pose o.
Proof. intros K NK. exact envelop_flat_no_contact. Qed.
Print Assumptions C35_no_contact_flat.

Theorem C35_no_contact_setup : forall {K : Type} {NK : Num K} gb (s : shell K) m pose method s',
  setup_mesh gb s m pose method = Ok s' false ->
  forall i r, nth_error (sh_ribs s') i = Some r -> exists o, out_at s' i = Ret o /\ no_contact r pose o.
Proof. intros K NK. exact mesh_false_no_contact. Qed.
Print Assumptions C35_no_contact_setup.

Example C35_example : exists s', setup_mesh gb0 wheel2 square (at_pose (fz 0) (fz 0) (fz 9)) "sampling" = Ok s' false.
Proof. eexists. vm_compute. reflexivity. Qed.

(** ** C36 *)
Theorem C36_method_validated : forall {K : Type} {NK : Num K} gb (r : rib K) ground g pose method,
  ~ (method = "geometric"%string \/ method = "sampling"%string) ->
  envelop gb r ground pose method = Throw RuntimeError /\ envelop_flat gb r g pose method = Throw RuntimeError.
Proof. intros K NK. exact envelop_method. Qed.
Print Assumptions C36_method_validated.

Theorem C36_flat_setup_validates : forall {K : Type} {NK : Num K} gb (s : shell K) g pose method,
  reach s -> ~ (method = "geometric"%string \/ method = "sampling"%string) ->
  exists s', setup_flat gb s g pose method = Exn s' RuntimeError.
Proof. intros K NK. exact bad_flat_setup. Qed.
Print Assumptions C36_flat_setup_validates.

Theorem C36_mesh_setup_in_range_validates : forall {K : Type} {NK : Num K} gb (s : shell K) m pose method,
  reach s -> ~ (method = "geometric"%string \/ method = "sampling"%string) ->
  match mesh_intersection m (sh_bbox (update_bbox (transform s pose))) with
  | Ret [] => True
  | Ret _ => exists s', setup_mesh gb s m pose method = Exn s' RuntimeError
  | _ => True
  end.
Proof. intros K NK. exact bad_mesh_setup. Qed.
Print Assumptions C36_mesh_setup_in_range_validates.

Example C36_example : reach wheel1 /\ "Geometric"%string <> "geometric"%string /\
  exists t ts, mesh_intersection square (sh_bbox (update_bbox (transform wheel1 aid))) = Ret (t :: ts).
Proof.
  split; [exact (r_new _ _ _ _ _ _ _ wheel1_ok)|]. split; [discriminate|].
  do 2 eexists. vm_compute. reflexivity.
Qed.

(** ** C37: false of the code for a shell out of range of the mesh. *)
Theorem C37_method_refuted : exists gb (s s' : shell f64) m pose,
  reach s /\ setup_mesh gb s m pose "no such method" = Ok s' false.
Proof.
  exists gb0, wheel1, (after no_shell (setup_mesh gb0 wheel1 square (at_pose (fz 0) (fz 0) (fz 9)) "no such method")),
    square, (at_pose (fz 0) (fz 0) (fz 9)).
  split; [exact (r_new _ _ _ _ _ _ _ wheel1_ok)|vm_compute; reflexivity].
Qed.
Print Assumptions C37_method_refuted.

(** ** C42, geometric method (the sampling method is treated with exact arithmetic). *)
Theorem C42_geometric_friction : forall {K : Type} {NK : Num K} gb (r : rib K) g pose o,
  envelop_flat gb r g pose "geometric" = Ret (true, o) -> o_friction o = fl_friction g.
Proof. intros K NK. exact flat_geo_friction. Qed.
Print Assumptions C42_geometric_friction.

Example C42_example : exists r o, nth_error (sh_ribs wheel1) 0 = Some r /\
  envelop_flat (gb0 0) r level aid "geometric" = Ret (true, o).
Proof. do 2 eexists. split; [vm_compute; reflexivity|]. vm_compute. reflexivity. Qed.

(** ** C44 *)
Theorem C44_highest_hit : forall {K : Type} {NK : Num K} {OK : OrdNum K} ground (l : line K) p f,
  (forall g q, In g ground -> int_line_triangle l (tg_tri g) neps = Some q -> isnum (vz q)) ->
  sampling_line ground l = Some (p, f) ->
  exists pre g post, ground = pre ++ g :: post /\
    int_line_triangle l (tg_tri g) neps = Some p /\ f = tg_friction g /\
    (forall g' q, In g' pre -> int_line_triangle l (tg_tri g') neps = Some q -> nlt (vz q) (vz p) = true) /\
    (forall g' q, In g' post -> int_line_triangle l (tg_tri g') neps = Some q -> nle (vz q) (vz p) = true).
Proof. intros K NK OK. exact highest_hit. Qed.
Print Assumptions C44_highest_hit.

Theorem C44_fails_iff_no_hit : forall {K : Type} {NK : Num K} ground (l : line K),
  sampling_line ground l = None <->
  forall g, In g ground -> int_line_triangle l (tg_tri g) neps = None.
Proof. intros K NK. exact no_hit. Qed.
Print Assumptions C44_fails_iff_no_hit.

Definition down : line f64 := Line (V (f_of 1 (-1)) (f_of 1 (-2)) (fz 9)) (V (fz 0) (fz 0) (fz (-1))).
Example C44_example : exists p f, sampling_line square_tris down = Some (p, f) /\
  forallb (fun g => match int_line_triangle down (tg_tri g) neps with Some q => nle (vz q) (vz q) | None => true end)
    square_tris = true.
Proof. do 2 eexists. split; [vm_compute; reflexivity|]. vm_compute. reflexivity. Qed.

(** ** C47 *)
Theorem C47_no_uninitialised_data : forall {K : Type} {NK : Num K} gb gb' (r : rib K) ground g pose method,
  envelop gb r ground pose method = envelop gb' r ground pose method /\
  envelop_flat gb r g pose method = envelop_flat gb' r g pose method.
Proof. intros K NK gb gb' r ground g pose method. exact (conj (envelop_garbage _ _ _ _ _ _) (envelop_flat_garbage _ _ _ _ _ _)). Qed.
Print Assumptions C47_no_uninitialised_data.

(** ** C56: false of the code. *)
Theorem C56_total_area_refuted : exists gb (s s' : shell f64) g pose a t,
  reach s /\ sh_size s = 1 /\ setup_flat gb s g pose "geometric" = Ok s' true /\
  contact_area_i s' 0 = Ret a /\ contact_area s' = Ret t /\ nlt t a = true.
Proof.
  exists gb0, wheel1, (after no_shell (setup_flat gb0 wheel1 level aid "geometric")), level, aid, (fz 4), (f_of 1 (-1)).
  split; [exact (r_new _ _ _ _ _ _ _ wheel1_ok)|]. repeat (split; [vm_compute; reflexivity|]). vm_compute. reflexivity.
Qed.
Print Assumptions C56_total_area_refuted.

Theorem C56_total_area_is_friction_sum : forall {K : Type} {NK : Num K} (s : shell K) os,
  rib_results s os -> contact_area s = Ret (fold_left (fun a o => nadd a (o_friction o)) os (nofZ 0)).
Proof. intros K NK s os R. exact (area_sum s os (results_outs s os R)). Qed.
Print Assumptions C56_total_area_is_friction_sum.

(** ** C57: false of the code: the depth is 1, the reported mean below 2^-38. *)
Theorem C57_total_depth_refuted : exists gb (s s' : shell f64) g pose d t,
  reach s /\ sh_size s = 1 /\ setup_flat gb s g pose "geometric" = Ok s' true /\
  contact_depth_i s' 0 = Ret d /\ contact_depth s' = Ret t /\ d = fz 1 /\ nlt t (f_of 1 (-38)) = true.
Proof.
  exists gb0, thin1, (after no_shell (setup_flat gb0 thin1 level aid "geometric")), level, aid, (fz 1), (f_of 7074237752028440 (-91)).
  split; [exact (r_new _ _ _ _ _ _ _ thin1_ok)|]. repeat (split; [vm_compute; reflexivity|]). vm_compute. reflexivity.
Qed.
Print Assumptions C57_total_depth_refuted.

Theorem C57_total_depth_value : forall {K : Type} {NK : Num K} (s : shell K) os,
  rib_results s os ->
  contact_depth s = Ret
    (let v := fold_left (fun a o => nadd a (o_volume o)) os (nofZ 0) in
     if nlt v neps then ndiv v (nofZ (Z.of_nat (sh_size s)))
     else ndiv (fold_left (fun a o => nadd a (nmul (o_depth o) (o_volume o))) os (nofZ 0)) v).
Proof. intros K NK s os R. exact (depth_value s os (results_outs s os R)). Qed.
Print Assumptions C57_total_depth_value.

Example C56_C57_example : exists s' o, setup_flat gb0 wheel1 level aid "geometric" = Ok s' true /\ rib_results s' [o] /\
  o_friction o <> fz 0 /\ nlt (fz 0) (o_volume o) = true.
Proof.
  do 2 eexists. split; [vm_compute; reflexivity|]. split; [apply outs_results; vm_compute; reflexivity|]. split; [vm_compute; discriminate|vm_compute; reflexivity].
Qed.

(** ** C58 *)
Theorem C58_accessors_agree : forall {K : Type} {NK : Num K} (s : shell K),
  accessors_agree contact_point_v contact_point_i s /\ accessors_agree contact_normal_v contact_normal_i s /\
  accessors_agree contact_friction_v contact_friction_i s /\ accessors_agree contact_depth_v contact_depth_i s /\
  accessors_agree contact_area_v contact_area_i s /\ accessors_agree contact_volume_v contact_volume_i s.
Proof. intros K NK. exact agree_all. Qed.
Print Assumptions C58_accessors_agree.

Theorem C58_vectors_defined : forall {K : Type} {NK : Num K} (s : shell K),
  (forall i, i < sh_size s -> exists o, out_at s i = Ret o) ->
  (exists v, contact_point_v s = Ret v) /\ (exists v, contact_normal_v s = Ret v) /\
  (exists v, contact_friction_v s = Ret v) /\ (exists v, contact_depth_v s = Ret v) /\
  (exists v, contact_area_v s = Ret v) /\ (exists v, contact_volume_v s = Ret v).
Proof. intros K NK. exact vectors_defined. Qed.
Print Assumptions C58_vectors_defined.

Example C58_example : exists s' v, setup_flat gb0 wheel2 slope aid "geometric" = Ok s' false /\
  contact_friction_v s' = Ret v /\ v = [f_of 1 (-1); fz 0].
Proof. do 2 eexists. split; [vm_compute; reflexivity|]. split; [vm_compute; reflexivity|]. vm_compute. reflexivity. Qed.

(** ** C60: false of the code: the contact vector is always empty, and the
       setups write (and the accessors read) elements 0 .. size()-1 of it. *)
Theorem C60_contact_storage_refuted : forall {K : Type} {NK : Num K} (s : shell K),
  reach s -> sh_osize s = 0 /\ 0 < sh_size s.
Proof. intros K NK. exact osize_zero. Qed.
Print Assumptions C60_contact_storage_refuted.

Example C60_example : reach wheel2 /\ sh_osize wheel2 = 0 /\ sh_size wheel2 = 2.
Proof. split; [exact (r_new _ _ _ _ _ _ _ wheel2_ok)|split; vm_compute; reflexivity]. Qed.

(** ** C61: false of the code for more than 200 ribs (such shells are
       exhibited in PropertiesShape.v: C61_room_refuted). *)
Theorem C61_every_large_shell_overflows : forall {K : Type} {NK : Num K} gb (s : shell K) pose method,
  reach s -> 200 < sh_size s ->
  (forall g, method = "geometric"%string \/ method = "sampling"%string -> setup_flat gb s g pose method = Undef) /\
  (forall m, mesh_intersection m (sh_bbox (update_bbox (transform s pose))) = Ret [] ->
     setup_mesh gb s m pose method = Undef).
Proof.
  intros K NK gb s pose method HR HS.
  exact (conj (fun g => flat_overflow gb s g pose method HR HS) (fun m => mesh_overflow gb s m pose method HR HS)).
Qed.
Print Assumptions C61_every_large_shell_overflows.

Theorem C61_room_up_to_200 : forall {K : Type} {NK : Num K} gb (s : shell K) pose method,
  reach s -> sh_size s <= 200 ->
  (forall g, setup_flat gb s g pose method <> Undef) /\
  (forall m, setup_mesh gb s m pose method = Undef ->
     mesh_intersection m (sh_bbox (update_bbox (transform s pose))) = UB).
Proof. intros K NK. exact setup_room. Qed.
Print Assumptions C61_room_up_to_200.

Theorem C61_data_after_setup : forall {K : Type} {NK : Num K} gb (s : shell K) pose method s' b,
  (exists m, setup_mesh gb s m pose method = Ok s' b) \/ (exists g, setup_flat gb s g pose method = Ok s' b) ->
  forall i, i < sh_size s' -> exists o, out_at s' i = Ret o.
Proof.
  intros K NK gb s pose method s' b [[m H]|[g H]].
  - exact (data_after_mesh gb s m pose method s' b H).
  - exact (data_after_flat gb s g pose method s' b H).
Qed.
Print Assumptions C61_data_after_setup.

Example C61_example : reach wheel2 /\ sh_size wheel2 <= 200 /\ exists s', setup_flat gb0 wheel2 level aid "sampling" = Ok s' true.
Proof.
  split; [exact (r_new _ _ _ _ _ _ _ wheel2_ok)|].
  assert (E : sh_size wheel2 = 2) by (vm_compute; reflexivity). split; [rewrite E; lia|].
  eexists. vm_compute. reflexivity.
Qed.

(** ** C62: false of the code: the caller's vector is not resized. *)
Theorem C62_short_vectors_refuted : forall {K : Type} {NK : Num K} (s : shell K),
  (forall i, i < sh_size s -> exists o, out_at s i = Ret o) ->
  (forall v, length v < sh_size s -> contact_affine_v s v = UB) /\
  (forall v, length v < sh_size s -> relative_angles_v s v = UB).
Proof. intros K NK. exact frames_short. Qed.
Print Assumptions C62_short_vectors_refuted.

Theorem C62_frames_filled : forall {K : Type} {NK : Num K} (s : shell K),
  (forall i, i < sh_size s -> exists o, out_at s i = Ret o) ->
  forall v, sh_size s <= length v -> exists r, contact_affine_v s v = Ret r /\ length r = length v /\
    (forall i, i < sh_size s -> exists a, nth_error r i = Some a /\ contact_affine_i s i = Ret a) /\
    (forall i, sh_size s <= i -> nth_error r i = nth_error v i).
Proof. intros K NK. exact frames_filled. Qed.
Print Assumptions C62_frames_filled.

Theorem C62_angles_filled : forall {K : Type} {NK : Num K} (s : shell K),
  (forall i, i < sh_size s -> exists o, out_at s i = Ret o) ->
  forall v, sh_size s <= length v -> exists r, relative_angles_v s v = Ret r /\ length r = length v /\
    (forall i, i < sh_size s -> exists a, nth_error r i = Some a /\ relative_angles_i s i = Ret a) /\
    (forall i, sh_size s <= i -> nth_error r i = nth_error v i).
Proof. intros K NK. exact angles_filled. Qed.
Print Assumptions C62_angles_filled.

Example C62_example : exists s', setup_flat gb0 wheel2 level aid "geometric" = Ok s' true /\
  contact_affine_v s' [] = UB /\ exists r, contact_affine_v s' [aid; aid; aid] = Ret r /\ nth_error r 2 = Some aid.
Proof.
  eexists. split; [vm_compute; reflexivity|]. split; [vm_compute; reflexivity|].
  eexists. split; [vm_compute; reflexivity|]. vm_compute. reflexivity.
Qed.

(** ** C63 *)
Theorem C63_bus : forall {K : Type} {NK : Num K} gb1 gb2 m g (s : shell K) hub meth fe s' b,
  sfun_out gb1 gb2 m g s hub meth fe = Ok s' b -> describes_shell s' b.
Proof. intros K NK. exact sfun_data. Qed.
Print Assumptions C63_bus.

Definition hub0 (k : nat) : f64 := nth k (column_major aid) (fz 0).
Example C63_example : exists s' b, sfun_out gb0 gb0 square slope wheel2 hub0 (fz 1) (fz 0) = Ok s' b /\
  sh_size s' = 2 /\ bu_in_mesh b = fz 1 /\ nth_error (bu_ribs_rho b) 2 = Some S754_nan /\
  nth_error (bu_ribs_rho b) 1 <> Some S754_nan.
Proof.
  do 2 eexists. split; [vm_compute; reflexivity|]. repeat (split; [vm_compute; reflexivity|]).
  vm_compute. discriminate.
Qed.

(** ** C64 *)
Theorem C64_fallback : forall {K : Type} {NK : Num K} gb1 gb2 m g (s : shell K) hub meth fe s' b,
  reach s -> neq fe (nofZ 0) = true -> sfun_out gb1 gb2 m g s hub meth fe = Ok s' b ->
  exists name, meth_of meth name /\
    ((setup_mesh gb1 s m (decode hub) name = Ok s' true /\ bu_in_mesh b = nofZ 1) \/
     ((exists s1, setup_mesh gb1 s m (decode hub) name = Ok s1 false) /\
      (exists t c, setup_flat gb2 s g (decode hub) name = Ok t c /\ same_answers s' t) /\
      bu_in_mesh b = nofZ 0)).
Proof. intros K NK. exact sfun_fallback. Qed.
Print Assumptions C64_fallback.

Theorem C64_flat_selected : forall {K : Type} {NK : Num K} gb1 gb2 m g (s : shell K) hub meth fe s' b,
  neq fe (nofZ 0) = false -> neq fe (nofZ 1) = true -> sfun_out gb1 gb2 m g s hub meth fe = Ok s' b ->
  exists name c, meth_of meth name /\ describes_shell s' b /\
    setup_flat gb2 s g (decode hub) name = Ok s' c /\ bu_in_mesh b = nofZ 1.
Proof. intros K NK. exact sfun_flat_mode. Qed.
Print Assumptions C64_flat_selected.

Theorem C64_invalid_inputs_throw : forall {K : Type} {NK : Num K} gb1 gb2 m g (s : shell K) hub meth fe,
  (neq meth (nofZ 0) = false /\ neq meth (nofZ 1) = false) \/
  (neq fe (nofZ 0) = false /\ neq fe (nofZ 1) = false) ->
  sfun_out gb1 gb2 m g s hub meth fe = Exn s RuntimeError.
Proof.
  intros K NK gb1 gb2 m g s hub meth fe [[H1 H2]|[H1 H2]].
  - exact (sfun_invalid_method gb1 gb2 m g s hub meth fe H1 H2).
  - exact (sfun_invalid_selector gb1 gb2 m g s hub meth fe H1 H2).
Qed.
Print Assumptions C64_invalid_inputs_throw.

Definition hub_far (k : nat) : f64 := nth k (column_major (at_pose (fz 0) (fz 0) (fz 9))) (fz 0).
Example C64_example : exists s' b, sfun_out gb0 gb0 square slope wheel2 hub_far (fz 1) (fz 0) = Ok s' b /\
  bu_in_mesh b = fz 0.
Proof. do 2 eexists. split; [vm_compute; reflexivity|]. vm_compute. reflexivity. Qed.

(** ** C65 *)
Theorem C65_arrays_are_column_major : forall {K : Type} {NK : Num K} (a : affine K),
  encode a = column_major a.
Proof. intros K NK. exact encode_column_major. Qed.
Print Assumptions C65_arrays_are_column_major.

Theorem C65_decode_inverts : forall {K : Type} {NK : Num K} (a : affine K) d,
  decode (fun k => nth k (column_major a) d) = a.
Proof. intros K NK. exact decode_encode. Qed.
Print Assumptions C65_decode_inverts.

Theorem C65_encode_inverts : forall {K : Type} {NK : Num K} (h : nat -> K) r c, r < 3 -> c < 4 ->
  nth_error (encode (decode h)) (r + 4 * c) = Some (h (r + 4 * c)).
Proof. intros K NK. exact encode_decode. Qed.
Print Assumptions C65_encode_inverts.

Example C65_example : decode hub_far = at_pose (fz 0) (fz 0) (fz 9).
Proof. vm_compute. reflexivity. Qed.
