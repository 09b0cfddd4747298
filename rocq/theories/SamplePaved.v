(** * A concrete loaded floor and a wheel on it. *)
From Coq Require Import ZArith Bool Reals Lra Lia Ascii String List.
From Verif Require Import Base Num Vec Aabb Tree Geom Ground Shape Rib Str Mesh Shell ER SpecGeom SpecRib SpecShape SpecShell SpecPose SpecAvg SpecFrame SpecRoof.
From Verif Require Import SpecTree SpecLoad SpecMesh ProofLoad ProofMesh ProofQuery ProofMeshFacts.
From Verif Require Import ProofGeom ProofInt ProofTri ProofGround ProofFlat ProofShape ProofShapeFacts ProofShell ProofPose ProofSetupOk SamplePose SpecSmooth ProofSmooth SpecPaved ProofPaved.
Import ListNotations.
Local Open Scope R_scope.

Definition floor_lines : list text :=
  [txt "v 0 0 0"; txt "v 8 0 0"; txt "v 8 8 0"; txt "v 0 8 0"; txt "f 1 2 3"; txt "f 1 3 4"].
Definition floor_files (p : text) : option text :=
  if str_eqb p (txt "w.obj") then Some (file_of floor_lines) else None.
Definition floor_faces : list face :=
  [(at_xyz 0 0 0, at_xyz 8 0 0, at_xyz 8 8 0, Fin 1); (at_xyz 0 0 0, at_xyz 8 8 0, at_xyz 0 8 0, Fin 1)].
Lemma floor_written : obj_written eread aident (Fin 1) [] floor_lines floor_faces.
Proof.
  unfold floor_lines, floor_faces.
  vtx (txt "0") (txt "0") (txt "0"). vtx (txt "8") (txt "0") (txt "0"). vtx (txt "8") (txt "8") (txt "0"). vtx (txt "0") (txt "8") (txt "0").
  eapply (ow_face _ _ _ _ 0%nat 0%nat 0%nat 0%nat 0%nat (txt "1") (txt "2") (txt "3") 1%Z 2%Z 3%Z); [dig 1%nat|dig 2%nat|dig 3%nat|lia|lia|lia| | | |].
  1-3: split; [lia|]; do 3 eexists; split; reflexivity.
  eapply (ow_face _ _ _ _ 0%nat 0%nat 0%nat 0%nat 0%nat (txt "1") (txt "3") (txt "4") 1%Z 3%Z 4%Z); [dig 1%nat|dig 3%nat|dig 4%nat|lia|lia|lia| | | |].
  1-3: split; [lia|]; do 3 eexists; split; reflexivity.
  apply ow_nil.
Qed.
Definition floor_one : triangle R := Triangle (V 0 0 0) (V 8 0 0) (V 8 8 0).
Definition floor_two : triangle R := Triangle (V 0 0 0) (V 8 8 0) (V 0 8 0).
Definition floor_tris : list (triangle R * R) := [(floor_one, 1); (floor_two, 1)].
Lemma sealed_ground : forall g t f, sealed g -> tg_tri g = ftri t -> tg_friction g = Fin f -> ground_of t f g.
Proof.
  intros g t f (B & N & F) T FR. exists (tg_id g). unfold mk_tground. rewrite FR in F. rewrite F. f_equal.
  destruct g as [tri id nm fr bb]. cbn in *. subst. reflexivity.
Qed.
Lemma floor_mesh : exists m, load_succeeds eread floor_files mesh_empty m /\ mesh_size m = 2%nat /\ grounds floor_tris (me_tris m).
Proof.
  destruct (obj_round_trip eread floor_files (txt "w.obj") aident (Fin 1) floor_lines floor_faces mesh_empty) as (m & L & D).
  - now exists (txt "w").
  - reflexivity.
  - exact floor_written.
  - cbn. apply rleb_true. lra.
  - discriminate.
  - cbn. lia.
  - reflexivity.
  - assert (LD : load_succeeds eread floor_files mesh_empty m) by (right; exists (txt "w.obj"), (Fin 1), aident; exact L).
    destruct D as [Z D]. exists m. split; [exact LD|]. split; [exact Z|].
    assert (SL : Forall sealed (me_tris m)) by (apply (load_succeeds_good _ _ _ _ LD); rewrite Z; cbn; lia). rewrite Forall_forall in SL.
    destruct (D 0%nat _ _ _ _ eq_refl) as (g0 & N0 & T0 & F0 & _). destruct (D 1%nat _ _ _ _ eq_refl) as (g1 & N1 & T1 & F1 & _).
    unfold mesh_size in Z. cbn in Z. destruct (me_tris m) as [|x [|y [|z l]]]; try discriminate Z. cbn in N0, N1.
    injection N0 as ->. injection N1 as ->.
    constructor; [|constructor; [|constructor]]; cbn [fst snd]; apply sealed_ground; auto.
    + apply SL. now left.
    + rewrite T0, !at_xyz_fv. reflexivity.
    + apply SL. right. now left.
    + rewrite T1, !at_xyz_fv. reflexivity.
Qed.
Definition on_floor : affine R := moved_by (V 4 2 (1 / 2)) upright.
Lemma floor_paved : paved level 1 floor_tris.
Proof.
  intros t f' [H|[H|[]]]; injection H as <- <-; unfold on_plane, level, floor_one, floor_two; cbn [tv0 tv1 tv2 porigin pnormal];
  repeat split; vunf; ring.
Qed.
Lemma floor_under : forall q, 3 <= vx q <= 5 -> 1 <= vy q <= 3 -> exists p, ground_at floor_tris q p.
Proof.
  intros q X Y. exists (V (vx q) (vy q) 0), floor_one, 1. split; [now left|]. split.
  - unfold shadow, floor_one. cbn [tv0 tv1 tv2]. replace (vz _) with 64 by (vunf; ring). rewrite Rabs_pos_eq by lra. pose proof eps_lt1. lra.
  - split; [|split; reflexivity]. exists (1 - vx q / 8), ((vx q - vy q) / 8), (vy q / 8). repeat split; try lra.
    unfold bary, floor_one. cbn [tv0 tv1 tv2]. apply vec_eq; vunf; field.
Qed.
Lemma floor_one_rib : exists m s, load_succeeds eread floor_files mesh_empty m /\ mesh_size m = 2%nat /\ grounds floor_tris (me_tris m) /\
  real_shell round_tire s /\ rigid on_floor /\ (forall j r q, has_rib s j r -> In q (probes r on_floor) -> exists p, ground_at floor_tris q p) /\
  sh_size s = 1%nat /\ has_rib s 0 mid_rib /\ forall gb gb', exists s1 b s2 b', setup_mesh gb s m (fa on_floor) "sampling" = Ok s1 b /\
    setup_flat gb' s (fflat level 1) (fa on_floor) "sampling" = Ok s2 b'.
Proof.
  destruct floor_mesh as (m & LD & SZ & GR). destruct one_slice as (s & RS & S1 & RB).
  exists m, s. split; [exact LD|]. split; [exact SZ|]. split; [exact GR|]. split; [exact RS|]. split; [apply upright_rigid|].
  split.
  { intros j r q HR Q. unfold has_rib, rib_at in HR. rewrite RB, mid_slices in HR. destruct j; [|destruct j; discriminate]. cbn [map nth_error] in HR.
    assert (E : frib mid_rib = frib r) by congruence. apply frib_inj in E. subst r.
    assert (W : rb_width mid_rib = 1 / 2) by (unfold mid_rib, real_rib, slice_width, round_tire; cbn; lra).
    apply floor_under; unfold probes, probe in Q; rewrite mid_center, mid_radius, W in Q; destruct Q as [<-|[<-|[<-|[<-|[]]]]];
      unfold on_floor, moved_by, upright, place; vunf; cbn; lra. }
  split; [exact S1|]. split; [unfold has_rib, rib_at; rewrite RB, mid_slices; reflexivity|].
  intros gb gb'.
  assert (SZ2 : (Z.of_nat (mesh_size m) <= 2 ^ 31)%Z) by (rewrite SZ; cbn; lia).
  destruct (loaded_query_exact eread floor_files mesh_empty m (sh_bbox (update_bbox (transform s (fa on_floor)))) LD SZ2) as (local & Q & _).
  { rewrite Forall_forall. intros g I. destruct (grounds_in _ _ _ GR I) as (t & f' & _ & K).
    apply ProofMeshGeo.ground_of_fields in K as (T & _). eapply real_tri_num. exact T. }
  { eapply shell_box_proper. exact RS. }
  destruct (setup_mesh_returns gb s m (fa on_floor) "sampling" local) as (s1 & b & E1); [apply RS|lia|exact Q| |].
  { intros j r c _ _. destruct (gb j) as [[[g0 g1] g2] g3]. eexists. reflexivity. }
  destruct (setup_flat_ok gb' s (fflat level 1) (fa on_floor) "sampling") as (s2 & b' & E2); [apply RS|lia|right; reflexivity|].
  exists s1, b, s2, b'. auto.
Qed.
Lemma floor_wheel : exists m s, load_succeeds eread floor_files mesh_empty m /\ mesh_size m = 2%nat /\ grounds floor_tris (me_tris m) /\
  real_shell round_tire s /\ rigid on_floor /\ (forall j r q, has_rib s j r -> In q (probes r on_floor) -> exists p, ground_at floor_tris q p) /\
  forall gb gb', exists s1 b s2 b', setup_mesh gb s m (fa on_floor) "sampling" = Ok s1 b /\
    setup_flat gb' s (fflat level 1) (fa on_floor) "sampling" = Ok s2 b'.
Proof.
  destruct floor_one_rib as (m & s & A & B & C & D & E & F & _ & _ & G). exists m, s. auto 8.
Qed.
Lemma floor_contact : forall gb s s2 b, real_shell round_tire s -> has_rib s 0 mid_rib ->
  setup_flat gb s (fflat level 1) (fa on_floor) "sampling" = Ok s2 b -> exists o, out_at s2 0 = Ret o /\ o_depth o = Fin (1 / 2).
Proof.
  intros gb s s2 b RS HR E. destruct (flat_out level 1 s on_floor gb s2 b E 0%nat mid_rib HR) as (c & o & F & O).
  destruct (has_rib_axial _ _ _ _ RS HR) as (_ & GD & _). destruct (has_rib_width _ _ _ _ RS HR) as (WP & _).
  pose proof (sampling_value _ _ _ _ _ _ _ GD (upright_rigid : rigid on_floor) level_unit F) as [D V]. cbv zeta in D, V.
  assert (H : rb_radius mid_rib * sqrt (sin2 (pnormal level) (axle on_floor)) - Rabs (center_height mid_rib on_floor level) / Rabs (vz (pnormal level)) = 1 / 2).
  { rewrite mid_radius. unfold center_height. rewrite mid_center. unfold level, on_floor, moved_by, upright, axle, pcol1, place, sin2. cbn [pnormal porigin].
    replace (1 - _) with 1 by (vunf; cbn; ring). rewrite sqrt_1. cbn [vz]. rewrite Rabs_R1.
    replace (pdot _ _) with (1 / 2) by (vunf; cbn; lra). rewrite Rabs_pos_eq by lra. field. }
  rewrite H in D, V.
  assert (T : c = true).
  { apply D. split; [|split; [|split; [exact WP|lra]]].
    - unfold level. cbn [pnormal vz]. rewrite Rabs_R1. apply eps_lt1.
    - unfold on_floor, moved_by, upright. cbn. lra. }
  destruct (V T) as [_ P]. eauto.
Qed.
