(** * A wheel on a loaded road of one triangle (for C136). *)
From Coq Require Import ZArith Bool Reals Lra Lia Ascii String List.
From Verif Require Import Base Num Vec Aabb Tree Geom Ground Shape Rib Str Mesh Shell ER SpecGeom SpecRib SpecShape SpecShell SpecPose SpecAvg SpecFrame SpecRoof SpecHull.
From Verif Require Import SpecTree SpecLoad SpecMesh ProofLoad ProofMesh ProofQuery ProofMeshFacts.
From Verif Require Import ProofGeom ProofInt ProofTri ProofGround ProofFlat ProofShape ProofShapeFacts ProofShell ProofPose ProofMeshGeo ProofMeshEval ProofPolar ProofChord ProofPaved ProofAvg.
From Verif Require Import SamplePose SamplePaved SampleMeshGeo SampleChord.
Import ListNotations.
Local Open Scope R_scope.

(** Coordinates are written in fifths. *)
Definition fifths (s : text) : outcome er := obind (stoi s) (fun z => Ret (Fin (IZR z / 5))).
Definition road_lines : list text := [txt "v 0 -10 -3"; txt "v 15 10 -3"; txt "v -15 10 -3"; txt "f 1 2 3"].
Definition road_files (p : text) : option text := if str_eqb p (txt "w.obj") then Some (file_of road_lines) else None.
Definition fifth_xyz (x y z : Z) : vec3 er := placed aident (Fin (IZR x / 5)) (Fin (IZR y / 5)) (Fin (IZR z / 5)).
Lemma fifth_fv : forall x y z, fifth_xyz x y z = fv (V (IZR x / 5) (IZR y / 5) (IZR z / 5)).
Proof.
  intros. transitivity (fv (padd (papply (lin upright) (V (IZR x / 5) (IZR y / 5) (IZR z / 5))) (tra upright))); [reflexivity|].
  f_equal. unfold upright. apply vec_eq; vunf; cbn; ring.
Qed.
Definition road_faces : list face := [(fifth_xyz 0 (-10) (-3), fifth_xyz 15 10 (-3), fifth_xyz (-15) 10 (-3), Fin 1)].
Lemma road_written : obj_written fifths aident (Fin 1) [] road_lines road_faces.
Proof.
  unfold road_lines, road_faces.
  vtx (txt "0") (txt "-10") (txt "-3"). vtx (txt "15") (txt "10") (txt "-3"). vtx (txt "-15") (txt "10") (txt "-3").
  eapply (ow_face _ _ _ _ 0%nat 0%nat 0%nat 0%nat 0%nat (txt "1") (txt "2") (txt "3") 1%Z 2%Z 3%Z); [dig 1%nat|dig 2%nat|dig 3%nat|lia|lia|lia| | | |].
  1-3: split; [lia|]; do 3 eexists; split; reflexivity.
  apply ow_nil.
Qed.
Lemma road_mesh : exists m, load_succeeds fifths road_files mesh_empty m /\ mesh_size m = 1%nat /\ grounds [(road, 1)] (me_tris m).
Proof.
  destruct (obj_round_trip fifths road_files (txt "w.obj") aident (Fin 1) road_lines road_faces mesh_empty) as (m & L & D).
  - now exists (txt "w").
  - reflexivity.
  - exact road_written.
  - cbn. apply rleb_true. lra.
  - discriminate.
  - cbn. lia.
  - reflexivity.
  - assert (LD : load_succeeds fifths road_files mesh_empty m) by (right; exists (txt "w.obj"), (Fin 1), aident; exact L).
    destruct D as [Z D]. exists m. split; [exact LD|]. split; [exact Z|].
    assert (SL : Forall sealed (me_tris m)) by (apply (load_succeeds_good _ _ _ _ LD); rewrite Z; cbn; lia). rewrite Forall_forall in SL.
    destruct (D 0%nat _ _ _ _ eq_refl) as (g0 & N0 & T0 & F0 & _).
    unfold mesh_size in Z. cbn in Z. destruct (me_tris m) as [|x [|y l]]; try discriminate Z. cbn in N0. injection N0 as ->.
    constructor; [|constructor]; cbn [fst snd]; apply sealed_ground; auto.
    + apply SL. now left.
    + rewrite T0, !fifth_fv. unfold road, plank, ftri. cbn [tv0 tv1 tv2]. f_equal; f_equal; apply vec_eq; cbn [vx vy vz]; field.
Qed.

(** The rib in the middle of the wheel cuts the road as [wide] does. *)
Lemma mid_disk : posed_disk mid_rib stand = big_disk.
Proof.
  unfold posed_disk. rewrite stand_place, stand_apply, mid_center, mid_radius. reflexivity.
Qed.
Lemma mid_good : good_rib mid_rib.
Proof. destruct one_slice as (s & RS & _ & RB). apply (has_rib_axial round_tire s 0 mid_rib RS). unfold has_rib, rib_at. rewrite RB, mid_slices. reflexivity. Qed.
Lemma mid_in : forall p, in_rib mid_rib stand p = p.
Proof.
  intros p. unfold in_rib. rewrite stand_place, mid_center. unfold stand, ptrans. cbn [lin m00 m01 m02 m10 m11 m12 m20 m21 m22].
  apply vec_eq; vunf; cbn [m00 m01 m02 m10 m11 m12 m20 m21 m22]; ring.
Qed.
Lemma mid_circle : forall x z, x * x + z * z = 1 -> on_circle (posed_disk mid_rib stand) (V x 0 z).
Proof. intros x z H. rewrite mid_disk, <- (stand_disk 1). apply on_unit_circle. exact H. Qed.
Lemma mid_road : forall f g, ground_of road f g -> exists o, envelop_geometric (frib mid_rib) [g] (fa stand) = Ret (true, fout o) /\ eps <= o_volume o.
Proof.
  intros f g G. pose proof eps_small as ES. pose proof eps_pos as EP.
  pose proof (mid_circle (-4 / 5) (-3 / 5) ltac:(lra)) as C0. pose proof (mid_circle (4 / 5) (-3 / 5) ltac:(lra)) as C1.
  assert (NE : sv0 road_seg <> sv1 road_seg) by (apply ends_differ; left; lra).
  pose proof mid_good as MG. pose proof stand_rigid as SR. assert (MN : rb_normal mid_rib = V 0 1 0) by reflexivity.
  assert (W : rb_width mid_rib = 1 / 2) by (unfold mid_rib, real_rib, slice_width, round_tire; cbn; lra).
  pose proof (chord_angles mid_rib stand MG MN SR road_seg C0 C1 NE) as HA.
  pose proof (chord_dist mid_rib stand MG MN SR road_seg C0 C1 NE) as CD. rewrite road_dist, mid_radius in CD.
  pose proof (chord_volume mid_rib stand MG MN SR road_seg C0 C1) as CV. rewrite W, mid_radius in CV.
  set (h := half_ang mid_rib stand road_seg) in *. pose proof (sin_lt_x h (proj1 HA)) as SX. pose proof (SIN_bound (2 * h)) as SB.
  assert (VB : eps <= c_volume mid_rib stand road_seg) by (rewrite CV; lra).
  eexists. split; [apply (geo_single mid_rib stand g road f road_seg G)|].
  - destruct (ground_of_fields _ _ _ G) as (-> & _). rewrite f_disk, mid_disk. exact road_cut.
  - apply chord_kept; auto. rewrite road_dist. lra.
  - lra.
  - right. rewrite CV. lra.
  - cbn [o_volume]. exact VB.
Qed.

Lemma mid_all : forall c, (forall x, In x c -> ground_of road 1 x) ->
  Forall2 (gives mid_rib stand) c (map (fun _ => [contribution mid_rib stand (up_normal road) 1 road_seg]) c).
Proof.
  pose proof eps_small as ES. induction c as [|g c IH]; intros H; cbn [map]; constructor; [|apply IH; intros; apply H; now right].
  assert (G : ground_of road 1 g) by (apply H; now left). right. exists road, 1, road_seg. split; [exact G|]. split.
  - destruct (ground_of_fields _ _ _ G) as (-> & _). rewrite f_disk, mid_disk. exact road_cut.
  - split; [|reflexivity]. apply chord_kept; auto. rewrite road_dist. lra.
Qed.
Lemma road_wheel : exists m s, grounds [(road, 1)] (me_tris m) /\ real_shell round_tire s /\ rigid stand /\ below_hub stand (V 0 0 0) [(road, 1)] /\
  forall gb, exists s' b v, setup_mesh gb s m (fa stand) "geometric" = Ok s' b /\
    (forall i, (i < sh_size s')%nat -> contact_friction_i s' i <> Ret Nan) /\ contact_volume s' = Ret (Fin v) /\ eps <= v.
Proof.
  pose proof eps_small as ES. destruct road_mesh as (m & LD & SZ & GR). destruct one_slice as (s & RS & S1 & RB).
  assert (HR : has_rib s 0 mid_rib) by (unfold has_rib, rib_at; rewrite RB, mid_slices; reflexivity).
  exists m, s. split; [exact GR|]. split; [exact RS|]. split; [apply stand_rigid|]. split.
  { exists (-3 / 5), (-3 / 5). split.
    - intros t f [H|[]]. injection H as <- <-. unfold between, road, plank, pdot, pcol2, stand. cbn. lra.
    - rewrite stand_place. unfold pdot, pcol2, stand. cbn. lra. }
  intros gb. set (B := sh_bbox (update_bbox (transform s (fa stand)))).
  assert (SZ2 : (Z.of_nat (mesh_size m) <= 2 ^ 31)%Z) by (rewrite SZ; cbn; lia).
  destruct (loaded_query_exact fifths road_files mesh_empty m B LD SZ2) as (local & Q & EX & _).
  { rewrite Forall_forall. intros g I. destruct (grounds_in _ _ _ GR I) as (t & f' & _ & K). apply ground_of_fields in K as (T & _). eapply real_tri_num. exact T. }
  { eapply shell_box_proper. exact RS. }
  assert (SL : Forall sealed (me_tris m)) by (apply (load_succeeds_good _ _ _ _ LD SZ2)). rewrite Forall_forall in SL.
  unfold mesh_size in SZ. destruct (me_tris m) as [|g [|g' l]] eqn:MT; try discriminate SZ.
  assert (G : ground_of road 1 g) by (inversion GR; assumption).
  assert (OV : overlap (tg_bbox g) B).
  { exists (fv (V 0 0 (-3 / 5))). split.
    - apply (sealed_in_bbox g road); [apply SL; now left|apply ground_of_fields in G; apply G|].
      exists (1 / 2), (1 / 4), (1 / 4). repeat split; try lra. unfold bary, road, plank. cbn [tv0 tv1 tv2]. apply vec_eq; vunf; field.
    - apply (real_box round_tire); auto. unfold stand, round_tire. cbn [tra sRx]. vunf. lra. }
  assert (LC : local = [g]).
  { destruct EX as (k & HK & HP). cbn [filter] in HP. rewrite (proj2 (HK g (or_introl eq_refl)) OV) in HP.
    apply Permutation.Permutation_sym, Permutation.Permutation_length_1_inv in HP. exact HP. }
  subst local. destruct (mid_road 1 g G) as (o & EO & VO).
  destruct (setup_mesh_returns gb s m (fa stand) "geometric" [g]) as (s' & b & E); [apply RS|lia|exact Q| |].
  { intros j r c NJ SUB. rewrite RB, mid_slices in NJ. destruct j; [|destruct j; discriminate]. cbn in NJ. assert (r = frib mid_rib) by congruence. subst r.
    pose proof (loop_clean mid_rib stand c (map (fun _ => [contribution mid_rib stand (up_normal road) 1 road_seg]) c)
      ltac:(apply mid_all; intros x I; destruct (SUB x I) as [<-|[]]; exact G) false []) as LC.
    destruct (gb 0%nat) as [[[g0 g1] g2] g3]. cbn [envelop String.eqb Ascii.eqb Bool.eqb]. unfold envelop_geometric.
    rewrite sums0, LC. cbn [obind]. cbv zeta. destruct (_ && _)%bool; eexists; reflexivity. }
  assert (Q' : mesh_intersection m (sh_bbox s') = Ret [g]) by (rewrite (setup_bbox gb s (fa stand) "geometric" s' b) by eauto; exact Q).
  destruct (candidates_exact round_tire s gb m stand "geometric" s' b [g] 0%nat mid_rib RS stand_rigid E Q') as (c & NC & _ & CL); [discriminate| |exact HR|].
  { constructor; [|constructor]. exists road. apply ground_of_fields in G. apply G. }
  rewrite CL in NC by (intros [_ X]; cbn in X; lia).
  destruct (setup_mesh_reports _ _ _ _ _ _ _ E) as (RB' & _ & lc & QL & D). rewrite Q' in QL. injection QL as <-.
  assert (S2 : sh_size s' = 1%nat) by (unfold sh_size in *; now rewrite RB').
  destruct D as [(X & _)|(_ & flags & FL & FR & _)]; [discriminate|].
  destruct (nth_error flags 0) as [fl|] eqn:EF; [|apply nth_error_None in EF; lia].
  destruct (FR 0%nat fl EF) as (x & cs & N1 & NC' & x' & o' & N2 & F & OA).
  rewrite NC in NC'. injection NC' as <-. rewrite RB', RB, mid_slices in N2. cbn [map nth_error] in N2. injection N2 as <-.
  assert (OO : o' = fout o) by (destruct (gb 0%nat) as [[[g0 g1] g2] g3]; cbn [envelop String.eqb Ascii.eqb Bool.eqb] in F; rewrite EO in F; congruence).
  subst o'. exists s', b, (o_volume o). split; [exact E|]. split; [|split; [|exact VO]].
  - intros i Hi. assert (i = 0%nat) by lia. subst i. unfold contact_friction_i. rewrite OA. cbn. discriminate.
  - unfold contact_volume, outs. rewrite S2. cbn [seq omap]. rewrite OA. cbn [obind]. unfold sum_by. cbn [fold_left].
    change (Ret (Fin (0 + o_volume o)) = Ret (Fin (o_volume o))). now rewrite Rplus_0_l.
Qed.
