(** * A concrete wheel and a concrete loaded mesh over exact arithmetic. *)
From Coq Require Import ZArith Bool Reals Lra Lia Ascii String List.
From Verif Require Import Base Num Vec Aabb Tree Geom Ground Shape Rib Str Mesh Shell ER SpecGeom SpecRib SpecShape SpecShell SpecPose.
From Verif Require Import SpecTree SpecLoad SpecMesh ProofLoad ProofMesh ProofQuery ProofMeshFacts.
From Verif Require Import ProofGeom ProofInt ProofTri ProofGround ProofFlat ProofShape ProofShapeFacts ProofShell ProofPose.
Import ListNotations.
Local Open Scope R_scope.

Definition upright : affine R := Aff (M3 1 0 0 0 1 0 0 0 1) (V 0 0 0).
Lemma upright_rigid : rigid upright.
Proof. apply ident_rigid. Qed.

(** A wheel with one rib, in the plane y = 0. *)
Definition round_tire : shape R := Shape 1 2 (1 / 2) 2 (1 / 4).
Lemma round_good : good_shape round_tire.
Proof. unfold good_shape, round_tire. cbn. lra. Qed.
Lemma one_slice : exists s, real_shell round_tire s /\ sh_size s = 1%nat /\
  sh_ribs s = map frib (slices round_tire 1).
Proof.
  destruct (mk_shell_eval round_tire round_good 1 ltac:(lia)) as (s & E & R & S). exists s.
  split; [|split; [unfold sh_size; rewrite R; reflexivity|exact R]].
  split; [exact (r_new _ _ _ _ _ _ _ E)|]. split; [exact S|exact round_good].
Qed.
Definition mid_rib : rib R := real_rib round_tire (slice_width (sLy round_tire) 1) 0 (slice_center (sLy round_tire) 1 0).
Lemma mid_slices : slices round_tire 1 = [mid_rib].
Proof. reflexivity. Qed.
Lemma mid_center : rb_center mid_rib = V 0 0 0.
Proof. unfold mid_rib, real_rib, rb_center, dcenter, slice_center, slice_width, round_tire. cbn. apply vec_eq; cbn; field. Qed.
Lemma mid_radius : rb_radius mid_rib = 1.
Proof.
  unfold mid_rib, real_rib, rb_radius. cbn [rb_disk dradius]. unfold radius_at.
  replace (slice_center (sLy round_tire) 1 0) with 0 by (unfold slice_center, slice_width, round_tire; cbn; field).
  unfold round_tire. cbn [sRx sMx sRy sMy]. rewrite Rabs_R0. unfold Rdiv. rewrite Rmult_0_l, hpow_0, Rminus_0_r, hpow_1. ring.
Qed.

(** A file with one triangle in the plane y = 0 and three at y = 1. *)
Definition eread (s : text) : outcome er := obind (stoi s) (fun z => Ret (Fin (IZR z))).
Definition wall_lines : list text :=
  [txt "v 0 0 0"; txt "v 1 0 0"; txt "v 0 0 1"; txt "f 1 2 3";
   txt "v 0 1 0"; txt "v 1 1 0"; txt "v 0 1 1"; txt "f 4 5 6"; txt "f 5 6 4"; txt "f 6 4 5"].
Definition wall_files (p : text) : option text :=
  if str_eqb p (txt "w.obj") then Some (file_of wall_lines) else None.
Definition at_xyz (x y z : Z) : vec3 er := placed aident (Fin (IZR x)) (Fin (IZR y)) (Fin (IZR z)).
Lemma at_xyz_fv : forall x y z, at_xyz x y z = fv (V (IZR x) (IZR y) (IZR z)).
Proof.
  intros. transitivity (fv (padd (papply (lin upright) (V (IZR x) (IZR y) (IZR z))) (tra upright))); [reflexivity|].
  f_equal. unfold upright. apply vec_eq; vunf; cbn; ring.
Qed.
Definition wall_faces : list face :=
  [(at_xyz 0 0 0, at_xyz 1 0 0, at_xyz 0 0 1, Fin 1);
   (at_xyz 0 1 0, at_xyz 1 1 0, at_xyz 0 1 1, Fin 1);
   (at_xyz 1 1 0, at_xyz 0 1 1, at_xyz 0 1 0, Fin 1);
   (at_xyz 0 1 1, at_xyz 0 1 0, at_xyz 1 1 0, Fin 1)].
Ltac dig n := exact (num_one n ltac:(lia)).
Ltac wd := split; [discriminate|reflexivity].
Ltac vtx a b c := eapply (ow_vertex _ _ _ _ 0%nat 0%nat 0%nat 0%nat 0%nat a b c); [wd|wd|wd|reflexivity|reflexivity|reflexivity|].
Lemma wall_written : obj_written eread aident (Fin 1) [] wall_lines wall_faces.
Proof.
  unfold wall_lines, wall_faces.
  vtx (txt "0") (txt "0") (txt "0"). vtx (txt "1") (txt "0") (txt "0"). vtx (txt "0") (txt "0") (txt "1").
  eapply (ow_face _ _ _ _ 0%nat 0%nat 0%nat 0%nat 0%nat (txt "1") (txt "2") (txt "3") 1%Z 2%Z 3%Z); [dig 1%nat|dig 2%nat|dig 3%nat|lia|lia|lia| | | |].
  1-3: split; [lia|]; do 3 eexists; split; reflexivity.
  vtx (txt "0") (txt "1") (txt "0"). vtx (txt "1") (txt "1") (txt "0"). vtx (txt "0") (txt "1") (txt "1").
  eapply (ow_face _ _ _ _ 0%nat 0%nat 0%nat 0%nat 0%nat (txt "4") (txt "5") (txt "6") 4%Z 5%Z 6%Z); [dig 4%nat|dig 5%nat|dig 6%nat|lia|lia|lia| | | |].
  1-3: split; [lia|]; do 3 eexists; split; reflexivity.
  eapply (ow_face _ _ _ _ 0%nat 0%nat 0%nat 0%nat 0%nat (txt "5") (txt "6") (txt "4") 5%Z 6%Z 4%Z); [dig 5%nat|dig 6%nat|dig 4%nat|lia|lia|lia| | | |].
  1-3: split; [lia|]; do 3 eexists; split; reflexivity.
  eapply (ow_face _ _ _ _ 0%nat 0%nat 0%nat 0%nat 0%nat (txt "6") (txt "4") (txt "5") 6%Z 4%Z 5%Z); [dig 6%nat|dig 4%nat|dig 5%nat|lia|lia|lia| | | |].
  1-3: split; [lia|]; do 3 eexists; split; reflexivity.
  apply ow_nil.
Qed.
Definition wall_tris : list (triangle R) :=
  [Triangle (V 0 0 0) (V 1 0 0) (V 0 0 1); Triangle (V 0 1 0) (V 1 1 0) (V 0 1 1);
   Triangle (V 1 1 0) (V 0 1 1) (V 0 1 0); Triangle (V 0 1 1) (V 0 1 0) (V 1 1 0)].
Lemma wall_mesh : exists m, load_succeeds eread wall_files mesh_empty m /\ mesh_size m = 4%nat /\
  forall i t, nth_error wall_tris i = Some t -> exists g, nth_error (me_tris m) i = Some g /\ real_triangle g t.
Proof.
  destruct (obj_round_trip eread wall_files (txt "w.obj") aident (Fin 1) wall_lines wall_faces mesh_empty) as (m & L & D).
  - now exists (txt "w").
  - reflexivity.
  - exact wall_written.
  - cbn. apply rleb_true. lra.
  - discriminate.
  - cbn. lia.
  - reflexivity.
  - exists m. split; [right; exists (txt "w.obj"), (Fin 1), aident; exact L|]. destruct D as [Z D]. split; [exact Z|].
    intros i t H. unfold real_triangle.
    assert (D' : forall j p q r f t', nth_error wall_faces j = Some (p, q, r, f) -> ftri t' = Triangle p q r ->
      exists g, nth_error (me_tris m) j = Some g /\ tg_tri g = ftri t').
    { intros j p q r f t' N E. destruct (D j p q r f N) as (g & NG & T & _). exists g. split; auto. now rewrite T. }
    destruct i as [|[|[|[|i]]]]; cbn in H; try (injection H as <-; eapply D'; [reflexivity|]; rewrite !at_xyz_fv; reflexivity).
    destruct i; discriminate.
Qed.
Lemma wall_all : forall m g, mesh_size m = 4%nat ->
  (forall i t, nth_error wall_tris i = Some t -> exists g, nth_error (me_tris m) i = Some g /\ real_triangle g t) ->
  In g (me_tris m) -> exists t, In t wall_tris /\ real_triangle g t.
Proof.
  intros m g S H I. apply In_nth_error in I. destruct I as [i I].
  assert (L : (i < 4)%nat). { rewrite <- S. apply nth_error_Some. unfold mesh_size. congruence. }
  destruct (nth_error wall_tris i) as [t|] eqn:E.
  - destruct (H i t E) as (g' & G & R). rewrite I in G. injection G as <-. exists t. split; auto. eapply nth_error_In; eauto.
  - apply nth_error_None in E. cbn in E. lia.
Qed.
(** No triangle of this mesh is cut by the rib plane: they are parallel. *)
Lemma wall_flat : forall t, In t wall_tris -> forall d tol, pnormal (dplane d) = V 0 1 0 -> 0 < tol ->
  int_triangle_disk (ftri t) (fdisk d) (Fin tol) = Ret None.
Proof.
  intros t I d tol N T. unfold int_triangle_disk, int_plane_triangle.
  replace (int_plane_plane (dplane (fdisk d)) (tri_plane (ftri t)) (Fin tol)) with (@None (line er)); [reflexivity|].
  symmetry. rewrite f_tri_plane. change (dplane (fdisk d)) with (fplane (dplane d)). apply plane_plane_none; auto.
  - rewrite N. vunf. ring.
  - unfold rtri_plane. cbn [pnormal]. apply punit_is_unit. destruct I as [<-|[<-|[<-|[<-|[]]]]]; unfold tri_cross; vunf; lra.
  - rewrite N. unfold rtri_plane. cbn [pnormal].
    replace (pcross (V 0 1 0) (punit (tri_cross t))) with (V 0 0 0 : pt); [vunf; lra|].
    rewrite punit_pos by (destruct I as [<-|[<-|[<-|[<-|[]]]]]; unfold tri_cross; vunf; lra).
    set (k := / pnorm _). clearbody k. destruct I as [<-|[<-|[<-|[<-|[]]]]]; unfold tri_cross; apply vec_eq; vunf; ring.
Qed.
Lemma geo_loop_none : forall {K} {NK : Num K} (r : rib K) pose l acc,
  (forall g, In g l -> int_triangle_disk (tg_tri g) (disk_grd r pose) neps = Ret None) -> geo_loop r pose l acc = Ret acc.
Proof.
  intros K NK r pose l acc. induction l as [|g l IH]; intros H; cbn [geo_loop]; [reflexivity|].
  rewrite H by now left. cbn [obind]. apply IH. intros. apply H. now right.
Qed.
Lemma setup_mesh_returns : forall {K} {NK : Num K} gb (s : shell K) m pose meth local, reach s -> (sh_size s <= 200)%nat ->
  mesh_intersection m (sh_bbox (update_bbox (transform s pose))) = Ret local ->
  (forall j r c, nth_error (sh_ribs s) j = Some r -> (forall g, In g c -> In g local) -> exists x, envelop (gb j) r c pose meth = Ret x) ->
  exists s' b, setup_mesh gb s m pose meth = Ok s' b.
Proof.
  intros K NK gb s m pose meth local RC SZ Q H. apply reach_inv in RC. destruct RC as (_ & HC & _).
  rewrite setup_mesh_eq. unfold posed. rewrite Q. destruct local as [|t ts].
  - destruct (run_total (none_call pose) (fun _ acc => acc) (sh_ribs s) 0 (sh_cells s) false) as [R1 _].
    { intros. unfold none_call. eauto. }
    destruct R1 as (c & b & E); [rewrite HC; exact SZ|]. rewrite E. cbn [with_cells]. eauto.
  - cbn zeta. edestruct (run_total (mesh_call gb (mesh_cands (update_bbox (transform s pose)) (t :: ts) meth) pose meth)
      (fun b acc => b || acc)%bool (sh_ribs s) 0 (sh_cells s) false) as [R1 _].
    { intros j r NJ. unfold mesh_call, mesh_cands. cbn [Nat.add].
      rewrite (refine_nth (update_bbox (transform s pose)) _ _ j r NJ). apply (H j r); auto.
      intros g Hg. apply filter_In in Hg. tauto. }
    destruct R1 as (c & b & E); [rewrite HC; exact SZ|]. rewrite E. cbn [with_cells]. eauto.
Qed.
Lemma wall_setup : exists m s, load_succeeds eread wall_files mesh_empty m /\ mesh_size m = 4%nat /\
  real_shell round_tire s /\ has_rib s 0 mid_rib /\
  (forall i t, nth_error wall_tris i = Some t -> exists g, nth_error (me_tris m) i = Some g /\ real_triangle g t) /\
  forall gb, exists s' b local, setup_mesh gb s m (fa upright) "geometric" = Ok s' b /\
    mesh_intersection m (sh_bbox s') = Ret local /\ List.length local = 4%nat /\
    Forall (fun g => exists t, real_triangle g t) local.
Proof.
  destruct wall_mesh as (m & LD & SZ & TR). destruct one_slice as (s & RS & S1 & RB).
  assert (HR : has_rib s 0 mid_rib) by (unfold has_rib, rib_at; rewrite RB, mid_slices; reflexivity).
  exists m, s. split; [auto|]. split; [auto|]. split; [auto|]. split; [auto|]. split; [auto|]. intros gb.
  set (B := sh_bbox (update_bbox (transform s (fa upright)))).
  assert (SZ2 : (Z.of_nat (mesh_size m) <= 2 ^ 31)%Z) by (rewrite SZ; cbn; lia).
  destruct (loaded_query_exact eread wall_files mesh_empty m B LD SZ2) as (local & Q & EX & _).
  { rewrite Forall_forall. intros g I. destruct (wall_all m g SZ TR I) as (t & _ & R). eapply real_tri_num. exact R. }
  { eapply shell_box_proper. exact RS. }
  assert (SL : Forall sealed (me_tris m)) by (apply (load_succeeds_good _ _ _ _ LD SZ2)). rewrite Forall_forall in SL.
  assert (AL : forall g, In g (me_tris m) -> overlap (tg_bbox g) B).
  { intros g I. destruct (wall_all m g SZ TR I) as (t & IT & RT).
    assert (X : exists q, In q [V 0 0 0; V 0 1 0] /\ in_triangle t q).
    { destruct IT as [<-|[<-|[<-|[<-|[]]]]].
      - exists (V 0 0 0). split; [now left|]. exists 1, 0, 0. repeat split; try lra. apply vec_eq; vunf; ring.
      - exists (V 0 1 0). split; [right; now left|]. exists 1, 0, 0. repeat split; try lra. apply vec_eq; vunf; ring.
      - exists (V 0 1 0). split; [right; now left|]. exists 0, 0, 1. repeat split; try lra. apply vec_eq; vunf; ring.
      - exists (V 0 1 0). split; [right; now left|]. exists 0, 1, 0. repeat split; try lra. apply vec_eq; vunf; ring. }
    destruct X as (q & IQ & TQ). exists (fv q). split; [apply (sealed_in_bbox g t); auto|].
    apply (real_box round_tire); auto. unfold upright, round_tire. cbn [tra sRx].
    destruct IQ as [<-|[<-|[]]]; vunf; lra. }
  assert (LN : List.length local = 4%nat).
  { destruct EX as (k & HK & HP). rewrite (Permutation.Permutation_length HP).
    replace (filter k (me_tris m)) with (me_tris m); [exact SZ|]. symmetry.
    assert (G : forall l, (forall x, In x l -> k x = true) -> filter k l = l).
    { induction l as [|x l IH]; cbn; intros H; [reflexivity|]. rewrite H by now left. f_equal. apply IH. intros. apply H. now right. }
    apply G. intros x I. apply HK; auto. }
  destruct (setup_mesh_returns gb s m (fa upright) "geometric" local) as (s' & b & E); [apply RS|lia|exact Q| |].
  { intros j r c NJ SUB. destruct (gb j) as [[[g0 g1] g2] g3]. cbn [envelop String.eqb Ascii.eqb Bool.eqb].
    unfold envelop_geometric. rewrite geo_loop_none; [eexists; reflexivity|].
    rewrite RB, mid_slices in NJ. destruct j; [|destruct j; discriminate]. cbn in NJ. assert (r = frib mid_rib) by congruence. subst r.
    intros g Hg. apply SUB in Hg. apply (exactly_sub _ _ _ _ _ EX) in Hg. destruct (wall_all m g SZ TR Hg) as (t & IT & RT).
    rewrite RT, f_disk, neps_eps. apply wall_flat; auto; [|apply eps_pos].
    unfold posed_disk. cbn [dplane pnormal]. change (rb_normal mid_rib) with (V 0 1 0 : pt). unfold upright. apply vec_eq; vunf; cbn; ring. }
  exists s', b, local. split; [exact E|]. split.
  - rewrite (setup_bbox gb s (fa upright) "geometric" s' b); eauto.
  - split; [exact LN|]. rewrite Forall_forall. intros g Hg. apply (exactly_sub _ _ _ _ _ EX) in Hg.
    destruct (wall_all m g SZ TR Hg) as (t & _ & RT). eauto.
Qed.
