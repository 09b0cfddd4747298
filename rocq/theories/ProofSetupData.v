(** * Rib data after a geometric setup on flat ground. *)
From Coq Require Import ZArith Bool Reals Lra Lia String List.
From Verif Require Import Base Num Vec Aabb Geom Ground Shape Rib Str Mesh Shell ER SpecGeom SpecRib SpecShape SpecShell SpecPose SpecAvg.
From Verif Require Import ProofGeom ProofInt ProofSegArea ProofFlat ProofShape ProofShell ProofShellFacts ProofPose ProofAvg.
Import ListNotations.
Local Open Scope R_scope.

Definition none_out (r : rib R) (a : affine R) : output R :=
  Output (place a (psub (rb_center r) (pscale (rb_radius r) (V 0 0 1)))) (papply (lin a) (V 0 0 1)) 0 0 0 0.
Lemma f_none : forall r a, envelop_none (frib r) (fa a) = (false, fout (none_out r a)).
Proof.
  reflexivity.
Qed.
Definition sound_output (f : R) (gn : pt) (up : pt) (o : output R) : Prop :=
  0 <= o_volume o /\ 0 <= o_area o /\ is_unit (o_normal o) /\
  ((o_friction o = f /\ o_normal o = gn /\ 0 < o_depth o) \/
   (o_friction o = 0 /\ o_volume o = 0 /\ o_area o = 0 /\ o_depth o = 0 /\ o_normal o = up)).
Lemma flat_real : forall r a gp f, good_rib r -> rigid a -> is_unit (pnormal gp) ->
  exists b o, envelop_geometric_flat (frib r) (fflat gp f) (fa a) = (b, fout o) /\
    sound_output f (pnormal gp) (papply (lin a) (V 0 0 1)) o.
Proof.
  intros r a gp f HR HA HG. pose proof (flat_eval r a gp f HR HA HG) as E. cbv zeta in E.
  destruct (envelop_geometric_flat (frib r) (fflat gp f) (fa a)) as [[|] o] eqn:EQ.
  - destruct (flat_contact r a gp f HR HA HG o EQ) as (p & P1 & _ & _ & _ & P2 & P3 & P4 & P5 & P6).
    match type of E with _ = if ?c then _ else _ => destruct c end; [unfold envelop_none in E; discriminate|].
    assert (EF : o_friction o = Fin f) by (apply (f_equal (fun x => o_friction (snd x))) in E; exact E).
    clear E EQ. set (d := rb_radius r - dist p (place a (rb_center r))) in *. clearbody d.
    exists true, (Output p (pnormal gp) f d (chord (rb_radius r) d * rb_width r) (rvol (rb_radius r) (rb_width r) d)).
    destruct o as [o1 o2 o3 o4 o5 o6]. cbn [o_point o_normal o_friction o_depth o_area o_volume] in *. subst.
    split; [reflexivity|]. unfold sound_output. cbn [o_normal o_friction o_depth o_area o_volume].
    destruct HR as (R1 & R2 & R3). split; [apply rvol_bounds; auto; lra|].
    split; [apply Rmult_le_pos; auto; apply chord_nonneg|]. split; [exact HG|]. left. split; auto. split; auto. lra.
  -
    match type of E with _ = if ?c then _ else _ => destruct c end; [|discriminate].
    rewrite f_none in E. injection E as ->. exists false, (none_out r a). split; [reflexivity|].
    unfold sound_output, none_out. cbn [o_normal o_friction o_depth o_area o_volume].
    split; [lra|]. split; [lra|]. split; [|right; auto].
    unfold is_unit. rewrite rotation_isometry by exact HA. vunf. ring.
Qed.

Lemma list_choice : forall A (P : nat -> A -> Prop) n, (forall i, (i < n)%nat -> exists x, P i x) ->
  exists l, List.length l = n /\ forall i x, nth_error l i = Some x -> P i x.
Proof.
  induction n as [|n IH]; intros H.
  - exists []. split; auto. intros [|i] x E; discriminate.
  - destruct IH as (l & L & HP); [intros; apply H; lia|]. destruct (H n ltac:(lia)) as [x Hx].
    exists (l ++ [x]). split; [rewrite app_length; cbn; lia|]. intros i y E.
    destruct (Nat.lt_ge_cases i n) as [Q|Q].
    + rewrite nth_error_app1 in E by lia. now apply HP.
    + rewrite nth_error_app2 in E by lia. replace (i - List.length l)%nat with (i - n)%nat in E by lia.
      destruct (i - n)%nat as [|k] eqn:K; cbn in E; [|destruct k; discriminate].
      injection E as <-. now replace i with n by lia.
Qed.

Lemma flat_setup_data : forall gb sp s gp f a s' b, real_shell sp s -> rigid a -> is_unit (pnormal gp) ->
  setup_flat gb s (fflat gp f) (fa a) "geometric" = Ok s' b ->
  exists os, rib_data s' os /\ (0 < sh_size s')%nat /\
    forall o, In o os -> sound_output f (pnormal gp) (papply (lin a) (V 0 0 1)) o.
Proof.
  intros gb sp s gp f a s' b HS HA HG H.
  pose proof (osize_zero _ (r_flat_ok _ _ _ _ _ _ _ (proj1 HS) H)) as [_ HN].
  destruct (setup_flat_reports _ _ _ _ _ _ _ H) as (RB & _ & flags & LF & HR & _).
  assert (W : forall i, (i < sh_size s')%nat -> exists o, out_at s' i = Ret (fout o) /\
                sound_output f (pnormal gp) (papply (lin a) (V 0 0 1)) o).
  { intros i Hi. destruct (nth_error flags i) as [c|] eqn:E; [|apply nth_error_None in E; lia].
    destruct (HR i c E) as (x & o & NX & EF & EO).
    destruct HS as (RC & ES & GS). destruct (reach_slices s RC sp ES GS) as (n & _ & RN).
    rewrite RB, RN in NX. rewrite nth_error_map in NX.
    destruct (nth_error (slices sp n) i) as [r|] eqn:NR; [|discriminate]. cbn in NX. injection NX as <-.
    assert (GR : good_rib r).
    { apply (has_rib_axial sp s i r); [split; auto|]. unfold has_rib, rib_at. rewrite RN, nth_error_map, NR. reflexivity. }
    destruct (flat_real r a gp f GR HA HG) as (b' & o' & E1 & E2).
    exists o'. split; auto. rewrite EO. unfold envelop_flat in EF. cbn in EF. 
    destruct (gb i) as [[[g0 g1] g2] g3]. change (String.eqb "geometric" "geometric") with true in EF. cbn in EF.
    rewrite E1 in EF. congruence. }
  destruct (list_choice _ _ _ W) as (os & L & HO). exists os. split; [|split; [exact HN|]].
  - split; [exact L|]. intros i o E. destruct (HO i o E) as [EO _].
    unfold contact_point_i, contact_normal_i, contact_friction_i, contact_depth_i, contact_area_i, contact_volume_i.
    rewrite EO. repeat split; reflexivity.
  - intros o Ho. apply In_nth_error in Ho. destruct Ho as [i Hi]. now apply (HO i o).
Qed.
Lemma setup_flat_returns : forall gb (s : shell er) g pose, reach s -> (sh_size s <= 200)%nat ->
  exists s' b, setup_flat gb s g pose "geometric" = Ok s' b.
Proof.
  intros gb s g pose RC SZ. apply reach_inv in RC. destruct RC as (_ & HC & _).
  unfold setup_flat. cbn zeta. change (sh_ribs (update_bbox (transform s pose))) with (sh_ribs s). change (sh_cells (update_bbox (transform s pose))) with (sh_cells s).
  edestruct (run_total (fun i r => envelop_flat (gb i) r g pose "geometric") (fun b _ => b) (sh_ribs s) 0 (sh_cells s) false) as [R1 _].
  { intros j r NJ. destruct (gb (0 + j)%nat) as [[[g0 g1] g2] g3]. eexists. reflexivity. }
  destruct R1 as (c & b & E); [rewrite HC; exact SZ|]. rewrite E. cbn [with_cells]. eauto.
Qed.
Lemma setup_flat_pose : forall {K} {NK : Num K} gb (s : shell K) g pose meth s' b,
  setup_flat gb s g pose meth = Ok s' b -> sh_affine s' = pose.
Proof.
  intros K NK gb s g pose meth s' b H. unfold setup_flat, with_cells in H.
  destruct (run_ribs _ _ _ _ _ _); try discriminate. injection H as <-. reflexivity.
Qed.

(** The contact frame of a shell with real data. *)
Lemma sh_y_real : forall s a, sh_affine s = fa a -> sh_y s = fv (pcol1 (lin a)).
Proof. intros s a E. unfold sh_y. rewrite E. reflexivity. Qed.
Lemma affine_i_frame : forall s a i p n, sh_affine s = fa a -> contact_point_i s i = Ret (fv p) -> contact_normal_i s i = Ret (fv n) ->
  is_unit n -> pcross (pcol1 (lin a)) n <> V 0 0 0 ->
  exists A, contact_affine_i s i = Ret (fa A) /\ frame_of (pcol1 (lin a)) p n A.
Proof.
  intros s a i p n EA EP EN U C. unfold contact_affine_i. unfold contact_point_i in EP. unfold contact_normal_i in EN.
  destruct (out_at s i) as [o| |]; cbn [obind] in *; try discriminate.
  injection EP as EP. injection EN as EN. rewrite EP, EN, (sh_y_real s a EA).
  destruct (frame_rotation (pcol1 (lin a)) p n U C) as (A & -> & H1 & H2 & H3 & H4 & H5 & H6).
  exists A. split; [reflexivity|]. repeat split; auto; apply H1.
Qed.
Lemma affine_frame : forall s a p n, sh_affine s = fa a -> contact_point s = Ret (fv p) -> contact_normal s = Ret (fv n) ->
  is_unit n -> pcross (pcol1 (lin a)) n <> V 0 0 0 ->
  exists A, contact_affine s = Ret (fa A) /\ frame_of (pcol1 (lin a)) p n A.
Proof.
  intros s a p n EA EP EN U C. unfold contact_affine. rewrite EP, EN. cbn [obind]. rewrite (sh_y_real s a EA).
  destruct (frame_rotation (pcol1 (lin a)) p n U C) as (A & -> & H1 & H2 & H3 & H4 & H5 & H6).
  exists A. split; [reflexivity|]. repeat split; auto; apply H1.
Qed.
