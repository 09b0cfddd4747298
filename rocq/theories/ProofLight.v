(** * A wheel on flat ground as a whole, both methods (for C126). *)
From Coq Require Import ZArith Bool Reals Lra Lia String List.
From Verif Require Import Base Num Vec Aabb Geom Ground Shape Rib Str Mesh Shell ER SpecGeom SpecRib SpecShape SpecShell SpecPose SpecAvg SpecLight.
From Verif Require Import ProofGeom ProofInt ProofSegArea ProofFlat ProofSample ProofShape ProofShell ProofShellFacts ProofPose ProofAvg ProofSetupData.
Import ListNotations.
Local Open Scope R_scope.

(** What a rib reports on flat ground: the ground, or nothing. *)
Definition ground_output (gp : plane R) (f : R) (m : string) (up : pt) (o : output R) : Prop :=
  (0 <= o_volume o /\ o_friction o = f /\ on_plane gp (o_point o) /\ 0 < o_depth o /\
   (o_normal o = pnormal gp \/
    m = "sampling"%string /\ o_normal o = pscale (-1) (pnormal gp) /\ vz (pnormal gp) * vz up < 0) /\
   (m = "sampling"%string -> 0 < vz (o_normal o) * vz up)) \/
  (o_volume o = 0 /\ o_friction o = 0 /\ o_depth o = 0).

Lemma flat_output : forall gb r a gp f m b o, good_rib r -> rigid a -> is_unit (pnormal gp) ->
  valid_method m -> envelop_flat gb (frib r) (fflat gp f) (fa a) m = Ret (b, o) ->
  exists o', o = fout o' /\ ground_output gp f m (papply (lin a) (V 0 0 1)) o'.
Proof.
  intros gb r a gp f m b o HR HA HG HM H. destruct b.
  2: { apply envelop_flat_no_contact in H. exists (none_out r a). split; [|right; repeat split; reflexivity].
       destruct H as (H1 & H2 & H3 & H4 & H5 & H6). destruct o as [o1 o2 o3 o4 o5 o6].
       cbn [o_point o_normal o_friction o_depth o_area o_volume] in *. subst. reflexivity. }
  destruct HM as [->| ->].
  - apply flat_geo_ret in H.
    assert (EF : o_friction o = Fin f).
    { pose proof (flat_eval r a gp f HR HA HG) as E. cbv zeta in E. rewrite H in E.
      match type of E with _ = if ?c then _ else _ => destruct c end; [unfold envelop_none in E; discriminate|].
      apply (f_equal (fun x => o_friction (snd x))) in E. exact E. }
    destruct (flat_contact r a gp f HR HA HG o H) as (p & P1 & P2 & _ & _ & P3 & P4 & P5 & P6 & P7).
    set (d := rb_radius r - dist p (place a (rb_center r))) in *. clearbody d.
    exists (Output p (pnormal gp) f d (chord (rb_radius r) d * rb_width r) (rvol (rb_radius r) (rb_width r) d)).
    split.
    + destruct o as [o1 o2 o3 o4 o5 o6]. cbn [o_point o_normal o_friction o_depth o_area o_volume] in *. subst. reflexivity.
    + left. cbn [o_point o_normal o_friction o_depth o_area o_volume]. destruct HR as (R1 & R2 & R3).
      split; [apply rvol_bounds; auto; lra|]. split; [reflexivity|]. split; [exact P2|]. split; [lra|]. split; [left; reflexivity|discriminate].
  - pose proof (flat_sampling_friction gb r a gp f o HR HA HG H) as EF.
    destruct (flat_sampling_side gb r a gp f o HR HA HG H) as (n & N1 & N2).
    destruct (flat_sampling_geometry gb r a gp f o HR HA HG H) as (p & n' & d & P1 & P2 & N3 & N4 & _).
    rewrite N1 in N3. apply fv_inj in N3. subst n'.
    apply flat_sam_ret in H. destruct H as (g0 & g1 & g2 & g3 & H).
    pose proof (sampling_bounds _ _ _ _ _ _ _ _ (proj1 HR) (proj1 (proj2 HR)) H) as (d' & D & B & P6 & P7).
    exists (Output p n f d' (chord (rb_radius r) d' * rb_width r) (rvol (rb_radius r) (rb_width r) d')).
    split.
    + destruct o as [o1 o2 o3 o4 o5 o6]. cbn [o_point o_normal o_friction o_depth o_area o_volume] in *. subst. reflexivity.
    + left. cbn [o_point o_normal o_friction o_depth o_area o_volume]. destruct HR as (R1 & R2 & R3).
      split; [apply rvol_bounds; auto; lra|]. split; [reflexivity|]. split; [exact P2|]. split; [lra|].
      split; [|intros _; exact N2]. destruct N4 as [N4|N4]; [left; exact N4|right]. split; [reflexivity|]. split; [exact N4|].
      rewrite N4 in N2. destruct (pnormal gp) as [x y z]. cbn [pscale vz] in *. lra.
Qed.

Lemma flat_shell_data : forall gb sp s gp f a m s' b, real_shell sp s -> rigid a -> is_unit (pnormal gp) ->
  valid_method m -> setup_flat gb s (fflat gp f) (fa a) m = Ok s' b ->
  exists os, rib_data s' os /\ (0 < sh_size s')%nat /\
    forall o, In o os -> ground_output gp f m (papply (lin a) (V 0 0 1)) o.
Proof.
  intros gb sp s gp f a m s' b HS HA HG HM H.
  pose proof (osize_zero _ (r_flat_ok _ _ _ _ _ _ _ (proj1 HS) H)) as [_ HN].
  destruct (setup_flat_reports _ _ _ _ _ _ _ H) as (RB & _ & flags & LF & HR & _).
  assert (W : forall i, (i < sh_size s')%nat -> exists o, out_at s' i = Ret (fout o) /\
                ground_output gp f m (papply (lin a) (V 0 0 1)) o).
  { intros i Hi. destruct (nth_error flags i) as [c|] eqn:E; [|apply nth_error_None in E; lia].
    destruct (HR i c E) as (x & o & NX & EF & EO).
    destruct HS as (RC & ES & GS). destruct (reach_slices s RC sp ES GS) as (n & _ & RN).
    rewrite RB, RN in NX. rewrite nth_error_map in NX.
    destruct (nth_error (slices sp n) i) as [r|] eqn:NR; [|discriminate]. cbn in NX. injection NX as <-.
    assert (GR : good_rib r).
    { apply (has_rib_axial sp s i r); [split; auto|]. unfold has_rib, rib_at. rewrite RN, nth_error_map, NR. reflexivity. }
    destruct (flat_output (gb i) r a gp f m c o GR HA HG HM EF) as (o' & -> & E2).
    exists o'. auto. }
  destruct (list_choice _ _ _ W) as (os & L & HO). exists os. split; [|split; [exact HN|]].
  - split; [exact L|]. intros i o E. destruct (HO i o E) as [EO _].
    unfold contact_point_i, contact_normal_i, contact_friction_i, contact_depth_i, contact_area_i, contact_volume_i.
    rewrite EO. repeat split; reflexivity.
  - intros o Ho. apply In_nth_error in Ho. destruct Ho as [i Hi]. now apply (HO i o).
Qed.

Lemma unit_same : forall u n : pt, is_unit u -> is_unit n -> 1 <= pdot u n -> n = u.
Proof.
  intros [x y z] [x' y' z'] U N H. unfold is_unit, pdot in *. cbn [vx vy vz] in *.
  assert (S : (x' - x) * (x' - x) + (y' - y) * (y' - y) + (z' - z) * (z' - z) <= 0) by lra.
  assert (Z : forall q : R, q * q <= 0 -> q = 0).
  { intros q Q. pose proof (Rle_0_sqr q) as Q0. unfold Rsqr in Q0. assert (E : q * q = 0) by lra. apply Rmult_integral in E. tauto. }
  pose proof (Rle_0_sqr (x' - x)) as X. pose proof (Rle_0_sqr (y' - y)) as Y. pose proof (Rle_0_sqr (z' - z)) as W.
  unfold Rsqr in *. pose proof (Z (x' - x) ltac:(lra)). pose proof (Z (y' - y) ltac:(lra)). pose proof (Z (z' - z) ltac:(lra)).
  apply vec_eq; cbn; lra.
Qed.

(** With volume, the wheel reports the ground. *)
Lemma heavy_wheel : forall gb sp s gp f a m s' b v, real_shell sp s -> rigid a -> is_unit (pnormal gp) ->
  valid_method m -> setup_flat gb s (fflat gp f) (fa a) m = Ok s' b ->
  contact_volume s' = Ret (Fin v) -> eps <= v ->
  contact_friction s' = Ret (Fin f) /\
  (exists p, contact_point s' = Ret (fv p) /\ on_plane gp p) /\
  exists n, contact_normal s' = Ret (fv n) /\
    (n = pnormal gp \/
     m = "sampling"%string /\ n = pscale (-1) (pnormal gp) /\
     vz (pnormal gp) * vz (papply (lin a) (V 0 0 1)) < 0).
Proof.
  intros gb sp s gp f a m s' b v HS HA HG HM H EV HV.
  destruct (flat_shell_data gb sp s gp f a m s' b HS HA HG HM H) as (os & RD & HN & HO).
  pose proof (total_volume s' os RD) as TV. rewrite EV in TV. injection TV as TV.
  set (up := papply (lin a) (V 0 0 1)) in *.
  assert (NV : forall o, In o os -> 0 <= o_volume o).
  { intros o Ho. destruct (HO o Ho) as [(V0 & _)|(V0 & _)]; lra. }
  assert (MT : forall o, In o os /\ (total o_volume os < eps \/ 0 < o_volume o) ->
    o_friction o = f /\ on_plane gp (o_point o) /\
    (o_normal o = pnormal gp \/
     m = "sampling"%string /\ o_normal o = pscale (-1) (pnormal gp) /\ vz (pnormal gp) * vz up < 0) /\
    (m = "sampling"%string -> 0 < vz (o_normal o) * vz up)).
  { intros o [Ho [Q|Q]]; [lra|]. destruct (HO o Ho) as [(_ & F & P & _ & N & S)|(V0 & _)]; [auto|lra]. }
  split; [|split].
  - destruct (friction_bounds s' os RD HN NV f f) as (x & -> & B).
    + intros o Ho. destruct (MT o Ho) as (-> & _). lra.
    + do 2 f_equal. lra.
  - destruct (point_hull s' os RD HN NV) as (p & -> & HP). exists p. split; [reflexivity|].
    unfold on_plane. destruct gp as [q g]. cbn [porigin pnormal] in *.
    assert (A1 : pdot g q <= pdot g p).
    { apply HP. intros o Ho. destruct (MT o Ho) as (_ & P & _). unfold on_plane in P. cbn [porigin pnormal] in P.
      destruct (o_point o), g, q. vunf. lra. }
    assert (A2 : pdot (pscale (-1) g) q <= pdot (pscale (-1) g) p).
    { apply HP. intros o Ho. destruct (MT o Ho) as (_ & P & _). unfold on_plane in P. cbn [porigin pnormal] in P.
      destruct (o_point o), g, q. vunf. lra. }
    destruct p, g, q. vunf. lra.
  - assert (ALL : exists n, is_unit n /\ (forall o, In o os /\ (total o_volume os < eps \/ 0 < o_volume o) -> o_normal o = n) /\
       (n = pnormal gp \/ m = "sampling"%string /\ n = pscale (-1) (pnormal gp) /\ vz (pnormal gp) * vz up < 0)).
    { assert (UM : is_unit (pscale (-1) (pnormal gp))).
      { destruct (pnormal gp) as [x y z]. unfold is_unit, pdot in *. cbn [vx vy vz pscale] in *. lra. }
      destruct HM as [EM|EM].
      - exists (pnormal gp). split; [exact HG|]. split; [|left; reflexivity].
        intros o Ho. destruct (MT o Ho) as (_ & _ & [N|(C & _)] & _); [exact N|rewrite EM in C; discriminate].
      - destruct (Rlt_dec (vz (pnormal gp) * vz up) 0) as [Q|Q].
        + exists (pscale (-1) (pnormal gp)). split; [exact UM|]. split; [|right; auto].
          intros o Ho. destruct (MT o Ho) as (_ & _ & [N|(_ & N & _)] & S); [|exact N].
          specialize (S EM). rewrite N in S. lra.
        + exists (pnormal gp). split; [exact HG|]. split; [|left; reflexivity].
          intros o Ho. destruct (MT o Ho) as (_ & _ & [N|(_ & N & C)] & S); [exact N|]. contradiction. }
    destruct ALL as (n & UN & AN & CN).
    destruct (normal_side s' os RD HN NV n 1) as (n' & -> & UN' & S); [lra|exact UN| | |].
    + intros o Ho. rewrite (AN o Ho). unfold is_unit in UN. rewrite UN. lra.
    + intros o Ho. rewrite (AN o Ho). exact UN.
    + exists n'. split; [reflexivity|]. rewrite (unit_same n n' UN UN' S). exact CN.
Qed.

(** Without, friction is spread over all ribs. *)
Lemma light_wheel : forall gb sp s gp f a m s' b v, real_shell sp s -> rigid a -> is_unit (pnormal gp) ->
  valid_method m -> setup_flat gb s (fflat gp f) (fa a) m = Ok s' b ->
  contact_volume s' = Ret (Fin v) -> v < eps ->
  exists os, rib_data s' os /\
    contact_friction s' = Ret (Fin (f * (touching os / INR (sh_size s')))).
Proof.
  intros gb sp s gp f a m s' b v HS HA HG HM H EV HV.
  destruct (flat_shell_data gb sp s gp f a m s' b HS HA HG HM H) as (os & RD & HN & HO).
  pose proof (total_volume s' os RD) as TV. rewrite EV in TV. injection TV as TV.
  exists os. split; [exact RD|]. rewrite (friction_eval s' os RD HN).
  replace (rltb (total o_volume os) eps) with true by (symmetry; apply rltb_true; lra).
  do 2 f_equal. unfold Rdiv. rewrite <- Rmult_assoc. f_equal. unfold touching.
  rewrite <- total_scale. apply total_ext. intros o Ho. destruct (HO o Ho) as [(_ & F & _ & D & _)|(_ & F & D)]; rewrite F.
  - destruct (Rlt_dec 0 (o_depth o)); lra.
  - destruct (Rlt_dec 0 (o_depth o)); lra.
Qed.
