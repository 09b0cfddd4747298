(** * A wheel on a mesh as a whole, both methods (for C128). *)
From Coq Require Import ZArith Bool Reals Lra Lia String List.
From Verif Require Import Base Num Vec Aabb Tree Geom Ground Shape Rib Str Mesh Shell ER SpecGeom SpecRib SpecShape SpecShell SpecPose SpecAvg SpecCut SpecFrame SpecRoof.
From Verif Require Import SpecTree SpecMesh ProofMesh.
From Verif Require ProofEntity.
From Verif Require Import ProofGeom ProofInt ProofTri ProofSegArea ProofFlat ProofSample ProofAvg ProofMeshGeo ProofMeshEval ProofShape ProofShapeFacts ProofShell ProofShellFacts ProofPose ProofRoof ProofSetupData ProofPaved.
Import ListNotations.
Local Open Scope R_scope.

(** Whatever a query returns are triangles of the mesh. *)
Lemma query_sub : forall (m : mesh er) box local, mesh_intersection m box = Ret local -> forall g, In g local -> In g (me_tris m).
Proof.
  intros m box local H. unfold mesh_intersection in H. destruct (build [box]) as [q| |]; try discriminate. cbn [obind] in H.
  destruct (tree_intersection (me_tree m) q) as [ps| |]; try discriminate. cbn [obind] in H. revert local H.
  induction ps as [|p ps IH]; intros local H; cbn [omap] in H; [injection H as <-; intros g []|].
  destruct (mesh_nth m (bid (fst p))) as [t| |] eqn:E; try discriminate. cbn [obind] in H.
  destruct (omap _ ps) as [l| |]; try discriminate. cbn [obind] in H. injection H as <-. intros g [<-|G]; [|now apply (IH l)].
  unfold mesh_nth in E. destruct (_ <? 0)%Z; [discriminate|]. destruct (nth_error (me_tris m) _) eqn:N; [|discriminate].
  injection E as ->. now apply nth_error_In in N.
Qed.

(** What a rib may report on a mesh. *)
Definition rib_fair (lo hi top : R) (near : pt -> Prop) (o : output R) : Prop :=
  0 <= o_volume o /\ near (o_point o) /\ (0 < o_volume o -> lo <= o_friction o <= hi /\ 0 <= o_depth o <= top).
(** Within [top] of the part of the axle from [-half] to [half]. *)
Definition near_axle (a : affine R) (half top : R) (p : pt) : Prop :=
  exists y, Rabs y <= half /\ dist p (place a (V 0 y 0)) <= top.
(** What is within a distance of a straight piece of line is convex. *)
Lemma capsule : forall (matters : output R -> Prop) (tr w : pt) half top p, is_unit w -> 0 <= half -> 0 <= top ->
  (forall o, matters o -> exists y, Rabs y <= half /\ dist (o_point o) (padd tr (pscale y w)) <= top) ->
  (forall u c, (forall o, matters o -> c <= pdot u (o_point o)) -> c <= pdot u p) ->
  exists y, Rabs y <= half /\ dist p (padd tr (pscale y w)) <= top.
Proof.
  intros matters tr w half top p W HH HT M H. set (t := pdot (psub p tr) w).
  set (y0 := Rmax (- half) (Rmin t half)).
  assert (Y0 : Rabs y0 <= half /\ forall y, Rabs y <= half -> (y - y0) * (t - y0) <= 0).
  { unfold y0, Rmax, Rmin. destruct (Rle_dec t half); destruct (Rle_dec (- half) _); (split; [apply Rabs_le; lra|]);
      intros y Hy; pose proof (Rle_abs y); pose proof (Rle_abs (- y)); rewrite Rabs_Ropp in *; nra. }
  destruct Y0 as [Y0 K]. exists y0. split; [exact Y0|]. set (d := psub p (padd tr (pscale y0 w))).
  assert (DW : pdot d w = t - y0).
  { unfold d, t, is_unit in *. replace y0 with (y0 * pdot w w) at 2 by (rewrite W; ring). destruct p, tr, w. vunf. ring. }
  unfold dist. fold d. pose proof (pnorm_nonneg d) as DN.
  assert (SQ : pdot d d = pnorm d * pnorm d) by (unfold pnorm; rewrite sqrt_sqrt; [reflexivity|apply pdot_pos]).
  assert (Q : - (pnorm d * top) - pdot d (padd tr (pscale y0 w)) <= pdot (pscale (-1) d) p).
  { apply H. intros o Ho. destruct (M o Ho) as (y & Hy & D). set (e := psub (o_point o) (padd tr (pscale y w))).
    assert (X : pdot (pscale (-1) d) (o_point o) = - ((y - y0) * pdot d w) - pdot d e - pdot d (padd tr (pscale y0 w))).
    { unfold e. destruct (o_point o), d, tr, w. vunf. ring. }
    rewrite X, DW. specialize (K y Hy).
    assert (CE : pdot d e <= pnorm d * top).
    { apply Rle_trans with (pnorm d * pnorm e).
      - pose proof (cauchy_schwarz d e) as CS. pose proof (pnorm_nonneg e).
        assert (SE : pdot e e = pnorm e * pnorm e) by (unfold pnorm; rewrite sqrt_sqrt; [reflexivity|apply pdot_pos]).
        rewrite SQ, SE in CS. apply Rsqr_incr_0_var; [unfold Rsqr; nra|now apply Rmult_le_pos].
      - apply Rmult_le_compat_l; [exact DN|exact D]. }
    lra. }
  assert (Z : pnorm d * pnorm d <= pnorm d * top).
  { rewrite <- SQ. replace (pdot d d) with (- pdot (pscale (-1) d) p - pdot d (padd tr (pscale y0 w))); [lra|].
    unfold d. destruct p, tr, w. vunf. ring. }
  destruct (Rle_lt_dec (pnorm d) top) as [|C]; [assumption|]. nra.
Qed.
(** A contact of volume zero has no point. *)
Lemma volume_zero_undefined : forall r gs (pose : affine er) o', envelop_geometric r gs pose = Ret (true, fout o') -> Fin (o_volume o') <> Fin 0.
Proof.
  intros r gs pose o' H Z. unfold envelop_geometric in H.
  destruct (geo_loop r pose gs gacc0) as [x| |]; cbn [obind] in H; try discriminate.
  destruct (ga_int x && _); [|discriminate].
  apply (f_equal (fun q => match q with Ret (_, o) => Some o | _ => None end)) in H.
  pose proof (f_equal (fun q => match q with Some o => o_volume o | None => Fin 0 end) H) as QV.
  pose proof (f_equal (fun q => match q with Some o => vx (o_point o) | None => Fin 0 end) H) as QP.
  cbn [fout o_volume o_point vx fv] in QV, QP.
  rewrite QV, Z in QP. unfold vdiv in QP. cbn [vx] in QP. change (ediv (vx (ga_point x)) (Fin 0) = Fin (vx (o_point o'))) in QP.
  destruct (vx (ga_point x)) as [y| |]; cbn [ediv] in QP; try discriminate.
  replace (reqb 0 0) with true in QP by (symmetry; now apply reqb_true). destruct (reqb y 0); discriminate.
Qed.
Lemma none_near : forall r a, 0 <= rb_radius r -> rigid a -> dist (o_point (none_out r a)) (place a (rb_center r)) <= rb_radius r.
Proof.
  intros r a HR HA. unfold none_out. cbn [o_point]. rewrite ProofEntity.place_dist by exact HA. right. unfold dist, pnorm.
  replace (pdot _ _) with (rb_radius r * rb_radius r) by (destruct (rb_center r); vunf; ring). now rewrite sqrt_square.
Qed.
Lemma hull_near : forall s' os sp a, rib_data s' os -> (0 < sh_size s')%nat -> good_shape sp -> rigid a ->
  (forall o, In o os -> 0 <= o_volume o /\ near_axle a (sLy sp) (sRx sp) (o_point o)) ->
  exists p, contact_point s' = Ret (fv p) /\ near_axle a (sLy sp) (sRx sp) p.
Proof.
  intros s' os sp a RD HN GS HA HO.
  assert (NV : forall o, In o os -> 0 <= o_volume o) by (intros o Ho; apply (HO o Ho)).
  destruct (point_hull s' os RD HN NV) as (p & EP & HP). exists p. split; [exact EP|].
  assert (AX : forall y, place a (V 0 y 0) = padd (tra a) (pscale y (papply (lin a) (V 0 1 0)))).
  { intros y. unfold place. f_equal. apply vec_eq; vunf; cbn; ring. }
  destruct GS as (G1 & G2 & G3 & G4 & G5).
  destruct (capsule (fun o => In o os /\ (total o_volume os < eps \/ 0 < o_volume o)) (tra a) (papply (lin a) (V 0 1 0)) (sLy sp) (sRx sp) p)
    as (y & Y & D).
  - unfold is_unit. rewrite rotation_isometry by exact HA. vunf. ring.
  - lra.
  - lra.
  - intros o [Ho _]. destruct (HO o Ho) as (_ & y & Y & D). exists y. split; [exact Y|]. now rewrite <- AX.
  - exact HP.
  - exists y. split; [exact Y|]. now rewrite AX.
Qed.
Section OnMesh.
  Variables (gb : nat -> garbage4 er) (sp : shape R) (s : shell er) (m : mesh er) (ts : list (triangle R * R)) (lo hi : R).
  Variables (a : affine R) (meth : string) (s' : shell er) (b : bool).
  Hypothesis RS : real_shell sp s.
  Hypothesis HA : rigid a.
  Hypothesis GR : grounds ts (me_tris m).
  Hypothesis FR : forall t f, In (t, f) ts -> lo <= f <= hi.
  Hypothesis VM : valid_method meth.
  Hypothesis E : setup_mesh gb s m (fa a) meth = Ok s' b.

  Lemma rib_call : forall c gs r o, good_rib r -> (forall g, In g gs -> In g (me_tris m)) ->
    envelop c (frib r) gs (fa a) meth = Ret (true, o) ->
    (exists o', o = fout o' /\ rib_fair lo hi (rb_radius r) (fun p => dist p (place a (rb_center r)) <= rb_radius r) o') \/ meth = "geometric"%string /\ undefined o.
  Proof.
    intros c gs r o HR SB H. destruct VM as [M|M]; rewrite M in *.
    - assert (HG : forall g, In g gs -> exists t f, ground_of t f g /\ lo <= f <= hi).
      { intros g G. destruct (grounds_in _ _ _ GR (SB g G)) as (t & f & I & K). exists t, f. split; [exact K|now apply (FR t)]. }
      destruct c as [[[g0 g1] g2] g3].
      destruct (geometric_data r a HR HA gs o) as [(o' & ->)|U]; [|exact H| |right; auto].
      { intros g G. destruct (HG g G) as (t & f & K & _). eauto. }
      destruct (Req_dec (o_volume o') 0) as [Z|N].
      + exfalso. apply (volume_zero_undefined _ _ _ _ H). now rewrite Z.
      + destruct (geometric_bounds r a HR HA gs (fout o') lo hi HG H) as (o2 & E2 & F & _ & V2 & D & DI & _).
        { cbn [fout o_volume]. intros Q. injection Q. exact N. }
        left. exists o2. split; [exact E2|]. split; [lra|]. split; [lra|]. auto.
    - destruct HR as (R1 & R2 & R3).
      destruct (sub_grounds ts (me_tris m) gs GR SB) as (ts' & G' & S' & _).
      destruct (sampling_described c r a ts' gs o R1 R2 HA G' H) as (p0 & p1 & p2 & p3 & f0 & f1 & f2 & f3 & o' & P & -> & _ & F & U & _ & DS & D).
      destruct (sampling_all_bounds c r gs (fa a) (fout o') R1 R2 H) as (d & ar & vol & D1 & D2 & _ & _ & V1 & V2).
      cbn [fout o_depth o_volume] in D1, V1. injection D1 as D1. injection V1 as V1.
      left. exists o'. split; [reflexivity|]. split; [lra|]. split; [|intros _; split; [|lra]].
      1:{ rewrite DS in D. unfold sink in D. set (k := 1 - _) in D. assert (SK : sqrt k <= 1).
          { apply Rle_trans with (sqrt 1); [apply sqrt_le_1_alt; unfold k|rewrite sqrt_1; lra].
            pose proof (Rle_0_sqr (pdot (o_normal o') (pcol1 (lin a)))) as Q. unfold Rsqr in Q. lra. }
          pose proof (Rmult_le_compat_l (rb_radius r) _ _ (Rlt_le _ _ R1) SK). lra. }
      rewrite F.
      destruct P as [[_ [(t0 & I0 & _) _]] [_ [(t1 & I1 & _) _]] [_ [(t2 & I2 & _) _]] [_ [(t3 & I3 & _) _]]].
      apply S', FR in I0, I1, I2, I3. lra.
  Qed.
  Lemma rib_on_mesh : forall i, (i < sh_size s')%nat -> exists o, out_at s' i = Ret o /\
    ((exists o', o = fout o' /\ rib_fair lo hi (sRx sp) (near_axle a (sLy sp) (sRx sp)) o') \/ meth = "geometric"%string /\ undefined o).
  Proof.
    intros i Hi. destruct (setup_mesh_reports _ _ _ _ _ _ _ E) as (RB & _ & local & Q & D).
    destruct RS as (RC & ES & GS). destruct (reach_slices s RC sp ES GS) as (n & _ & RN).
    assert (NX : exists r, nth_error (sh_ribs s') i = Some (frib r) /\ has_rib s i r).
    { destruct (nth_error (sh_ribs s') i) as [x|] eqn:NX; [|apply nth_error_None in NX; unfold sh_size in Hi; lia].
      rewrite RB, RN in NX. rewrite nth_error_map in NX. destruct (nth_error (slices sp n) i) as [r|] eqn:NR; [|discriminate].
      cbn in NX. injection NX as <-. exists r. split; [reflexivity|]. unfold has_rib, rib_at. rewrite RN, nth_error_map, NR. reflexivity. }
    destruct NX as (r & NX & HR). destruct (has_rib_axial sp s i r RS HR) as ((_ & AX & AZ) & GD & RR & YY).
    assert (TOP : rb_radius r <= sRx sp) by (rewrite RR; apply radius_range; [exact GS|lra]).
    assert (CE : rb_center r = V 0 (vy (rb_center r)) 0) by (destruct (rb_center r); cbn in *; now subst).
    assert (NEAR : forall p, dist p (place a (rb_center r)) <= rb_radius r -> near_axle a (sLy sp) (sRx sp) p).
    { intros p D0. exists (vy (rb_center r)). split; [lra|]. rewrite <- CE. lra. }
    assert (NONE : out_at s' i = Ret (fout (none_out r a)) -> exists o, out_at s' i = Ret o /\
              ((exists o', o = fout o' /\ rib_fair lo hi (sRx sp) (near_axle a (sLy sp) (sRx sp)) o') \/ meth = "geometric"%string /\ undefined o)).
    { intros EO. exists (fout (none_out r a)). split; [exact EO|]. left. exists (none_out r a). split; [reflexivity|].
      split; [cbn; lra|]. split; [|cbn; intros; lra]. apply NEAR, none_near; [apply Rlt_le, GD|exact HA]. }
    destruct D as [(_ & _ & F)|(NE & flags & FL & FR' & _)].
    - destruct (F i Hi) as (x & o & N' & F' & EO). rewrite NX in N'. injection N' as <-. unfold none_call in F'.
      apply NONE. rewrite EO. assert (F2 : envelop_none (frib r) (fa a) = (false, o)) by congruence.
      injection F2 as <-. reflexivity.
    - destruct (nth_error flags i) as [c|] eqn:EF; [|apply nth_error_None in EF; lia].
      destruct (FR' i c EF) as (x & cs & N' & NC & x' & o & N'' & F & EO). rewrite NX in N', N''. injection N' as <-. injection N'' as <-.
      assert (NJ : nth_error (sh_ribs s) i = Some (frib r)) by (rewrite <- RB; exact NX).
      assert (QP := Q). rewrite (setup_bbox gb s (fa a) meth s' b) in QP by eauto.
      rewrite (setup_mesh_cands gb s m (fa a) meth s' b local E QP NE i (frib r) NJ) in NC. injection NC as NC.
      assert (SB : forall g, In g cs -> In g (me_tris m)).
      { intros g G. apply (query_sub m _ local Q). rewrite <- NC in G. now apply filter_In in G. }
      destruct c.
      + destruct (rib_call (gb i) cs r o GD SB F) as [(o' & -> & P1 & P2 & P3)|U]; [|eauto].
        exists (fout o'). split; [exact EO|]. left. exists o'. split; [reflexivity|]. split; [exact P1|]. split; [now apply NEAR|].
        intros P. destruct (P3 P). split; [auto|lra].
      + apply envelop_no_contact in F. apply NONE. rewrite EO. f_equal. destruct F as (H1 & H2 & H3 & H4 & H5 & H6).
        destruct o as [o1 o2 o3 o4 o5 o6]. cbn [o_point o_normal o_friction o_depth o_area o_volume] in *. subst. reflexivity.
  Qed.
  Hypothesis NN : forall i, (i < sh_size s')%nat -> contact_friction_i s' i <> Ret Nan.
  Lemma mesh_data : exists os, rib_data s' os /\ (0 < sh_size s')%nat /\ forall o, In o os -> rib_fair lo hi (sRx sp) (near_axle a (sLy sp) (sRx sp)) o.
  Proof.
    pose proof (osize_zero _ (r_mesh_ok _ _ _ _ _ _ _ (proj1 RS) E)) as [_ HN].
    assert (W : forall i, (i < sh_size s')%nat -> exists o, out_at s' i = Ret (fout o) /\ rib_fair lo hi (sRx sp) (near_axle a (sLy sp) (sRx sp)) o).
    { intros i Hi. destruct (rib_on_mesh i Hi) as (o & EO & [(o' & -> & P)|(_ & _ & _ & U & _)]); [eauto|].
      exfalso. apply (NN i Hi). unfold contact_friction_i. rewrite EO. cbn [obind]. now rewrite U. }
    destruct (list_choice _ _ _ W) as (os & L & HO). exists os. split; [|split; [exact HN|]].
    - split; [exact L|]. intros i o N. destruct (HO i o N) as [EO _].
      unfold contact_point_i, contact_normal_i, contact_friction_i, contact_depth_i, contact_area_i, contact_volume_i.
      rewrite EO. repeat split; reflexivity.
    - intros o Ho. apply In_nth_error in Ho. destruct Ho as [i Hi]. now apply (HO i o).
  Qed.
  Lemma mesh_wheel : forall v, contact_volume s' = Ret (Fin v) -> eps <= v -> exists f d,
    contact_friction s' = Ret (Fin f) /\ lo <= f <= hi /\ contact_depth s' = Ret (Fin d) /\ 0 <= d <= sRx sp.
  Proof.
    intros v EV HV. destruct mesh_data as (os & RD & HN & HO).
    pose proof (total_volume s' os RD) as TV. rewrite EV in TV. injection TV as TV.
    assert (NV : forall o, In o os -> 0 <= o_volume o) by (intros o Ho; apply (HO o Ho)).
    destruct (friction_bounds s' os RD HN NV lo hi) as (x & Ex & B).
    { intros o [Ho [Q|Q]]; [lra|]. now apply (HO o Ho). }
    destruct (depth_bounds s' os RD HN NV 0 (sRx sp)) as (d & Ed & B'); [lra| |].
    { intros o Ho Q. now apply (HO o Ho). }
    exists x, d. auto.
  Qed.
  Lemma mesh_point : exists p, contact_point s' = Ret (fv p) /\ near_axle a (sLy sp) (sRx sp) p.
  Proof.
    destruct mesh_data as (os & RD & HN & HO). destruct RS as (_ & _ & GS).
    apply (hull_near s' os sp a RD HN GS HA). intros o Ho. split; apply (HO o Ho).
  Qed.
End OnMesh.
Lemma sampling_no_nan : forall gb sp s m ts lo hi a s' b, real_shell sp s -> rigid a -> grounds ts (me_tris m) ->
  (forall t f, In (t, f) ts -> lo <= f <= hi) -> setup_mesh gb s m (fa a) "sampling" = Ok s' b ->
  forall i, (i < sh_size s')%nat -> contact_friction_i s' i <> Ret Nan.
Proof.
  intros gb sp s m ts lo hi a s' b RS HA GR FR E i L H. unfold contact_friction_i in H.
  destruct (rib_on_mesh gb sp s m ts lo hi a "sampling" s' b RS HA GR FR (or_intror eq_refl) E i L) as (o & EO & [(o' & -> & _)|(C & _)]).
  - rewrite EO in H. discriminate.
  - discriminate.
Qed.
(** One undefined friction makes that of the wheel undefined. *)
Lemma nan_acc : forall (f : output er -> er) l, fold_left (fun a o => nadd a (f o)) l Nan = Nan.
Proof. intros f l. induction l as [|o l IH]; [reflexivity|]. cbn [fold_left]. replace (nadd Nan (f o)) with Nan by reflexivity. exact IH. Qed.
Lemma nan_sum : forall (f : output er -> er) l o x, In o l -> f o = Nan -> fold_left (fun a o => nadd a (f o)) l x = Nan.
Proof.
  intros f l. induction l as [|p l IH]; intros o x I H; [destruct I|]. cbn [fold_left]. destruct I as [->|I]; [|now apply (IH o)].
  rewrite H. replace (nadd x Nan) with Nan by (destruct x; reflexivity). apply nan_acc.
Qed.
Lemma nan_wheel : forall (s : shell er) os i o, outs s = Ret os -> nth_error os i = Some o -> o_friction o = Nan -> contact_friction s = Ret Nan.
Proof.
  intros s os i o O N H. unfold contact_friction. rewrite O. cbn [obind]. apply nth_error_In in N.
  destruct (nlt _ _); f_equal.
  - unfold sum_by. rewrite (nan_sum o_friction os o) by auto. reflexivity.
  - unfold sum_by. rewrite (nan_sum (fun o => nmul (o_friction o) (o_volume o)) os o); [reflexivity|exact N|]. now rewrite H.
Qed.
Lemma nan_after_mesh : forall gb (s : shell er) m pose meth s' b i, setup_mesh gb s m pose meth = Ok s' b ->
  (i < sh_size s')%nat -> contact_friction_i s' i = Ret Nan -> contact_friction s' = Ret Nan.
Proof.
  intros gb s m pose meth s' b i E L H. destruct (written_outs s' (data_after_mesh _ _ _ _ _ _ _ E)) as (os & O & LO & N).
  destruct (nth_error os i) as [o|] eqn:NO; [|apply nth_error_None in NO; lia].
  apply (nan_wheel s' os i o O NO). unfold contact_friction_i in H. rewrite (N i o NO) in H. cbn [obind] in H. congruence.
Qed.
(** A list of triangles has a least and a greatest friction. *)
Lemma some_range : forall ts : list (triangle R * R), exists lo hi, forall t f, In (t, f) ts -> lo <= f <= hi.
Proof.
  induction ts as [|[t0 f0] ts (lo & hi & IH)]; [exists 0, 0; intros t f []|].
  exists (Rmin lo f0), (Rmax hi f0). pose proof (Rmin_l lo f0). pose proof (Rmin_r lo f0). pose proof (Rmax_l hi f0). pose proof (Rmax_r hi f0).
  intros t f [E|I]; [injection E as <- <-; lra|]. specialize (IH t f I). lra.
Qed.
