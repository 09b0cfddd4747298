(** * Shell totals and contact frame over the reals. *)
From Coq Require Import ZArith Bool Reals Lra Lia String List.
From Verif Require Import Base Num Vec Aabb Geom Ground Shape Rib Str Mesh Shell ER SpecGeom SpecShell SpecAvg.
From Verif Require Import ProofGeom ProofShell ProofShellFacts.
Import ListNotations.
Local Open Scope R_scope.

(** ** Sums. *)
Lemma total_nonneg : forall A (f : A -> R) l, (forall a, In a l -> 0 <= f a) -> 0 <= total f l.
Proof.
  induction l as [|a l IH]; intros H; cbn; [lra|].
  pose proof (H a (or_introl eq_refl)). assert (0 <= total f l) by (apply IH; intros; apply H; now right). lra.
Qed.
Lemma total_le : forall A (f g : A -> R) l, (forall a, In a l -> f a <= g a) -> total f l <= total g l.
Proof.
  induction l as [|a l IH]; intros H; cbn; [lra|].
  pose proof (H a (or_introl eq_refl)). assert (total f l <= total g l) by (apply IH; intros; apply H; now right). lra.
Qed.
Lemma total_ext : forall A (f g : A -> R) l, (forall a, In a l -> f a = g a) -> total f l = total g l.
Proof. intros. apply Rle_antisym; apply total_le; intros; rewrite H; auto; lra. Qed.
Lemma total_scale : forall A (f : A -> R) k l, total (fun a => k * f a) l = k * total f l.
Proof. induction l as [|a l IH]; cbn; [ring|]. rewrite IH. ring. Qed.
Lemma total_add : forall A (f g : A -> R) l, total (fun a => f a + g a) l = total f l + total g l.
Proof. induction l as [|a l IH]; cbn; [ring|]. rewrite IH. ring. Qed.
Lemma total_const : forall A k (l : list A), total (fun _ => k) l = k * INR (List.length l).
Proof.
  induction l as [|a l IH]; [cbn; ring|]. cbn [total List.length]. rewrite IH, S_INR. ring.
Qed.

(** A weighted mean stays within the bounds of the values that have weight. *)
Lemma mean_bounds : forall A (w f : A -> R) l lo hi, 0 < total w l ->
  (forall a, In a l -> 0 <= w a) -> (forall a, In a l -> 0 < w a -> lo <= f a <= hi) ->
  lo <= total (fun a => f a * w a) l / total w l <= hi.
Proof.
  intros A w f l lo hi HW Hw Hf.
  assert (P : forall a, In a l -> lo * w a <= f a * w a <= hi * w a).
  { intros a Ha. destruct (Hw a Ha) as [Hp|Hz]; [|rewrite <- Hz; lra].
    pose proof (Hf a Ha Hp). split; apply Rmult_le_compat_r; lra. }
  pose proof (total_le _ (fun a => lo * w a) (fun a => f a * w a) l ltac:(intros; apply P; auto)) as L.
  pose proof (total_le _ (fun a => f a * w a) (fun a => hi * w a) l ltac:(intros; apply P; auto)) as U.
  rewrite total_scale in L. rewrite total_scale in U.
  split; apply Rmult_le_reg_r with (total w l); auto; unfold Rdiv; rewrite ?Rmult_assoc, ?Rinv_l by lra; lra.
Qed.

(** ** The model's sums. *)
Lemma sum_by_acc : forall (f : output er -> er) (g : output R -> R) os x,
  (forall o, In o os -> f (fout o) = Fin (g o)) ->
  fold_left (fun a o => nadd a (f o)) (map fout os) (Fin x) = Fin (x + total g os).
Proof.
  induction os as [|o os IH]; intros x H; cbn [map fold_left total]; [f_equal; ring|].
  rewrite (H o (or_introl eq_refl)). change (nadd (Fin x) (Fin (g o))) with (Fin (x + g o)).
  rewrite IH by (intros; apply H; now right). f_equal. ring.
Qed.
Lemma sum_by_real : forall (f : output er -> er) (g : output R -> R) os,
  (forall o, f (fout o) = Fin (g o)) -> sum_by f (map fout os) = Fin (total g os).
Proof.
  intros f g os H. unfold sum_by. change (nofZ 0 : er) with (Fin 0). rewrite sum_by_acc with (g := g) by auto.
  f_equal. ring.
Qed.
Definition vtotal {A} (f : A -> pt) (l : list A) : pt :=
  V (total (fun a => vx (f a)) l) (total (fun a => vy (f a)) l) (total (fun a => vz (f a)) l).
Lemma vsum_by_acc : forall (f : output er -> vec3 er) (g : output R -> pt) os x,
  (forall o, f (fout o) = fv (g o)) ->
  fold_left (fun a o => vadd a (f o)) (map fout os) (fv x) = fv (padd x (vtotal g os)).
Proof.
  induction os as [|o os IH]; intros x H; cbn [map fold_left].
  - f_equal. unfold vtotal. cbn [total]. apply vec_eq; vunf; ring.
  - rewrite H, f_add. rewrite IH by auto. f_equal. unfold vtotal. cbn [total]. apply vec_eq; vunf; ring.
Qed.
Lemma vsum_by_real : forall (f : output er -> vec3 er) (g : output R -> pt) os,
  (forall o, f (fout o) = fv (g o)) -> vsum_by f (map fout os) = fv (vtotal g os).
Proof.
  intros f g os H. unfold vsum_by. change (vconst (nofZ 0) : vec3 er) with (fv (V 0 0 0)).
  rewrite vsum_by_acc with (g := g) by auto. f_equal. apply vec_eq; vunf; ring.
Qed.
Lemma pdot_vtotal : forall A (f : A -> pt) u l, pdot u (vtotal f l) = total (fun a => pdot u (f a)) l.
Proof.
  intros A f u l. unfold vtotal. induction l as [|a l IH]; [vunf; cbn; ring|].
  cbn [total]. rewrite <- IH. vunf. ring.
Qed.

(** ** Totals of a shell with finite rib data. *)
Lemma out_of_accessors : forall (s : shell er) i o,
  contact_point_i s i = Ret (fv (o_point o)) -> contact_normal_i s i = Ret (fv (o_normal o)) ->
  contact_friction_i s i = Ret (Fin (o_friction o)) -> contact_depth_i s i = Ret (Fin (o_depth o)) ->
  contact_area_i s i = Ret (Fin (o_area o)) -> contact_volume_i s i = Ret (Fin (o_volume o)) ->
  out_at s i = Ret (fout o).
Proof.
  intros s i o. unfold contact_point_i, contact_normal_i, contact_friction_i, contact_depth_i, contact_area_i, contact_volume_i.
  destruct (out_at s i) as [[p n f d a v]| |]; cbn [obind o_point o_normal o_friction o_depth o_area o_volume]; try congruence.
  intros. unfold fout. congruence.
Qed.
Lemma same_nth : forall A (l l' : list A), (forall i, nth_error l i = nth_error l' i) -> l = l'.
Proof.
  induction l as [|a l IH]; intros [|b l'] H; auto; try (specialize (H 0%nat); discriminate).
  f_equal; [specialize (H 0%nat); cbn in H; congruence|]. apply IH. intros i. exact (H (S i)).
Qed.
Lemma rib_data_outs : forall s os, rib_data s os -> outs s = Ret (map fout os).
Proof.
  intros s os [L H].
  assert (W : forall i, (i < sh_size s)%nat -> exists o, nth_error os i = Some o /\ out_at s i = Ret (fout o)).
  { intros i Hi. destruct (nth_error os i) as [o|] eqn:E; [|apply nth_error_None in E; lia].
    exists o. split; auto. destruct (H i o E) as (? & ? & ? & ? & ? & ?). now apply out_of_accessors. }
  destruct (written_outs s) as (os' & E & L' & N).
  { intros i Hi. destruct (W i Hi) as (o & _ & ?). eauto. }
  rewrite E. f_equal. apply same_nth. intros i. rewrite nth_error_map.
  destruct (nth_error os' i) as [o'|] eqn:E'.
  - assert (Hi : (i < sh_size s)%nat) by (rewrite <- L'; apply nth_error_Some; congruence).
    destruct (W i Hi) as (o & Ho & Hq). rewrite Ho. cbn. apply N in E'. rewrite Hq in E'. congruence.
  - apply nth_error_None in E'. destruct (nth_error os i) eqn:E2; auto.
    assert (i < List.length os)%nat by (apply nth_error_Some; congruence). lia.
Qed.

Lemma nofsize_INR : forall n, (nofsize n : er) = Fin (INR n).
Proof. intros n. unfold nofsize. cbn [nofZ ER_Num]. now rewrite INR_IZR_INZ. Qed.

Section Totals.
  Variables (s : shell er) (os : list (output R)).
  Hypothesis HD : rib_data s os.
  Let vol := total o_volume os.

  Lemma len_os : List.length os = sh_size s. Proof. apply HD. Qed.
  Lemma total_volume : contact_volume s = Ret (Fin vol).
  Proof.
    unfold contact_volume. rewrite (rib_data_outs _ _ HD). cbn [obind].
    f_equal. apply sum_by_real. reflexivity.
  Qed.
  Lemma total_area_frictions : contact_area s = Ret (Fin (total o_friction os)).
  Proof.
    unfold contact_area. rewrite (rib_data_outs _ _ HD). cbn [obind].
    f_equal. apply sum_by_real. reflexivity.
  Qed.

  Hypothesis HN : (0 < sh_size s)%nat.
  Lemma len_pos : 0 < INR (sh_size s). Proof. now apply lt_0_INR. Qed.
  Lemma plain_mean : forall f : output R -> R, total f os / INR (sh_size s) = total (fun o => f o * 1) os / total (fun _ => 1) os.
  Proof.
    intros f. rewrite total_const, len_os, Rmult_1_l. f_equal. apply total_ext. intros. ring.
  Qed.
  Lemma plain_bounds : forall (f : output R -> R) lo hi, (forall o, In o os -> lo <= f o <= hi) ->
    lo <= total f os / INR (sh_size s) <= hi.
  Proof.
    intros f lo hi H. rewrite plain_mean. apply mean_bounds; intros; try lra; auto.
    rewrite total_const, len_os. pose proof len_pos. lra.
  Qed.

  Lemma friction_eval : contact_friction s = Ret (Fin
    (if rltb vol eps then total o_friction os / INR (sh_size s)
     else total (fun o => o_friction o * o_volume o) os / vol)).
  Proof.
    unfold contact_friction. rewrite (rib_data_outs _ _ HD). cbn [obind].
    rewrite (sum_by_real o_volume o_volume) by reflexivity. fold vol.
    change (nlt (Fin vol) neps) with (rltb vol eps).
    destruct (rltb vol eps) eqn:E.
    - rewrite (sum_by_real o_friction o_friction) by reflexivity. rewrite nofsize_INR. f_equal. apply e_div.
      pose proof len_pos. lra.
    - rewrite (sum_by_real _ (fun o => o_friction o * o_volume o)) by reflexivity. f_equal. apply e_div.
      rb. pose proof eps_pos. lra.
  Qed.
  Lemma depth_eval : contact_depth s = Ret (Fin
    (if rltb vol eps then vol / INR (sh_size s)
     else total (fun o => o_depth o * o_volume o) os / vol)).
  Proof.
    unfold contact_depth. rewrite (rib_data_outs _ _ HD). cbn [obind].
    rewrite (sum_by_real o_volume o_volume) by reflexivity. fold vol.
    change (nlt (Fin vol) neps) with (rltb vol eps).
    destruct (rltb vol eps) eqn:E.
    - rewrite nofsize_INR. f_equal. apply e_div. pose proof len_pos. lra.
    - rewrite (sum_by_real _ (fun o => o_depth o * o_volume o)) by reflexivity. f_equal. apply e_div.
      rb. pose proof eps_pos. lra.
  Qed.
  Lemma point_eval : contact_point s = Ret (fv
    (if rltb vol eps then pscale (/ INR (sh_size s)) (vtotal o_point os)
     else pscale (/ vol) (vtotal (fun o => pscale (o_volume o) (o_point o)) os))).
  Proof.
    unfold contact_point. rewrite (rib_data_outs _ _ HD). cbn [obind].
    rewrite (sum_by_real o_volume o_volume) by reflexivity. fold vol.
    change (nlt (Fin vol) neps) with (rltb vol eps).
    destruct (rltb vol eps) eqn:E.
    - rewrite (vsum_by_real o_point o_point) by reflexivity. rewrite nofsize_INR. f_equal. apply f_div.
      pose proof len_pos. lra.
    - rewrite (vsum_by_real _ (fun o => pscale (o_volume o) (o_point o))) by (intros; apply f_mulr). f_equal. apply f_div.
      rb. pose proof eps_pos. lra.
  Qed.
  Lemma normal_eval : contact_normal s = Ret (fv (punit
    (if rltb vol eps then pscale (/ INR (sh_size s)) (vtotal o_normal os)
     else pscale (/ vol) (vtotal (fun o => pscale (o_volume o) (o_normal o)) os)))).
  Proof.
    unfold contact_normal. rewrite (rib_data_outs _ _ HD). cbn [obind].
    rewrite (sum_by_real o_volume o_volume) by reflexivity. fold vol.
    change (nlt (Fin vol) neps) with (rltb vol eps).
    destruct (rltb vol eps) eqn:E.
    - rewrite (vsum_by_real o_normal o_normal) by reflexivity. rewrite nofsize_INR.
      rewrite f_div by (pose proof len_pos; lra). now rewrite f_normalized.
    - rewrite (vsum_by_real _ (fun o => pscale (o_volume o) (o_normal o))) by (intros; apply f_mulr).
      rewrite f_div by (rb; pose proof eps_pos; lra). now rewrite f_normalized.
  Qed.

  Hypothesis HV : forall o, In o os -> 0 <= o_volume o.
  Let matters (o : output R) : Prop := In o os /\ (vol < eps \/ 0 < o_volume o).
  Lemma weighted : forall (f : output R -> R) lo hi, (forall o, matters o -> lo <= f o <= hi) ->
    lo <= (if rltb vol eps then total f os / INR (sh_size s) else total (fun o => f o * o_volume o) os / vol) <= hi.
  Proof.
    intros f lo hi H. destruct (rltb vol eps) eqn:E; rb.
    - apply plain_bounds. intros o Ho. apply H. split; auto.
    - pose proof eps_pos. apply mean_bounds; auto; [fold vol; lra|]. intros o Ho Hp. apply H. split; auto.
  Qed.
  Lemma friction_bounds : forall lo hi, (forall o, matters o -> lo <= o_friction o <= hi) ->
    exists f, contact_friction s = Ret (Fin f) /\ lo <= f <= hi.
  Proof. intros lo hi H. rewrite friction_eval. eexists. split; [reflexivity|]. now apply weighted. Qed.
  Lemma depth_bounds : forall lo hi, eps <= vol -> (forall o, In o os -> 0 < o_volume o -> lo <= o_depth o <= hi) ->
    exists d, contact_depth s = Ret (Fin d) /\ lo <= d <= hi.
  Proof.
    intros lo hi HE H. rewrite depth_eval. eexists. split; [reflexivity|].
    replace (rltb vol eps) with false by (symmetry; now apply rltb_false).
    pose proof eps_pos. apply mean_bounds; auto. fold vol. lra.
  Qed.
  Lemma dot_weighted : forall (f : output R -> pt) u c, (forall o, matters o -> c <= pdot u (f o)) ->
    c <= pdot u (if rltb vol eps then pscale (/ INR (sh_size s)) (vtotal f os)
                 else pscale (/ vol) (vtotal (fun o => pscale (o_volume o) (f o)) os)).
  Proof.
    intros f u c H.
    set (m := Rmax c (Rabs c + total (fun o => Rabs (pdot u (f o))) os)).
    assert (B : forall o, In o os -> pdot u (f o) <= m).
    { intros o Ho. apply Rle_trans with (Rabs c + total (fun o => Rabs (pdot u (f o))) os); [|apply Rmax_r].
      assert (P : forall l, In o l -> Rabs (pdot u (f o)) <= total (fun o => Rabs (pdot u (f o))) l).
      { induction l as [|a l IH]; [intros []|]. intros [->|Hl]; cbn.
        - pose proof (total_nonneg _ (fun o => Rabs (pdot u (f o))) l ltac:(intros; apply Rabs_pos)). lra.
        - specialize (IH Hl). pose proof (Rabs_pos (pdot u (f a))). lra. }
      pose proof (P os Ho). pose proof (Rle_abs (pdot u (f o))). pose proof (Rabs_pos c). lra. }
    pose proof (weighted (fun o => pdot u (f o)) c m) as W.
    destruct W as [W _]; [intros o Ho; split; [now apply H|apply B, Ho]|].
    eapply Rle_trans; [exact W|]. right. destruct (rltb vol eps) eqn:E.
    - rewrite pdot_scale_r, pdot_vtotal. unfold Rdiv. ring.
    - rewrite pdot_scale_r, pdot_vtotal.
      rewrite (total_ext _ (fun a => pdot u (pscale (o_volume a) (f a))) (fun o => pdot u (f o) * o_volume o)).
      + unfold Rdiv. ring.
      + intros. rewrite pdot_scale_r. ring.
  Qed.
  Lemma point_hull : exists p, contact_point s = Ret (fv p) /\
    forall u c, (forall o, matters o -> c <= pdot u (o_point o)) -> c <= pdot u p.
  Proof.
    rewrite point_eval. eexists. split; [reflexivity|]. intros u c H. now apply dot_weighted.
  Qed.
  Lemma normal_side : forall u c, 0 < c -> is_unit u -> (forall o, matters o -> c <= pdot u (o_normal o)) ->
    (forall o, matters o -> is_unit (o_normal o)) ->
    exists n, contact_normal s = Ret (fv n) /\ is_unit n /\ c <= pdot u n.
  Proof.
    intros u c Hc HU H HN1. rewrite normal_eval.
    pose proof (dot_weighted o_normal u c H) as D.
    set (m := if rltb vol eps then pscale (/ INR (sh_size s)) (vtotal o_normal os)
              else pscale (/ vol) (vtotal (fun o => pscale (o_volume o) (o_normal o)) os)) in *.
    assert (M : 0 < pdot m m).
    { pose proof (cauchy_schwarz u m). unfold is_unit in HU. rewrite HU in H0. nra. }
    eexists. split; [reflexivity|]. split; [now apply punit_is_unit|].
    (* the mean has length at most 1 *)
    assert (L : pnorm m <= 1).
    { pose proof (dot_weighted o_normal (pscale (-1) (punit m)) (-1)) as D'. fold m in D'.
      assert (-1 <= pdot (pscale (-1) (punit m)) m).
      { apply D'. intros o Ho. rewrite pdot_scale_l.
        pose proof (cauchy_schwarz (punit m) (o_normal o)) as CS.
        pose proof (punit_is_unit m M) as U1. pose proof (HN1 o Ho) as U2. unfold is_unit in *. rewrite U1, U2 in CS. nra. }
      rewrite pdot_scale_l, punit_pos, pdot_scale_l, <- pnorm_sq in H0 by auto.
      pose proof (pnorm_pos m M). replace (/ pnorm m * (pnorm m * pnorm m)) with (pnorm m) in H0 by (field; lra). lra. }
    rewrite punit_pos, pdot_scale_r by auto. pose proof (pnorm_pos m M).
    apply Rmult_le_reg_l with (pnorm m); auto. rewrite <- Rmult_assoc, Rinv_r, Rmult_1_l by lra. nra.
  Qed.
End Totals.

(** ** C35: totals when nothing touches. *)
Lemma zero_sum : forall (f : output er -> er) os, (forall o, In o os -> f o = Fin 0) -> sum_by f os = Fin 0.
Proof.
  intros f os H. unfold sum_by. change (nofZ 0 : er) with (Fin 0).
  induction os as [|o os IH]; cbn [fold_left]; auto.
  rewrite (H o (or_introl eq_refl)). change (nadd (Fin 0) (Fin 0)) with (Fin (0 + 0)). rewrite Rplus_0_l.
  apply IH. intros; apply H; now right.
Qed.
Lemma no_contact_totals : forall gb (s : shell er) m pose method s', reach s ->
  setup_mesh gb s m pose method = Ok s' false ->
  contact_volume s' = Ret (Fin 0) /\ contact_friction s' = Ret (Fin 0) /\ contact_depth s' = Ret (Fin 0).
Proof.
  intros gb s m pose method s' HR H.
  pose proof (osize_zero _ (r_mesh_ok _ _ _ _ _ _ _ HR H)) as [_ HN].
  destruct (written_outs s' (data_after_mesh _ _ _ _ _ _ _ H)) as (os & E & L & N).
  assert (Z : forall o, In o os -> o_friction o = Fin 0 /\ o_volume o = Fin 0).
  { intros o Ho. apply In_nth_error in Ho. destruct Ho as [i Hi].
    assert (HL : (i < sh_size s')%nat) by (rewrite <- L; apply nth_error_Some; congruence).
    unfold sh_size in HL. apply nth_error_Some in HL. destruct (nth_error (sh_ribs s') i) as [r|] eqn:ER; [|congruence].
    destruct (mesh_false_no_contact _ _ _ _ _ _ H i r ER) as (o' & Ho' & NC). rewrite (N i o Hi) in Ho'.
    injection Ho' as <-. destruct NC as (_ & _ & F & _ & _ & V). split; assumption. }
  assert (SV : sum_by o_volume os = Fin 0) by (apply zero_sum; intros; now apply Z).
  assert (SF : sum_by o_friction os = Fin 0) by (apply zero_sum; intros; now apply Z).
  assert (D : nlt (Fin 0) (neps : er) = true) by (apply rltb_true; apply eps_pos).
  assert (Q : ndiv (Fin 0) (nofsize (sh_size s') : er) = Fin 0).
  { rewrite nofsize_INR. pose proof (lt_0_INR _ HN). change (ediv (Fin 0) (Fin (INR (sh_size s'))) = Fin 0).
    rewrite e_div by lra. f_equal. unfold Rdiv. ring. }
  unfold contact_volume, contact_friction, contact_depth. rewrite E. cbn [obind]. rewrite SV, SF, D, Q. auto.
Qed.

(** ** The contact frame. *)
Lemma f_frame : forall y p n, contact_frame (fv y) (fv p) (fv n) =
  fa (let x := punit (pcross y n) in let y' := punit (pcross n x) in
      Aff (M3 (vx x) (vx y') (vx n) (vy x) (vy y') (vy n) (vz x) (vz y') (vz n)) p).
Proof.
  intros y p n. unfold contact_frame. rewrite f_cross, f_normalized, f_cross, f_normalized. reflexivity.
Qed.
Lemma frame_rotation : forall y p n, is_unit n -> pcross y n <> V 0 0 0 ->
  exists A, contact_frame (fv y) (fv p) (fv n) = fa A /\ rigid A /\ tra A = p /\ pcol2 (lin A) = n /\
    pdot (pcol0 (lin A)) y = 0 /\ pcol1 (lin A) = pcross n (pcol0 (lin A)) /\ 0 < pdot (pcol1 (lin A)) y.
Proof.
  intros y p n HU HC. rewrite f_frame. cbn zeta.
  assert (HP : 0 < pdot (pcross y n) (pcross y n)).
  { destruct (pdot_pos (pcross y n)) as [|E]; auto. exfalso. apply HC. now apply pdot_zero. }
  set (x := punit (pcross y n)).
  assert (X : is_unit x) by (now apply punit_is_unit).
  assert (XN : pdot x n = 0).
  { unfold x. rewrite punit_pos by auto. rewrite pdot_scale_l, (pdot_comm _ n), pcross_dot_r. ring. }
  assert (XY : pdot x y = 0).
  { unfold x. rewrite punit_pos by auto. rewrite pdot_scale_l, (pdot_comm _ y), pcross_dot_l. ring. }
  assert (Y : is_unit (pcross n x)).
  { unfold is_unit in *. rewrite pcross_sq, HU, X, (pdot_comm n x), XN. ring. }
  fold x. rewrite (punit_unit (pcross n x)) by auto. eexists. split; [reflexivity|].
  set (y' := pcross n x) in *.
  assert (C0 : pcol0 (M3 (vx x) (vx y') (vx n) (vy x) (vy y') (vy n) (vz x) (vz y') (vz n)) = x) by (destruct x; reflexivity).
  assert (C1 : pcol1 (M3 (vx x) (vx y') (vx n) (vy x) (vy y') (vy n) (vz x) (vz y') (vz n)) = y') by (destruct y'; reflexivity).
  assert (C2 : pcol2 (M3 (vx x) (vx y') (vx n) (vy x) (vy y') (vy n) (vz x) (vz y') (vz n)) = n) by (destruct n; reflexivity).
  cbn [lin tra]. unfold rigid, rotation. cbn [lin]. rewrite C0, C1, C2.
  repeat split; auto.
  - unfold y'. rewrite pcross_dot_r. reflexivity.
  - unfold y'. rewrite pdot_comm, pcross_dot_l. reflexivity.
  - now rewrite pdot_comm.
  - unfold y'. rewrite pcross_pcross. unfold is_unit in X. rewrite X, XN. apply vec_eq; vunf; ring.
  - (* y' . y = (n x x) . y = x . (y x n) = |y x n| *)
    assert (E : pdot y' y = pdot x (pcross y n)) by (unfold y'; clear; destruct x, y, n; vunf; ring).
    rewrite E. unfold x. rewrite punit_pos by auto. rewrite pdot_scale_l.
    apply Rmult_lt_0_compat; auto. apply Rinv_0_lt_compat. now apply pnorm_pos.
Qed.
