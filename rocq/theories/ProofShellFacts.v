(** * Shell and S-function facts in the form used by the properties. *)
From Coq Require Import ZArith Bool Lia String List.
From Verif Require Import Base Num Vec Aabb Tree Geom Ground Shape Rib Str Mesh Shell Sfun.
From Verif Require Import SpecShell SpecSfun ProofShell ProofSfun.
Import ListNotations.
Local Open Scope num_scope.

Section Facts.
  Context {K : Type} {NK : Num K}.

  Lemma resize_zero : forall s : shell K, resize s 0 = Exn s RuntimeError.
  Proof. reflexivity. Qed.
  Lemma resize_returns : forall (s : shell K) n s', resize s n = Ok s' tt ->
    sh_size s' = n /\ sh_shape s' = sh_shape s /\ sh_affine s' = sh_affine s /\ sh_bbox s' = sh_bbox s /\
    forall t, sh_shape t = sh_shape s -> exists t', resize t n = Ok t' tt /\ sh_ribs t' = sh_ribs s'.
  Proof.
    intros s n s' H. pose proof (resize_ok s n s' H) as (Hn & ER & EL & E1 & E2 & E3 & E4 & E5).
    repeat (split; auto). intros t Ht. rewrite resize_eq by auto. rewrite Ht, ER. cbn. eauto.
  Qed.
  Lemma resize_defined : forall (s : shell K) n, resize s n <> Undef.
  Proof.
    intros s [|n]; [discriminate|]. rewrite resize_eq by discriminate.
    destruct (snd (ribs_of (sh_shape s) (S n))); discriminate.
  Qed.

  Lemma mesh_history : forall gb gb' s t m pose method, reach s -> reach t ->
    sh_shape s = sh_shape t -> sh_size s = sh_size t ->
    same_run (setup_mesh gb s m pose method) (setup_mesh gb' t m pose method).
  Proof. intros. apply setup_mesh_same; auto using reach_inv. Qed.
  Lemma flat_history : forall gb gb' s t g pose method, reach s -> reach t ->
    sh_shape s = sh_shape t -> sh_size s = sh_size t ->
    same_run (setup_flat gb s g pose method) (setup_flat gb' t g pose method).
  Proof. intros. apply setup_flat_same; auto using reach_inv. Qed.

  Lemma flat_last : forall gb (s : shell K) g pose method s' b,
    reach s -> setup_flat gb s g pose method = Ok s' b ->
    rib_result (fun i r => envelop_flat (gb i) r g pose method) s' (sh_size s' - 1) b.
  Proof.
    intros gb s g pose method s' b HR H.
    assert (HR' : reach s') by (eapply r_flat_ok; eauto). apply reach_inv in HR'.
    destruct HR' as (_ & _ & _ & HN & _).
    apply setup_flat_reports in H. destruct H as (_ & _ & flags & LF & HF & ->).
    apply HF. assert (flags <> []).
    { intros ->. cbn in LF. unfold sh_size in LF. destruct (sh_ribs s'); [congruence|discriminate]. }
    rewrite <- LF. clear -H. destruct (exists_last H) as (l & x & ->). rewrite last_last, app_length.
    cbn [length]. replace (length l + 1 - 1)%nat with (length l) by lia.
    rewrite nth_error_app2 by lia. now rewrite Nat.sub_diag.
  Qed.
  Lemma flat_all : forall gb (s : shell K) g pose method s' b,
    setup_flat gb s g pose method = Ok s' b ->
    forall i, i < sh_size s' -> exists c,
      rib_result (fun i r => envelop_flat (gb i) r g pose method) s' i c.
  Proof.
    intros gb s g pose method s' b H i Hi. apply setup_flat_reports in H.
    destruct H as (_ & _ & flags & LF & HF & _).
    destruct (nth_error flags i) as [c|] eqn:E; [eauto|]. apply nth_error_None in E. lia.
  Qed.

  Lemma mesh_false_no_contact : forall gb (s : shell K) m pose method s',
    setup_mesh gb s m pose method = Ok s' false ->
    forall i r, nth_error (sh_ribs s') i = Some r -> exists o, out_at s' i = Ret o /\ no_contact r pose o.
  Proof.
    intros gb s m pose method s' H i r Hr. apply setup_mesh_reports in H.
    destruct H as (_ & _ & local & _ & [(_ & _ & HR)|(_ & flags & LF & HR & HB)]).
    - destruct (HR i) as (r' & o & Hr' & F & HO); [apply nth_error_Some; congruence|].
      assert (r' = r) by congruence. subst r'. exists o. split; auto.
      unfold none_call in F. replace o with (snd (envelop_none r pose)) by (inversion F; reflexivity).
      apply envelop_none_spec.
    - assert (Hi : i < length flags) by (rewrite LF; apply nth_error_Some; congruence).
      destruct (nth_error flags i) as [c|] eqn:E; [|apply nth_error_None in E; lia].
      destruct (HR i c E) as (r1 & cs & _ & _ & r2 & o & H2 & F & HO).
      assert (r2 = r) by congruence. subst r2. exists o. split; auto.
      destruct c.
      + exfalso. assert (false = true); [apply HB; eapply nth_error_In; eauto|discriminate].
      + eapply envelop_no_contact; eauto.
  Qed.

  Lemma bad_flat_setup : forall gb (s : shell K) g pose method, reach s -> ~ valid_method method ->
    exists s', setup_flat gb s g pose method = Exn s' RuntimeError.
  Proof.
    intros gb s g pose method HR HM. apply reach_inv in HR. destruct HR as (_ & _ & _ & HN & _).
    unfold setup_flat. fold (posed s pose). change (sh_ribs (posed s pose)) with (sh_ribs s).
    destruct (sh_ribs s) as [|r rs]; [congruence|]. cbn [run_ribs].
    rewrite (proj2 (envelop_method (gb 0) r [] g pose method HM)). cbn. eauto.
  Qed.
  Lemma bad_mesh_setup : forall gb (s : shell K) m pose method, reach s -> ~ valid_method method ->
    match mesh_intersection m (sh_bbox (update_bbox (transform s pose))) with
    | Ret [] => True
    | Ret _ => exists s', setup_mesh gb s m pose method = Exn s' RuntimeError
    | _ => True
    end.
  Proof.
    intros gb s m pose method HR HM. apply reach_inv in HR. destruct HR as (_ & _ & _ & HN & _).
    rewrite setup_mesh_eq. unfold posed. destruct (mesh_intersection _ _) as [[|t ts]|e|]; auto.
    cbn zeta. pose proof (fun r => refine_nth (update_bbox (transform s pose)) (t :: ts)
      (String.eqb method "geometric" && Nat.ltb 3 (List.length (t :: ts))) 0 r) as HC.
    fold (mesh_cands (update_bbox (transform s pose)) (t :: ts) method) in HC.
    change (sh_ribs (update_bbox (transform s pose))) with (sh_ribs s) in HC.
    remember (mesh_cands (update_bbox (transform s pose)) (t :: ts) method) as cands eqn:Ec. clear Ec.
    destruct (sh_ribs s) as [|r rs]; [congruence|]. cbn [run_ribs].
    unfold mesh_call at 1. rewrite (HC r eq_refl).
    rewrite (proj1 (envelop_method (gb 0) r _ (Flat (Plane (vconst #0) (vconst #0)) #0) pose method HM)).
    cbn. eauto.
  Qed.

  Lemma flat_geo_friction : forall gb (r : rib K) g pose o,
    envelop_flat gb r g pose "geometric" = Ret (true, o) -> o_friction o = fl_friction g.
  Proof.
    intros [[[g0 g1] g2] g3] r g pose o H. unfold envelop_flat in H. cbn in H.
    unfold envelop_geometric_flat in H.
    destruct (int_plane_disk _ _ _) as [s|]; [|discriminate].
    destruct (neps <? seg_length s); [|discriminate]. inversion H. reflexivity.
  Qed.

  Lemma area_sum : forall (s : shell K) os, outs s = Ret os ->
    contact_area s = Ret (fold_left (fun a o => a + o_friction o) os #0).
  Proof. intros s os H. unfold contact_area. now rewrite H. Qed.
  Lemma depth_value : forall (s : shell K) os, outs s = Ret os ->
    contact_depth s = Ret
      (let v := fold_left (fun a o => a + o_volume o) os #0 in
       if v <? neps then v / nofsize (sh_size s)
       else fold_left (fun a o => a + o_depth o * o_volume o) os #0 / v).
  Proof.
    intros s os H. unfold contact_depth. rewrite H. cbn [obind]. unfold sum_by. cbn zeta.
    now destruct (_ <? neps).
  Qed.

  Lemma osize_zero : forall s : shell K, reach s -> sh_osize s = 0 /\ 0 < sh_size s.
  Proof.
    intros s H. apply reach_inv in H. destruct H as (H & _ & _ & HN & _). split; auto.
    unfold sh_size. destruct (sh_ribs s); [congruence|cbn; lia].
  Qed.
  Lemma setup_room : forall gb (s : shell K) pose method, reach s -> sh_size s <= 200 ->
    (forall g, setup_flat gb s g pose method <> Undef) /\
    (forall m, setup_mesh gb s m pose method = Undef ->
       mesh_intersection m (sh_bbox (update_bbox (transform s pose))) = UB).
  Proof.
    intros gb s pose method HR HS. apply reach_inv in HR. split; intros.
    - now apply setup_flat_defined.
    - eapply setup_mesh_defined; eauto.
  Qed.
  Lemma flat_overflow : forall gb (s : shell K) g pose method, reach s -> 200 < sh_size s ->
    valid_method method -> setup_flat gb s g pose method = Undef.
  Proof. intros gb s g pose method HR HS HM. apply reach_inv in HR. now apply setup_flat_total. Qed.
  Lemma mesh_overflow : forall gb (s : shell K) m pose method, reach s -> 200 < sh_size s ->
    mesh_intersection m (sh_bbox (update_bbox (transform s pose))) = Ret [] ->
    setup_mesh gb s m pose method = Undef.
  Proof.
    intros gb s m pose method HR HS HM. apply reach_inv in HR. destruct HR as (_ & HC & _).
    rewrite setup_mesh_eq. unfold posed. rewrite HM.
    destruct (run_total (none_call pose) (fun _ acc => acc) (sh_ribs s) 0 (sh_cells s) false) as [_ R2].
    { intros. unfold none_call. eauto. }
    rewrite R2; [reflexivity|]. rewrite HC. unfold capacity, sh_size in *. lia.
  Qed.

  Lemma data_after_mesh : forall gb (s : shell K) m pose method s' b,
    setup_mesh gb s m pose method = Ok s' b -> forall i, i < sh_size s' -> exists o, out_at s' i = Ret o.
  Proof. exact setup_mesh_written. Qed.
  Lemma data_after_flat : forall gb (s : shell K) g pose method s' b,
    setup_flat gb s g pose method = Ok s' b -> forall i, i < sh_size s' -> exists o, out_at s' i = Ret o.
  Proof. exact setup_flat_written. Qed.

  Lemma agree_all : forall s : shell K,
    accessors_agree contact_point_v contact_point_i s /\ accessors_agree contact_normal_v contact_normal_i s /\
    accessors_agree contact_friction_v contact_friction_i s /\ accessors_agree contact_depth_v contact_depth_i s /\
    accessors_agree contact_area_v contact_area_i s /\ accessors_agree contact_volume_v contact_volume_i s.
  Proof.
    intros s. repeat split; try (eapply accessor_agree; eassumption);
      intros i Hi; eapply accessor_agree; eassumption.
  Qed.
  Lemma vectors_defined : forall s : shell K, (forall i, i < sh_size s -> exists o, out_at s i = Ret o) ->
    (exists v, contact_point_v s = Ret v) /\ (exists v, contact_normal_v s = Ret v) /\
    (exists v, contact_friction_v s = Ret v) /\ (exists v, contact_depth_v s = Ret v) /\
    (exists v, contact_area_v s = Ret v) /\ (exists v, contact_volume_v s = Ret v).
  Proof.
    intros s H. destruct (written_outs s H) as (os & E & _).
    unfold contact_point_v, contact_normal_v, contact_friction_v, contact_depth_v, contact_area_v, contact_volume_v.
    rewrite E. cbn. repeat split; eauto.
  Qed.

  Lemma frames_filled : forall (s : shell K), (forall i, i < sh_size s -> exists o, out_at s i = Ret o) ->
    forall v, sh_size s <= length v -> exists r, contact_affine_v s v = Ret r /\ length r = length v /\
      (forall i, i < sh_size s -> exists a, nth_error r i = Some a /\ contact_affine_i s i = Ret a) /\
      (forall i, sh_size s <= i -> nth_error r i = nth_error v i).
  Proof.
    intros s H v HL. unfold contact_affine_v.
    destruct (fill_enough _ (contact_affine_i s) (sh_size s) 0 v HL) as [r E].
    { intros j Hj. destruct (H j Hj) as [o Ho]. unfold contact_affine_i. cbn [Nat.add]. rewrite Ho. cbn. eauto. }
    exists r. split; auto. apply fill_spec in E. tauto.
  Qed.
  Lemma angles_filled : forall (s : shell K), (forall i, i < sh_size s -> exists o, out_at s i = Ret o) ->
    forall v, sh_size s <= length v -> exists r, relative_angles_v s v = Ret r /\ length r = length v /\
      (forall i, i < sh_size s -> exists a, nth_error r i = Some a /\ relative_angles_i s i = Ret a) /\
      (forall i, sh_size s <= i -> nth_error r i = nth_error v i).
  Proof.
    intros s H v HL. unfold relative_angles_v.
    destruct (fill_enough _ (relative_angles_i s) (sh_size s) 0 v HL) as [r E].
    { intros j Hj. destruct (H j Hj) as [o Ho]. unfold relative_angles_i, contact_affine_i, rib_at. cbn [Nat.add].
      rewrite Ho. cbn [obind]. destruct (nth_error (sh_ribs s) j) eqn:E; [|apply nth_error_None in E; unfold sh_size in Hj; lia].
      cbn [obind]. eauto. }
    exists r. split; auto. apply fill_spec in E. tauto.
  Qed.
  Lemma frames_short : forall (s : shell K), (forall i, i < sh_size s -> exists o, out_at s i = Ret o) ->
    (forall v, length v < sh_size s -> contact_affine_v s v = UB) /\
    (forall v, length v < sh_size s -> relative_angles_v s v = UB).
  Proof.
    intros s H. split; intros v HL; apply fill_short; auto; intros j Hj;
      destruct (H j ltac:(lia)) as [o Ho]; unfold relative_angles_i, contact_affine_i, rib_at; cbn [Nat.add];
      rewrite Ho; cbn [obind]; eauto.
    destruct (nth_error (sh_ribs s) j) eqn:E; [|apply nth_error_None in E; unfold sh_size in HL; lia].
    cbn [obind]. eauto.
  Qed.

  Lemma sfun_data : forall gb1 gb2 m g (s : shell K) hub meth fe s' b,
    sfun_out gb1 gb2 m g s hub meth fe = Ok s' b -> describes_shell s' b.
  Proof.
    intros gb1 gb2 m g s hub meth fe s' b H. destruct (fe =? #0) eqn:E0.
    - destruct (sfun_mesh_mode _ _ _ _ _ _ _ _ _ _ E0 H) as (n & _ & D & _). exact D.
    - destruct (fe =? #1) eqn:E1.
      + destruct (sfun_flat_mode _ _ _ _ _ _ _ _ _ _ E0 E1 H) as (n & c & _ & D & _). exact D.
      + rewrite sfun_invalid_selector in H by auto. discriminate.
  Qed.
  Lemma sfun_fallback : forall gb1 gb2 m g (s : shell K) hub meth fe s' b,
    reach s -> fe =? #0 = true -> sfun_out gb1 gb2 m g s hub meth fe = Ok s' b ->
    exists name, meth_of meth name /\
      ((setup_mesh gb1 s m (decode hub) name = Ok s' true /\ bu_in_mesh b = #1) \/
       ((exists s1, setup_mesh gb1 s m (decode hub) name = Ok s1 false) /\
        (exists t c, setup_flat gb2 s g (decode hub) name = Ok t c /\ same_answers s' t) /\
        bu_in_mesh b = #0)).
  Proof.
    intros gb1 gb2 m g s hub meth fe s' b HR HE H.
    destruct (sfun_mesh_mode _ _ _ _ _ _ _ _ _ _ HE H) as (n & HM & D & [HX|(s1 & c & H1 & H2 & H3)]).
    - exists n. auto.
    - exists n. split; auto. right. split; [eauto|]. split; auto.
      eapply fallback_same; eauto.
  Qed.
  (** Which setup runs, forward: the call succeeds whenever the setups do. *)
  Lemma sfun_runs : forall gb1 gb2 m g (s : shell K) hub meth fe name s1,
    fe =? #0 = true -> meth_of meth name ->
    setup_mesh gb1 s m (decode hub) name = Ok s1 true ->
    exists b, sfun_out gb1 gb2 m g s hub meth fe = Ok s1 b.
  Proof.
    intros gb1 gb2 m g s hub meth fe name s1 HE HM H. apply sfun_method_spec in HM.
    unfold sfun_out. rewrite HM, HE, H.
    destruct (fill_bus_total s1 (nofbool true) (setup_mesh_written _ _ _ _ _ _ _ H)) as [b E].
    rewrite E. eauto.
  Qed.
End Facts.
