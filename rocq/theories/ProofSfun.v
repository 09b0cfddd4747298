(** * Proofs about the S-function interface, any number type. *)
From Coq Require Import ZArith Bool Lia String List.
From Verif Require Import Base Num Vec Aabb Tree Geom Ground Shape Rib Str Mesh Shell Sfun.
From Verif Require Import SpecShell SpecSfun ProofShell.
Import ListNotations.
Local Open Scope num_scope.

Section PSfun.
  Context {K : Type} {NK : Num K}.

  Lemma encode_column_major : forall a : affine K, encode a = column_major a.
  Proof. reflexivity. Qed.
  Lemma decode_encode : forall (a : affine K) d, decode (fun k => nth k (encode a) d) = a.
  Proof. intros [[] []] d. reflexivity. Qed.
  Lemma encode_decode : forall (h : nat -> K) r c, r < 3 -> c < 4 ->
    nth_error (encode (decode h)) (r + 4 * c) = Some (h (r + 4 * c)%nat).
  Proof.
    intros h r c Hr Hc.
    destruct c as [|[|[|[|c]]]]; [| | | |lia];
      (destruct r as [|[|[|r]]]; [| | |lia]); reflexivity.
  Qed.

  Lemma flat_map_slots : forall A (f : A -> list K) l i x, (forall y, In y l -> length (f y) = 16) ->
    nth_error l i = Some x -> firstn 16 (skipn (16 * i) (flat_map f l)) = f x.
  Proof.
    intros A f l. induction l as [|y l IH]; intros i x HL H; [destruct i; discriminate|].
    assert (HY : length (f y) = 16) by (apply HL; now left).
    destruct i as [|i].
    - inversion H; subst. cbn [flat_map].
      rewrite Nat.mul_0_r. cbn [skipn]. rewrite firstn_app, HY, Nat.sub_diag, firstn_O, app_nil_r.
      rewrite <- HY at 1. apply firstn_all.
    - cbn in H. cbn [flat_map]. rewrite skipn_app, HY.
      replace (16 * S i - 16)%nat with (16 * i)%nat by lia.
      rewrite (skipn_all2 (f y)) by lia. cbn [app]. apply IH; auto. intros z Hz. apply HL. now right.
  Qed.
  Lemma flat_map_len : forall A (f : A -> list K) l, (forall y, In y l -> length (f y) = 16) ->
    length (flat_map f l) = (16 * length l)%nat.
  Proof.
    intros A f l. induction l as [|y l IH]; intros HL; auto. cbn [flat_map length].
    rewrite app_length, IH, HL; [lia|now left|]. intros z Hz. apply HL. now right.
  Qed.

  Lemma rib_slot_len : forall (s : shell K) i x, rib_slot s i = Ret x -> length (fst (fst x)) = 16.
  Proof.
    intros s i x H. unfold rib_slot in H. destruct (Nat.ltb i (sh_size s)).
    - destruct (contact_affine_i s i); try discriminate. destruct (contact_depth_i s i); try discriminate.
      destruct (contact_friction_i s i); try discriminate. cbn [obind] in H. inversion H; subst.
      reflexivity.
    - inversion H; subst. reflexivity.
  Qed.

  Lemma fill_bus_spec : forall (s : shell K) im b, fill_bus s im = Ret b ->
    describes_shell s b /\ bu_in_mesh b = im.
  Proof.
    intros s im b H. unfold fill_bus in H.
    destruct (contact_affine s) as [a|e|] eqn:EA; cbn [obind] in H; try discriminate.
    destruct (contact_depth s) as [d|e|] eqn:ED; cbn [obind] in H; try discriminate.
    destruct (contact_friction s) as [f|e|] eqn:EF; cbn [obind] in H; try discriminate.
    destruct (omap (rib_slot s) (seq 0 max_ribs)) as [slots|e|] eqn:ES; cbn [obind] in H; try discriminate.
    inversion H; subst b. clear H. apply omap_inv in ES. rewrite seq_length in ES. destruct ES as [L N].
    unfold max_ribs in L. split; [|reflexivity].
    assert (HL : forall y, In y slots -> length (fst (fst y)) = 16).
    { intros y Hy. apply In_nth_error in Hy. destruct Hy as [i Hi].
      assert (i < 20) by (rewrite <- L; apply nth_error_Some; congruence).
      destruct (N i i) as (y' & Hy' & E).
      { rewrite nth_error_nth' with (d := 0) by (rewrite seq_length; unfold max_ribs; auto). now rewrite seq_nth. }
      eapply rib_slot_len. replace y with y' by congruence. exact E. }
    assert (SL : forall i, i < 20 -> exists x, rib_slot s i = Ret x /\
      slot (Bus (encode a) d f (flat_map (fun x => fst (fst x)) slots) (map (fun x => snd (fst x)) slots)
              (map snd slots) im) i = (fst (fst x), Some (snd (fst x)), Some (snd x))).
    { intros i Hi. destruct (N i i) as (x & Hx & E).
      { rewrite nth_error_nth' with (d := 0) by (rewrite seq_length; unfold max_ribs; auto). now rewrite seq_nth. }
      exists x. split; auto. unfold slot. cbn [bu_ribs_affine bu_ribs_rho bu_ribs_friction].
      rewrite (flat_map_slots _ _ _ _ _ HL Hx), !nth_error_map, Hx. reflexivity. }
    unfold describes_shell. cbn [bu_shell_affine bu_shell_rho bu_shell_friction bu_ribs_affine bu_ribs_rho bu_ribs_friction].
    split; [exists a; split; auto|]. split; auto. split; auto.
    split; [rewrite flat_map_len by auto; rewrite L; reflexivity|].
    split; [now rewrite map_length|]. split; [now rewrite map_length|].
    split; intros i Hi Hs; destruct (SL i Hi) as (x & E & S); rewrite S; unfold rib_slot in E.
    - destruct (Nat.ltb_spec i (sh_size s)); [|lia].
      destruct (contact_affine_i s i) as [ai|e|]; cbn [obind] in E; try discriminate.
      destruct (contact_depth_i s i) as [di|e|]; cbn [obind] in E; try discriminate.
      destruct (contact_friction_i s i) as [fi|e|]; cbn [obind] in E; try discriminate.
      inversion E; subst x. exists ai, di, fi. repeat (split; [reflexivity|]). reflexivity.
    - destruct (Nat.ltb_spec i (sh_size s)); [lia|]. inversion E; subst x. reflexivity.
  Qed.

  (** The bus is always produced once every rib has data. *)
  Lemma fill_bus_total : forall (s : shell K) im, all_written s -> exists b, fill_bus s im = Ret b.
  Proof.
    intros s im HW. destruct (written_outs s HW) as (os & EO & L & N).
    assert (P : exists p, contact_point s = Ret p).
    { unfold contact_point. rewrite EO. cbn [obind]. destruct (_ <? neps); eauto. }
    assert (Q : exists p, contact_normal s = Ret p).
    { unfold contact_normal. rewrite EO. cbn [obind]. destruct (_ <? neps); eauto. }
    assert (D : exists p, contact_depth s = Ret p).
    { unfold contact_depth. rewrite EO. cbn [obind]. destruct (_ <? neps); eauto. }
    assert (F : exists p, contact_friction s = Ret p).
    { unfold contact_friction. rewrite EO. cbn [obind]. destruct (_ <? neps); eauto. }
    destruct P as [p P], Q as [n Q], D as [d D], F as [f F].
    unfold fill_bus, contact_affine. rewrite P, Q, D, F. cbn [obind].
    assert (R : forall l, exists r, omap (rib_slot s) l = Ret r).
    { induction l as [|i l [r IH]]; cbn; [eauto|].
      assert (E : exists x, rib_slot s i = Ret x).
      { unfold rib_slot. destruct (Nat.ltb_spec i (sh_size s)); [|eauto].
        destruct (HW i H) as [o Ho]. unfold contact_affine_i, contact_depth_i, contact_friction_i.
        rewrite Ho. cbn. eauto. }
      destruct E as [x E]. rewrite E. cbn. rewrite IH. cbn. eauto. }
    destruct (R (seq 0 max_ribs)) as [r E]. rewrite E. cbn. eauto.
  Qed.

  Lemma sfun_method_spec : forall m meth, sfun_method m = Ret meth <-> meth_of m meth.
  Proof.
    intros m meth. unfold sfun_method, meth_of.
    destruct (m =? #0) eqn:E0; [|destruct (m =? #1) eqn:E1]; split; intros H;
      try discriminate; try (inversion H; subst); intuition (try discriminate; try congruence).
  Qed.
  Lemma sfun_invalid_method : forall gb1 gb2 m g (s : shell K) hub meth fe,
    meth =? #0 = false -> meth =? #1 = false ->
    sfun_out gb1 gb2 m g s hub meth fe = Exn s RuntimeError.
  Proof. intros. unfold sfun_out, sfun_method. now rewrite H, H0. Qed.
  Lemma sfun_invalid_selector : forall gb1 gb2 m g (s : shell K) hub meth fe,
    fe =? #0 = false -> fe =? #1 = false ->
    sfun_out gb1 gb2 m g s hub meth fe = Exn s RuntimeError.
  Proof.
    intros. unfold sfun_out, sfun_method. rewrite H, H0.
    destruct (meth =? #0); [reflexivity|]. destruct (meth =? #1); reflexivity.
  Qed.

  Lemma sfun_mesh_mode : forall gb1 gb2 m g (s : shell K) hub meth fe s' b,
    fe =? #0 = true -> sfun_out gb1 gb2 m g s hub meth fe = Ok s' b ->
    exists name, meth_of meth name /\ describes_shell s' b /\
      ((setup_mesh gb1 s m (decode hub) name = Ok s' true /\ bu_in_mesh b = #1) \/
       (exists s1 c, setup_mesh gb1 s m (decode hub) name = Ok s1 false /\
          setup_flat gb2 s1 g (decode hub) name = Ok s' c /\ bu_in_mesh b = #0)).
  Proof.
    intros gb1 gb2 m g s hub meth fe s' b HE H. unfold sfun_out in H.
    destruct (sfun_method meth) as [name|e|] eqn:EM; try discriminate. rewrite HE in H.
    exists name. split; [now apply sfun_method_spec|].
    destruct (setup_mesh gb1 s m (decode hub) name) as [s1 [|]|s1 e|] eqn:E1; try discriminate.
    - destruct (fill_bus s1 (nofbool true)) as [b'|e|] eqn:EB; try discriminate.
      inversion H; subst s1 b'. apply fill_bus_spec in EB. destruct EB. split; auto.
    - destruct (setup_flat gb2 s1 g (decode hub) name) as [s2 c|s2 e|] eqn:E2; try discriminate.
      destruct (fill_bus s2 (nofbool false)) as [b'|e|] eqn:EB; try discriminate.
      inversion H; subst s2 b'. apply fill_bus_spec in EB. destruct EB. split; auto. right. eauto.
  Qed.
  Lemma sfun_flat_mode : forall gb1 gb2 m g (s : shell K) hub meth fe s' b,
    fe =? #0 = false -> fe =? #1 = true -> sfun_out gb1 gb2 m g s hub meth fe = Ok s' b ->
    exists name c, meth_of meth name /\ describes_shell s' b /\
      setup_flat gb2 s g (decode hub) name = Ok s' c /\ bu_in_mesh b = #1.
  Proof.
    intros gb1 gb2 m g s hub meth fe s' b HE HF H. unfold sfun_out in H.
    destruct (sfun_method meth) as [name|e|] eqn:EM; try discriminate. rewrite HE, HF in H.
    destruct (setup_flat gb2 s g (decode hub) name) as [s2 c|s2 e|] eqn:E2; try discriminate.
    destruct (fill_bus s2 (nofbool true)) as [b'|e|] eqn:EB; try discriminate.
    inversion H; subst s2 b'. apply fill_bus_spec in EB. destruct EB. exists name, c.
    split; [now apply sfun_method_spec|]. auto.
  Qed.

  (** After a mesh setup without contact, the flat setup gives what it gives
      on the shell before. *)
  Lemma fallback_same : forall gb1 gb2 gb3 m g (s s1 s' : shell K) pose name b c,
    reach s -> setup_mesh gb1 s m pose name = Ok s1 b -> setup_flat gb2 s1 g pose name = Ok s' c ->
    exists t d, setup_flat gb3 s g pose name = Ok t d /\ same_answers s' t.
  Proof.
    intros gb1 gb2 gb3 m g s s1 s' pose name b c HR H1 H2.
    assert (HR1 : reach s1) by (eapply r_mesh_ok; eauto).
    assert (HS : sh_shape s1 = sh_shape s /\ sh_ribs s1 = sh_ribs s).
    { split; [|apply setup_mesh_reports in H1; tauto].
      rewrite setup_mesh_eq in H1. destruct (mesh_intersection _ _) as [[|t ts]|e|]; try discriminate.
      - destruct (run_ribs _ _ _ _ _ _); try discriminate. inversion H1; subst; reflexivity.
      - cbn zeta in H1. apply with_cells_ok in H1. destruct H1 as (cells & _ & ->). reflexivity. }
    pose proof (setup_flat_same gb2 gb3 s1 s g pose name (reach_inv _ HR1) (reach_inv _ HR) (proj1 HS)) as HX.
    unfold sh_size in HX. rewrite (proj2 HS) in HX. specialize (HX eq_refl). rewrite H2 in HX.
    destruct (setup_flat gb3 s g pose name) as [t d|t e|]; cbn in HX; try contradiction.
    exists t, d. tauto.
  Qed.
End PSfun.
