(** * The MATLAB classes: what their methods return. *)
From Coq Require Import ZArith Bool String List Lia.
From Verif Require Import Base Num Vec Aabb Geom Ground Shape Rib Str Mesh Shell Sfun Mex SpecMex
  ProofMex ProofMexB ProofMexC ProofMexD Matlab SpecMatlab ProofMatlab ProofMatlabB ProofMatlabC.
Import ListNotations.
Local Open Scope num_scope.

Section Values.
  Context {K : Type} {NK : Num K}.
  Implicit Types (w : world K) (o : obj K) (m : mx K) (e : env K).

  (** Every execution ends like this. *)
  Definition all {A} e w (p : prog K A) (Q : world K -> ending A -> Prop) : Prop :=
    forall tr w' r, exec e w p tr w' r -> Q w' r.

  Lemma all_always {A} e w (p : prog K A) Q : all e w p Q -> always e w p (fun _ w' r => Q w' r).
  Proof. intros H. split; [apply exec_total|]. intros tr w' r Hx. now apply (H tr). Qed.

  Lemma all_weak {A} e w (p : prog K A) (Q R : world K -> ending A -> Prop) :
    all e w p Q -> (forall w' r, Q w' r -> R w' r) -> all e w p R.
  Proof. intros H Hi tr w' r Hx. apply Hi. now apply (H tr). Qed.

  Lemma all_ret {A} e w (x : A) (Q : world K -> ending A -> Prop) : Q w (Done x) -> all e w (PRet x) Q.
  Proof. intros H tr w' r Hx. now inversion Hx; subst. Qed.
  Lemma all_err {A} e w (Q : world K -> ending A -> Prop) : Q w Failed -> all e w PErr Q.
  Proof. intros H tr w' r Hx. now inversion Hx; subst. Qed.

  Lemma all_bind {A B} e w (p : prog K A) (g : A -> prog K B) Q :
    all e w p (fun w1 r1 => match r1 with
                            | Done x => all e w1 (g x) Q
                            | Failed => Q w1 Failed
                            | Crash => Q w1 Crash end) ->
    all e w (pbind p g) Q.
  Proof.
    intros H tr w' r Hx. apply exec_bind in Hx as [(x & t1 & w1 & t2 & H1 & H2 & _)|[[H1 ->]|[H1 ->]]];
      apply H in H1; auto. now apply (H1 t2).
  Qed.

  Lemma all_guard {A} e w (c : prog K unit) (p : prog K A) Q :
    all e w p (fun w1 r1 => match r1 with Done x => Q w1 (Done x) | _ => False end) ->
    all e w (guard c p) Q.
  Proof.
    intros H tr w' r Hx. apply exec_guard in Hx as [(x & -> & H1)|[[-> H1]|(t1 & w1 & t2 & r2 & H1 & _)]];
      apply H in H1; easy.
  Qed.

  Lemma all_mex1 e w f args Q :
    (forall z, fresh w z -> exists w1 m, mex_call f (at_address e z) w 1 args = Ok w1 [m] /\ Q w1 (Done m)) ->
    all e w (mex1 f args) Q.
  Proof.
    intros H tr w' r Hx. unfold mex1 in Hx.
    inversion Hx; subst;
      match goal with Hf : fresh _ ?z, Hm : mex_call _ _ _ _ _ = _ |- _ =>
        destruct (H z Hf) as (w2 & m2 & Hc & HQ); rewrite Hc in Hm; try discriminate; injection Hm as <- <- end.
    match goal with Hr : exec _ _ (PRet _) _ _ _ |- _ => now inversion Hr; subst end.
  Qed.

  Lemma all_mex1_exn e w f args (Q : world K -> ending (mx K) -> Prop) :
    (forall z, fresh w z -> exists x, mex_call f (at_address e z) w 1 args = Exn w x) -> Q w Failed ->
    all e w (mex1 f args) Q.
  Proof.
    intros H HQ tr w' r Hx. unfold mex1 in Hx.
    inversion Hx; subst;
      match goal with Hf : fresh _ ?z, Hm : mex_call _ _ _ _ _ = _ |- _ =>
        destruct (H z Hf) as (x2 & Hc); rewrite Hc in Hm; try discriminate; injection Hm as <- <- end.
    match goal with Hr : exec _ _ PErr _ _ _ |- _ => now inversion Hr; subst end.
  Qed.

  Lemma all_mex0 e w f args Q :
    (forall z, fresh w z -> exists w1 outs, mex_call f (at_address e z) w 0 args = Ok w1 outs /\ Q w1 (Done tt)) ->
    all e w (mex0 f args) Q.
  Proof.
    intros H tr w' r Hx. unfold mex0 in Hx.
    inversion Hx; subst;
      match goal with Hf : fresh _ ?z, Hm : mex_call _ _ _ _ _ = _ |- _ =>
        destruct (H z Hf) as (w2 & m2 & Hc & HQ); rewrite Hc in Hm; try discriminate; injection Hm as <- <- end.
    match goal with Hr : exec _ _ (PRet _) _ _ _ |- _ => now inversion Hr; subst end.
  Qed.

  Lemma all_mex0_exn e w f args (Q : world K -> ending unit -> Prop) :
    (forall z, fresh w z -> exists x, mex_call f (at_address e z) w 0 args = Exn w x) -> Q w Failed ->
    all e w (mex0 f args) Q.
  Proof.
    intros H HQ tr w' r Hx. unfold mex0 in Hx.
    inversion Hx; subst;
      match goal with Hf : fresh _ ?z, Hm : mex_call _ _ _ _ _ = _ |- _ =>
        destruct (H z Hf) as (x2 & Hc); rewrite Hc in Hm; try discriminate; injection Hm as <- <- end.
    match goal with Hr : exec _ _ PErr _ _ _ |- _ => now inversion Hr; subst end.
  Qed.

  Lemma handle_inj a b : mx_handle (K:=K) a = mx_handle b -> a = b.
  Proof. unfold mx_handle. congruence. Qed.

  Lemma all_acme e w f args Q :
    (forall z, fresh w z -> exists w1 b o, mex_call f (at_address e z) w 1 args = Ok w1 [mx_handle b] /\
       live w1 b o /\ Q w1 (Done o)) ->
    all e w (acme f args) Q.
  Proof.
    intros H. apply all_bind, all_mex1. intros z Hz. destruct (H z Hz) as (w1 & b & x & Hc & Hl & HQ).
    exists w1, (mx_handle b). split; [easy|]. intros tr w' r Hx. unfold live in Hl. inversion Hx; subst.
    - match goal with Hh : mx_handle b = mx_handle _ |- _ => apply handle_inj in Hh; subst end.
      match goal with Hh : hfind _ _ = Some _ |- _ => rewrite Hl in Hh; injection Hh as <- end.
      match goal with Hr : exec _ _ (PRet _) _ _ _ |- _ => now inversion Hr; subst end.
    - match goal with Hh : mx_handle b = mx_handle _ |- _ => apply handle_inj in Hh; subst end.
      match goal with Hh : hfind _ _ = None |- _ => congruence end.
    - match goal with Hh : forall c, mx_handle b <> mx_handle c |- _ => now destruct (Hh b) end.
  Qed.

  Lemma all_loop {A} e (body : mx K -> prog K A) (vals : list A) (I : nat -> world K -> Prop) :
    (forall k x w, nth_error vals k = Some x -> I k w ->
       all e w (body (mx_int64 (Z.of_nat k + 1)%Z)) (fun w' r => r = Done x /\ I (S k) w')) ->
    forall w, I O w -> all e w (loop (List.length vals) 1 body)
      (fun w' r => r = Done vals /\ I (List.length vals) w').
  Proof.
    intros Hb.
    assert (G : forall rest k w, (forall j, nth_error rest j = nth_error vals (k + j)) -> I k w ->
      all e w (loop (List.length rest) (Z.of_nat k + 1)%Z body)
        (fun w' r => r = Done rest /\ I (k + List.length rest)%nat w')).
    { induction rest as [|x rest IH]; intros k w Hr Hi; cbn [loop List.length].
      - apply all_ret. rewrite Nat.add_0_r. now split.
      - apply all_bind. pose proof (Hr O) as H0. rewrite Nat.add_0_r in H0. cbn in H0.
        refine (all_weak _ _ _ _ _ (Hb k x w (eq_sym H0) Hi) _). intros w1 r1 [-> Hi1].
        apply all_bind. replace (Z.of_nat k + 1 + 1)%Z with (Z.of_nat (S k) + 1)%Z by lia.
        refine (all_weak _ _ _ _ _ (IH (S k) w1 _ Hi1) _).
        { intros j. specialize (Hr (S j)). cbn in Hr. rewrite Hr. f_equal. lia. }
        intros w2 r2 [-> Hi2]. apply all_ret. split; [easy|].
        now replace (k + S (List.length rest))%nat with (S k + List.length rest)%nat by lia. }
    intros w Hi. exact (G vals O w (fun j => eq_refl) Hi).
  Qed.

  (** Results of [omap] over the indices. *)
  Lemma omap_nth {A B} (f : A -> outcome B) l v : omap f l = Ret v ->
    List.length v = List.length l /\
    forall k x, nth_error v k = Some x -> exists i, nth_error l k = Some i /\ f i = Ret x.
  Proof.
    revert v. induction l as [|y l IH]; cbn; intros v H.
    - injection H as <-. split; [easy|]. now intros [].
    - destruct (f y) as [b| |] eqn:E; try discriminate. cbn in H.
      destruct (omap f l) as [bs| |] eqn:E2; try discriminate. cbn in H. injection H as <-.
      destruct (IH bs eq_refl) as [L N]. split; [cbn; now rewrite L|].
      intros [|k] x Hx; cbn in *; [injection Hx as <-; eauto|auto].
  Qed.
  Lemma nth_seq n k i : nth_error (seq 0 n) k = Some i -> i = k /\ (k < n)%nat.
  Proof.
    intros H. assert (k < n)%nat as Hk.
    { rewrite <- (seq_length n 0). apply nth_error_Some. congruence. }
    split; [|easy]. rewrite (nth_error_nth' _ 0%nat) in H by now rewrite seq_length.
    rewrite seq_nth in H by easy. injection H as <-. lia.
  Qed.

  Lemma whole_loop e i : (1 <= i < 2 ^ 31)%Z -> whole e (mx_int64 i) i.
  Proof. intros H. left. exists I64, false. split; [easy|]. cbn. lia. Qed.

  Section Shell.
  Variables (e : env K) (w : world K) (a : Z) (s : shell K).
  Hypothesis Hl : live w a (OShell s).

  Lemma all_size : all e w (mex1 FShell [text "size"; mx_handle a])
    (fun w' r => w' = w /\ r = Done (mx_int64 (Z.of_nat (sh_size s)))).
  Proof.
    apply all_mex1. intros z _. exists w, (mx_int64 (Z.of_nat (sh_size s))).
    split; [|easy]. exact (size_through (at_address e z) w a s Hl).
  Qed.

  Lemma all_vec c (g : shell K -> nat -> outcome (mx K)) (v : list (mx K)) :
    In (c, shell_at_i g) shell_table -> ~ In Ascii.zero (lit c) ->
    (Z.of_nat (sh_size s) < 2 ^ 31)%Z -> omap (g s) (seq 0 (sh_size s)) = Ret v ->
    all e w (vec_m c (Obj FShell (mx_handle a)) []) (fun w' r => w' = w /\ r = Done (RArrs v)).
  Proof.
    intros Hin Hz Hn Hv. unfold vec_m. cbn [o_handle].
    apply all_bind. refine (all_weak _ _ _ _ _ all_size _). intros w1 r1 [-> ->].
    apply all_bind. refine (all_weak _ _ _ _ _ all_size _). intros w1 r1 [-> ->].
    apply all_bind. cbn [for_size mx_int64]. rewrite Nat2Z.id.
    destruct (omap_nth _ _ _ Hv) as [L N]. rewrite seq_length in L. rewrite <- L.
    refine (all_weak _ _ _ _ _ (all_loop e _ v (fun _ w' => w' = w) _ w eq_refl) _).
    - intros k x w1 Hx ->. destruct (N k x Hx) as (i & Hi & Hg). apply nth_seq in Hi as [-> Hk].
      apply all_mex1. intros z _. exists w, x. split; [|easy].
      rewrite (shell_at_i_ok (at_address e z) w a s c g (mx_int64 (Z.of_nat k + 1)) (Z.of_nat k + 1) Hin Hz Hl);
        [|apply whole_loop; lia|lia].
      replace (Z.to_nat (Z.of_nat k + 1 - 1)) with k by lia. now rewrite Hg.
    - cbn beta. intros w1 r1 [-> ->]. now apply all_ret.
  Qed.

  Lemma grown_refl : forall w, grown w w [].
  Proof. intros u. exists []. repeat split; [constructor|easy]. Qed.

  Lemma grown_new u u' l f b o : grown u u' l -> fresh u' b -> grown u (wnew f u' b o) (l ++ [o]).
  Proof.
    intros (new & H1 & H2 & H3 & H4 & H5) Hf. exists ((b, o) :: new).
    unfold fresh in Hf. rewrite H1, map_app, in_app_iff in Hf.
    split; [cbn; now rewrite H1|]. split; [cbn; rewrite H2, rev_app_distr; reflexivity|].
    split; [cbn; constructor; tauto|]. split; [|exact H5].
    intros x [<-|Hx]; [unfold fresh; tauto|auto].
  Qed.

  Lemma grown_live u u' l b o : grown u u' l -> live u b o -> live u' b o.
  Proof.
    intros (new & H1 & _ & _ & H4 & _) Hb. unfold live in *. rewrite H1.
    assert (~ In b (map fst new)).
    { intros Hi. apply (H4 b Hi). apply hfind_in in Hb. now apply (in_map fst) in Hb. }
    clear H4 H1. induction new as [|[x y] new IH]; cbn; [easy|]. cbn in H.
    destruct (Z.eqb_spec b x); [subst; tauto|]. apply IH. tauto.
  Qed.

  Lemma all_points c (g : shell K -> nat -> outcome (vec3 K)) (v : list (vec3 K)) :
    In (c, shell_point_i g) shell_table -> ~ In Ascii.zero (lit c) ->
    (Z.of_nat (sh_size s) < 2 ^ 31)%Z -> omap (g s) (seq 0 (sh_size s)) = Ret v ->
    all e w (points_m c (Obj FShell (mx_handle a)) [])
      (fun w' r => r = Done (RAcmes (map OPoint v)) /\ grown w w' (map OPoint v)).
  Proof.
    intros Hin Hz Hn Hv. unfold points_m. cbn [o_handle].
    apply all_bind. refine (all_weak _ _ _ _ _ all_size _). intros w1 r1 [-> ->].
    apply all_bind. refine (all_weak _ _ _ _ _ all_size _). intros w1 r1 [-> ->].
    apply all_bind. cbn [for_size mx_int64]. rewrite Nat2Z.id.
    destruct (omap_nth _ _ _ Hv) as [L N]. rewrite seq_length in L. rewrite <- L.
    rewrite <- (map_length OPoint v).
    refine (all_weak _ _ _ _ _
      (all_loop e _ (map OPoint v) (fun k w' => grown w w' (firstn k (map OPoint v))) _ w (grown_refl w)) _).
    - intros k x w1 Hx Hg1. rewrite nth_error_map in Hx.
      destruct (nth_error v k) as [p|] eqn:Hp; [|discriminate]. injection Hx as <-.
      destruct (N k p Hp) as (i & Hi & Hgi). apply nth_seq in Hi as [-> Hk].
      pose proof (grown_live _ _ _ _ _ Hg1 Hl) as Hl1.
      apply all_acme. intros z Hz1. exists (wnew FShell w1 z (OPoint p)), z, (OPoint p). split; [|split; [|split; [easy|]]].
      + rewrite (mex_runs FShell _ w1 1 _ c (shell_point_i g)); [|now apply text_command|exact Hin].
        unfold shell_point_i, self_shell.
        rewrite (self_ok as_shell 3 w1 1 [_] _ a s (OShell s) eq_refl Hl1 eq_refl).
        cbn [obind arg nth_error].
        rewrite (whole_index _ (mx_int64 (Z.of_nat k + 1)) (Z.of_nat k + 1)); [|apply whole_loop; lia|lia].
        cbn [obind snd]. replace (Z.to_nat (Z.of_nat k + 1 - 1)) with k by lia. rewrite Hgi. reflexivity.
      + unfold live. cbn. now rewrite Z.eqb_refl.
      + assert (firstn (S k) (map OPoint v) = firstn k (map OPoint v) ++ [OPoint p]) as ->.
        { clear -Hp. revert k Hp. induction v as [|y v' IH]; intros [|k] Hp; try discriminate.
          - cbn in *. now injection Hp as ->.
          - cbn in *. f_equal. now apply IH. }
        now apply grown_new.
    - cbn beta. intros w1 r1 [-> Hg]. apply all_ret. split; [easy|]. now rewrite firstn_all in Hg.
  Qed.
  End Shell.

  (** *** One-call methods. *)
  Lemma all_get e w f c h m :
    (forall z, answers f (at_address e z) w [text c; h] m) ->
    all e w (get f c (Obj f h) []) (fun w' r => w' = w /\ r = Done (RArr m)).
  Proof.
    intros H. apply all_bind, all_mex1. intros z _. exists w, m. split; [apply H|]. now apply all_ret.
  Qed.
  Lemma all_get1 e w f c h v m :
    (forall z, answers f (at_address e z) w [text c; h; to_mx v] m) ->
    all e w (get1 f c (Obj f h) [v]) (fun w' r => w' = w /\ r = Done (RArr m)).
  Proof.
    intros H. apply all_bind, all_mex1. intros z _. exists w, m. split; [apply H|]. now apply all_ret.
  Qed.
  Lemma all_make e w f c h o :
    (forall z, mex_call f (at_address e z) w 1 [text c; h] = Ok (wnew f w z o) [mx_handle z]) ->
    all e w (make f c (Obj f h) []) (fun w' r => r = Done (RAcme o) /\ grown w w' [o]).
  Proof.
    intros H. apply all_bind, all_acme. intros z Hz. exists (wnew f w z o), z, o. split; [apply H|].
    split; [unfold live; cbn; now rewrite Z.eqb_refl|]. apply all_ret. split; [easy|].
    apply (grown_new w w []); [apply grown_refl|easy].
  Qed.

  (** *** Flats. *)
  Lemma flat_get_ok e w a g n f :
    In (n, flat_get f) flat_table -> ~ In Ascii.zero (lit n) -> live w a (OFlat g) ->
    answers FFlat e w [text n; mx_handle a] (f g).
  Proof.
    intros Hin Hz Hl. unfold answers. rewrite (mex_runs FFlat e w 1 _ n (flat_get f)); [|now apply text_command|exact Hin].
    unfold flat_get, self_flat. now rewrite (self_ok as_flat 2 w 1 [] _ a g _ eq_refl Hl eq_refl).
  Qed.
  Lemma flat_make_ok e w a g n f :
    In (n, flat_make f) flat_table -> ~ In Ascii.zero (lit n) -> live w a (OFlat g) ->
    mex_call FFlat e w 1 [text n; mx_handle a] = Ok (wnew FFlat w (e_new e) (f g)) [mx_handle (e_new e)].
  Proof.
    intros Hin Hz Hl. rewrite (mex_runs FFlat e w 1 _ n (flat_make f)); [|now apply text_command|exact Hin].
    unfold flat_make, self_flat. now rewrite (self_ok as_flat 2 w 1 [] _ a g _ eq_refl Hl eq_refl).
  Qed.
  Lemma get_vec_mx (v : vec3 K) : get_vec (mx_vec v) = Ret v.
  Proof. now destruct v. Qed.
  Lemma set_origin_ok e w a g v : live w a (OFlat g) ->
    mex_call FFlat e w 0 [text "setOrigin"; mx_handle a; mx_vec v]
    = Ok (wset w a (OFlat (Flat (Plane v (pnormal (fl_plane g))) (fl_friction g)))) [].
  Proof.
    intros Hl.
    rewrite (mex_runs FFlat e w 0 _ "setOrigin" flat_set_origin); [|apply text_command; cbn; intuition discriminate|cbn; tauto].
    unfold flat_set_origin. cbn [arg nth_error obind].
    cbn [get_handle mx_handle numel fold_right Nat.mul Nat.add Nat.eqb head obind].
    unfold live in Hl. rewrite Hl. cbn [as_flat obind]. now rewrite get_vec_mx.
  Qed.
  Lemma set_normal_ok e w a g v : live w a (OFlat g) ->
    mex_call FFlat e w 0 [text "setNormal"; mx_handle a; mx_vec v]
    = Ok (wset w a (OFlat (Flat (Plane (porigin (fl_plane g)) v) (fl_friction g)))) [].
  Proof.
    intros Hl.
    rewrite (mex_runs FFlat e w 0 _ "setNormal" flat_set_normal); [|apply text_command; cbn; intuition discriminate|cbn; tauto].
    unfold flat_set_normal, self_flat. rewrite (self_ok as_flat 3 w 0 [_] _ a g _ eq_refl Hl eq_refl).
    cbn [arg nth_error obind]. now rewrite get_vec_mx.
  Qed.

  Lemma hset_hset h (a : Z) o o' : hset (hset h a o) a o' = hset (K:=K) h a o'.
  Proof.
    induction h as [|[b x] h IH]; cbn; [easy|]. destruct (Z.eqb_spec a b) as [<-|Hn]; cbn.
    - now rewrite Z.eqb_refl.
    - destruct (Z.eqb_spec a b); [easy|]. now rewrite IH.
  Qed.

  Lemma all_set_plane e w a g p : live w a (OFlat g) ->
    all e w (flat_set_plane_m (Obj FFlat (mx_handle a)) [VPlane p])
      (fun w' r => r = Done RNone /\ changed_to w w' a (OFlat (Flat p (fl_friction g)))).
  Proof.
    intros Hl. cbn [flat_set_plane_m o_handle]. apply all_bind, all_mex0. intros z _.
    eexists _, _. split; [now apply (set_origin_ok _ w a g)|].
    assert (Hl1 : live (wset w a (OFlat (Flat (Plane (porigin p) (pnormal (fl_plane g))) (fl_friction g)))) a
      (OFlat (Flat (Plane (porigin p) (pnormal (fl_plane g))) (fl_friction g)))).
    { apply (hfind_set_same _ a _ _ Hl). }
    apply all_bind, all_mex0. intros z1 _. eexists _, _. split; [now apply (set_normal_ok _ _ a _ _ Hl1)|].
    apply all_ret. split; [easy|]. cbn [fl_plane fl_friction porigin].
    pose proof (wset_changed w a (OFlat g) (OFlat (Flat p (fl_friction g))) Hl) as (C1 & C2 & C3 & C4).
    destruct p as [po pn]. cbn [porigin pnormal] in *.
    unfold changed_to, live, wset in *. cbn in *. rewrite hset_hset. now repeat split.
  Qed.

  Lemma all_set_plane_flat e w a g b q : live w a (OFlat g) -> live w b (OFlat q) ->
    all e w (flat_set_plane_m (Obj FFlat (mx_handle a)) [VObj (Obj FFlat (mx_handle b))])
      (fun w' r => r = Done RNone /\ live w' a (OFlat (Flat (fl_plane q) (fl_friction g))) /\
         (forall c o, c <> a -> live w c o -> live w' c o)).
  Proof.
    intros Hl Hb. cbn [flat_set_plane_m o_handle o_class]. cbn [file_eqb].
    apply all_bind, all_acme. intros z Hz. eexists _, z, _.
    split; [apply (flat_make_ok (at_address e z) w b q "getOrigin" (fun g => OPoint (porigin (fl_plane g))));
            [cbn; tauto|cbn; intuition discriminate|easy]|].
    cbn [e_new at_address].
    split; [unfold live; cbn; rewrite Z.eqb_refl; reflexivity|].
    set (w1 := wnew FFlat w z (OPoint (porigin (fl_plane q)))).
    assert (G : grown w w1 [OPoint (porigin (fl_plane q))]) by (apply (grown_new w w []); [apply grown_refl|easy]).
    pose proof (grown_live _ _ _ _ _ G Hl) as Hl1. pose proof (grown_live _ _ _ _ _ G Hb) as Hb1.
    cbn beta iota. apply all_bind, all_mex0. intros z1 _. eexists _, _. split; [now apply (set_origin_ok _ w1 a g)|].
    set (g2 := Flat (Plane (porigin (fl_plane q)) (pnormal (fl_plane g))) (fl_friction g)).
    set (w2 := wset w1 a (OFlat g2)).
    assert (Hl2 : live w2 a (OFlat g2)) by apply (hfind_set_same _ a _ _ Hl1).
    assert (Hb2 : exists q2, live w2 b (OFlat q2) /\ pnormal (fl_plane q2) = pnormal (fl_plane q)).
    { destruct (Z.eq_dec b a) as [->|Hn].
      - exists g2. split; [easy|]. cbn. unfold live in Hl, Hb. congruence.
      - exists q. split; [|easy]. unfold live, w2, wset. cbn [w_heap]. rewrite hfind_set_other by easy. exact Hb1. }
    destruct Hb2 as (q2 & Hb2 & Hq2).
    apply all_bind, all_mex1. intros z2 _. eexists _, _.
    split; [apply (flat_get_ok _ w2 b q2 "getNormal" (fun g => mx_vec (pnormal (fl_plane g))));
            [cbn; tauto|cbn; intuition discriminate|easy]|].
    apply all_bind, all_mex0. intros z3 _. eexists _, _. split; [now apply (set_normal_ok _ w2 a g2)|].
    apply all_ret. split; [easy|]. split.
    - rewrite Hq2. cbn [g2 fl_plane fl_friction porigin].
      destruct (fl_plane q) as [qo qn]. cbn [porigin pnormal]. unfold live, wset. cbn [w_heap].
      now apply (hfind_set_same _ a _ (OFlat g2)).
    - intros c x Hc Hx. pose proof (grown_live _ _ _ _ _ G Hx) as Hx1.
      unfold live, w2, wset. cbn [w_heap]. rewrite !hfind_set_other by easy. exact Hx1.
  Qed.

  (** *** Triangles. *)
  Lemma tri_make_ok e w a t n f :
    In (n, tri_make f) tri_table -> ~ In Ascii.zero (lit n) -> live w a (OTri t) ->
    mex_call FTri e w 1 [text n; mx_handle a] = Ok (wnew FTri w (e_new e) (f t)) [mx_handle (e_new e)].
  Proof.
    intros Hin Hz Hl. rewrite (mex_runs FTri e w 1 _ n (tri_make f)); [|now apply text_command|exact Hin].
    unfold tri_make, self_tri. now rewrite (self_ok as_tri 2 w 1 [] _ a t _ eq_refl Hl eq_refl).
  Qed.

  Lemma all_to_triangle e w a t : live w a (OTri t) ->
    let l := [OPoint (tv0 (tg_tri t)); OPoint (tv1 (tg_tri t)); OPoint (tv2 (tg_tri t))] in
    all e w (to_triangle (Obj FTri (mx_handle a))) (fun w' r => r = Done l /\ grown w w' l).
  Proof.
    intros Hl l. unfold to_triangle. cbn [o_handle].
    assert (S1 : forall u os n f, In (n, tri_make f) tri_table -> ~ In Ascii.zero (lit n) -> grown w u os ->
      all e u (acme FTri [text n; mx_handle a]) (fun w' r => r = Done (f t) /\ grown w w' (os ++ [f t]))).
    { intros u os n f Hin Hz Hg. apply all_acme. intros z Hz1. eexists _, z, _.
      split; [apply (tri_make_ok (at_address e z) u a t n f Hin Hz (grown_live _ _ _ _ _ Hg Hl))|].
      split; [unfold live; cbn; rewrite Z.eqb_refl; reflexivity|]. split; [easy|]. now apply grown_new. }
    apply all_bind. refine (all_weak _ _ _ _ _ (S1 w [] "getVertex1"%string (fun t => OPoint (tv0 (tg_tri t))) _ _ (grown_refl w)) _);
      [cbn; tauto|cbn; intuition discriminate|]. intros w1 r1 [-> G1].
    apply all_bind. refine (all_weak _ _ _ _ _ (S1 w1 _ "getVertex2"%string (fun t => OPoint (tv1 (tg_tri t))) _ _ G1) _);
      [cbn; tauto|cbn; intuition discriminate|]. intros w2 r2 [-> G2].
    apply all_bind. refine (all_weak _ _ _ _ _ (S1 w2 _ "getVertex3"%string (fun t => OPoint (tv2 (tg_tri t))) _ _ G2) _);
      [cbn; tauto|cbn; intuition discriminate|]. intros w3 r3 [-> G3].
    apply all_ret. now split.
  Qed.

  Lemma new_tri_bare e w : nle (nofZ 0) (nofZ (K:=K) 0) = true ->
    exists t0, tg_id t0 = 0%Z /\
      mex_call FTri e w 1 [text "new"] = Ok (wnew FTri w (e_new e) (OTri t0)) [mx_handle (e_new e)].
  Proof.
    intros H0. unfold mk_tground.
    exists (TGround (Triangle nan_vec nan_vec nan_vec) 0 #0 (tg_update_normal (Triangle nan_vec nan_vec nan_vec))
             (tg_update_bbox 0 (Triangle nan_vec nan_vec nan_vec))).
    split; [easy|].
    rewrite (mex_runs FTri e w 1 _ "new" tri_new); [|apply text_command; cbn; intuition discriminate|cbn; tauto].
    unfold tri_new. cbn [List.length Nat.eqb orb assert obind]. unfold mk_tground. rewrite H0. reflexivity.
  Qed.

  Lemma wnew_grown f w z o : fresh w z -> grown w (wnew f w z o) [o].
  Proof. intros H. apply (grown_new w w []); [apply grown_refl|easy]. Qed.

  Lemma all_triangleground e w a g m i t :
    nle (nofZ 0) (nofZ (K:=K) 0) = true ->
    live w a (OMesh g) -> (forall z, whole (at_address e z) m i) -> (1 <= i < 2 ^ 31)%Z ->
    nth_error (me_tris g) (Z.to_nat (i - 1)) = Some t ->
    all e w (get_triangleground (Obj FMesh (mx_handle a)) m) (fun w' r =>
      exists b t' c t'', r = Done (Obj FTri (mx_handle b)) /\ same_but_id t t' /\ same_but_id t t'' /\
        w_heap w' = (c, OTri t'') :: (b, OTri t') :: w_heap w /\ fresh w b /\ fresh w c /\ b <> c /\
        w_lost w' = w_lost w).
  Proof.
    intros H0 Hl Hw Hi Ht. unfold get_triangleground, new_object. cbn [o_handle map].
    apply all_bind, all_bind, all_mex1. intros b Hb.
    destruct (new_tri_bare (at_address e b) w H0) as (t0 & Hid & Hnew). cbn [e_new at_address] in Hnew.
    eexists _, _. split; [exact Hnew|]. apply all_ret. apply all_guard, all_bind, all_mex1.
    set (w1 := wnew FTri w b (OTri t0)) in *. intros c Hc.
    pose proof (wnew_grown FTri w b (OTri t0) Hb) as G1. fold w1 in G1.
    pose proof (grown_live _ _ _ _ _ G1 Hl) as Hl1.
    exists (wnew FMesh w1 c (OTri (tg_copy tg_empty t))), (mx_handle c). split.
    { rewrite (mex_runs FMesh _ w1 1 _ "getTriangleground" mesh_get_tri); [|apply text_command; cbn; intuition discriminate|cbn; tauto].
      unfold mesh_get_tri, self_mesh.
      rewrite (self_ok as_mesh 3 w1 1 [_] _ a g (OMesh g) eq_refl Hl1 eq_refl).
      cbn [obind arg nth_error]. rewrite (whole_index _ m i (Hw c) Hi). cbn [obind snd].
      unfold tri_at. rewrite Ht. reflexivity. }
    set (w2 := wnew FMesh w1 c (OTri (tg_copy tg_empty t))).
    assert (Hbc : b <> c).
    { intros ->. apply Hc. cbn. now left. }
    assert (Lb : live w2 b (OTri t0)).
    { unfold live. cbn. destruct (Z.eqb_spec b c); [easy|]. now rewrite Z.eqb_refl. }
    assert (Lc : live w2 c (OTri (tg_copy tg_empty t))).
    { unfold live. cbn. now rewrite Z.eqb_refl. }
    cbn beta iota. apply all_bind, all_mex0. intros z _.
    exists (wset w2 b (OTri (tg_copy t0 (tg_copy tg_empty t)))), []. split.
    { rewrite (mex_runs FTri _ w2 0 _ "copy" tri_copy_cmd); [|apply text_command; cbn; intuition discriminate|cbn; tauto].
      unfold tri_copy_cmd, self_tri. rewrite (self_ok as_tri 3 w2 0 [_] _ b t0 (OTri t0) eq_refl Lb eq_refl).
      cbn [arg nth_error obind]. cbn [get_handle mx_handle numel fold_right Nat.mul Nat.add Nat.eqb head obind].
      unfold live in Lc. rewrite Lc. reflexivity. }
    apply all_ret.
    exists b, (tg_copy t0 (tg_copy tg_empty t)), c, (tg_copy tg_empty t). split; [easy|].
    split; [repeat split; exact Hid|]. split; [repeat split|].
    split.
    - cbn. destruct (Z.eqb_spec b c); [easy|]. now rewrite Z.eqb_refl.
    - split; [easy|]. split; [|easy]. intros Hin. apply Hc. cbn. now right.
  Qed.

  Lemma all_ensure {A} e w (c : prog K unit) (p : prog K A) Q :
    all e w p (fun w1 r1 => match r1 with
                            | Done x => all e w1 c (fun w2 r2 => r2 = Done tt /\ Q w2 (Done x))
                            | _ => False end) ->
    all e w (ensure c p) Q.
  Proof.
    intros H. unfold ensure. apply all_bind, all_guard. refine (all_weak _ _ _ _ _ H _).
    intros w1 [x| |] H1; try easy. apply all_bind. refine (all_weak _ _ _ _ _ H1 _).
    intros w2 r2 [-> HQ]. now apply all_ret.
  Qed.

  Lemma all_destroy e w f a o : live w a o -> class_of o = Some f ->
    all e w (destroy (Obj f (mx_handle a))) (fun w' r => r = Done tt /\ w' = wdel f w a).
  Proof.
    intros Hl Hc tr w' r Hx. unfold destroy in Hx. cbn in Hx.
    inversion Hx; subst;
      match goal with Hm : mex_call _ _ _ _ _ = _ |- _ => rewrite (delete_ok f _ _ a o Hl Hc) in Hm; try discriminate; injection Hm as <- <- end.
    match goal with Hr : exec _ _ (PRet _) _ _ _ |- _ => now inversion Hr; subst end.
  Qed.

  Lemma all_triangle e w a g m i t :
    nle (nofZ 0) (nofZ (K:=K) 0) = true ->
    live w a (OMesh g) -> (forall z, whole (at_address e z) m i) -> (1 <= i < 2 ^ 31)%Z ->
    nth_error (me_tris g) (Z.to_nat (i - 1)) = Some t ->
    let l := [OPoint (tv0 (tg_tri t)); OPoint (tv1 (tg_tri t)); OPoint (tv2 (tg_tri t))] in
    all e w (mesh_triangle_m (Obj FMesh (mx_handle a)) [VArr m]) (fun w' r =>
      r = Done (RAcmes l) /\ exists t', same_but_id t t' /\ grown w w' (OTri t' :: l)).
  Proof.
    intros H0 Hl Hw Hi Ht l. cbn [mesh_triangle_m to_mx]. apply all_bind.
    refine (all_weak _ _ _ _ _ (all_triangleground e w a g m i t H0 Hl Hw Hi Ht) _).
    intros w1 r1 (b & t' & c & t'' & -> & St' & St'' & Hh & Hb & Hc & Hbc & Hlost).
    apply all_ensure, all_bind.
    assert (Lb : live w1 b (OTri t')).
    { unfold live. rewrite Hh. cbn. destruct (Z.eqb_spec b c); [easy|]. now rewrite Z.eqb_refl. }
    refine (all_weak _ _ _ _ _ (all_to_triangle e w1 b t' Lb) _). cbn beta zeta.
    assert (Et : tg_tri t' = tg_tri t) by apply St'. rewrite Et. fold l.
    intros w2 r2 [-> (new & N1 & N2 & N3 & N4 & N5)]. apply all_ret.
    assert (Lb2 : live w2 b (OTri t')).
    { apply (grown_live w1 w2 l); [|easy]. now exists new. }
    refine (all_weak _ _ _ _ _ (all_destroy e w2 FTri b _ Lb2 eq_refl) _).
    intros w3 r3 [-> ->]. split; [easy|]. split; [easy|]. exists t''. split; [easy|].
    exists (new ++ [(c, OTri t'')]). rewrite Hh in N1.
    assert (Nb : ~ In b (map fst new)).
    { intros Hin. apply (N4 b Hin). rewrite Hh. cbn. now right; left. }
    assert (Nc : ~ In c (map fst new)).
    { intros Hin. apply (N4 c Hin). rewrite Hh. cbn. now left. }
    split; [|split; [|split; [|split]]].
    - cbn. rewrite N1. clear -Nb Hbc. induction new as [|[x y] new IH]; cbn.
      + destruct (Z.eqb_spec b c); [easy|]. now rewrite Z.eqb_refl.
      + cbn in Nb. destruct (Z.eqb_spec b x); [subst; tauto|]. f_equal. apply IH. tauto.
    - rewrite map_app, N2. cbn. reflexivity.
    - rewrite map_app. cbn. clear -N3 Nc. induction (map fst new) as [|x l' IH]; cbn; [repeat constructor; easy|].
      inversion N3; subst. cbn in Nc. constructor; [|apply IH; tauto].
      rewrite in_app_iff. cbn. intuition.
    - intros x Hx. rewrite map_app, in_app_iff in Hx. destruct Hx as [Hx|[<-|[]]]; [|easy].
      specialize (N4 x Hx). unfold fresh in *. rewrite Hh in N4. cbn in N4. tauto.
    - cbn. now rewrite N5.
  Qed.

  (** *** Plotting a mesh. *)
  Lemma mesh_size_ok e w a g : live w a (OMesh g) ->
    answers FMesh e w [text "size"; mx_handle a] (mx_int64 (Z.of_nat (mesh_size g))).
  Proof.
    intros Hl. unfold answers.
    rewrite (mex_runs FMesh e w 1 _ "size" mesh_size_cmd); [|apply text_command; cbn; intuition discriminate|cbn; tauto].
    unfold mesh_size_cmd, self_mesh. now rewrite (self_ok as_mesh 2 w 1 [] _ a g _ eq_refl Hl eq_refl).
  Qed.

  Lemma all_mesh_plot e w a g u v :
    live w a (OMesh g) -> (Z.of_nat (mesh_size g) < 2 ^ 31)%Z ->
    all e w (mesh_plot_m (Obj FMesh (mx_handle a)) [u; v]) (fun w' r =>
      r = Done (RArrs (map corners (me_tris g))) /\ w_heap w' = w_heap w /\
      w_lost w' = (w_lost w + mesh_size g)%nat).
  Proof.
    intros Hl Hn. unfold mesh_plot_m. cbn [o_handle].
    assert (S1 : all e w (mex1 FMesh [text "size"; mx_handle a])
      (fun w' r => w' = w /\ r = Done (mx_int64 (Z.of_nat (mesh_size g))))).
    { apply all_mex1. intros z _. eexists _, _. split; [now apply (mesh_size_ok _ w a g)|easy]. }
    do 4 (apply all_bind; refine (all_weak _ _ _ _ _ S1 _); intros ? ? [-> ->]).
    apply all_bind. cbn [for_size mx_int64]. rewrite Nat2Z.id.
    unfold mesh_size in *. rewrite <- (map_length corners (me_tris g)).
    refine (all_weak _ _ _ _ _ (all_loop e _ (map corners (me_tris g))
      (fun k w' => w_heap w' = w_heap w /\ w_lost w' = (w_lost w + k)%nat) _ w _) _).
    - intros k x w1 Hx [Hh Hc]. rewrite nth_error_map in Hx.
      destruct (nth_error (me_tris g) k) as [t|] eqn:Et; [|discriminate]. injection Hx as <-.
      assert (k < List.length (me_tris g))%nat by (apply nth_error_Some; congruence).
      apply all_mex1. intros z _.
      destruct (vertices_query (at_address e z) w1 a g (mx_int64 (Z.of_nat k + 1)) (Z.of_nat k + 1) t)
        as (w2 & Hc2 & Hh2 & Hl2).
      + unfold live. now rewrite Hh.
      + apply whole_loop. lia.
      + lia.
      + replace (Z.to_nat (Z.of_nat k + 1 - 1)) with k by lia. exact Et.
      + exists w2, (corners t). split; [exact Hc2|]. split; [easy|]. split; [congruence|]. lia.
    - split; [easy|lia].
    - cbn beta. intros w1 r1 [-> [Hh Hc]]. apply all_ret. rewrite ?map_length in *. now repeat split.
  Qed.

  (** *** Methods that never work. *)
  Lemma unknown_fails e w f c rest n :
    ~ In Ascii.zero (lit c) -> ~ In c (map fst (table (K:=K) f)) ->
    mex_call f e w n (text c :: rest) = Exn w OutOfRange.
  Proof.
    intros Hz Hn. apply mex_unknown. rewrite cstr_lit by easy.
    intros k Hk E. apply lit_inj in E. now subst.
  Qed.

  Lemma all_width_bound e w h args :
    all e w (get1 FShell "surfaceWidthBound" (Obj FShell h) args) (fun w' r => w' = w /\ r = Failed).
  Proof.
    destruct args as [|v [|]]; try (now apply all_err). unfold get1. apply all_bind, all_mex1_exn; [|easy].
    intros z _. eexists. apply unknown_fails; cbn; intuition discriminate.
  Qed.

  Lemma all_set_vertex e w h c args :
    In c ["setVertex1"; "setVertex2"; "setVertex3"]%string ->
    all e w (set_vertex_m c (Obj FTri h) args) (fun w' r => w' = w /\ r = Failed).
  Proof.
    intros Hc. destruct args as [|[m|x|p] [|]]; try (now apply all_err). unfold set_vertex_m. apply all_bind, all_mex0_exn; [|easy].
    intros z _. eexists. apply unknown_fails; cbn in Hc; destruct Hc as [<-|[<-|[<-|[]]]]; cbn; intuition discriminate.
  Qed.

  Lemma all_flat_copy e w a g args :
    live w a (OFlat g) ->
    (forall x, In (VObj x) args -> exists ob, handle_of w (o_handle x) ob /\ class_of ob = Some (o_class x)) ->
    all e w (flat_copy_m (Obj FFlat (mx_handle a)) args) (fun w' r => w' = w /\ r = Failed).
  Proof.
    intros Hl Ho. destruct args as [|[m|x|p] [|]]; try (now apply all_err). unfold flat_copy_m, with_other.
    destruct x as [f h]. cbn [o_class o_handle]. destruct f; cbn [file_eqb]; try (now apply all_err).
    destruct (Ho (Obj FMesh h)) as (ob & (b & Hh & Hb) & Hc); [now left|]. cbn in Hh, Hc. subst h.
    apply all_bind, all_mex0_exn; [|easy].
    intros z _. eexists.
    rewrite (mex_runs FFlat _ w 0 _ "copy" flat_copy_cmd); [|apply text_command; cbn; intuition discriminate|cbn; tauto].
    unfold flat_copy_cmd, self_flat. rewrite (self_ok as_flat 3 w 0 [_] _ a g _ eq_refl Hl eq_refl).
    cbn [arg nth_error obind]. cbn [get_handle mx_handle numel fold_right Nat.mul Nat.add Nat.eqb head obind].
    unfold live in Hb. rewrite Hb. destruct ob; try discriminate. reflexivity.
  Qed.
End Values.
