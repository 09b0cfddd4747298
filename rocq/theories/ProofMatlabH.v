(** * The MATLAB classes: methods that are one call of the gateway. *)
From Coq Require Import ZArith Bool String List Lia.
From Verif Require Import ER Base Num Vec Aabb Geom Ground Shape Rib Str Mesh Shell Sfun Mex SpecMex
  ProofMex ProofMexB ProofMexC ProofMexD Matlab SpecMatlab ProofMatlab ProofMatlabB ProofMatlabC ProofMatlabE ProofMexE
  ProofMatlabG.
Import ListNotations.
Local Open Scope num_scope.

Section Single.
  Context {K : Type} {NK : Num K}.
  Implicit Types (w : world K) (o : obj K) (m : mx K) (e : env K).

  Ltac ends := repeat match goal with
    | Hr : exec _ _ (PRet _) _ _ _ |- _ => inversion Hr; subst; clear Hr
    | Hr : exec _ _ PErr _ _ _ |- _ => inversion Hr; subst; clear Hr end.
  Ltac start Hx := inversion Hx; subst;
    match goal with Hf : fresh _ ?z, Hm : mex_call _ _ _ _ _ = _ |- _ => exists z; split; [exact Hf|]; rewrite Hm end.

  Lemma one_get e w f args : one_call e w (pbind (mex1 f args) (fun m => PRet (RArr m))) f 1 args the_array.
  Proof.
    split; [apply exec_total|]. intros tr w' r Hx. cbn [pbind mex1] in Hx. unfold mex1 in Hx. cbn [pbind] in Hx.
    start Hx.
    - destruct outs; cbn [pbind] in *; ends; now split.
    - ends. now split.
    - now split.
  Qed.

  Lemma one_act e w f args : one_call e w (pbind (mex0 f args) (fun _ => PRet RNone)) f 0 args nothing.
  Proof.
    split; [apply exec_total|]. intros tr w' r Hx. unfold mex0 in Hx. cbn [pbind] in Hx.
    start Hx; ends; now split.
  Qed.

  Lemma one_make e w f args : one_call e w (pbind (acme f args) (fun o => PRet (RAcme o))) f 1 args the_object.
  Proof.
    split; [apply exec_total|]. intros tr w' r Hx. unfold acme, mex1 in Hx. cbn [pbind] in Hx.
    start Hx.
    - destruct outs as [|m l]; cbn [pbind] in *; ends; [now split|].
      unfold the_object, handle_of, live.
      match goal with Hr : exec _ _ (PAcme _ _ _) _ _ _ |- _ => inversion Hr; subst; clear Hr end; ends.
      + split; [easy|]. split; [easy|]. split.
        * intros o' (b & Hb & Hl). apply handle_inj in Hb. subst b. congruence.
        * intros Hn. exfalso. eapply Hn; eauto.
      + split; [easy|]. split; [easy|]. split; [|now right].
        intros o' (b & Hb & Hl). apply handle_inj in Hb. subst b. congruence.
      + split; [easy|]. split; [easy|]. split; [|now left].
        intros o' (b & Hb & Hl). match goal with Hh : forall c, _ <> mx_handle c |- _ => now destruct (Hh b) end.
    - ends. now split.
    - now split.
  Qed.

  Ltac arity := match goal with
    | H : List.length ?l = 0%nat |- _ => destruct l; [|discriminate H]
    | H : List.length ?l = 1%nat |- _ => destruct l as [|? [|? ?]]; try discriminate H
    | H : List.length ?l = 2%nat |- _ => destruct l as [|? [|? [|? ?]]]; try discriminate H end.
  Ltac row lem H := destruct H as [H|H];
    [injection H as <- <- <-; arity; apply lem|].

  Lemma forwards_get e w f h name n (args : list (mval K)) : In (f, name, n) getters -> List.length args = n ->
    one_call e w (invoke (Obj f h) name args) f 1 (text name :: h :: map to_mx args) the_array.
  Proof. intros H L. cbn [getters map app In] in H. repeat row one_get H. destruct H. Qed.
  Lemma forwards_set e w f h name n (args : list (mval K)) : In (f, name, n) setters -> List.length args = n ->
    one_call e w (invoke (Obj f h) name args) f 0 (text name :: h :: map to_mx args) nothing.
  Proof. intros H L. cbn [setters map app In] in H. repeat row one_act H. destruct H. Qed.
  Lemma forwards_make e w f h name n (args : list (mval K)) : In (f, name, n) makers -> List.length args = n ->
    one_call e w (invoke (Obj f h) name args) f 1 (text name :: h :: map to_mx args) the_object.
  Proof. intros H L. cbn [makers In] in H. repeat row one_make H. destruct H. Qed.
  Lemma forwards_renamed e w f h name c n (args : list (mval K)) : In (f, name, c, n) renamed -> List.length args = n ->
    one_call e w (invoke (Obj f h) name args) f 1 (text c :: h :: map to_mx args) the_array.
  Proof.
    intros H L. cbn [renamed In] in H.
    repeat (destruct H as [H|H]; [injection H as <- <- <- <-; arity; apply one_get|]). destruct H.
  Qed.

  (** ** Wrong numbers of arguments. *)
  Lemma wrong_arity e w f h name n (args : list (mval K)) :
    In (f, name, n) (getters ++ setters ++ makers) -> List.length args <> n ->
    always e w (invoke (Obj f h) name args) (fun tr w' r => tr = [] /\ w' = w /\ r = Failed).
  Proof.
    intros H L. split; [apply exec_total|]. intros tr w' r Hx.
    assert (E : invoke (Obj f h) name args = PErr).
    { clear Hx. cbn [getters setters makers map app In] in H.
      repeat (destruct H as [H|H];
        [injection H as <- <- <-; destruct args as [|? [|? [|? ?]]]; try (now destruct L); reflexivity|]).
      destruct H. }
    rewrite E in Hx. ends. easy.
  Qed.

  Lemma types e w f h :
    returns e w (invoke (Obj f h) "type" []) (RText (class_text f)).
  Proof. apply all_always. destruct f; now apply all_ret. Qed.

  Lemma flat_shows e w a g : live w a (OFlat g) ->
    always e w (invoke (obj_flat a) "disp" []) (fun _ w' r =>
      r = Done (RArrs [mx_scalar (fl_friction g); mx_vec (porigin (fl_plane g)); mx_vec (pnormal (fl_plane g))]) /\
      grown w w' [OPoint (porigin (fl_plane g))]) /\
    (forall u v, always e w (invoke (obj_flat a) "plot" [u; v]) (fun _ w' r =>
      r = Done (RAcme (OPlane (fl_plane g))) /\ grown w w' [OPlane (fl_plane g)])).
  Proof.
    intros Hl. split.
    - apply all_always.
      match goal with |- all e w _ ?Q => change (all e w (flat_disp_m (obj_flat a) []) Q) end.
      unfold flat_disp_m. cbn [o_handle obj_flat].
      apply all_bind, all_mex1. intros z _. exists w, (mx_scalar (fl_friction g)).
      split; [apply (flat_get_ok (at_address e z) w a g "getFriction" (fun g => mx_scalar (fl_friction g))); [cbn; tauto|nozero|easy]|].
      apply all_bind, all_acme. intros y Hy. eexists _, y, _.
      split; [apply (flat_make_ok (at_address e y) w a g "getOrigin" (fun g => OPoint (porigin (fl_plane g)))); [cbn; tauto|nozero|easy]|].
      split; [unfold live; cbn; rewrite Z.eqb_refl; reflexivity|].
      assert (G : grown w (wnew FFlat w y (OPoint (porigin (fl_plane g)))) [OPoint (porigin (fl_plane g))])
        by (apply (grown_new w w []); [apply grown_refl|easy]).
      apply all_bind, all_mex1. intros x _. eexists _, (mx_vec (pnormal (fl_plane g))).
      split; [apply (flat_get_ok (at_address e x) _ a g "getNormal" (fun g => mx_vec (pnormal (fl_plane g)))); [cbn; tauto|nozero|]|].
      { exact (grown_live _ _ _ _ _ G Hl). }
      apply all_ret. now split.
    - intros u v. apply all_always.
      match goal with |- all e w _ ?Q => change (all e w (flat_plot_m (obj_flat a) [u; v]) Q) end.
      unfold flat_plot_m. cbn [o_handle obj_flat].
      apply all_bind, all_acme. intros y Hy. eexists _, y, _.
      split; [apply (flat_make_ok (at_address e y) w a g "getPlane" (fun g => OPlane (fl_plane g))); [cbn; tauto|nozero|easy]|].
      split; [unfold live; cbn; rewrite Z.eqb_refl; reflexivity|].
      apply all_ret. split; [easy|]. apply (grown_new w w []); [apply grown_refl|easy].
  Qed.

  Lemma tri_shows e w a t : live w a (OTri t) ->
    always e w (invoke (obj_tri a) "disp" []) (fun _ w' r =>
      r = Done (RArrs [mx_scalar (nofZ (tg_id t)); mx_scalar (tg_friction t);
                       mx_vec (tv0 (tg_tri t)); mx_vec (tv1 (tg_tri t)); mx_vec (tv2 (tg_tri t))]) /\
      grown w w' (vertices_of t)) /\
    (forall u v, always e w (invoke (obj_tri a) "plot" [u; v]) (fun _ w' r =>
      r = Done (RAcmes (vertices_of t)) /\ grown w w' (vertices_of t))) /\
    (forall name v, In (name, v) [("getVertex1"%string, tv0 (tg_tri t)); ("getVertex2"%string, tv1 (tg_tri t));
                                  ("getVertex3"%string, tv2 (tg_tri t))] ->
      always e w (invoke (obj_tri a) name []) (fun _ w' r =>
        r = Done (RAcme (OPoint v)) /\ grown w w' [OPoint v])).
  Proof.
    intros Hl. pose proof (fun z => tri_readers (at_address e z) w a t Hl) as Q.
    split; [|split].
    - apply all_always.
      match goal with |- all e w _ ?Q => change (all e w (tri_disp_m (obj_tri a) []) Q) end.
      unfold tri_disp_m. cbn [o_handle obj_tri].
      apply all_bind, all_mex1. intros z _. exists w, (mx_scalar (nofZ (tg_id t))). split; [apply Q|].
      apply all_bind, all_mex1. intros y _. exists w, (mx_scalar (tg_friction t)). split; [apply Q|].
      apply all_bind. refine (all_weak _ _ _ _ _ (all_to_triangle e w a t Hl) _). intros w1 r1 [-> G].
      now apply all_ret.
    - intros u v. apply all_always.
      match goal with |- all e w _ ?Q => change (all e w (tri_plot_m (obj_tri a) [u; v]) Q) end.
      unfold tri_plot_m.
      apply all_bind. refine (all_weak _ _ _ _ _ (all_to_triangle e w a t Hl) _). intros w1 r1 [-> G].
      now apply all_ret.
    - intros name v Hi. apply all_always. cbn in Hi. destruct Hi as [Hi|[Hi|[Hi|[]]]]; injection Hi as <- <-.
      + apply (all_make e w FTri "getVertex1"); intros z.
        apply (tri_make_ok (at_address e z) w a t "getVertex1" (fun t => OPoint (tv0 (tg_tri t)))); [cbn; tauto|nozero|easy].
      + apply (all_make e w FTri "getVertex2"); intros z.
        apply (tri_make_ok (at_address e z) w a t "getVertex2" (fun t => OPoint (tv1 (tg_tri t)))); [cbn; tauto|nozero|easy].
      + apply (all_make e w FTri "getVertex3"); intros z.
        apply (tri_make_ok (at_address e z) w a t "getVertex3" (fun t => OPoint (tv2 (tg_tri t)))); [cbn; tauto|nozero|easy].
  Qed.
End Single.
