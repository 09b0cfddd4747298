(** * The MATLAB classes: every method. *)
From Coq Require Import ZArith Bool String List Lia Permutation.
From Verif Require Import Base Num Vec Aabb Geom Ground Shape Rib Str Mesh Shell Sfun Mex SpecMex
  ProofMex ProofMexB ProofMexC ProofMexD Matlab SpecMatlab ProofMatlab ProofMatlabB.
Import ListNotations.

Section Methods.
  Context {K : Type} {NK : Num K}.
  Implicit Types (w : world K) (o : obj K) (m : mx K) (own orph : list tag) (F : list tag -> list tag -> Prop).

  Ltac nozero := let H := fresh in intros H; cbn in H; intuition discriminate.

  Lemma str_eqb_lit a b : str_eqb (lit a) (lit b) = String.eqb a b.
  Proof.
    destruct (String.eqb_spec a b) as [->|N]; [apply str_eqb_refl'|].
    destruct (str_eqb (lit a) (lit b)) eqn:E; [|easy]. apply str_eqb_eq', lit_inj in E. easy.
  Qed.

  Lemma makers_makes f cmd :
    existsb (fun p => file_eqb (fst p) f && str_eqb (lit (snd p)) (lit cmd)) handle_makers
    = match makes f cmd with Some _ => true | None => false end.
  Proof.
    unfold handle_makers. cbn [existsb fst snd]. rewrite !str_eqb_lit.
    rewrite !(String.eqb_sym _ cmd). unfold makes. destruct f; cbn [file_eqb andb orb];
    repeat match goal with |- context [String.eqb cmd ?s] => destruct (String.eqb cmd s) end; reflexivity.
  Qed.

  Lemma abandoned_call w f e n cmd rest : ~ In Ascii.zero (lit cmd) ->
    abandoned (w, Call f e n (text cmd :: rest)) =
    match mex_call f e w n (text cmd :: rest), makes f cmd with
    | Ok _ _, Some _ => 1%nat
    | _, _ => 0%nat
    end.
  Proof.
    intros Hz. unfold abandoned, perform. cbn [fst snd c_file c_env c_nlhs c_args].
    destruct (mex_call f e w n (text cmd :: rest)); try easy.
    unfold text. rewrite (text_lit cmd Hz), makers_makes. now destruct (makes f cmd).
  Qed.

  (** *** Gateway calls. *)
  Lemma t_mex {A} (own orph : list tag) f n cmd rest (k : list (mx K) -> prog K A) err Q F :
    ~ In Ascii.zero (lit cmd) -> (n <= 1)%nat -> cmd <> "delete"%string ->
    (cmd = "new"%string \/ exists a, nth_error rest 0 = Some (mx_handle a) /\ In (a, Some f) (own ++ orph)) ->
    (forall g, second_class f cmd g ->
       exists a c, nth_error rest 1 = Some (mx_handle a) /\ In (a, c) (own ++ orph)) ->
    (if String.eqb cmd "new" then forall a, triple ((a, Some f) :: own) orph (k [mx_handle a]) Q F
     else match makes f cmd with
          | Some c => forall a, triple own ((a, c) :: orph) (k [mx_handle a]) Q F
          | None => forall outs, triple own orph (k outs) Q F
          end) ->
    triple own orph err Q F ->
    triple own orph (PMex f n (text cmd :: rest) k err) Q F.
  Proof.
    intros Hz Hn Hd H1 H2 Hk He e w tr w' r Hi Hx.
    assert (S : forall a, sound_call (w, Call f (at_address e a) n (text cmd :: rest))).
    { intros a. exists cmd, rest. split; [easy|]. split.
      - destruct H1 as [->|(b & Hb & Hin)]; [now left|]. right; left.
        destruct (inv_live _ _ _ _ _ Hi Hin) as (o & Hl & Hc). exists (mx_handle b), o.
        split; [easy|]. split; [now exists b|easy].
      - intros g Hg. destruct (H2 g Hg) as (b & c & Hb & Hin).
        destruct (inv_live _ _ _ _ _ Hi Hin) as (o & Hl & Hc). exists (mx_handle b), o.
        split; [easy|]. now exists b. }
    assert (G : forall own1 orph1 w1 a tr (p : prog K A) r,
      inv w1 own1 orph1 -> triple own1 orph1 p Q F -> exec e w1 p tr w' r ->
      List.length orph1 = (List.length orph + abandoned (w, Call f (at_address e a) n (text cmd :: rest)))%nat ->
      let tr' := (w, Call f (at_address e a) n (text cmd :: rest)) :: tr in
      Forall sound_call tr' /\
      match r with
      | Done x => exists own' orph', inv w' own' orph' /\
          List.length orph' = (List.length orph + abandoned_in tr')%nat /\ Q x own' orph'
      | Failed => exists own' orph', inv w' own' orph' /\
          List.length orph' = (List.length orph + abandoned_in tr')%nat /\ F own' orph'
      | Crash => exists tr0 x, tr' = tr0 ++ [x] /\ crashes x
      end).
    { intros own1 orph1 w1 a t p r' Hi1 Ht Hp Hl tr'. destruct (Ht _ _ _ _ _ Hi1 Hp) as [T1 T2].
      split; [constructor; auto|].
      assert (E : abandoned_in tr' = (abandoned (w, Call f (at_address e a) n (text cmd :: rest)) + abandoned_in t)%nat)
        by reflexivity.
      destruct r'; [| |destruct T2 as (t0 & y & -> & Hy); now exists ((w, Call f (at_address e a) n (text cmd :: rest)) :: t0), y];
        destruct T2 as (o2 & p2 & ? & ? & ?); exists o2, p2; rewrite E;
        (split; [easy|]); (split; [lia|easy]). }
    inversion Hx; subst.
    - match goal with H : fresh w ?x |- _ => rename x into b; rename H into Hf end.
      match goal with H : mex_call _ _ _ _ _ = _ |- _ => rename H into Hm end.
      match goal with H : exec _ _ (k _) _ _ _ |- _ => rename H into Hp end.
      pose proof (call_tags f (at_address e b) w n cmd rest Hf Hz Hn (fun x => False_ind _ (Hd x))) as Hc.
      rewrite Hm in Hc. pose proof (abandoned_call w f (at_address e b) n cmd rest Hz) as Ha.
      rewrite Hm in Ha. cbn [e_new at_address] in Hc.
      destruct (String.eqb_spec cmd "new") as [->|Nn].
      + destruct Hc as [-> Ht]. eapply G; [|exact (Hk b)|exact Hp|].
        * eapply inv_own; [exact Hi| |exact Ht]. exact Hf.
        * rewrite Ha. destruct f; exact (plus_n_O _).
      + destruct (makes f cmd) as [c|].
        * destruct Hc as (-> & Ht & _). eapply G; [|exact (Hk b)|exact Hp|].
          -- eapply inv_orph; [exact Hi| |exact Ht]. exact Hf.
          -- rewrite Ha. exact (eq_sym (Nat.add_1_r _)).
        * eapply G; [|apply Hk|exact Hp|].
          -- eapply inv_tags; [exact Hi|]. now apply Hc.
          -- rewrite Ha. exact (plus_n_O _).
    - match goal with H : fresh w ?x |- _ => rename x into b; rename H into Hf end.
      match goal with H : mex_call _ _ _ _ _ = _ |- _ => rename H into Hm end.
      match goal with H : exec _ _ err _ _ _ |- _ => rename H into Hp end.
      pose proof (call_tags f (at_address e b) w n cmd rest Hf Hz Hn (fun x => False_ind _ (Hd x))) as Hc.
      rewrite Hm in Hc. pose proof (abandoned_call w f (at_address e b) n cmd rest Hz) as Ha.
      rewrite Hm in Ha. eapply G; [|exact He|exact Hp|].
      + eapply inv_tags; [exact Hi|]. exact Hc.
      + rewrite Ha. exact (plus_n_O _).
    - split; [constructor; auto|]. eexists [], _. split; [reflexivity|]. assumption.
  Qed.

  (** The destructor of an object that is owned. *)
  Lemma t_destroy own orph f a (Q : unit -> list tag -> list tag -> Prop) F :
    Q tt own orph -> triple ((a, Some f) :: own) orph (destroy (Obj f (mx_handle a))) Q F.
  Proof.
    intros HQ e w tr w' r Hi Hx. unfold destroy in Hx. cbn [o_class o_handle] in Hx.
    destruct (inv_live w _ _ a (Some f) Hi) as (o & Hl & Hc); [now left|].
    assert (Sd : forall b, sound_call (w, Call f (at_address e b) 0 [text "delete"; mx_handle a])).
    { intros b. exists "delete"%string, [mx_handle a]. split; [easy|]. split.
      - right; left. exists (mx_handle a), o. split; [easy|]. split; [now exists a|easy].
      - intros g Hg. exfalso. unfold second_class in Hg. cbn in Hg.
        destruct f; intuition discriminate. }
    assert (Ab : forall b, abandoned (w, Call f (at_address e b) 0 [text "delete"; mx_handle a]) = 0%nat).
    { intros b. rewrite abandoned_call by nozero.
      destruct (mex_call _ _ _ _ _); try easy. now destruct f. }
    inversion Hx; subst;
      match goal with H : mex_call _ _ _ _ _ = _ |- _ =>
        rewrite (delete_ok f _ _ a o Hl Hc) in H; rename H into Hm end; try discriminate.
    injection Hm as <- <-.
    match goal with H : exec _ _ (PRet tt) _ _ _ |- _ => inversion H; subst end.
    split; [constructor; auto|]. exists own, orph. split; [now apply inv_drop|].
    split; [|easy]. unfold abandoned_in. cbn [map fold_right]. rewrite Ab. lia.
  Qed.

  (** The destructor of an object that was never made. *)
  Lemma t_unmade own orph f (Q : unit -> list tag -> list tag -> Prop) F :
    Q tt own orph -> triple own orph (destroy (unmade f)) Q F.
  Proof.
    intros HQ e w tr w' r Hi Hx. unfold destroy, unmade in Hx. cbn [o_class o_handle] in Hx.
    set (h := MxDouble [0; 0]%nat []) in Hx.
    assert (D : forall b, mex_call f (at_address e b) w 0 [text "delete"; h] = Exn w RuntimeError)
      by (intros b; destruct f; reflexivity).
    assert (Sd : forall b, sound_call (w, Call f (at_address e b) 0 [text "delete"; h])).
    { intros b. exists "delete"%string, [h]. split; [easy|]. split; [now right; right|].
      intros g Hg. exfalso. unfold second_class in Hg. cbn in Hg. destruct f; intuition discriminate. }
    assert (Ab : forall b, abandoned (w, Call f (at_address e b) 0 [text "delete"; h]) = 0%nat).
    { intros b. rewrite abandoned_call by nozero. now rewrite D. }
    inversion Hx; subst;
      match goal with H : mex_call _ _ _ _ _ = _ |- _ => rewrite D in H; rename H into Hm end; try discriminate.
    injection Hm as <- <-.
    match goal with H : exec _ _ (PRet tt) _ _ _ |- _ => inversion H; subst end.
    split; [constructor; auto|]. exists own, orph. split; [easy|].
    split; [|easy]. unfold abandoned_in. cbn [map fold_right]. rewrite Ab. lia.
  Qed.

  (** *** What is known of objects and arguments. *)
  Definition owned (own : list tag) (x : mobj K) : Prop :=
    exists a, o_handle x = mx_handle a /\ In (a, Some (o_class x)) own.
  Definition arg_ok (own : list tag) (v : mval K) : Prop :=
    match v with VObj x => owned own x | _ => True end.

  (** A result: nothing changes hands, except a new object. *)
  Definition result_ok (own : list tag) (r : mres K) (own' orph' : list tag) : Prop :=
    match r with
    | RObj x => exists a, o_handle x = mx_handle a /\ own' = (a, Some (o_class x)) :: own
    | _ => own' = own
    end.

  Definition kept (own : list tag) (own' orph' : list tag) : Prop := own' = own.

  Definition good (f : mexfile) (mt : method (K:=K)) : Prop :=
    forall own orph this args, o_class this = f -> owned own this -> Forall (arg_ok own) args ->
      triple own orph (mt this args) (result_ok own) (kept own).

  (** One call on an owned object that returns one value. *)
  Lemma t_mex1 own orph f cmd (x : mx K) rest F :
    ~ In Ascii.zero (lit cmd) -> cmd <> "delete"%string -> cmd <> "new"%string -> makes f cmd = None ->
    (exists a, x = mx_handle a /\ In (a, Some f) own) ->
    (forall g, second_class f cmd g ->
       exists a c, nth_error rest 0 = Some (mx_handle a) /\ In (a, c) (own ++ orph)) ->
    F own orph ->
    triple own orph (mex1 f (text cmd :: x :: rest)) (fun _ own' orph' => own' = own /\ orph' = orph) F.
  Proof.
    intros Hz Hd Hn Hm (a & -> & Ha) H2 HF. unfold mex1. apply t_mex; auto.
    - right. exists a. split; [easy|]. apply in_app_iff. now left.
    - rewrite (proj2 (String.eqb_neq cmd "new") Hn), Hm. intros [|y outs]; [now apply t_err|now apply t_ret].
    - now apply t_err.
  Qed.

  Lemma t_mex0 own orph f cmd (x : mx K) rest F :
    ~ In Ascii.zero (lit cmd) -> cmd <> "delete"%string -> cmd <> "new"%string -> makes f cmd = None ->
    (exists a, x = mx_handle a /\ In (a, Some f) own) ->
    (forall g, second_class f cmd g ->
       exists a c, nth_error rest 0 = Some (mx_handle a) /\ In (a, c) (own ++ orph)) ->
    F own orph ->
    triple own orph (mex0 f (text cmd :: x :: rest)) (fun _ own' orph' => own' = own /\ orph' = orph) F.
  Proof.
    intros Hz Hd Hn Hm (a & -> & Ha) H2 HF. unfold mex0. apply t_mex; auto.
    - right. exists a. split; [easy|]. apply in_app_iff. now left.
    - rewrite (proj2 (String.eqb_neq cmd "new") Hn), Hm. intros outs. now apply t_ret.
    - now apply t_err.
  Qed.

  Lemma t_make1 own orph f cmd k (x : mx K) rest F :
    ~ In Ascii.zero (lit cmd) -> cmd <> "delete"%string -> cmd <> "new"%string -> makes f cmd = Some k ->
    (exists a, x = mx_handle a /\ In (a, Some f) own) ->
    (forall g, ~ second_class f cmd g) ->
    F own orph ->
    triple own orph (mex1 f (text cmd :: x :: rest))
      (fun h own' orph' => own' = own /\ exists a, h = mx_handle a /\ orph' = (a, k) :: orph) F.
  Proof.
    intros Hz Hd Hn Hm (a & -> & Ha) H2 HF. unfold mex1. apply t_mex; auto.
    - right. exists a. split; [easy|]. apply in_app_iff. now left.
    - intros g Hg. now contradiction (H2 g).
    - rewrite (proj2 (String.eqb_neq cmd "new") Hn), Hm. intros b. apply t_ret. eauto.
    - now apply t_err.
  Qed.

  Lemma t_acme1 own orph f cmd k (x : mx K) rest F :
    ~ In Ascii.zero (lit cmd) -> cmd <> "delete"%string -> cmd <> "new"%string -> makes f cmd = Some k ->
    (exists a, x = mx_handle a /\ In (a, Some f) own) ->
    (forall g, ~ second_class f cmd g) ->
    (forall orph', F own orph') ->
    triple own orph (acme f (text cmd :: x :: rest)) (fun _ own' _ => own' = own) F.
  Proof.
    intros Hz Hd Hn Hm Hx H2 HF. unfold acme. eapply t_bind; [eapply t_make1; eauto|].
    intros h own1 orph1 (-> & a & -> & ->). eapply t_acme; [apply in_app_iff; right; now left|].
    intros o _. now apply t_ret.
  Qed.

  Ltac side := first [nozero | discriminate | reflexivity | (intros; unfold second_class in *; cbn in *; intuition discriminate)].

  Lemma no_second f cmd : (forall g, ~ second_class f cmd g) -> forall g, second_class f cmd g ->
    forall P : Prop, P.
  Proof. intros H g Hg. now contradiction (H g). Qed.

  Definition plain (f : mexfile) (cmd : string) : Prop :=
    ~ In Ascii.zero (lit cmd) /\ cmd <> "delete"%string /\ cmd <> "new"%string /\
    makes f cmd = None /\ forall g, ~ second_class f cmd g.
  Definition making (f : mexfile) (cmd : string) : Prop :=
    ~ In Ascii.zero (lit cmd) /\ cmd <> "delete"%string /\ cmd <> "new"%string /\
    makes f cmd = Some None /\ forall g, ~ second_class f cmd g.

  Lemma t_get own orph f cmd (x : mx K) rest F : plain f cmd ->
    (exists a, x = mx_handle a /\ In (a, Some f) own) -> F own orph ->
    triple own orph (mex1 f (text cmd :: x :: rest)) (fun _ own' orph' => own' = own /\ orph' = orph) F.
  Proof.
    intros (P1 & P2 & P3 & P4 & P5) Hx HF. apply t_mex1; auto. intros g Hg. now contradiction (P5 g).
  Qed.
  Lemma t_act own orph f cmd (x : mx K) rest F : plain f cmd ->
    (exists a, x = mx_handle a /\ In (a, Some f) own) -> F own orph ->
    triple own orph (mex0 f (text cmd :: x :: rest)) (fun _ own' orph' => own' = own /\ orph' = orph) F.
  Proof.
    intros (P1 & P2 & P3 & P4 & P5) Hx HF. apply t_mex0; auto. intros g Hg. now contradiction (P5 g).
  Qed.
  Lemma t_point own orph f cmd (x : mx K) rest F : making f cmd ->
    (exists a, x = mx_handle a /\ In (a, Some f) own) -> (forall orph', F own orph') ->
    triple own orph (acme f (text cmd :: x :: rest)) (fun _ own' _ => own' = own) F.
  Proof. intros (P1 & P2 & P3 & P4 & P5) Hx HF. eapply t_acme1; eauto. Qed.

  Lemma self_of own (x : mobj K) f : o_class x = f -> owned own x ->
    exists a, o_handle x = mx_handle a /\ In (a, Some f) own.
  Proof. intros <- H. exact H. Qed.

  Lemma good_get f cmd : plain f cmd -> good f (get f cmd).
  Proof.
    intros P own orph this args Hc Ho Ha. unfold get. destruct args; [|now apply t_err].
    eapply t_bind; [apply t_get; [exact P|now apply self_of|reflexivity]|].
    intros x own1 orph1 [-> ->]. now apply t_ret.
  Qed.
  Lemma good_get1 f cmd : plain f cmd -> good f (get1 f cmd).
  Proof.
    intros P own orph this args Hc Ho Ha. unfold get1. destruct args as [|v [|]]; try now apply t_err.
    eapply t_bind; [apply t_get; [exact P|now apply self_of|reflexivity]|].
    intros x own1 orph1 [-> ->]. now apply t_ret.
  Qed.
  Lemma good_act1 f cmd : plain f cmd -> good f (act1 f cmd).
  Proof.
    intros P own orph this args Hc Ho Ha. unfold act1. destruct args as [|v [|]]; try now apply t_err.
    eapply t_bind; [apply t_act; [exact P|now apply self_of|reflexivity]|].
    intros x own1 orph1 [-> ->]. now apply t_ret.
  Qed.
  Lemma good_act2 f cmd : plain f cmd -> good f (act2 f cmd).
  Proof.
    intros P own orph this args Hc Ho Ha. unfold act2. destruct args as [|v [|u [|]]]; try now apply t_err.
    eapply t_bind; [apply t_act; [exact P|now apply self_of|reflexivity]|].
    intros x own1 orph1 [-> ->]. now apply t_ret.
  Qed.
  Lemma good_make f cmd : making f cmd -> good f (make f cmd).
  Proof.
    intros P own orph this args Hc Ho Ha. unfold make. destruct args; [|now apply t_err].
    eapply t_bind; [apply t_point; [exact P|now apply self_of|reflexivity]|].
    intros x own1 orph1 ->. now apply t_ret.
  Qed.
  Lemma good_make1 f cmd : making f cmd -> good f (make1 f cmd).
  Proof.
    intros P own orph this args Hc Ho Ha. unfold make1. destruct args as [|v [|]]; try now apply t_err.
    eapply t_bind; [apply t_point; [exact P|now apply self_of|reflexivity]|].
    intros x own1 orph1 ->. now apply t_ret.
  Qed.
  Lemma good_typ f s : good f (typ s).
  Proof. intros own orph this args _ _ _. unfold typ. destruct args; [now apply t_ret|now apply t_err]. Qed.

  (** A loop whose body keeps what is owned. *)
  Lemma t_loop {A} own (body : mx K -> prog K A) n : forall i orph,
    (forall x orph', triple own orph' (body x) (fun _ own' _ => own' = own) (kept own)) ->
    triple own orph (loop n i body) (fun _ own' _ => own' = own) (kept own).
  Proof.
    induction n as [|n IH]; intros i orph H; cbn [loop]; [now apply t_ret|].
    eapply t_bind; [apply H|]. intros x own1 orph1 ->.
    eapply t_bind; [apply IH, H|]. intros l own2 orph2 ->. now apply t_ret.
  Qed.
  Lemma t_for {A} own orph (body : mx K -> prog K A) m :
    (forall x orph', triple own orph' (body x) (fun _ own' _ => own' = own) (kept own)) ->
    triple own orph (for_size m body) (fun _ own' _ => own' = own) (kept own).
  Proof.
    intros H. unfold for_size. destruct m as [| |[] [] dims d| | |]; try now apply t_err.
    destruct dims as [|[|[|]] [|[|[|]] [|]]]; try now apply t_err.
    destruct d as [|z [|]]; try now apply t_err. now apply t_loop.
  Qed.

  Lemma weaken {A} own orph (p : prog K A) F :
    triple own orph p (fun _ own' orph' => own' = own /\ orph' = orph) F ->
    triple own orph p (fun _ own' _ => own' = own) F.
  Proof. intros H. eapply t_conseq; [exact H|intros ? ? ? [? ?]; assumption|intros ? ? HF; exact HF]. Qed.

  Lemma good_vec cmd : plain FShell cmd -> good FShell (vec_m cmd).
  Proof.
    intros P own orph this args Hc Ho Ha. unfold vec_m. destruct args; [|now apply t_err].
    assert (Hs : exists a, o_handle this = mx_handle a /\ In (a, Some FShell) own) by now apply self_of.
    assert (Sz : plain FShell "size") by (repeat split; side).
    eapply t_bind; [apply t_get; [exact Sz|exact Hs|reflexivity]|]. intros x own1 orph1 [-> ->].
    eapply t_bind; [apply t_get; [exact Sz|exact Hs|reflexivity]|]. intros y own1 orph1 [-> ->].
    eapply t_bind; [apply t_for|].
    - intros z orph'. apply weaken, t_get; [exact P|exact Hs|reflexivity].
    - intros l own1 orph1 ->. now apply t_ret.
  Qed.
  Lemma good_points cmd : making FShell cmd -> good FShell (points_m cmd).
  Proof.
    intros P own orph this args Hc Ho Ha. unfold points_m. destruct args; [|now apply t_err].
    assert (Hs : exists a, o_handle this = mx_handle a /\ In (a, Some FShell) own) by now apply self_of.
    assert (Sz : plain FShell "size") by (repeat split; side).
    eapply t_bind; [apply t_get; [exact Sz|exact Hs|reflexivity]|]. intros x own1 orph1 [-> ->].
    eapply t_bind; [apply t_get; [exact Sz|exact Hs|reflexivity]|]. intros y own1 orph1 [-> ->].
    eapply t_bind; [apply t_for|].
    - intros z orph'. apply t_point; [exact P|exact Hs|reflexivity].
    - intros l own1 orph1 ->. now apply t_ret.
  Qed.

  (** Methods with a second object. *)
  Lemma other_of own (x : mobj K) orph : owned own x ->
    exists a c, Some (o_handle x) = Some (mx_handle a) /\ In (a, c) (own ++ orph).
  Proof. intros (a & -> & Hin). exists a, (Some (o_class x)). split; [easy|]. apply in_app_iff. now left. Qed.

  Lemma good_setup cmd : cmd = "setupFlat"%string \/ cmd = "setupMesh"%string -> good FShell (setup_m cmd).
  Proof.
    intros P own orph this args Hc Ho Ha. unfold setup_m.
    destruct args as [|[| g |] [|t [|mm [|]]]]; try now apply t_err.
    inversion Ha as [|? ? Hg _]; subst. cbn in Hg.
    eapply t_bind; [apply (t_mex1 own orph FShell cmd)|].
    1-4: destruct P as [-> | ->]; side.
    - now apply self_of.
    - intros _ _. now apply other_of.
    - reflexivity.
    - intros x own1 orph1 [-> ->]. now apply t_ret.
  Qed.

  Lemma good_other1 f cmd want (wr : mx K -> mres K) : (forall m own orph, result_ok own (wr m) own orph) ->
    ~ In Ascii.zero (lit cmd) -> cmd <> "delete"%string -> cmd <> "new"%string -> makes f cmd = None ->
    good f (fun this args => match args with
      | [v] => with_other want v (fun x => pbind (mex1 f [text cmd; o_handle this; o_handle x]) (fun m => PRet (wr m)))
      | _ => PErr end).
  Proof.
    intros Hw P1 P2 P3 P4 own orph this args Hc Ho Ha. cbn beta.
    destruct args as [|v [|]]; try now apply t_err. unfold with_other.
    destruct v as [|x|]; try now apply t_err. destruct (file_eqb _ _); [|now apply t_err].
    inversion Ha as [|? ? Hx _]; subst. cbn in Hx.
    eapply t_bind; [apply (t_mex1 own orph (o_class this) cmd); auto|].
    - intros _ _. now apply other_of.
    - reflexivity.
    - intros y own1 orph1 [-> ->]. now apply t_ret.
  Qed.
  Lemma good_other0 f cmd want :
    ~ In Ascii.zero (lit cmd) -> cmd <> "delete"%string -> cmd <> "new"%string -> makes f cmd = None ->
    good f (fun this args => match args with
      | [v] => with_other want v (fun x => pbind (mex0 f [text cmd; o_handle this; o_handle x]) (fun _ => PRet RNone))
      | _ => PErr end).
  Proof.
    intros P1 P2 P3 P4 own orph this args Hc Ho Ha. cbn beta.
    destruct args as [|v [|]]; try now apply t_err. unfold with_other.
    destruct v as [|x|]; try now apply t_err. destruct (file_eqb _ _); [|now apply t_err].
    inversion Ha as [|? ? Hx _]; subst. cbn in Hx.
    eapply t_bind; [apply (t_mex0 own orph (o_class this) cmd); auto|].
    - intros _ _. now apply other_of.
    - reflexivity.
    - intros y own1 orph1 [-> ->]. now apply t_ret.
  Qed.

  Ltac pl := repeat split; side.
  Ltac call1 L := eapply t_bind; [apply L; [pl|first [eassumption | now apply self_of]|reflexivity]|].

  Lemma good_set_plane : good FFlat flat_set_plane_m.
  Proof.
    intros own orph this args Hc Ho Ha. unfold flat_set_plane_m.
    assert (Hs : exists a, o_handle this = mx_handle a /\ In (a, Some FFlat) own) by now apply self_of.
    destruct args as [|[|x|p] [|]]; try now apply t_err.
    - destruct (file_eqb (o_class x) FFlat) eqn:E; [|now apply t_err]. apply file_eqb_spec in E.
      inversion Ha as [|? ? Hx _]; subst. cbn in Hx.
      assert (Hs' : exists a, o_handle x = mx_handle a /\ In (a, Some FFlat) own) by now apply self_of.
      call1 @t_point. intros q own1 orph1 ->. destruct q; try now apply t_err.
      call1 @t_act. intros [] own1 orph2 [-> ->]. call1 @t_get. intros n own1 orph2 [-> ->].
      call1 @t_act. intros [] own1 orph2 [-> ->]. now apply t_ret.
    - call1 @t_act. intros [] own1 orph2 [-> ->].
      call1 @t_act. intros [] own1 orph2 [-> ->]. now apply t_ret.
  Qed.
  Lemma good_flat_disp : good FFlat flat_disp_m.
  Proof.
    intros own orph this args Hc Ho Ha. unfold flat_disp_m. destruct args; [|now apply t_err].
    assert (Hs : exists a, o_handle this = mx_handle a /\ In (a, Some FFlat) own) by now apply self_of.
    call1 @t_get. intros f own1 orph1 [-> ->]. call1 @t_point. intros q own1 orph1 ->.
    destruct q; try now apply t_err. call1 @t_get. intros n own1 orph2 [-> ->]. now apply t_ret.
  Qed.
  Lemma good_flat_plot : good FFlat flat_plot_m.
  Proof.
    intros own orph this args Hc Ho Ha. unfold flat_plot_m.
    destruct args as [|? [|? [|]]]; try now apply t_err.
    assert (Hs : exists a, o_handle this = mx_handle a /\ In (a, Some FFlat) own) by now apply self_of.
    call1 @t_point. intros q own1 orph1 ->. now apply t_ret.
  Qed.

  Lemma t_triangle own orph this : (exists a, o_handle this = mx_handle a /\ In (a, Some FTri) own) ->
    triple own orph (to_triangle this) (fun _ own' _ => own' = own) (kept own).
  Proof.
    intros Hs. unfold to_triangle. do 3 (call1 @t_point; intros ? ? ? ->). now apply t_ret.
  Qed.
  Lemma good_to_triangle : good FTri to_triangle_m.
  Proof.
    intros own orph this args Hc Ho Ha. unfold to_triangle_m. destruct args; [|now apply t_err].
    eapply t_bind; [apply t_triangle; now apply self_of|]. intros l own1 orph1 ->. now apply t_ret.
  Qed.
  Lemma good_tri_plot : good FTri tri_plot_m.
  Proof.
    intros own orph this args Hc Ho Ha. unfold tri_plot_m. destruct args as [|? [|? [|]]]; try now apply t_err.
    eapply t_bind; [apply t_triangle; now apply self_of|]. intros l own1 orph1 ->. now apply t_ret.
  Qed.
  Lemma good_tri_disp : good FTri tri_disp_m.
  Proof.
    intros own orph this args Hc Ho Ha. unfold tri_disp_m. destruct args; [|now apply t_err].
    assert (Hs : exists a, o_handle this = mx_handle a /\ In (a, Some FTri) own) by now apply self_of.
    do 2 (call1 @t_get; intros ? ? ? [-> ->]).
    eapply t_bind; [now apply t_triangle|]. intros l own1 orph1 ->.
    destruct l as [|[] [|[] [|[] [|]]]]; (now apply t_err) || now apply t_ret.
  Qed.
  Lemma good_set_vertex cmd : In cmd ["setVertex1"; "setVertex2"; "setVertex3"]%string ->
    good FTri (set_vertex_m cmd).
  Proof.
    intros P own orph this args Hc Ho Ha. unfold set_vertex_m.
    destruct args as [|[|x|] [|]]; try now apply t_err.
    assert (plain FTri cmd) by (cbn in P; destruct P as [<-|[<-|[<-|[]]]]; pl).
    eapply t_bind; [apply t_act; [assumption|now apply self_of|reflexivity]|].
    intros y own1 orph1 [-> ->]. now apply t_ret.
  Qed.

  (** A new object. *)
  Lemma t_new own orph f args F : F own orph ->
    triple own orph (new_object f args)
      (fun x own' orph' => o_class x = f /\ orph' = orph /\
         exists a, o_handle x = mx_handle a /\ own' = (a, Some f) :: own) F.
  Proof.
    intros HF. unfold new_object, mex1. cbn [pbind]. apply t_mex; try side; auto.
    - cbn. intros a. apply t_ret. cbn. eauto 10.
    - now apply t_err.
  Qed.

  Lemma t_get_triangleground own orph this i :
    (exists a, o_handle this = mx_handle a /\ In (a, Some FMesh) own) ->
    triple own orph (get_triangleground this i)
      (fun x own' _ => exists a, x = Obj FTri (mx_handle a) /\ own' = (a, Some FTri) :: own) (kept own).
  Proof.
    intros (b & Hb & Hin). unfold get_triangleground.
    eapply t_bind; [apply t_new; reflexivity|].
    intros [g h] own1 orph1 (Hg & -> & a & Ha & ->). cbn in Hg, Ha. subst g h.
    apply (t_guard _ _ _ _ _ (fun own' _ => own' = (a, Some FTri) :: own)).
    - eapply t_bind.
      + apply (t_make1 _ _ FMesh "getTriangleground" (Some FTri)); try side.
        exists b. split; [easy|now right].
      + intros h own1 orph1 (-> & d & -> & ->).
        eapply t_bind; [apply (t_mex0 _ _ FTri "copy"); try side|].
        * exists a. split; [easy|now left].
        * intros _ _. exists d, (Some FTri). split; [easy|]. apply in_app_iff. right. now left.
        * intros [] own1 orph2 [-> ->]. apply t_ret. eauto.
    - intros own1 orph1 ->. now apply t_destroy.
  Qed.
  Lemma good_mesh_tri : good FMesh mesh_tri_m.
  Proof.
    intros own orph this args Hc Ho Ha. unfold mesh_tri_m. destruct args as [|v [|]]; try now apply t_err.
    eapply t_bind; [apply t_get_triangleground; now apply self_of|].
    intros x own1 orph1 (a & -> & ->). apply t_ret. cbn. eauto.
  Qed.
  Lemma good_mesh_triangle : good FMesh mesh_triangle_m.
  Proof.
    intros own orph this args Hc Ho Ha. unfold mesh_triangle_m. destruct args as [|v [|]]; try now apply t_err.
    eapply t_bind; [apply t_get_triangleground; now apply self_of|].
    intros x own1 orph1 (a & -> & ->). unfold ensure.
    eapply (t_bind _ _ _ _ (fun r own' _ => own' = (a, Some FTri) :: own /\ forall z : mobj K, r <> RObj z)).
    - apply (t_guard _ _ _ _ _ (fun own' _ => own' = (a, Some FTri) :: own)).
      + eapply t_bind; [apply t_triangle; exists a; split; [easy|now left]|].
        intros l own1 orph2 ->. apply t_ret. split; [easy|discriminate].
      + intros own1 orph2 ->. now apply t_destroy.
    - intros r own1 orph2 (-> & Hr). eapply t_bind; [apply (t_destroy own orph2 FTri a (fun _ own' _ => own' = own)); reflexivity|].
      intros [] own1 orph3 ->. apply t_ret. destruct r; try reflexivity. now contradiction (Hr o).
  Qed.
  Lemma good_mesh_plot : good FMesh mesh_plot_m.
  Proof.
    intros own orph this args Hc Ho Ha. unfold mesh_plot_m. destruct args as [|? [|? [|]]]; try now apply t_err.
    assert (Hs : exists a, o_handle this = mx_handle a /\ In (a, Some FMesh) own) by now apply self_of.
    do 4 (call1 @t_get; intros ? ? ? [-> ->]).
    eapply t_bind; [apply t_for; intros z orph'; apply weaken, t_get; [pl|exact Hs|reflexivity]|].
    intros l own1 orph1 ->. now apply t_ret.
  Qed.

  Lemma methods_good f : Forall (fun x => good f (snd x)) (methods f).
  Proof.
    destruct f; cbn [methods]; unfold shell_methods, flat_methods, mesh_methods, tri_methods;
      repeat (apply Forall_cons || apply Forall_nil); cbn [snd];
      try (apply good_get; pl); try (apply good_get1; pl); try (apply good_act1; pl);
      try (apply good_act2; pl); try (apply good_make; pl); try (apply good_make1; pl);
      try apply good_typ; try (apply good_vec; pl); try (apply good_points; pl);
      try (apply good_setup; tauto); try apply good_set_plane; try apply good_flat_disp;
      try apply good_flat_plot; try apply good_to_triangle; try apply good_tri_plot;
      try apply good_tri_disp; try (apply good_set_vertex; cbn; tauto); try apply good_mesh_tri;
      try apply good_mesh_triangle; try apply good_mesh_plot; try (apply good_other0; side).
    apply (good_other1 FFlat "isApprox" FFlat (fun m => RArr m)); try side. 
  Qed.

  Lemma good_invoke own orph (x : mobj K) name args : owned own x -> Forall (arg_ok own) args ->
    triple own orph (invoke x name args) (result_ok own) (kept own).
  Proof.
    intros Ho Ha. unfold invoke. destruct (assoc _ _) as [mt|] eqn:E; [|now apply t_err].
    apply assoc_in in E as (n & Hin & _). pose proof (methods_good (o_class x)) as H.
    rewrite Forall_forall in H. now apply (H _ Hin).
  Qed.

  Lemma t_construct own orph f args :
    triple own orph (construct f args)
      (fun x own' orph' => o_class x = f /\ exists a, o_handle x = mx_handle a /\ own' = (a, Some f) :: own)
      (kept own).
  Proof.
    assert (N : forall g, triple own orph (new_object g args)
      (fun x own' orph' => o_class x = g /\ exists a, o_handle x = mx_handle a /\ own' = (a, Some g) :: own)
      (kept own)).
    { intros g. eapply t_conseq; [apply (t_new own orph g args (kept own)); reflexivity| |]; [|easy].
      intros x a b (? & ? & ?). now split. }
    destruct f; cbn [construct]; try apply N. unfold new_mesh.
    destruct (map to_mx args) as [|[] rest]; try now apply t_err.
    destruct (Nat.ltb _ _); [now apply t_err|]. apply t_isfile. intros [|]; cbn [negb]; [|now apply t_err].
    cbv zeta.
    match goal with |- triple _ _ (if ?b then _ else _) _ _ => destruct b end; [apply N|now apply t_err].
  Qed.
End Methods.
