(** * Flat grounds made and changed from MATLAB. *)
From Coq Require Import ZArith Bool Reals Lra String List.
From Verif Require Import Base Num Vec Aabb Geom Ground Shape Rib Str Mesh Shell Sfun ER SpecGeom
  ProofGeom ProofInt ProofTri ProofGround Mex SpecMex SpecMexFlat ProofMex ProofMexB ProofMexC.
Import ListNotations.
Local Open Scope R_scope.

Ltac peel H :=
  let x := fresh "x" in let Hx := fresh "Hx" in
  apply obind_ret in H as (x & Hx & H).

Lemma get_vec_finite (m : mx er) v : finite_mx m -> get_vec m = Ret v -> exists p, v = fv p.
Proof.
  intros Hf H. unfold get_vec in H. peel H. destruct x as [[r c] p].
  destruct (_ || _)%bool; [|discriminate].
  unfold mex_matrix_pointer in Hx. peel Hx. injection Hx as _ <-.
  destruct m as [dims d| | | | |]; try discriminate.
  destruct d as [|x1 [|x2 [|x3 d]]]; try discriminate. cbn in H. injection H as <-.
  cbn in Hf. inversion Hf as [|? ? [r1 ->] Hf1]; subst. inversion Hf1 as [|? ? [r2 ->] Hf2]; subst.
  inversion Hf2 as [|? ? [r3 ->] Hf3]; subst. now exists (V r1 r2 r3).
Qed.

Lemma mk_flat_sound mu o d g : mk_flat mu (fv o) (fv d) = Ret g -> sound_flat g.
Proof.
  intros H. pose proof (flat_stored mu o d g H) as (u & k & HP & HF & HU & HZ & _).
  split; [exists o, u; auto|]. rewrite HF. unfold mk_flat in H.
  destruct (nle (nofZ 0) mu) eqn:E; [easy|discriminate].
Qed.

Lemma copy_sound this g : sound_flat g -> sound_flat (flat_copy this g).
Proof.
  intros [(o & u & HP & HU & HZ) HF]. split; [|exact HF].
  exists o, u. split; [|now split]. unfold flat_copy. cbn [fl_plane]. rewrite HP.
  unfold plane_normalize, fplane. cbn [porigin pnormal]. push. now rewrite punit_unit.
Qed.

Lemma sound_set w a g : sound_world w -> sound_flat g -> sound_world (wset w a (OFlat g)).
Proof.
  intros Hw Hg b g' Hl. unfold live in Hl. cbn in Hl.
  destruct (Z.eq_dec b a) as [->|Hn].
  - destruct (hfind (w_heap w) a) as [x|] eqn:E.
    + rewrite (hfind_set_same _ _ _ _ E) in Hl. now injection Hl as <-.
    + exfalso. revert E Hl. generalize (w_heap w). induction l as [|[c y] l IH]; cbn; [easy|].
      destruct (Z.eqb_spec a c) as [<-|Hc]; [easy|]. cbn.
      destruct (Z.eqb_spec a c); [congruence|auto].
  - rewrite hfind_set_other in Hl by easy. now apply (Hw b).
Qed.

Lemma sound_new w f a o : sound_world w -> (forall g, o = OFlat g -> sound_flat g) -> sound_world (wnew f w a o).
Proof.
  intros Hw Ho b g Hl. unfold live in Hl. cbn in Hl.
  destruct (Z.eqb b a); [injection Hl as ->; now apply Ho|now apply (Hw b)].
Qed.

Lemma hfind_del_sub (h : list (Z * obj er)) a b o :
  NoDup (map fst h) -> hfind (hdel h a) b = Some o -> hfind h b = Some o.
Proof.
  intros Hd H. destruct (Z.eq_dec b a) as [->|Hn].
  - rewrite (hfind_del_same h a Hd) in H. discriminate.
  - now rewrite hfind_del_other in H.
Qed.

Lemma flat_handle_sound w m a g : sound_world w -> get_handle as_flat w m = Ret (a, g) -> sound_flat g.
Proof.
  intros Hw H. apply get_handle_ret in H as (_ & o & Hl & Hs). destruct o; try discriminate.
  injection Hs as ->. now apply (Hw a).
Qed.

Lemma finite_nth l n m : Forall finite_mx l -> arg l n = Ret m -> finite_mx m.
Proof.
  intros Hf H. unfold arg in H. destruct (nth_error l n) eqn:E; [|discriminate]. injection H as ->.
  apply nth_error_In in E. rewrite Forall_forall in Hf. now apply Hf.
Qed.

Definition keeps_sound (c : command (K := er)) : Prop :=
  forall e w nlhs prhs, proper w -> Forall finite_mx prhs -> sound_world w ->
    match c e w nlhs prhs with Ok w' _ | Exn w' _ => sound_world w' | Undef => True end.

Lemma self_flat_sound nin nout w nlhs prhs h :
  sound_world w -> self_flat nin nout w nlhs prhs = Ret h -> sound_flat (snd h).
Proof.
  intros Hw H. unfold self_flat in H. peel H. peel H. destruct h as [a g]. now apply (flat_handle_sound w x0 a g).
Qed.

Lemma flat_table_sound :
  Forall (fun x => (fst x = "setNormal" \/ fst x = "setFriction")%string \/ keeps_sound (snd x)) flat_table.
Proof.
  assert (Q : forall w r, sound_world w ->
    match query w r with Ok w' _ | Exn w' _ => sound_world w' | Undef => True end).
  { intros w [] H; easy. }
  assert (U : forall w r, sound_world w -> (forall a o, r = Ret (a, o) -> exists g, o = OFlat g /\ sound_flat g) ->
    match update w r with Ok w' _ | Exn w' _ => sound_world w' | Undef => True end).
  { intros w [[a o]| |] H H1; cbn; try easy. destruct (H1 a o eq_refl) as (g & -> & Hg). now apply sound_set. }
  unfold flat_table.
  repeat (apply Forall_cons || apply Forall_nil); cbn [fst snd]; try (left; now auto); right;
    intros e w nlhs prhs Hp Hf Hw; try (apply Q; exact Hw).
  - unfold flat_new. destruct (let* _ := _ in _) as [o| |] eqn:E; cbn; try easy.
    apply sound_new; [easy|]. intros g ->.
    peel E. peel E. peel E. injection E as ->.
    destruct (Nat.eqb _ 4).
    + peel Hx1. peel Hx1. peel Hx1. peel Hx1. peel Hx1. peel Hx1.
      destruct (get_vec_finite x3 x4 (finite_nth _ _ _ Hf Hx4) Hx5) as [p ->].
      destruct (get_vec_finite x5 x6 (finite_nth _ _ _ Hf Hx6) Hx7) as [q ->].
      now apply (mk_flat_sound x2 p q).
    + unfold mk_flat in Hx1. cbn in Hx1. discriminate.
  - unfold do_delete. destruct (let* _ := _ in _) as [[a x]| |]; try easy.
    intros b g Hl. unfold live in Hl. cbn in Hl. apply hfind_del_sub in Hl; [|exact Hp]. now apply (Hw b).
  - unfold flat_make. destruct (let* _ := _ in _) as [o| |] eqn:E; cbn; try easy.
    apply sound_new; [easy|]. intros g ->. peel E. discriminate.
  - apply U; [easy|]. intros a o E. peel E. peel E. peel E. peel E. injection E as <- <-. eexists; split; [reflexivity|].
    destruct x0 as [a0 g0]. pose proof (flat_handle_sound w x a0 g0 Hw Hx0) as [(o & u & HP & HU & HZ) HF].
    destruct (get_vec_finite x1 x2 (finite_nth _ _ _ Hf Hx1) Hx2) as [p ->].
    split; [|exact HF]. exists p, u. cbn [fl_plane snd]. rewrite HP. now split.
  - unfold flat_make. destruct (let* _ := _ in _) as [o| |] eqn:E; cbn; try easy.
    apply sound_new; [easy|]. intros g ->. peel E. discriminate.
  - apply U; [easy|]. intros a o E. peel E. peel E. peel E. injection E as <- <-. eexists; split; [reflexivity|].
    pose proof (self_flat_sound _ _ _ _ _ _ Hw Hx) as [_ HF].
    destruct x1 as [a1 g1]. pose proof (flat_handle_sound w x0 a1 g1 Hw Hx1) as [HP _]. now split.
  - apply U; [easy|]. intros a o E. peel E. peel E. peel E. injection E as <- <-. eexists; split; [reflexivity|].
    destruct x1 as [a1 g1]. apply copy_sound. now apply (flat_handle_sound w x0 a1 g1).
Qed.

Lemma effect_other f e prhs w w' :
  f <> FFlat -> proper w -> sound_world w -> effect f e prhs w w' -> sound_world w'.
Proof.
  intros Hf Hp Hw He. destruct He as [|o Ho|a o o' _ Hl0 _ Ho'|a o _ _ _|]; try easy.
  - apply sound_new; [easy|]. intros g ->. cbn in Ho. destruct Ho as [?|[?|[? ?]]]; congruence.
  - intros b g Hl. unfold live in Hl. cbn in Hl. destruct (Z.eq_dec b a) as [->|Hn].
    + unfold live in Hl0. rewrite (hfind_set_same _ _ _ _ Hl0) in Hl. injection Hl as ->. cbn in Ho'. congruence.
    + rewrite hfind_set_other in Hl by easy. now apply (Hw b).
  - intros b g Hl. unfold live in Hl. cbn in Hl. apply hfind_del_sub in Hl; [|exact Hp]. now apply (Hw b).
Qed.

Lemma sound_step w c w' :
  proper w -> sound_world w -> tame c -> step w c w' -> sound_world w'.
Proof.
  intros Hp Hw [Hf Ht] Hs.
  assert (Hother : c_file c <> FFlat -> sound_world w').
  { intros Hn. apply step_effect in Hs as [He _]. now apply (effect_other _ _ _ _ _ Hn Hp Hw He). }
  destruct (c_file c) eqn:Ec; try (apply Hother; congruence). clear Hother.
  destruct (Ht eq_refl) as [Hn1 Hn2]. destruct Hs as [_ Hr]. unfold perform in Hr. rewrite Ec in Hr.
  unfold mex_call in Hr. destruct (c_args c) as [|p rest] eqn:Ea.
  { destruct Hr as [[? Hr]|[? Hr]]; [discriminate|]. now injection Hr as <-. }
  destruct p; try (destruct Hr as [[? Hr]|[? Hr]]; [discriminate|]; now injection Hr as <-).
  destruct (assoc (table FFlat) (cstr s)) as [cm|] eqn:E.
  2:{ destruct Hr as [[? Hr]|[? Hr]]; [discriminate|]. now injection Hr as <-. }
  apply assoc_in in E as (n & Hin & Hn).
  pose proof flat_table_sound as Hfs. rewrite Forall_forall in Hfs.
  destruct (Hfs _ Hin) as [[Hx|Hx]|Hk]; cbn [fst snd] in *.
  - subst n. exfalso. apply Hn1. now exists s, rest.
  - subst n. exfalso. apply Hn2. now exists s, rest.
  - specialize (Hk (c_env c) w (c_nlhs c) _ Hp Hf Hw).
    destruct (cm _ w _ _) as [w1 o1|w1 x1|]; unfold returned in Hr.
    + destruct (Nat.ltb _ _); destruct Hr as [[? Hr]|[? Hr]]; try discriminate; now injection Hr as <-.
    + destruct Hr as [[? Hr]|[? Hr]]; try discriminate. now injection Hr as <-.
    + destruct Hr as [[? Hr]|[? Hr]]; discriminate.
Qed.

Lemma sound_session w cs w' :
  proper w -> sound_world w -> Forall tame cs -> session w cs w' -> sound_world w'.
Proof.
  intros Hp Hw Ht Hs. induction Hs; [easy|]. inversion Ht; subst.
  apply IHHs; [now apply (proper_step w c)|now apply (sound_step w c)|easy].
Qed.

Lemma sound_start cs w : Forall tame cs -> session start cs w -> sound_world w.
Proof.
  intros Ht Hs. apply (sound_session start cs); auto.
  - unfold proper. cbn. constructor.
  - intros a g H. discriminate.
Qed.

(** The documented call without arguments. *)
Lemma flat_new_bare (e : env er) w nlhs w' outs m :
  is_command [m] "new" -> mex_call FFlat e w nlhs [m] <> Ok w' outs.
Proof.
  intros Hc H. rewrite (mex_runs FFlat e w nlhs [m] "new" flat_new Hc) in H by (cbn; tauto).
  unfold returned in H. destruct (flat_new e w nlhs [m]) as [w1 o1| |] eqn:E; try discriminate.
  unfold flat_new in E. destruct (let* h := _ in _) eqn:E1; cbn in E; try discriminate.
  cbn [List.length Nat.eqb orb assert obind] in E1. peel E1. peel E1. unfold mk_flat in Hx0. cbn in Hx0. discriminate.
Qed.
