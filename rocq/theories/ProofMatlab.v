(** * The MATLAB classes: which handles reach the gateways, and who owns them. *)
From Coq Require Import ZArith Bool String List Lia Permutation.
From Verif Require Import Base Num Vec Aabb Geom Ground Shape Rib Str Mesh Shell Sfun Mex SpecMex
  ProofMex ProofMexB ProofMexC ProofMexD Matlab SpecMatlab.
Import ListNotations.

Section Classes.
  Context {K : Type} {NK : Num K}.
  Implicit Types (w : world K) (o : obj K) (m : mx K).

  Ltac peel H :=
    let x := fresh "x" in let Hx := fresh "Hx" in
    apply obind_ret in H as (x & Hx & H).

  (** Addresses and classes of the live objects. *)
  Definition tag : Type := Z * option mexfile.
  Definition tags (h : list (Z * obj K)) : list tag := map (fun x => (fst x, class_of (snd x))) h.

  Lemma tags_fst h : map fst (tags h) = map fst h.
  Proof. unfold tags. rewrite map_map. reflexivity. Qed.

  Lemma tags_set h a o o' :
    hfind h a = Some o -> class_of o' = class_of o -> tags (hset h a o') = tags h.
  Proof.
    intros Hf Hc. induction h as [|[b x] h IH]; cbn in *; [easy|].
    destruct (Z.eqb a b); cbn.
    - injection Hf as ->. now rewrite Hc.
    - f_equal. now apply IH.
  Qed.

  Lemma tags_del h a o :
    hfind h a = Some o -> Permutation (tags h) ((a, class_of o) :: tags (hdel h a)).
  Proof.
    induction h as [|[b x] h IH]; cbn; [easy|].
    destruct (Z.eqb_spec a b) as [->|]; cbn; intros Hf.
    - now injection Hf as ->.
    - rewrite (IH Hf). apply perm_swap.
  Qed.

  Lemma tags_live h a c : NoDup (map fst h) -> In (a, c) (tags h) ->
    exists o, hfind h a = Some o /\ class_of o = c.
  Proof.
    induction h as [|[b x] h IH]; cbn; [easy|]. intros Hn Hin. inversion Hn; subst.
    destruct Hin as [[= <- <-]|Hin].
    - rewrite Z.eqb_refl. eauto.
    - destruct (Z.eqb_spec a b) as [->|]; [|now apply IH].
      exfalso. apply H1. apply (in_map fst) in Hin. now rewrite tags_fst in Hin.
  Qed.

  Lemma tags_length h : List.length (tags h) = List.length h.
  Proof. apply map_length. Qed.

  (** The class of the object behind the handle that a command makes. *)
  Definition makes (f : mexfile) (c : string) : option (option mexfile) :=
    match f with
    | FFlat => if String.eqb c "getOrigin" || String.eqb c "getPlane" then Some None else None
    | FTri => if String.eqb c "getVertex1" || String.eqb c "getVertex2" || String.eqb c "getVertex3"
              then Some None else None
    | FMesh => if String.eqb c "getTriangleground" then Some (Some FTri) else None
    | FShell => if String.eqb c "ribCenter" || String.eqb c "contactPointAvg" || String.eqb c "contactPointRib"
                then Some None else None
    end%string.

  (** What is there afterwards. *)
  Definition post (f : mexfile) (n : string) (e : env K) w (r : reply) : Prop :=
    match r with
    | Ok w' outs =>
      match makes f n with
      | Some k => outs = [mx_handle (e_new e)] /\
                  exists o, class_of o = k /\ w' = wnew f w (e_new e) o
      | None => if String.eqb n "new" then outs = [mx_handle (e_new e)]
                else n <> "delete"%string -> List.length (w_heap w') = List.length (w_heap w)
      end
    | Exn w' _ => List.length (w_heap w') = List.length (w_heap w)
    | Undef => True
    end.

  Lemma post_query f n e w r : makes f n = None -> String.eqb n "new" = false ->
    post f n e w (query w r).
  Proof. intros H H'. destruct r; cbn; rewrite ?H, ?H'; easy. Qed.
  Lemma post_update f n e w r : makes f n = None -> String.eqb n "new" = false ->
    post f n e w (update w r).
  Proof.
    intros H H'. destruct r as [[]| |]; cbn; rewrite ?H, ?H'; try easy. intros _. apply hset_length.
  Qed.
  Lemma post_mutate {S A} f n e w (mk : S -> obj K) (o : A -> list (mx K)) r :
    makes f n = None -> String.eqb n "new" = false -> post f n e w (mutate w mk o r).
  Proof.
    intros H H'. destruct r as [[? []]| |]; cbn; rewrite ?H, ?H'; try easy; intros; apply hset_length.
  Qed.
  Lemma post_create f n e w r k : makes f n = Some k -> (forall o, r = Ret o -> class_of o = k) ->
    post f n e w (create f e w r).
  Proof. intros H Hk. destruct r; cbn; rewrite ?H; try easy. split; [easy|]. eauto. Qed.
  Lemma post_new f e w r : makes f "new" = None -> post f "new" e w (create f e w r).
  Proof. intros H. destruct r; cbn; rewrite ?H; try easy. Qed.
  Lemma post_delete {A} f e w nlhs prhs (sel : obj K -> option A) :
    makes f "delete" = None -> post f "delete" e w (do_delete f sel e w nlhs prhs).
  Proof.
    intros H. unfold do_delete. destruct (let* _ := _ in _) as [[]| |]; cbn; rewrite ?H; easy.
  Qed.

  Lemma table_post f :
    Forall (fun x => forall e w nlhs prhs, post f (fst x) e w (snd x e w nlhs prhs)) (table f).
  Proof.
    destruct f; cbn [table]; unfold shell_table, flat_table, mesh_table, tri_table;
      repeat (apply Forall_cons || apply Forall_nil); cbn [fst snd]; intros e w nlhs prhs;
      try (apply post_query; reflexivity); try (apply post_update; reflexivity);
      try (apply post_mutate; reflexivity); try (apply post_delete; reflexivity);
      try (apply post_new; reflexivity);
      try (eapply post_create; [reflexivity|]; intros o Ho; repeat peel Ho; injection Ho as <-; reflexivity).
    - unfold mesh_new. destruct (let* _ := _ in _); cbn; try easy.
      destruct (mesh_new_load e prhs) as [[[m b|m y|]|]|y|]; cbn; easy.
    - unfold mesh_get_vertices. destruct (let* _ := _ in _); cbn; easy.
  Qed.

  Lemma text_lit c : ~ In Ascii.zero (lit c) -> cstr (lit c) = lit c.
  Proof. apply cstr_lit. Qed.

  (** One gateway call and the live objects. *)
  Lemma call_tags f e w nlhs cmd rest :
    fresh w (e_new e) -> ~ In Ascii.zero (lit cmd) ->
    (nlhs <= 1)%nat -> (cmd = "delete"%string -> nlhs = 0%nat) ->
    match mex_call f e w nlhs (text cmd :: rest) with
    | Ok w' outs =>
      if String.eqb cmd "new" then
        outs = [mx_handle (e_new e)] /\ tags (w_heap w') = (e_new e, Some f) :: tags (w_heap w)
      else
        match makes f cmd with
        | Some k => outs = [mx_handle (e_new e)] /\ tags (w_heap w') = (e_new e, k) :: tags (w_heap w) /\
                    exists o, live w' (e_new e) o /\ class_of o = k
        | None => cmd <> "delete"%string -> tags (w_heap w') = tags (w_heap w)
        end
    | Exn w' _ => tags (w_heap w') = tags (w_heap w)
    | Undef => True
    end.
  Proof.
    intros Hf Hz Hn1 Hn0.
    assert (L : forall w', effect f e (text cmd :: rest) w w' ->
      List.length (w_heap w') = List.length (w_heap w) -> tags (w_heap w') = tags (w_heap w)).
    { intros w' He Hl. destruct He as [|o _|a o o' Ha Ho Hc Hc'|a o Ha Ho Hc|]; cbn in *; try easy.
      - lia.
      - apply (tags_set _ a o o'); [exact Ho|congruence].
      - apply (hdel_length _ a o) in Ho. lia. }
    pose proof (mex_sound f e w nlhs (text cmd :: rest)) as Hs.
    destruct (mex_call f e w nlhs (text cmd :: rest)) as [w' outs|w' x|] eqn:E; [| |exact I].
    - destruct (String.eqb_spec cmd "new") as [->|Hn].
      + destruct (new_ok f e w nlhs _ w' outs (text_command "new" rest Hz) E) as (_ & -> & o & Ho & ->).
        split; [easy|]. cbn. now rewrite Ho.
      + unfold mex_call in E. cbn [text] in E. unfold text in E. rewrite (text_lit cmd Hz) in E.
        destruct (assoc (table f) (lit cmd)) as [c|] eqn:Ec; [|discriminate].
        apply assoc_in in Ec as (n & Hin & Hlit). apply lit_inj in Hlit. subst n.
        pose proof (table_post f) as Ht. rewrite Forall_forall in Ht.
        specialize (Ht _ Hin e w nlhs (MxChar (lit cmd) :: rest)). cbn [fst snd] in Ht.
        unfold returned in E.
        destruct (c e w nlhs (MxChar (lit cmd) :: rest)) as [w1 o1|w1 x1|]; try discriminate.
        destruct (Nat.ltb _ _); [discriminate|]. injection E as -> ->. cbn in Ht.
        rewrite (proj2 (String.eqb_neq cmd "new") Hn) in Ht.
        destruct (makes f cmd) as [k|].
        * destruct Ht as (-> & o & Ho & ->). split; [easy|]. cbn. rewrite Ho. split; [easy|].
          exists o. unfold live. cbn. now rewrite Z.eqb_refl.
        * intros Hd. apply L; [exact Hs|]. apply Ht, Hd.
    - apply L; [exact Hs|].
      unfold mex_call in E. unfold text in E. rewrite (text_lit cmd Hz) in E.
      destruct (assoc (table f) (lit cmd)) as [c|] eqn:Ec; [|now injection E as -> _].
      apply assoc_in in Ec as (n & Hin & Hlit). apply lit_inj in Hlit. subst n.
      pose proof (table_post f) as Ht. rewrite Forall_forall in Ht.
      specialize (Ht _ Hin e w nlhs (MxChar (lit cmd) :: rest)). cbn [fst snd] in Ht.
      unfold returned in E.
      destruct (c e w nlhs (MxChar (lit cmd) :: rest)) as [w1 o1|w1 x1|] eqn:Er; try discriminate.
      2:{ injection E as -> _. exact Ht. }
      destruct (Nat.ltb_spec (List.length o1) nlhs) as [Hlt|]; [|discriminate]. injection E as -> _.
      cbn in Ht. destruct (makes f cmd) as [k|].
      { destruct Ht as (-> & _). cbn in Hlt. lia. }
      destruct (String.eqb_spec cmd "new"); [subst; cbn in Hlt; lia|].
      apply Ht. intros Hd. rewrite (Hn0 Hd) in Hlt. lia.
  Qed.
End Classes.
