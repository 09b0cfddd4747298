(** * Undefined behaviour of the OBJ loader, exactly: proofs. *)
From Coq Require Import ZArith Bool Lia String List Ascii.
From Verif Require Import Base Num Vec Geom Aabb Str Ground Mesh SpecMesh SpecLoad SpecObj ProofLoad ProofMesh.
Import ListNotations.

Section Obj.
  Context {K : Type} {NK : Num K}.
  Variable stod : text -> outcome K.
  Variable fs : text -> option text.

  Lemma minus1_cases : forall s, (exists e, stoi s = Throw e /\ stoi_minus1 s = Throw e) \/
    (stoi s = Ret int_min /\ stoi_minus1 s = UB) \/
    (exists i, stoi s = Ret i /\ i <> int_min /\ stoi_minus1 s = Ret (i - 1)%Z).
  Proof.
    intros s. unfold stoi_minus1. destruct (stoi s) as [i|e|] eqn:E; cbn [obind].
    - destruct (Z.eqb_spec i int_min) as [->|N]; [auto|]. right. right. eauto.
    - left. eauto.
    - now apply stoi_not_ub in E.
  Qed.

  Lemma read_face_ub : forall f l (st : lstate (K:=K)),
    read_face f l st = UB <->
    exists a b c, words space1 (after_first l) [a; b; c] /\ face_undefined (Z.of_nat (length (ls_nodes st))) a b c.
  Proof.
    intros f l st. unfold read_face. rewrite tail_after_first. change int_min with (- 2 ^ 31)%Z in *. split.
    - destruct (split _ (lit " ")) as [|a [|b [|c [|d ds]]]] eqn:E; try discriminate. apply split_iff in E.
      intros H. exists a, b, c. split; [exact E|]. unfold face_undefined.
      destruct (minus1_cases a) as [(e & Ea & Fa)|[(Ea & Fa)|(i & Ea & Na & Fa)]]; rewrite Fa in H; cbn [obind] in H; [discriminate|now left|].
      destruct (minus1_cases b) as [(e & Eb & Fb)|[(Eb & Fb)|(j & Eb & Nb & Fb)]]; rewrite Fb in H; cbn [obind] in H; [discriminate|right; left; eauto|].
      destruct (minus1_cases c) as [(e & Ec & Fc)|[(Ec & Fc)|(k & Ec & Nc & Fc)]]; rewrite Fc in H; cbn [obind] in H; [discriminate|right; right; left; eauto|].
      do 3 right. exists i, j, k.
      destruct (Z.leb_spec 0 (i - 1)); cbn [obind assert] in H; [|discriminate].
      destruct (Z.leb_spec 0 (j - 1)); cbn [obind assert] in H; [|discriminate].
      destruct (Z.leb_spec 0 (k - 1)); cbn [obind assert] in H; [|discriminate].
      apply push_tri_ub in H; auto. repeat split; auto; lia.
    - intros (a & b & c & W & U). apply split_iff in W. rewrite W.
      destruct U as [Ea|[((i & Ea) & Eb)|[((i & j & Ea & Eb) & Ec)|(i & j & k & Ea & Eb & Ec & P & N)]]]; unfold stoi_minus1.
      + rewrite Ea. reflexivity.
      + rewrite Ea, Eb. cbn [obind]. destruct (i =? int_min)%Z; reflexivity.
      + rewrite Ea, Eb, Ec. cbn [obind]. destruct (i =? int_min)%Z; [reflexivity|]. cbn [obind]. destruct (j =? int_min)%Z; reflexivity.
      + rewrite Ea, Eb, Ec. cbn [obind]. unfold int_min. destruct (Z.eqb_spec i (- 2 ^ 31)); [lia|]. destruct (Z.eqb_spec j (- 2 ^ 31)); [lia|].
        destruct (Z.eqb_spec k (- 2 ^ 31)); [lia|]. cbn [obind].
        rewrite (proj2 (Z.leb_le 0 (i - 1))), (proj2 (Z.leb_le 0 (j - 1))), (proj2 (Z.leb_le 0 (k - 1))) by lia. cbn [obind assert].
        apply push_tri_ub; lia.
  Qed.

  Lemma load_obj_undef_iff : forall path f pose m, defined_reader stod ->
    (load_obj stod fs path f pose m = Undef <->
     ends_with path (txt ".obj") /\
     exists content pre l post ts ns a b c,
       fs path = Some content /\ lines content (pre ++ l :: post) /\
       obj_file stod stoi pose f [] pre ts ns /\
       first_word l = txt "f" /\ words space1 (after_first l) [a; b; c] /\
       face_undefined (Z.of_nat (length ns)) a b c).
  Proof.
    intros path f pose m HD. split.
    - intros H. unfold load_obj in H. apply load_with_undef_inv in H; [|reflexivity].
      destruct H as (HE & content & pre & l & post & st & HF & HL & HP & HU). split; [exact HE|].
      destruct (obj_loop_sound stod f pose _ _ _ HP) as (ts & R & A).
      rewrite obj_line_eq in HU. destruct (str_eqb (first_word l) (txt "v")); [now apply read_node_not_ub in HU|].
      destruct (str_eqb (first_word l) (txt "f")) eqn:EF; [|discriminate]. apply str_eqb_eq in EF.
      apply read_face_ub in HU. destruct HU as (a & b & c & W & U).
      exists content, pre, l, post, ts, (ls_nodes st), a, b, c. repeat (split; auto).
    - intros (HE & content & pre & l & post & ts & ns & a & b & c & HF & HL & HR & HW & W & U).
      destruct (obj_loop_complete stod f pose _ _ _ _ HR (start m) eq_refl) as (st & EL & A).
      unfold load_obj. eapply load_with_undef; eauto. rewrite obj_line_eq.
      assert (HV : str_eqb (first_word l) (txt "v") = false) by (apply str_eqb_neq; rewrite HW; discriminate).
      rewrite HV, HW. change (str_eqb (txt "f") (txt "f")) with true. cbn iota.
      apply read_face_ub. pose proof (proj1 A) as A1. rewrite A1. eauto 6.
  Qed.
End Obj.
