(** * Proofs about runs of the S-function. *)
From Coq Require Import ZArith Bool Lia String List.
From Verif Require Import Base Num Vec Aabb Tree Geom Ground Shape Rib Str Mesh Shell Sfun SfunRun.
From Verif Require Import SpecLoad SpecMesh SpecShell SpecSfunRun ProofLoad ProofMesh ProofShell ProofShellFacts ProofPose ProofMeshFacts.
Import ListNotations.

Section PRun.
  Context {K : Type} {NK : Num K}.
  Variable stod : text -> outcome K.
  Variable fs : text -> option text.
  Implicit Types (w : memory K) (m : mesh K) (g : flat K) (s t : shell K).

  (** ** The output of one call. *)
  Lemma rib_slot_same : forall s t i, same_answers s t -> rib_slot s i = rib_slot t i.
  Proof.
    intros s t i (N & A & _ & _ & _ & _ & _ & _ & _ & _ & _ & _ & O). unfold rib_slot. rewrite <- N.
    destruct (Nat.ltb i (sh_size s)) eqn:L; [|reflexivity]. apply Nat.ltb_lt in L.
    unfold contact_affine_i, contact_depth_i, contact_friction_i, sh_y. rewrite (O i L), A. reflexivity.
  Qed.
  Lemma omap_ext : forall A B (f g : A -> outcome B) l, (forall x, f x = g x) -> omap f l = omap g l.
  Proof. intros A B f g l H. induction l as [|x l IH]; cbn; [reflexivity|]. now rewrite H, IH. Qed.
  Lemma fill_bus_same : forall s t x, same_answers s t -> fill_bus s x = fill_bus t x.
  Proof.
    intros s t x H. unfold fill_bus.
    rewrite (omap_ext _ _ (rib_slot s) (rib_slot t) _ (fun i => rib_slot_same s t i H)).
    destruct H as (_ & _ & _ & _ & _ & _ & F & D & _ & _ & A & _). now rewrite F, D, A.
  Qed.

  (** Shells with the same form and ribs. *)
  Definition alike s t : Prop := reach s /\ reach t /\ sh_shape s = sh_shape t /\ sh_ribs s = sh_ribs t.
  Lemma out_keeps : forall gb1 gb2 m g s hub me fe s', reach s ->
    (exists b, sfun_out gb1 gb2 m g s hub me fe = Ok s' b) \/ (exists e, sfun_out gb1 gb2 m g s hub me fe = Exn s' e) ->
    alike s' s.
  Proof.
    intros gb1 gb2 m g s hub me fe s' R H. unfold sfun_out in H.
    assert (FL : forall s1 meth x, reach s1 -> sh_shape s1 = sh_shape s -> sh_ribs s1 = sh_ribs s ->
      forall s2 b, setup_flat gb2 s1 g (decode hub) meth = Ok s2 b \/ (exists e, setup_flat gb2 s1 g (decode hub) meth = Exn s2 e) ->
      (exists b, match fill_bus s2 x with Ret b => Ok s2 b | Throw e => Exn s2 e | UB => Undef end = Ok s' b) \/
      (exists e, match fill_bus s2 x with Ret b => Ok s2 b | Throw e => Exn s2 e | UB => Undef end = Exn s' e) \/ s' = s2 ->
      alike s' s).
    { intros s1 meth x R1 S1 B1 s2 b F G.
      assert (s' = s2) as ->.
      { destruct G as [[c G]|[[c G]|G]]; [| |exact G]; destruct (fill_bus s2 x); congruence. }
      assert (R2 : reach s2) by (destruct F as [F|[e F]]; [eapply r_flat_ok|eapply r_flat_exn]; eauto).
      destruct (setup_flat_keeps _ _ _ _ _ _ _ F) as [B2 S2].
      split; [exact R2|]. split; [exact R|]. split; congruence. }
    assert (ID : alike s s) by (unfold alike; auto).
    destruct (sfun_method me) as [meth|e|]; [|destruct H as [[b H]|[e' H]]; [discriminate|injection H as <- _; exact ID]
                                             |destruct H as [[b H]|[e' H]]; discriminate].
    destruct (neq fe _).
    - destruct (setup_mesh gb1 s m (decode hub) meth) as [s1 [|]|s1 e|] eqn:EM;
        [| | |destruct H as [[b H]|[e' H]]; discriminate].
      + destruct (setup_mesh_keeps _ _ _ _ _ _ _ (or_introl EM)) as [B1 S1].
        assert (s' = s1) as ->. { destruct H as [[b H]|[e' H]]; destruct (fill_bus s1 _); congruence. }
        split; [eapply r_mesh_ok; eauto|]. auto.
      + destruct (setup_mesh_keeps _ _ _ _ _ _ _ (or_introl EM)) as [B1 S1].
        assert (R1 : reach s1) by (eapply r_mesh_ok; eauto).
        destruct (setup_flat gb2 s1 g (decode hub) meth) as [s2 c|s2 e|] eqn:EF;
          [| |destruct H as [[b H]|[e' H]]; discriminate].
        * eapply (FL s1 meth _ R1 S1 B1 s2 c); [left; exact EF|]. destruct H as [H|H]; [left; exact H|right; left; exact H].
        * eapply (FL s1 meth (nofZ 0) R1 S1 B1 s2 true); [right; exists e; exact EF|]. right; right.
          destruct H as [[b H]|[e' H]]; congruence.
      + destruct (setup_mesh_keeps _ _ _ _ _ _ true (or_intror (ex_intro _ e EM))) as [B1 S1].
        assert (s' = s1) as -> by (destruct H as [[b H]|[e' H]]; congruence).
        split; [eapply r_mesh_exn; eauto|]. auto.
    - destruct (neq fe _).
      + destruct (setup_flat gb2 s g (decode hub) meth) as [s2 c|s2 e|] eqn:EF;
          [| |destruct H as [[b H]|[e' H]]; discriminate].
        * eapply (FL s meth _ R eq_refl eq_refl s2 c); [left; exact EF|]. destruct H as [H|H]; [left; exact H|right; left; exact H].
        * eapply (FL s meth (nofZ 0) R eq_refl eq_refl s2 true); [right; exists e; exact EF|]. right; right.
          destruct H as [[b H]|[e' H]]; congruence.
      + assert (s' = s) as -> by (destruct H as [[b H]|[e' H]]; congruence). exact ID.
  Qed.

  Lemma out_same : forall gb1 gb2 gb3 gb4 m g s t hub me fe, alike s t ->
    same_reply (sfun_out gb1 gb2 m g s hub me fe) (sfun_out gb3 gb4 m g t hub me fe).
  Proof.
    intros gb1 gb2 gb3 gb4 m g s t hub me fe (R & R' & SH & RB). unfold sfun_out.
    assert (SZ : sh_size s = sh_size t) by (unfold sh_size; now rewrite RB).
    destruct (sfun_method me) as [meth|e|]; [|reflexivity|exact I].
    assert (FIN : forall s t x, same_answers s t ->
      same_reply (match fill_bus s x with Ret b => Ok s b | Throw e => Exn s e | UB => Undef end)
                 (match fill_bus t x with Ret b => Ok t b | Throw e => Exn t e | UB => Undef end)).
    { intros a b x H. rewrite (fill_bus_same a b x H). destruct (fill_bus b x); cbn; auto. }
    assert (FL : forall s t x, reach s -> reach t -> sh_shape s = sh_shape t -> sh_size s = sh_size t ->
      same_reply (match setup_flat gb2 s g (decode hub) meth with
                  | Ok s2 _ => match fill_bus s2 x with Ret b => Ok s2 b | Throw e => Exn s2 e | UB => Undef end
                  | Exn s2 e => Exn s2 e | Undef => Undef end)
                 (match setup_flat gb4 t g (decode hub) meth with
                  | Ok s2 _ => match fill_bus s2 x with Ret b => Ok s2 b | Throw e => Exn s2 e | UB => Undef end
                  | Exn s2 e => Exn s2 e | Undef => Undef end)).
    { intros a b x RA RB' SA NA. pose proof (flat_history gb2 gb4 a b g (decode hub) meth RA RB' SA NA) as H.
      destruct (setup_flat gb2 a g (decode hub) meth) as [a1 c1|a1 e1|], (setup_flat gb4 b g (decode hub) meth) as [b1 c2|b1 e2|];
        cbn in H |- *; try contradiction; auto. apply FIN. tauto. }
    destruct (neq fe _).
    - pose proof (mesh_history gb1 gb3 s t m (decode hub) meth R R' SH SZ) as H.
      destruct (setup_mesh gb1 s m (decode hub) meth) as [a1 c1|a1 e1|] eqn:E1, (setup_mesh gb3 t m (decode hub) meth) as [b1 c2|b1 e2|] eqn:E2;
        cbn in H |- *; try contradiction; auto; try (destruct c1; contradiction).
      destruct H as [<- H]. destruct c1; [now apply FIN|].
      destruct (setup_mesh_keeps _ _ _ _ _ _ _ (or_introl E1)) as [B1 S1].
      destruct (setup_mesh_keeps _ _ _ _ _ _ _ (or_introl E2)) as [B2 S2].
      apply FL; [exact (r_mesh_ok _ _ _ _ _ _ _ R E1)|exact (r_mesh_ok _ _ _ _ _ _ _ R' E2)|congruence|].
      unfold sh_size. now rewrite B1, B2, RB.
    - destruct (neq fe _); [now apply FL|reflexivity].
  Qed.

  (** ** Initialisation. *)
  Lemma mesh_from_ret : forall (r : result (mesh K) bool) m, mesh_from r = Ret m <-> r = Ok m true.
  Proof. intros r m. destruct r as [x [|]|x e|]; cbn; split; congruence. Qed.
  Lemma rdf_obj_differ : forall path, ends_with path (txt ".rdf") -> ends_with path (txt ".obj") -> False.
  Proof.
    intros path A B. apply (extension_iff path (txt ".rdf") eq_refl) in A. apply (extension_iff path (txt ".obj") eq_refl) in B.
    rewrite A in B. discriminate.
  Qed.
  Lemma init_mesh_iff : forall path m, init_mesh stod fs path = Ret m <-> exists p, path = Some p /\
    ((ends_with p (txt ".rdf") /\ load_rdf stod fs p aident mesh_empty = Ok m true) \/
     (ends_with p (txt ".obj") /\ load_obj stod fs p (nofZ 1) aident mesh_empty = Ok m true)).
  Proof.
    intros path m. unfold init_mesh. split.
    - destruct path as [p|]; [|discriminate]. intros H. exists p. split; [reflexivity|].
      destruct (extension p) as [x|e|] eqn:EX; cbn [obind] in H; try discriminate.
      destruct (str_eqb x (lit ".rdf")) eqn:E1.
      + apply str_eqb_eq in E1. subst x. left. split; [now apply (extension_iff p (txt ".rdf") eq_refl)|]. now apply mesh_from_ret.
      + destruct (str_eqb x (lit ".obj")) eqn:E2; [|discriminate]. apply str_eqb_eq in E2. subst x.
        right. split; [now apply (extension_iff p (txt ".obj") eq_refl)|]. now apply mesh_from_ret.
    - intros (p & -> & [[A L]|[A L]]).
      + apply (extension_iff p (txt ".rdf") eq_refl) in A. rewrite A. cbn [obind]. rewrite L. reflexivity.
      + apply (extension_iff p (txt ".obj") eq_refl) in A. rewrite A. cbn [obind]. rewrite L. reflexivity.
  Qed.

  Definition built (p : params K) m g s : Prop :=
    init_mesh stod fs (pr_path p) = Ret m /\
    mk_flat (pr_friction p) (V (nofZ 0) (nofZ 0) (pr_height p)) (V (nofZ 0) (nofZ 0) (nofZ 1)) = Ret g /\
    mk_shell (pr_size p) (pr_rx p) (pr_mx p) (pr_ry p) (pr_my p) (pr_ly p) = Ret s.
  Definition extends {A} (l l' : list A) : Prop := exists x, l' = l ++ x.
  Definition grown w m g s : memory K :=
    Memory (mm_meshes w ++ [m]) (mm_flats w ++ [g]) (mm_shells w ++ [s])
      (Some (length (mm_meshes w), length (mm_flats w), length (mm_shells w))).
  Lemma init_ok_iff : forall p w w', run_init stod fs p w = Ok w' tt <->
    exists m g s, built p m g s /\ w' = grown w m g s.
  Proof.
    intros p w w'. unfold run_init, built. split.
    - destruct (init_mesh stod fs (pr_path p)) as [m|e|]; try discriminate.
      destruct (mk_flat _ _ _) as [g|e|]; try discriminate.
      destruct (mk_shell _ _ _ _ _ _) as [s|e|]; try discriminate.
      intros H. injection H as <-. exists m, g, s. repeat split; reflexivity.
    - intros (m & g & s & (-> & -> & ->) & ->). reflexivity.
  Qed.
  Lemma grown_force : forall w m g s, in_force (grown w m g s) m g s.
  Proof.
    intros w m g s. exists (length (mm_meshes w)), (length (mm_flats w)), (length (mm_shells w)).
    cbn. split; [reflexivity|]. now rewrite !nth_error_app2, !Nat.sub_diag by lia.
  Qed.
  Lemma force_fun : forall w m g s m' g' s', in_force w m g s -> in_force w m' g' s' -> m = m' /\ g = g' /\ s = s'.
  Proof.
    intros w m g s m' g' s' (i & j & k & G & A & B & C) (i' & j' & k' & G' & A' & B' & C').
    rewrite G in G'. injection G' as <- <- <-. repeat split; congruence.
  Qed.

  Lemma started : forall p w w', run_init stod fs p w = Ok w' tt <-> exists path m g s,
    pr_path p = Some path /\
    ((ends_with path (txt ".rdf") /\ load_rdf stod fs path aident mesh_empty = Ok m true) \/
     (ends_with path (txt ".obj") /\ load_obj stod fs path (nofZ 1) aident mesh_empty = Ok m true)) /\
    mk_flat (pr_friction p) (V (nofZ 0) (nofZ 0) (pr_height p)) (V (nofZ 0) (nofZ 0) (nofZ 1)) = Ret g /\
    mk_shell (pr_size p) (pr_rx p) (pr_mx p) (pr_ry p) (pr_my p) (pr_ly p) = Ret s /\
    w' = grown w m g s.
  Proof.
    intros p w w'. rewrite init_ok_iff. split.
    - intros (m & g & s & (A & B & C) & ->). apply init_mesh_iff in A. destruct A as (path & P & L).
      exists path, m, g, s. auto.
    - intros (path & m & g & s & P & L & B & C & ->). exists m, g, s. split; [|reflexivity].
      split; [apply init_mesh_iff; exists path; auto|]. auto.
  Qed.

  Lemma started_iff : forall p w m g s,
    (exists w', run_init stod fs p w = Ok w' tt /\ in_force w' m g s) <->
    ((exists path, pr_path p = Some path /\
       ((ends_with path (txt ".rdf") /\ load_rdf stod fs path aident mesh_empty = Ok m true) \/
        (ends_with path (txt ".obj") /\ load_obj stod fs path (nofZ 1) aident mesh_empty = Ok m true))) /\
     mk_flat (pr_friction p) (V (nofZ 0) (nofZ 0) (pr_height p)) (V (nofZ 0) (nofZ 0) (nofZ 1)) = Ret g /\
     mk_shell (pr_size p) (pr_rx p) (pr_mx p) (pr_ry p) (pr_my p) (pr_ly p) = Ret s).
  Proof.
    intros p w m g s. split.
    - intros (w' & H & F). apply started in H. destruct H as (path & m' & g' & s' & P & L & B & C & ->).
      destruct (force_fun _ _ _ _ _ _ _ F (grown_force w m' g' s')) as (-> & -> & ->). eauto.
    - intros ((path & P & L) & B & C). exists (grown w m g s). split; [|apply grown_force].
      apply started. exists path, m, g, s. auto.
  Qed.
  Lemma started_rdf : forall p w path node_lines element_lines nodes elements faces g s,
    pr_path p = Some path -> ends_with path (txt ".rdf") ->
    fs path = Some (file_of (txt "[NODES]" :: node_lines ++ txt "[ELEMENTS]" :: element_lines)) ->
    block (node_written stod) node_lines nodes ->
    block (element_written stod) element_lines elements ->
    Forall2 (face_of aident nodes) elements faces ->
    Forall (fun t : face => nle (nofZ 0) (snd t) = true) faces ->
    faces <> [] -> (Z.of_nat (length faces) <= 2 ^ 31)%Z ->
    mk_flat (pr_friction p) (V (nofZ 0) (nofZ 0) (pr_height p)) (V (nofZ 0) (nofZ 0) (nofZ 1)) = Ret g ->
    mk_shell (pr_size p) (pr_rx p) (pr_mx p) (pr_ry p) (pr_my p) (pr_ly p) = Ret s ->
    exists w' m, run_init stod fs p w = Ok w' tt /\ in_force w' m g s /\ describes m faces.
  Proof.
    intros p w path nl el nodes elements faces g s P E F N L FC FR NE SZ G S.
    destruct (rdf_round_trip stod fs path aident nl el nodes elements faces mesh_empty) as (m & LD & D); auto.
    destruct (proj2 (started_iff p w m g s)) as (w' & H & IF).
    - split; [exists path; auto|]. auto.
    - exists w', m. auto.
  Qed.

  (** ** Calls that do not start anew. *)
  Lemma init_exn : forall p w w' e, run_init stod fs p w = Exn w' e ->
    mm_globals w' = mm_globals w /\ mm_shells w' = mm_shells w /\ extends (mm_meshes w) (mm_meshes w') /\ extends (mm_flats w) (mm_flats w') /\
    (w' = w \/ (exists m, w' = Memory (mm_meshes w ++ [m]) (mm_flats w) (mm_shells w) (mm_globals w)) \/
     (exists m g, w' = Memory (mm_meshes w ++ [m]) (mm_flats w ++ [g]) (mm_shells w) (mm_globals w))).
  Proof.
    intros p w w' e H. unfold run_init in H. unfold extends.
    destruct (init_mesh stod fs (pr_path p)) as [m|e0|]; try discriminate.
    2:{ injection H as <- _. repeat split; auto; exists []; now rewrite app_nil_r. }
    destruct (mk_flat _ _ _) as [g|e0|]; try discriminate.
    2:{ injection H as <- _. cbn. repeat split; eauto. exists []; now rewrite app_nil_r. }
    destruct (mk_shell _ _ _ _ _ _) as [s|e0|]; try discriminate.
    injection H as <- _. cbn. repeat split; eauto.
  Qed.
  Lemma nth_extends : forall A (l l' : list A) n x, extends l l' -> nth_error l n = Some x -> nth_error l' n = Some x.
  Proof. intros A l l' n x [y ->] H. rewrite nth_error_app1; [exact H|]. apply nth_error_Some. congruence. Qed.

  Lemma call_force : forall w c w' m g s, no_new_start stod fs w c -> run_call stod fs w c = Some w' ->
    reach s -> in_force w m g s -> exists s', in_force w' m g s' /\ alike s' s.
  Proof.
    intros w c w' m g s Q R RS (i & j & k & G & A & B & C). destruct c as [p|gb1 gb2 hub me fe|]; cbn [run_call] in R.
    - destruct (run_init stod fs p w) as [w1 []|w1 e|] eqn:E; [|injection R as <-|discriminate].
      + cbn in Q. now destruct (Q w1 E).
      + apply init_exn in E. destruct E as (G' & S' & M' & F' & _). exists s. split; [|unfold alike; auto].
        exists i, j, k. rewrite G', S'. repeat split; eauto using nth_extends.
    - unfold run_out in R. rewrite G, A, B, C in R.
      assert (L : (k < length (mm_shells w))%nat) by (apply nth_error_Some; congruence).
      destruct (sfun_out gb1 gb2 m g s hub me fe) as [s' b|s' e|] eqn:E; [| |discriminate]; injection R as <-;
        (exists s'; split; [exists i, j, k; cbn; rewrite set_nth_same by exact L; auto
                           |eapply out_keeps; [exact RS|]; eauto]).
    - injection R as <-. exists s. split; [|unfold alike; auto]. exists i, j, k. auto.
  Qed.
  Lemma failed_start : forall p w w' e m g s, run_init stod fs p w = Exn w' e ->
    mm_globals w' = mm_globals w /\ (in_force w m g s -> in_force w' m g s).
  Proof.
    intros p w w' e m g s H. apply init_exn in H. destruct H as (G' & S' & M' & F' & _). split; [exact G'|].
    intros (i & j & k & G & A & B & C). exists i, j, k. rewrite G', S'. repeat split; eauto using nth_extends.
  Qed.
  Lemma quiet_force : forall w w', quiet stod fs w w' -> forall m g s, reach s -> in_force w m g s ->
    exists s', in_force w' m g s' /\ alike s' s.
  Proof.
    intros w w' H. induction H as [w|w c w1 w2 Q R H IH]; intros m g s RS F.
    - exists s. split; [exact F|unfold alike; auto].
    - destruct (call_force w c w1 m g s Q R RS F) as (s1 & F1 & R1 & R1' & S1 & B1).
      destruct (IH m g s1 R1 F1) as (s2 & F2 & R2 & _ & S2 & B2).
      exists s2. split; [exact F2|]. split; [exact R2|]. split; [exact RS|]. split; congruence.
  Qed.
  Lemma run_out_force : forall gb1 gb2 hub me fe w m g s, in_force w m g s ->
    same_reply (run_out gb1 gb2 hub me fe w) (sfun_out gb1 gb2 m g s hub me fe).
  Proof.
    intros gb1 gb2 hub me fe w m g s (i & j & k & G & A & B & C). unfold run_out. rewrite G, A, B, C.
    destruct (sfun_out gb1 gb2 m g s hub me fe); cbn; auto.
  Qed.
  Lemma reply_trans : forall S T U A (r : result S A) (q : result T A) (x : result U A),
    same_reply r q -> same_reply q x -> same_reply r x.
  Proof. intros S T U A [] [] []; cbn; try contradiction; congruence. Qed.
  Lemma reply_sym : forall S T A (r : result S A) (q : result T A), same_reply r q -> same_reply q r.
  Proof. intros S T A [] []; cbn; auto. Qed.

  Lemma session : forall gb1 gb2 gb3 gb4 hub me fe p w0 w1 w2 w3, run_init stod fs p w0 = Ok w1 tt -> quiet stod fs w1 w2 ->
    run_init stod fs p memory0 = Ok w3 tt ->
    same_reply (run_out gb1 gb2 hub me fe w2) (run_out gb3 gb4 hub me fe w3).
  Proof.
    intros gb1 gb2 gb3 gb4 hub me fe p w0 w1 w2 w3 I Q I'. apply init_ok_iff in I, I'.
    destruct I as (m & g & s & (A & B & C) & ->), I' as (m' & g' & s' & (A' & B' & C') & ->).
    assert (m' = m) as -> by congruence. assert (g' = g) as -> by congruence. assert (s' = s) as -> by congruence.
    assert (RS : reach s) by (eapply r_new; eauto).
    destruct (quiet_force _ _ Q m g s RS (grown_force w0 m g s)) as (s2 & F2 & AL).
    eapply reply_trans; [apply run_out_force; exact F2|].
    eapply reply_trans; [apply (out_same gb1 gb2 gb3 gb4); exact AL|].
    apply reply_sym. apply run_out_force. apply grown_force.
  Qed.
  (** A start that succeeds from one memory succeeds from any. *)
  Lemma init_anywhere : forall p w w', run_init stod fs p w = Ok w' tt -> forall v, exists v', run_init stod fs p v = Ok v' tt.
  Proof.
    intros p w w' H v. apply init_ok_iff in H. destruct H as (m & g & s & B & _). exists (grown v m g s).
    apply init_ok_iff. eauto.
  Qed.

  (** ** Objects. *)
  Lemma objects_init_ok : forall p w w', run_init stod fs p w = Ok w' tt -> objects w' = objects w + 3.
  Proof.
    intros p w w' H. apply init_ok_iff in H. destruct H as (m & g & s & _ & ->).
    unfold objects. cbn. rewrite !app_length. cbn. lia.
  Qed.
  Lemma objects_init_exn : forall p w w' e, run_init stod fs p w = Exn w' e -> objects w <= objects w' <= objects w + 2.
  Proof.
    intros p w w' e H. apply init_exn in H.
    destruct H as (_ & _ & _ & _ & [->|[[m ->]|(m & g & ->)]]); unfold objects; cbn; rewrite ?app_length; cbn; lia.
  Qed.
  Lemma objects_out : forall gb1 gb2 hub me fe w w', run_call stod fs w (COut gb1 gb2 hub me fe) = Some w' -> objects w' = objects w.
  Proof.
    intros gb1 gb2 hub me fe w w' H. cbn [run_call] in H. unfold run_out in H.
    destruct (mm_globals w) as [[[i j] k]|]; [|discriminate].
    destruct (nth_error (mm_meshes w) i); [|discriminate]. destruct (nth_error (mm_flats w) j); [|discriminate].
    destruct (nth_error (mm_shells w) k); [|discriminate].
    destruct (sfun_out _ _ _ _ _ _ _ _); [| |discriminate]; injection H as <-; unfold objects; cbn; now rewrite set_nth_length.
  Qed.
  Lemma never_freed : forall w,
    (forall p w', run_init stod fs p w = Ok w' tt -> objects w' = objects w + 3) /\
    (forall p w' e, run_init stod fs p w = Exn w' e -> objects w <= objects w' <= objects w + 2) /\
    (forall gb1 gb2 hub me fe w', run_call stod fs w (COut gb1 gb2 hub me fe) = Some w' -> objects w' = objects w) /\
    (forall w', run_call stod fs w CEnd = Some w' -> w' = w).
  Proof.
    intros w. split; [intros p w'; apply objects_init_ok|]. split; [intros p w' e; apply objects_init_exn|].
    split; [intros gb1 gb2 hub me fe w'; apply objects_out|]. cbn. unfold run_end. congruence.
  Qed.
  Lemma failed_start_leaks : forall p w path m g,
    pr_path p = Some path -> ends_with path (txt ".rdf") -> load_rdf stod fs path aident mesh_empty = Ok m true ->
    mk_flat (pr_friction p) (V (nofZ 0) (nofZ 0) (pr_height p)) (V (nofZ 0) (nofZ 0) (nofZ 1)) = Ret g ->
    pr_size p = 0 ->
    exists w' e, run_init stod fs p w = Exn w' e /\ objects w' = objects w + 2.
  Proof.
    intros p w path m g P E L G Z. unfold run_init. rewrite (proj2 (init_mesh_iff (pr_path p) m)) by (exists path; auto).
    rewrite G, Z. cbn [mk_shell resize]. do 2 eexists. split; [reflexivity|].
    unfold objects. cbn. rewrite !app_length. cbn. lia.
  Qed.
  Lemma output_spec : forall gb1 gb2 hub me fe w m g s, in_force w m g s ->
    match sfun_out gb1 gb2 m g s hub me fe with
    | Ok s' b => exists w', run_out gb1 gb2 hub me fe w = Ok w' b /\ in_force w' m g s' /\ same_but_wheel w w'
    | Exn s' e => exists w', run_out gb1 gb2 hub me fe w = Exn w' e /\ in_force w' m g s' /\ same_but_wheel w w'
    | Undef => run_out gb1 gb2 hub me fe w = Undef
    end.
  Proof.
    intros gb1 gb2 hub me fe w m g s (i & j & k & G & A & B & C). unfold run_out. rewrite G, A, B, C.
    assert (L : (k < length (mm_shells w))%nat) by (apply nth_error_Some; congruence).
    assert (P : forall s', in_force (put_shell w k s') m g s' /\ same_but_wheel w (put_shell w k s')).
    { intros s'. split; [exists i, j, k; cbn; rewrite set_nth_same by exact L; auto|].
      unfold same_but_wheel. cbn. repeat (split; [auto using set_nth_length|]).
      intros i' j' k' n E NE. rewrite G in E. injection E as <- <- <-. apply set_nth_other. auto. }
    destruct (sfun_out gb1 gb2 m g s hub me fe) as [s' b|s' e|]; [| |reflexivity];
      (exists (put_shell w k s'); split; [reflexivity|apply P]).
  Qed.
  Lemma no_init : forall gb1 gb2 hub me fe, run_out gb1 gb2 hub me fe (@memory0 K) = Undef.
  Proof. reflexivity. Qed.
  (** Without a start no pointer is set. *)
  Lemma quiet_null : forall w w', quiet stod fs w w' -> mm_globals w = None -> mm_globals w' = None.
  Proof.
    intros w w' H. induction H as [w|w c w1 w2 Q R H IH]; intros G; [exact G|]. apply IH.
    destruct c as [p|gb1 gb2 hub me fe|]; cbn [run_call] in R.
    - destruct (run_init stod fs p w) as [v []|v e|] eqn:E; [now destruct (Q v)| |discriminate]. injection R as <-.
      apply init_exn in E. destruct E as (G' & _). congruence.
    - unfold run_out in R. rewrite G in R. discriminate.
    - injection R as <-. exact G.
  Qed.
  Lemma out_null : forall gb1 gb2 hub me fe w, quiet stod fs memory0 w -> run_out gb1 gb2 hub me fe w = Undef.
  Proof. intros gb1 gb2 hub me fe w Q. apply quiet_null in Q; [|reflexivity]. unfold run_out. now rewrite Q. Qed.

  (** After a complete start an output is never undefined because of the pointers. *)
  Lemma start_or_null : forall w, running stod fs w ->
    mm_globals w = None \/ exists m g s, in_force w m g s /\ reach s.
  Proof.
    intros w [cs H]. revert H. assert (Z : mm_globals (@memory0 K) = None \/ exists m g s, in_force (@memory0 K) m g s /\ reach s) by (now left).
    revert Z. generalize (@memory0 K). induction cs as [|c cs IH]; intros v Z H; cbn [run_calls] in H; [injection H as <-; exact Z|].
    destruct (run_call stod fs v c) as [v1|] eqn:E; [|discriminate]. apply (IH v1); [|exact H]. clear IH H.
    assert (D : (exists p, c = CInit p /\ run_init stod fs p v = Ok v1 tt) \/ no_new_start stod fs v c).
    { destruct c as [p|gb1 gb2 hub me fe|]; [|right; exact I|right; exact I]. cbn [run_call] in E.
      destruct (run_init stod fs p v) as [v2 []|v2 e|] eqn:EI; [|right|discriminate].
      - left. exists p. split; [reflexivity|]. congruence.
      - cbn. intros w' X. congruence. }
    destruct D as [(p & -> & D)|D].
    - right. apply init_ok_iff in D. destruct D as (m & g & s & (_ & _ & C) & ->). exists m, g, s. split; [apply grown_force|].
      eapply r_new; eauto.
    - destruct Z as [Z|(m & g & s & F & R)].
      + left. apply (quiet_null v v1); [|exact Z]. eapply q_call; [exact D|exact E|apply q_nil].
      + right. destruct (call_force v c v1 m g s D E R F) as (s' & F' & AL). exists m, g, s'. split; [exact F'|]. apply AL.
  Qed.
End PRun.
