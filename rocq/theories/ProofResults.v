(** * The loops over the ribs read the results of all ribs. *)
From Coq Require Import ZArith List Lia.
From Verif Require Import Base Num Rib Shell SpecResults.
Import ListNotations.

Section Results.
  Context {K : Type} {NK : Num K}.

  Lemma omap_iff {A B} (f : A -> outcome B) : forall l bs,
    omap f l = Ret bs <-> Forall2 (fun a b => f a = Ret b) l bs.
  Proof.
    induction l as [|a l IH]; intros bs; cbn [omap].
    - split; intros H; [injection H as <-; constructor|inversion H; reflexivity].
    - split; intros H.
      + destruct (f a) as [b| |] eqn:E; cbn [obind] in H; try discriminate.
        destruct (omap f l) as [r| |] eqn:F; cbn [obind] in H; try discriminate.
        injection H as <-. constructor; [exact E|]. now apply IH.
      + inversion H as [|? b ? r E R]; subst. rewrite E. cbn [obind].
        apply IH in R. rewrite R. reflexivity.
  Qed.

  Lemma out_at_iff (s : shell K) i o : out_at s i = Ret o <-> nth_error (sh_cells s) i = Some (Some o).
  Proof.
    unfold out_at. split.
    - destruct (nth_error (sh_cells s) i) as [[x|]|]; intros H; try discriminate. now injection H as <-.
    - intros ->. reflexivity.
  Qed.

  Lemma seq_pairs {B} (P : nat -> B -> Prop) : forall bs k,
    Forall2 P (seq k (List.length bs)) bs <-> (forall i b, nth_error bs i = Some b -> P (k + i)%nat b).
  Proof.
    induction bs as [|b bs IH]; intros k; cbn [List.length seq].
    - split; [intros _ [|i] b E; discriminate|constructor].
    - split; intros H.
      + inversion H as [|? ? ? ? H1 H2]; subst. intros [|i] c E.
        * injection E as <-. now rewrite Nat.add_0_r.
        * rewrite <- Nat.add_succ_comm. exact (proj1 (IH (S k)) H2 i c E).
      + constructor; [rewrite <- (Nat.add_0_r k); now apply H|].
        apply IH. intros i c E. rewrite Nat.add_succ_comm. now apply H.
  Qed.

  Lemma results_iff (s : shell K) os : outs s = Ret os <-> rib_results s os.
  Proof.
    unfold outs, rib_results, sh_size. rewrite omap_iff. split.
    - intros H. assert (L : List.length os = List.length (sh_ribs s)).
      { rewrite <- (seq_length (List.length (sh_ribs s)) 0). symmetry. clear -H. induction H; [reflexivity|]. cbn [List.length]. now f_equal. }
      split; [exact L|]. rewrite <- L in H. intros i o E.
      apply out_at_iff. exact (proj1 (seq_pairs _ os 0) H i o E).
    - intros [L H]. rewrite <- L. apply seq_pairs. intros i o E. apply out_at_iff. now apply H.
  Qed.

  Lemma outs_results (s : shell K) os : outs s = Ret os -> rib_results s os.
  Proof. apply results_iff. Qed.
  Lemma results_outs (s : shell K) os : rib_results s os -> outs s = Ret os.
  Proof. apply results_iff. Qed.
End Results.
