(** * A vector against an entity. *)
From Coq Require Import ZArith Bool Reals Lra List.
From Verif Require Import Base Num Vec Geom Acme AcmeEntity AcmeVector ER SpecGeom SpecAcme SpecEntity ProofGeom ProofInt ProofAcme ProofCross ProofEntity ProofPred.
Local Open Scope R_scope.

Lemma vector_table : forall v e tol,
  match facing_of e with
  | Some a => par_vec (fv v) (fent e) (Fin tol) = Some (rltb (parallel_gap (Along (V 0 0 0) v) a) tol) /\
              orth_vec (fv v) (fent e) (Fin tol) = Some (rltb (orthogonal_gap (Along (V 0 0 0) v) a) tol)
  | None => par_vec (fv v) (fent e) (Fin tol) = None /\ orth_vec (fv v) (fent e) (Fin tol) = None
  end.
Proof.
  intros v e tol. destruct e; cbn [facing_of fent par_vec orth_vec parallel_gap orthogonal_gap]; try (split; reflexivity);
  unfold par_vec_line, par_vec_ray, par_vec_plane, par_vec_seg, par_vec_tri, par_vec_disk,
    orth_vec_line, orth_vec_ray, orth_vec_plane, orth_vec_seg, orth_vec_tri, orth_vec_disk;
  rewrite ?f_ldir, ?f_rdir, ?f_pnormal, ?f_dnormal, ?f_seg_unit, ?f_tri_normal, ?f_parallel, ?f_orthogonal; split; reflexivity.
Qed.
(** The vector overload and the one for a line along the vector agree, but
    for the plane under IsOrthogonal. *)
Lemma vector_as_line : forall {K} {NK : Num K} (v o : vec3 K) (e : entity K) tol b,
  (par_vec v e tol = Some b -> ent_parallel (ELine (Line o v)) e tol = b) /\
  (match e with EPlane _ => False | _ => True end -> orth_vec v e tol = Some b -> ent_orthogonal (ELine (Line o v)) e tol = b).
Proof. intros K NK v o e tol b. destruct e; (split; [intros H; cbn [par_vec] in H; try discriminate H; injection H as <-; reflexivity|
  intros N H; cbn [orth_vec] in H; try discriminate H; try contradiction N; injection H as <-; reflexivity]). Qed.
