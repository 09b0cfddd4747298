(** * C82, vectors against entities. *)
From Coq Require Import ZArith Bool Reals Lra List.
From Verif Require Import Base Num Vec Geom Acme AcmeEntity AcmeVector ER SpecGeom SpecAcme SpecEntity ProofGeom ProofInt ProofAcme ProofCross ProofEntity ProofPred ProofVector.
Local Open Scope R_scope.

(** The vector is parallel (orthogonal) to the entity when the gap is below
    the tolerance; there is an overload exactly for the entities that have a
    direction or a normal. *)
Theorem C82_vector : forall v e tol,
  match facing_of e with
  | Some a =>
      (exists b, par_vec (fv v) (fent e) (Fin tol) = Some b /\ (b = true <-> parallel_gap (Along (V 0 0 0) v) a < tol)) /\
      (exists b, orth_vec (fv v) (fent e) (Fin tol) = Some b /\ (b = true <-> orthogonal_gap (Along (V 0 0 0) v) a < tol))
  | None => par_vec (fv v) (fent e) (Fin tol) = None /\ orth_vec (fv v) (fent e) (Fin tol) = None
  end.
Proof.
  intros v e tol. pose proof (vector_table v e tol) as H. destruct (facing_of e); [|exact H]. destruct H as [P O].
  split; eexists; (split; [eassumption|apply rltb_true]).
Qed.
Print Assumptions C82_vector.
(** A vector is treated as a line along it, but for IsOrthogonal and a plane. *)
Theorem C82_vector_as_line : forall K (NK : Num K) (v o : vec3 K) (e : entity K) tol b,
  (par_vec v e tol = Some b -> ent_parallel (ELine (Line o v)) e tol = b) /\
  (match e with EPlane _ => False | _ => True end -> orth_vec v e tol = Some b -> ent_orthogonal (ELine (Line o v)) e tol = b).
Proof. exact @vector_as_line. Qed.
Print Assumptions C82_vector_as_line.
Example C82_vector_example : forall tol, 0 < tol <= 1 ->
  orth_vec (fv (V 0 0 1)) (fent (EPlane (Plane (V 0 0 0) (V 0 0 1)))) (Fin tol) = Some true /\
  par_vec (fv (V 0 0 1)) (fent (EPlane (Plane (V 0 0 0) (V 0 0 1)))) (Fin tol) = Some false.
Proof.
  intros tol Ht. destruct (vector_table (V 0 0 1) (EPlane (Plane (V 0 0 0) (V 0 0 1))) tol) as [P O]. rewrite P, O.
  cbn [parallel_gap orthogonal_gap pnormal]. split; f_equal.
  - apply rltb_true. unfold skew. rewrite (proj2 (pnorm_eq _ 0 ltac:(lra))); [lra|]. vunf. ring.
  - apply rltb_false. replace (pdot (V 0 0 1) (V 0 0 1)) with 1 by (vunf; ring). rewrite Rabs_R1. lra.
Qed.
