(** * The run-time typed dispatcher of [Intersection]. *)
From Coq Require Import ZArith Bool List Lia.
From Verif Require Import Base Num Vec Aabb Tree Geom Acme AcmeEntity SpecEntity.
Import ListNotations.

Section Dispatch.
  Context {K : Type} {NK : Num K}.
  Definition quiet {A} (r : outcome A) : Prop := match r with Ret _ => True | Throw e => e = RuntimeError | UB => False end.
  Lemma quiet_bind : forall {A B} (r : outcome A) (f : A -> outcome B), quiet r -> (forall a, quiet (f a)) -> quiet (obind r f).
  Proof. intros A B [a|e|] f H G; cbn in *; auto. Qed.
  Lemma quiet_seg : forall (a b : segment K) tol, quiet (int_seg_seg_seg a b tol).
  Proof.
    intros a b tol. unfold int_seg_seg_seg. destruct (col_seg_seg a b tol); [|exact I].
    destruct (seg_is_inside b (sv0 a) tol), (seg_is_inside b (sv1 a) tol), (seg_is_inside a (sv0 b) tol), (seg_is_inside a (sv1 b) tol); cbn; auto.
  Qed.
  Lemma quiet_tri : forall (l : line K) t tol, quiet (int_line_triangle_seg l t tol).
  Proof.
    intros l t tol. unfold int_line_triangle_seg.
    destruct (int_line_segment l (tri_edge0 t) tol), (int_line_segment l (tri_edge1 t) tol), (int_line_segment l (tri_edge2 t) tol); cbn; auto.
    destruct (vis_approx _ _ _); cbn; auto. destruct (vis_approx _ _ _); cbn; auto. destruct (vis_approx _ _ _); cbn; auto.
  Qed.
  Lemma quiet_plane_tri : forall (p : plane K) t tol, quiet (int_plane_triangle p t tol).
  Proof. intros p t tol. unfold int_plane_triangle. destruct (int_plane_plane _ _ _); [apply quiet_tri|exact I]. Qed.
  Lemma quiet_tri_disk : forall t (d : disk K) tol, quiet (int_triangle_disk t d tol).
  Proof. intros t d tol. unfold int_triangle_disk. apply quiet_bind; [apply quiet_plane_tri|]. now intros [s|]. Qed.
  Lemma quiet_tri_tri : forall (a b : triangle K) tol, quiet (int_tri_tri_seg a b tol).
  Proof.
    intros a b tol. unfold int_tri_tri_seg. destruct (int_plane_plane _ _ _); [|exact I].
    apply quiet_bind; [apply quiet_tri|intros s0]. apply quiet_bind; [apply quiet_tri|intros s1]. apply quiet_seg.
  Qed.
  Lemma quiet_disk_disk : forall (a b : disk K) tol, quiet (int_disk_disk_seg a b tol).
  Proof. intros a b tol. unfold int_disk_disk_seg. destruct (int_plane_plane _ _ _); [apply quiet_seg|exact I]. Qed.
  Lemma quiet_flag : forall (a b : triangle K) tol, quiet (int_tri_tri_none a b tol).
  Proof.
    intros a b tol. unfold int_tri_tri_none. destruct (negb _); [|exact I]. apply quiet_bind; [apply quiet_tri_tri|]. now intros s.
  Qed.
  Lemma quiet_ray_tri : forall (r : ray K) t tol, quiet (int_ray_triangle_seg r t tol).
  Proof.
    intros r t tol. unfold int_ray_triangle_seg. apply quiet_bind; [apply quiet_tri|]. now intros [s|].
  Qed.
  Lemma quiet_seg_tri : forall (s : segment K) t tol, quiet (int_seg_triangle_seg s t tol).
  Proof.
    intros s t tol. unfold int_seg_triangle_seg. apply quiet_bind; [apply quiet_tri|]. intros [c|]; [apply quiet_seg|exact I].
  Qed.
  Lemma quiet_found : forall {A} (mk : A -> entity K) r, quiet r -> quiet (found_or mk r).
  Proof. intros A mk r H. unfold found_or. apply quiet_bind; [exact H|]. intros a. exact I. Qed.
  Hint Resolve quiet_seg quiet_tri quiet_plane_tri quiet_tri_disk quiet_tri_tri quiet_disk_disk quiet_flag quiet_ray_tri quiet_seg_tri quiet_found : q.

  Lemma quiet_point : forall (e0 e1 : entity K) tol, quiet (ent_int_point e0 e1 tol).
  Proof. intros [] [] tol; cbn; auto. Qed.
  Lemma quiet_collinear : forall (e0 e1 : entity K) tol, quiet (ent_int_collinear e0 e1 tol).
  Proof.
    intros [] [] tol; cbn; auto with q. 
    destruct (int_ray_ray_ray _ _ _); cbn; auto. destruct (int_ray_ray_seg _ _ _); cbn; auto.
  Qed.
  Lemma quiet_coplanar : forall (e0 e1 : entity K) tol, quiet (ent_int_coplanar e0 e1 tol).
  Proof. intros [] [] tol; cbn; auto with q. apply quiet_bind; [auto with q|]. intros a. exact I. Qed.
  Lemma quiet_general : forall (e0 e1 : entity K) tol, ~ plane_and_disk e0 e1 -> quiet (ent_int_general e0 e1 tol).
  Proof. intros [] [] tol H; cbn in *; auto with q. Qed.
  Lemma quiet_intersection : forall (e0 e1 : entity K) tol, ~ plane_and_disk e0 e1 \/ ent_coplanar e0 e1 neps = true ->
    quiet (ent_intersection e0 e1 tol).
  Proof.
    intros e0 e1 tol H. unfold ent_intersection. destruct (is_point e0 || is_point e1); [apply quiet_point|].
    destruct (ent_collinear e0 e1 neps); [apply quiet_collinear|]. destruct (ent_coplanar e0 e1 neps); [apply quiet_coplanar|].
    destruct H as [H|H]; [now apply quiet_general|discriminate].
  Qed.
  Lemma intersection_undefined : forall (e0 e1 : entity K) tol,
    ent_intersection e0 e1 tol = UB <-> plane_and_disk e0 e1 /\ ent_coplanar e0 e1 neps = false.
  Proof.
    intros e0 e1 tol. split.
    - intros H. assert (D : plane_and_disk e0 e1 \/ ~ plane_and_disk e0 e1) by (destruct e0, e1; cbn; auto).
      destruct D as [D|D]; [|exfalso; pose proof (quiet_intersection e0 e1 tol (or_introl D)) as Q; now rewrite H in Q].
      split; [exact D|]. destruct (ent_coplanar e0 e1 neps) eqn:C; [|reflexivity].
      exfalso. pose proof (quiet_intersection e0 e1 tol (or_intror C)) as Q. now rewrite H in Q.
    - intros [D C]. destruct e0; try now destruct D. destruct e1; try now destruct D. unfold ent_intersection. cbn [is_point orb ent_collinear]. now rewrite C.
  Qed.
  Lemma intersection_throws : forall (e0 e1 : entity K) tol x, ent_intersection e0 e1 tol = Throw x -> x = RuntimeError.
  Proof.
    intros e0 e1 tol x H.
    assert (D : ent_intersection e0 e1 tol <> UB) by congruence.
    assert (Q : quiet (ent_intersection e0 e1 tol)).
    { apply quiet_intersection. destruct (ent_coplanar e0 e1 neps) eqn:C; [auto|]. left. intros P. apply D. now apply intersection_undefined. }
    now rewrite H in Q.
  Qed.
  Lemma intersection_order : forall (e0 e1 : entity K) tol, level e0 <> level e1 ->
    ~ either_way plane_and_disk e0 e1 -> ~ either_way plane_and_triangle e0 e1 ->
    ent_intersection e0 e1 tol = ent_intersection e1 e0 tol.
  Proof.
    unfold either_way. intros [] [] tol L D T; cbn in D, T; try (exfalso; tauto); try reflexivity; now destruct L.
  Qed.
  Lemma always : forall (e0 e1 : entity K) tol, either_way always_answered e0 e1 \/ plane_and_disk e1 e0 ->
    exists e, ent_intersection e0 e1 tol = Ret e.
  Proof.
    unfold either_way. intros [] [] tol H; cbn in H; try (exfalso; tauto); unfold ent_intersection; cbn [is_point orb ent_collinear];
      cbn; try (destruct (col_line_line _ _ _)); try (destruct (col_line_ray _ _ _)); try (destruct (col_line_seg _ _ _)); try (destruct (col_ray_seg _ _ _));
      repeat match goal with |- context [if ?b then _ else _] => match b with
        | cop_line_line _ _ _ => destruct b | cop_line_ray _ _ _ => destruct b | cop_line_plane _ _ _ => destruct b | cop_line_seg _ _ _ => destruct b
        | cop_line_disk _ _ _ => destruct b | cop_ray_plane _ _ _ => destruct b | cop_ray_seg _ _ _ => destruct b | cop_ray_disk _ _ _ => destruct b
        | cop_plane_plane _ _ _ => destruct b | cop_plane_seg _ _ _ => destruct b | cop_plane_disk _ _ _ => destruct b | cop_seg_disk _ _ _ => destruct b end end;
      unfold found; eexists; reflexivity.
  Qed.
  Lemma never : forall (e0 e1 : entity K) tol, either_way never_answered e0 e1 -> ent_intersection e0 e1 tol = Throw RuntimeError.
  Proof. unfold either_way. intros [] [] tol H; cbn in H; try (exfalso; tauto); reflexivity. Qed.

  Lemma found_dim : forall {A} (mk : A -> entity K) r n e, (-1 <= n)%Z -> (forall a, (dimension (mk a) <= n)%Z) -> found mk r = Ret e -> (dimension e <= n)%Z.
  Proof. intros A mk [a|] n e N H E; injection E as <-; [apply H|exact N]. Qed.
  Lemma found_or_dim : forall {A} (mk : A -> entity K) r n e, (-1 <= n)%Z -> (forall a, (dimension (mk a) <= n)%Z) -> found_or mk r = Ret e -> (dimension e <= n)%Z.
  Proof. intros A mk [r|x|] n e N H E; try discriminate. exact (found_dim mk r n e N H E). Qed.
  Lemma dim_point : forall (e0 e1 e : entity K) tol, ent_int_point e0 e1 tol = Ret e -> (dimension e <= Z.min (dimension e0) (dimension e1))%Z.
  Proof.
    intros e0 e1 e tol. destruct e0, e1; intros H; try discriminate H;
      (eapply found_dim; [| |exact H]); intros; cbn [dimension]; lia.
  Qed.
  Lemma dim_collinear : forall (e0 e1 e : entity K) tol, ent_int_collinear e0 e1 tol = Ret e -> (dimension e <= Z.min (dimension e0) (dimension e1))%Z.
  Proof.
    intros e0 e1 e tol. destruct e0, e1; intros H; try discriminate H;
      try ((eapply found_dim; [| |exact H]); intros; cbn [dimension]; lia); try ((eapply found_or_dim; [| |exact H]); intros; cbn [dimension]; lia).
    cbn in H. destruct (int_ray_ray_ray _ _ _); [injection H as <-; cbn; lia|]. destruct (int_ray_ray_seg _ _ _); [injection H as <-; cbn; lia|discriminate].
  Qed.
  Lemma dim_coplanar : forall (e0 e1 e : entity K) tol, ent_int_coplanar e0 e1 tol = Ret e -> (dimension e <= Z.min (dimension e0) (dimension e1))%Z.
  Proof.
    intros e0 e1 e tol. destruct e0, e1; intros H; try discriminate H;
      try ((eapply found_dim; [| |exact H]); intros; cbn [dimension]; lia); try ((eapply found_or_dim; [| |exact H]); intros; cbn [dimension]; lia).
    cbn [ent_int_coplanar] in H. destruct (int_tri_tri_none _ _ _); try discriminate H. injection H as <-. cbn. lia.
  Qed.
  Lemma dim_general : forall (e0 e1 e : entity K) tol, ent_int_general e0 e1 tol = Ret e -> (dimension e <= Z.min (dimension e0) (dimension e1))%Z.
  Proof.
    intros e0 e1 e tol. destruct e0, e1; intros H; try discriminate H;
      try ((eapply found_dim; [| |exact H]); intros; cbn [dimension]; lia); try ((eapply found_or_dim; [| |exact H]); intros; cbn [dimension]; lia).
  Qed.
  Lemma intersection_dimension : forall (e0 e1 e : entity K) tol, ent_intersection e0 e1 tol = Ret e ->
    (dimension e <= Z.min (dimension e0) (dimension e1))%Z.
  Proof.
    intros e0 e1 e tol. unfold ent_intersection. destruct (is_point e0 || is_point e1); [apply dim_point|].
    destruct (ent_collinear e0 e1 neps); [apply dim_collinear|]. destruct (ent_coplanar e0 e1 neps); [apply dim_coplanar|apply dim_general].
  Qed.
  (** One line apart, disks and triangles in one plane: no answer. *)
  Lemma coplanar_unsupported : forall (e0 e1 : entity K) tol,
    match e0, e1 with ETriangle _, EDisk _ | EDisk _, ETriangle _ | EDisk _, EDisk _ => True | _, _ => False end ->
    ent_coplanar e0 e1 neps = true -> ent_intersection e0 e1 tol = Throw RuntimeError.
  Proof.
    intros [] [] tol H C; try now destruct H. all: unfold ent_intersection; cbn [is_point orb ent_collinear]; rewrite C; reflexivity.
  Qed.
  (** Two triangles in one plane: never a common part. *)
  Lemma coplanar_triangles : forall (a b : triangle K) tol, ent_coplanar (ETriangle a) (ETriangle b) neps = true ->
    match ent_intersection (ETriangle a) (ETriangle b) tol with Ret e => e = ENone | _ => True end.
  Proof.
    intros a b tol C. unfold ent_intersection. cbn [is_point orb ent_collinear]. rewrite C. cbn [ent_int_coplanar].
    destruct (int_tri_tri_none a b tol); cbn; auto.
  Qed.
End Dispatch.
