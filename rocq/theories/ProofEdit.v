(** * Objects changed in place: proofs. *)
From Coq Require Import ZArith Bool Reals Lra Lia List.
From Verif Require Import Base Num Vec Aabb Tree Geom Acme Ground Mesh ER SpecGeom ProofGeom ProofInt ProofTri ProofGround
  Edit SpecEdit.
From Verif Require ProofEntity.
Import ListNotations.
Local Open Scope R_scope.

(** ** Indices. *)
Lemma to_integer_low : forall i, (0 <= i < 2 ^ 31)%Z -> to_integer i = i.
Proof.
  intros i H. unfold to_integer. rewrite Z.mod_small by lia. destruct (Z.ltb_spec i (2 ^ 31)); lia.
Qed.
Lemma to_integer_wrap : forall i, to_integer (i + 2 ^ 32) = to_integer i.
Proof.
  intros i. unfold to_integer. replace ((i + 2 ^ 32) mod 2 ^ 32)%Z with (i mod 2 ^ 32)%Z; [reflexivity|].
  replace (i + 2 ^ 32)%Z with (i + 1 * 2 ^ 32)%Z by ring. now rewrite Z.mod_add.
Qed.
Lemma to_integer_high : forall i, (2 ^ 31 <= i < 2 ^ 32)%Z -> to_integer i = (i - 2 ^ 32)%Z.
Proof.
  intros i H. unfold to_integer. rewrite Z.mod_small by lia. destruct (Z.ltb_spec i (2 ^ 31)); lia.
Qed.

Section Any.
  Context {K : Type} {NK : Num K}.

  Lemma tri_index (t : triangle K) i p :
    ((0 <= i < 3)%Z -> exists q, nth_error [tv0 t; tv1 t; tv2 t] (Z.to_nat i) = Some q /\ tri_vertex t i = Ret q /\
       exists t', tri_put i p t = Ret t' /\ tri_vertex t' i = Ret p /\
         forall j, j <> i -> tri_vertex t' j = tri_vertex t j) /\
    ((3 <= i)%Z -> tri_vertex t i = Throw RuntimeError /\ tri_put i p t = Throw RuntimeError) /\
    ((i < 0)%Z -> tri_vertex t i = UB /\ tri_put i p t = UB).
  Proof.
    split; [|split].
    - intros H. assert (E : (i = 0 \/ i = 1 \/ i = 2)%Z) by lia. destruct E as [-> | [-> | ->]]; cbn.
      + exists (tv0 t). split; [easy|]. split; [easy|]. eexists. split; [reflexivity|]. split; [reflexivity|].
        intros j Hj. unfold tri_vertex. destruct (j <? 3)%Z; [|easy]. destruct j as [|[]|]; easy.
      + exists (tv1 t). split; [easy|]. split; [easy|]. eexists. split; [reflexivity|]. split; [reflexivity|].
        intros j Hj. unfold tri_vertex. destruct (j <? 3)%Z; [|easy]. destruct j as [|[| |]|]; easy.
      + exists (tv2 t). split; [easy|]. split; [easy|]. eexists. split; [reflexivity|]. split; [reflexivity|].
        intros j Hj. unfold tri_vertex. destruct (j <? 3)%Z; [|easy]. destruct j as [|[|[| |]|]|]; easy.
    - intros H. unfold tri_vertex, tri_put. now rewrite (proj2 (Z.ltb_ge i 3) H).
    - intros H. unfold tri_vertex, tri_put. rewrite (proj2 (Z.ltb_lt i 3)) by lia. destruct i; [lia|lia|easy].
  Qed.

  Lemma tri_edges (t : triangle K) i :
    ((0 <= i < 3)%Z -> exists a b, tri_edge t i = Ret (Segment a b) /\
       tri_vertex t i = Ret a /\ tri_vertex t ((i + 1) mod 3) = Ret b) /\
    ((3 <= i)%Z -> tri_edge t i = Throw RuntimeError) /\
    ((i < 0)%Z -> tri_edge t i = tri_edge t 2).
  Proof.
    split; [|split].
    - intros H. assert (E : (i = 0 \/ i = 1 \/ i = 2)%Z) by lia. destruct E as [-> | [-> | ->]]; cbn; eauto.
    - intros H. unfold tri_edge. now rewrite (proj2 (Z.ltb_ge i 3) H).
    - intros H. unfold tri_edge. rewrite (proj2 (Z.ltb_lt i 3)) by lia. destruct i; [lia|lia|easy].
  Qed.

  Lemma ground_index (t : tground K) i :
    ((0 <= i < 2 ^ 31)%Z -> tg_vertex t i = tri_vertex (tg_tri t) i) /\
    ((2 ^ 31 <= i < 2 ^ 32)%Z -> tg_vertex t i = UB) /\
    tg_vertex t (i + 2 ^ 32) = tg_vertex t i.
  Proof.
    split; [|split].
    - intros H. unfold tg_vertex. now rewrite to_integer_low.
    - intros H. unfold tg_vertex. rewrite to_integer_high by easy.
      apply (tri_index (tg_tri t) _ (tv0 (tg_tri t))). lia.
    - unfold tg_vertex. now rewrite to_integer_wrap.
  Qed.

  (** ** What edits leave alone. *)
  Lemma edit_keeps (e : edit K) t t' : tg_edit e t = Ret t' ->
    tri_edit e (tg_tri t) = Ret (tg_tri t') /\
    tg_id t' = tg_id t /\ tg_friction t' = tg_friction t /\ tg_normal t' = tg_normal t /\ tg_bbox t' = tg_bbox t.
  Proof.
    unfold tg_edit. destruct (tri_edit e (tg_tri t)) as [x| |]; cbn; [|easy|easy].
    intros H. injection H as <-. now cbn.
  Qed.
  Lemma edits_keep (l : list (edit K)) : forall t t', tg_edits l t = Ret t' ->
    tg_id t' = tg_id t /\ tg_friction t' = tg_friction t /\ tg_normal t' = tg_normal t /\ tg_bbox t' = tg_bbox t.
  Proof.
    induction l as [|e l IH]; intros t t' H; cbn in H; [injection H as <-; easy|].
    destruct (tg_edit e t) as [u| |] eqn:E; cbn in H; [|easy|easy].
    apply edit_keeps in E as (_ & E1 & E2 & E3 & E4). apply IH in H as (H1 & H2 & H3 & H4).
    repeat split; congruence.
  Qed.

  (** ** Meshes of edited triangles. *)
  Lemma edited_boxes (ts ts' : list (tground K)) : Forall2 edited ts ts' -> map tg_bbox ts' = map tg_bbox ts.
  Proof.
    induction 1 as [|t t' ts ts' [l E] _ IH]; [easy|]. cbn. rewrite IH. f_equal. apply edits_keep in E. tauto.
  Qed.
  Lemma forall2_nth {A B} (P : A -> B -> Prop) l l' : Forall2 P l l' -> forall n,
    match nth_error l n, nth_error l' n with
    | Some a, Some b => P a b
    | None, None => True
    | _, _ => False
    end.
  Proof. induction 1; intros [|n]; cbn; auto. apply IHForall2. Qed.

  Lemma omap_agree {A} (P : A -> A -> Prop) {X} (f f' : X -> outcome A) (l : list X) :
    (forall x, match f x, f' x with
               | Ret r, Ret r' => P r r'
               | Throw e, Throw e' => e = e'
               | UB, UB => True
               | _, _ => False
               end) ->
    match omap f l, omap f' l with
    | Ret r, Ret r' => Forall2 P r r'
    | Throw e, Throw e' => e = e'
    | UB, UB => True
    | _, _ => False
    end.
  Proof.
    intros H. induction l as [|x l IH]; cbn [omap]; [constructor|]. specialize (H x).
    destruct (f x), (f' x); cbn [obind]; try contradiction; auto.
    destruct (omap f l), (omap f' l); cbn [obind]; try contradiction; auto.
  Qed.

  Lemma mesh_of_edited (ts ts' : list (tground K)) m : Forall2 edited ts ts' -> mesh_of_triangles ts = Ret m ->
    exists m', mesh_of_triangles ts' = Ret m' /\ me_tris m' = ts' /\ forall q,
      match mesh_intersection m q, mesh_intersection m' q with
      | Ret r, Ret r' => Forall2 edited r r'
      | Throw e, Throw e' => e = e'
      | UB, UB => True
      | _, _ => False
      end.
  Proof.
    intros F H. unfold mesh_of_triangles, mesh_build in *. cbn [me_tris] in *. rewrite (edited_boxes ts ts' F).
    destruct (build (map tg_bbox ts)) as [t| |]; cbn [obind] in H |- *; [|easy|easy]. injection H as <-.
    eexists. split; [reflexivity|]. split; [reflexivity|]. intros q. unfold mesh_intersection. cbn [me_tree].
    destruct (build [q]) as [b| |]; cbn [obind]; auto.
    destruct (tree_intersection t b) as [ps| |]; cbn [obind]; auto.
    apply omap_agree. intros pr. unfold mesh_nth. destruct (_ <? 0)%Z; [easy|]. cbn [me_tris].
    pose proof (forall2_nth _ _ _ F (Z.to_nat (bid (fst pr)))) as Q.
    destruct (nth_error ts _), (nth_error ts' _); easy.
  Qed.

  Lemma wrong_index (t : triangle K) (s : segment K) (g : tground K) p i :
    ((i < 0)%Z -> tri_vertex t i = UB /\ tri_put i p t = UB /\ tri_edge t i = tri_edge t 2) /\
    ((i < 0)%Z \/ (2 <= i)%Z -> seg_vertex s i = UB /\ seg_put i p s = UB) /\
    ((2 ^ 31 <= i < 2 ^ 32)%Z -> tg_vertex g i = UB) /\
    tg_vertex g (i + 2 ^ 32) = tg_vertex g i.
  Proof.
    split; [|split; [|apply ground_index]].
    - intros H. destruct (tri_index t i p) as (_ & _ & Q). destruct (Q H) as [A B]. split; [exact A|]. split; [exact B|].
      now apply tri_edges.
    - intros H. unfold seg_vertex, seg_put. destruct i as [|[]|]; try easy; lia.
  Qed.
  Lemma seg_index (s : segment K) i p : (0 <= i < 2)%Z -> exists q, nth_error [sv0 s; sv1 s] (Z.to_nat i) = Some q /\ seg_vertex s i = Ret q /\
    exists s', seg_put i p s = Ret s' /\ seg_vertex s' i = Ret p /\ forall j, j <> i -> seg_vertex s' j = seg_vertex s j.
  Proof.
    intros H. assert (C : i = 0%Z \/ i = 1%Z) by lia. destruct C as [-> | ->]; (eexists; split; [reflexivity|]; split; [reflexivity|]);
      (eexists; split; [reflexivity|]; split; [reflexivity|]); intros [|[]|] J; try reflexivity; congruence.
  Qed.

  Lemma swapped (t : triangle K) i j : (0 <= i < 3)%Z -> (0 <= j < 3)%Z ->
    exists t', tri_edit (EdSwap i j) t = Ret t' /\
      tri_vertex t' i = tri_vertex t j /\ tri_vertex t' j = tri_vertex t i /\
      forall k, k <> i -> k <> j -> tri_vertex t' k = tri_vertex t k.
  Proof.
    intros Hi Hj. assert (I : (i = 0 \/ i = 1 \/ i = 2)%Z) by lia. assert (J : (j = 0 \/ j = 1 \/ j = 2)%Z) by lia.
    destruct I as [-> | [-> | ->]], J as [-> | [-> | ->]];
      (eexists; split; [reflexivity|]; split; [reflexivity|]; split; [reflexivity|];
       intros k A B; unfold tri_vertex; destruct (k <? 3)%Z; [|easy]; destruct k as [|[u|u|]|]; try easy; destruct u; easy).
  Qed.

  Lemma edits_defined (l : list (edit K)) : forall t,
    (forall i j, In (EdSwap i j) l -> (0 <= i < 3)%Z /\ (0 <= j < 3)%Z) ->
    (forall i p, In (EdVertex i p) l -> (0 <= i < 3)%Z) ->
    exists t', tg_edits l t = Ret t'.
  Proof.
    induction l as [|e l IH]; intros t S P; cbn [tg_edits]; [eauto|].
    assert (E : exists x, tri_edit e (tg_tri t) = Ret x).
    { destruct e as [v|a|i j|i p]; cbn [tri_edit]; eauto.
      - destruct (S i j) as [A B]; [now left|]. destruct (swapped (tg_tri t) i j A B) as (t' & E & _).
        cbn [tri_edit] in E. eauto.
      - destruct (tri_index (tg_tri t) i p) as (Q & _). destruct Q as (q & _ & _ & t' & E & _); eauto.
        apply (P i p). now left. }
    destruct E as [x E]. unfold tg_edit. rewrite E. cbn [obind]. apply IH; intros.
    - apply S. now right.
    - eapply P. right. eassumption.
  Qed.
End Any.

(** ** Movements of real triangles. *)
Definition step_tri (m : movement) (t t' : triangle R) : Prop :=
  match m with
  | Shift v => t' = Triangle (padd v (tv0 t)) (padd v (tv1 t)) (padd v (tv2 t))
  | Place a => t' = Triangle (place a (tv0 t)) (place a (tv1 t)) (place a (tv2 t))
  | Rename _ _ => t' = t \/ t' = Triangle (tv1 t) (tv0 t) (tv2 t) \/ t' = Triangle (tv2 t) (tv1 t) (tv0 t) \/
                  t' = Triangle (tv0 t) (tv2 t) (tv1 t)
  end.

Lemma real_step : forall m t x, tri_edit (real_edit m) (ftri t) = Ret x -> exists t', x = ftri t' /\ step_tri m t t'.
Proof.
  intros m t x H. destruct m as [v|a|i j]; cbn [real_edit tri_edit step_tri] in *.
  - injection H as <-. eexists. split; [|reflexivity]. reflexivity.
  - injection H as <-. eexists. split; [|reflexivity].
    unfold tri_transform, point_transform, ftri. cbn [tv0 tv1 tv2]. now rewrite !ProofEntity.f_aapply.
  - destruct (_ || _)%bool; [easy|].
    destruct (Z.to_nat i) as [|[|[|]]], (Z.to_nat j) as [|[|[|]]]; cbn in H; try discriminate; injection H as <-;
      first [exists t; split; [reflexivity|tauto]
            |exists (Triangle (tv1 t) (tv0 t) (tv2 t)); split; [reflexivity|tauto]
            |exists (Triangle (tv2 t) (tv1 t) (tv0 t)); split; [reflexivity|tauto]
            |exists (Triangle (tv0 t) (tv2 t) (tv1 t)); split; [reflexivity|tauto]].
Qed.

Lemma bary_swap : forall a b c x y z, bary (Triangle a b c) x y z = bary (Triangle b a c) y x z.
Proof. intros. unfold bary. cbn [tv0 tv1 tv2]. apply vec_eq; vunf; ring. Qed.
Lemma bary_rot : forall a b c x y z, bary (Triangle a b c) x y z = bary (Triangle a c b) x z y.
Proof. intros. unfold bary. cbn [tv0 tv1 tv2]. apply vec_eq; vunf; ring. Qed.
Lemma in_tri_swap : forall a b c q, in_triangle (Triangle a b c) q -> in_triangle (Triangle b a c) q.
Proof. intros a b c q (x & y & z & X & Y & Z & S & ->). exists y, x, z. repeat split; try lra. apply bary_swap. Qed.
Lemma in_tri_rot : forall a b c q, in_triangle (Triangle a b c) q -> in_triangle (Triangle a c b) q.
Proof. intros a b c q (x & y & z & X & Y & Z & S & ->). exists x, z, y. repeat split; try lra. apply bary_rot. Qed.
Lemma in_tri_ends : forall a b c q, in_triangle (Triangle a b c) q -> in_triangle (Triangle c b a) q.
Proof. intros a b c q H. now apply in_tri_swap, in_tri_rot, in_tri_swap. Qed.

Lemma step_points : forall m t t', step_tri m t t' ->
  forall q', in_triangle t' q' <-> exists q, in_triangle t q /\ q' = carry m q.
Proof.
  intros m t t' H q'. destruct m as [v|a|i j]; cbn [step_tri carry] in *.
  - subst t'. split.
    + intros (x & y & z & X & Y & Z & S & ->). exists (bary t x y z). split; [exists x, y, z; auto|].
      unfold bary. cbn [tv0 tv1 tv2]. replace z with (1 - x - y) by lra. apply vec_eq; vunf; ring.
    + intros (q & (x & y & z & X & Y & Z & S & ->) & ->). exists x, y, z. repeat split; auto.
      unfold bary. cbn [tv0 tv1 tv2]. replace z with (1 - x - y) by lra. apply vec_eq; vunf; ring.
  - subst t'. exact (ProofEntity.tri_moved a t q').
  - destruct t as [a b c]. cbn [tv0 tv1 tv2] in H.
    assert (E : in_triangle t' q' <-> in_triangle (Triangle a b c) q').
    { destruct H as [-> | [-> | [-> | ->]]]; [reflexivity| | |]; split; auto using in_tri_swap, in_tri_rot, in_tri_ends. }
    rewrite E. split; [intros Hq; exists q'; auto|]. intros (q & Hq & ->). exact Hq.
Qed.

Lemma moved_points : forall l g g' t, tg_tri g = ftri t -> tg_edits (map real_edit l) g = Ret g' ->
  exists t', tg_tri g' = ftri t' /\
    forall q', in_triangle t' q' <-> exists q, in_triangle t q /\ q' = carried l q.
Proof.
  induction l as [|m l IH]; intros g g' t T H; cbn [map tg_edits] in H.
  - injection H as <-. exists t. split; [exact T|]. intros q'. cbn. split; [intros Q; exists q'; auto|].
    intros (q & Q & ->). exact Q.
  - destruct (tg_edit (real_edit m) g) as [u| |] eqn:E; cbn [obind] in H; [|easy|easy].
    apply edit_keeps in E as (E & _). rewrite T in E. apply real_step in E as (t1 & E1 & S).
    destruct (IH u g' t1 E1 H) as (t' & T' & P). exists t'. split; [exact T'|]. intros q'. rewrite P.
    cbn [carried]. split.
    + intros (q1 & Q1 & ->). apply (step_points _ _ _ S) in Q1 as (q & Q & ->). eauto.
    + intros (q & Q & ->). exists (carry m q). split; [|reflexivity]. apply (step_points _ _ _ S). eauto.
Qed.

(** ** Shifts and renamings. *)
Definition low (t : triangle R) : pt :=
  V (Rmin (vx (tv0 t)) (Rmin (vx (tv1 t)) (vx (tv2 t)))) (Rmin (vy (tv0 t)) (Rmin (vy (tv1 t)) (vy (tv2 t))))
    (Rmin (vz (tv0 t)) (Rmin (vz (tv1 t)) (vz (tv2 t)))).
Definition high (t : triangle R) : pt :=
  V (Rmax (vx (tv0 t)) (Rmax (vx (tv1 t)) (vx (tv2 t)))) (Rmax (vy (tv0 t)) (Rmax (vy (tv1 t)) (vy (tv2 t))))
    (Rmax (vz (tv0 t)) (Rmax (vz (tv1 t)) (vz (tv2 t)))).

Lemma min3_shift : forall k x y z, Rmin (k + x) (Rmin (k + y) (k + z)) = k + Rmin x (Rmin y z).
Proof. intros. unfold Rmin. repeat destruct (Rle_dec _ _); lra. Qed.
Lemma max3_shift : forall k x y z, Rmax (k + x) (Rmax (k + y) (k + z)) = k + Rmax x (Rmax y z).
Proof. intros. unfold Rmax. repeat destruct (Rle_dec _ _); lra. Qed.
Lemma min3_swap : forall x y z, Rmin y (Rmin x z) = Rmin x (Rmin y z) /\ Rmin z (Rmin y x) = Rmin x (Rmin y z) /\
  Rmin x (Rmin z y) = Rmin x (Rmin y z).
Proof. intros. unfold Rmin. repeat split; repeat destruct (Rle_dec _ _); lra. Qed.
Lemma max3_swap : forall x y z, Rmax y (Rmax x z) = Rmax x (Rmax y z) /\ Rmax z (Rmax y x) = Rmax x (Rmax y z) /\
  Rmax x (Rmax z y) = Rmax x (Rmax y z).
Proof. intros. unfold Rmax. repeat split; repeat destruct (Rle_dec _ _); lra. Qed.

Lemma step_shift : forall m t t', step_tri m t t' -> ~ turns m ->
  low t' = padd (total [m]) (low t) /\ high t' = padd (total [m]) (high t) /\
  (tri_cross t' = tri_cross t \/ tri_cross t' = pscale (-1) (tri_cross t)).
Proof.
  intros m t t' H T. destruct m as [v|a|i j]; cbn [step_tri total turns] in *; [| tauto|].
  - subst t'. split; [|split].
    + unfold low. cbn [tv0 tv1 tv2]. apply vec_eq; vunf; rewrite min3_shift; ring.
    + unfold high. cbn [tv0 tv1 tv2]. apply vec_eq; vunf; rewrite max3_shift; ring.
    + left. unfold tri_cross. cbn [tv0 tv1 tv2]. apply vec_eq; vunf; ring.
  - destruct t as [a b c]. unfold low, high, tri_cross. cbn [tv0 tv1 tv2] in *.
    destruct (min3_swap (vx a) (vx b) (vx c)) as (A1 & A2 & A3). destruct (min3_swap (vy a) (vy b) (vy c)) as (B1 & B2 & B3).
    destruct (min3_swap (vz a) (vz b) (vz c)) as (C1 & C2 & C3). destruct (max3_swap (vx a) (vx b) (vx c)) as (D1 & D2 & D3).
    destruct (max3_swap (vy a) (vy b) (vy c)) as (E1 & E2 & E3). destruct (max3_swap (vz a) (vz b) (vz c)) as (F1 & F2 & F3).
    destruct H as [-> | [-> | [-> | ->]]]; cbn [tv0 tv1 tv2];
      rewrite ?A1, ?A2, ?A3, ?B1, ?B2, ?B3, ?C1, ?C2, ?C3, ?D1, ?D2, ?D3, ?E1, ?E2, ?E3, ?F1, ?F2, ?F3;
      (split; [apply vec_eq; vunf; ring|split; [apply vec_eq; vunf; ring|]]).
    + now left.
    + right. apply vec_eq; vunf; ring.
    + right. apply vec_eq; vunf; ring.
    + right. apply vec_eq; vunf; ring.
Qed.

Lemma shifted : forall l g g' t, tg_tri g = ftri t -> tg_edits (map real_edit l) g = Ret g' ->
  Forall (fun m => ~ turns m) l ->
  exists t', tg_tri g' = ftri t' /\ low t' = padd (total l) (low t) /\ high t' = padd (total l) (high t) /\
    (tri_cross t' = tri_cross t \/ tri_cross t' = pscale (-1) (tri_cross t)).
Proof.
  induction l as [|m l IH]; intros g g' t T H F; cbn [map tg_edits] in H.
  - injection H as <-. exists t. split; [exact T|]. cbn [total].
    split; [apply vec_eq; vunf; ring|]. split; [apply vec_eq; vunf; ring|]. now left.
  - destruct (tg_edit (real_edit m) g) as [u| |] eqn:E; cbn [obind] in H; [|easy|easy].
    apply edit_keeps in E as (E & _). rewrite T in E. apply real_step in E as (t1 & E1 & S).
    inversion F as [|? ? F1 F2]; subst. destruct (step_shift _ _ _ S F1) as (L & U & C).
    destruct (IH u g' t1 E1 H F2) as (t' & T' & L' & U' & C'). exists t'. split; [exact T'|].
    assert (Q : total (m :: l) = padd (total [m]) (total l)).
    { destruct m; cbn [total]; apply vec_eq; vunf; ring. }
    rewrite Q, L', U', L, U. split; [apply vec_eq; vunf; ring|]. split; [apply vec_eq; vunf; ring|].
    destruct C as [C|C], C' as [C'|C']; rewrite C', C; [now left|now right|now right|].
    left. apply vec_eq; vunf; ring.
Qed.

Lemma made_shape : forall id f t, nle (nofZ 0) f = true ->
  mk_tground id f (tv0 (ftri t)) (tv1 (ftri t)) (tv2 (ftri t)) =
  Ret (TGround (ftri t) id f (fv (rup (punit (tri_cross t)))) (Box (fv (low t)) (fv (high t)) id)).
Proof.
  intros id f t F. destruct t as [a b c].
  assert (E : exists g, mk_tground id f (fv a) (fv b) (fv c) = Ret g) by (unfold mk_tground; rewrite F; eauto).
  destruct E as [g E]. pose proof (f_tg_normal id f a b c g E) as (N & _).
  cbn [ftri tv0 tv1 tv2]. rewrite E. unfold mk_tground in E. rewrite F in E. injection E as <-. cbn [tg_normal] in N.
  rewrite N. f_equal. f_equal. unfold tg_update_bbox, clamp, low, high, fv. cbn [vx vy vz tv0 tv1 tv2 bid]. rewrite !e_min, !e_max. reflexivity.
Qed.

Lemma rup_same : forall c c', vz c <> 0 -> c' = c \/ c' = pscale (-1) c -> rup (punit c') = rup (punit c).
Proof.
  intros c c' Z [-> | ->]; [reflexivity|]. rewrite punit_opp. apply rup_opp.
  assert (P : 0 < pdot c c) by (apply cross_nonzero; intros E; apply Z; apply (f_equal vz) in E; exact E).
  rewrite punit_pos by exact P. unfold pscale. cbn [vz]. intros E. apply Rmult_integral in E. destruct E as [E|E]; auto.
  pose proof (pnorm_pos _ P) as Q. pose proof (Rinv_0_lt_compat _ Q). lra.
Qed.

Lemma shifted_normal : forall l g g' t, tg_tri g = ftri t -> up_to_date g -> vz (tri_cross t) <> 0 ->
  tg_edits (map real_edit l) g = Ret g' -> Forall (fun m => ~ turns m) l ->
  exists h, mk_tground (tg_id g') (tg_friction g') (tv0 (tg_tri g')) (tv1 (tg_tri g')) (tv2 (tg_tri g')) = Ret h /\
    tg_normal g' = tg_normal h /\
    (tg_bbox g' = tg_bbox h <-> total l = V 0 0 0).
Proof.
  intros l g g' t T D Z H F. destruct (edits_keep _ _ _ H) as (K1 & K2 & K3 & K4).
  destruct (shifted l g g' t T H F) as (t' & T' & L & U & C).
  unfold up_to_date in D. rewrite T in D.
  assert (P : nle (nofZ 0) (tg_friction g) = true).
  { destruct (nle (nofZ 0) (tg_friction g)) eqn:E; [reflexivity|]. unfold mk_tground in D. rewrite E in D. discriminate D. }
  rewrite (made_shape _ _ t P) in D. apply (f_equal (fun o => match o with Ret x => x | _ => g end)) in D.
  rewrite T', (made_shape _ _ t') by (rewrite K2; exact P). eexists. split; [reflexivity|].
  cbn [tg_normal tg_bbox]. split.
  - rewrite K3, <- D. cbn [tg_normal]. now rewrite (rup_same _ _ Z C).
  - rewrite K4, K1, <- D. cbn [tg_bbox tg_id]. rewrite L, U. split.
    + intros E. apply (f_equal bmin) in E. cbn [bmin] in E. apply fv_inj in E.
      pose proof (f_equal vx E) as X. pose proof (f_equal vy E) as Y. pose proof (f_equal vz E) as W.
      unfold padd in X, Y, W. cbn [vx vy vz] in X, Y, W. apply vec_eq; cbn [vx vy vz]; lra.
    + intros ->. f_equal; f_equal; apply vec_eq; vunf; ring.
Qed.

Lemma shifted_date : forall l g g' t, tg_tri g = ftri t -> up_to_date g -> vz (tri_cross t) <> 0 ->
  tg_edits (map real_edit l) g = Ret g' -> Forall (fun m => ~ turns m) l ->
  (up_to_date g' <-> total l = V 0 0 0).
Proof.
  intros l g g' t T D Z H F. destruct (shifted_normal l g g' t T D Z H F) as (h & E & N & B).
  rewrite <- B. unfold up_to_date. rewrite E. split; [intros Q; injection Q as ->; reflexivity|].
  intros Q. f_equal. destruct (edits_keep _ _ _ H) as (K1 & K2 & K3 & K4).
  unfold mk_tground in E. destruct (nle _ _); [|discriminate]. injection E as <-. cbn [tg_normal tg_bbox] in N, Q.
  rewrite <- N, <- Q. destruct g' as [[] ? ? ? ?]. reflexivity.
Qed.

(** ** Cleared boxes. *)
Lemma cleared : forall (b c : aabb er) p,
  intersects (aabb_clear b) c = false /\ intersects c (aabb_clear b) = false /\
  aabb_is_inside (aabb_clear b) p = false /\ check_max_min (aabb_clear b) = false /\ bid (aabb_clear b) = bid b /\
  bmin (aabb_clear b) = V Nan Nan Nan /\ bmax (aabb_clear b) = V Nan Nan Nan.
Proof.
  intros b c p. unfold intersects, aabb_is_inside, check_max_min, aabb_clear. cbn [bmin bmax bid].
  destruct b as [[] [] ?], c as [[] [] ?], p as []. cbn. rewrite ?Bool.andb_false_r. repeat split.
Qed.

(** ** Witnesses. *)
Lemma one_ok : nle (nofZ 0) (Fin 1) = true.
Proof. change (nofZ (Num := ER_Num) 0) with (Fin 0). change (rleb 0 1 = true). apply rleb_true. lra. Qed.
Lemma flat_up : rup (punit (tri_cross flat_tri)) = V 0 0 1.
Proof.
  assert (C : tri_cross flat_tri = V 0 0 1) by (unfold tri_cross, flat_tri; cbn [tv0 tv1 tv2]; apply vec_eq; vunf; ring).
  rewrite C, punit_unit by (unfold is_unit; vunf; ring). unfold rup. cbn [vz].
  destruct (rltb 1 0) eqn:E; [rb; lra|reflexivity].
Qed.

Lemma turned : exists g g',
  mk_tground 7 (Fin 1) (fv (tv0 flat_tri)) (fv (tv1 flat_tri)) (fv (tv2 flat_tri)) = Ret g /\
  rigid (Aff (M3 1 0 0 0 0 (-1) 0 1 0) (V 0 0 0)) /\
  tg_edit (real_edit (Place (Aff (M3 1 0 0 0 0 (-1) 0 1 0) (V 0 0 0)))) g = Ret g' /\
  tg_tri g' = ftri (Triangle (V 0 0 0) (V 1 0 0) (V 0 0 1)) /\ tg_normal g' = fv (V 0 0 1).
Proof.
  pose proof (made_shape 7 (Fin 1) flat_tri one_ok) as E. rewrite flat_up in E.
  eexists. eexists. split; [exact E|]. split; [|split; [reflexivity|]].
  - unfold rigid, rotation, is_unit, pcol0, pcol1, pcol2. cbn. repeat split; try (vunf; ring). apply vec_eq; vunf; ring.
  - cbn [tg_tri tg_normal]. split; [|reflexivity]. unfold tri_transform, point_transform, ftri. cbn [tv0 tv1 tv2 flat_tri].
    rewrite !ProofEntity.f_aapply. f_equal; f_equal; apply vec_eq; vunf; cbn; ring.
Qed.

Lemma edit_example : exists g g',
  mk_tground 7 (Fin 1) (fv (tv0 flat_tri)) (fv (tv1 flat_tri)) (fv (tv2 flat_tri)) = Ret g /\
  tg_tri g = ftri flat_tri /\ up_to_date g /\ vz (tri_cross flat_tri) <> 0 /\
  tg_edits (map real_edit [Shift (V 1 2 3); Rename 0 2; Shift (V (-1) (-2) (-3))]) g = Ret g' /\
  total [Shift (V 1 2 3); Rename 0 2; Shift (V (-1) (-2) (-3))] = V 0 0 0 /\
  total [Shift (V 1 2 3)] <> V 0 0 0.
Proof.
  pose proof (made_shape 7 (Fin 1) flat_tri one_ok) as E.
  eexists. eexists. split; [exact E|]. split; [reflexivity|]. split; [exact E|].
  split; [unfold tri_cross, flat_tri; vunf; cbn; lra|]. split; [reflexivity|].
  split; [cbn [total]; apply vec_eq; vunf; ring|]. cbn [total]. intros Q. apply (f_equal vx) in Q. vunf. cbn in Q. lra.
Qed.
