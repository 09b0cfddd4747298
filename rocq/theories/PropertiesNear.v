(** * Properties of the distance queries on a tree of boxes. *)
From Coq Require Import ZArith Bool List Permutation Reals Lra Lia.
From Verif Require Import Base Num Vec Aabb Tree NearTree Geom ER SpecGeom SpecTree SpecMesh SpecAcme SpecNear.
From Verif Require Import ProofGeom ProofBox ProofNear.
Import ListNotations.
Local Open Scope R_scope.

(** ** C101 *)
(** The candidates are exactly the boxes that may hold the nearest object. *)
Theorem C101_candidates : forall boxes t p, boxes <> [] -> Forall thick_box boxes -> build boxes = Ret t ->
  exists l, select_minimum (fv p) t = Ret l /\ exactly (may_be_nearest p boxes) boxes l.
Proof. exact candidates. Qed.
Print Assumptions C101_candidates.
(** So, whatever objects sit in the boxes, the box of the nearest one is among
    the candidates. *)
Theorem C101_nearest_kept : forall boxes t p, boxes <> [] -> Forall thick_box boxes -> build boxes = Ret t ->
  forall (obj : aabb er -> pt -> Prop) b x l,
    (forall b', In b' boxes -> (exists y, obj b' y) /\ forall y, obj b' y -> in_box (fv y) b') ->
    In b boxes -> obj b x -> (forall b' y, In b' boxes -> obj b' y -> dist p x <= dist p y) ->
    select_minimum (fv p) t = Ret l -> In b l.
Proof. exact nearest_kept. Qed.
Print Assumptions C101_nearest_kept.
(** The boxes within a given distance. *)
Theorem C101_within_distance : forall boxes t p, boxes <> [] -> Forall thick_box boxes -> build boxes = Ret t ->
  forall d, exists l, select_less (fv p) (Fin d) t = Ret l /\ exactly (reaches p d) boxes l.
Proof. exact within_distance. Qed.
Print Assumptions C101_within_distance.
(** The smallest of the distances to the farthest points of the boxes. *)
Theorem C101_least_farthest : forall boxes t p, boxes <> [] -> Forall thick_box boxes -> build boxes = Ret t ->
  exists d, min_exterior (fv p) t ninf = Ret (Fin d) /\
    (exists b, In b boxes /\ farthest_at p b d) /\
    (forall b, In b boxes -> exists y, in_box (fv y) b /\ d <= dist p y).
Proof. exact least_far. Qed.
Print Assumptions C101_least_farthest.
Example C101_example : Forall thick_box [fbox (V 0 0 0) (V 1 1 1) 1; fbox (V 5 0 0) (V 7 1 2) 2] /\
  exists t, build [fbox (V 0 0 0) (V 1 1 1) 1; fbox (V 5 0 0) (V 7 1 2) 2] = Ret t.
Proof.
  split.
  - repeat constructor; unfold thick_box; do 3 eexists; (split; [reflexivity|]); cbn; lra.
  - destruct (ProofTree.build_spec [fbox (V 0 0 0) (V 1 1 1) 1; fbox (V 5 0 0) (V 7 1 2) 2]) as (t & E & _). eauto.
Qed.
(** A box without thickness, such as that of a level triangle, is never a candidate for a point off its plane. *)
Theorem C101_flat_never : forall lo hi id p t l, flat_off lo hi p ->
  select_minimum (fv p) t = Ret l -> ~ In (fbox lo hi id) l.
Proof. exact flat_lost_min. Qed.
Print Assumptions C101_flat_never.
(** Hence the nearest box can be lost while a farther one may be returned. *)
Theorem C101_nearest_refuted : exists b far p t l,
  proper_box b /\ thick_box far /\ build [b; far] = Ret t /\ select_minimum (fv p) t = Ret l /\
  (exists x, in_box (fv x) b /\ forall y, in_box (fv y) far -> dist p x < dist p y) /\ ~ In b l.
Proof.
  destruct (flat_near_lost (V 0 0 0) (V 1 1 0) 1 (V 0 0 10) (V 1 1 11) 2 (V 0 0 1)) as (t & l & E & S & N);
    [unfold flat_off; cbn; lra|].
  exists (fbox (V 0 0 0) (V 1 1 0) 1), (fbox (V 0 0 10) (V 1 1 11) 2), (V 0 0 1), t, l.
  split. { unfold proper_box, fbox, fv. cbn. repeat split; apply rleb_true; lra. }
  split. { do 3 eexists. split; [reflexivity|]. cbn. lra. }
  split; [exact E|]. split; [exact S|]. split; [|exact N].
  exists (V 0 0 0). split. { apply in_fbox. unfold within. cbn. lra. }
  intros y Hy. apply in_fbox in Hy. destruct Hy as (_ & _ & Y & _). cbn in Y.
  unfold dist, pnorm. apply sqrt_lt_1_alt. unfold pdot, psub. cbn.
  pose proof (Rle_0_sqr (0 - vx y)). pose proof (Rle_0_sqr (0 - vy y)). unfold Rsqr in *. nra.
Qed.
Print Assumptions C101_nearest_refuted.
(** Asking an empty tree is undefined. *)
Theorem C101_empty_refuted : forall K (NK : Num K) (q : vec3 K), exists t,
  build (K := K) [] = Ret t /\ select_minimum q t = UB.
Proof. intros K NK q. exists tempty. now split. Qed.
Print Assumptions C101_empty_refuted.
