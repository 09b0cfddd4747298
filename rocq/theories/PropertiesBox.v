(** * Properties of axis-aligned boxes. *)
From Coq Require Import ZArith Bool List Reals Lra Lia.
From Verif Require Import Base Num Vec Aabb Geom Acme ER SpecGeom SpecTree SpecMesh SpecAcme.
From Verif Require Import ProofGeom ProofBox.
Import ListNotations.
Local Open Scope R_scope.

(** ** C70 *)
Theorem C70_box_from_corners : forall K (NK : Num K) (OK : OrdNum K) (a b : vec3 K) id, vnum a -> vnum b ->
  proper_box (mk_aabb a b id) /\ bid (mk_aabb a b id) = id /\
  forall q, in_box q (mk_aabb a b id) <->
    between (vx a) (vx b) (vx q) /\ between (vy a) (vy b) (vy q) /\ between (vz a) (vz b) (vz q).
Proof. intros K NK OK. exact corners_box. Qed.
Print Assumptions C70_box_from_corners.
Theorem C70_order_check : forall K (NK : Num K) (OK : OrdNum K) (b : aabb K), vnum (bmin b) -> vnum (bmax b) ->
  (update_max_min_ok b = true <-> proper_box b) /\ (check_max_min b = true <-> proper_box b) /\
  (update_max_min_ok b = true -> update_max_min b = b).
Proof. intros K NK OK. exact corners_flag. Qed.
Print Assumptions C70_order_check.
(** Corners given in mixed order. *)
Example C70_example : vnum (fv (V 1 (-2) 5)) /\ vnum (fv (V 0 3 (-1))) /\
  in_box (fv (V (/ 2) 0 0)) (mk_aabb (fv (V 1 (-2) 5)) (fv (V 0 3 (-1))) 7) /\
  update_max_min_ok (Box (fv (V 1 (-2) 5)) (fv (V 0 3 (-1))) 7) = false.
Proof.
  assert (N : forall v, vnum (fv v)).
  { intros v. unfold vnum, isnum. cbn. repeat split; apply rleb_true; lra. }
  split; [apply N|]. split; [apply N|]. split.
  - apply corners_box; try apply N. unfold between, fv. cbn.
    repeat split; [right|left|right]; split; apply rleb_true; lra.
  - unfold update_max_min_ok. cbn [bmin bmax fv vx vy vz nlt ER_Num eltb]. replace (rltb 0 1) with true by (symmetry; apply rltb_true; lra). reflexivity.
Qed.

(** ** C71 *)
Theorem C71_common_part : forall K (NK : Num K) (OK : OrdNum K) (a b out : aabb K), proper_box a -> proper_box b ->
  match int_box_box a b out with
  | Some r => proper_box r /\ bid r = bid out /\ forall q, in_box q r <-> in_box q a /\ in_box q b
  | None => forall q, ~ (in_box q a /\ in_box q b)
  end.
Proof. intros K NK OK. exact box_box. Qed.
Print Assumptions C71_common_part.
Example C71_example : let a := fbox (V 0 0 0) (V 2 2 2) 1 in let b := fbox (V 1 (-1) 1) (V 3 1 3) 2 in
  proper_box a /\ proper_box b /\ exists r, int_box_box a b a = Some r /\ in_box (fv (V (3 / 2) (/ 2) (3 / 2))) r.
Proof.
  cbv zeta. assert (P : forall lo hi id, vx lo <= vx hi -> vy lo <= vy hi -> vz lo <= vz hi -> proper_box (fbox lo hi id)).
  { intros. unfold proper_box, fbox. cbn. repeat split; now apply rleb_true. }
  split; [apply P; cbn; lra|]. split; [apply P; cbn; lra|].
  pose proof (box_box (fbox (V 0 0 0) (V 2 2 2) 1) (fbox (V 1 (-1) 1) (V 3 1 3) 2) (fbox (V 0 0 0) (V 2 2 2) 1)
    ltac:(apply P; cbn; lra) ltac:(apply P; cbn; lra)) as H.
  assert (Q : forall lo hi id q, within lo hi q -> in_box (fv q) (fbox lo hi id)).
  { intros lo hi id q ((? & ?) & (? & ?) & ? & ?). unfold in_box, fbox, fv. cbn. repeat split; now apply rleb_true. }
  assert (Q1 : in_box (fv (V (3 / 2) (/ 2) (3 / 2))) (fbox (V 0 0 0) (V 2 2 2) 1)) by (apply Q; unfold within; cbn; lra).
  assert (Q2 : in_box (fv (V (3 / 2) (/ 2) (3 / 2))) (fbox (V 1 (-1) 1) (V 3 1 3) 2)) by (apply Q; unfold within; cbn; lra).
  destruct (int_box_box _ _ _) as [r|].
  - exists r. split; auto. apply H. auto.
  - destruct (H _ (conj Q1 Q2)).
Qed.

(** ** C72 *)
Theorem C72_distance_to_box : forall lo hi id p, vx lo < vx hi -> vy lo < vy hi -> vz lo < vz hi ->
  exists d, center_distance (fbox lo hi id) (fv p) = Fin d /\
    (exists q, within lo hi q /\ dist p q = d) /\ (forall q, within lo hi q -> d <= dist p q).
Proof. exact center_distance_exact. Qed.
Print Assumptions C72_distance_to_box.
Theorem C72_farthest_distance : forall lo hi id p, vx lo <= vx hi -> vy lo <= vy hi -> vz lo <= vz hi ->
  exists d, exterior_distance (fbox lo hi id) (fv p) = Fin d /\
    (exists q, within lo hi q /\ dist p q = d) /\ (forall q, within lo hi q -> dist p q <= d).
Proof. exact exterior_distance_exact. Qed.
Print Assumptions C72_farthest_distance.
Example C72_example : vx (V 0 0 0) < vx (V 1 2 3) /\ vy (V 0 0 0) < vy (V 1 2 3) /\ vz (V 0 0 0) < vz (V 1 2 3).
Proof. cbn. lra. Qed.
(** A flat box (a triangle parallel to a coordinate plane has one) gives NaN. *)
Theorem C72_distance_refuted : exists lo hi p, vx lo <= vx hi /\ vy lo < vy hi /\ vz lo < vz hi /\
  forall id, center_distance (fbox lo hi id) (fv p) = Nan.
Proof.
  exists (V 0 0 0), (V 0 1 1), (V 1 0 0). cbn [vx vy vz]. repeat split; try lra.
  intros id. apply flat_center_distance; cbn; lra.
Qed.
Print Assumptions C72_distance_refuted.
Theorem C72_flat_box_nan : forall lo hi id p, vx lo = vx hi -> vx p <> vx lo ->
  center_distance (fbox lo hi id) (fv p) = Nan.
Proof. exact flat_center_distance. Qed.
Print Assumptions C72_flat_box_nan.
