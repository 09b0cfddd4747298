(** * C117: objects changed in place. *)
From Coq Require Import ZArith Bool Reals Lra Lia List.
From Verif Require Import Base Num Vec Aabb Tree Geom Acme Ground Mesh ER SpecGeom SpecEntity ProofGeom ProofInt ProofTri
  ProofGround Edit SpecEdit ProofEdit F64 SampleMesh.
Import ListNotations.
Local Open Scope R_scope.

(** Reading and assigning a vertex of a triangle by its index. *)
Theorem C117_vertex : forall K (t : triangle K) i p,
  ((0 <= i < 3)%Z -> exists q, nth_error [tv0 t; tv1 t; tv2 t] (Z.to_nat i) = Some q /\ tri_vertex t i = Ret q /\
     exists t', tri_put i p t = Ret t' /\ tri_vertex t' i = Ret p /\
       forall j, j <> i -> tri_vertex t' j = tri_vertex t j) /\
  ((3 <= i)%Z -> tri_vertex t i = Throw RuntimeError /\ tri_put i p t = Throw RuntimeError).
Proof. intros K t i p. split; apply (tri_index t i p). Qed.
Print Assumptions C117_vertex.

(** The two ends of a segment. *)
Theorem C117_segment : forall K (s : segment K) i p, (0 <= i < 2)%Z ->
  exists q, nth_error [sv0 s; sv1 s] (Z.to_nat i) = Some q /\ seg_vertex s i = Ret q /\
    exists s', seg_put i p s = Ret s' /\ seg_vertex s' i = Ret p /\ forall j, j <> i -> seg_vertex s' j = seg_vertex s j.
Proof. exact @seg_index. Qed.
Print Assumptions C117_segment.

(** The edges go round the triangle. *)
Theorem C117_edge : forall K (t : triangle K) i,
  ((0 <= i < 3)%Z -> exists a b, tri_edge t i = Ret (Segment a b) /\
     tri_vertex t i = Ret a /\ tri_vertex t ((i + 1) mod 3) = Ret b) /\
  ((3 <= i)%Z -> tri_edge t i = Throw RuntimeError).
Proof. intros K t i. split; apply (tri_edges t i). Qed.
Print Assumptions C117_edge.

(** A ground triangle reads its vertices as the triangle does. *)
Theorem C117_ground_vertex : forall K (t : tground K) i, (0 <= i < 2 ^ 31)%Z ->
  tg_vertex t i = tri_vertex (tg_tri t) i.
Proof. intros K t i. apply ground_index. Qed.
Print Assumptions C117_ground_vertex.

(** Not every wrong index is reported: a negative index of a triangle, any
    wrong index of a segment and an index of a ground triangle from [2^31] on
    up to [2^32] are undefined; a larger one wraps; a negative edge is the last
    one. *)
Theorem C117_vertex_refuted : forall K (t : triangle K) (s : segment K) (g : tground K) p i,
  ((i < 0)%Z -> tri_vertex t i = UB /\ tri_put i p t = UB /\ tri_edge t i = tri_edge t 2) /\
  ((i < 0)%Z \/ (2 <= i)%Z -> seg_vertex s i = UB /\ seg_put i p s = UB) /\
  ((2 ^ 31 <= i < 2 ^ 32)%Z -> tg_vertex g i = UB) /\
  tg_vertex g (i + 2 ^ 32) = tg_vertex g i.
Proof. exact @wrong_index. Qed.
Print Assumptions C117_vertex_refuted.

(** Exchanging two vertices. *)
Theorem C117_swap : forall K (NK : Num K) (t : triangle K) i j, (0 <= i < 3)%Z -> (0 <= j < 3)%Z ->
  exists t', tri_edit (EdSwap i j) t = Ret t' /\
    tri_vertex t' i = tri_vertex t j /\ tri_vertex t' j = tri_vertex t i /\
    forall k, k <> i -> k <> j -> tri_vertex t' k = tri_vertex t k.
Proof. exact @swapped. Qed.
Print Assumptions C117_swap.

(** Moving a ground triangle, renaming or replacing its vertices never touches
    its identifier, friction, normal and box. *)
Theorem C117_kept : forall K (NK : Num K) (l : list (edit K)) t t', tg_edits l t = Ret t' ->
  tg_id t' = tg_id t /\ tg_friction t' = tg_friction t /\ tg_normal t' = tg_normal t /\ tg_bbox t' = tg_bbox t.
Proof. exact @edits_keep. Qed.
Print Assumptions C117_kept.

(** The triangle itself goes where the movements take it. *)
Theorem C117_points : forall l g g' t, tg_tri g = ftri t -> tg_edits (map real_edit l) g = Ret g' ->
  exists t', tg_tri g' = ftri t' /\
    forall q', in_triangle t' q' <-> exists q, in_triangle t q /\ q' = carried l q.
Proof. exact moved_points. Qed.
Print Assumptions C117_points.

(** Movements fail on a wrong index to exchange only. *)
Theorem C117_defined : forall K (NK : Num K) (l : list (edit K)) t,
  (forall i j, In (EdSwap i j) l -> (0 <= i < 3)%Z /\ (0 <= j < 3)%Z) ->
  (forall i p, In (EdVertex i p) l -> (0 <= i < 3)%Z) ->
  exists t', tg_edits l t = Ret t'.
Proof. exact @edits_defined. Qed.
Print Assumptions C117_defined.

(** With exact arithmetic, a triangle that is not vertical keeps a right normal
    under shifts and renamings, but its box is right only when the shifts cancel
    out. *)
Theorem C117_shifted : forall l g g' t, tg_tri g = ftri t -> up_to_date g -> vz (tri_cross t) <> 0 ->
  tg_edits (map real_edit l) g = Ret g' -> Forall (fun m => ~ turns m) l ->
  exists h, mk_tground (tg_id g') (tg_friction g') (tv0 (tg_tri g')) (tv1 (tg_tri g')) (tv2 (tg_tri g')) = Ret h /\
    tg_normal g' = tg_normal h /\ (tg_bbox g' = tg_bbox h <-> total l = V 0 0 0).
Proof. exact shifted_normal. Qed.
Print Assumptions C117_shifted.

Theorem C117_shifted_back : forall l g g' t, tg_tri g = ftri t -> up_to_date g -> vz (tri_cross t) <> 0 ->
  tg_edits (map real_edit l) g = Ret g' -> Forall (fun m => ~ turns m) l ->
  (up_to_date g' <-> total l = V 0 0 0).
Proof. exact shifted_date. Qed.
Print Assumptions C117_shifted_back.

(** The floor triangle, turned upright about the x axis. *)
Definition upright : affine R := Aff (M3 1 0 0 0 0 (-1) 0 1 0) (V 0 0 0).

(** A turned triangle keeps the normal it had, along one of its edges here. *)
Theorem C117_turned_refuted : exists g g',
  mk_tground 7 (Fin 1) (fv (tv0 flat_tri)) (fv (tv1 flat_tri)) (fv (tv2 flat_tri)) = Ret g /\
  rigid upright /\ tg_edit (real_edit (Place upright)) g = Ret g' /\
  tg_tri g' = ftri (Triangle (V 0 0 0) (V 1 0 0) (V 0 0 1)) /\ tg_normal g' = fv (V 0 0 1).
Proof. exact turned. Qed.
Print Assumptions C117_turned_refuted.

(** A mesh of edited triangles finds the triangles where they were before. *)
Theorem C117_query : forall K (NK : Num K) (ts ts' : list (tground K)) m,
  Forall2 edited ts ts' -> mesh_of_triangles ts = Ret m ->
  exists m', mesh_of_triangles ts' = Ret m' /\ me_tris m' = ts' /\ forall q,
    match mesh_intersection m q, mesh_intersection m' q with
    | Ret r, Ret r' => Forall2 edited r r'
    | Throw e, Throw e' => e = e'
    | UB, UB => True
    | _, _ => False
    end.
Proof. exact @mesh_of_edited. Qed.
Print Assumptions C117_query.

(** So a mesh made of a moved triangle does not see it where it is, and returns
    it where it was. *)
Theorem C117_query_refuted : exists g g' m,
  mk_tground 0 (fz 1) p00 p10 p01 = Ret g /\
  tg_edit (EdTranslate (V (fz 10) (fz 0) (fz 0))) g = Ret g' /\
  tg_tri g' = Triangle (V (fz 10) (fz 0) (fz 0)) (V (fz 11) (fz 0) (fz 0)) (V (fz 10) (fz 1) (fz 0)) /\
  mesh_of_triangles [g'] = Ret m /\
  mesh_intersection m (Box (V (fz 9) (fz (-1)) (fz (-1))) (V (fz 12) (fz 2) (fz 1)) 0) = Ret [] /\
  mesh_intersection m (Box (V (fz (-1)) (fz (-1)) (fz (-1))) (V (fz 2) (fz 2) (fz 1)) 0) = Ret [g'].
Proof.
  do 3 eexists. split; [vm_compute; reflexivity|]. split; [vm_compute; reflexivity|]. split; [vm_compute; reflexivity|].
  split; [vm_compute; reflexivity|]. split; vm_compute; reflexivity.
Qed.
Print Assumptions C117_query_refuted.

(** A cleared box keeps its identifier, meets no box, contains no point and is
    not valid; each coordinate of its corners is NaN. *)
Theorem C117_clear : forall (b c : aabb er) p,
  intersects (aabb_clear b) c = false /\ intersects c (aabb_clear b) = false /\
  aabb_is_inside (aabb_clear b) p = false /\ check_max_min (aabb_clear b) = false /\ bid (aabb_clear b) = bid b /\
  bmin (aabb_clear b) = V Nan Nan Nan /\ bmax (aabb_clear b) = V Nan Nan Nan.
Proof. exact cleared. Qed.
Print Assumptions C117_clear.

Example C117_example : exists g g',
  mk_tground 7 (Fin 1) (fv (tv0 flat_tri)) (fv (tv1 flat_tri)) (fv (tv2 flat_tri)) = Ret g /\
  tg_tri g = ftri flat_tri /\ up_to_date g /\ vz (tri_cross flat_tri) <> 0 /\
  tg_edits (map real_edit [Shift (V 1 2 3); Rename 0 2; Shift (V (-1) (-2) (-3))]) g = Ret g' /\
  total [Shift (V 1 2 3); Rename 0 2; Shift (V (-1) (-2) (-3))] = V 0 0 0 /\
  total [Shift (V 1 2 3)] <> V 0 0 0.
Proof. exact edit_example. Qed.
