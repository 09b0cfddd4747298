(** * The exact cut of a triangle by a rib, and setups that return. *)
From Coq Require Import ZArith Bool Reals Lra Lia String List.
From Verif Require Import Base Num Vec Aabb Tree Geom Ground Shape Rib Str Mesh Shell ER.
From Verif Require Import SpecGeom SpecRib SpecShape SpecShell SpecPose SpecTree SpecLoad SpecMesh SpecCut.
From Verif Require Import ProofGeom ProofInt ProofTri ProofShape ProofPose SamplePose ProofCut ProofSetupOk.
From Verif Require PropertiesGeom F64 SampleShell.
Import ListNotations.
Local Open Scope R_scope.

(** ** C54, away from the tolerances: the cut is the set of common points. *)
Theorem C54_plane_cut_exact : forall t p tol, 0 < tol -> is_unit (pnormal p) ->
  clear tol p t -> transversal tol p t -> steep tol p t ->
  (exists s, int_plane_triangle (fplane p) (ftri t) (Fin tol) = Ret (Some (fseg s)) /\
     forall q, in_segment s q <-> in_triangle t q /\ on_plane p q) \/
  (int_plane_triangle (fplane p) (ftri t) (Fin tol) = Ret None /\ forall q, in_triangle t q -> ~ on_plane p q).
Proof. exact plane_triangle_exact. Qed.
Print Assumptions C54_plane_cut_exact.

Theorem C54_disk_cut_exact : forall t d tol, 0 < tol <= 1 -> tol <= dradius d -> is_unit (pnormal (dplane d)) ->
  clear tol (dplane d) t -> transversal tol (dplane d) t -> steep tol (dplane d) t ->
  (forall s, (forall q, in_segment s q <-> in_triangle t q /\ on_plane (dplane d) q) ->
     tol <= dist (sv0 s) (sv1 s) /\ (chord2 (seg_line s) d < - tol \/ tol <= chord2 (seg_line s) d)) ->
  (exists s, int_triangle_disk (ftri t) (fdisk d) (Fin tol) = Ret (Some (fseg s)) /\
     forall q, in_segment s q <-> in_triangle t q /\ in_disk d q) \/
  (int_triangle_disk (ftri t) (fdisk d) (Fin tol) = Ret None /\ forall q, in_triangle t q -> ~ in_disk d q).
Proof. exact triangle_disk_exact. Qed.
Print Assumptions C54_disk_cut_exact.

(** The triangle [low_tri] and the unit disk. *)
Import PropertiesGeom.
Lemma low_tri_height : forall v, vertex_of low_tri v -> height (dplane unit_disk) v = -2 \/ height (dplane unit_disk) v = 2.
Proof.
  intros v [-> | [-> | ->]]; unfold height, low_tri, unit_disk; cbn [tv0 tv1 tv2 dplane porigin pnormal]; vunf; [left|right|right]; ring.
Qed.
Lemma low_tri_dist : forall a b, vertex_of low_tri a -> vertex_of low_tri b -> dist a b <= 6.
Proof.
  intros a b A B. unfold dist, pnorm. rewrite <- (sqrt_square 6) by lra. apply sqrt_le_1_alt.
  destruct A as [-> | [-> | ->]], B as [-> | [-> | ->]]; unfold low_tri; cbn [tv0 tv1 tv2]; vunf; lra.
Qed.
Lemma low_tri_fit : clear eps (dplane unit_disk) low_tri /\ transversal eps (dplane unit_disk) low_tri /\
  steep eps (dplane unit_disk) low_tri.
Proof.
  assert (E4 : eps * 4 < 2) by (unfold eps; lra). assert (E6 : eps * 6 <= 4) by (unfold eps; lra). pose proof eps_pos as E0.
  split; [|split].
  - intros a b A B. destruct (low_tri_height a A) as [-> | ->], (low_tri_height b B) as [-> | ->].
    + replace (-2 - -2) with 0 by ring. rewrite Rabs_R0, Rabs_left; lra.
    + replace (-2 - 2) with (-4) by ring. rewrite !Rabs_left; lra.
    + replace (2 - -2) with 4 by ring. rewrite !Rabs_pos_eq; lra.
    + replace (2 - 2) with 0 by ring. rewrite Rabs_R0, Rabs_pos_eq; lra.
  - unfold transversal, low_tri, unit_disk. cbn [tv0 tv1 tv2 dplane pnormal]. unfold eps. vunf. lra.
  - intros a b A B H. pose proof (low_tri_dist a b A B). destruct (low_tri_height a A) as [Ea|Ea], (low_tri_height b B) as [Eb|Eb]; rewrite Ea, Eb in *; try lra. nra.
Qed.
Example C54_exact_example : 0 < eps <= 1 /\ eps <= dradius unit_disk /\ is_unit (pnormal (dplane unit_disk)) /\
  clear eps (dplane unit_disk) low_tri /\ transversal eps (dplane unit_disk) low_tri /\ steep eps (dplane unit_disk) low_tri /\
  (forall s, (forall q, in_segment s q <-> in_triangle low_tri q /\ on_plane (dplane unit_disk) q) ->
     eps <= dist (sv0 s) (sv1 s) /\ (chord2 (seg_line s) unit_disk < - eps \/ eps <= chord2 (seg_line s) unit_disk)) /\
  exists q, in_triangle low_tri q /\ in_disk unit_disk q.
Proof.
  pose proof eps_lt1 as E1. pose proof eps_pos as E0. destruct low_tri_fit as (CL & TR & ST).
  split; [lra|]. split; [cbn; lra|]. split; [unfold is_unit, unit_disk; cbn [dplane pnormal]; vunf; ring|].
  split; [auto|]. split; [auto|]. split; [auto|]. split.
  - intros s H.
    assert (IN : forall q, in_segment s q -> vy q = 0 /\ vz q = - / 2).
    { intros q Hq. apply H in Hq. destruct Hq as [(x & y & z & _ & _ & _ & S & ->) P].
      unfold on_plane, unit_disk in P. cbn [dplane porigin pnormal] in P. unfold low_tri in *. vunf. split; [lra|]. replace x with (1 - y - z) by lra. lra. }
    assert (I0 : in_segment s (sv0 s)) by (exists 0; split; [lra|apply vec_eq; vunf; ring]).
    assert (I1 : in_segment s (sv1 s)) by (exists 1; split; [lra|apply vec_eq; vunf; ring]).
    apply IN in I0, I1.
    assert (L : in_segment s (V (-3 / 2) 0 (- / 2))).
    { apply H. split; [|unfold on_plane, unit_disk; cbn [dplane porigin pnormal]; vunf; ring]. exists (1 / 2), 0, (1 / 2).
      repeat split; try lra. unfold low_tri. apply vec_eq; vunf; field. }
    assert (R : in_segment s (V (3 / 2) 0 (- / 2))).
    { apply H. split; [|unfold on_plane, unit_disk; cbn [dplane porigin pnormal]; vunf; ring]. exists (1 / 2), (1 / 2), 0.
      repeat split; try lra. unfold low_tri. apply vec_eq; vunf; field. }
    destruct L as (k & Hk & Ek). destruct R as (j & Hj & Ej). apply (f_equal vx) in Ek, Ej.
    destruct s as [[x0 y0 z0] [x1 y1 z1]]. cbn [sv0 sv1 vx vy vz] in *. destruct I0 as [-> ->]. destruct I1 as [-> ->]. vunf.
    assert (W : 9 <= (x1 - x0) * (x1 - x0)).
    { assert (E3 : (j - k) * (x1 - x0) = 3) by lra. assert ((j - k) * (j - k) <= 1) by nra.
      assert (E9 : (j - k) * (j - k) * ((x1 - x0) * (x1 - x0)) = 9) by (transitivity (((j - k) * (x1 - x0)) * ((j - k) * (x1 - x0))); [ring|rewrite E3; ring]).
      set (A := (j - k) * (j - k)) in *. set (B := (x1 - x0) * (x1 - x0)) in *. assert (PB : 0 <= B) by (exact (Rle_0_sqr (x1 - x0))). clearbody A B. assert (0 <= (1 - A) * B) by (apply Rmult_le_pos; lra). lra. }
    split.
    + unfold dist, pnorm. apply Rle_trans with (sqrt (1 * 1)); [rewrite sqrt_square; lra|]. apply sqrt_le_1_alt. vunf. nra.
    + right. unfold chord2, seg_line. cbn [unit_disk dplane porigin dradius sv0 sv1 ldir].
      rewrite (dist_eq _ _ (/ 2)).
      * vunf. unfold eps. nra.
      * lra.
      * unfold foot. vunf. field. nra.
  - exists (V 0 0 (- / 2)). split; [|split].
    + exists (1 / 2), (1 / 4), (1 / 4). repeat split; try lra. unfold low_tri. apply vec_eq; vunf; field.
    + unfold on_plane, unit_disk. cbn [dplane porigin pnormal]. vunf. ring.
    + cbn [unit_disk dplane porigin dradius]. rewrite (dist_eq _ _ (/ 2)); [lra|lra|vunf; field].
Qed.

(** ** C69: setups of valid input return. *)
Theorem C69_flat_returns : forall {K : Type} {NK : Num K} gb (s : shell K) g pose meth, reach s -> (sh_size s <= 200)%nat ->
  valid_method meth -> exists s' b, setup_flat gb s g pose meth = Ok s' b.
Proof. intros K NK. exact setup_flat_ok. Qed.
Print Assumptions C69_flat_returns.

Theorem C69_sampling_returns : forall {K : Type} {NK : Num K} stod fs (m0 m1 m2 m : mesh K) gb (s : shell K) pose,
  many_loads stod fs m0 m1 -> load_succeeds stod fs m1 m2 -> many_loads stod fs m2 m -> (Z.of_nat (mesh_size m2) <= 2 ^ 31)%Z ->
  reach s -> (sh_size s <= 200)%nat -> exists s' b, setup_mesh gb s m pose "sampling" = Ok s' b.
Proof. intros K NK. exact setup_sampling_ok. Qed.
Print Assumptions C69_sampling_returns.

(** The geometric method returns when no vertex is near a rib plane. *)
Theorem C69_geometric_returns : forall stod fs (m0 m1 m2 m : mesh er) gb sp s a,
  many_loads stod fs m0 m1 -> load_succeeds stod fs m1 m2 -> many_loads stod fs m2 m -> (Z.of_nat (mesh_size m2) <= 2 ^ 31)%Z ->
  real_shell sp s -> (sh_size s <= 200)%nat -> rigid a ->
  (forall j r g, has_rib s j r -> In g (me_tris m) -> exists t, real_triangle g t /\ clear eps (dplane (posed_disk r a)) t) ->
  exists s' b, setup_mesh gb s m (fa a) "geometric" = Ok s' b.
Proof. exact setup_geometric_ok. Qed.
Print Assumptions C69_geometric_returns.

(** The wall mesh and a wheel rolling along y, its rib in the plane x = 1/2. *)
Definition across : affine R := Aff (M3 0 1 0 (-1) 0 0 0 0 1) (V (1 / 2) 0 0).
Lemma across_rigid : rigid across.
Proof. unfold rigid, rotation, across, is_unit, pcol0, pcol1, pcol2. cbn [lin m00 m01 m02 m10 m11 m12 m20 m21 m22]. vunf. repeat split; try ring. apply vec_eq; vunf; ring. Qed.
Example C69_example : exists m s, many_loads eread wall_files mesh_empty mesh_empty /\ load_succeeds eread wall_files mesh_empty m /\
  many_loads eread wall_files m m /\ mesh_size m = 4%nat /\
  real_shell round_tire s /\ sh_size s = 1%nat /\ rigid across /\
  (forall j r g, has_rib s j r -> In g (me_tris m) -> exists t, real_triangle g t /\ clear eps (dplane (posed_disk r across)) t) /\
  exists g t q, In g (me_tris m) /\ real_triangle g t /\ in_triangle t q /\ in_disk (posed_disk mid_rib across) q.
Proof.
  destruct wall_mesh as (m & LD & SZ & TR). destruct one_slice as (s & RS & S1 & RB).
  exists m, s. split; [apply ml_done|]. split; [exact LD|]. split; [apply ml_done|]. split; [exact SZ|]. split; [exact RS|].
  split; [exact S1|]. split; [apply across_rigid|]. split.
  - intros j r g HR Hg. unfold has_rib, rib_at in HR. rewrite RB, mid_slices in HR. cbn [map] in HR.
    assert (r = mid_rib) as -> by (destruct j as [|j]; [apply frib_inj; cbn in HR; congruence|destruct j; discriminate]).
    destruct (wall_all m g SZ TR Hg) as (t & IT & RT). exists t. split; [exact RT|].
    assert (HH : forall v, vertex_of t v -> height (dplane (posed_disk mid_rib across)) v = - / 2 \/ height (dplane (posed_disk mid_rib across)) v = / 2).
    { intros v Hv. unfold height, posed_disk. cbn [dplane porigin pnormal]. rewrite mid_center. change (rb_normal mid_rib) with (V 0 1 0 : pt).
      unfold place, across. cbn [lin tra]. vunf. cbn [m00 m01 m02 m10 m11 m12 m20 m21 m22].
      destruct IT as [<-|[<-|[<-|[<-|[]]]]]; destruct Hv as [-> | [-> | ->]]; cbn [tv0 tv1 tv2 vx vy vz]; (left; lra) || (right; lra). }
    assert (EE : eps * 1 < / 2) by (unfold eps; lra). pose proof eps_pos.
    intros x y X Y. destruct (HH x X) as [-> | ->], (HH y Y) as [-> | ->].
    + replace (- / 2 - - / 2) with 0 by ring. rewrite Rabs_R0, Rabs_left; lra.
    + replace (- / 2 - / 2) with (-1) by field. rewrite !Rabs_left; lra.
    + replace (/ 2 - - / 2) with 1 by field. rewrite !Rabs_pos_eq; lra.
    + replace (/ 2 - / 2) with 0 by ring. rewrite Rabs_R0, Rabs_pos_eq; lra.
  - destruct (TR 0%nat _ eq_refl) as (g & N & T). exists g. eexists. exists (V (1 / 2) 0 0).
    split; [eapply nth_error_In; exact N|]. split; [exact T|]. split.
    + exists (1 / 2), (1 / 2), 0. repeat split; try lra. apply vec_eq; vunf; field.
    + unfold in_disk, on_plane, posed_disk. cbn [dplane porigin pnormal dradius]. rewrite mid_center, mid_radius.
      change (rb_normal mid_rib) with (V 0 1 0 : pt). unfold place, across. cbn [lin tra]. vunf. cbn [m00 m01 m02 m10 m11 m12 m20 m21 m22 vx vy vz].
      split; [ring|]. rewrite (dist_eq _ _ 0); [lra|lra|vunf; ring].
Qed.

(** A valid mesh and a valid pose for which the geometric setup throws
    (binary64): the rib plane runs through a vertex, within rounding, and the
    line of the cut meets the three edges. *)
Section C69Witness.
  Import F64 SampleShell.
  Definition spike_tris : list (tground f64) :=
    let a := V (fz 0) (fz 0) (fz 0) in let b := V (fz 1) (fz 1) (fz 0) in let c := V (fz 1) (fz (-1)) (fz 0) in
    [got (TGround (Triangle a b c) 0 (fz 0) a nan_aabb) (mk_tground 0 (f_of 1 (-1)) a b c)].
  Definition spike : mesh f64 := got mesh_empty (mesh_of_triangles spike_tris).
  Theorem C69_geometric_refuted : reach wheel1 /\ mesh_of_triangles spike_tris = Ret spike /\ mesh_size spike = 1%nat /\
    (exists s, setup_mesh gb0 wheel1 spike (at_pose (fz 0) (f_of 1 (-1)) (fz 0)) "geometric" = Ok s true) /\
    exists s, setup_mesh gb0 wheel1 spike (at_pose (fz 0) (f_of 1 (-27)) (fz 0)) "geometric" = Exn s RuntimeError.
  Proof.
    split; [exact (r_new _ _ _ _ _ _ _ wheel1_ok)|]. split; [vm_compute; reflexivity|]. split; [vm_compute; reflexivity|]. split.
    - exists (after no_shell (setup_mesh gb0 wheel1 spike (at_pose (fz 0) (f_of 1 (-1)) (fz 0)) "geometric")). vm_compute. reflexivity.
    - exists (after no_shell (setup_mesh gb0 wheel1 spike (at_pose (fz 0) (f_of 1 (-27)) (fz 0)) "geometric")). vm_compute. reflexivity.
  Qed.
End C69Witness.
Print Assumptions C69_geometric_refuted.
