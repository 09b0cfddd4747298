(** * Intersections with a point, with a plane that contains the other
      entity, and of a disk with a line, ray or segment of its plane. *)
From Coq Require Import ZArith Bool Reals Lra Lia List.
From Verif Require Import Base Num Vec Aabb Tree Geom Acme AcmeEntity ER SpecGeom SpecAcme SpecEntity SpecApprox SpecCoplanar.
From Verif Require Import ProofGeom ProofInt ProofAcme ProofCross ProofEntity ProofPred ProofApprox.
Import ListNotations.
Local Open Scope R_scope.

(** ** A point. *)
Lemma point_asks : forall e q tol, takes_points e -> exists b, says_inside e q tol = Some b /\
  ent_intersection (fent (EPoint q)) (fent e) (Fin tol) = Ret (fent (if b then EPoint q else ENone)) /\
  ent_intersection (fent e) (fent (EPoint q)) (Fin tol) = Ret (fent (if b then EPoint q else ENone)).
Proof.
  intros e q tol P. destruct e; cbn [takes_points] in P; try contradiction; cbn [says_inside];
    (eexists; split; [reflexivity|]); unfold ent_intersection; cbn [fent is_point orb ent_int_point];
    unfold found, int_point_line, int_point_ray, int_point_plane, int_point_seg, int_point_tri, int_point_disk, int_point;
    match goal with |- context [if ?b then _ else _] => destruct b end; auto.
Qed.
Lemma point_answer : forall e q tol, 0 < tol -> normal_form e -> takes_points e -> exists c,
  ent_intersection (fent (EPoint q)) (fent e) (Fin tol) = Ret (fent c) /\
  ent_intersection (fent e) (fent (EPoint q)) (Fin tol) = Ret (fent c) /\
  (counts_inside tol e q /\ c = EPoint q \/ ~ counts_inside tol e q /\ c = ENone).
Proof.
  intros e q tol T N P. destruct (point_asks e q tol P) as (b & S & E1 & E2).
  pose proof (inside_exact e q tol T N) as I. rewrite S in I.
  eexists. split; [exact E1|]. split; [exact E2|]. destruct b.
  - left. split; [now apply I|reflexivity].
  - right. split; [|reflexivity]. intros H. apply I in H. discriminate.
Qed.
Lemma point_found : forall e q tol, 0 < tol -> normal_form e -> takes_points e -> in_entity e q ->
  ent_intersection (fent (EPoint q)) (fent e) (Fin tol) = Ret (fent (EPoint q)) /\
  ent_intersection (fent e) (fent (EPoint q)) (Fin tol) = Ret (fent (EPoint q)).
Proof.
  intros e q tol T N P Q. destruct (point_asks e q tol P) as (b & S & E1 & E2).
  rewrite (inside_complete e q tol T N) in S; [injection S as <-; auto|destruct e; try exact I; contradiction|exact Q].
Qed.
Lemma point_point : forall p q tol, 0 <= tol -> exists c,
  ent_intersection (fent (EPoint p)) (fent (EPoint q)) (Fin tol) = Ret (fent c) /\
  (agree tol p q /\ c = EPoint p \/ ~ agree tol p q /\ c = ENone).
Proof.
  intros p q tol T. unfold ent_intersection. cbn [fent is_point orb ent_int_point]. unfold found, int_point_point, int_point.
  pose proof (f_vis p q tol T) as A. destruct (vis_approx _ _ _).
  - exists (EPoint p). split; [reflexivity|]. left. split; [now apply A|reflexivity].
  - exists ENone. split; [reflexivity|]. right. split; [|reflexivity]. intros H. apply A in H. discriminate.
Qed.

(** ** A plane that contains the other entity. *)
Lemma plane_keeps : forall p e tol, 0 < tol -> pnormal p <> V 0 0 0 -> straight_line e \/ flat e -> inside_plane p e ->
  match e with ELine _ | ERay _ | ESegment _ | EDisk _ => True | _ => False end ->
  ent_intersection (fent (EPlane p)) (fent e) (Fin tol) = Ret (fent e) /\
  ent_intersection (fent e) (fent (EPlane p)) (Fin tol) = Ret (fent e).
Proof.
  intros p e tol T N S A K.
  assert (F : straight_line (EPlane p) \/ flat (EPlane p)) by (right; exact N).
  assert (AP : inside_plane p (EPlane p)) by (intros q Q; exact Q).
  assert (C : forall t, 0 < t -> ent_coplanar (fent (EPlane p)) (fent e) (Fin t) = true) by (intros t H; apply (coplanar_complete p); auto).
  assert (C' : forall t, 0 < t -> ent_coplanar (fent e) (fent (EPlane p)) (Fin t) = true) by (intros t H; apply (coplanar_complete p); auto).
  pose proof (C eps eps_pos) as C1. pose proof (C' eps eps_pos) as C2. pose proof (C tol T) as C3.
  destruct e; try contradiction; unfold ent_intersection; cbn [fent is_point orb ent_collinear] in *; change neps with (Fin eps); rewrite C1, C2;
    cbn [ent_coplanar] in C3; cbn [ent_int_coplanar]; unfold found, int_line_plane_line, int_ray_plane_ray, int_plane_seg_seg, int_plane_disk_disk;
    rewrite C3; auto.
Qed.
Lemma plane_keeps_triangle : forall p t tol, 0 < tol -> pnormal p <> V 0 0 0 -> inside_plane p (ETriangle t) ->
  ent_intersection (fent (EPlane p)) (fent (ETriangle t)) (Fin tol) = Ret (fent (ETriangle t)).
Proof.
  intros p e tol T N A.
  assert (C : forall t, 0 < t -> ent_coplanar (fent (EPlane p)) (fent (ETriangle e)) (Fin t) = true)
    by (intros t H; apply (coplanar_complete p); [exact H|exact N|right; exact N|right; exact I|intros q Q; exact Q|exact A]).
  pose proof (C eps eps_pos) as C1. pose proof (C tol T) as C3.
  unfold ent_intersection; cbn [fent is_point orb ent_collinear] in *; change neps with (Fin eps); rewrite C1.
  cbn [ent_coplanar] in C3; cbn [ent_int_coplanar]; unfold found, int_plane_tri_tri. now rewrite C3.
Qed.
Lemma plane_keeps_plane : forall p p' tol, 0 < tol -> pnormal p <> V 0 0 0 -> pnormal p' <> V 0 0 0 -> inside_plane p (EPlane p') ->
  ent_intersection (fent (EPlane p)) (fent (EPlane p')) (Fin tol) = Ret (fent (EPlane p)).
Proof.
  intros p e tol T N N' A.
  assert (C : forall t, 0 < t -> ent_coplanar (fent (EPlane p)) (fent (EPlane e)) (Fin t) = true)
    by (intros t H; apply (coplanar_complete p); [exact H|exact N|right; exact N|right; exact N'|intros q Q; exact Q|exact A]).
  pose proof (C eps eps_pos) as C1. pose proof (C tol T) as C3.
  unfold ent_intersection; cbn [fent is_point orb ent_collinear] in *; change neps with (Fin eps); rewrite C1.
  cbn [ent_coplanar] in C3; cbn [ent_int_coplanar]; unfold found, int_plane_plane_plane. now rewrite C3.
Qed.

(** ** A ray and a disk of one plane. *)
Section RayDisk.
  Variables (r : ray R) (d : disk R) (tol : R).
  Hypothesis Ht : 0 < tol.
  Hypothesis Hr : 0 <= dradius d.
  Let l := ray_line r.
  Hypothesis Ha : 0 < pdot (ldir l) (ldir l).
  Let c := porigin (dplane d).
  Let a2 := pdot (ldir l) (ldir l).
  Let a1 := pdot (psub (lorigin l) c) (ldir l).
  Let root := sqrt (chord2 l d).
  Let P (t : R) : pt := padd (lorigin l) (pscale t (ldir l)).
  Let t0 := - (a1 + root) * / a2.
  Let t1 := - (a1 - root) * / a2.
  Let T := - a1 * / a2.
  Lemma ray_disk_eval : int_ray_disk_seg (fray r) (fdisk d) (Fin tol) =
    if rltb (chord2 l d) (- tol) then None
    else if rltb (Rabs (chord2 l d)) tol then
      if rltb T 0 then None else Some (fseg (Segment (P T) (P T)))
    else if rltb (chord2 l d) 0 then Some (fseg (Segment (P 0) (P 0)))
    else if rltb t0 0 && rltb t1 0 then None
    else Some (fseg (Segment (P (Rmax 0 t0)) (P (Rmax 0 t1)))).
  Proof.
    unfold int_ray_disk_seg, fray, fdisk, fplane, dcenter.
    cbn [ry_origin ry_dir dradius dplane porigin]. push.
    pose proof (chord2_eq l d Ha) as E. cbv zeta in E. fold c in E |- *.
    change (ry_dir r) with (ldir l). change (ry_origin r) with (lorigin l).
    fold a2 a1 in E |- *. rewrite E.
    destruct (rltb (chord2 l d) (- tol)) eqn:E1; auto. rb. fold a2 in Ha.
    rewrite e_ndiv by lra. push. replace (1 / a2) with (/ a2) by (field; lra).
    destruct (rltb (Rabs (chord2 l d)) tol) eqn:E2; rb.
    - fold T. destruct (rltb T 0); reflexivity.
    - destruct (rltb (chord2 l d) 0) eqn:E3.
      { cbn [nsqrt ER_Num]. unfold esqrt. rewrite E3. unfold nmax. cbn [nlt nle nadd nsub nopp nmul ER_Num eadd esub eopp emul eltb andb orb].
        push. unfold P. reflexivity. }
      rb. rewrite e_nsqrt by auto. push. fold root. fold t0 t1.
      destruct (rltb t0 0 && rltb t1 0); auto.
  Qed.
  Lemma ray_point : forall t, 0 <= t -> on_ray r (P t).
  Proof. intros t H. exists t. split; auto. Qed.
  Lemma ray_disk_clip : line_in_plane l (dplane d) -> chord2 l d < - tol \/ tol <= chord2 l d ->
    match int_ray_disk_seg (fray r) (fdisk d) (Fin tol) with
    | Some s => exists s', s = fseg s' /\ forall q, in_segment s' q <-> on_ray r q /\ in_disk d q
    | None => forall q, on_ray r q -> ~ in_disk d q
    end.
  Proof.
    intros HP HC. rewrite ray_disk_eval.
    assert (L0 : forall t, on_line l (P t)) by (intros t; exists t; reflexivity).
    pose proof (chord2_eq l d Ha) as CE. cbv zeta in CE.
    destruct (rltb (chord2 l d) (- tol)) eqn:E1; rb.
    { intros q (t & Hk & ->) [_ HD].
      apply (in_iff l (porigin (dplane d)) (dradius d) Ha Hr t) in HD. rewrite CE in HD.
      match type of HD with ?x * ?x <= _ => pose proof (Rle_0_sqr x) as PP; unfold Rsqr in PP end. lra. }
    assert (HC0 : 0 <= chord2 l d) by lra.
    replace (rltb (Rabs (chord2 l d)) tol) with false by (symmetry; apply rltb_false; rewrite Rabs_pos_eq; lra).
    replace (rltb (chord2 l d) 0) with false by (symmetry; now apply rltb_false).
    pose proof (in_iff_root l (porigin (dplane d)) (dradius d) Ha Hr) as II.
    rewrite CE in II. specialize (II HC0). fold root in II. fold c in II. fold a1 in II. fold a2 in II. fold t0 t1 in II.
    assert (TT : t0 <= t1) by (apply roots_le; [exact Ha|apply sqrt_pos]).
    destruct (rltb t0 0 && rltb t1 0) eqn:E2.
    - intros q (t & Hk & ->) [_ HD]. apply II in HD. apply andb_prop in E2. destruct E2 as [X Y]. apply rltb_true in X, Y. lra.
    - assert (X' : 0 <= t1) by (apply andb_false_iff in E2; destruct E2 as [X|X]; apply rltb_false in X; lra).
      eexists. split; [reflexivity|]. rewrite (Rmax_right 0 t1) by exact X'.
      assert (CM : Rmax 0 t0 <= t1) by (apply Rmax_lub; lra). pose proof (Rmax_l 0 t0). pose proof (Rmax_r 0 t0).
      intros q. split.
      + intros Hq. apply in_segment_line_inv in Hq; auto. destruct Hq as (t & HH & ->).
        split; [apply ray_point; lra|]. split; [apply (on_plane_line l _ HP); apply L0|]. apply II. lra.
      + intros [(t & Hk & ->) [_ HD]]. apply II in HD. apply (in_segment_line l); auto. split; [apply Rmax_lub|]; lra.
  Qed.
  Lemma foot_at : P T = foot l c.
  Proof. unfold P, foot, T. do 2 f_equal. fold a2. unfold a1. vunf. field. exact (Rgt_not_eq _ _ Ha). Qed.
  Lemma ray_disk_tangent : - tol < chord2 l d < tol ->
    match int_ray_disk_seg (fray r) (fdisk d) (Fin tol) with
    | Some s => s = fseg (Segment (foot l c) (foot l c)) /\ on_ray r (foot l c)
    | None => ~ on_ray r (foot l c)
    end.
  Proof.
    intros HC. rewrite ray_disk_eval.
    replace (rltb (chord2 l d) (- tol)) with false by (symmetry; apply rltb_false; lra).
    replace (rltb (Rabs (chord2 l d)) tol) with true by (symmetry; apply rltb_true; unfold Rabs; destruct (Rcase_abs _); lra).
    destruct (rltb T 0) eqn:E; rb; rewrite <- ?foot_at.
    - intros (t & H & E'). fold P in E'.
      assert (D : pdot (P T) (ldir l) = pdot (P t) (ldir l)) by (rewrite E'; reflexivity).
      unfold P in D. rewrite !pdot_add_l, !pdot_scale_l in D. fold a2 in D, Ha. nra.
    - split; [reflexivity|]. now apply ray_point.
  Qed.
  Lemma ray_disk_edge : chord2 l d = - tol -> int_ray_disk_seg (fray r) (fdisk d) (Fin tol) = Some (fseg (Segment (lorigin l) (lorigin l))).
  Proof.
    intros E. rewrite ray_disk_eval. rewrite E.
    replace (rltb (- tol) (- tol)) with false by (symmetry; apply rltb_false; lra).
    replace (rltb (Rabs (- tol)) tol) with false by (symmetry; apply rltb_false; rewrite Rabs_Ropp, Rabs_pos_eq; lra).
    replace (rltb (- tol) 0) with true by (symmetry; apply rltb_true; lra).
    replace (P 0) with (lorigin l) by (apply vec_eq; unfold P; vunf; ring). reflexivity.
  Qed.
End RayDisk.

(** ** A line, a ray or a segment in the plane of a disk. *)
Lemma carrier_in_plane : forall p e l, straight_line e -> inside_plane p e -> carrier e = Some l ->
  0 < pdot (ldir l) (ldir l) /\ line_in_plane l p.
Proof.
  intros p e l S A C.
  assert (D : forall v, v <> V 0 0 0 -> 0 < pdot v v).
  { intros v N. assert (Z : 0 <= pdot v v) by (vunf; nra). destruct Z as [Z|Z]; [exact Z|]. exfalso. apply N, pdot_zero. now symmetry. }
  assert (G : forall o u, in_entity e o -> in_entity e (padd o u) -> on_plane p o /\ pdot u (pnormal p) = 0).
  { intros o u H1 H2. apply A in H1. apply A in H2. split; [exact H1|now apply on_plane_dir with o]. }
  destruct e; cbn [straight_line carrier] in *; try contradiction; injection C as <-.
  - split; [now apply D|]. apply G; [exists 0|exists 1]; apply vec_eq; vunf; ring.
  - split; [now apply D|]. apply G; [exists 0|exists 1]; (split; [lra|]); apply vec_eq; unfold ray_line; vunf; ring.
  - split.
    + apply D. unfold seg_line. cbn [ldir]. intros E. apply S. apply vec_eq; [apply (f_equal vx) in E|apply (f_equal vy) in E|apply (f_equal vz) in E]; vunf; lra.
    + apply G; unfold seg_line; cbn [lorigin ldir].
      * apply end_in.
      * replace (padd (sv0 s) (psub (sv1 s) (sv0 s))) with (sv1 s) by (apply vec_eq; vunf; ring). apply end_in.
Qed.
Definition disk_call (e : entity R) (d : disk R) (tol : R) : option (segment er) :=
  match e with
  | ELine l => int_line_disk (fline l) (fdisk d) (Fin tol)
  | ERay r => int_ray_disk_seg (fray r) (fdisk d) (Fin tol)
  | ESegment s => int_segment_disk (fseg s) (fdisk d) (Fin tol)
  | _ => None
  end.
Lemma disk_called : forall e d tol, straight_line e -> is_unit (pnormal (dplane d)) -> 0 < dradius d -> inside_plane (dplane d) e ->
  ent_intersection (fent e) (fent (EDisk d)) (Fin tol) = found ESegment (disk_call e d tol) /\
  ent_intersection (fent (EDisk d)) (fent e) (Fin tol) = found ESegment (disk_call e d tol).
Proof.
  intros e d tol S U R A.
  assert (N : pnormal (dplane d) <> V 0 0 0) by (intros E; unfold is_unit in U; rewrite E in U; vunf; lra).
  assert (F : straight_line (EDisk d) \/ flat (EDisk d)) by (right; split; assumption).
  assert (AD : inside_plane (dplane d) (EDisk d)) by (intros q [Q _]; exact Q).
  pose proof (coplanar_complete (dplane d) e (EDisk d) eps eps_pos N (or_introl S) F A AD) as C1.
  pose proof (coplanar_complete (dplane d) (EDisk d) e eps eps_pos N F (or_introl S) AD A) as C2.
  destruct e; cbn [straight_line] in S; try contradiction; unfold ent_intersection; cbn [fent is_point orb ent_collinear] in *;
    change neps with (Fin eps); rewrite C1, C2; cbn [ent_int_coplanar disk_call]; auto.
Qed.
Lemma disk_in_plane : forall e l d tol, 0 < tol <= 1 -> carrier e = Some l -> straight_line e -> not_short tol e ->
  is_unit (pnormal (dplane d)) -> tol <= dradius d -> inside_plane (dplane d) e ->
  chord2 l d < - tol \/ tol <= chord2 l d -> exists c,
  ent_intersection (fent e) (fent (EDisk d)) (Fin tol) = Ret (fent c) /\
  ent_intersection (fent (EDisk d)) (fent e) (Fin tol) = Ret (fent c) /\ common_points e (EDisk d) c.
Proof.
  intros e l d tol T L S M U R A H. destruct (disk_called e d tol S U ltac:(lra) A) as (-> & ->).
  destruct (carrier_in_plane _ e l S A L) as (D & P).
  assert (Q : match disk_call e d tol with
    | Some s => exists s', s = fseg s' /\ forall q, in_segment s' q <-> in_entity e q /\ in_disk d q
    | None => forall q, in_entity e q -> ~ in_disk d q end).
  { destruct e; cbn [straight_line carrier disk_call in_entity not_short] in *; try contradiction; injection L as <-.
    - destruct H as [H|H].
      + rewrite line_disk_eval by (try exact D; lra). cbv zeta. replace (rltb (chord2 l0 d) (- tol)) with true by (symmetry; now apply rltb_true).
        apply (line_disk_none l0 d tol); [lra|lra|exact D|]. rewrite line_disk_eval by (try exact D; lra). cbv zeta.
        replace (rltb (chord2 l0 d) (- tol)) with true by (symmetry; now apply rltb_true). reflexivity.
      + destruct (line_disk_chord l0 d tol) as (s & -> & _ & _ & _ & _ & X); [lra|lra|exact D|exact P|exact H|]. exists s. auto.
    - apply ray_disk_clip; [lra|lra|exact D|exact P|exact H].
    - apply segment_disk_clip; [lra|lra|exact M|exact R| |exact P|exact H].
      rewrite (proj2 (pnorm_eq _ 1 ltac:(lra))); [lra|]. rewrite U. ring. }
  unfold found. destruct (disk_call e d tol) as [s|].
  - destruct Q as (s' & -> & Q). exists (ESegment s'). split; [reflexivity|]. split; [reflexivity|]. exact Q.
  - exists ENone. split; [reflexivity|]. split; [reflexivity|]. intros q. cbn [in_entity]. split; [contradiction|]. intros [X Y]. exact (Q q X Y).
Qed.
Lemma disk_tangent : forall e l d tol, 0 < tol <= 1 -> carrier e = Some l -> straight_line e -> not_short tol e ->
  is_unit (pnormal (dplane d)) -> tol <= dradius d -> inside_plane (dplane d) e ->
  - tol < chord2 l d < tol -> let f := foot l (porigin (dplane d)) in exists c,
  ent_intersection (fent e) (fent (EDisk d)) (Fin tol) = Ret (fent c) /\
  ent_intersection (fent (EDisk d)) (fent e) (Fin tol) = Ret (fent c) /\
  (in_entity e f /\ c = ESegment (Segment f f) \/ ~ in_entity e f /\ c = ENone).
Proof.
  intros e l d tol T L S M U R A H f. destruct (disk_called e d tol S U ltac:(lra) A) as (-> & ->).
  destruct (carrier_in_plane _ e l S A L) as (D & P).
  assert (Q : match disk_call e d tol with
    | Some s => s = fseg (Segment f f) /\ in_entity e f
    | None => ~ in_entity e f end).
  { destruct e; cbn [straight_line carrier disk_call in_entity not_short] in *; try contradiction; injection L as <-.
    - rewrite line_disk_tangent by (try exact D; lra). split; [reflexivity|]. unfold f, foot. eexists. reflexivity.
    - apply ray_disk_tangent; [exact D|exact H].
    - destruct (int_segment_disk _ _ _) as [x|] eqn:E.
      + split; [apply (segment_disk_tangent s d tol); [lra|lra|exact H|exact E]|].
        destruct (segment_disk_sub s d tol ltac:(lra) ltac:(lra) x E) as (s' & X & Y).
        rewrite (segment_disk_tangent s d tol ltac:(lra) ltac:(lra) x H E) in X. apply Y.
        assert (Z : fseg s' = fseg (Segment f f)) by (rewrite <- X; reflexivity).
        apply (f_equal sv0) in Z. cbn [fseg sv0] in Z. apply fv_inj in Z. rewrite <- Z. apply end_in.
      + intros (k & K & F). rewrite segment_disk_eval in E by lra. 
        replace (rltb (dist (sv0 s) (sv1 s)) tol) with false in E by (symmetry; now apply rltb_false).
        replace (rltb (dradius d) tol) with false in E by (symmetry; now apply rltb_false).
        replace (rltb (pnorm (pnormal (dplane d))) tol) with false in E
          by (symmetry; apply rltb_false; rewrite (proj2 (pnorm_eq _ 1 ltac:(lra))); [lra|rewrite U; ring]).
        cbn [orb] in E. replace (rltb (chord2 (seg_line s) d) (- tol)) with false in E by (symmetry; apply rltb_false; lra).
        replace (rltb (Rabs (chord2 (seg_line s) d)) tol) with true in E by (symmetry; apply rltb_true; unfold Rabs; destruct (Rcase_abs _); lra).
        set (a2 := pdot (ldir (seg_line s)) (ldir (seg_line s))) in *. set (a1 := pdot (psub (lorigin (seg_line s)) _) (ldir (seg_line s))) in *.
        assert (KE : - a1 * / a2 = k).
        { assert (X : pdot f (ldir (seg_line s)) = pdot (padd (sv0 s) (pscale k (psub (sv1 s) (sv0 s)))) (ldir (seg_line s))) by (rewrite <- F; reflexivity).
          unfold f, foot in X. change (sv0 s) with (lorigin (seg_line s)) in X. change (psub (sv1 s) (lorigin (seg_line s))) with (ldir (seg_line s)) in X.
          rewrite !pdot_add_l, !pdot_scale_l in X. fold a2 in X. apply Rplus_eq_reg_l in X. apply Rmult_eq_reg_r in X; [|lra].
          rewrite <- X. unfold a1. vunf. field. lra. }
        rewrite KE in E. replace (rltb k 0) with false in E by (symmetry; apply rltb_false; lra).
        replace (rltb 1 k) with false in E by (symmetry; apply rltb_false; lra). discriminate. }
  unfold found. destruct (disk_call e d tol) as [s|].
  - destruct Q as (-> & Q). exists (ESegment (Segment f f)). auto.
  - exists ENone. auto.
Qed.
