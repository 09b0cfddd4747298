(** * Proofs: flat ground cut in triangles, sampling method. *)
From Coq Require Import ZArith Bool Reals Lra Lia String List.
From Verif Require Import Base Num Vec Aabb Tree Geom Ground Shape Rib Str Mesh Shell ER SpecGeom SpecRib SpecShape SpecShell SpecPose SpecAvg SpecCut SpecFrame SpecRoof.
From Verif Require Import SpecTree SpecLoad SpecMesh ProofLoad ProofMesh ProofQuery ProofMeshFacts.
From Verif Require Import ProofGeom ProofInt ProofTri ProofSegArea ProofFlat ProofSample ProofAvg ProofMeshGeo ProofChord ProofCut ProofShape ProofShapeFacts ProofShell ProofPose ProofFrame ProofFrameMesh ProofRoof.
From Verif Require Import SpecSmooth ProofSmooth SpecPaved.
Import ListNotations.
Local Open Scope R_scope.

Lemma flat_foot : forall gp f q, eps < Rabs (vz (pnormal gp)) ->
  sampling_line_flat (fflat gp f) (down q) = Some (fv (straight_below gp q), Fin f).
Proof.
  intros gp f q H. unfold down. rewrite flat_line_hit by exact H. do 2 f_equal. f_equal. unfold straight_below.
  apply vec_eq; vunf; unfold Rdiv; ring.
Qed.
Lemma bary_plane : forall gp t x y z, on_plane gp (tv0 t) -> on_plane gp (tv1 t) -> on_plane gp (tv2 t) -> x + y + z = 1 ->
  on_plane gp (bary t x y z).
Proof.
  intros gp t x y z H0 H1 H2 S. unfold on_plane, bary in *. set (n := pnormal gp) in *. set (o := porigin gp) in *.
  set (u := tv0 t) in *. set (v := tv1 t) in *. set (w := tv2 t) in *. clearbody n o u v w.
  assert (E : pdot (psub (padd (padd (pscale x u) (pscale y v)) (pscale z w)) o) n =
    x * pdot (psub u o) n + y * pdot (psub v o) n + z * pdot (psub w o) n).
  { replace z with (1 - x - y) by lra. vunf. ring. }
  rewrite E, H0, H1, H2. ring.
Qed.
Lemma plane_over : forall gp q p, vz (pnormal gp) <> 0 -> on_plane gp p -> over q p -> p = straight_below gp q.
Proof.
  intros gp q p NZ P [X Y]. unfold on_plane in P. unfold straight_below. set (n := pnormal gp) in *. set (o := porigin gp) in *.
  clearbody n o. apply vec_eq; cbn [vx vy vz]; auto.
  assert (vz p - (vz q - pdot (psub q o) n / vz n) = pdot (psub p o) n / vz n).
  { vunf. rewrite X, Y. field. exact NZ. }
  rewrite P in H. unfold Rdiv in H. rewrite Rmult_0_l in H. lra.
Qed.
Lemma flat_nz : forall gp, eps < Rabs (vz (pnormal gp)) -> vz (pnormal gp) <> 0.
Proof. intros gp H Z. rewrite Z, Rabs_R0 in H. pose proof eps_pos. lra. Qed.

Lemma paved_hit : forall gp f ts gs q h, grounds ts gs -> paved gp f ts -> eps < Rabs (vz (pnormal gp)) ->
  sampling_line gs (down q) = Some h -> sampling_line_flat (fflat gp f) (down q) = Some h.
Proof.
  intros gp f ts gs q h HG HP HN H. destruct (roof_found ts gs q h HG H) as (p & f' & -> & O & (t & IT & N) & _).
  rewrite flat_foot by exact HN. destruct (HP t f' IT) as (P0 & P1 & P2 & ->). do 2 f_equal. f_equal. symmetry.
  apply plane_over; auto; [now apply flat_nz|]. destruct N as (x & y & z & _ & _ & _ & S & ->). now apply bary_plane.
Qed.
Lemma paved_line : forall gp f ts gs q p, grounds ts gs -> paved gp f ts -> eps < Rabs (vz (pnormal gp)) ->
  ground_at ts q p -> sampling_line gs (down q) = sampling_line_flat (fflat gp f) (down q).
Proof.
  intros gp f ts gs q p HG HP HN (t & f' & IT & SH & TP & O).
  destruct (sampling_line gs (down q)) as [h|] eqn:E; [symmetry; eapply paved_hit; eauto|].
  exfalso. exact (roof_missing ts gs q HG E t f' p IT SH TP O).
Qed.

(** The four probes decide everything. *)
Lemma four_probes : forall r a (fn fn' : line er -> option (vec3 er * er)) g0 g1 g2 g3 g0' g1' g2' g3',
  (forall q, In q (probes r a) -> exists h, fn (down q) = Some h /\ fn' (down q) = Some h) ->
  envelop_sampling_with fn g0 g1 g2 g3 (frib r) (fa a) = envelop_sampling_with fn' g0' g1' g2' g3' (frib r) (fa a).
Proof.
  intros r a fn fn' g0 g1 g2 g3 g0' g1' g2' g3' H. unfold probes in H.
  destruct (H _ (or_introl eq_refl)) as (h0 & A0 & B0).
  destruct (H _ (or_intror (or_introl eq_refl))) as (h1 & A1 & B1).
  destruct (H _ (or_intror (or_intror (or_introl eq_refl)))) as (h2 & A2 & B2).
  destruct (H _ (or_intror (or_intror (or_intror (or_introl eq_refl))))) as (h3 & A3 & B3).
  unfold envelop_sampling_with. rewrite probe_lines. unfold sample.
  rewrite A0, A1, A2, A3, B0, B1, B2, B3. reflexivity.
Qed.

Lemma paved_contact : forall gb gb' r a gp f ts gs o, rigid a -> grounds ts gs -> paved gp f ts -> eps < Rabs (vz (pnormal gp)) ->
  envelop gb (frib r) gs (fa a) "sampling" = Ret (true, o) ->
  envelop_flat gb' (frib r) (fflat gp f) (fa a) "sampling" = Ret (true, o).
Proof.
  intros [[[g0 g1] g2] g3] [[[g0' g1'] g2'] g3'] r a gp f ts gs o HA HG HP HN H.
  cbn [envelop envelop_flat String.eqb Ascii.eqb Bool.eqb] in *.
  assert (E : envelop_sampling g0 g1 g2 g3 (frib r) gs (fa a) = (true, o)) by congruence. clear H. rewrite <- E. f_equal.
  unfold envelop_sampling in *. unfold envelop_sampling_flat.
  destruct (probes_hit r a (sampling_line gs) g0 g1 g2 g3 true o E) as [[C _]|(h0 & h1 & h2 & h3 & A0 & A1 & A2 & A3)]; [discriminate|].
  symmetry. apply four_probes. intros q Q.
  assert (X : exists h, sampling_line gs (down q) = Some h).
  { unfold probes in Q. destruct Q as [<-|[<-|[<-|[<-|[]]]]]; eauto. }
  destruct X as (h & X). exists h. split; [exact X|]. eapply paved_hit; eauto.
Qed.
Lemma paved_same : forall gb gb' r a gp f ts gs, grounds ts gs -> paved gp f ts -> eps < Rabs (vz (pnormal gp)) ->
  (forall q, In q (probes r a) -> exists p, ground_at ts q p) ->
  envelop gb (frib r) gs (fa a) "sampling" = envelop_flat gb' (frib r) (fflat gp f) (fa a) "sampling".
Proof.
  intros [[[g0 g1] g2] g3] [[[g0' g1'] g2'] g3'] r a gp f ts gs HG HP HN HQ.
  cbn [envelop envelop_flat String.eqb Ascii.eqb Bool.eqb]. f_equal.
  apply four_probes. intros q Q. destruct (HQ q Q) as (p & P).
  rewrite (paved_line gp f ts gs q p) by auto. rewrite flat_foot by auto. eauto.
Qed.

(** ** The wheel. *)
Lemma ground_of_inj : forall t t' f f' g, ground_of t f g -> ground_of t' f' g -> t = t' /\ f = f'.
Proof.
  intros t t' f f' g H H'. apply ground_of_fields in H as (T & F & _). apply ground_of_fields in H' as (T' & F' & _).
  split; [|congruence]. rewrite T in T'. destruct t as [u v w], t' as [u' v' w']. unfold ftri, fv in T'. cbn [tv0 tv1 tv2] in T'.
  injection T' as E1 E2 E3 E4 E5 E6 E7 E8 E9. f_equal; apply vec_eq; auto.
Qed.
Lemma grounds_in : forall ts gs g, grounds ts gs -> In g gs -> exists t f, In (t, f) ts /\ ground_of t f g.
Proof.
  intros ts gs g H. induction H as [|[t f] g' ts gs G H IH]; intros I; [easy|]. destruct I as [->|I].
  - exists t, f. split; [now left|exact G].
  - destruct (IH I) as (t' & f' & J & K). exists t', f'. split; [now right|exact K].
Qed.
Lemma grounds_in' : forall ts gs t f, grounds ts gs -> In (t, f) ts -> exists g, In g gs /\ ground_of t f g.
Proof.
  intros ts gs t f H. induction H as [|[t' f'] g' ts gs G H IH]; intros I; [easy|]. destruct I as [[= -> ->]|I].
  - exists g'. split; [now left|exact G].
  - destruct (IH I) as (g & J & K). exists g. split; [now right|exact K].
Qed.
Lemma sub_grounds : forall ts gs local, grounds ts gs -> (forall g, In g local -> In g gs) ->
  exists ts', grounds ts' local /\ (forall x, In x ts' -> In x ts) /\
    forall g t f, In g local -> ground_of t f g -> In (t, f) ts'.
Proof.
  intros ts gs local HG. induction local as [|g local IH]; intros S.
  - exists []. split; [constructor|]. split; [easy|easy].
  - destruct IH as (ts' & G & SB & C); [intros; apply S; now right|].
    destruct (grounds_in ts gs g HG (S g (or_introl eq_refl))) as (t & f & I & K).
    exists ((t, f) :: ts'). split; [constructor; auto|]. split; [intros x [<-|X]; auto|].
    intros g' t' f' [<-|I'] K'; [|right; eauto].
    destruct (ground_of_inj _ _ _ _ _ K K') as [-> ->]. now left.
Qed.

Section Wheel.
  Variables (stod : text -> outcome er) (fs : text -> option text) (m0 m : mesh er) (ts : list (triangle R * R)) (gp : plane R) (f : R).
  Variables (sp : shape R) (s : shell er) (a : affine R) (gb gb' : nat -> garbage4 er) (s1 s2 : shell er) (b b' : bool).
  Hypothesis LD : load_succeeds stod fs m0 m.
  Hypothesis SZ : (Z.of_nat (mesh_size m) <= 2 ^ 31)%Z.
  Hypothesis GR : grounds ts (me_tris m).
  Hypothesis PV : paved gp f ts.
  Hypothesis NZ : eps < Rabs (vz (pnormal gp)).
  Hypothesis RS : real_shell sp s.
  Hypothesis HA : rigid a.
  Hypothesis E1 : setup_mesh gb s m (fa a) "sampling" = Ok s1 b.
  Hypothesis E2 : setup_flat gb' s (fflat gp f) (fa a) "sampling" = Ok s2 b'.

  Lemma flat_out : forall j r, has_rib s j r -> exists c o,
    envelop_flat (gb' j) (frib r) (fflat gp f) (fa a) "sampling" = Ret (c, o) /\ out_at s2 j = Ret o.
  Proof using E2.
    clear SZ.
    intros j r HR. apply setup_flat_reports in E2 as (R1 & _ & flags & FL & FR & _).
    unfold has_rib, rib_at in HR. destruct (nth_error (sh_ribs s) j) as [x|] eqn:N; [|discriminate]. injection HR as ->.
    assert (j < sh_size s2)%nat by (unfold sh_size; rewrite R1; apply nth_error_Some; congruence).
    destruct (nth_error flags j) as [c|] eqn:EF; [|apply nth_error_None in EF; lia].
    destruct (FR j c EF) as (r' & o & N' & F & O). rewrite R1, N in N'. injection N' as <-. eauto.
  Qed.
  (** What a rib sees of the mesh. *)
  Lemma mesh_out : forall j r, has_rib s j r -> exists local ts' c o, exactly (fun t => overlap (tg_bbox t) (sh_bbox s1)) (me_tris m) local /\
    grounds ts' local /\ (forall x, In x ts' -> In x ts) /\ (forall g t f, In g local -> ground_of t f g -> In (t, f) ts') /\
    (local <> [] -> envelop (gb j) (frib r) local (fa a) "sampling" = Ret (c, o)) /\
    (local = [] -> Ret (envelop_none (frib r) (fa a)) = Ret (c, o)) /\ out_at s1 j = Ret o.
  Proof.
    intros j r HR.
    pose proof (setup_bbox gb s (fa a) "sampling" s1 b (or_introl (ex_intro _ m E1))) as EB.
    assert (FT : Forall (fun g => exists t, real_triangle g t) (me_tris m)).
    { rewrite Forall_forall. intros g I. destruct (grounds_in _ _ _ GR I) as (t & f' & _ & K).
      apply ground_of_fields in K as (T & _). exists t. exact T. }
    destruct (loaded_query_exact stod fs m0 m (sh_bbox s1) LD SZ) as (local & Q & EX & _).
    { eapply Forall_impl; [|exact FT]. intros x [t' E]. eapply real_tri_num. exact E. }
    { rewrite EB. eapply shell_box_proper. exact RS. }
    destruct (sub_grounds ts (me_tris m) local GR) as (ts' & G' & SB & CB).
    { intros g I. eapply exactly_sub; eauto. }
    pose proof (setup_mesh_reports _ _ _ _ _ _ _ E1) as (R1 & _ & local' & Q' & D).
    rewrite Q in Q'. injection Q' as <-.
    pose proof HR as HR'. unfold has_rib, rib_at in HR'. destruct (nth_error (sh_ribs s) j) as [x|] eqn:N; [|discriminate]. injection HR' as ->.
    assert (J : (j < sh_size s1)%nat) by (unfold sh_size; rewrite R1; apply nth_error_Some; congruence).
    destruct D as [(L & _ & F)|(L & flags & FL & FR & _)].
    - destruct (F j J) as (r' & o & N' & F' & O). rewrite R1, N in N'. injection N' as <-.
      exists local, ts', false, o. split; [exact EX|]. split; [exact G'|]. split; [exact SB|]. split; [exact CB|].
      split; [intros; contradiction|]. split; [intros _; exact F'|exact O].
    - destruct (nth_error flags j) as [c|] eqn:EF; [|apply nth_error_None in EF; lia].
      destruct (FR j c EF) as (r' & cs & N' & NC & r'' & o & N'' & F & O). rewrite R1, N in N', N''. injection N' as <-. injection N'' as <-.
      destruct (candidates_exact sp s gb m a "sampling" s1 b local j r RS HA E1 Q L) as (c' & NC' & _ & K2).
      { rewrite Forall_forall in *. intros x Hx. apply FT. eapply exactly_sub; eauto. }
      { exact HR. }
      rewrite K2 in NC' by (intros [X _]; discriminate). rewrite NC in NC'. injection NC' as ->.
      exists local, ts', c, o. split; [exact EX|]. split; [exact G'|]. split; [exact SB|]. split; [exact CB|].
      split; [intros _; exact F|]. split; [intros; contradiction|exact O].
  Qed.
  Lemma paved_sub : forall ts', (forall x, In x ts' -> In x ts) -> paved gp f ts'.
  Proof. intros ts' H t f' I. apply PV. now apply H. Qed.

  Lemma flat_false : forall gb0 r o, envelop_flat gb0 (frib r) (fflat gp f) (fa a) "sampling" = Ret (false, o) ->
    Ret (envelop_none (frib r) (fa a)) = Ret (false, o).
  Proof.
    intros [[[g0 g1] g2] g3] r o H. cbn [envelop_flat String.eqb Ascii.eqb Bool.eqb] in H.
    unfold envelop_sampling_flat, envelop_sampling_with in H. rewrite probe_lines in H. unfold sample in H.
    rewrite !flat_foot in H by exact NZ. cbv zeta in H.
    match type of H with context [if ?c then _ else _] => destruct c end; [discriminate|exact H].
  Qed.
  Lemma mesh_false : forall gb0 r gs o, envelop gb0 (frib r) gs (fa a) "sampling" = Ret (false, o) ->
    Ret (envelop_none (frib r) (fa a)) = Ret (false, o).
  Proof.
    intros [[[g0 g1] g2] g3] r gs o H. cbn [envelop String.eqb Ascii.eqb Bool.eqb] in H.
    unfold envelop_sampling, envelop_sampling_with in H. rewrite probe_lines in H. unfold sample in H.
    repeat match type of H with context [match sampling_line ?g ?l with _ => _ end] => destruct (sampling_line g l) as [[? ?]|] end;
    cbv zeta in H; match type of H with context [if ?c then _ else _] => destruct c end; try discriminate; exact H.
  Qed.

  (** A contact with the mesh is the contact with the plane. *)
  Lemma wheel_contact : forall j r o d, has_rib s j r -> out_at s1 j = Ret o -> o_depth o = Fin d -> 0 < d -> out_at s2 j = Ret o.
  Proof.
    intros j r o d HR O D P. destruct (mesh_out j r HR) as (local & ts' & c & o' & _ & G & SB & _ & F & FN & O').
    rewrite O in O'. injection O' as <-.
    assert (T : c = true).
    { destruct c; auto. exfalso. assert (NN : Ret (envelop_none (frib r) (fa a)) = Ret (false, o)).
      { destruct local as [|g l]; [now apply FN|]. apply (mesh_false (gb j) r (g :: l)). apply F. discriminate. }
      unfold envelop_none in NN. injection NN as <-. cbn [o_depth] in D. injection D as <-. lra. }
    subst c. assert (L : local <> []).
    { intros L. specialize (FN L). unfold envelop_none in FN. discriminate. }
    destruct (flat_out j r HR) as (c2 & o2 & F2 & O2). rewrite O2. f_equal.
    pose proof (paved_contact (gb j) (gb' j) r a gp f ts' local o HA G (paved_sub ts' SB) NZ (F L)) as X. congruence.
  Qed.
  (** The same data, when the rib does not touch the plane, or its probes find
      ground near the wheel. *)
  Lemma wheel_same : forall j r, has_rib s j r ->
    (exists o, envelop_flat (gb' j) (frib r) (fflat gp f) (fa a) "sampling" = Ret (false, o)) \/
    (forall q, In q (probes r a) -> exists p, ground_at ts q p /\ in_box (fv p) (sh_bbox s1)) ->
    exists o, out_at s1 j = Ret o /\ out_at s2 j = Ret o.
  Proof.
    intros j r HR H. destruct (mesh_out j r HR) as (local & ts' & c & o & EX & G & SB & CB & F & FN & O).
    destruct (flat_out j r HR) as (c2 & o2 & F2 & O2). exists o. split; [exact O|]. rewrite O2. f_equal.
    assert (SL : forall g, In g (me_tris m) -> sealed g).
    { destruct (load_succeeds_good _ _ _ _ LD SZ) as (_ & _ & _ & SL). rewrite Forall_forall in SL. exact SL. }
    destruct H as [[o3 H]|H].
    - assert (Z : (c2, o2) = (false, o3)) by congruence. injection Z as -> ->. apply flat_false in H.
      assert (NN : Ret (envelop_none (frib r) (fa a)) = Ret (false, o)); [|congruence].
      destruct local as [|g l].
      + specialize (FN eq_refl). unfold envelop_none in *. congruence.
      + destruct c.
        * pose proof (paved_contact (gb j) (gb' j) r a gp f ts' (g :: l) o HA G (paved_sub ts' SB) NZ (F ltac:(discriminate))) as X. congruence.
        * apply (mesh_false (gb j) r (g :: l)). apply F. discriminate.
    - assert (GA : forall q, In q (probes r a) -> exists p, ground_at ts' q p).
      { intros q Q. destruct (H q Q) as (p & (t & f' & I & SH & TP & OV) & B). exists p, t, f'. split; [|auto].
        destruct (grounds_in' _ _ _ _ GR I) as (g & IG & K). apply (CB g); auto.
        apply (exactly_in _ _ _ _ _ EX IG). exists (fv p). split; auto. apply (sealed_in_bbox g t); auto.
        apply ground_of_fields in K. apply K. }
      assert (L : local <> []).
      { intros L. subst local. destruct (GA _ (or_introl eq_refl)) as (p & t & f' & I & _).
        inversion G. subst ts'. destruct I. }
      pose proof (paved_same (gb j) (gb' j) r a gp f ts' local G (paved_sub ts' SB) NZ GA) as X. rewrite F2, (F L) in X. congruence.
  Qed.
End Wheel.

(** ** Level ground: no condition on the box. *)
Lemma has_rib_width : forall sp s j r, real_shell sp s -> has_rib s j r -> 0 < rb_width r /\ Rabs (vy (rb_center r)) + rb_width r / 2 <= sLy sp.
Proof.
  intros sp s j r (RC & E & G) H. destruct (reach_slices s RC sp E G) as (n & N & RB).
  unfold has_rib, rib_at in H. destruct (nth_error (sh_ribs s) j) as [x|] eqn:NE; [|discriminate]. injection H as ->.
  rewrite RB in NE. assert (j < n)%nat.
  { rewrite <- (slices_length sp n), <- (map_length frib). apply nth_error_Some. congruence. }
  erewrite map_nth_error in NE; [|now apply slices_nth].
  assert (E' := f_equal (fun o => match o with Some x => x | None => frib r end) NE). cbv beta iota in E'. apply frib_inj in E'. subst r.
  pose proof (slice_bound sp G n j H). pose proof (slice_width_pos sp G n N). cbn. split; [exact H1|]. lra.
Qed.
Lemma lean : forall u v w z k, 0 <= u -> u * u + v * v <= k * k -> 0 <= k -> w * w + z * z = 1 -> 0 <= w -> u * w + Rabs v * Rabs z <= k.
Proof.
  intros u v w z k U S K W Z. assert (Q : (u * w + Rabs v * Rabs z) * (u * w + Rabs v * Rabs z) <= k * k).
  { assert (A : Rabs v * Rabs v = v * v) by (rewrite <- Rabs_mult; apply Rabs_pos_eq; nra).
    assert (B : Rabs z * Rabs z = z * z) by (rewrite <- Rabs_mult; apply Rabs_pos_eq; nra).
    rewrite <- A in S. rewrite <- B in W. set (p := Rabs v) in *. set (q := Rabs z) in *. clearbody p q.
    pose proof (Rle_0_sqr (u * q - p * w)) as SQ. unfold Rsqr in SQ.
    replace ((u * w + p * q) * (u * w + p * q)) with ((u * u + p * p) * (w * w + q * q) - (u * q - p * w) * (u * q - p * w)) by ring.
    rewrite W. lra. }
  apply Rnot_lt_le. intros X. nra.
Qed.
Lemma sq_bound : forall x y k, x * x + y * y <= k * k -> 0 <= k -> Rabs x <= k.
Proof. intros x y k H K. apply Rabs_le. split; nra. Qed.

Lemma abs_iv : forall x k, Rabs x <= k -> - k <= x <= k.
Proof. intros x k H. pose proof (Rle_abs x). pose proof (Rle_abs (- x)). rewrite Rabs_Ropp in *. lra. Qed.

Lemma level_box : forall sp s j r a gp f gb o p q, real_shell sp s -> has_rib s j r -> rigid a ->
  sMx sp <= 2 -> sMy sp <= 2 -> sRy sp <= sRx sp -> pnormal gp = V 0 0 1 ->
  envelop_flat gb (frib r) (fflat gp f) (fa a) "sampling" = Ret (true, o) ->
  In q (probes r a) -> over q p -> on_plane gp p -> in_box (fv p) (sh_bbox (update_bbox (transform s (fa a)))).
Proof.
  intros sp s j r a gp f gb o p q RS HR HA MX MY RR GN H Q [OX OY] P.
  destruct (has_rib_axial sp s j r RS HR) as ((_ & CX & CZ) & GD & RD & YL).
  destruct (has_rib_width sp s j r RS HR) as (WP & WL).
  assert (GS : good_shape sp) by apply RS.
  pose proof (profile_in_sphere sp (vy (rb_center r)) GS MX MY RR ltac:(lra)) as PS. rewrite <- RD in PS.
  assert (HU : is_unit (pnormal gp)) by (rewrite GN; unfold is_unit; vunf; ring).
  pose proof (sampling_value _ _ _ _ _ _ _ GD HA HU H) as [D _]. destruct (proj1 D eq_refl) as (_ & _ & _ & DP). clear D.
  unfold center_height in DP. rewrite GN in DP. cbn [vz] in DP. rewrite Rabs_R1 in DP.
  unfold on_plane in P. rewrite GN in P.
  pose proof GS as (RX & _ & _ & LY & LR). destruct GD as (RP & _).
  set (k := sRx sp) in *. set (y := vy (rb_center r)) in *. set (rho := rb_radius r) in *. set (w := rb_width r) in *.
  assert (CE : rb_center r = V 0 y 0) by (apply vec_eq; cbn; auto).
  assert (ES : sh_shape s = fshape sp) by apply RS.
  destruct (f_bbox s a k) as [B1 B2]; [now rewrite ES|lra|]. unfold in_box. rewrite B1, B2.
  unfold fv, psub, padd. cbn [vx vy vz]. rewrite !e_le, !rleb_true.
  (* the probe, in the wheel *)
  assert (QL : exists l, q = place a l /\ pdot l l <= k * k).
  { unfold probes, probe in Q. rewrite CE in Q. fold rho w in Q.
    assert (YB : Rabs y * Rabs y = y * y) by (rewrite <- Rabs_mult; apply Rabs_pos_eq; nra).
    assert (S1 : pdot (padd (V 0 y 0) (V (rho / 10) 0 0)) (padd (V 0 y 0) (V (rho / 10) 0 0)) <= k * k) by (vunf; nra).
    assert (S2 : pdot (padd (V 0 y 0) (V (- (rho / 10)) 0 0)) (padd (V 0 y 0) (V (- (rho / 10)) 0 0)) <= k * k) by (vunf; nra).
    assert (KL : Rabs y + 3 / 10 * w <= k) by lra.
    pose proof (Rabs_pos y) as AP.
    pose proof (Rle_abs y) as A1. pose proof (Rle_abs (- y)) as A2. rewrite Rabs_Ropp in A2.
    assert (S3 : pdot (padd (V 0 y 0) (V 0 (3 / 10 * w) 0)) (padd (V 0 y 0) (V 0 (3 / 10 * w) 0)) <= k * k).
    { assert (Rabs (y + 3 / 10 * w) <= k) by (apply Rabs_le; lra). vunf.
      pose proof (Rsqr_le_abs_1 (y + 3 / 10 * w) k ltac:(rewrite (Rabs_pos_eq k) by lra; exact H0)) as SQ. unfold Rsqr in SQ. lra. }
    assert (S4 : pdot (padd (V 0 y 0) (V 0 (- (3 / 10 * w)) 0)) (padd (V 0 y 0) (V 0 (- (3 / 10 * w)) 0)) <= k * k).
    { assert (Rabs (y - 3 / 10 * w) <= k) by (apply Rabs_le; lra). vunf.
      pose proof (Rsqr_le_abs_1 (y - 3 / 10 * w) k ltac:(rewrite (Rabs_pos_eq k) by lra; exact H0)) as SQ. unfold Rsqr in SQ. lra. }
    destruct Q as [<-|[<-|[<-|[<-|[]]]]]; eexists; (split; [reflexivity|assumption]). }
  destruct QL as (l & QE & QN). rewrite <- (rotation_isometry (lin a) l l HA) in QN.
  assert (XY : Rabs (vx q - vx (tra a)) <= k /\ Rabs (vy q - vy (tra a)) <= k).
  { rewrite QE. unfold place, padd. cbn [vx vy vz]. set (u := papply (lin a) l) in *. clearbody u. unfold pdot in QN.
    split; [replace (vx (tra a) + vx u - vx (tra a)) with (vx u) by ring|replace (vy (tra a) + vy u - vy (tra a)) with (vy u) by ring].
    - apply (sq_bound _ (vy u)); nra.
    - apply (sq_bound _ (vx u)); nra. }
  (* the height *)
  set (az := vz (axle a)) in *.
  assert (AU : az * az <= 1).
  { destruct HA as (_ & U & _). change (pcol1 (lin a)) with (axle a) in U. unfold is_unit, pdot in U. fold az in U. nra. }
  assert (S2 : sin2 (V 0 0 1) (axle a) = 1 - az * az) by (unfold sin2, az; set (x := axle a); clearbody x; vunf; ring).
  rewrite S2 in DP.
  assert (CH : pdot (psub (place a (rb_center r)) (porigin gp)) (V 0 0 1) = vz (tra a) + y * az - vz (porigin gp)).
  { rewrite CE. unfold place, az, axle, pcol1. vunf. cbn [vx vy vz]. ring. }
  rewrite CH in DP.
  assert (PZ : vz p = vz (porigin gp)) by (revert P; vunf; intros P; lra).
  assert (SW : sqrt (1 - az * az) * sqrt (1 - az * az) = 1 - az * az) by (apply sqrt_sqrt; lra).
  pose proof (lean rho y (sqrt (1 - az * az)) az k ltac:(lra) PS ltac:(lra) ltac:(lra) (sqrt_pos _)) as LE.
  rewrite <- Rabs_mult in LE. set (W := rho * sqrt (1 - az * az)) in *. clearbody W.
  unfold Rdiv in DP. rewrite Rinv_1, Rmult_1_r in DP.
  destruct XY as [X Y]. rewrite OX, OY, PZ. clear - X Y DP LE.
  set (t := vz (tra a)) in *. set (g := vz (porigin gp)) in *. set (ya := y * az) in *. clearbody t g ya.
  apply abs_iv in X. apply abs_iv in Y.
  assert (Z : Rabs (t - g) <= k).
  { replace (t - g) with ((t + ya - g) + - ya) by ring. eapply Rle_trans; [apply Rabs_triang|]. rewrite Rabs_Ropp. lra. }
  apply abs_iv in Z. lra.
Qed.

Lemma omap_ext : forall A B (f g : A -> outcome B) l, (forall x, In x l -> f x = g x) -> omap f l = omap g l.
Proof.
  intros A B f g l. induction l as [|x l IH]; intros H; cbn [omap]; [reflexivity|].
  rewrite (H x (or_introl eq_refl)). rewrite IH; auto. intros y I. apply H. now right.
Qed.
Lemma rib_of : forall sp s j, real_shell sp s -> (j < sh_size s)%nat -> exists r, has_rib s j r.
Proof.
  intros sp s j (RC & E & G) J. destruct (reach_slices s RC sp E G) as (n & N & RB).
  unfold has_rib, rib_at. unfold sh_size in J. rewrite RB, map_length in J. rewrite RB, nth_error_map.
  destruct (nth_error (slices sp n) j) as [r|] eqn:X; [|apply nth_error_None in X; lia]. exists r. reflexivity.
Qed.
Lemma level_wheel : forall stod fs m0 m ts gp f sp s a gb gb' s1 s2 b b',
  load_succeeds stod fs m0 m -> (Z.of_nat (mesh_size m) <= 2 ^ 31)%Z -> grounds ts (me_tris m) -> paved gp f ts ->
  pnormal gp = V 0 0 1 -> real_shell sp s -> sMx sp <= 2 -> sMy sp <= 2 -> sRy sp <= sRx sp -> rigid a ->
  (forall j r q, has_rib s j r -> In q (probes r a) -> exists p, ground_at ts q p) ->
  setup_mesh gb s m (fa a) "sampling" = Ok s1 b -> setup_flat gb' s (fflat gp f) (fa a) "sampling" = Ok s2 b' ->
  exists os, outs s1 = Ret os /\ outs s2 = Ret os /\ List.length os = sh_size s.
Proof.
  intros stod fs m0 m ts gp f sp s a gb gb' s1 s2 b b' LD SZ GR PV GN RS MX MY RR HA UN E1 E2.
  assert (NZ : eps < Rabs (vz (pnormal gp))) by (rewrite GN; cbn [vz]; rewrite Rabs_R1; apply eps_lt1).
  assert (Z1 : sh_size s1 = sh_size s) by (apply setup_mesh_reports in E1 as (R1 & _); unfold sh_size; now rewrite R1).
  assert (Z2 : sh_size s2 = sh_size s) by (apply setup_flat_reports in E2 as (R1 & _); unfold sh_size; now rewrite R1).
  assert (EQ : forall j, (j < sh_size s)%nat -> exists o, out_at s1 j = Ret o /\ out_at s2 j = Ret o).
  { intros j J. destruct (rib_of sp s j RS J) as (r & HR).
    apply (wheel_same stod fs m0 m ts gp f sp s a gb gb' s1 s2 b b' LD SZ GR PV NZ RS HA E1 E2 j r HR).
    destruct (flat_out gp f s a gb' s2 b' E2 j r HR) as (c & o & F & _). destruct c; [|eauto]. right.
    intros q Q. destruct (UN j r q HR Q) as (p & t & f' & I & SH & TP & OV). exists p. split; [exists t, f'; auto|].
    rewrite (setup_bbox gb s (fa a) "sampling" s1 b (or_introl (ex_intro _ m E1))).
    apply (level_box sp s j r a gp f (gb' j) o p q); auto.
    destruct (PV t f' I) as (P0 & P1 & P2 & _). destruct TP as (x & y & z & _ & _ & _ & S & ->). now apply bary_plane. }
  assert (SM : outs s1 = outs s2).
  { unfold outs. rewrite Z1, Z2. apply omap_ext. intros j I. apply in_seq in I. destruct (EQ j ltac:(lia)) as (o & A & B). congruence. }
  destruct (written_outs s1) as (os & E & L & _).
  { intros j J. rewrite Z1 in J. destruct (EQ j J) as (o & A & _). eauto. }
  exists os. split; [exact E|]. split; [congruence|]. congruence.
Qed.
