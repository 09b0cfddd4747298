(** * Proofs about the drawings of a wheel. *)
From Coq Require Import ZArith Bool String Reals Lra Lia List.
From Verif Require Import Base Num Vec Aabb Geom Acme Ground Shape Rib Str Mesh Shell Sfun Mex ER SpecGeom SpecRib SpecShape SpecShell SpecPose SpecMex
  ProofGeom ProofInt ProofEntity ProofShape ProofShapeFacts ProofPose ProofSfun ProofMex ProofMexB ProofMexC ProofMexD ProofMexF
  Matlab SpecMatlab ProofMatlab ProofMatlabB ProofMatlabC ProofMatlabE Plot SpecPlot.
Import ListNotations.

Section Programs.
  Context {K : Type} {NK : Num K}.
  Implicit Types (w : world K) (e : env K) (s : shell K).
  Local Open Scope num_scope.

  Definition only {A} w (x : A) (w' : world K) (r : ending A) : Prop := w' = w /\ r = Done x.

  Lemma all_ask e w h c rest x :
    (forall z, answers FShell (at_address e z) w (text c :: h :: rest) (mx_scalar x)) ->
    all e w (ask c (Obj FShell h) rest) (only w x).
  Proof.
    intros H. apply all_bind, all_mex1. intros z _. exists w, (mx_scalar x). split; [apply H|].
    apply all_ret. now split.
  Qed.

  Lemma all_step {A B} e w (p : prog K A) (g : A -> prog K B) x Q :
    all e w p (only w x) -> all e w (g x) Q -> all e w (pbind p g) Q.
  Proof.
    intros H1 H2. apply all_bind. refine (all_weak _ _ _ _ _ H1 _). now intros w1 r1 [-> ->].
  Qed.

  Lemma all_each {A B} e w (f : A -> prog K B) (g : A -> B) l :
    (forall x, In x l -> all e w (f x) (only w (g x))) -> all e w (each f l) (only w (map g l)).
  Proof.
    induction l as [|x l IH]; intros H; cbn [each map].
    - apply all_ret. now split.
    - apply (all_step _ _ _ _ (g x)); [apply H; now left|].
      apply (all_step _ _ _ _ (map g l)); [apply IH; intros; apply H; now right|].
      apply all_ret. now split.
  Qed.

  Lemma get_affine_mx (a : affine K) : get_affine (mx_affine a) = Ret a.
  Proof. destruct a as [[] []]. reflexivity. Qed.

  Section Shell.
  Variables (e : env K) (w : world K) (a : Z) (s : shell K).
  Hypothesis Hl : live w a (OShell s).

  Lemma all_width : all e w (ask "surfaceWidth" (obj_shell a) []) (only w (surface_width (sh_shape s))).
  Proof. apply all_ask. intros z. apply (shape_queries (at_address e z) w a s Hl). Qed.
  Lemma all_max_radius : all e w (ask "surfaceMaxRadius" (obj_shell a) []) (only w (surface_max_radius (sh_shape s))).
  Proof. apply all_ask. intros z. apply (shape_queries (at_address e z) w a s Hl). Qed.
  Lemma all_radius y r : surface_radius (sh_shape s) y = Ret r ->
    all e w (ask "surfaceRadius" (obj_shell a) [mx_scalar y]) (only w r).
  Proof.
    intros H. apply all_ask. intros z. unfold answers.
    destruct (surface_queries (at_address e z) w a s y Hl) as (_ & E & _). now rewrite E, H.
  Qed.
  Lemma all_slope y d : surface_derivative (sh_shape s) y neps = Ret d ->
    all e w (ask "surfaceDerivative" (obj_shell a) [mx_scalar y]) (only w d).
  Proof.
    intros H. apply all_ask. intros z. unfold answers.
    destruct (surface_queries (at_address e z) w a s y Hl) as (_ & _ & E & _). now rewrite E, H.
  Qed.
  Lemma all_pose : all e w (ask_pose (obj_shell a)) (only w (sh_affine s)).
  Proof.
    apply all_bind, all_mex1. intros z _. exists w, (mx_affine (sh_affine s)). split.
    - eapply (shell_get_ok (at_address e z) w a s "transformation" (fun s => Ret (mx_affine (sh_affine s))));
        [cbn; tauto|cbn; intuition discriminate|exact Hl|reflexivity].
    - unfold as_affine. rewrite get_affine_mx. apply all_ret. now split.
  Qed.
  Lemma all_radii g ys : (forall y, In y ys -> surface_radius (sh_shape s) y = Ret (g y)) ->
    all e w (each (fun x => ask "surfaceRadius" (obj_shell a) [mx_scalar x]) ys) (only w (map g ys)).
  Proof. intros H. apply all_each. intros x Hx. apply all_radius. now apply H. Qed.

  Lemma all_profile g : let ys := colon (surface_width (sh_shape s)) 50 in
    (forall y, In y ys -> surface_radius (sh_shape s) y = Ret (g y)) ->
    all e w (profile_m (obj_shell a)) (only w [Curve (combine ys (map g ys))]).
  Proof.
    intros ys H. unfold profile_m. eapply all_step; [apply all_width|]. cbv zeta.
    eapply all_step; [apply (all_radii g), H|]. eapply all_step; [apply all_max_radius|].
    apply all_ret. now split.
  Qed.
  Lemma all_shape T g : let W := surface_width (sh_shape s) in let ys := colon W 25 in
    (forall y, In y ys -> surface_radius (sh_shape s) y = Ret (g y)) ->
    all e w (shape_tplot (obj_shell a) T)
      (only w (arrows T ++ [Surf (grid T (fun z => z * #2 * W - W) (cylinder (map g ys) 50))])).
  Proof.
    intros W ys H. unfold shape_tplot. eapply all_step; [apply all_width|]. cbv zeta.
    eapply all_step; [apply (all_radii g), H|]. apply all_ret. now split.
  Qed.
  Lemma all_mesh g : let W := surface_width (sh_shape s) in let ys := colon W 50 in
    (forall y, In y ys -> surface_radius (sh_shape s) y = Ret (g y)) ->
    all e w (mesh_shell_m (obj_shell a))
      (only w (grid aident (fun z => z * #2 * W - W) (cylinder (map g ys) 100))).
  Proof.
    intros W ys H. unfold mesh_shell_m. eapply all_step; [apply all_width|]. cbv zeta.
    eapply all_step; [apply (all_radii g), H|]. apply all_ret. now split.
  Qed.
  Lemma all_framed {A} (p : prog K A) x : all e w p (only w x) ->
    all e w (pbind p (fun fig => pbind (ask "surfaceMaxRadius" (obj_shell a) []) (fun _ => PRet fig))) (only w x).
  Proof.
    intros H. eapply all_step; [exact H|]. eapply all_step; [apply all_max_radius|]. apply all_ret. now split.
  Qed.
  Lemma all_posed {A} (p : affine K -> prog K A) Q : all e w (p (sh_affine s)) Q ->
    all e w (pbind (ask_pose (obj_shell a)) p) Q.
  Proof. intros H. eapply all_step; [apply all_pose|exact H]. Qed.

  (** *** The contact frames. *)
  Lemma all_avg T : contact_affine s = Ret T -> all e w (plot_setup_avg_m (obj_shell a)) (only w (arrows T)).
  Proof.
    intros H. unfold plot_setup_avg_m. eapply all_step; [apply all_max_radius|].
    apply all_bind, all_mex1. intros z _. exists w, (mx_affine T). split.
    - eapply (shell_get_ok (at_address e z) w a s "contactPointAffineAvg" (fun s => affr (contact_affine s)));
        [cbn; tauto|cbn; intuition discriminate|exact Hl|]. unfold affr. now rewrite H.
    - unfold as_affine. rewrite get_affine_mx. apply all_ret. now split.
  Qed.
  Lemma all_rib_frame m i T : whole e m i -> (1 <= i < 2 ^ 31)%Z -> contact_affine_i s (Z.to_nat (i - 1)) = Ret T ->
    all e w (plot_setup_rib_m (obj_shell a) m) (only w (arrows T)).
  Proof.
    intros Hw Hi H. unfold plot_setup_rib_m. eapply all_step; [apply all_max_radius|].
    apply all_bind, all_mex1. intros z _. exists w, (mx_affine T). split.
    - eapply eq_trans; [eapply (shell_at_i_ok (at_address e z) w a s "contactPointAffineRib"
        (fun s i => affr (contact_affine_i s i)) m i); [cbn; tauto|cbn; intuition discriminate|exact Hl|exact Hw|exact Hi]|].
      cbn beta. unfold affr. now rewrite H.
    - unfold as_affine. rewrite get_affine_mx. apply all_ret. now split.
  Qed.
  Lemma all_frames Ts : (Z.of_nat (sh_size s) < 2 ^ 31)%Z ->
    omap (contact_affine_i s) (seq 0 (sh_size s)) = Ret Ts ->
    all e w (plot_setup_vec_m (obj_shell a)) (only w (concat (map arrows Ts))).
  Proof.
    intros Hn Hv. unfold plot_setup_vec_m. apply all_bind.
    refine (all_weak _ _ _ _ _ (all_size e w a s Hl) _). intros w1 r1 [-> ->]. apply all_bind.
    cbn [for_size mx_int64]. rewrite Nat2Z.id.
    destruct (omap_nth _ _ _ Hv) as [L N]. rewrite seq_length in L. rewrite <- L, <- (map_length arrows Ts).
    refine (all_weak _ _ _ _ _ (all_loop e _ (map arrows Ts) (fun _ w' => w' = w) _ w eq_refl) _).
    - intros k x w1 Hx ->. rewrite nth_error_map in Hx. destruct (nth_error Ts k) as [T|] eqn:E; [|discriminate].
      injection Hx as <-. destruct (N k T E) as (i & Hi & Hg). apply nth_seq in Hi as [-> Hk].
      refine (all_weak _ _ _ _ _ (all_rib_frame (mx_int64 (Z.of_nat k + 1)) (Z.of_nat k + 1) T _ _ _) _);
        [apply whole_loop; lia|lia|now replace (Z.to_nat (Z.of_nat k + 1 - 1)) with k by lia|].
      now intros w1 r1 [-> ->].
    - cbn beta. intros w1 r1 [-> ->]. apply all_ret. now split.
  Qed.
  End Shell.

  (** *** Loops that leave a point behind at each turn. *)
  Lemma firstn_snoc {A} (l : list A) k x : nth_error l k = Some x -> firstn (S k) l = firstn k l ++ [x].
  Proof.
    revert k. induction l as [|y l IH]; intros [|k] H; try discriminate; cbn in *.
    - now injection H as ->.
    - f_equal. now apply IH.
  Qed.

  Lemma all_center e w a s m i r (Q : world K -> ending (vec3 K) -> Prop) : live w a (OShell s) -> whole e m i -> (1 <= i < 2 ^ 31)%Z ->
    nth_error (sh_ribs s) (Z.to_nat (i - 1)) = Some r ->
    (forall z, fresh w z -> Q (wnew FShell w z (OPoint (rb_center r))) (Done (rb_center r))) ->
    all e w (ask_center (obj_shell a) m) Q.
  Proof.
    intros Hl Hw Hi Hr HQ. apply all_bind, all_acme. intros z Hz.
    exists (wnew FShell w z (OPoint (rb_center r))), z, (OPoint (rb_center r)).
    split; [|split; [unfold live; cbn; now rewrite Z.eqb_refl|apply all_ret; now apply HQ]].
    unfold obj_shell. cbn [o_handle].
    rewrite (mex_runs FShell _ w 1 _ "ribCenter"
      (shell_point_i (fun s i => let* r := rib_at s i in Ret (rb_center r))));
      [|apply text_command; cbn; intuition discriminate|cbn; tauto].
    unfold shell_point_i, self_shell.
    rewrite (self_ok as_shell 3 w 1 [_] _ a s (OShell s) eq_refl Hl eq_refl).
    cbn [obind arg nth_error]. rewrite (whole_index (at_address e z) m i Hw Hi). cbn [obind snd].
    unfold rib_at. rewrite Hr. reflexivity.
  Qed.

  Lemma all_rib_loop e w a s (body : mx K -> prog K (drawn K)) (out : list (drawn K)) :
    live w a (OShell s) -> (Z.of_nat (sh_size s) < 2 ^ 31)%Z -> List.length out = sh_size s ->
    (forall k r x w1, nth_error (sh_ribs s) k = Some r -> nth_error out k = Some x -> live w1 a (OShell s) ->
       (Z.of_nat k + 1 < 2 ^ 31)%Z ->
       all e w1 (body (mx_int64 (Z.of_nat k + 1))) (fun w2 r2 => r2 = Done x /\
         exists z, fresh w1 z /\ w2 = wnew FShell w1 z (OPoint (rb_center r)))) ->
    all e w (for_size (mx_int64 (Z.of_nat (sh_size s))) body)
      (fun w' r => r = Done out /\ grown w w' (map OPoint (map rb_center (sh_ribs s)))).
  Proof.
    intros Hl Hn L H. cbn [for_size mx_int64]. rewrite Nat2Z.id, <- L. set (ps := map OPoint _).
    assert (Lp : List.length ps = List.length out) by (unfold ps; rewrite !map_length, L; reflexivity).
    refine (all_weak _ _ _ _ _
      (all_loop e _ out (fun k w' => grown w w' (firstn k ps)) _ w (grown_refl w)) _).
    - intros k x w1 Hx Hg.
      assert (Hk : (k < List.length out)%nat) by (apply nth_error_Some; congruence).
      destruct (nth_error (sh_ribs s) k) as [r|] eqn:Hr.
      2:{ apply nth_error_None in Hr. unfold sh_size in L. lia. }
      refine (all_weak _ _ _ _ _ (H k r x w1 Hr Hx (grown_live _ _ _ _ _ Hg Hl) ltac:(lia)) _).
      intros w2 r2 [-> (z & Hz & ->)]. split; [easy|].
      rewrite (firstn_snoc ps k (OPoint (rb_center r))).
      + now apply grown_new.
      + unfold ps. rewrite !nth_error_map, Hr. reflexivity.
    - cbn beta. intros w1 r1 [-> Hg]. split; [easy|]. rewrite <- Lp, firstn_all in Hg. exact Hg.
  Qed.

  Lemma live_wnew w f z o a o' : live w a o -> fresh w z -> live (wnew f w z o') a o.
  Proof.
    intros Hl Hz. eapply grown_live; [|exact Hl]. apply (grown_new w w []); [apply grown_refl|exact Hz].
  Qed.

  Lemma all_rib_disk e w a s T k r : live w a (OShell s) -> (Z.of_nat k + 1 < 2 ^ 31)%Z ->
    nth_error (sh_ribs s) k = Some r ->
    all e w (rib_disk (obj_shell a) T (mx_int64 (Z.of_nat k + 1))) (fun w2 r2 =>
      r2 = Done (DiskAt (disk_transform T (Disk (rb_radius r) (Plane (rb_center r) (V #0 #1 #0))))) /\
      exists z, fresh w z /\ w2 = wnew FShell w z (OPoint (rb_center r))).
  Proof.
    intros Hl Hk Hr. unfold rib_disk.
    assert (E : Z.to_nat (Z.of_nat k + 1 - 1) = k) by lia.
    apply (all_step _ _ _ _ (rb_radius r)).
    - apply all_ask. intros z. refine (proj1 (rib_queries (at_address e z) w a s (mx_int64 (Z.of_nat k + 1)) (Z.of_nat k + 1) r Hl _ _ _));
        [apply whole_loop; lia|lia|now rewrite E].
    - apply all_bind, (all_center e w a s _ (Z.of_nat k + 1)%Z r); [exact Hl|apply whole_loop; lia|lia|now rewrite E|].
      intros z Hz. apply all_ret. split; [easy|]. now exists z.
  Qed.

  Definition band_radii (r : rib K) (wd d : K) : list K :=
    [#1 * rb_radius r + wd / #2 * d; #1 * rb_radius r + - wd / #2 * d].
  Definition band_drawn T wd (r : rib K) (d : K) : drawn K :=
    Surf (grid T (fun z => z * wd - wd / #2 - vy (rb_center r)) (cylinder (band_radii r wd d) 100)).

  Lemma all_band e w a s T wd k r d : live w a (OShell s) -> (Z.of_nat k + 1 < 2 ^ 31)%Z ->
    nth_error (sh_ribs s) k = Some r ->
    surface_derivative (sh_shape s) (vy (rb_center r)) neps = Ret d ->
    all e w (band (obj_shell a) T wd (mx_int64 (Z.of_nat k + 1))) (fun w2 r2 =>
      r2 = Done (band_drawn T wd r d) /\
      exists z, fresh w z /\ w2 = wnew FShell w z (OPoint (rb_center r))).
  Proof.
    intros Hl Hk Hr Hd. unfold band.
    assert (E : Z.to_nat (Z.of_nat k + 1 - 1) = k) by lia.
    apply all_bind, (all_center e w a s _ (Z.of_nat k + 1)%Z r); [exact Hl|apply whole_loop; lia|lia|now rewrite E|].
    intros z Hz. set (w1 := wnew FShell w z (OPoint (rb_center r))).
    assert (Hl1 : live w1 a (OShell s)) by now apply live_wnew.
    apply (all_step _ _ _ _ d); [now apply (all_slope e w1 a s)|].
    apply (all_step _ _ _ _ (rb_radius r)).
    - apply all_ask. intros z'. refine (proj1 (rib_queries (at_address e z') w1 a s (mx_int64 (Z.of_nat k + 1)) (Z.of_nat k + 1) r Hl1 _ _ _));
        [apply whole_loop; lia|lia|now rewrite E].
    - apply all_ret. split; [reflexivity|]. now exists z.
  Qed.

  (** *** The points of a grid. *)
  Lemma map_nth_seq {A} (f : nat -> A) n i : (i < n)%nat -> nth_error (map f (seq 0 n)) i = Some (f i).
  Proof.
    intros H. rewrite nth_error_map, (nth_error_nth' _ 0%nat) by now rewrite seq_length.
    rewrite seq_nth by easy. reflexivity.
  Qed.
  Lemma combine_nth_seq {A} (l : list A) i x : nth_error l i = Some x ->
    forall k, nth_error (combine (seq k (List.length l)) l) i = Some ((k + i)%nat, x).
  Proof.
    revert i. induction l as [|y l IH]; intros [|i] H k; try discriminate; cbn in *.
    - injection H as ->. now rewrite Nat.add_0_r.
    - rewrite (IH i H (S k)). do 2 f_equal. lia.
  Qed.
  Lemma grid_at T ax r n i j x : nth_error r i = Some x -> (j <= n)%nat ->
    point_at (grid T ax (cylinder r n)) i j =
    Some (aapply T (V (x * cyl_sin n j) (ax (#(Z.of_nat i) / #(Z.of_nat (List.length r - 1)))) (x * cyl_cos n j))).
  Proof.
    intros Hi Hj. unfold point_at, grid, cylinder. rewrite map_map, nth_error_map, (combine_nth_seq r i x Hi 0).
    cbn [option_map fst snd]. rewrite map_map, (map_nth_seq _ (n + 1) j) by lia. reflexivity.
  Qed.
  Lemma grid_size T ax r n : rectangular (List.length r) (n + 1) (grid T ax (cylinder r n)).
  Proof.
    unfold rectangular, grid, cylinder. rewrite !map_length, combine_length, seq_length. split; [lia|].
    apply Forall_forall. intros x Hx. rewrite map_map in Hx. apply in_map_iff in Hx as (y & <- & _).
    now rewrite !map_length, seq_length.
  Qed.
End Programs.

Lemma frames_drawn {K} {NK : Num K} (e : env K) w a s : live w a (OShell s) ->
  (forall T, contact_affine s = Ret T -> only_draws e w (plot_setup_avg_m (obj_shell a)) (arrows T)) /\
  (forall m i T, whole e m i -> (1 <= i < 2 ^ 31)%Z -> contact_affine_i s (Z.to_nat (i - 1)) = Ret T ->
     only_draws e w (plot_setup_rib_m (obj_shell a) m) (arrows T)) /\
  (forall Ts, (Z.of_nat (sh_size s) < 2 ^ 31)%Z -> omap (contact_affine_i s) (seq 0 (sh_size s)) = Ret Ts ->
     only_draws e w (plot_setup_vec_m (obj_shell a)) (concat (map arrows Ts))).
Proof.
  intros Hl.
  assert (G : forall A (p : prog K A) x, all e w p (only w x) -> only_draws e w p x).
  { intros A p x H. apply all_always. refine (all_weak _ _ _ _ _ H _). now intros w' r [-> ->]. }
  split; [|split]; intros; apply G.
  - now apply (all_avg e w a s).
  - now apply (all_rib_frame e w a s Hl m i).
  - now apply (all_frames e w a s).
Qed.

(** ** Over the reals. *)
Local Open Scope R_scope.

Lemma f_nat : forall k, nofZ (Num := ER_Num) (Z.of_nat k) = Fin (INR k).
Proof. intros. rewrite INR_IZR_INZ. reflexivity. Qed.
Lemma INR_pos : forall n, (0 < n)%nat -> 0 < INR n.
Proof. intros n H. apply lt_0_INR. exact H. Qed.

Lemma f_colon : forall W h, 0 < W -> (0 < h)%nat ->
  colon (Fin W) h = map (fun i => Fin (station W h i)) (seq 0 (2 * h + 1)).
Proof.
  intros W h HW Hh. unfold colon. change (nofZ (Num := ER_Num) 0) with (Fin 0). rewrite e_lt. replace (rltb 0 W) with true by (symmetry; now apply rltb_true).
  cbn [orb]. apply map_ext. intros k. rewrite !f_nat. pose proof (INR_pos h Hh).
  rewrite e_ndiv by lra. push. f_equal. unfold station. field. lra.
Qed.
Lemma station_bound : forall W h i, 0 < W -> (0 < h)%nat -> (i <= 2 * h)%nat -> Rabs (station W h i) <= W.
Proof.
  intros W h i HW Hh Hi. pose proof (INR_pos h Hh). pose proof (pos_INR i). apply le_INR in Hi.
  rewrite mult_INR in Hi. cbn in Hi. unfold station.
  assert (0 <= INR i / INR h <= 2).
  { split; [apply Rmult_le_pos; [lra|left; apply Rinv_0_lt_compat; lra]|].
    apply Rmult_le_reg_r with (INR h); [lra|]. unfold Rdiv. rewrite Rmult_assoc, Rinv_l by lra. lra. }
  set (x := INR i / INR h) in *. apply Rabs_le. split; nra.
Qed.
Lemma f_cyl : forall n j, (0 < n)%nat -> (j <= n)%nat ->
  cyl_sin (K := er) n j = Fin (sin (2 * PI * INR j / INR n)) /\
  cyl_cos (K := er) n j = Fin (cos (2 * PI * INR j / INR n)).
Proof.
  intros n j Hn Hj. pose proof (INR_pos n Hn).
  assert (E : nmul (nmul (ndiv (nofZ (Z.of_nat j)) (nofZ (Z.of_nat n))) (nofZ 2)) npi = Fin (2 * PI * INR j / INR n)).
  { rewrite !f_nat, e_ndiv by lra. cbn [nofZ npi ER_Num]. push. f_equal. field. lra. }
  unfold cyl_sin, cyl_cos. rewrite E. split; [|reflexivity].
  destruct (Nat.eqb_spec j n) as [->|_]; [|reflexivity].
  replace (2 * PI * INR n / INR n) with (2 * PI) by (field; lra). rewrite sin_2PI. reflexivity.
Qed.

Definition lifted (g : R -> R) (y : er) : er := match y with Fin x => Fin (g x) | _ => y end.

Lemma f_ring_point : forall A r y n j, (0 < n)%nat -> (j <= n)%nat ->
  aapply (fa A) (V (nmul (Fin r) (cyl_sin n j)) (Fin y) (nmul (Fin r) (cyl_cos n j))) = fv (place A (on_ring r y n j)).
Proof.
  intros A r y n j Hn Hj. destruct (f_cyl n j Hn Hj) as [-> ->]. push. rewrite <- f_aapply. reflexivity.
Qed.

Lemma tread_grid : forall W h n A g i j, 0 < W -> (0 < h)%nat -> (0 < n)%nat -> (i <= 2 * h)%nat -> (j <= n)%nat ->
  point_at (grid (fa A) (fun z => nsub (nmul (nmul z (nofZ 2)) (Fin W)) (Fin W))
    (cylinder (map (lifted g) (colon (Fin W) h)) n)) i j =
  Some (fv (place A (on_ring (g (station W h i)) (station W h i) n j))).
Proof.
  intros W h n A g i j HW Hh Hn Hi Hj. pose proof (INR_pos h Hh). rewrite f_colon by auto.
  erewrite grid_at; [|rewrite nth_error_map, (map_nth_seq _ _ i) by lia; reflexivity|exact Hj].
  rewrite !map_length, seq_length. replace (2 * h + 1 - 1)%nat with (2 * h)%nat by lia. rewrite !f_nat.
  cbn [lifted]. rewrite e_ndiv by (rewrite mult_INR; cbn; lra). cbn [nofZ ER_Num]. push. rewrite <- f_ring_point by auto.
  do 3 f_equal. f_equal. unfold station. rewrite mult_INR. cbn [INR]. field. lra.
Qed.

Lemma place_ident : forall p, place (Aff (M3 1 0 0 0 1 0 0 0 1) (V 0 0 0)) p = p.
Proof. intros [x y z]. unfold place. cbn. unfold padd. cbn. f_equal; ring. Qed.
Lemma f_ident : (aident : affine er) = fa (Aff (M3 1 0 0 0 1 0 0 0 1) (V 0 0 0)).
Proof. apply ident_rigid. Qed.

Section Wheel.
  Variables (e : env er) (w : world er) (a : Z) (s : shell er) (sp : shape R).
  Hypotheses (Hl : live w a (OShell s)) (Hs : sh_shape s = fshape sp) (Hg : good_shape sp).

  Lemma width_is : surface_width (sh_shape s) = Fin (sLy sp).
  Proof. rewrite Hs. reflexivity. Qed.
  Lemma ly_pos : 0 < sLy sp. Proof. apply Hg. Qed.
  Lemma radii_known h : (0 < h)%nat -> forall y, In y (colon (surface_width (sh_shape s)) h) ->
    surface_radius (sh_shape s) y = Ret (lifted (radius_at sp) y).
  Proof.
    intros Hh y. rewrite width_is, (f_colon _ _ ly_pos Hh). intros H. apply in_map_iff in H as (i & <- & Hi).
    apply in_seq in Hi. rewrite Hs, f_radius; auto. apply station_bound; [apply ly_pos|auto|lia].
  Qed.
  Lemma radius_known h i : (0 < h)%nat -> (i <= 2 * h)%nat ->
    surface_radius (sh_shape s) (Fin (station (sLy sp) h i)) = Ret (Fin (radius_at sp (station (sLy sp) h i))).
  Proof. intros Hh Hi. rewrite Hs. apply f_radius; auto. apply station_bound; [apply ly_pos|auto|lia]. Qed.
  Lemma only_sym {A} (w0 : world er) (x : A) : forall w' r, only w0 x w' r -> r = Done x /\ w' = w0.
  Proof. now intros w' r [-> ->]. Qed.

  Lemma profile_drawn : exists l, only_draws e w (profile_m (obj_shell a)) [Curve l] /\
    List.length l = 101%nat /\
    forall i, (i <= 100)%nat -> exists r, nth_error l i = Some (Fin (station (sLy sp) 50 i), Fin r) /\
      surface_radius (sh_shape s) (Fin (station (sLy sp) 50 i)) = Ret (Fin r).
  Proof.
    pose proof (all_profile e w a s Hl (lifted (radius_at sp)) (radii_known 50 ltac:(lia))) as P.
    eexists. split; [apply all_always; refine (all_weak _ _ _ _ _ P (only_sym w _))|].
    rewrite width_is, (f_colon _ 50 ly_pos) by lia. split; [now rewrite combine_length, !map_length, seq_length|].
    intros i Hi. exists (radius_at sp (station (sLy sp) 50 i)). split; [|apply radius_known; lia].
    rewrite map_map. change (2 * 50 + 1)%nat with 101%nat.
    assert (G : forall (f g : nat -> er) l k x, nth_error l k = Some x ->
      nth_error (combine (map f l) (map g l)) k = Some (f x, g x)).
    { clear. induction l as [|y l IH]; intros [|k] x H; try discriminate; cbn in *; [now injection H as ->|now apply IH]. }
    rewrite (G _ _ _ i i); [reflexivity|]. rewrite (nth_error_nth' _ 0%nat) by (rewrite seq_length; lia).
    rewrite seq_nth by lia. reflexivity.
  Qed.

  Lemma mesh_drawn : exists rows, only_draws e w (mesh_shell_m (obj_shell a)) rows /\
    rectangular 101 101 rows /\
    forall i j, (i <= 100)%nat -> (j <= 100)%nat -> exists r,
      surface_radius (sh_shape s) (Fin (station (sLy sp) 50 i)) = Ret (Fin r) /\
      point_at rows i j = Some (fv (on_ring r (station (sLy sp) 50 i) 100 j)).
  Proof.
    pose proof (all_mesh e w a s Hl (lifted (radius_at sp)) (radii_known 50 ltac:(lia))) as P.
    eexists. split; [apply all_always; refine (all_weak _ _ _ _ _ P (only_sym w _))|].
    rewrite width_is. split.
    - pose proof (grid_size (aident : affine er) (fun z => nsub (nmul (nmul z (nofZ 2)) (Fin (sLy sp))) (Fin (sLy sp)))
        (map (lifted (radius_at sp)) (colon (Fin (sLy sp)) 50)) 100) as G.
      rewrite (f_colon _ 50 ly_pos) in G at 1 by lia. rewrite !map_length, seq_length in G. exact G.
    - intros i j Hi Hj. eexists. split; [apply radius_known; lia|]. rewrite f_ident.
      rewrite (tread_grid (sLy sp) 50 100 _ (radius_at sp) i j ly_pos) by lia. now rewrite place_ident.
  Qed.

  Lemma ring_on_tread y n j : Rabs y <= sLy sp -> on_tread sp (on_ring (radius_at sp y) y n j).
  Proof.
    intros H. unfold on_tread, on_ring. cbn [vx vy vz]. split; [exact H|]. exists (radius_at sp y).
    split; [now apply radius_range|]. split; [now apply radius_profile|].
    pose proof (sin2_cos2 (2 * PI * INR j / INR n)) as E. unfold Rsqr in E.
    set (r := radius_at sp y) in *. set (S := sin _) in *. set (C := cos _) in *.
    replace (r * S * (r * S) + r * C * (r * C)) with (r * r * (S * S + C * C)) by ring. rewrite E. ring.
  Qed.

  Lemma f_arrows A : arrows (fa A) = axes A.
  Proof. destruct A as [[] []]. reflexivity. Qed.

  Lemma shape_drawn A : exists rows,
    all e w (shape_tplot (obj_shell a) (fa A)) (only w (axes A ++ [Surf rows])) /\
    rectangular 51 51 rows /\
    forall i j, (i <= 50)%nat -> (j <= 50)%nat -> exists r,
      surface_radius (sh_shape s) (Fin (station (sLy sp) 25 i)) = Ret (Fin r) /\
      point_at rows i j = Some (fv (place A (on_ring r (station (sLy sp) 25 i) 50 j))).
  Proof.
    pose proof (all_shape e w a s Hl (fa A) (lifted (radius_at sp)) (radii_known 25 ltac:(lia))) as P.
    eexists. split; [rewrite <- f_arrows; exact P|]. rewrite width_is. split.
    - pose proof (grid_size (fa A) (fun z => nsub (nmul (nmul z (nofZ 2)) (Fin (sLy sp))) (Fin (sLy sp)))
        (map (lifted (radius_at sp)) (colon (Fin (sLy sp)) 25)) 50) as G.
      rewrite (f_colon _ 25 ly_pos) in G at 1 by lia. rewrite !map_length, seq_length in G. exact G.
    - intros i j Hi Hj. eexists. split; [apply radius_known; lia|].
      rewrite (tread_grid (sLy sp) 25 50 _ (radius_at sp) i j ly_pos) by lia. reflexivity.
  Qed.

  Lemma plot_shape_drawn A : sh_affine s = fa A -> exists rows,
    only_draws e w (plot_shape_m (obj_shell a)) (axes A ++ [Surf rows]) /\
    rectangular 51 51 rows /\
    forall i j, (i <= 50)%nat -> (j <= 50)%nat -> exists r,
      surface_radius (sh_shape s) (Fin (station (sLy sp) 25 i)) = Ret (Fin r) /\
      point_at rows i j = Some (fv (place A (on_ring r (station (sLy sp) 25 i) 50 j))).
  Proof.
    intros HA. destruct (shape_drawn A) as (rows & P & Q). exists rows. split; [|exact Q].
    apply all_always. refine (all_weak _ _ _ _ _ _ (only_sym w _)). unfold plot_shape_m.
    apply (all_posed e w a s Hl). rewrite HA. apply (all_framed e w a s Hl), P.
  Qed.
  Lemma shell_shape_drawn : let I := Aff (M3 1 0 0 0 1 0 0 0 1) (V 0 0 0) in exists rows,
    only_draws e w (shell_shape_m (obj_shell a)) (axes I ++ [Surf rows]) /\
    rectangular 51 51 rows /\
    forall i j, (i <= 50)%nat -> (j <= 50)%nat -> exists r,
      surface_radius (sh_shape s) (Fin (station (sLy sp) 25 i)) = Ret (Fin r) /\
      point_at rows i j = Some (fv (on_ring r (station (sLy sp) 25 i) 50 j)).
  Proof.
    intros I. destruct (shape_drawn I) as (rows & P & Q & N). exists rows. split; [|split; [exact Q|]].
    - apply all_always. refine (all_weak _ _ _ _ _ _ (only_sym w _)). unfold shell_shape_m.
      rewrite f_ident. apply (all_framed e w a s Hl), P.
    - intros i j Hi Hj. destruct (N i j Hi Hj) as (r & H1 & H2). exists r. unfold I in H2. now rewrite place_ident in H2.
  Qed.

  (** *** Ribs. *)
  Lemma after_rib_loop {A B} (p : prog er A) (g : A -> B) x l :
    all e w p (fun w' r => r = Done x /\ grown w w' l) ->
    all e w (pbind p (fun y => PRet (g y))) (fun w' r => r = Done (g x) /\ grown w w' l).
  Proof.
    intros H. apply all_bind. refine (all_weak _ _ _ _ _ H _). intros w1 r1 [-> G]. apply all_ret. now split.
  Qed.
  Lemma framed_grown {A} (p : prog er A) x l : all e w p (fun w' r => r = Done x /\ grown w w' l) ->
    all e w (pbind p (fun fig => pbind (ask "surfaceMaxRadius" (obj_shell a) []) (fun _ => PRet fig)))
      (fun w' r => r = Done x /\ grown w w' l).
  Proof.
    intros H. apply all_bind. refine (all_weak _ _ _ _ _ H _). intros w1 r1 [-> G].
    pose proof (grown_live _ _ _ _ _ G Hl) as H1.
    eapply all_step; [apply (all_max_radius e w1 a s H1)|]. apply all_ret. now split.
  Qed.
  Lemma size_step {B} (g : mx er -> prog er B) Q : all e w (g (mx_int64 (Z.of_nat (sh_size s)))) Q ->
    all e w (pbind (mex1 FShell [text "size"; o_handle (obj_shell a)]) g) Q.
  Proof.
    intros H. apply all_bind. refine (all_weak _ _ _ _ _ (all_size e w a s Hl) _). now intros w1 r1 [-> ->].
  Qed.

  Lemma disks_drawn A rs : sh_ribs s = map frib rs -> Forall axial_rib rs -> (Z.of_nat (sh_size s) < 2 ^ 31)%Z ->
    all e w (ribs_tplot (obj_shell a) (fa A)) (fun w' r =>
      r = Done (axes A ++ map (fun r => DiskAt (fdisk (posed_disk r A))) rs) /\
      grown w w' (map (fun r => OPoint (fv (rb_center r))) rs)).
  Proof.
    intros HR HX Hn. unfold ribs_tplot. apply size_step. rewrite <- f_arrows.
    apply (after_rib_loop _ (fun l => arrows (fa A) ++ l)).
    replace (map (fun r => OPoint (fv (rb_center r))) rs) with (map (@OPoint er) (map rb_center (sh_ribs s)))
      by (rewrite HR, !map_map; reflexivity).
    apply (all_rib_loop e w a s); [exact Hl|exact Hn|unfold sh_size; now rewrite HR, !map_length|].
    intros k r x w1 Hr Hx Hl1 Hk. rewrite HR, nth_error_map in Hr. rewrite nth_error_map in Hx.
    destruct (nth_error rs k) as [q|] eqn:E; [|discriminate]. injection Hr as <-. injection Hx as <-.
    rewrite Forall_forall in HX. destruct (HX q (nth_error_In _ _ E)) as (N & _).
    refine (all_weak _ _ _ _ _ (all_rib_disk e w1 a s (fa A) k (frib q) Hl1 Hk _) _).
    - now rewrite HR, nth_error_map, E.
    - intros w2 r2 [-> H2]. split; [|exact H2]. do 2 f_equal.
      unfold disk_transform, plane_transform, point_transform, posed_disk, fdisk, fplane. cbn [dradius dplane porigin pnormal].
      f_equal. f_equal.
      + change (rb_center (frib q)) with (fv (rb_center q)). apply f_aapply.
      + rewrite N. destruct A as [[] []]. cbn. unfold fv. cbn. reflexivity.
  Qed.

  Lemma plot_ribs_drawn A : reach s -> sh_affine s = fa A -> (Z.of_nat (sh_size s) < 2 ^ 31)%Z ->
    exists rs, sh_ribs s = map frib rs /\
      draws e w (plot_ribs_m (obj_shell a)) (axes A ++ map (fun r => DiskAt (fdisk (posed_disk r A))) rs)
        (map (fun r => OPoint (fv (rb_center r))) rs).
  Proof.
    intros RC HA Hn. destruct (reach_slices s RC sp Hs Hg) as (n & N & RB). exists (slices sp n). split; [exact RB|].
    apply all_always. unfold plot_ribs_m. apply (all_posed e w a s Hl). rewrite HA. apply framed_grown.
    apply disks_drawn; auto. apply Forall_forall. intros r Hr. apply In_nth_error in Hr as (k & Hk).
    assert (k < n)%nat by (rewrite <- (slices_length sp n); apply nth_error_Some; congruence).
    rewrite slices_nth in Hk by auto. injection Hk as <-. now repeat split.
  Qed.
  Lemma shell_ribs_drawn : reach s -> (Z.of_nat (sh_size s) < 2 ^ 31)%Z ->
    let I := Aff (M3 1 0 0 0 1 0 0 0 1) (V 0 0 0) in
    exists rs, sh_ribs s = map frib rs /\
      draws e w (shell_ribs_m (obj_shell a)) (axes I ++ map (fun r => DiskAt (fdisk (rb_disk r))) rs)
        (map (fun r => OPoint (fv (rb_center r))) rs).
  Proof.
    intros RC Hn I. destruct (reach_slices s RC sp Hs Hg) as (n & N & RB). exists (slices sp n). split; [exact RB|].
    assert (AX : Forall axial_rib (slices sp n)).
    { apply Forall_forall. intros r Hr. apply In_nth_error in Hr as (k & Hk).
      assert (k < n)%nat by (rewrite <- (slices_length sp n); apply nth_error_Some; congruence).
      rewrite slices_nth in Hk by auto. injection Hk as <-. now repeat split. }
    apply all_always. unfold shell_ribs_m. rewrite f_ident. apply framed_grown.
    replace (map (fun r => DiskAt (fdisk (rb_disk r))) (slices sp n))
      with (map (fun r => DiskAt (fdisk (posed_disk r I))) (slices sp n)); [apply disks_drawn; auto|].
    apply map_ext_in. intros r Hr. rewrite Forall_forall in AX. destruct (AX r Hr) as (Nr & _). do 2 f_equal.
    unfold posed_disk, I. rewrite place_ident. destruct r as [[rad [o nn]] i y wd an]. cbn in *. subst nn. cbn. unfold rb_radius, rb_center, dcenter. cbn. do 2 f_equal. unfold papply. cbn. f_equal; ring.
  Qed.

  (** *** Bands. *)
  Lemma band_points A wd r d i j : (i <= 1)%nat -> (j <= 100)%nat ->
    let t := match i with O => - wd / 2 | _ => wd / 2 end in
    point_at (grid (fa A) (fun z => nsub (nsub (nmul z (Fin wd)) (ndiv (Fin wd) (nofZ 2))) (vy (rb_center (frib r))))
      (cylinder (band_radii (frib r) (Fin wd) (Fin d)) 100)) i j =
    Some (fv (place A (on_ring (rb_radius r - d * t) (- vy (rb_center r) + t) 100 j))).
  Proof.
    intros Hi Hj t. unfold band_radii. change (rb_radius (frib r)) with (Fin (rb_radius r)).
    change (vy (rb_center (frib r))) with (Fin (vy (rb_center r))).
    change (nofZ (Num := ER_Num) 2) with (Fin 2). change (nofZ (Num := ER_Num) 1) with (Fin 1).
    push. rewrite !e_ndiv by lra. push.
    destruct i as [|[|i]]; [| |lia].
    - erewrite grid_at; [|reflexivity|exact Hj]. rewrite !f_nat. cbn [List.length Nat.sub]. rewrite e_ndiv by (cbn; lra).
      push. rewrite <- f_ring_point by lia. unfold t. apply f_equal, f_equal. f_equal; [f_equal; f_equal; cbn; field|f_equal; cbn; field|f_equal; f_equal; cbn; field].
    - erewrite grid_at; [|reflexivity|exact Hj]. rewrite !f_nat. cbn [List.length Nat.sub]. rewrite e_ndiv by (cbn; lra).
      push. rewrite <- f_ring_point by lia. unfold t. apply f_equal, f_equal. f_equal; [f_equal; f_equal; cbn; field|f_equal; cbn; field|f_equal; f_equal; cbn; field].
  Qed.

  Lemma bands_drawn A : reach s -> (Z.of_nat (sh_size s) < 2 ^ 31)%Z -> e_toint e (Fin 1) = Ret 1%Z ->
    exists surfs,
      all e w (enve_tplot (obj_shell a) (fa A)) (fun w' r => r = Done (axes A ++ map (@Surf er) surfs) /\
        grown w w' (map OPoint (map rb_center (sh_ribs s)))) /\
      List.length surfs = sh_size s /\
      forall k rows, nth_error surfs k = Some rows -> rectangular 2 101 rows /\
        exists r d, has_rib s (sh_size s - 1 - k) r /\
          surface_derivative (sh_shape s) (Fin (vy (rb_center r))) neps = Ret (Fin d) /\
          forall i j, (i <= 1)%nat -> (j <= 100)%nat ->
            point_at rows i j = Some (fv (place A
              (on_ring (cone_radius r d (rib_end r i)) (vy (rb_center r) + rib_end r i) 100 j))).
  Proof.
    intros RC Hn H1. destruct (reach_slices s RC sp Hs Hg) as (n & N & RB).
    assert (SZ : sh_size s = n) by (unfold sh_size; now rewrite RB, map_length, slices_length).
    set (wd := slice_width (sLy sp) n). set (c := slice_center (sLy sp) n).
    set (rk := fun k => real_rib sp wd (int_of_size k) (c k)).
    assert (HK : forall k, (k < n)%nat -> nth_error (sh_ribs s) k = Some (frib (rk k)))
      by (intros k Hk; rewrite RB, nth_error_map, slices_nth by auto; reflexivity).
    assert (HC : forall k, (k < n)%nat -> Rabs (c k) <= sLy sp /\ Rabs (c k) < sRy sp).
    { intros k Hk. pose proof (slice_bound sp Hg n k Hk). pose proof (slice_width_pos sp Hg n N).
      pose proof Hg as (_ & _ & _ & _ & ?). unfold c. lra. }
    assert (HD : forall k, (k < n)%nat -> exists d, surface_derivative (sh_shape s) (Fin (c k)) neps = Ret (Fin d) /\
      surface_derivative (sh_shape s) (Fin (- c k)) neps = Ret (Fin (- d))).
    { intros k Hk. destruct (HC k Hk). rewrite Hs, neps_eps. apply derivative_odd; auto. left. apply eps_pos. }
    assert (LC : exists ds, List.length ds = n /\ forall k d, nth_error ds k = Some d ->
      surface_derivative (sh_shape s) (Fin (c k)) neps = Ret (Fin d) /\
      surface_derivative (sh_shape s) (Fin (- c k)) neps = Ret (Fin (- d))).
    { revert HD. clear. clearbody c. revert c. generalize n.  intros m c. induction m as [|m IH]; intros HD.
      - exists []. split; [reflexivity|]. now intros [].
      - destruct IH as (ds & L & D); [intros; apply HD; lia|]. destruct (HD m ltac:(lia)) as (d & Hd).
        exists (ds ++ [d]). split; [rewrite app_length; cbn; lia|]. intros k x Hx.
        destruct (Nat.lt_ge_cases k (List.length ds)) as [B|B].
        + rewrite nth_error_app1 in Hx by auto. now apply D.
        + rewrite nth_error_app2 in Hx by auto. destruct (k - List.length ds)%nat as [|q] eqn:Q; cbn in Hx.
          * injection Hx as <-. now replace k with m by lia.
          * destruct q; discriminate. }
    destruct LC as (ds & LD & DD).
    set (rows := fun kd : nat * R => grid (fa A) (fun z => nsub (nsub (nmul z (Fin wd)) (ndiv (Fin wd) (nofZ 2))) (vy (rb_center (frib (rk (fst kd))))))
        (cylinder (band_radii (frib (rk (fst kd))) (Fin wd) (Fin (snd kd))) 100)).
    exists (map rows (combine (seq 0 n) ds)).
    assert (NT : forall k d, nth_error ds k = Some d -> nth_error (map rows (combine (seq 0 n) ds)) k = Some (rows (k, d))).
    { intros k d E. rewrite nth_error_map, <- LD, (combine_nth_seq ds k d E 0). reflexivity. }
    split; [|split].
    - unfold enve_tplot. apply size_step. apply (all_step _ _ _ _ (Fin wd)).
      + apply all_ask. intros z.
        refine (proj1 (proj2 (rib_queries (at_address e z) w a s (mx_scalar (nofZ 1)) 1 (frib (rk 0%nat)) Hl _ _ _)));
          [right; exists (Fin 1); split; [now left|exact H1]|lia|now apply HK].
      + rewrite <- f_arrows. apply (after_rib_loop _ (fun l => arrows (fa A) ++ l)).
        apply (all_rib_loop e w a s); [exact Hl|exact Hn|rewrite !map_length, combine_length, seq_length, LD, SZ; lia|].
        intros k r x w1 Hr Hx Hl1 Hk.
        assert (Kn : (k < n)%nat) by (rewrite <- SZ; apply nth_error_Some; unfold sh_size; congruence).
        destruct (nth_error ds k) as [d|] eqn:E; [|apply nth_error_None in E; lia].
        rewrite nth_error_map, (NT k d E) in Hx. injection Hx as <-. rewrite HK in Hr by auto. injection Hr as <-.
        apply (all_band e w1 a s (fa A) (Fin wd) k (frib (rk k)) (Fin d)); auto. now apply DD.
    - rewrite map_length, combine_length, seq_length, LD, SZ. lia.
    - intros k q Hq.
      assert (Kn : (k < n)%nat).
      { assert (L : nth_error (map rows (combine (seq 0 n) ds)) k <> None) by congruence.
        apply nth_error_Some in L. rewrite map_length, combine_length, seq_length, LD in L. lia. }
      destruct (nth_error ds k) as [d|] eqn:E; [|apply nth_error_None in E; lia].
      rewrite (NT k d E) in Hq. injection Hq as <-. split; [apply grid_size|].
      assert (CS : c (n - 1 - k)%nat = - c k) by now apply slice_symmetric.
      exists (rk (n - 1 - k)%nat), (- d). rewrite SZ. split; [|split].
      + unfold has_rib, rib_at. now rewrite HK by lia.
      + change (vy (rb_center (rk (n - 1 - k)%nat))) with (c (n - 1 - k)%nat). rewrite CS. now apply DD.
      + intros i j Hi Hj. unfold rows. cbn [fst snd]. rewrite band_points by auto. do 3 f_equal.
        unfold cone_radius. change (vy (rb_center (rk (n - 1 - k)%nat))) with (c (n - 1 - k)%nat).
        change (vy (rb_center (rk k))) with (c k).
        change (rb_radius (rk (n - 1 - k)%nat)) with (radius_at sp (c (n - 1 - k)%nat)).
        change (rb_radius (rk k)) with (radius_at sp (c k)).
        rewrite CS, radius_even. unfold rib_end. change (rb_width (rk (n - 1 - k)%nat)) with wd.
        f_equal. ring.
  Qed.

  Lemma plot_bands_drawn A : reach s -> sh_affine s = fa A -> (Z.of_nat (sh_size s) < 2 ^ 31)%Z ->
    e_toint e (Fin 1) = Ret 1%Z ->
    exists surfs,
      draws e w (plot_enve_m (obj_shell a)) (axes A ++ map (@Surf er) surfs) (map OPoint (map rb_center (sh_ribs s))) /\
      List.length surfs = sh_size s /\
      forall k rows, nth_error surfs k = Some rows -> rectangular 2 101 rows /\
        exists r d, has_rib s (sh_size s - 1 - k) r /\
          surface_derivative (sh_shape s) (Fin (vy (rb_center r))) neps = Ret (Fin d) /\
          forall i j, (i <= 1)%nat -> (j <= 100)%nat ->
            point_at rows i j = Some (fv (place A
              (on_ring (cone_radius r d (rib_end r i)) (vy (rb_center r) + rib_end r i) 100 j))).
  Proof.
    intros RC HA Hn H1. destruct (bands_drawn A RC Hn H1) as (surfs & P & Q). exists surfs. split; [|exact Q].
    apply all_always. unfold plot_enve_m. apply (all_posed e w a s Hl). rewrite HA. now apply framed_grown.
  Qed.
  Lemma shell_bands_drawn : let I := Aff (M3 1 0 0 0 1 0 0 0 1) (V 0 0 0) in
    reach s -> (Z.of_nat (sh_size s) < 2 ^ 31)%Z -> e_toint e (Fin 1) = Ret 1%Z ->
    exists surfs,
      draws e w (shell_enve_m (obj_shell a)) (axes I ++ map (@Surf er) surfs) (map OPoint (map rb_center (sh_ribs s))) /\
      List.length surfs = sh_size s /\
      forall k rows, nth_error surfs k = Some rows -> rectangular 2 101 rows /\
        exists r d, has_rib s (sh_size s - 1 - k) r /\
          surface_derivative (sh_shape s) (Fin (vy (rb_center r))) neps = Ret (Fin d) /\
          forall i j, (i <= 1)%nat -> (j <= 100)%nat ->
            point_at rows i j = Some (fv
              (on_ring (cone_radius r d (rib_end r i)) (vy (rb_center r) + rib_end r i) 100 j)).
  Proof.
    intros I RC Hn H1. destruct (bands_drawn I RC Hn H1) as (surfs & P & L & Q). exists surfs. split; [|split; [exact L|]].
    - apply all_always. unfold shell_enve_m. rewrite f_ident. now apply framed_grown.
    - intros k rows E. destruct (Q k rows E) as (B & r & d & H & D & F). split; [exact B|]. exists r, d.
      split; [exact H|]. split; [exact D|]. intros i j Hi Hj. specialize (F i j Hi Hj). unfold I in F. now rewrite place_ident in F.
  Qed.

  (** *** Every point is on the tread. *)
  Lemma only_draws_one {X} (p : prog er X) x y : only_draws e w p x -> only_draws e w p y -> x = y.
  Proof.
    intros [(tr & w1 & r & E) H1] [_ H2]. destruct (H1 _ _ _ E) as [-> _]. destruct (H2 _ _ _ E) as [H _]. congruence.
  Qed.
  Lemma point_bounds {P} n m (rows : list (list P)) i j p : rectangular n m rows -> point_at rows i j = Some p ->
    (i < n)%nat /\ (j < m)%nat.
  Proof.
    intros [L F] H. unfold point_at in H. destruct (nth_error rows i) as [r|] eqn:E; [|discriminate].
    split; [rewrite <- L; apply nth_error_Some; congruence|]. rewrite Forall_forall in F.
    rewrite <- (F r (nth_error_In _ _ E)). apply nth_error_Some. congruence.
  Qed.
  Lemma station_radius h i r : (0 < h)%nat -> (i <= 2 * h)%nat ->
    surface_radius (sh_shape s) (Fin (station (sLy sp) h i)) = Ret (Fin r) -> r = radius_at sp (station (sLy sp) h i).
  Proof. intros Hh Hi H. rewrite radius_known in H by auto. now injection H. Qed.
  Lemma mesh_on_tread rows i j p : only_draws e w (mesh_shell_m (obj_shell a)) rows -> point_at rows i j = Some p ->
    exists v, p = fv v /\ on_tread sp v.
  Proof.
    intros H Hp. destruct mesh_drawn as (rows' & D & B & F). assert (rows' = rows) as -> by (eapply only_draws_one; eauto).
    destruct (point_bounds _ _ _ _ _ _ B Hp). destruct (F i j ltac:(lia) ltac:(lia)) as (r & R & E).
    rewrite E in Hp. injection Hp as <-. eexists. split; [reflexivity|].
    rewrite (station_radius 50 i r) by (auto; lia). apply ring_on_tread. apply station_bound; [apply ly_pos| |]; lia.
  Qed.
  Lemma shape_on_tread A fig rows i j p : sh_affine s = fa A -> only_draws e w (plot_shape_m (obj_shell a)) fig ->
    In (Surf rows) fig -> point_at rows i j = Some p -> exists v, p = fv (place A v) /\ on_tread sp v.
  Proof.
    intros HA H HI Hp. destruct (plot_shape_drawn A HA) as (rows' & D & B & F).
    rewrite (only_draws_one _ _ _ H D) in HI. apply in_app_iff in HI as [HI|[HI|[]]].
    { unfold axes in HI. cbn in HI. intuition discriminate. }
    injection HI as ->. destruct (point_bounds _ _ _ _ _ _ B Hp). destruct (F i j ltac:(lia) ltac:(lia)) as (r & R & E).
    rewrite E in Hp. injection Hp as <-. eexists. split; [reflexivity|].
    rewrite (station_radius 25 i r) by (auto; lia). apply ring_on_tread. apply station_bound; [apply ly_pos| |]; lia.
  Qed.
End Wheel.
