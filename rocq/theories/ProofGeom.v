(** * Real geometry: the model's vector functions on finite numbers, and
      facts of plain geometry. *)
From Coq Require Import ZArith Bool List Reals Lra Lia.
From Verif Require Import Base Num Vec Geom ER SpecGeom.
Import ListNotations.
Local Open Scope R_scope.

Lemma eps_pos : 0 < eps.
Proof. unfold eps. apply Rinv_0_lt_compat. apply pow_lt. lra. Qed.
Lemma eps_lt1 : eps < 1.
Proof.
  unfold eps. rewrite <- Rinv_1. apply Rinv_lt_contravar; [|apply Rlt_pow_R1; [lra|lia]].
  rewrite Rmult_1_l. apply pow_lt. lra.
Qed.
Lemma neps_eps : (neps : er) = Fin eps.
Proof. reflexivity. Qed.

(** ** Comparisons. *)
Ltac rb := match goal with
  | H : rltb _ _ = true |- _ => apply rltb_true in H
  | H : rltb _ _ = false |- _ => apply rltb_false in H
  | H : rleb _ _ = true |- _ => apply rleb_true in H
  | H : rleb _ _ = false |- _ => apply rleb_false in H
  | H : reqb _ _ = true |- _ => apply reqb_true in H
  | H : reqb _ _ = false |- _ => apply reqb_false in H
  end.

(** ** Pushing [fv]. *)
Lemma vec_eq : forall K (a b : vec3 K), vx a = vx b -> vy a = vy b -> vz a = vz b -> a = b.
Proof. intros K [] [] H1 H2 H3. cbn in *. congruence. Qed.
Lemma fv_inj : forall a b, fv a = fv b -> a = b.
Proof. intros [] [] H. inversion H. reflexivity. Qed.

Lemma f_add : forall a b, vadd (fv a) (fv b) = fv (padd a b).
Proof. reflexivity. Qed.
Lemma f_sub : forall a b, vsub (fv a) (fv b) = fv (psub a b).
Proof. reflexivity. Qed.
Lemma f_opp : forall a, vopp (fv a) = fv (pscale (-1) a).
Proof. intros [x y z]. apply vec_eq; cbn; f_equal; ring. Qed.
Lemma f_mul : forall k a, vmul (Fin k) (fv a) = fv (pscale k a).
Proof. reflexivity. Qed.
Lemma f_mulr : forall k a, vmulr (fv a) (Fin k) = fv (pscale k a).
Proof. intros k [x y z]. apply vec_eq; cbn; f_equal; ring. Qed.
Lemma f_dot : forall a b, vdot (fv a) (fv b) = Fin (pdot a b).
Proof. reflexivity. Qed.
Lemma f_cross : forall a b, vcross (fv a) (fv b) = fv (pcross a b).
Proof. reflexivity. Qed.
Lemma f_sqnorm : forall a, vsqnorm (fv a) = Fin (pdot a a).
Proof. reflexivity. Qed.
Lemma e_div : forall x y, y <> 0 -> ediv (Fin x) (Fin y) = Fin (x / y).
Proof. intros x y H. cbn. destruct (reqb y 0) eqn:E; auto. rb. contradiction. Qed.
Lemma e_sqrt : forall x, 0 <= x -> esqrt (Fin x) = Fin (sqrt x).
Proof. intros x H. cbn. destruct (rltb x 0) eqn:E; auto. rb. lra. Qed.
Lemma f_div : forall k a, k <> 0 -> vdiv (fv a) (Fin k) = fv (pscale (/ k) a).
Proof.
  intros k [x y z] H. unfold vdiv, fv, pscale. cbn [vx vy vz ndiv ER_Num].
  rewrite !e_div by auto. unfold Rdiv. f_equal; f_equal; ring.
Qed.
Lemma pdot_pos : forall a, 0 <= pdot a a.
Proof. intros [x y z]. unfold pdot. cbn. nra. Qed.
Lemma f_norm : forall a, vnorm (fv a) = Fin (pnorm a).
Proof. intros a. unfold vnorm. rewrite f_sqnorm. apply e_sqrt, pdot_pos. Qed.
Definition punit (a : pt) : pt := if rltb 0 (pdot a a) then pscale (/ pnorm a) a else a.
Lemma f_normalized : forall a, vnormalized (fv a) = fv (punit a).
Proof.
  intros a. unfold vnormalized, punit. rewrite f_sqnorm. cbn [nlt ER_Num nofZ eltb].
  destruct (rltb 0 (pdot a a)) eqn:E; auto. rb.
  change (nsqrt (Fin (pdot a a))) with (esqrt (Fin (pdot a a))).
  rewrite e_sqrt by lra. apply f_div. apply Rgt_not_eq. now apply sqrt_lt_R0.
Qed.
Lemma f_apply : forall m a, mvmul (fm m) (fv a) = fv (papply m a).
Proof. reflexivity. Qed.
Lemma f_const : forall k, vconst (Fin k) = fv (V k k k).
Proof. reflexivity. Qed.
Lemma f_place : forall a p, vadd (tra (fa a)) (mvmul (lin (fa a)) (fv p)) = fv (place a p).
Proof. reflexivity. Qed.

(** ** Plain vector facts. *)
Ltac vunf := unfold bary, is_unit, padd, psub, pscale, pdot, pcross, papply, pcol0, pcol1, pcol2 in *; cbn [vx vy vz sv0 sv1 tv0 tv1 tv2 lorigin ldir porigin pnormal] in *.
Ltac vring := intros; apply vec_eq; vunf; ring.
Ltac vringd := intros; repeat match goal with a : pt |- _ => destruct a | a : vec3 R |- _ => destruct a end; vunf; try ring; try (f_equal; ring).

Lemma padd_comm : forall a b, padd a b = padd b a. Proof. vring. Qed.
Lemma padd_assoc : forall a b c, padd a (padd b c) = padd (padd a b) c. Proof. vring. Qed.
Lemma psub_self : forall a, psub a a = V 0 0 0. Proof. vring. Qed.
Lemma padd_psub : forall a b, padd b (psub a b) = a. Proof. vring. Qed.
Lemma psub_padd : forall a b, psub (padd a b) a = b. Proof. vring. Qed.
Lemma pdot_comm : forall a b, pdot a b = pdot b a. Proof. vringd. Qed.
Lemma pdot_add_l : forall a b c, pdot (padd a b) c = pdot a c + pdot b c. Proof. vringd. Qed.
Lemma pdot_add_r : forall a b c, pdot c (padd a b) = pdot c a + pdot c b. Proof. vringd. Qed.
Lemma pdot_sub_l : forall a b c, pdot (psub a b) c = pdot a c - pdot b c. Proof. vringd. Qed.
Lemma pdot_sub_r : forall a b c, pdot c (psub a b) = pdot c a - pdot c b. Proof. vringd. Qed.
Lemma pdot_scale_l : forall k a b, pdot (pscale k a) b = k * pdot a b. Proof. vringd. Qed.
Lemma pdot_scale_r : forall k a b, pdot a (pscale k b) = k * pdot a b. Proof. vringd. Qed.
Lemma pscale_1 : forall a, pscale 1 a = a. Proof. vring. Qed.
Lemma pscale_0 : forall a, pscale 0 a = V 0 0 0. Proof. vring. Qed.
Lemma pscale_scale : forall k l a, pscale k (pscale l a) = pscale (k * l) a. Proof. vring. Qed.
Lemma pcross_dot_l : forall a b, pdot a (pcross a b) = 0. Proof. vringd. Qed.
Lemma pcross_dot_r : forall a b, pdot b (pcross a b) = 0. Proof. vringd. Qed.
Lemma pcross_scale_l : forall k a b, pcross (pscale k a) b = pscale k (pcross a b). Proof. vring. Qed.
Lemma pcross_scale_r : forall k a b, pcross a (pscale k b) = pscale k (pcross a b). Proof. vring. Qed.
Lemma pcross_anti : forall a b, pcross a b = pscale (-1) (pcross b a). Proof. vring. Qed.
(** Lagrange. *)
Lemma pcross_sq : forall a b, pdot (pcross a b) (pcross a b) = pdot a a * pdot b b - pdot a b * pdot a b.
Proof. vringd. Qed.
Lemma cauchy_schwarz : forall a b, pdot a b * pdot a b <= pdot a a * pdot b b.
Proof. intros a b. pose proof (pdot_pos (pcross a b)). rewrite pcross_sq in H. lra. Qed.
Lemma pcross_pcross : forall a b c, pcross a (pcross b c) = psub (pscale (pdot a c) b) (pscale (pdot a b) c).
Proof. vring. Qed.
Lemma pdot_zero : forall a, pdot a a = 0 -> a = V 0 0 0.
Proof.
  intros [x y z] H. vunf. assert (x = 0) by nra. assert (y = 0) by nra. assert (z = 0) by nra. now subst.
Qed.

Lemma pnorm_nonneg : forall a, 0 <= pnorm a.
Proof. intros. apply sqrt_pos. Qed.
Lemma pnorm_sq : forall a, pnorm a * pnorm a = pdot a a.
Proof. intros. apply sqrt_sqrt, pdot_pos. Qed.
Lemma pnorm_pos : forall a, 0 < pdot a a -> 0 < pnorm a.
Proof. intros. now apply sqrt_lt_R0. Qed.
Lemma pnorm_le : forall a r, 0 <= r -> (pnorm a <= r <-> pdot a a <= r * r).
Proof.
  intros a r Hr. rewrite <- pnorm_sq. pose proof (pnorm_nonneg a). split; intros; nra.
Qed.
Lemma pnorm_lt : forall a r, 0 < r -> (pnorm a < r <-> pdot a a < r * r).
Proof.
  intros a r Hr. rewrite <- pnorm_sq. pose proof (pnorm_nonneg a). split; intros; nra.
Qed.
Lemma pnorm_eq : forall a r, 0 <= r -> (pnorm a = r <-> pdot a a = r * r).
Proof.
  intros a r Hr. rewrite <- pnorm_sq. pose proof (pnorm_nonneg a). split; intros; nra.
Qed.
Lemma pnorm_scale : forall k a, pnorm (pscale k a) = Rabs k * pnorm a.
Proof.
  intros k a. apply pnorm_eq. { apply Rmult_le_pos; [apply Rabs_pos|apply pnorm_nonneg]. }
  rewrite pdot_scale_l, pdot_scale_r, <- pnorm_sq.
  assert (Rabs k * Rabs k = k * k) by (rewrite <- Rabs_mult; apply Rabs_pos_eq; nra).
  nra.
Qed.
Lemma dist_sym : forall a b, dist a b = dist b a.
Proof. intros. unfold dist, pnorm. f_equal. vringd. Qed.
Lemma punit_unit : forall a, is_unit a -> punit a = a.
Proof.
  intros a H. unfold punit. unfold is_unit in H. rewrite H. destruct (rltb 0 1) eqn:E; auto.
  unfold pnorm. rewrite H, sqrt_1, Rinv_1. apply pscale_1.
Qed.
Lemma punit_pos : forall a, 0 < pdot a a -> punit a = pscale (/ pnorm a) a.
Proof. intros a H. unfold punit. apply rltb_true in H. now rewrite H. Qed.
Lemma punit_zero : forall a, pdot a a = 0 -> punit a = a.
Proof. intros a H. unfold punit. rewrite H. destruct (rltb 0 0) eqn:E; auto. rb. lra. Qed.
Lemma punit_is_unit : forall a, 0 < pdot a a -> is_unit (punit a).
Proof.
  intros a H. rewrite punit_pos by auto. unfold is_unit. rewrite pdot_scale_l, pdot_scale_r, <- pnorm_sq.
  field. apply Rgt_not_eq. now apply pnorm_pos.
Qed.
Lemma punit_le1 : forall a, pdot (punit a) (punit a) <= 1.
Proof.
  intros a. destruct (Rlt_dec 0 (pdot a a)) as [H|H].
  - rewrite punit_is_unit by auto. lra.
  - pose proof (pdot_pos a). assert (E : pdot a a = 0) by lra. rewrite punit_zero by auto. lra.
Qed.
Lemma is_unit_norm : forall a, is_unit a -> pnorm a = 1.
Proof. intros a H. unfold pnorm. rewrite H. apply sqrt_1. Qed.
Lemma triangle_ineq : forall a b, pnorm (padd a b) <= pnorm a + pnorm b.
Proof.
  intros a b. pose proof (pnorm_nonneg a). pose proof (pnorm_nonneg b).
  apply pnorm_le; [lra|]. rewrite pdot_add_l, !pdot_add_r, (pdot_comm b a).
  pose proof (cauchy_schwarz a b) as C. rewrite <- !pnorm_sq in C.
  rewrite <- (pnorm_sq a), <- (pnorm_sq b).
  assert (pdot a b <= pnorm a * pnorm b).
  { destruct (Rle_dec (pdot a b) 0); [nra|]. apply Rsqr_incr_0; unfold Rsqr; nra. }
  nra.
Qed.

(** ** Rotations. *)
Lemma rotation_rows : forall m, rotation m ->
  let r0 := V (m00 m) (m01 m) (m02 m) in let r1 := V (m10 m) (m11 m) (m12 m) in
  let r2 := V (m20 m) (m21 m) (m22 m) in
  is_unit r0 /\ is_unit r1 /\ is_unit r2 /\ pdot r0 r1 = 0 /\ pdot r1 r2 = 0 /\ pdot r2 r0 = 0.
Proof.
  intros [a b c d e f g h i] (H0 & H1 & H2 & H3 & H4 & H5 & H6). vunf. cbn [m00 m01 m02 m10 m11 m12 m20 m21 m22] in *.
  injection H6 as E1 E2 E3.
  (* columns (a,d,g) (b,e,h) (c,f,i): each is the cross product of the others *)
  assert (A1 : a = e * i - h * f).
  { rewrite <- E2, <- E3. transitivity (a * (b * b + e * e + h * h) - b * (a * b + d * e + g * h)); [rewrite H1, H3|]; ring. }
  assert (A2 : d = h * c - b * i).
  { rewrite <- E1, <- E3. transitivity (d * (b * b + e * e + h * h) - e * (a * b + d * e + g * h)); [rewrite H1, H3|]; ring. }
  assert (A3 : g = b * f - e * c).
  { rewrite <- E1, <- E2. transitivity (g * (b * b + e * e + h * h) - h * (a * b + d * e + g * h)); [rewrite H1, H3|]; ring. }
  assert (B1 : b = f * g - i * d).
  { rewrite <- E2, <- E3. transitivity (b * (a * a + d * d + g * g) - a * (a * b + d * e + g * h)); [rewrite H0, H3|]; ring. }
  assert (B2 : e = i * a - c * g).
  { rewrite <- E1, <- E3. transitivity (e * (a * a + d * d + g * g) - d * (a * b + d * e + g * h)); [rewrite H0, H3|]; ring. }
  assert (B3 : h = c * d - f * a).
  { rewrite <- E1, <- E2. transitivity (h * (a * a + d * d + g * g) - g * (a * b + d * e + g * h)); [rewrite H0, H3|]; ring. }
  assert (D : c * (d * h - g * e) + f * (g * b - a * h) + i * (a * e - d * b) = 1).
  { rewrite E1, E2, E3. exact H2. }
  repeat split.
  - transitivity (a * (e * i - h * f) + b * (f * g - i * d) + c * (d * h - g * e)); [|rewrite <- D; ring].
    rewrite <- A1, <- B1, E1. ring.
  - transitivity (d * (h * c - b * i) + e * (i * a - c * g) + f * (g * b - a * h)); [|rewrite <- D; ring].
    rewrite <- A2, <- B2, E2. ring.
  - transitivity (g * (b * f - e * c) + h * (c * d - f * a) + i * (a * e - d * b)); [|rewrite <- D; ring].
    rewrite <- A3, <- B3, E3. ring.
  - transitivity (d * (e * i - h * f) + e * (f * g - i * d) + f * (d * h - g * e)); [|ring].
    rewrite <- A1, <- B1, E1. ring.
  - transitivity (g * (h * c - b * i) + h * (i * a - c * g) + i * (g * b - a * h)); [|ring].
    rewrite <- A2, <- B2, E2. ring.
  - transitivity (a * (b * f - e * c) + b * (c * d - f * a) + c * (a * e - d * b)); [|ring].
    rewrite <- A3, <- B3, E3. ring.
Qed.
Lemma rotation_isometry : forall m p q, rotation m -> pdot (papply m p) (papply m q) = pdot p q.
Proof.
  intros [a b c d e f g h i] [x y z] [u v w] (H0 & H1 & H2 & H3 & H4 & H5 & _). vunf. cbn [m00 m01 m02 m10 m11 m12 m20 m21 m22] in *.
  transitivity (x * u * (a * a + d * d + g * g) + y * v * (b * b + e * e + h * h) + z * w * (c * c + f * f + i * i)
    + (x * v + y * u) * (a * b + d * e + g * h) + (y * w + z * v) * (b * c + e * f + h * i)
    + (z * u + x * w) * (c * a + f * d + i * g)); [ring|].
  rewrite H0, H1, H2, H3, H4, H5. ring.
Qed.
