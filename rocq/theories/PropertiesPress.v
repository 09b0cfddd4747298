(** * C133: pressing the wheel into flat ground never reduces the contact. *)
From Coq Require Import ZArith Bool Reals Lra Lia String List.
From Verif Require Import Base Num Vec Geom Ground Shape Rib Shell ER SpecGeom SpecRib SpecShape SpecShell SpecPose SpecAvg SpecSmooth SpecFrame SpecRoof.
From Verif Require Import ProofSetupData ProofPress SamplePose SampleLight.
Import ListNotations.
Local Open Scope R_scope.

(** One rib, in any attitude, moved by [v] against the normal of the ground
    until its center is at most on the ground: contact is not lost, depth and
    volume do not decrease. *)
Theorem C133_rib : forall gb gb' r a v gp f m b b' o o', good_rib r -> rigid a -> is_unit (pnormal gp) -> valid_method m ->
  pdot v (pnormal gp) <= 0 -> 0 <= center_height r (moved_by v a) gp ->
  envelop_flat gb (frib r) (fflat gp f) (fa a) m = Ret (b, o) ->
  envelop_flat gb' (frib r) (fflat gp f) (fa (moved_by v a)) m = Ret (b', o') ->
  (b = true -> b' = true) /\
  exists d d' V V', o_depth o = Fin d /\ o_depth o' = Fin d' /\ d <= d' /\
    o_volume o = Fin V /\ o_volume o' = Fin V' /\ V <= V'.
Proof.
  intros gb gb' r a v gp f m b b' o o' HR HA HG HM HV HC. apply rib_press; auto.
  pose proof (ProofSmooth.moved_height v r a gp). rewrite (Rabs_pos_eq _ HC), Rabs_pos_eq by lra. lra.
Qed.
Print Assumptions C133_rib.

(** The whole wheel, as long as its axle stays above the ground. *)
Theorem C133_wheel : forall gb gb' sp s gp f a v m s1 s2 b b', real_shell sp s -> rigid a -> is_unit (pnormal gp) -> valid_method m ->
  pdot v (pnormal gp) <= 0 ->
  (forall y, Rabs y <= sLy sp -> 0 <= pdot (psub (place (moved_by v a) (V 0 y 0)) (porigin gp)) (pnormal gp)) ->
  setup_flat gb s (fflat gp f) (fa a) m = Ok s1 b -> setup_flat gb' s (fflat gp f) (fa (moved_by v a)) m = Ok s2 b' ->
  exists V V', contact_volume s1 = Ret (Fin V) /\ contact_volume s2 = Ret (Fin V') /\ V <= V'.
Proof. exact wheel_press. Qed.
Print Assumptions C133_wheel.

(** A wheel of three ribs and radius 1, lowered by 1/4 to 1/2 over the ground. *)
Example C133_example : exists s, real_shell round_tire s /\ sh_size s = 3%nat /\ rigid upright /\
  let gp := ground_below (3 / 4) in let v := V 0 0 (- (1 / 4)) in
  is_unit (pnormal gp) /\ pdot v (pnormal gp) < 0 /\
  (forall y, Rabs y <= sLy round_tire -> 0 <= pdot (psub (place (moved_by v upright) (V 0 y 0)) (porigin gp)) (pnormal gp)) /\
  forall gb, exists s1 s2 b b', setup_flat gb s (fflat gp (3 / 4)) (fa upright) "geometric" = Ok s1 b /\
    setup_flat gb s (fflat gp (3 / 4)) (fa (moved_by v upright)) "geometric" = Ok s2 b'.
Proof.
  destruct three_ribs as (s & RS & S3 & _). exists s. split; [exact RS|]. split; [exact S3|]. split; [exact upright_rigid|].
  cbv zeta. split; [apply below_unit|]. split; [unfold ground_below, pdot; cbn; lra|]. split.
  - intros y _. unfold ground_below, upright, moved_by, place, papply, psub, padd, pdot. cbn. lra.
  - intros gb. destruct (setup_flat_returns gb s (fflat (ground_below (3 / 4)) (3 / 4)) (fa upright)) as (s1 & b & E1); [apply RS|lia|].
    destruct (setup_flat_returns gb s (fflat (ground_below (3 / 4)) (3 / 4)) (fa (moved_by (V 0 0 (- (1 / 4))) upright))) as (s2 & b' & E2); [apply RS|lia|].
    exists s1, s2, b, b'. auto.
Qed.
