(** * C124: averages over the ribs in double precision. *)
From Coq Require Import ZArith Reals Lra Bool String List Floats.SpecFloat.
From Verif Require Import Base Num Vec Aabb Geom Ground Shape Rib Shell F64 SpecDouble SpecPlaces
  ProofDouble SpecResults ProofResults SpecAverage ProofAverage SampleShell SampleAverage.
Import ListNotations.
Local Open Scope R_scope.

(** The friction of the wheel lies between those of the ribs up to rounding. *)
Theorem C124_friction : forall lm (s : shell f64) os lo hi, 0 <= lo ->
  rib_results s os -> os <> [] -> (Z.of_nat (List.length os) <= 2 ^ 20)%Z ->
  (forall o, In o os -> rib_data o_friction lo hi o) ->
  exists x, @contact_friction f64 (F64_Num lm) s = Ret x /\ (is_double x /\ is_finite x = true) /\
    near_range (List.length os) lo hi (value x).
Proof. intros lm s os lo hi L R. exact (friction_near lm s os lo hi L (results_outs s os R)). Qed.
Print Assumptions C124_friction.

(** So does the depth, when there is volume. *)
Theorem C124_depth : forall lm (s : shell f64) os lo hi, 0 <= lo ->
  rib_results s os -> os <> [] -> (Z.of_nat (List.length os) <= 2 ^ 20)%Z ->
  (forall o, In o os -> rib_data o_depth lo hi o) ->
  (forall v, @contact_volume f64 (F64_Num lm) s = Ret v -> SFltb v (f_of 1 (-26)) = false) ->
  exists x, @contact_depth f64 (F64_Num lm) s = Ret x /\ (is_double x /\ is_finite x = true) /\
    near_range (List.length os) lo hi (value x).
Proof. intros lm s os lo hi L R. exact (depth_near lm s os lo hi L (results_outs s os R)). Qed.
Print Assumptions C124_depth.

(** The total volume is the sum of the volumes up to rounding. *)
Theorem C124_volume : forall lm (s : shell f64) os,
  rib_results s os -> (Z.of_nat (List.length os) <= 2 ^ 20)%Z ->
  (forall o, In o os -> sound_measure (o_volume o)) ->
  exists v, @contact_volume f64 (F64_Num lm) s = Ret v /\ (is_double v /\ is_finite v = true) /\
    Rabs (value v - exact_volume os) <= slack (List.length os) * exact_volume os.
Proof. intros lm s os R. exact (volume_near lm s os (results_outs s os R)). Qed.
Print Assumptions C124_volume.

(** Without "up to rounding" it is false: all ribs report friction 7/8, the
    wheel reports more than any of them. *)
Theorem C124_friction_refuted : exists s os x,
  setup_flat gb0 wheel3 firm aid "geometric" = Ok s true /\
  rib_results s os /\ List.length os = 3%nat /\ Forall (fun o => o_friction o = f_of 7 (-3)) os /\
  contact_friction s = Ret x /\ SFltb (f_of 7 (-3)) x = true.
Proof.
  exists wheel3_down, outs3, friction3. split; [exact wheel3_setup|]. split; [exact (outs_results _ _ outs3_ok)|].
  split; [exact outs3_length|]. split; [|split; [exact friction3_ok|exact friction3_more]].
  apply Forall_forall. exact outs3_each.
Qed.
Print Assumptions C124_friction_refuted.

(** The same wheel meets the hypotheses of the theorems. *)
Example C124_example : exists os v,
  setup_flat gb0 wheel3 firm aid "geometric" = Ok wheel3_down true /\
  rib_results wheel3_down os /\ List.length os = 3%nat /\
  (forall o, In o os -> rib_data o_friction (7 / 8) (7 / 8) o) /\
  (forall o, In o os -> rib_data o_depth 0 1 o) /\
  contact_volume wheel3_down = Ret v /\ SFltb v (f_of 1 (-26)) = false.
Proof.
  exists outs3, volume3. split; [exact wheel3_setup|]. split; [exact (outs_results _ _ outs3_ok)|].
  split; [exact outs3_length|].
  assert (B : forallb (fun o => valid_binary 53 1024 (o_volume o) && SFleb (f_of 0 0) (o_volume o)
                && SFleb (o_volume o) (f_of 1 300) && valid_binary 53 1024 (o_depth o)
                && SFleb (f_of 0 0) (o_depth o) && SFleb (o_depth o) (f_of 1 300)
                && SFleb (o_depth o) (f_of 1 0) && SFeqb (o_friction o) (f_of 7 (-3)))%bool outs3 = true).
  { vm_compute. reflexivity. }
  rewrite forallb_forall in B.
  assert (G : sound_measure (f_of 7 (-3))) by (repeat split; vm_compute; reflexivity).
  assert (V : value (f_of 7 (-3)) = 7 / 8).
  { replace (f_of 7 (-3)) with (S754_finite false 7881299347898368 (-53)) by (vm_compute; reflexivity).
    unfold value. change (powerRZ 2 (-53)) with (/ 2 ^ 53). rewrite pow_IZR.
    change (2 ^ Z.of_nat 53)%Z with 9007199254740992%Z. lra. }
  split; [|split; [|split; [exact volume3_ok|exact volume3_big]]]; intros o Ho; pose proof (B o Ho) as C;
    repeat (apply andb_prop in C; destruct C as [C ?]).
  - split; [repeat split; assumption|]. rewrite (outs3_each o Ho). split; [exact G|]. rewrite V. lra.
  - assert (D : sound_measure (o_depth o)) by (repeat split; assumption).
    split; [repeat split; assumption|]. split; [exact D|]. apply up_to_one; assumption.
Qed.
