(** * C123: the profile of the wheel in double precision. *)
From Coq Require Import ZArith String List Floats.SpecFloat.
From Verif Require Import Base Num Aabb Shape Rib Shell F64 SpecDouble SpecPlaces SamplePlaces
  SpecRadius ProofRadius.

(** Within the half width the radius is a number between 0 and [Rx]. *)
Theorem C123_range : forall lm, sound_pow lm -> forall s, sound_shape s ->
  forall y, is_double y -> SFleb (SFabs y) (sLy s) = true ->
  exists r, @surface_radius f64 (F64_Num lm) s y = Ret r /\ is_double r /\
    SFleb (f_of 0 0) r = true /\ SFleb r (sRx s) = true.
Proof. exact radius_range. Qed.
Print Assumptions C123_range.

(** Away from the middle the radius never grows. *)
Theorem C123_falls : forall lm, sound_pow lm -> forall s, sound_shape s -> rising_pow lm ->
  forall y y' r r', is_double y -> is_double y' ->
  SFleb (SFabs y') (sLy s) = true -> SFleb (SFabs y) (SFabs y') = true ->
  @surface_radius f64 (F64_Num lm) s y = Ret r -> @surface_radius f64 (F64_Num lm) s y' = Ret r' ->
  SFleb r' r = true.
Proof. exact radius_falls. Qed.
Print Assumptions C123_falls.

(** Both sides of the wheel are the same, to the last bit. *)
Theorem C123_even : forall lm s y,
  @surface_radius f64 (F64_Num lm) s (SFopp y) = @surface_radius f64 (F64_Num lm) s y.
Proof. exact radius_even. Qed.
Print Assumptions C123_even.

(** Every rib of a wheel has a positive radius of at most [Rx]. *)
Theorem C123_ribs : forall lm n rx mx r_y my ly s, sound_pow lm -> sound_shape (Shape rx mx r_y my ly) ->
  (Z.of_nat n <= 2 ^ 20)%Z -> @mk_shell f64 (F64_Num lm) n rx mx r_y my ly = Ret s ->
  forall r, In r (sh_ribs s) ->
    SFltb (f_of 0 0) (rb_radius r) = true /\ SFleb (rb_radius r) rx = true.
Proof. exact shell_radii. Qed.
Print Assumptions C123_ribs.

(** A wheel of ten ribs that meets the hypotheses. *)
Example C123_example :
  sound_pow lmp /\ rising_pow lmp /\ sound_shape cone /\
  exists s, @mk_shell f64 (F64_Num lmp) 10 (sRx cone) (sMx cone) (sRy cone) (sMy cone) (sLy cone) = Ret s /\
    List.length (sh_ribs s) = 10%nat.
Proof.
  split; [|split; [|split]].
  - intros x e Hd Hu _ _. unfold lmp, lm_pow. destruct (SFeqb e (f_of 0 0)); [|now split].
    split; [reflexivity|split; reflexivity].
  - intros x x' e _ _ _ _ _ _ H. unfold lmp, lm_pow. destruct (SFeqb e (f_of 0 0)); [reflexivity|exact H].
  - constructor; repeat split; vm_compute; reflexivity.
  - eexists. split; [vm_compute; reflexivity|reflexivity].
Qed.
