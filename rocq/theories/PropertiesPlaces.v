(** * C122: places of the ribs in double precision. *)
From Coq Require Import ZArith Reals String List Floats.SpecFloat.
From Verif Require Import Base Num Vec Aabb Shape Rib Shell F64 SpecDouble SpecPlaces ProofPlaces SamplePlaces.
Import ListNotations.

(** The centre of the [i]-th rib is on the axis, stays within the shell, is at the middle of its band up to
    4i+9 rounding errors of the half width, and has the width of its band up to
    two rounding errors. *)
Theorem C122_places : forall lm n rx mx r_y my ly s,
  sound_width ly -> (Z.of_nat n <= 2 ^ 20)%Z ->
  @mk_shell f64 (F64_Num lm) n rx mx r_y my ly = Ret s ->
  List.length (sh_ribs s) = n /\
  forall i r, nth_error (sh_ribs s) i = Some r ->
    rb_center r = V (f_of 0 0) (rb_y r) (f_of 0 0) /\
    SFleb (SFabs (rb_y r)) ly = true /\
    (Rabs (value (rb_y r) - band_middle (value ly) n i) <= (4 * INR i + 9) * (/ 2 ^ 53 * value ly))%R /\
    (Rabs (value (rb_width r) - 2 * value ly / INR n) <= / 2 ^ 52 * (2 * value ly / INR n))%R.
Proof. exact shell_ribs_placed. Qed.
Print Assumptions C122_places.

(** Rounding never pushes a rib outside the width: if the profile has a
    positive radius and an angle within the width, construction succeeds. *)
Theorem C122_construction : forall lm n rx mx r_y my ly,
  sound_width ly -> (1 <= n)%nat -> (Z.of_nat n <= 2 ^ 20)%Z ->
  sound_profile lm (Shape rx mx r_y my ly) ->
  exists s, @mk_shell f64 (F64_Num lm) n rx mx r_y my ly = Ret s.
Proof. exact shell_built. Qed.
Print Assumptions C122_construction.

(** A wheel with ten ribs, whose places are not doubles. *)
Example C122_example :
  sound_width (f_of 1 0) /\ sound_profile lmp cone /\
  exists s, @mk_shell f64 (F64_Num lmp) 10 (f_of 1 0) (f_of 1 0) (f_of 2 0) (f_of 1 0) (f_of 1 0) = Ret s.
Proof.
  split; [repeat split; vm_compute; reflexivity|]. split; [exact cone_sound|].
  eexists. vm_compute. reflexivity.
Qed.
