(** * A wheel of three ribs on level ground, for C124. *)
From Coq Require Import ZArith Bool List String Floats.SpecFloat.
From Verif Require Import Base Num Vec Aabb Geom Ground Shape Rib Shell F64 SampleShell.

(** The diamond-shaped wheel of [SampleShell] with three ribs, its axle at the
    height of the ground, whose friction is 7/8. *)
Definition wheel3 : shell f64 := got no_shell (wheel 3 (fz 1)).
Lemma wheel3_ok : wheel 3 (fz 1) = Ret wheel3.
Proof. vm_compute. reflexivity. Qed.
Definition grip : f64 := f_of 7 (-3).
Definition firm : flat f64 := Flat (fl_plane level) grip.
Lemma firm_ok : mk_flat grip (V (fz 0) (fz 0) (fz 0)) (V (fz 0) (fz 0) (fz 1)) = Ret firm.
Proof. vm_compute. reflexivity. Qed.
Definition wheel3_down : shell f64 := after no_shell (setup_flat gb0 wheel3 firm aid "geometric").
Lemma wheel3_setup : setup_flat gb0 wheel3 firm aid "geometric" = Ok wheel3_down true.
Proof. vm_compute. reflexivity. Qed.

Definition outs3 : list (output f64) := got nil (outs wheel3_down).
Lemma outs3_ok : outs wheel3_down = Ret outs3.
Proof. vm_compute. reflexivity. Qed.
Definition friction3 : f64 := got (fz 0) (contact_friction wheel3_down).
Lemma friction3_ok : contact_friction wheel3_down = Ret friction3.
Proof. vm_compute. reflexivity. Qed.
Lemma friction3_more : SFltb (f_of 7 (-3)) friction3 = true.
Proof. vm_compute. reflexivity. Qed.
Definition volume3 : f64 := got (fz 0) (contact_volume wheel3_down).
Lemma volume3_ok : contact_volume wheel3_down = Ret volume3.
Proof. vm_compute. reflexivity. Qed.
Lemma volume3_big : SFltb volume3 (f_of 1 (-26)) = false.
Proof. vm_compute. reflexivity. Qed.
Lemma outs3_friction : map o_friction outs3 = (f_of 7 (-3) :: f_of 7 (-3) :: f_of 7 (-3) :: nil)%list.
Proof. vm_compute. reflexivity. Qed.
Lemma outs3_each : forall o, In o outs3 -> o_friction o = f_of 7 (-3).
Proof.
  intros o Ho. pose proof (in_map o_friction outs3 o Ho) as M.
  rewrite outs3_friction in M. destruct M as [M|[M|[M|[]]]]; exact (eq_sym M).
Qed.
Lemma outs3_length : List.length outs3 = 3%nat.
Proof. vm_compute. reflexivity. Qed.
