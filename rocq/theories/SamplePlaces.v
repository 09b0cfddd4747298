(** * A profile with a radius and an angle at every place, for C122.

    The C library is right where the profile calls [pow] (exponent 1); its
    arctangent answers 0 everywhere, the angle being of no matter here. *)
From Coq Require Import ZArith Reals Lra Lia Bool List Floats.SpecFloat.
From Flocq Require Import Core BinarySingleNaN.
From Verif Require Import Base Num Shape F64 SpecDouble ProofDouble ProofMean SpecPlaces ProofPlaces.
Local Open Scope R_scope.

Definition lmp : libm :=
  Libm (fun x => x) (fun x => x) (fun _ => S754_zero false) (fun x => x) (fun x _ => x)
       (fun x y => if SFeqb y (f_of 0 0) then f_of 1 0 else x).
(** Radius 1 in the middle, 1/2 at the edges, half width 1. *)
Definition cone : shape f64 := Shape (f_of 1 0) (f_of 1 0) (f_of 2 0) (f_of 1 0) (f_of 1 0).

Lemma cone_sound : sound_profile lmp cone.
Proof.
  intros y Hd Hy. change (sLy cone) with (f_of 1 0) in Hy.
  destruct (f_pow 0 ltac:(lia)) as [O1 O2]. change (bpow radix2 0) with 1 in O2.
  destruct f_two as [T1 T2]. destruct ok_zero as [Z1 Z2].
  assert (A0 : SFleb (S754_zero false) (SFabs y) = true).
  { destruct y as [s|s| |s m e]; [reflexivity|reflexivity|exact Hy|reflexivity]. }
  assert (A : ok (SFabs y)) by exact (ok_between _ _ _ (dbl_abs y Hd) Z1 O1 A0 Hy).
  pose proof Hy as Hy'. apply leb_rv in Hy; [|assumption..]. apply leb_rv in A0; [|assumption..].
  rewrite Z2 in A0. rewrite O2 in Hy.
  assert (Q : ok (SFdiv fprec femax (SFabs y) (f_of 2 0)) /\
              0 <= rv (SFdiv fprec femax (SFabs y) (f_of 2 0)) <= / 2).
  { destruct (op_div (SFabs y) (f_of 2 0) A T1 0) as [D1 D2]; try lia.
    - rewrite T2. lra.
    - rewrite T2. change (bpow radix2 0) with 1. rewrite Rabs_right; lra.
    - split; [exact D1|]. rewrite D2, T2. split; [apply rnd_pos; lra|].
      change (/ 2) with (bpow radix2 (-1)). rewrite <- (rnd_bpow (-1)) by lia. apply rnd_le.
      change (bpow radix2 (-1)) with (/ 2). lra. }
  destruct Q as [Q1 Q2]. set (q := SFdiv _ _ _ _) in *.
  assert (S : ok (SFsub fprec femax (f_of 1 0) q) /\
              / 2 <= rv (SFsub fprec femax (f_of 1 0) q) <= 1).
  { destruct (op_sub (f_of 1 0) q O1 Q1 0) as [D1 D2]; try lia.
    - rewrite O2. change (bpow radix2 0) with 1. apply Rabs_le. lra.
    - split; [exact D1|]. rewrite D2, O2. split.
      + change (/ 2) with (bpow radix2 (-1)). rewrite <- (rnd_bpow (-1)) by lia. apply rnd_le.
        change (bpow radix2 (-1)) with (/ 2). lra.
      + change 1 with (bpow radix2 0) at 2. rewrite <- (rnd_bpow 0) by lia. apply rnd_le.
        change (bpow radix2 0) with 1. lra. }
  destruct S as [S1 S2]. set (p := SFsub _ _ _ _) in *.
  assert (M : ok (SFmul fprec femax (f_of 1 0) p) /\ / 2 <= rv (SFmul fprec femax (f_of 1 0) p)).
  { destruct (op_mul (f_of 1 0) p O1 S1 0) as [D1 D2]; try lia.
    - rewrite O2. change (bpow radix2 0) with 1. apply Rabs_le. lra.
    - split; [exact D1|]. rewrite D2, O2, Rmult_1_l, (rnd_rv p S1). lra. }
  destruct M as [M1 M2].
  assert (CB : @check_width_bound f64 (F64_Num lmp) cone y = true).
  { unfold check_width_bound. change (nlt (sLy cone) (nabs y)) with (SFltb (f_of 1 0) (SFabs y)).
    destruct (SFltb (f_of 1 0) (SFabs y)) eqn:E; [|reflexivity]. exfalso.
    apply ltb_rv in E; [|assumption..]. rewrite O2 in E. lra. }
  assert (AN : exists d, @surface_derivative f64 (F64_Num lmp) cone y (f_of 1 (-26)) = Ret d).
  { unfold surface_derivative. rewrite CB. cbv zeta. destruct (nlt _ _); eexists; reflexivity. }
  destruct AN as [d AN].
  exists (SFmul fprec femax (f_of 1 0) p), (S754_zero false).
  split; [|split; [|split; [|split]]].
  - unfold surface_radius. rewrite CB. reflexivity.
  - unfold surface_angle. rewrite AN. reflexivity.
  - apply ltb_rv; [exact Z1|exact M1|]. rewrite Z2. lra.
  - destruct M1 as [_ M1]. intros E. rewrite E in M1. discriminate M1.
  - discriminate.
Qed.
