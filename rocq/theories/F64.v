(** * IEEE 754 binary64 as a number type.

    The standard library's executable specification of floating point
    ([Coq.Floats.SpecFloat], precision 53, maximal exponent 1024, round to
    nearest even).  The functions of [libm] are a parameter. *)
From Coq Require Import ZArith Bool Lia Floats.SpecFloat.
From Verif Require Import Num.
Local Open Scope Z_scope.

Definition f64 : Type := spec_float.

(** [libm]: functions whose results IEEE 754 does not fix. *)
Record libm : Type := Libm {
  lm_sin : f64 -> f64; lm_cos : f64 -> f64; lm_atan : f64 -> f64; lm_acos : f64 -> f64;
  lm_atan2 : f64 -> f64 -> f64; lm_pow : f64 -> f64 -> f64 }.

Definition fprec : Z := 53.
Definition femax : Z := 1024.
Definition f_of (m e : Z) : f64 := binary_normalize fprec femax m e false.

(** The constants 0.1, 0.3 and pi are the nearest doubles; EPSILON_ENVE is
    [sqrt(2^-52) = 2^-26]. *)
Definition F64_Num (lm : libm) : Num f64 := {|
  nofZ := fun z => f_of z 0;
  n01 := f_of 7205759403792794 (-56);
  n03 := f_of 5404319552844595 (-54);
  nnan := S754_nan;
  ninf := S754_infinity false;
  neps := f_of 1 (-26);
  npi := f_of 7074237752028440 (-51);
  nadd := SFadd fprec femax;
  nsub := SFsub fprec femax;
  nmul := SFmul fprec femax;
  ndiv := SFdiv fprec femax;
  nopp := SFopp;
  nabs := SFabs;
  nsqrt := SFsqrt fprec femax;
  nlt := SFltb; nle := SFleb; neq := SFeqb;
  nsin := lm_sin lm; ncos := lm_cos lm; natan := lm_atan lm; nacos := lm_acos lm;
  natan2 := lm_atan2 lm; npow := lm_pow lm |}.

(** Order-preserving keys: class, exponent, mantissa. *)
Definition fk1 (x : f64) : Z :=
  match x with
  | S754_zero _ | S754_nan => 0
  | S754_infinity s => if s then -2 else 2
  | S754_finite s _ _ => if s then -1 else 1
  end.
Definition fk2 (x : f64) : Z :=
  match x with S754_finite s _ e => if s then - e else e | _ => 0 end.
Definition fk3 (x : f64) : Z :=
  match x with S754_finite s m _ => if s then - Zpos m else Zpos m | _ => 0 end.

Ltac fdest x := destruct x as [[]|[]| |[] ? ?].

Lemma f64_cmp : forall x y,
  match SFcompare x y with
  | None => x = S754_nan \/ y = S754_nan
  | Some c => x <> S754_nan /\ y <> S754_nan /\
    match c with
    | Eq => fk1 x = fk1 y /\ fk2 x = fk2 y /\ fk3 x = fk3 y
    | Lt => fk1 x < fk1 y \/ (fk1 x = fk1 y /\ (fk2 x < fk2 y \/ (fk2 x = fk2 y /\ fk3 x < fk3 y)))
    | Gt => fk1 y < fk1 x \/ (fk1 x = fk1 y /\ (fk2 y < fk2 x \/ (fk2 x = fk2 y /\ fk3 y < fk3 x)))
    end
  end.
Proof.
  intros x y; fdest x; fdest y; cbn; auto;
    try (destruct (Z.compare_spec e e0); cbn);
    try (change (Pos.compare_cont Eq m m0) with (Pos.compare m m0);
         destruct (Pos.compare_spec m m0); cbn);
    (split; [discriminate|split; [discriminate|]]); try subst; lia.
Qed.

Lemma F64_Ord : forall lm, @OrdNum f64 (F64_Num lm).
Proof.
  intros lm.
  constructor; unfold isnum; cbn [nle nlt nnan F64_Num]; unfold SFleb, SFltb.
  - intros x y z. pose proof (f64_cmp x y). pose proof (f64_cmp y z). pose proof (f64_cmp x z).
    destruct (SFcompare x y) as [[]|], (SFcompare y z) as [[]|], (SFcompare x z) as [[]|];
      auto; try discriminate; intros; exfalso; intuition (try congruence; try lia).
  - intros x y. pose proof (f64_cmp x y). pose proof (f64_cmp y x).
    pose proof (f64_cmp x x). pose proof (f64_cmp y y).
    destruct (SFcompare x y) as [[]|], (SFcompare y x) as [[]|];
      auto; destruct (SFcompare x x) as [[]|], (SFcompare y y) as [[]|];
      auto; try discriminate; intros; exfalso; intuition (try congruence; try lia).
  - intros x y. pose proof (f64_cmp x y). pose proof (f64_cmp y x).
    pose proof (f64_cmp x x). pose proof (f64_cmp y y).
    destruct (SFcompare x y) as [[]|], (SFcompare y x) as [[]|];
      auto; destruct (SFcompare x x) as [[]|], (SFcompare y y) as [[]|];
      auto; try discriminate; intros; exfalso; intuition (try congruence; try lia).
  - intros x y. pose proof (f64_cmp x y). pose proof (f64_cmp x x). pose proof (f64_cmp y y).
    destruct (SFcompare x y) as [[]|]; try discriminate;
      destruct (SFcompare x x) as [[]|], (SFcompare y y) as [[]|];
      auto; intros; exfalso; intuition (try congruence; try lia).
  - intros x y. pose proof (f64_cmp x y). pose proof (f64_cmp x x). pose proof (f64_cmp y y).
    destruct (SFcompare x y) as [[]|]; try discriminate;
      destruct (SFcompare x x) as [[]|], (SFcompare y y) as [[]|];
      auto; intros; exfalso; intuition (try congruence; try lia).
  - discriminate.
Qed.
