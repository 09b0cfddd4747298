(** * Exact real arithmetic as a number type.

    The instance used to state the geometric properties: IEEE [double]
    without rounding.  A number is a real, an infinity or NaN; invalid
    operations give NaN as in IEEE 754.  There is one zero, and it is
    positive. *)
From Coq Require Import ZArith Bool Reals Lra.
From Verif Require Import Num.
Local Open Scope R_scope.

Inductive er : Type := Fin (r : R) | Inf (neg : bool) | Nan.

Definition rltb (x y : R) : bool := if Rlt_dec x y then true else false.
Definition rleb (x y : R) : bool := if Rle_dec x y then true else false.
Definition reqb (x y : R) : bool := if Req_EM_T x y then true else false.

Definition eadd (a b : er) : er :=
  match a, b with
  | Fin x, Fin y => Fin (x + y)
  | Nan, _ | _, Nan => Nan
  | Inf s, Inf t => if Bool.eqb s t then Inf s else Nan
  | Inf s, Fin _ | Fin _, Inf s => Inf s
  end.
Definition eopp (a : er) : er :=
  match a with Fin x => Fin (- x) | Inf s => Inf (negb s) | Nan => Nan end.
Definition esub (a b : er) : er :=
  match a, b with
  | Fin x, Fin y => Fin (x - y)
  | _, _ => eadd a (eopp b)
  end.
Definition emul (a b : er) : er :=
  match a, b with
  | Fin x, Fin y => Fin (x * y)
  | Nan, _ | _, Nan => Nan
  | Inf s, Inf t => Inf (xorb s t)
  | Inf s, Fin x | Fin x, Inf s => if reqb x 0 then Nan else Inf (xorb s (rltb x 0))
  end.
Definition ediv (a b : er) : er :=
  match a, b with
  | Fin x, Fin y =>
    if reqb y 0 then (if reqb x 0 then Nan else Inf (rltb x 0)) else Fin (x / y)
  | Nan, _ | _, Nan => Nan
  | Inf _, Inf _ => Nan
  | Fin _, Inf _ => Fin 0
  | Inf s, Fin y => Inf (xorb s (rltb y 0))
  end.
Definition eabs (a : er) : er :=
  match a with Fin x => Fin (Rabs x) | Inf _ => Inf false | Nan => Nan end.
Definition esqrt (a : er) : er :=
  match a with
  | Fin x => if rltb x 0 then Nan else Fin (sqrt x)
  | Inf false => Inf false
  | _ => Nan
  end.
Definition eltb (a b : er) : bool :=
  match a, b with
  | Fin x, Fin y => rltb x y
  | Inf true, Fin _ | Inf true, Inf false | Fin _, Inf false => true
  | _, _ => false
  end.
Definition eleb (a b : er) : bool :=
  match a, b with
  | Fin x, Fin y => rleb x y
  | Inf true, Fin _ | Inf true, Inf _ | Fin _, Inf false | Inf false, Inf false => true
  | _, _ => false
  end.
Definition eeqb (a b : er) : bool :=
  match a, b with
  | Fin x, Fin y => reqb x y
  | Inf s, Inf t => Bool.eqb s t
  | _, _ => false
  end.
Definition esin (a : er) : er := match a with Fin x => Fin (sin x) | _ => Nan end.
Definition ecos (a : er) : er := match a with Fin x => Fin (cos x) | _ => Nan end.
Definition eatan (a : er) : er :=
  match a with
  | Fin x => Fin (atan x)
  | Inf s => Fin (if s then - (PI / 2) else PI / 2)
  | Nan => Nan
  end.
Definition eacos (a : er) : er :=
  match a with
  | Fin x => if rleb (-1) x && rleb x 1 then Fin (acos x) else Nan
  | _ => Nan
  end.
(** [atan2(y, x)] on reals (positive zero). *)
Definition ratan2 (y x : R) : R :=
  if rltb 0 x then atan (y / x)
  else if rltb x 0 then (if rltb y 0 then atan (y / x) - PI else atan (y / x) + PI)
  else if rltb 0 y then PI / 2
  else if rltb y 0 then - (PI / 2)
  else 0.
(** Infinite arguments of [atan2] and [pow] are simplified to NaN. *)
Definition eatan2 (a b : er) : er :=
  match a, b with Fin y, Fin x => Fin (ratan2 y x) | _, _ => Nan end.
Definition epow (a b : er) : er :=
  match a, b with
  | Fin x, Fin y =>
    if reqb y 0 then Fin 1
    else if rltb 0 x then Fin (Rpower x y)
    else if reqb x 0 then (if rltb 0 y then Fin 0 else Inf false)
    else if reqb (IZR (Int_part y)) y then Fin (powerRZ x (Int_part y))
    else Nan
  | _, _ => Nan
  end.

Global Instance ER_Num : Num er := {|
  nofZ := fun z => Fin (IZR z);
  n01 := Fin (1 / 10);
  n03 := Fin (3 / 10);
  nnan := Nan;
  ninf := Inf false;
  neps := Fin (/ 2 ^ 26);
  npi := Fin PI;
  nadd := eadd; nsub := esub; nmul := emul; ndiv := ediv; nopp := eopp;
  nabs := eabs; nsqrt := esqrt;
  nlt := eltb; nle := eleb; neq := eeqb;
  nsin := esin; ncos := ecos; natan := eatan; nacos := eacos;
  natan2 := eatan2; npow := epow |}.

Lemma rltb_true : forall x y, rltb x y = true <-> x < y.
Proof. intros. unfold rltb. destruct Rlt_dec; split; intros; auto; discriminate. Qed.
Lemma rltb_false : forall x y, rltb x y = false <-> y <= x.
Proof.
  intros. unfold rltb. destruct Rlt_dec; split; intros; try lra; auto; discriminate.
Qed.
Lemma rleb_true : forall x y, rleb x y = true <-> x <= y.
Proof. intros. unfold rleb. destruct Rle_dec; split; intros; auto; discriminate. Qed.
Lemma rleb_false : forall x y, rleb x y = false <-> y < x.
Proof.
  intros. unfold rleb. destruct Rle_dec; split; intros; try lra; auto; discriminate.
Qed.
Lemma reqb_true : forall x y, reqb x y = true <-> x = y.
Proof. intros. unfold reqb. destruct Req_EM_T; split; intros; auto; discriminate. Qed.
Lemma reqb_false : forall x y, reqb x y = false <-> x <> y.
Proof.
  intros. unfold reqb. destruct Req_EM_T; split; intros; auto; try discriminate; contradiction.
Qed.

Global Instance ER_Ord : OrdNum er.
Proof.
  unfold isnum; constructor; unfold isnum; cbn [nle nlt nnan ER_Num].
  - intros [x|[]|] [y|[]|] [z|[]|]; cbn; auto; try discriminate.
    all: rewrite ?rleb_true; lra.
  - intros [x|[]|] [y|[]|]; cbn; auto; try discriminate.
    all: rewrite ?rleb_true; lra.
  - intros [x|[]|] [y|[]|]; cbn; auto; try discriminate.
    intros _ _. destruct (rleb y x) eqn:E; [apply rleb_true in E|apply rleb_false in E]; cbn.
    + now apply rltb_false.
    + now apply rltb_true.
  - intros [x|[]|] [y|[]|]; cbn; auto; try discriminate.
    all: rewrite ?rleb_true; lra.
  - intros [x|[]|] [y|[]|]; cbn; auto; try discriminate;
      rewrite ?rltb_true, !rleb_true; lra.
  - discriminate.
Qed.
