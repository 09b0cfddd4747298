(** * Specification vocabulary for the S-function interface. *)
From Coq Require Import ZArith Bool String List.
From Verif Require Import Base Num Vec Aabb Tree Geom Ground Shape Rib Str Mesh Shell Sfun.
Import ListNotations.
Local Open Scope num_scope.

Section SpecSfun.
  Context {K : Type} {NK : Num K}.

  (** A 4x4 matrix stored column by column. *)
  Definition column_major (a : affine K) : list K :=
    [m00 (lin a); m10 (lin a); m20 (lin a); #0;
     m01 (lin a); m11 (lin a); m21 (lin a); #0;
     m02 (lin a); m12 (lin a); m22 (lin a); #0;
     vx (tra a); vy (tra a); vz (tra a); #1].

  (** Slot [i] of the rib arrays of a bus. *)
  Definition slot (b : bus K) (i : nat) : list K * option K * option K :=
    (firstn 16 (skipn (16 * i) (bu_ribs_affine b)),
     nth_error (bu_ribs_rho b) i, nth_error (bu_ribs_friction b) i).

  (** The bus holds the data of shell [s]: the shell totals, rib [i] in slot
      [i], NaN in the slots without rib; 20 slots. *)
  Definition describes_shell (s : shell K) (b : bus K) : Prop :=
    (exists a, contact_affine s = Ret a /\ bu_shell_affine b = column_major a) /\
    contact_depth s = Ret (bu_shell_rho b) /\
    contact_friction s = Ret (bu_shell_friction b) /\
    List.length (bu_ribs_affine b) = 320%nat /\ List.length (bu_ribs_rho b) = 20%nat /\
    List.length (bu_ribs_friction b) = 20%nat /\
    (forall i, (i < 20)%nat -> (i < sh_size s)%nat -> exists a d f,
       contact_affine_i s i = Ret a /\ contact_depth_i s i = Ret d /\ contact_friction_i s i = Ret f /\
       slot b i = (column_major a, Some d, Some f)) /\
    (forall i, (i < 20)%nat -> (sh_size s <= i)%nat ->
       slot b i = (repeat nnan 16, Some nnan, Some nnan)).

  (** Method codes of the input bus. *)
  Definition meth_of (m : K) (meth : string) : Prop :=
    (m =? #0 = true /\ meth = "geometric"%string) \/
    (m =? #0 = false /\ m =? #1 = true /\ meth = "sampling"%string).
End SpecSfun.
