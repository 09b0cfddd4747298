(** * Specification vocabulary for shells. *)
From Coq Require Import ZArith Bool List String.
From Verif Require Import Base Num Vec Aabb Tree Geom Ground Shape Rib Str Mesh Shell.
Import ListNotations.
Local Open Scope num_scope.

Section SpecShell.
  Context {K : Type} {NK : Num K}.

  (** Shells that a program can hold: constructed, then changed by any
      sequence of successful resizes, pose changes, and setups that return
      or throw.  (A resize that throws is treated apart.) *)
  Inductive reach : shell K -> Prop :=
  | r_new : forall n rx mx ry my ly s, mk_shell n rx mx ry my ly = Ret s -> reach s
  | r_resize : forall s n s', reach s -> resize s n = Ok s' tt -> reach s'
  | r_translate : forall s v, reach s -> reach (sh_translate s v)
  | r_rotate : forall s a v, reach s -> reach (sh_rotate s a v)
  | r_transform : forall s p, reach s -> reach (transform s p)
  | r_mesh_ok : forall gb s m p meth s' b, reach s -> setup_mesh gb s m p meth = Ok s' b -> reach s'
  | r_mesh_exn : forall gb s m p meth s' e, reach s -> setup_mesh gb s m p meth = Exn s' e -> reach s'
  | r_flat_ok : forall gb s g p meth s' b, reach s -> setup_flat gb s g p meth = Ok s' b -> reach s'
  | r_flat_exn : forall gb s g p meth s' e, reach s -> setup_flat gb s g p meth = Exn s' e -> reach s'.

  (** Everything a user can ask a shell after a setup. *)
  Definition same_answers (s t : shell K) : Prop :=
    sh_size s = sh_size t /\ sh_affine s = sh_affine t /\ sh_bbox s = sh_bbox t /\
    sh_ribs s = sh_ribs t /\
    contact_point s = contact_point t /\ contact_normal s = contact_normal t /\
    contact_friction s = contact_friction t /\ contact_depth s = contact_depth t /\
    contact_area s = contact_area t /\ contact_volume s = contact_volume t /\
    contact_affine s = contact_affine t /\ relative_angles s = relative_angles t /\
    forall i, (i < sh_size s)%nat -> out_at s i = out_at t i.

  (** Two runs of a setup with the same outcome and the same answers. *)
  Definition same_run (x y : result (shell K) bool) : Prop :=
    match x, y with
    | Ok s b, Ok t c => b = c /\ same_answers s t
    | Exn _ e, Exn _ f => e = f
    | Undef, Undef => True
    | _, _ => False
    end.

  (** A rib without contact: its lowest point in its own frame, the z axis of
      the pose, and zeros. *)
  Definition no_contact (r : rib K) (pose : affine K) (o : output K) : Prop :=
    o_point o = vadd (tra pose) (mvmul (lin pose) (vsub (rb_center r) (vmul (rb_radius r) (V #0 #0 #1)))) /\
    o_normal o = mvmul (lin pose) (V #0 #0 #1) /\
    o_friction o = #0 /\ o_depth o = #0 /\ o_area o = #0 /\ o_volume o = #0.

  (** The method names. *)
  Definition valid_method (m : string) : Prop := m = "geometric"%string \/ m = "sampling"%string.

  (** Rib [i] of the shell was enveloped by the call [f], whose flag and data
      are [b] and [o]; the data are stored. *)
  Definition rib_result (f : nat -> rib K -> outcome (bool * output K)) (s : shell K)
    (i : nat) (b : bool) : Prop :=
    exists r o, nth_error (sh_ribs s) i = Some r /\ f i r = Ret (b, o) /\ out_at s i = Ret o.

  (** A vector accessor returns one entry per rib, equal to the indexed one. *)
  Definition accessors_agree {B} (vec : shell K -> outcome (list B)) (idx : shell K -> nat -> outcome B)
    (s : shell K) : Prop :=
    forall v, vec s = Ret v -> List.length v = sh_size s /\
      forall i, (i < sh_size s)%nat -> exists b, nth_error v i = Some b /\ idx s i = Ret b.
End SpecShell.
