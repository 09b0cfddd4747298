(** * C121: the friction reported in double precision. *)
From Coq Require Import ZArith Bool String List Floats.SpecFloat.
From Verif Require Import Base Num Vec Aabb Geom Ground Rib F64 SampleShell SpecDouble ProofMean.
Import ListNotations.

(** The friction of the four probes is averaged without leaving the range of
    the frictions of the triangles. *)
Theorem C121_triangles : forall lm gb (r : rib f64) (ground : list (tground f64)) pose lo hi out,
  moderate lo -> moderate hi ->
  Forall (fun g => is_double (tg_friction g) /\ SFleb lo (tg_friction g) = true /\
                   SFleb (tg_friction g) hi = true) ground ->
  @envelop f64 (F64_Num lm) gb r ground pose "sampling" = Ret (true, out) ->
  SFleb lo (o_friction out) = true /\ SFleb (o_friction out) hi = true.
Proof. exact friction_triangles. Qed.
Print Assumptions C121_triangles.

(** Ground of the same friction everywhere: exactly that friction. *)
Theorem C121_uniform : forall lm gb (r : rib f64) (ground : list (tground f64)) pose f out,
  moderate f -> Forall (fun g => tg_friction g = f) ground ->
  @envelop f64 (F64_Num lm) gb r ground pose "sampling" = Ret (true, out) ->
  SFeqb (o_friction out) f = true.
Proof. exact friction_uniform. Qed.
Print Assumptions C121_uniform.

Theorem C121_flat : forall lm gb (r : rib f64) (ground : flat f64) pose out,
  moderate (fl_friction ground) ->
  @envelop_flat f64 (F64_Num lm) gb r ground pose "sampling" = Ret (true, out) ->
  SFeqb (o_friction out) (fl_friction ground) = true.
Proof. exact friction_flat. Qed.
Print Assumptions C121_flat.

(** A C library right at the arguments met below: [atan2] on the x axis, sine
    and cosine at pi and pi/2. *)
Definition pi_d : f64 := f_of 7074237752028440 (-51).
Definition lmg : libm :=
  Libm (fun x => if SFeqb x pi_d then f_of 4967757600021511 (-105) else fz 1)
       (fun x => if SFeqb x half_pi then f_of 4967757600021511 (-106) else fz (-1))
       (fun x => x) (fun x => x)
       (fun _ x => if SFltb x (fz 0) then pi_d else fz 0) (fun x _ => x).
Local Instance G : Num f64 := F64_Num lmg.
(** A rib of radius 1 and width 5/16, its centre in a level triangle of
    friction 3/4. *)
Definition mean_rib : rib f64 := mk_rib 0 (fz 1) (fz 0) (f_of 5 (-4)) (fz 0).
Definition mean_ground : list (tground f64) :=
  let a := V (fz (-4)) (fz (-1)) (fz 0) in let b := V (fz 4) (fz (-1)) (fz 0) in
  let c := V (fz 0) (fz 1) (fz 0) in
  [got (TGround (Triangle a b c) 0 (fz 0) a nan_aabb) (mk_tground 0 (f_of 3 (-2)) a b c)].

(** The geometric method reports less than 3/4. *)
Theorem C121_geometric_refuted :
  Forall (fun g => tg_friction g = f_of 3 (-2)) mean_ground /\
  exists out, envelop (gb0 0) mean_rib mean_ground aid "geometric" = Ret (true, out) /\
    SFltb (o_friction out) (f_of 3 (-2)) = true.
Proof.
  split; [repeat constructor|].
  eexists. split; [vm_compute; reflexivity|vm_compute; reflexivity].
Qed.
Print Assumptions C121_geometric_refuted.

(** The same wheel and ground with the sampling method. *)
Example C121_example :
  moderate (f_of 3 (-2)) /\ Forall (fun g => tg_friction g = f_of 3 (-2)) mean_ground /\
  exists out, envelop (gb0 0) mean_rib mean_ground aid "sampling" = Ret (true, out).
Proof.
  split; [repeat split; vm_compute; reflexivity|]. split; [repeat constructor|].
  eexists. vm_compute. reflexivity.
Qed.
