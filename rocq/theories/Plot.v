(** * What the plotting methods of enve_shell draw
      (toolbox/lib/enve_shell.m:418-750).

    A figure is the list of the things drawn in it: curves, surfaces given by
    their grid of points, arrows and disks.  Colors, markers, axis limits,
    [hold], the figure name and the scale of the arrows are left out.  [colon]
    and [cylinder] are MATLAB's own functions, written here after their
    documentation; a matrix [T] is taken to be 4x4, and its last row, which
    none of these methods uses, is dropped.  The classes of the ACME toolbox
    are not in the repository: an acme_disk is taken to hold the disk it is
    made with, and its [transform] to be that of the C++ class. *)
From Coq Require Import ZArith Bool String List.
From Verif Require Import Base Num Vec Geom Acme Ground Str Mesh Shell Mex SpecMex Matlab.
Import ListNotations.
Local Open Scope num_scope.

Inductive drawn (K : Type) : Type :=
| Curve (l : list (K * K))
| Surf (rows : list (list (vec3 K)))
| Arrow (tail dir : vec3 K)
| DiskAt (d : disk K).
Arguments Curve {K} l.
Arguments Surf {K} rows.
Arguments Arrow {K} tail dir.
Arguments DiskAt {K} d.

Section Plot.
  Context {K : Type} {NK : Num K}.

  (** A result read as a number, as a 4x4 matrix. *)
  Definition as_num (m : mx K) : prog K K :=
    match m with MxDouble _ (x :: _) => PRet x | _ => PErr end.
  Definition as_affine (m : mx K) : prog K (affine K) :=
    match get_affine m with Ret a => PRet a | _ => PErr end.

  (** [for i = 1:length(y)], the results in order. *)
  Fixpoint each {A B} (f : A -> prog K B) (l : list A) : prog K (list B) :=
    match l with
    | [] => PRet []
    | x :: l' => pbind (f x) (fun b => pbind (each f l') (fun bs => PRet (b :: bs)))
    end.

  (** [this.name(...)] for a method that returns a number. *)
  Definition ask (c : string) (this : mobj K) (rest : list (mx K)) : prog K K :=
    pbind (mex1 FShell (text c :: o_handle this :: rest)) as_num.
  (** [this.transformation()], enve_shell.m:172-174. *)
  Definition ask_pose (this : mobj K) : prog K (affine K) :=
    pbind (mex1 FShell [text "transformation"; o_handle this]) as_affine.
  (** [this.ribCenter(k).get()], enve_shell.m:122-125. *)
  Definition ask_center (this : mobj K) (k : mx K) : prog K (vec3 K) :=
    pbind (acme FShell [text "ribCenter"; o_handle this; k]) (fun o =>
    match o with OPoint p => PRet p | _ => PErr end).

  (** [-W:W/h:W], for [W] neither 0 nor NaN: [2h+1] numbers. *)
  Definition colon (W : K) (h : nat) : list K :=
    if (#0 <? W) || (W <? #0) then
      map (fun k => - W + #(Z.of_nat k) * (W / #(Z.of_nat h))) (seq 0 (2 * h + 1))
    else [].

  (** [cylinder(r, n)]: a row for each element of [r], a column for each of
      the [n+1] angles, [X], [Y] and [Z] side by side. *)
  Definition cyl_sin (n j : nat) : K :=
    if Nat.eqb j n then #0 else nsin (#(Z.of_nat j) / #(Z.of_nat n) * #2 * npi).
  Definition cyl_cos (n j : nat) : K := ncos (#(Z.of_nat j) / #(Z.of_nat n) * #2 * npi).
  Definition cylinder (r : list K) (n : nat) : list (list (K * K * K)) :=
    map (fun ir => map (fun j =>
           (snd ir * cyl_cos n j, snd ir * cyl_sin n j,
            #(Z.of_nat (fst ir)) / #(Z.of_nat (List.length r - 1)))) (seq 0 (n + 1)))
        (combine (seq 0 (List.length r)) r).

  (** [T*[Y(i,j) ax(Z(i,j)) X(i,j) 1]'] over the whole grid. *)
  Definition grid (T : affine K) (ax : K -> K) (g : list (list (K * K * K))) : list (list (vec3 K)) :=
    map (map (fun q => let '(x, y, z) := q in aapply T (V y (ax z) x))) g.

  (** The three arrows: the columns of [T] from its origin. *)
  Definition arrows (T : affine K) : list (drawn K) :=
    [Arrow (tra T) (V (m00 (lin T)) (m10 (lin T)) (m20 (lin T)));
     Arrow (tra T) (V (m01 (lin T)) (m11 (lin T)) (m21 (lin T)));
     Arrow (tra T) (V (m02 (lin T)) (m12 (lin T)) (m22 (lin T)))].

  (** Lines 422-437. *)
  Definition profile_m (this : mobj K) : prog K (list (drawn K)) :=
    pbind (ask "surfaceWidth" this []) (fun W =>
    let y := colon W 50 in
    pbind (each (fun x => ask "surfaceRadius" this [mx_scalar x]) y) (fun r =>
    pbind (ask "surfaceMaxRadius" this []) (fun _ =>
    PRet [Curve (combine y r)]))).

  (** Lines 442-481. *)
  Definition shape_tplot (this : mobj K) (T : affine K) : prog K (list (drawn K)) :=
    pbind (ask "surfaceWidth" this []) (fun W =>
    let y := colon W 25 in
    pbind (each (fun x => ask "surfaceRadius" this [mx_scalar x]) y) (fun r =>
    PRet (arrows T ++ [Surf (grid T (fun z => z * #2 * W - W) (cylinder r 50))]))).

  (** Lines 486-496 and 501-513. *)
  Definition shell_shape_m (this : mobj K) : prog K (list (drawn K)) :=
    pbind (shape_tplot this aident) (fun fig =>
    pbind (ask "surfaceMaxRadius" this []) (fun _ => PRet fig)).
  Definition plot_shape_m (this : mobj K) : prog K (list (drawn K)) :=
    pbind (ask_pose this) (fun T =>
    pbind (shape_tplot this T) (fun fig =>
    pbind (ask "surfaceMaxRadius" this []) (fun _ => PRet fig))).

  (** Lines 518-557.  [ribWidth(1)]: the 1 is a double. *)
  Definition band (this : mobj K) (T : affine K) (w : K) (k : mx K) : prog K (drawn K) :=
    pbind (ask_center this k) (fun c =>
    pbind (ask "surfaceDerivative" this [mx_scalar (vy c)]) (fun d =>
    pbind (ask "ribRadius" this [k]) (fun R =>
    let r := [#1 * R + w / #2 * d; #1 * R + - w / #2 * d] in
    PRet (Surf (grid T (fun z => z * w - w / #2 - vy c) (cylinder r 100)))))).
  Definition enve_tplot (this : mobj K) (T : affine K) : prog K (list (drawn K)) :=
    pbind (mex1 FShell [text "size"; o_handle this]) (fun N =>
    pbind (ask "ribWidth" this [mx_scalar #1]) (fun w =>
    pbind (for_size N (band this T w)) (fun l => PRet (arrows T ++ l)))).

  (** Lines 562-572 and 577-589. *)
  Definition shell_enve_m (this : mobj K) : prog K (list (drawn K)) :=
    pbind (enve_tplot this aident) (fun fig =>
    pbind (ask "surfaceMaxRadius" this []) (fun _ => PRet fig)).
  Definition plot_enve_m (this : mobj K) : prog K (list (drawn K)) :=
    pbind (ask_pose this) (fun T =>
    pbind (enve_tplot this T) (fun fig =>
    pbind (ask "surfaceMaxRadius" this []) (fun _ => PRet fig))).

  (** Lines 594-620. *)
  Definition rib_disk (this : mobj K) (T : affine K) (k : mx K) : prog K (drawn K) :=
    pbind (ask "ribRadius" this [k]) (fun R =>
    pbind (ask_center this k) (fun c =>
    PRet (DiskAt (disk_transform T (Disk R (Plane c (V #0 #1 #0))))))).
  Definition ribs_tplot (this : mobj K) (T : affine K) : prog K (list (drawn K)) :=
    pbind (mex1 FShell [text "size"; o_handle this]) (fun N =>
    pbind (for_size N (rib_disk this T)) (fun l => PRet (arrows T ++ l))).

  (** Lines 625-635 and 640-652. *)
  Definition shell_ribs_m (this : mobj K) : prog K (list (drawn K)) :=
    pbind (ribs_tplot this aident) (fun fig =>
    pbind (ask "surfaceMaxRadius" this []) (fun _ => PRet fig)).
  Definition plot_ribs_m (this : mobj K) : prog K (list (drawn K)) :=
    pbind (ask_pose this) (fun T =>
    pbind (ribs_tplot this T) (fun fig =>
    pbind (ask "surfaceMaxRadius" this []) (fun _ => PRet fig))).

  (** Lines 657-681, 686-710 and 715-720. *)
  Definition plot_setup_avg_m (this : mobj K) : prog K (list (drawn K)) :=
    pbind (ask "surfaceMaxRadius" this []) (fun _ =>
    pbind (mex1 FShell [text "contactPointAffineAvg"; o_handle this]) (fun m =>
    pbind (as_affine m) (fun T => PRet (arrows T)))).
  Definition plot_setup_rib_m (this : mobj K) (i : mx K) : prog K (list (drawn K)) :=
    pbind (ask "surfaceMaxRadius" this []) (fun _ =>
    pbind (mex1 FShell [text "contactPointAffineRib"; o_handle this; i]) (fun m =>
    pbind (as_affine m) (fun T => PRet (arrows T)))).
  Definition plot_setup_vec_m (this : mobj K) : prog K (list (drawn K)) :=
    pbind (mex1 FShell [text "size"; o_handle this]) (fun N =>
    pbind (for_size N (plot_setup_rib_m this)) (fun l => PRet (concat l))).

  (** Lines 725-747: the grid [out.X], [out.Y], [out.Z], as points. *)
  Definition mesh_shell_m (this : mobj K) : prog K (list (list (vec3 K))) :=
    pbind (ask "surfaceWidth" this []) (fun W =>
    let y := colon W 50 in
    pbind (each (fun x => ask "surfaceRadius" this [mx_scalar x]) y) (fun r =>
    PRet (grid aident (fun z => z * #2 * W - W) (cylinder r 100)))).
End Plot.
