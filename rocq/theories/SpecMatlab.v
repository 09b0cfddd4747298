(** * Vocabulary for the MATLAB classes. *)
From Coq Require Import ZArith Bool String List.
From Verif Require Import Base Num Vec Geom Ground Str Mesh Shell Mex SpecMex Matlab.
Import ListNotations.

(** The gateway calls that return a handle which no object of the four classes
    keeps. *)
Definition handle_makers : list (mexfile * string) :=
  [ (FFlat, "getOrigin"); (FFlat, "getPlane");
    (FTri, "getVertex1"); (FTri, "getVertex2"); (FTri, "getVertex3");
    (FMesh, "getTriangleground");
    (FShell, "ribCenter"); (FShell, "contactPointAvg"); (FShell, "contactPointRib") ]%string.

(** The methods that are a single call of the gateway, under the same name:
    the class, the name, the number of arguments.  Those that return the array
    the gateway returns, ... *)
Definition getters : list (mexfile * string * nat) :=
  (map (fun n => (FFlat, n, 0%nat)) ["getNormal"; "getFriction"; "isDegenerated"]%string ++
   map (fun n => (FTri, n, 0%nat)) ["getID"; "getFriction"; "normal"]%string ++
   [(FMesh, "size", 0%nat); (FMesh, "getTrianglegroundVertices", 1%nat)]%string ++
   map (fun n => (FShell, n, 0%nat))
     ["size"; "surfaceMaxRadius"; "surfaceMaxWidth"; "surfaceWidth"; "translation"; "rotation"; "transformation";
      "x"; "y"; "z"; "eulerAngles"; "contactNormalAvg"; "contactDepthAvg"; "contactFrictionAvg"; "contactAreaAvg";
      "contactVolumeAvg"; "relativeAnglesAvg"; "contactPointAffineAvg"]%string ++
   map (fun n => (FShell, n, 1%nat))
     ["surfaceWidthBound"; "surfaceRadius"; "surfaceDerivative"; "surfaceAngle"; "ribRadius"; "ribWidth";
      "contactNormalRib"; "contactDepthRib"; "contactFrictionRib"; "contactAreaRib"; "contactVolumeRib";
      "relativeAnglesRib"; "contactPointAffineRib"]%string).
(** ... those that return nothing, ... *)
Definition setters : list (mexfile * string * nat) :=
  (map (fun n => (FFlat, n, 1%nat)) ["setOrigin"; "setNormal"; "setFriction"]%string ++
   map (fun n => (FShell, n, 1%nat)) ["resize"; "translate"; "transform"]%string ++
   [(FShell, "rotate"%string, 2%nat)]).
(** ... and those that return a new ACME object, read from the handle the
    gateway returns. *)
Definition makers : list (mexfile * string * nat) :=
  [ (FFlat, "getOrigin", 0%nat); (FFlat, "getPlane", 0%nat);
    (FTri, "getVertex1", 0%nat); (FTri, "getVertex2", 0%nat); (FTri, "getVertex3", 0%nat);
    (FShell, "ribCenter", 1%nat); (FShell, "contactPointAvg", 0%nat); (FShell, "contactPointRib", 1%nat) ]%string.
(** Methods with another name than the command they call. *)
Definition renamed : list (mexfile * string * string * nat) :=
  [ (FMesh, "getTriangleVertices", "getTrianglegroundVertices", 1%nat);
    (FMesh, "disp", "size", 0%nat); (FShell, "disp", "size", 0%nat) ]%string.
(** What the classes answer to [type]. *)
Definition class_text (f : mexfile) : string :=
  match f with FFlat => "flat" | FMesh => "mesh" | FTri => "triangleground" | FShell => "shell" end%string.

Section SpecMatlab.
  Context {K : Type} {NK : Num K}.

  (** [m] is the handle of the live object [o]. *)
  Definition handle_of (w : world K) (m : mx K) (o : obj K) : Prop :=
    exists a, m = mx_handle a /\ live w a o.

  (** The call passes no handle but those of live objects: its own object is
      live and of the class of the file (the destructor of an object whose
      constructor failed passes the empty array instead), and so is the second
      object, whatever its class, if the command takes one. *)
  Definition sound_call (x : world K * call (K:=K)) : Prop :=
    let (w, c) := x in
    exists cmd rest, c_args c = text cmd :: rest /\
      (cmd = "new"%string \/
       (exists m o, nth_error rest 0 = Some m /\ handle_of w m o /\ class_of o = Some (c_file c)) \/
       (cmd = "delete"%string /\ rest = [MxDouble [0; 0]%nat []])) /\
      (forall g, second_class (c_file c) cmd g ->
         exists m o, nth_error rest 1 = Some m /\ handle_of w m o).

  (** The call is undefined behaviour. *)
  Definition crashes (x : world K * call (K:=K)) : Prop := perform (fst x) (snd x) = Undef.

  (** 1 if the call returned a handle that nobody keeps, else 0. *)
  Definition abandoned (x : world K * call (K:=K)) : nat :=
    match perform (fst x) (snd x), c_args (snd x) with
    | Ok _ _, MxChar s :: _ =>
      if existsb (fun p => file_eqb (fst p) (c_file (snd x)) && str_eqb (lit (snd p)) (cstr s))
                 handle_makers
      then 1%nat else 0%nat
    | _, _ => 0%nat
    end.
  Definition abandoned_in (tr : trace K) : nat := fold_right Nat.add 0%nat (map abandoned tr).

  (** The objects made and not deleted. *)
  Definition undeleted (st : state K) : nat :=
    List.length (filter (fun x => match x with Some _ => true | None => false end) (st_objs st)).

  (** An execution of [p] from [w], whatever the addresses, ends like this. *)
  Definition always {A} (e : env K) (w : world K) (p : prog K A)
    (P : trace K -> world K -> ending A -> Prop) : Prop :=
    (exists tr w' r, exec e w p tr w' r) /\
    forall tr w' r, exec e w p tr w' r -> P tr w' r.

  (** [w'] is [w] with these new objects, made in this order. *)
  Definition grown (w w' : world K) (l : list (obj K)) : Prop :=
    exists new, w_heap w' = new ++ w_heap w /\ map snd new = rev l /\ NoDup (map fst new) /\
      (forall b, In b (map fst new) -> fresh w b) /\ w_lost w' = w_lost w.

  (** [t'] is [t] but for its number, which is 0. *)
  Definition same_but_id (t t' : tground K) : Prop :=
    tg_tri t' = tg_tri t /\ tg_friction t' = tg_friction t /\ tg_normal t' = tg_normal t /\
    tg_bbox t' = tg_bbox t /\ tg_id t' = 0%Z.

  (** The three vertices as the columns of a 3x3 array. *)
  Definition corners (t : tground K) : mx K :=
    matrix 3 3 [vx (tv0 (tg_tri t)); vy (tv0 (tg_tri t)); vz (tv0 (tg_tri t));
                vx (tv1 (tg_tri t)); vy (tv1 (tg_tri t)); vz (tv1 (tg_tri t));
                vx (tv2 (tg_tri t)); vy (tv2 (tg_tri t)); vz (tv2 (tg_tri t))].

  (** The constructor returned a new mesh with this content. *)
  Definition made (w w' : world K) (r : ending (mobj K)) (g : mesh K) : Prop :=
    exists b, r = Done (Obj FMesh (mx_handle b)) /\ fresh w b /\ extended_by FMesh w w' b (OMesh g).

  (** The call failed and what it had allocated is lost. *)
  Definition failed_losing {A} (w w' : world K) (r : ending A) : Prop :=
    r = Failed /\ w_heap w' = w_heap w /\ w_lost w' = S (w_lost w).

  (** The MATLAB objects with this handle. *)
  Definition obj_shell (a : Z) : mobj K := Obj FShell (mx_handle a).
  Definition obj_flat (a : Z) : mobj K := Obj FFlat (mx_handle a).
  Definition obj_mesh (a : Z) : mobj K := Obj FMesh (mx_handle a).
  Definition obj_tri (a : Z) : mobj K := Obj FTri (mx_handle a).

  (** The program only returns this. *)
  Definition returns (e : env K) (w : world K) (p : prog K (mres K)) (x : mres K) : Prop :=
    always e w p (fun _ w' r => w' = w /\ r = Done x).

  Definition vertices_of (t : tground K) : list (obj K) :=
    [OPoint (tv0 (tg_tri t)); OPoint (tv1 (tg_tri t)); OPoint (tv2 (tg_tri t))].

  (** Every execution of [p] from [w] is this one call of the gateway [f], with
      [n] results; it ends as [ok] says if the call returns, fails if the call
      fails and crashes if the call does. *)
  Definition one_call (e : env K) (w : world K) (p : prog K (mres K)) (f : mexfile) (n : nat) (args : list (mx K))
    (ok : world K -> list (mx K) -> ending (mres K) -> Prop) : Prop :=
    always e w p (fun tr w' r => exists z, fresh w z /\ tr = [(w, Call f (at_address e z) n args)] /\
      match mex_call f (at_address e z) w n args with
      | Ok w1 outs => w' = w1 /\ ok w1 outs r
      | Exn w1 _ => w' = w1 /\ r = Failed
      | Undef => r = Crash
      end).
  Definition the_array (w1 : world K) (outs : list (mx K)) (r : ending (mres K)) : Prop :=
    match outs with m :: _ => r = Done (RArr m) | [] => r = Failed end.
  Definition nothing (w1 : world K) (outs : list (mx K)) (r : ending (mres K)) : Prop := r = Done RNone.
  Definition the_object (w1 : world K) (outs : list (mx K)) (r : ending (mres K)) : Prop :=
    match outs with
    | m :: _ => (forall o, handle_of w1 m o -> r = Done (RAcme o)) /\
                ((forall o, ~ handle_of w1 m o) -> r = Failed \/ r = Crash)
    | [] => r = Failed
    end.
End SpecMatlab.

(** Character arrays without the character 0, at which C++ would cut them. *)
Definition no_nul (path : str) : Prop := ~ In Ascii.zero path.
