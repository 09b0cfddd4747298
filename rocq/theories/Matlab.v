(** * The MATLAB classes (toolbox/lib/enve_flat.m, enve_mesh.m, enve_shell.m,
      enve_triangleground.m): what each method asks of the gateways.

    Not modelled: [copyByHandle] as a method of its own (it takes a raw handle;
    what a gateway does with one is in Mex.v), the methods that
    enve_triangleground inherits from acme_entity, and drawing in general:
    [disp] and [plot] are the values they show.  The plotting methods of
    enve_shell are in Plot.v.  The classes of the ACME toolbox are not in the
    repository: an acme_point or acme_plane filled by [copyByHandle(h)] is
    taken to hold a copy of the object behind [h], and [h] to be left alone. *)
From Coq Require Import ZArith Bool String List.
From Verif Require Import Base Num Vec Geom Ground Str Mesh Shell Mex SpecMex.
Import ListNotations.

Section Matlab.
  Context {K : Type} {NK : Num K}.

  (** ** Programs: what a method does, step by step. *)

  (** [PMex]: one gateway call, with what follows when it returns and what
      follows when it raises an error.  [PAcme]: an ACME object copied from a
      handle, with what follows when the argument is no handle.  [PIsfile]: MATLAB's [isfile].  [PErr]: a MATLAB error. *)
  Inductive prog (A : Type) : Type :=
  | PRet (x : A)
  | PErr
  | PMex (f : mexfile) (nlhs : nat) (args : list (mx K)) (k : list (mx K) -> prog A) (err : prog A)
  | PAcme (h : mx K) (k : obj K -> prog A) (err : prog A)
  | PIsfile (path : str) (k : bool -> prog A).
  Arguments PRet {A} x.
  Arguments PErr {A}.
  Arguments PMex {A} f nlhs args k err.
  Arguments PAcme {A} h k err.
  Arguments PIsfile {A} path k.

  Fixpoint pbind {A B} (p : prog A) (g : A -> prog B) : prog B :=
    match p with
    | PRet x => g x
    | PErr => PErr
    | PMex f n a k err => PMex f n a (fun o => pbind (k o) g) (pbind err g)
    | PAcme h k err => PAcme h (fun o => pbind (k o) g) (pbind err g)
    | PIsfile path k => PIsfile path (fun b => pbind (k b) g)
    end.

  (** A local handle object goes out of scope: [c] runs when [p] fails. *)
  Fixpoint guard {A} (c : prog unit) (p : prog A) : prog A :=
    match p with
    | PRet x => PRet x
    | PErr => pbind c (fun _ => PErr)
    | PMex f n a k err => PMex f n a (fun o => guard c (k o)) (guard c err)
    | PAcme h k err => PAcme h (fun o => guard c (k o)) (guard c err)
    | PIsfile path k => PIsfile path (fun b => guard c (k b))
    end.
  (** ... and also when it returns. *)
  Definition ensure {A} (c : prog unit) (p : prog A) : prog A :=
    pbind (guard c p) (fun x => pbind c (fun _ => PRet x)).

  (** [out = mex_x(...)] and [mex_x(...)] as a statement. *)
  Definition mex1 (f : mexfile) (args : list (mx K)) : prog (mx K) :=
    PMex f 1 args (fun outs => match outs with m :: _ => PRet m | [] => PErr end) PErr.
  Definition mex0 (f : mexfile) (args : list (mx K)) : prog unit :=
    PMex f 0 args (fun _ => PRet tt) PErr.

  (** ** Objects and values. *)

  (** An object of one of the four classes: its class and its property
      [objectHandle]. *)
  Record mobj : Type := Obj { o_class : mexfile; o_handle : mx K }.

  (** An argument: an array, an object of these classes, or an acme_plane. *)
  Inductive mval : Type := VArr (m : mx K) | VObj (o : mobj) | VPlane (p : plane K).

  (** An object handed to a gateway is an array of a class it does not know. *)
  Definition to_mx (v : mval) : mx K :=
    match v with VArr m => m | VObj _ | VPlane _ => MxCell [1; 1]%nat end.

  (** What a method returns: nothing, an array, text, a new object, an ACME
      object with this content, or a list (cell array, numeric row, figure). *)
  Inductive mres : Type :=
  | RNone
  | RArr (m : mx K)
  | RText (s : string)
  | RObj (o : mobj)
  | RAcme (o : obj K)
  | RArrs (l : list (mx K))
  | RAcmes (l : list (obj K)).

  Definition method : Type := mobj -> list mval -> prog mres.

  (** Methods that are a single gateway call: no argument, one, two. *)
  Definition get (f : mexfile) (c : string) : method := fun this args =>
    match args with
    | [] => pbind (mex1 f [text c; o_handle this]) (fun m => PRet (RArr m))
    | _ => PErr
    end.
  Definition get1 (f : mexfile) (c : string) : method := fun this args =>
    match args with
    | [v] => pbind (mex1 f [text c; o_handle this; to_mx v]) (fun m => PRet (RArr m))
    | _ => PErr
    end.
  Definition act1 (f : mexfile) (c : string) : method := fun this args =>
    match args with
    | [v] => pbind (mex0 f [text c; o_handle this; to_mx v]) (fun _ => PRet RNone)
    | _ => PErr
    end.
  Definition act2 (f : mexfile) (c : string) : method := fun this args =>
    match args with
    | [u; v] => pbind (mex0 f [text c; o_handle this; to_mx u; to_mx v]) (fun _ => PRet RNone)
    | _ => PErr
    end.

  (** [out = acme_point(); out.copyByHandle( mex_x(...) )]. *)
  Definition acme (f : mexfile) (args : list (mx K)) : prog (obj K) :=
    pbind (mex1 f args) (fun h => PAcme h (fun o => PRet o) PErr).
  Definition make (f : mexfile) (c : string) : method := fun this args =>
    match args with
    | [] => pbind (acme f [text c; o_handle this]) (fun o => PRet (RAcme o))
    | _ => PErr
    end.
  Definition make1 (f : mexfile) (c : string) : method := fun this args =>
    match args with
    | [v] => pbind (acme f [text c; o_handle this; to_mx v]) (fun o => PRet (RAcme o))
    | _ => PErr
    end.

  (** Methods that check [other_obj.type()] and pass its handle. *)
  Definition with_other (want : mexfile) (other : mval) (p : mobj -> prog mres) : prog mres :=
    match other with
    | VObj o => if file_eqb (o_class o) want then p o else PErr
    | _ => PErr
    end.

  Definition typ (s : string) : method := fun _ args =>
    match args with [] => PRet (RText s) | _ => PErr end.

  (** [for i = 1:n], [n] being the [int64] scalar that [size] returns; the
      results in order. *)
  Fixpoint loop {A} (n : nat) (i : Z) (body : mx K -> prog A) : prog (list A) :=
    match n with
    | O => PRet []
    | S n' => pbind (body (mx_int64 i)) (fun x =>
              pbind (loop n' (i + 1)%Z body) (fun l => PRet (x :: l)))
    end.
  Definition for_size {A} (m : mx K) (body : mx K -> prog A) : prog (list A) :=
    match m with
    | MxInt I64 false [1; 1]%nat [z] => loop (Z.to_nat z) 1 body
    | _ => PErr
    end.

  (** ** enve_flat.m *)

  (** Lines 37-39: all arguments go to the gateway. *)
  Definition new_object (f : mexfile) (args : list mval) : prog mobj :=
    pbind (mex1 f (text "new" :: map to_mx args)) (fun h => PRet (Obj f h)).

  (** [delete( this )]: enve_flat.m:44-46, enve_mesh.m:69-71,
      enve_shell.m:44-46, enve_triangleground.m:38-40.  MATLAB turns an error
      in a destructor into a warning. *)
  Definition destroy (o : mobj) : prog unit :=
    PMex (o_class o) 0 [text "delete"; o_handle o] (fun _ => PRet tt) (PRet tt).

  (** Lines 119-125. *)
  Definition flat_is_approx_m : method := fun this args =>
    match args with
    | [v] => with_other FFlat v (fun o =>
               pbind (mex1 FFlat [text "isApprox"; o_handle this; o_handle o]) (fun m => PRet (RArr m)))
    | _ => PErr
    end.
  (** Lines 130-136: the other object must be a mesh. *)
  Definition flat_copy_m : method := fun this args =>
    match args with
    | [v] => with_other FMesh v (fun o =>
               pbind (mex0 FFlat [text "copy"; o_handle this; o_handle o]) (fun _ => PRet RNone))
    | _ => PErr
    end.
  (** Lines 88-93: [other_obj.getOrigin().get()] and [other_obj.getNormal()]
      of an acme_plane or of another enve_flat. *)
  Definition flat_set_plane_m : method := fun this args =>
    match args with
    | [VPlane p] =>
      pbind (mex0 FFlat [text "setOrigin"; o_handle this; mx_vec (porigin p)]) (fun _ =>
      pbind (mex0 FFlat [text "setNormal"; o_handle this; mx_vec (pnormal p)]) (fun _ => PRet RNone))
    | [VObj o] =>
      if file_eqb (o_class o) FFlat then
        pbind (acme FFlat [text "getOrigin"; o_handle o]) (fun x =>
        match x with
        | OPoint q =>
          pbind (mex0 FFlat [text "setOrigin"; o_handle this; mx_vec q]) (fun _ =>
          pbind (mex1 FFlat [text "getNormal"; o_handle o]) (fun n =>
          pbind (mex0 FFlat [text "setNormal"; o_handle this; n]) (fun _ => PRet RNone)))
        | _ => PErr
        end)
      else PErr
    | _ => PErr
    end.
  (** Lines 148-152. *)
  Definition flat_disp_m : method := fun this args =>
    match args with
    | [] =>
      pbind (mex1 FFlat [text "getFriction"; o_handle this]) (fun f =>
      pbind (acme FFlat [text "getOrigin"; o_handle this]) (fun x =>
      match x with
      | OPoint q => pbind (mex1 FFlat [text "getNormal"; o_handle this]) (fun n => PRet (RArrs [f; mx_vec q; n]))
      | _ => PErr
      end))
    | _ => PErr
    end.
  (** Lines 157-162. *)
  Definition flat_plot_m : method := fun this args =>
    match args with
    | [_; _] => pbind (acme FFlat [text "getPlane"; o_handle this]) (fun o => PRet (RAcme o))
    | _ => PErr
    end.

  Definition flat_methods : list (string * method) :=
    [ ("getOrigin", make FFlat "getOrigin");            (* 51-54 *)
      ("setOrigin", act1 FFlat "setOrigin");            (* 59-61 *)
      ("getNormal", get FFlat "getNormal");             (* 66-68 *)
      ("setNormal", act1 FFlat "setNormal");            (* 73-75 *)
      ("getPlane", make FFlat "getPlane");              (* 80-83 *)
      ("setPlane", flat_set_plane_m);
      ("getFriction", get FFlat "getFriction");         (* 98-100 *)
      ("setFriction", act1 FFlat "setFriction");        (* 105-107 *)
      ("isDegenerated", get FFlat "isDegenerated");     (* 112-114 *)
      ("isApprox", flat_is_approx_m);
      ("copy", flat_copy_m);
      ("disp", flat_disp_m);
      ("plot", flat_plot_m);
      ("type", typ "flat") ]%string.                    (* 167-169 *)

  (** ** enve_mesh.m *)

  Definition is_scalar (m : mx K) : bool := Nat.eqb (numel (mx_dims m)) 1.
  Definition is_matrix (m : mx K) : bool := Nat.eqb (List.length (mx_dims m)) 2.
  (** MATLAB's [length]: the largest dimension, 0 if one of them is 0. *)
  Definition mlength (m : mx K) : nat :=
    if Nat.eqb (numel (mx_dims m)) 0 then 0%nat else fold_right Nat.max 0%nat (mx_dims m).

  (** The constructor, lines 38-64. *)
  Definition new_mesh (args : list mval) : prog mobj :=
    match map to_mx args with
    | MxChar path :: rest =>
      if Nat.ltb (List.length path) 4 then PErr
      else PIsfile path (fun b =>
        if negb b then PErr
        else
          let ext := skipn (List.length path - 4) path in
          let ok :=
            if str_eqb ext (lit ".rdf") then
              match rest with
              | [] => true
              | [m] => is_matrix m
              | _ => false
              end
            else if str_eqb ext (lit ".obj") then
              match rest with
              | [] => true
              | [m] => is_scalar m
              | [m; p] => is_scalar m && Nat.eqb (mlength p) 4
              | _ => false
              end
            else false in
          if ok then new_object FMesh args else PErr)
    | _ => PErr
    end.

  Definition construct (f : mexfile) (args : list mval) : prog mobj :=
    match f with FMesh => new_mesh args | _ => new_object f args end.

  (** getTriangleground, lines 76-79: a new enve_triangleground, filled from
      the handle that the gateway returns.  [out] is destroyed if that
      fails. *)
  Definition get_triangleground (this : mobj) (i : mx K) : prog mobj :=
    pbind (new_object FTri []) (fun out =>
    guard (destroy out)
      (pbind (mex1 FMesh [text "getTriangleground"; o_handle this; i]) (fun h =>
       pbind (mex0 FTri [text "copy"; o_handle out; h]) (fun _ => PRet out)))).
  Definition mesh_tri_m : method := fun this args =>
    match args with
    | [v] => pbind (get_triangleground this (to_mx v)) (fun o => PRet (RObj o))
    | _ => PErr
    end.

  (** ** enve_triangleground.m *)

  (** Lines 139-145: an acme_triangle from the three vertices. *)
  Definition to_triangle (this : mobj) : prog (list (obj K)) :=
    pbind (acme FTri [text "getVertex1"; o_handle this]) (fun a =>
    pbind (acme FTri [text "getVertex2"; o_handle this]) (fun b =>
    pbind (acme FTri [text "getVertex3"; o_handle this]) (fun c => PRet [a; b; c]))).
  Definition to_triangle_m : method := fun this args =>
    match args with [] => pbind (to_triangle this) (fun l => PRet (RAcmes l)) | _ => PErr end.
  (** [other_obj.objectHandle] of whatever is passed, lines 83-99. *)
  Definition set_vertex_m (c : string) : method := fun this args =>
    match args with
    | [VObj o] => pbind (mex0 FTri [text c; o_handle this; o_handle o]) (fun _ => PRet RNone)
    | _ => PErr
    end.
  (** Lines 104-110. *)
  Definition tri_copy_m : method := fun this args =>
    match args with
    | [v] => with_other FTri v (fun o =>
               pbind (mex0 FTri [text "copy"; o_handle this; o_handle o]) (fun _ => PRet RNone))
    | _ => PErr
    end.
  (** Lines 129-134. *)
  Definition tri_disp_m : method := fun this args =>
    match args with
    | [] =>
      pbind (mex1 FTri [text "getID"; o_handle this]) (fun i =>
      pbind (mex1 FTri [text "getFriction"; o_handle this]) (fun f =>
      pbind (to_triangle this) (fun l =>
      match l with
      | [OPoint a; OPoint b; OPoint c] => PRet (RArrs [i; f; mx_vec a; mx_vec b; mx_vec c])
      | _ => PErr
      end)))
    | _ => PErr
    end.
  (** Lines 150-161. *)
  Definition tri_plot_m : method := fun this args =>
    match args with
    | [_; _] => pbind (to_triangle this) (fun l => PRet (RAcmes l))
    | _ => PErr
    end.

  Definition tri_methods : list (string * method) :=
    [ ("getID", get FTri "getID");                      (* 45-47 *)
      ("getFriction", get FTri "getFriction");          (* 52-54 *)
      ("getVertex1", make FTri "getVertex1");           (* 59-62 *)
      ("getVertex2", make FTri "getVertex2");           (* 67-70 *)
      ("getVertex3", make FTri "getVertex3");           (* 75-78 *)
      ("setVertex1", set_vertex_m "setVertex1");
      ("setVertex2", set_vertex_m "setVertex2");
      ("setVertex3", set_vertex_m "setVertex3");
      ("copy", tri_copy_m);
      ("normal", get FTri "normal");                    (* 122-124 *)
      ("disp", tri_disp_m);
      ("toTriangle", to_triangle_m);
      ("plot", tri_plot_m);
      ("type", typ "triangleground") ]%string.          (* 166-168 *)

  (** ** enve_mesh.m *)

  (** getTriangle, enve_mesh.m:91-93: the temporary enve_triangleground is
      destroyed. *)
  Definition mesh_triangle_m : method := fun this args =>
    match args with
    | [v] => pbind (get_triangleground this (to_mx v)) (fun t =>
             ensure (destroy t) (pbind (to_triangle t) (fun l => PRet (RAcmes l))))
    | _ => PErr
    end.
  (** enve_mesh.m:112-118. *)
  Definition mesh_copy_m : method := fun this args =>
    match args with
    | [v] => with_other FMesh v (fun o =>
               pbind (mex0 FMesh [text "copy"; o_handle this; o_handle o]) (fun _ => PRet RNone))
    | _ => PErr
    end.
  (** enve_mesh.m:137-151: the vertices that are drawn; [size] is asked four
      times. *)
  Definition mesh_plot_m : method := fun this args =>
    match args with
    | [_; _] =>
      let size := mex1 FMesh [text "size"; o_handle this] in
      pbind size (fun _ => pbind size (fun _ => pbind size (fun _ => pbind size (fun n =>
      pbind (for_size n (fun i => mex1 FMesh [text "getTrianglegroundVertices"; o_handle this; i]))
            (fun l => PRet (RArrs l))))))
    | _ => PErr
    end.

  Definition mesh_methods : list (string * method) :=
    [ ("getTriangleground", mesh_tri_m);
      ("getTrianglegroundVertices", get1 FMesh "getTrianglegroundVertices");  (* enve_mesh.m:84-86 *)
      ("getTriangle", mesh_triangle_m);
      ("getTriangleVertices", get1 FMesh "getTrianglegroundVertices");        (* 98-100 *)
      ("size", get FMesh "size");                                             (* 105-107 *)
      ("copy", mesh_copy_m);
      ("disp", get FMesh "size");                                             (* 130-132 *)
      ("plot", mesh_plot_m);
      ("type", typ "mesh") ]%string.                                          (* 156-158 *)

  (** ** enve_shell.m *)

  (** setupFlat and setupMesh, lines 207-216: the handle of whatever object is
      passed. *)
  Definition setup_m (c : string) : method := fun this args =>
    match args with
    | [VObj g; t; m] =>
      pbind (mex1 FShell [text c; o_handle this; o_handle g; to_mx t; to_mx m]) (fun r => PRet (RArr r))
    | _ => PErr
    end.

  (** The methods on all ribs, lines 237-242, 261-266, 285-290, 309-314,
      333-338, 357-362, 381-386, 405-410: [size] is asked for the result and
      for the loop. *)
  Definition vec_m (c : string) : method := fun this args =>
    match args with
    | [] =>
      let size := mex1 FShell [text "size"; o_handle this] in
      pbind size (fun _ => pbind size (fun n =>
      pbind (for_size n (fun i => mex1 FShell [text c; o_handle this; i])) (fun l => PRet (RArrs l))))
    | _ => PErr
    end.
  Definition points_m (c : string) : method := fun this args =>
    match args with
    | [] =>
      let size := mex1 FShell [text "size"; o_handle this] in
      pbind size (fun _ => pbind size (fun n =>
      pbind (for_size n (fun i => acme FShell [text c; o_handle this; i])) (fun l => PRet (RAcmes l))))
    | _ => PErr
    end.

  Definition shell_methods : list (string * method) :=
    [ ("resize", act1 FShell "resize");                               (* 51-53 *)
      ("size", get FShell "size");                                    (* 58-60 *)
      ("surfaceMaxRadius", get FShell "surfaceMaxRadius");            (* 65-67 *)
      ("surfaceMaxWidth", get FShell "surfaceMaxWidth");              (* 72-74 *)
      ("surfaceWidthBound", get1 FShell "surfaceWidthBound");         (* 79-81 *)
      ("surfaceWidth", get FShell "surfaceWidth");                    (* 86-88 *)
      ("surfaceRadius", get1 FShell "surfaceRadius");                 (* 93-95 *)
      ("surfaceDerivative", get1 FShell "surfaceDerivative");         (* 101-103 *)
      ("surfaceAngle", get1 FShell "surfaceAngle");                   (* 108-110 *)
      ("ribRadius", get1 FShell "ribRadius");                         (* 115-117 *)
      ("ribCenter", make1 FShell "ribCenter");                        (* 122-125 *)
      ("ribWidth", get1 FShell "ribWidth");                           (* 130-132 *)
      ("translate", act1 FShell "translate");                         (* 137-139 *)
      ("translation", get FShell "translation");                      (* 144-146 *)
      ("rotate", act2 FShell "rotate");                               (* 151-153 *)
      ("rotation", get FShell "rotation");                            (* 158-160 *)
      ("transform", act1 FShell "transform");                         (* 165-167 *)
      ("transformation", get FShell "transformation");                (* 172-174 *)
      ("x", get FShell "x");                                          (* 179-181 *)
      ("y", get FShell "y");                                          (* 186-188 *)
      ("z", get FShell "z");                                          (* 193-195 *)
      ("eulerAngles", get FShell "eulerAngles");                      (* 200-202 *)
      ("setupFlat", setup_m "setupFlat");
      ("setupMesh", setup_m "setupMesh");
      ("contactPointAvg", make FShell "contactPointAvg");             (* 221-224 *)
      ("contactPointRib", make1 FShell "contactPointRib");            (* 229-232 *)
      ("contactPointVec", points_m "contactPointRib");
      ("contactNormalAvg", get FShell "contactNormalAvg");            (* 247-249 *)
      ("contactNormalRib", get1 FShell "contactNormalRib");           (* 254-256 *)
      ("contactNormalVec", vec_m "contactNormalRib");
      ("contactDepthAvg", get FShell "contactDepthAvg");              (* 271-273 *)
      ("contactDepthRib", get1 FShell "contactDepthRib");             (* 278-280 *)
      ("contactDepthVec", vec_m "contactDepthRib");
      ("contactFrictionAvg", get FShell "contactFrictionAvg");        (* 295-297 *)
      ("contactFrictionRib", get1 FShell "contactFrictionRib");       (* 302-304 *)
      ("contactFrictionVec", vec_m "contactFrictionRib");
      ("contactAreaAvg", get FShell "contactAreaAvg");                (* 319-321 *)
      ("contactAreaRib", get1 FShell "contactAreaRib");               (* 326-328 *)
      ("contactAreaVec", vec_m "contactAreaRib");
      ("contactVolumeAvg", get FShell "contactVolumeAvg");            (* 343-345 *)
      ("contactVolumeRib", get1 FShell "contactVolumeRib");           (* 350-352 *)
      ("contactVolumeVec", vec_m "contactVolumeRib");
      ("relativeAnglesAvg", get FShell "relativeAnglesAvg");          (* 367-369 *)
      ("relativeAnglesRib", get1 FShell "relativeAnglesRib");         (* 374-376 *)
      ("relativeAnglesVec", vec_m "relativeAnglesRib");
      ("contactPointAffineAvg", get FShell "contactPointAffineAvg");  (* 391-393 *)
      ("contactPointAffineRib", get1 FShell "contactPointAffineRib"); (* 398-400 *)
      ("contactPointAffineVec", vec_m "contactPointAffineRib");
      ("disp", get FShell "size");                                    (* 415-417 *)
      ("type", typ "shell") ]%string.                                 (* 752-754 *)

  Definition methods (f : mexfile) : list (string * method) :=
    match f with
    | FShell => shell_methods
    | FFlat => flat_methods
    | FMesh => mesh_methods
    | FTri => tri_methods
    end.

  (** [obj.name(args)]. *)
  Definition invoke (o : mobj) (name : string) (args : list mval) : prog mres :=
    match assoc (methods (o_class o)) (lit name) with
    | Some m => m o args
    | None => PErr
    end.
End Matlab.
Arguments prog K A : clear implicits.
Arguments PRet {K A} x.
Arguments PErr {K A}.
Arguments PMex {K A} f nlhs args k err.
Arguments PAcme {K A} h k err.
Arguments PIsfile {K A} path k.
Arguments mobj K : clear implicits.
Arguments mval K : clear implicits.
Arguments mres K : clear implicits.
Arguments Obj {K} o_class o_handle.

(** ** Running programs and scripts. *)
Section Run.
  Context {K : Type} {NK : Num K}.

  (** How a program ends: a value, a MATLAB error, undefined behaviour. *)
  Inductive ending (A : Type) : Type := Done (x : A) | Failed | Crash.
  Arguments Done {A} x.
  Arguments Failed {A}.
  Arguments Crash {A}.

  (** The gateway calls made so far, each with the process it was made in. *)
  Definition trace : Type := list (world K * call (K:=K)).

  Definition at_address (e : env K) (a : Z) : env K :=
    Env a (e_fs e) (e_stod e) (e_toint e) (e_gb e) (e_rot e).

  (** [p] runs from [w] to [w'], [e] giving all but the addresses: these are
      any that are not in use. *)
  Inductive exec {A} (e : env K) : world K -> prog K A -> trace -> world K -> ending A -> Prop :=
  | ex_ret : forall w x, exec e w (PRet x) [] w (Done x)
  | ex_err : forall w, exec e w PErr [] w Failed
  | ex_ok : forall w f n args k err a w1 outs tr w' r,
      fresh w a -> mex_call f (at_address e a) w n args = Ok w1 outs ->
      exec e w1 (k outs) tr w' r ->
      exec e w (PMex f n args k err) ((w, Call f (at_address e a) n args) :: tr) w' r
  | ex_exn : forall w f n args k err a w1 x tr w' r,
      fresh w a -> mex_call f (at_address e a) w n args = Exn w1 x ->
      exec e w1 err tr w' r ->
      exec e w (PMex f n args k err) ((w, Call f (at_address e a) n args) :: tr) w' r
  | ex_undef : forall w f n args k err a,
      fresh w a -> mex_call f (at_address e a) w n args = Undef ->
      exec e w (PMex f n args k err) [(w, Call f (at_address e a) n args)] w Crash
  | ex_acme : forall w h k err a o tr w' r,
      h = mx_handle a -> hfind (w_heap w) a = Some o ->
      exec e w (k o) tr w' r -> exec e w (PAcme h k err) tr w' r
  | ex_acme_stale : forall w h k err a,
      h = mx_handle a -> hfind (w_heap w) a = None -> exec e w (PAcme h k err) [] w Crash
  | ex_acme_bad : forall w h k err tr w' r,
      (forall a, h <> mx_handle a) -> exec e w err tr w' r -> exec e w (PAcme h k err) tr w' r
  | ex_isfile : forall w path k tr w' r,
      exec e w (k (match e_fs e path with Some _ => true | None => false end)) tr w' r ->
      exec e w (PIsfile path k) tr w' r.

  (** The MATLAB side: the process and the objects made so far, [None] once
      deleted. *)
  Record state : Type := State { st_world : world K; st_objs : list (option (mobj K)) }.

  (** Arguments in a script: arrays, objects by number, acme_planes. *)
  Inductive sval : Type := SArr (m : mx K) | SRef (i : nat) | SPlane (p : plane K).

  Definition object (st : state) (i : nat) : option (mobj K) :=
    match nth_error (st_objs st) i with Some (Some o) => Some o | _ => None end.

  Fixpoint resolve (st : state) (l : list sval) : option (list (mval K)) :=
    match l with
    | [] => Some []
    | v :: l' =>
      match (match v with
             | SArr m => Some (VArr m)
             | SRef i => match object st i with Some o => Some (VObj o) | None => None end
             | SPlane p => Some (VPlane p)
             end), resolve st l' with
      | Some x, Some xs => Some (x :: xs)
      | _, _ => None
      end
    end.

  (** The statements of a script: [x = enve_x(args)], [obj_i.name(args)],
      [delete(obj_i)]. *)
  Inductive stmt : Type :=
  | SNew (f : mexfile) (args : list sval)
  | SCall (i : nat) (name : string) (args : list sval)
  | SDelete (i : nat).

  Fixpoint forget (l : list (option (mobj K))) (i : nat) : list (option (mobj K)) :=
    match l, i with
    | [], _ => []
    | _ :: l', O => None :: l'
    | x :: l', S i' => x :: forget l' i'
    end.

  Definition after (objs : list (option (mobj K))) (r : mres K) : list (option (mobj K)) :=
    match r with RObj o => objs ++ [Some o] | _ => objs end.

  (** An object whose constructor failed is destroyed with an empty
      [objectHandle]. *)
  Definition unmade (f : mexfile) : mobj K := Obj f (MxDouble [0; 0]%nat []).

  (** One statement.  An object that was deleted cannot be used: MATLAB raises
      an error before the method runs. *)
  Inductive does (e : env K) : state -> stmt -> trace -> state -> ending (mres K) -> Prop :=
  | do_new : forall st f args vs tr w o,
      resolve st args = Some vs -> exec e (st_world st) (construct f vs) tr w (Done o) ->
      does e st (SNew f args) tr (State w (st_objs st ++ [Some o])) (Done (RObj o))
  | do_new_failed : forall st f args vs tr w tr' w' r,
      resolve st args = Some vs -> exec e (st_world st) (construct f vs) tr w Failed ->
      exec e w (destroy (unmade f)) tr' w' r -> r <> Crash ->
      does e st (SNew f args) (tr ++ tr') (State w' (st_objs st)) Failed
  | do_new_failed_crash : forall st f args vs tr w tr' w',
      resolve st args = Some vs -> exec e (st_world st) (construct f vs) tr w Failed ->
      exec e w (destroy (unmade f)) tr' w' Crash ->
      does e st (SNew f args) (tr ++ tr') (State w' (st_objs st)) Crash
  | do_new_crash : forall st f args vs tr w,
      resolve st args = Some vs -> exec e (st_world st) (construct f vs) tr w Crash ->
      does e st (SNew f args) tr (State w (st_objs st)) Crash
  | do_new_gone : forall st f args,
      resolve st args = None -> does e st (SNew f args) [] st Failed
  | do_call : forall st i name args o vs tr w r,
      object st i = Some o -> resolve st args = Some vs ->
      exec e (st_world st) (invoke o name vs) tr w (Done r) ->
      does e st (SCall i name args) tr (State w (after (st_objs st) r)) (Done r)
  | do_call_failed : forall st i name args o vs tr w,
      object st i = Some o -> resolve st args = Some vs ->
      exec e (st_world st) (invoke o name vs) tr w Failed ->
      does e st (SCall i name args) tr (State w (st_objs st)) Failed
  | do_call_crash : forall st i name args o vs tr w,
      object st i = Some o -> resolve st args = Some vs ->
      exec e (st_world st) (invoke o name vs) tr w Crash ->
      does e st (SCall i name args) tr (State w (st_objs st)) Crash
  | do_call_gone : forall st i name args,
      object st i = None \/ resolve st args = None ->
      does e st (SCall i name args) [] st Failed
  | do_delete_object : forall st i o tr w r,
      object st i = Some o -> exec e (st_world st) (destroy o) tr w r -> r <> Crash ->
      does e st (SDelete i) tr (State w (forget (st_objs st) i)) (Done RNone)
  | do_delete_crash : forall st i o tr w,
      object st i = Some o -> exec e (st_world st) (destroy o) tr w Crash ->
      does e st (SDelete i) tr (State w (st_objs st)) Crash
  | do_delete_gone : forall st i,
      object st i = None -> does e st (SDelete i) [] st Failed.

  (** A script; errors are caught, a crash ends it. *)
  Inductive script : state -> list (env K * stmt) -> trace -> state -> bool -> Prop :=
  | sc_nil : forall st, script st [] [] st false
  | sc_cons : forall st e s l tr st1 r tr' st2 b,
      does e st s tr st1 r -> r <> Crash -> script st1 l tr' st2 b ->
      script st ((e, s) :: l) (tr ++ tr') st2 b
  | sc_crash : forall st e s l tr st1,
      does e st s tr st1 Crash -> script st ((e, s) :: l) tr st1 true.

  Definition fresh_session : state := State start [].
End Run.
Arguments Done {A} x.
Arguments Failed {A}.
Arguments Crash {A}.
Arguments state K : clear implicits.
Arguments sval K : clear implicits.
Arguments stmt K : clear implicits.
Arguments trace K : clear implicits.
