(** * The MATLAB classes: the methods by name. *)
From Coq Require Import ZArith Bool String List Lia.
From Verif Require Import ER Base Num Vec Aabb Geom Ground Shape Rib Str Mesh Shell Sfun Mex SpecMex
  ProofMex ProofMexB ProofMexC ProofMexD Matlab SpecMatlab ProofMatlab ProofMatlabB ProofMatlabC ProofMatlabE ProofMexE.
Import ListNotations.
Local Open Scope num_scope.

Ltac nozero := cbn; intuition discriminate.

Section Methods.
  Context {K : Type} {NK : Num K}.
  Implicit Types (w : world K) (o : obj K) (m : mx K) (e : env K).

  Lemma omap_map {A B C} (f : A -> outcome B) (h : B -> C) l :
    omap (fun i => let* x := f i in Ret (h x)) l = let* v := omap f l in Ret (map h v).
  Proof.
    induction l as [|a l IH]; cbn; [easy|]. destruct (f a); cbn; [|easy|easy].
    rewrite IH. destruct (omap f l); reflexivity.
  Qed.

  Lemma omap_ext {A B} (f g : A -> outcome B) l : (forall x, f x = g x) -> omap f l = omap g l.
  Proof. intros H. induction l as [|a l IH]; cbn; [easy|]. now rewrite H, IH. Qed.

  Lemma omap_outs {B C} (s : shell K) (h : output K -> B) (g : B -> C) (v : list B) :
    (let* os := outs s in Ret (map h os)) = Ret v ->
    omap (fun i => let* x := (let* o := out_at s i in Ret (h o)) in Ret (g x)) (seq 0 (sh_size s)) = Ret (map g v).
  Proof.
    intros H. rewrite omap_map. rewrite (omap_map (out_at s) h). unfold outs in H. rewrite H. reflexivity.
  Qed.
  Lemma omap_outs1 {B} (s : shell K) (h : output K -> B) (v : list B) :
    (let* os := outs s in Ret (map h os)) = Ret v ->
    omap (fun i => let* o := out_at s i in Ret (h o)) (seq 0 (sh_size s)) = Ret v.
  Proof. intros H. rewrite (omap_map (out_at s) h). exact H. Qed.


  Lemma per_rib e w a s : live w a (OShell s) -> (Z.of_nat (sh_size s) < 2 ^ 31)%Z ->
    (forall v, contact_normal_v s = Ret v -> returns e w (invoke (obj_shell a) "contactNormalVec" []) (RArrs (map mx_vec v))) /\
    (forall v, contact_depth_v s = Ret v -> returns e w (invoke (obj_shell a) "contactDepthVec" []) (RArrs (map mx_scalar v))) /\
    (forall v, contact_friction_v s = Ret v -> returns e w (invoke (obj_shell a) "contactFrictionVec" []) (RArrs (map mx_scalar v))) /\
    (forall v, contact_area_v s = Ret v -> returns e w (invoke (obj_shell a) "contactAreaVec" []) (RArrs (map mx_scalar v))) /\
    (forall v, contact_volume_v s = Ret v -> returns e w (invoke (obj_shell a) "contactVolumeVec" []) (RArrs (map mx_scalar v))) /\
    (forall v, omap (relative_angles_i s) (seq 0 (sh_size s)) = Ret v ->
       returns e w (invoke (obj_shell a) "relativeAnglesVec" []) (RArrs (map mx_vec v))) /\
    (forall v, omap (contact_affine_i s) (seq 0 (sh_size s)) = Ret v ->
       returns e w (invoke (obj_shell a) "contactPointAffineVec" []) (RArrs (map mx_affine v))) /\
    (forall v, contact_point_v s = Ret v ->
       always e w (invoke (obj_shell a) "contactPointVec" []) (fun _ w' r =>
         r = Done (RAcmes (map OPoint v)) /\ grown w w' (map OPoint v))).
  Proof.
    intros Hl Hn. unfold returns.
    split; [|split; [|split; [|split; [|split; [|split; [|split]]]]]]; intros v Hv.
    - apply all_always. apply (all_vec e w a s Hl "contactNormalRib" (fun s i => vecr (contact_normal_i s i)));
        [cbn; tauto|nozero|exact Hn|exact (omap_outs s o_normal mx_vec v Hv)].
    - apply all_always. apply (all_vec e w a s Hl "contactDepthRib" (fun s i => scal (contact_depth_i s i)));
        [cbn; tauto|nozero|exact Hn|exact (omap_outs s o_depth mx_scalar v Hv)].
    - apply all_always. apply (all_vec e w a s Hl "contactFrictionRib" (fun s i => scal (contact_friction_i s i)));
        [cbn; tauto|nozero|exact Hn|exact (omap_outs s o_friction mx_scalar v Hv)].
    - apply all_always. apply (all_vec e w a s Hl "contactAreaRib" (fun s i => scal (contact_area_i s i)));
        [cbn; tauto|nozero|exact Hn|exact (omap_outs s o_area mx_scalar v Hv)].
    - apply all_always. apply (all_vec e w a s Hl "contactVolumeRib" (fun s i => scal (contact_volume_i s i)));
        [cbn; tauto|nozero|exact Hn|exact (omap_outs s o_volume mx_scalar v Hv)].
    - apply all_always. apply (all_vec e w a s Hl "relativeAnglesRib" (fun s i => vecr (relative_angles_i s i)));
        [cbn; tauto|nozero|exact Hn|]. unfold vecr. rewrite omap_map, Hv. reflexivity.
    - apply all_always. apply (all_vec e w a s Hl "contactPointAffineRib" (fun s i => affr (contact_affine_i s i)));
        [cbn; tauto|nozero|exact Hn|]. unfold affr. rewrite omap_map, Hv. reflexivity.
    - apply all_always. apply (all_points e w a s Hl "contactPointRib" contact_point_i);
        [cbn; tauto|nozero|exact Hn|exact (omap_outs1 s o_point v Hv)].
  Qed.

  Lemma shell_reads e w a s : live w a (OShell s) ->
    returns e w (invoke (obj_shell a) "size" []) (RArr (mx_int64 (Z.of_nat (sh_size s)))) /\
    returns e w (invoke (obj_shell a) "disp" []) (RArr (mx_int64 (Z.of_nat (sh_size s)))) /\
    returns e w (invoke (obj_shell a) "transformation" []) (RArr (mx_affine (sh_affine s))) /\
    returns e w (invoke (obj_shell a) "translation" []) (RArr (mx_vec (tra (sh_affine s)))) /\
    returns e w (invoke (obj_shell a) "x" []) (RArr (mx_vec (sh_x s))) /\
    returns e w (invoke (obj_shell a) "y" []) (RArr (mx_vec (sh_y s))) /\
    returns e w (invoke (obj_shell a) "z" []) (RArr (mx_vec (sh_z s))) /\
    (forall v, contact_normal s = Ret v -> returns e w (invoke (obj_shell a) "contactNormalAvg" []) (RArr (mx_vec v))) /\
    (forall x, contact_depth s = Ret x -> returns e w (invoke (obj_shell a) "contactDepthAvg" []) (RArr (mx_scalar x))) /\
    (forall x, contact_friction s = Ret x -> returns e w (invoke (obj_shell a) "contactFrictionAvg" []) (RArr (mx_scalar x))) /\
    (forall x, contact_area s = Ret x -> returns e w (invoke (obj_shell a) "contactAreaAvg" []) (RArr (mx_scalar x))) /\
    (forall x, contact_volume s = Ret x -> returns e w (invoke (obj_shell a) "contactVolumeAvg" []) (RArr (mx_scalar x))) /\
    (forall t, contact_affine s = Ret t -> returns e w (invoke (obj_shell a) "contactPointAffineAvg" []) (RArr (mx_affine t))) /\
    (forall v, relative_angles s = Ret v -> returns e w (invoke (obj_shell a) "relativeAnglesAvg" []) (RArr (mx_vec v))) /\
    (forall p, contact_point s = Ret p ->
       always e w (invoke (obj_shell a) "contactPointAvg" []) (fun _ w' r =>
         r = Done (RAcme (OPoint p)) /\ grown w w' [OPoint p])).
  Proof.
    intros Hl. unfold returns.
    assert (G : forall c m, (forall z, answers FShell (at_address e z) w [text c; mx_handle a] m) ->
      always e w (get FShell c (obj_shell a) []) (fun _ w' r => w' = w /\ r = Done (RArr m))).
    { intros c m H. apply all_always. now apply all_get. }
    pose proof (fun z => pose_readers (at_address e z) w a s Hl) as P.
    pose proof (fun z => average_queries (at_address e z) w a s Hl) as Q.
    split; [apply (G "size"%string); intros z; now apply size_through|].
    split; [apply (G "size"%string); intros z; now apply size_through|].
    split; [apply (G "transformation"%string); intros z; apply P|].
    split; [apply (G "translation"%string); intros z; apply P|].
    split; [apply (G "x"%string); intros z; apply P|].
    split; [apply (G "y"%string); intros z; apply P|].
    split; [apply (G "z"%string); intros z; apply P|].
    split; [intros v Hv; apply (G "contactNormalAvg"%string); intros z; now apply Q|].
    split; [intros v Hv; apply (G "contactDepthAvg"%string); intros z; now apply Q|].
    split; [intros v Hv; apply (G "contactFrictionAvg"%string); intros z; now apply Q|].
    split; [intros v Hv; apply (G "contactAreaAvg"%string); intros z; now apply Q|].
    split; [intros v Hv; apply (G "contactVolumeAvg"%string); intros z; now apply Q|].
    split; [intros v Hv; apply (G "contactPointAffineAvg"%string); intros z; now apply Q|].
    split; [intros v Hv; apply (G "relativeAnglesAvg"%string); intros z; now apply Q|].
    intros p Hp. apply all_always. apply (all_make e w FShell "contactPointAvg" (mx_handle a) (OPoint p)).
    intros z. rewrite (mex_runs FShell _ w 1 _ "contactPointAvg" shell_point); [|apply text_command; nozero|cbn; tauto].
    unfold shell_point, self_shell.
    rewrite (self_ok as_shell 2 w 1 [] _ a s (OShell s) eq_refl Hl eq_refl).
    cbn [obind snd]. rewrite Hp. reflexivity.
  Qed.

  (** Moving a wheel and setting it on the ground. *)
  Lemma shell_transform_m e w a s d : live w a (OShell s) -> List.length d = 16%nat ->
    always e w (invoke (obj_shell a) "transform" [VArr (matrix 4 4 d)]) (fun _ w' r =>
      r = Done RNone /\ changed_to w w' a (OShell (transform s (decode (fun k => nth k d #0))))).
  Proof.
    intros Hl Hd. apply all_always.
    change (all e w (act1 FShell "transform" (obj_shell a) [VArr (matrix 4 4 d)]) (fun w' r =>
      r = Done RNone /\ changed_to w w' a (OShell (transform s (decode (fun k => nth k d #0)))))).
    apply all_bind, all_mex0. intros z _. eexists _, _. split.
    - cbn [to_mx o_handle obj_shell]. rewrite (transform_shapes _ w a s 4 4 d Hl). cbn [Nat.eqb orb].
      rewrite Hd. cbn [Nat.leb]. reflexivity.
    - apply all_ret. split; [easy|]. now apply (wset_changed w a (OShell s)).
  Qed.

  Lemma setup_m_flat e w a s b g d meth :
    live w a (OShell s) -> live w b (OFlat g) -> List.length d = 16%nat -> ~ In Ascii.zero (lit meth) ->
    always e w (invoke (obj_shell a) "setupFlat" [VObj (Obj FFlat (mx_handle b)); VArr (matrix 4 4 d); VArr (text meth)])
      (fun _ w' r =>
         match setup_flat (e_gb e) s g (decode (fun k => nth k d #0)) meth with
         | Ok s' x => r = Done (RArr (mx_bool x)) /\ changed_to w w' a (OShell s')
         | Exn s' _ => r = Failed /\ changed_to w w' a (OShell s')
         | Undef => r = Crash
         end).
  Proof.
    intros Hl Hb Hd Hm. split; [apply exec_total|].
    intros tr w' r Hx.
    change (exec e w (setup_m "setupFlat" (obj_shell a) [VObj (Obj FFlat (mx_handle b)); VArr (matrix 4 4 d); VArr (text meth)]) tr w' r) in Hx.
    unfold setup_m, mex1 in Hx. cbn [pbind to_mx o_handle obj_shell] in Hx.
    inversion Hx; subst;
      match goal with Hc : mex_call _ _ _ _ _ = _ |- _ =>
        rewrite (setup_flat_through _ _ a s b g d meth Hl Hb Hd Hm) in Hc; cbn [e_gb at_address] in Hc;
        destruct (setup_flat _ s g _ meth) as [s' x'|s' x'|]; try discriminate end.
    - match goal with Hc : Ok _ _ = Ok _ _ |- _ => injection Hc as <- <- end.
      match goal with Hr : exec _ _ (pbind (PRet _) _) _ _ _ |- _ => inversion Hr; subst end.
      split; [easy|]. now apply (wset_changed _ a (OShell s)).
    - match goal with Hc : Exn _ _ = Exn _ _ |- _ => injection Hc as <- <- end.
      match goal with Hr : exec _ _ _ _ _ _ |- _ => inversion Hr; subst end.
      split; [easy|]. now apply (wset_changed _ a (OShell s)).
    - easy.
  Qed.

  Lemma setup_m_mesh e w a s b g d meth :
    live w a (OShell s) -> live w b (OMesh g) -> List.length d = 16%nat -> ~ In Ascii.zero (lit meth) ->
    always e w (invoke (obj_shell a) "setupMesh" [VObj (Obj FMesh (mx_handle b)); VArr (matrix 4 4 d); VArr (text meth)])
      (fun _ w' r =>
         match setup_mesh (e_gb e) s g (decode (fun k => nth k d #0)) meth with
         | Ok s' x => r = Done (RArr (mx_bool x)) /\ changed_to w w' a (OShell s')
         | Exn s' _ => r = Failed /\ changed_to w w' a (OShell s')
         | Undef => r = Crash
         end).
  Proof.
    intros Hl Hb Hd Hm. split; [apply exec_total|].
    intros tr w' r Hx.
    change (exec e w (setup_m "setupMesh" (obj_shell a) [VObj (Obj FMesh (mx_handle b)); VArr (matrix 4 4 d); VArr (text meth)]) tr w' r) in Hx.
    unfold setup_m, mex1 in Hx. cbn [pbind to_mx o_handle obj_shell] in Hx.
    inversion Hx; subst;
      match goal with Hc : mex_call _ _ _ _ _ = _ |- _ =>
        rewrite (setup_mesh_through _ _ a s b g d meth Hl Hb Hd Hm) in Hc; cbn [e_gb at_address] in Hc;
        destruct (setup_mesh _ s g _ meth) as [s' x'|s' x'|]; try discriminate end.
    - match goal with Hc : Ok _ _ = Ok _ _ |- _ => injection Hc as <- <- end.
      match goal with Hr : exec _ _ (pbind (PRet _) _) _ _ _ |- _ => inversion Hr; subst end.
      split; [easy|]. now apply (wset_changed _ a (OShell s)).
    - match goal with Hc : Exn _ _ = Exn _ _ |- _ => injection Hc as <- <- end.
      match goal with Hr : exec _ _ _ _ _ _ |- _ => inversion Hr; subst end.
      split; [easy|]. now apply (wset_changed _ a (OShell s)).
    - easy.
  Qed.

  (** A setup on an object that is not a ground of the right class. *)
  Lemma setup_m_wrong e w a s b o c f t u :
    In c ["setupFlat"; "setupMesh"]%string ->
    live w a (OShell s) -> live w b o ->
    class_of o <> Some (if String.eqb c "setupFlat" then FFlat else FMesh) ->
    always e w (invoke (obj_shell a) c [VObj (Obj f (mx_handle b)); t; u])
      (fun _ w' r => w' = w /\ r = Failed).
  Proof.
    intros Hc Hl Hb Hk. apply all_always.
    destruct Hc as [<-|[<-|[]]].
    - change (all e w (setup_m "setupFlat" (obj_shell a) [VObj (Obj f (mx_handle b)); t; u]) (fun w' r => w' = w /\ r = Failed)).
      apply all_bind, all_mex1_exn; [|easy]. intros z _. eexists. cbn [o_handle obj_shell].
      rewrite (mex_runs FShell _ w 1 _ "setupFlat" (fun e => shell_setup as_flat (setup_flat (e_gb e)) e)); [|apply text_command; nozero|cbn; tauto].
      unfold shell_setup, self_shell.
      rewrite (self_ok as_shell 5 w 1 [_; _; _] _ a s _ eq_refl Hl eq_refl).
      cbn [obind arg nth_error]. cbn [get_handle mx_handle numel fold_right Nat.mul Nat.add Nat.eqb head obind].
      unfold live in Hb. rewrite Hb. destruct o; try reflexivity. cbn in Hk. congruence.
    - change (all e w (setup_m "setupMesh" (obj_shell a) [VObj (Obj f (mx_handle b)); t; u]) (fun w' r => w' = w /\ r = Failed)).
      apply all_bind, all_mex1_exn; [|easy]. intros z _. eexists. cbn [o_handle obj_shell].
      rewrite (mex_runs FShell _ w 1 _ "setupMesh" (fun e => shell_setup as_mesh (setup_mesh (e_gb e)) e)); [|apply text_command; nozero|cbn; tauto].
      unfold shell_setup, self_shell.
      rewrite (self_ok as_shell 5 w 1 [_; _; _] _ a s _ eq_refl Hl eq_refl).
      cbn [obind arg nth_error]. cbn [get_handle mx_handle numel fold_right Nat.mul Nat.add Nat.eqb head obind].
      unfold live in Hb. rewrite Hb. destruct o; try reflexivity. cbn in Hk. congruence.
  Qed.

  Lemma flat_reads e w a g : live w a (OFlat g) ->
    returns e w (invoke (obj_flat a) "getNormal" []) (RArr (mx_vec (pnormal (fl_plane g)))) /\
    returns e w (invoke (obj_flat a) "getFriction" []) (RArr (mx_scalar (fl_friction g))) /\
    always e w (invoke (obj_flat a) "getOrigin" []) (fun _ w' r =>
      r = Done (RAcme (OPoint (porigin (fl_plane g)))) /\ grown w w' [OPoint (porigin (fl_plane g))]) /\
    always e w (invoke (obj_flat a) "getPlane" []) (fun _ w' r =>
      r = Done (RAcme (OPlane (fl_plane g))) /\ grown w w' [OPlane (fl_plane g)]) /\
    (forall p, always e w (invoke (obj_flat a) "setPlane" [VPlane p]) (fun _ w' r =>
      r = Done RNone /\ changed_to w w' a (OFlat (Flat p (fl_friction g))))) /\
    (forall b q, live w b (OFlat q) ->
      always e w (invoke (obj_flat a) "setPlane" [VObj (obj_flat b)]) (fun _ w' r =>
        r = Done RNone /\ live w' a (OFlat (Flat (fl_plane q) (fl_friction g))) /\
        (forall c o, c <> a -> live w c o -> live w' c o))).
  Proof.
    intros Hl. unfold returns.
    split; [apply all_always, (all_get e w FFlat "getNormal"); intros z;
            apply (flat_get_ok _ w a g "getNormal" (fun g => mx_vec (pnormal (fl_plane g)))); [cbn; tauto|nozero|easy]|].
    split; [apply all_always, (all_get e w FFlat "getFriction"); intros z;
            apply (flat_get_ok _ w a g "getFriction" (fun g => mx_scalar (fl_friction g))); [cbn; tauto|nozero|easy]|].
    split; [apply all_always, (all_make e w FFlat "getOrigin"); intros z;
            apply (flat_make_ok (at_address e z) w a g "getOrigin" (fun g => OPoint (porigin (fl_plane g)))); [cbn; tauto|nozero|easy]|].
    split; [apply all_always, (all_make e w FFlat "getPlane"); intros z;
            apply (flat_make_ok (at_address e z) w a g "getPlane" (fun g => OPlane (fl_plane g))); [cbn; tauto|nozero|easy]|].
    split; [intros p; apply all_always; now apply (all_set_plane e w a g p)|].
    intros b q Hq. apply all_always. now apply (all_set_plane_flat e w a g b q).
  Qed.

  Lemma tri_reads e w a t : live w a (OTri t) ->
    returns e w (invoke (obj_tri a) "getID" []) (RArr (mx_scalar (nofZ (tg_id t)))) /\
    returns e w (invoke (obj_tri a) "getFriction" []) (RArr (mx_scalar (tg_friction t))) /\
    returns e w (invoke (obj_tri a) "normal" []) (RArr (mx_vec (tg_normal t))) /\
    always e w (invoke (obj_tri a) "toTriangle" []) (fun _ w' r =>
      r = Done (RAcmes (vertices_of t)) /\ grown w w' (vertices_of t)) /\
    (forall b t', live w b (OTri t') -> b <> a ->
      always e w (invoke (obj_tri a) "copy" [VObj (obj_tri b)]) (fun _ w' r =>
        r = Done RNone /\ exists t2, changed_to w w' a (OTri t2) /\ tg_tri t2 = tg_tri t' /\
          tg_friction t2 = tg_friction t' /\ tg_normal t2 = tg_normal t' /\ tg_bbox t2 = tg_bbox t' /\ tg_id t2 = tg_id t)).
  Proof.
    intros Hl. unfold returns.
    pose proof (fun z => tri_readers (at_address e z) w a t Hl) as Q.
    split; [apply all_always, (all_get e w FTri "getID"); intros z; apply Q|].
    split; [apply all_always, (all_get e w FTri "getFriction"); intros z; apply Q|].
    split; [apply all_always, (all_get e w FTri "normal"); intros z; apply Q|].
    split.
    - apply all_always.
      change (all e w (to_triangle_m (obj_tri a) []) (fun w' r => r = Done (RAcmes (vertices_of t)) /\ grown w w' (vertices_of t))).
      apply all_bind. refine (all_weak _ _ _ _ _ (all_to_triangle e w a t Hl) _). intros w1 r1 [-> G].
      now apply all_ret.
    - intros b t' Hb Hba. apply all_always.
      match goal with |- all e w _ ?Q => change (all e w (tri_copy_m (obj_tri a) [VObj (obj_tri b)]) Q) end.
      unfold tri_copy_m, with_other. cbn [o_class obj_tri file_eqb o_handle]. apply all_bind, all_mex0.
      intros z _. eexists _, _. split.
      + rewrite (mex_runs FTri _ w 0 _ "copy" tri_copy_cmd); [|apply text_command; nozero|cbn; tauto].
        unfold tri_copy_cmd, self_tri. rewrite (self_ok as_tri 3 w 0 [_] _ a t (OTri t) eq_refl Hl eq_refl).
        cbn [arg nth_error obind]. cbn [get_handle mx_handle numel fold_right Nat.mul Nat.add Nat.eqb head obind].
        unfold live in Hb. rewrite Hb. reflexivity.
      + apply all_ret. split; [easy|]. eexists. split; [now apply (wset_changed w a (OTri t))|]. repeat split.
  Qed.

  Lemma mesh_reads e w a g : live w a (OMesh g) ->
    returns e w (invoke (obj_mesh a) "size" []) (RArr (mx_int64 (Z.of_nat (mesh_size g)))) /\
    ((Z.of_nat (mesh_size g) < 2 ^ 31)%Z -> forall u v,
      always e w (invoke (obj_mesh a) "plot" [u; v]) (fun _ w' r =>
        r = Done (RArrs (map corners (me_tris g))) /\ w_heap w' = w_heap w /\
        w_lost w' = (w_lost w + mesh_size g)%nat)) /\
    (nle (nofZ 0) (nofZ (K:=K) 0) = true -> forall m i t,
       (forall z, whole (at_address e z) m i) -> (1 <= i < 2 ^ 31)%Z ->
       nth_error (me_tris g) (Z.to_nat (i - 1)) = Some t ->
       always e w (invoke (obj_mesh a) "getTriangleground" [VArr m]) (fun _ w' r =>
         exists b t' t'', r = Done (RObj (obj_tri b)) /\ live w' b (OTri t') /\
           same_but_id t t' /\ same_but_id t t'' /\ grown w w' [OTri t'; OTri t'']) /\
       always e w (invoke (obj_mesh a) "getTriangle" [VArr m]) (fun _ w' r =>
         r = Done (RAcmes (vertices_of t)) /\
         exists t'', same_but_id t t'' /\ grown w w' (OTri t'' :: vertices_of t))).
  Proof.
    intros Hl. unfold returns.
    split; [apply all_always, (all_get e w FMesh "size"); intros z; now apply mesh_size_ok|].
    split.
    - intros Hn u v. apply all_always.
      match goal with |- all e w _ ?Q => change (all e w (mesh_plot_m (obj_mesh a) [u; v]) Q) end.
      now apply all_mesh_plot.
    - intros H0 m i t Hw Hi Ht. split; apply all_always.
      + match goal with |- all e w _ ?Q => change (all e w (mesh_tri_m (obj_mesh a) [VArr m]) Q) end.
        unfold mesh_tri_m. apply all_bind.
        refine (all_weak _ _ _ _ _ (all_triangleground e w a g m i t H0 Hl Hw Hi Ht) _).
        intros w1 r1 (b & t' & c & t'' & -> & St' & St'' & Hh & Hb & Hc & Hbc & Hlost).
        apply all_ret. exists b, t', t''. split; [easy|]. split.
        { unfold live. rewrite Hh. cbn. destruct (Z.eqb_spec b c); [easy|]. now rewrite Z.eqb_refl. }
        split; [easy|]. split; [easy|]. exists [(c, OTri t''); (b, OTri t')]. split; [easy|]. split; [easy|].
        split.
        { cbn. constructor; [cbn; intuition|]. constructor; [cbn; easy|constructor]. }
        split; [|easy]. cbn. intros x [<-|[<-|[]]]; easy.
      + match goal with |- all e w _ ?Q => change (all e w (mesh_triangle_m (obj_mesh a) [VArr m]) Q) end.
        now apply (all_triangle e w a g m i t).
  Qed.

  Lemma dead_methods e w h c args :
    (c = "surfaceWidthBound"%string ->
       always e w (invoke (Obj FShell h) c args) (fun _ w' r => w' = w /\ r = Failed)) /\
    (In c ["setVertex1"; "setVertex2"; "setVertex3"]%string ->
       always e w (invoke (Obj FTri h) c args) (fun _ w' r => w' = w /\ r = Failed)).
  Proof.
    split.
    - intros ->. apply all_always.
      match goal with |- all e w _ ?Q => change (all e w (get1 FShell "surfaceWidthBound" (Obj FShell h) args) Q) end.
      apply all_width_bound.
    - intros Hc. apply all_always. pose proof Hc as Hc'.
      destruct Hc as [<-|[<-|[<-|[]]]];
        match goal with |- all e w (invoke _ ?c _) ?Q => change (all e w (set_vertex_m c (Obj FTri h) args) Q) end;
        now apply all_set_vertex.
  Qed.

  Lemma dead_copy e w a g args : live w a (OFlat g) ->
    (forall x, In (VObj x) args -> exists ob, handle_of w (o_handle x) ob /\ class_of ob = Some (o_class x)) ->
    always e w (invoke (obj_flat a) "copy" args) (fun _ w' r => w' = w /\ r = Failed).
  Proof.
    intros Hl Ho. apply all_always.
    match goal with |- all e w _ ?Q => change (all e w (flat_copy_m (obj_flat a) args) Q) end.
    now apply (all_flat_copy e w a g).
  Qed.
End Methods.

(** [enve_flat()]. *)
Lemma flat_bare_m (e : env er) w :
  always e w (construct FFlat []) (fun _ _ r => forall o, r <> Done o).
Proof.
  split; [apply exec_total|]. intros tr w' r Hx o ->. cbn [construct] in Hx. unfold new_object in Hx.
  apply exec_bind in Hx as [(x & t1 & w1 & t2 & H1 & _)|[[_ H]|[_ H]]]; try discriminate.
  unfold mex1 in H1. inversion H1; subst.
  - match goal with Hm : mex_call _ _ _ _ _ = Ok _ _ |- _ => refine (flat_new_bare _ _ _ _ _ _ _ Hm) end.
    apply text_command. cbn. intuition discriminate.
  - match goal with Hr : exec _ _ PErr _ _ _ |- _ => inversion Hr end.
Qed.
