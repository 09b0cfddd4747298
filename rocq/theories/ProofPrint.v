(** * Proofs about reports. *)
From Coq Require Import ZArith Bool String Lia Permutation List.
From Verif Require Import Base Num Vec Geom Aabb Tree Acme Ground Shape Rib Mesh Shell SpecTree ProofTree ProofShell ProofShellFacts Print SpecPrint.
Import ListNotations.

Section Lines.
  Context {K : Type}.

  Lemma under_each {A} label (body : Z -> A -> list (item K)) (u : Z -> A -> list (item K)) k l rest :
    (forall i x r, under label (body i x ++ r) = u i x ++ under label r) ->
    under label (each_line body k l ++ rest) =
      flat_map (fun p => u (fst p) (snd p)) (combine (map (fun i => (k + Z.of_nat i)%Z) (seq 0 (List.length l))) l) ++ under label rest.
  Proof.
    intros H. revert k. induction l as [|x l IH]; intros k; [reflexivity|].
    cbn [each_line List.length seq map combine flat_map fst snd]. rewrite <- !app_assoc, H, IH, <- seq_shift, map_map.
    rewrite Z.add_0_r. rewrite (map_ext (fun i => (k + 1 + Z.of_nat i)%Z) (fun i => (k + Z.of_nat (S i))%Z)) by (intros; lia). reflexivity.
  Qed.
  Lemma numbered_each {A} label (body : Z -> A -> list (item K)) (u : Z -> A -> list (Z * item K)) k l rest :
    (forall i x r, numbered label (body i x ++ r) = u i x ++ numbered label r) ->
    numbered label (each_line body k l ++ rest) =
      flat_map (fun p => u (fst p) (snd p)) (combine (map (fun i => (k + Z.of_nat i)%Z) (seq 0 (List.length l))) l) ++ numbered label rest.
  Proof.
    intros H. revert k. induction l as [|x l IH]; intros k; [reflexivity|].
    cbn [each_line List.length seq map combine flat_map fst snd]. rewrite <- !app_assoc, H, IH, <- seq_shift, map_map.
    rewrite Z.add_0_r. rewrite (map_ext (fun i => (k + 1 + Z.of_nat i)%Z) (fun i => (k + Z.of_nat (S i))%Z)) by (intros; lia). reflexivity.
  Qed.
  Lemma flat_none {A B} (l : list A) : flat_map (fun _ => @nil B) l = [].
  Proof. induction l; auto. Qed.
  Lemma flat_one {A B} (f : A -> B) (l : list A) : flat_map (fun p => [f p]) l = map f l.
  Proof. induction l; cbn; congruence. Qed.
  Lemma from0 {A} (l : list A) : combine (map (fun i => (0 + Z.of_nat i)%Z) (seq 0 (List.length l))) l = places l.
  Proof. reflexivity. Qed.
  Lemma map_places_snd {A B} (f : A -> B) (l : list A) : map (fun p : Z * A => f (snd p)) (places l) = map f l.
  Proof.
    unfold places. generalize 0%nat. induction l as [|x l IH]; intros n; [reflexivity|]. cbn. f_equal. apply IH.
  Qed.
  Lemma map_places_fst {A B} (f : Z -> B) (l : list A) : map (fun p : Z * A => f (fst p)) (places l) = map (fun i => f (Z.of_nat i)) (seq 0 (List.length l)).
  Proof.
    unfold places. generalize 0%nat. induction l as [|x l IH]; intros n; [reflexivity|]. cbn. f_equal. apply IH.
  Qed.
  Lemma map_places {A B} (f : A -> B) (l : list A) : map (fun p : Z * A => (fst p, f (snd p))) (places l) = places (map f l).
  Proof.
    unfold places. rewrite map_length. generalize 0%nat. induction l as [|x l IH]; intros n; [reflexivity|]. cbn. f_equal. apply IH.
  Qed.
  Lemma under_none {A} label (body : Z -> A -> list (item K)) k l rest :
    (forall i x r, under label (body i x ++ r) = under label r) -> under label (each_line body k l ++ rest) = under label rest.
  Proof. intros H. rewrite (under_each label body (fun _ _ => [])) by (intros; rewrite H; reflexivity). now rewrite flat_none. Qed.
  Lemma under_one {A} label (body : Z -> A -> list (item K)) (f : Z -> A -> item K) l rest :
    (forall i x r, under label (body i x ++ r) = f i x :: under label r) ->
    under label (each_line body 0 l ++ rest) = map (fun p => f (fst p) (snd p)) (places l) ++ under label rest.
  Proof.
    intros H. rewrite (under_each label body (fun i x => [f i x])) by (intros; rewrite H; reflexivity).
    rewrite (flat_one (fun p => f (fst p) (snd p))). reflexivity.
  Qed.
  Lemma numbered_none {A} label (body : Z -> A -> list (item K)) k l rest :
    (forall i x r, numbered label (body i x ++ r) = numbered label r) -> numbered label (each_line body k l ++ rest) = numbered label rest.
  Proof. intros H. rewrite (numbered_each label body (fun _ _ => [])) by (intros; rewrite H; reflexivity). now rewrite flat_none. Qed.
  Lemma numbered_one {A} label (body : Z -> A -> list (item K)) (f : A -> item K) l rest :
    (forall i x r, numbered label (body i x ++ r) = (i, f x) :: numbered label r) ->
    numbered label (each_line body 0 l ++ rest) = places (map f l) ++ numbered label rest.
  Proof.
    intros H. rewrite (numbered_each label body (fun i x => [(i, f x)])) by (intros; rewrite H; reflexivity).
    rewrite (flat_one (fun p => (fst p, f (snd p)))), from0, map_places. reflexivity.
  Qed.
End Lines.

(** Reading the lines of a list. *)
Ltac steps := cbn [app under numbered String.eqb Ascii.eqb Bool.eqb andb];
  repeat (first [rewrite under_none by (intros; reflexivity)
                |erewrite under_one by (intros; cbn; reflexivity)
                |rewrite numbered_none by (intros; reflexivity)
                |erewrite numbered_one by (intros; cbn; reflexivity)];
    cbn [app under numbered String.eqb Ascii.eqb Bool.eqb andb]).


Section Reports.
  Context {K : Type} {NK : Num K}.

  Lemma mesh_lines : forall m : mesh K, let r := mesh_print m in let ts := me_tris m in
    under "T  = " r = map (fun i => PInt (Z.of_nat i)) (seq 0 (List.length ts)) /\
    under "V0 = " r = map (fun t => PVec (tv0 (tg_tri t))) ts /\
    under "V1 = " r = map (fun t => PVec (tv1 (tg_tri t))) ts /\
    under "V2 = " r = map (fun t => PVec (tv2 (tg_tri t))) ts /\
    under "N  = " r = map (fun t => PVec (tg_normal t)) ts /\
    under "F  = " r = map (fun t => PNum (tg_friction t)) ts.
  Proof.
    intros m r ts. unfold r, ts, mesh_print. rewrite <- (app_nil_r (each_line _ _ _)).
    repeat split; steps; rewrite app_nil_r.
    - apply (map_places_fst PInt).
    - apply (map_places_snd (fun t => PVec (tv0 (tg_tri t)))).
    - apply (map_places_snd (fun t => PVec (tv1 (tg_tri t)))).
    - apply (map_places_snd (fun t => PVec (tv2 (tg_tri t)))).
    - apply (map_places_snd (fun t => PVec (tg_normal t))).
    - apply (map_places_snd (fun t => PNum (tg_friction t))).
  Qed.

  Lemma mesh_whole : forall m m' : mesh K, mesh_print m = mesh_print m' <->
    map (fun t => (tg_tri t, tg_normal t, tg_friction t)) (me_tris m) =
    map (fun t => (tg_tri t, tg_normal t, tg_friction t)) (me_tris m').
  Proof.
    intros m m'. unfold mesh_print. generalize (me_tris m) as l, (me_tris m') as l'. intros l l'.
    transitivity (each_line (fun i (t : tground K) =>
      [Say "T  = "; PInt i; Say "V0 = "; PVec (tv0 (tg_tri t)); Say "V1 = "; PVec (tv1 (tg_tri t));
       Say "V2 = "; PVec (tv2 (tg_tri t)); Say "N  = "; PVec (tg_normal t); Say "F  = "; PNum (tg_friction t)]) 0 l =
      each_line (fun i (t : tground K) =>
      [Say "T  = "; PInt i; Say "V0 = "; PVec (tv0 (tg_tri t)); Say "V1 = "; PVec (tv1 (tg_tri t));
       Say "V2 = "; PVec (tv2 (tg_tri t)); Say "N  = "; PVec (tg_normal t); Say "F  = "; PNum (tg_friction t)]) 0 l').
    { split; intros H; [now apply app_inv_head in H|now rewrite H]. }
    generalize 0%Z. revert l'. induction l as [|t l IH]; intros [|t' l'] k; cbn; try (split; intros; discriminate || reflexivity).
    split; intros H.
    - injection H as E0 E1 E2 EN EF H. apply IH in H. rewrite H.
      destruct (tg_tri t), (tg_tri t'). cbn in *. congruence.
    - injection H as ET EN EF H. apply (proj2 (IH l' (k + 1)%Z)) in H. now rewrite ET, EN, EF, H.
  Qed.

  (** ** Trees. *)
  Fixpoint nodes (t : tree K) : list (aabb K) :=
    match t with Tree o cs => match o with Some b => [b] | None => [] end ++ flat_map nodes cs end.
  Lemma binary_print : forall t, binary t -> exists rep, tree_print t = Ret rep /\
    List.length (nodes t) = tsize t /\ (forall b, In b (leaves t) -> In b (nodes t)) /\
    forall r, under "Minimum = " (rep ++ r) = map (fun b => PVec (bmin b)) (nodes t) ++ under "Minimum = " r /\
              under "Maximum = " (rep ++ r) = map (fun b => PVec (bmax b)) (nodes t) ++ under "Maximum = " r.
  Proof.
    induction 1 as [b|b l r _ (rl & El & Ll & Il & Ul) _ (rr & Er & Lr & Ir & Ur)].
    - eexists. split; [reflexivity|]. split; [reflexivity|]. split; [auto|]. intros r. split; reflexivity.
    - cbn [tree_print map oconcat]. rewrite El, Er. cbn [obind]. eexists. split; [reflexivity|].
      cbn [nodes flat_map tsize map list_sum fold_right]. rewrite !app_nil_r, !app_length, Ll, Lr. split; [cbn; lia|]. split.
      + intros x Hx. change (In x (leaves l ++ leaves r ++ [])) in Hx. rewrite app_nil_r in Hx. apply in_app_or in Hx.
        apply in_or_app. right. apply in_or_app. destruct Hx; [left|right]; auto.
      + intros q. rewrite <- !app_assoc, !map_app, <- !app_assoc. cbn [app under String.eqb Ascii.eqb Bool.eqb andb map].
        now rewrite (proj1 (Ul _)), (proj2 (Ul _)), (proj1 (Ur _)), (proj2 (Ur _)).
  Qed.
  Lemma combine_maps {A B C} (f : A -> B) (g : A -> C) l : combine (map f l) (map g l) = map (fun x => (f x, g x)) l.
  Proof. induction l; cbn; congruence. Qed.
  Lemma tree_lines : forall boxes : list (aabb K), exists t rep, build boxes = Ret t /\ tree_print t = Ret rep /\
    (boxes = [] -> rep = [Say "[EMPTY AABB tree]"]) /\
    (boxes <> [] -> List.length (boxes_in rep) + 1 = 2 * List.length boxes /\
       forall b, In b boxes -> In (PVec (bmin b), PVec (bmax b)) (boxes_in rep)).
  Proof.
    intros boxes. destruct (build_spec boxes) as (t & E & P & H0 & H1). exists t.
    destruct boxes as [|b0 bs].
    - rewrite (H0 eq_refl) in *. eexists. split; [exact E|]. split; [reflexivity|]. split; [auto|congruence].
    - destruct H1 as (B & S1); [discriminate|]. destruct (binary_print t B) as (rep & R & L & I & U).
      exists rep. split; [exact E|]. split; [exact R|]. split; [discriminate|]. intros _.
      destruct (U []) as (U1 & U2). rewrite !app_nil_r in U1, U2. unfold boxes_in. rewrite U1, U2. cbn [under].
      rewrite combine_maps, map_length, L. split; [exact S1|]. intros b Hb.
      apply in_map_iff. exists b. split; [reflexivity|]. apply I. eapply Permutation_in; [apply Permutation_sym; exact P|exact Hb].
  Qed.

  (** ** Shells. *)
  Lemma shell_prints : forall s : shell K, (exists rep, shell_print s = Ret rep) <->
    forall i, i < sh_size s -> exists o, out_at s i = Ret o.
  Proof.
    intros s. split.
    - intros (rep & H) i Hi. unfold shell_print in H.
      destruct (contact_volume s) as [v| |] eqn:EV.
      2,3: exfalso; unfold contact_point in H; unfold contact_volume in EV; destruct (outs s); cbn in *; discriminate.
      unfold contact_volume in EV. destruct (outs s) as [os| |] eqn:EO; try discriminate.
      destruct (outs_inv s os EO) as (_ & N). destruct (N i Hi) as (o & _ & H'). eauto.
    - intros W. destruct (written_outs s W) as (os & EO & _).
      unfold shell_print.
      assert (P : exists p, contact_point s = Ret p). { unfold contact_point. rewrite EO. cbn [obind]. destruct (_ <? neps)%num; eauto. }
      assert (N : exists p, contact_normal s = Ret p). { unfold contact_normal. rewrite EO. cbn [obind]. destruct (_ <? neps)%num; eauto. }
      assert (F : exists p, contact_friction s = Ret p). { unfold contact_friction. rewrite EO. cbn [obind]. destruct (_ <? neps)%num; eauto. }
      assert (D : exists p, contact_depth s = Ret p). { unfold contact_depth. rewrite EO. cbn [obind]. destruct (_ <? neps)%num; eauto. }
      destruct P as (p & EP), N as (n & EN), F as (f & EF), D as (d & ED). rewrite EP, EN, EF, ED. cbn [obind].
      unfold contact_area, contact_volume, relative_angles, contact_affine. rewrite EP, EN, EO. cbn [obind].
      unfold contact_point_v, contact_normal_v, contact_friction_v, contact_depth_v, contact_area_v, contact_volume_v.
      rewrite EO. cbn [obind].
      destruct (frames_filled s W (repeat aident (sh_size s))) as (ps & E1 & _); [rewrite repeat_length; lia|].
      destruct (angles_filled s W (repeat (vconst (nofZ 0)) (sh_size s))) as (es & E2 & _); [rewrite repeat_length; lia|].
      rewrite E1, E2. cbn [obind]. eauto.
  Qed.

  Local Notation "x / y" := (ndiv x y).
  Lemma shell_lines : forall (s : shell K) rep, shell_print s = Ret rep ->
    (under "Rx = " rep = [PNum (sRx (sh_shape s))] /\ under "Mx = " rep = [PNum (sMx (sh_shape s))] /\
     under "Ry = " rep = [PNum (sRy (sh_shape s))] /\ under "My = " rep = [PNum (sMy (sh_shape s))] /\
     under "Ly = " rep = [PNum (sLy (sh_shape s))]) /\
    (numbered " : C = " rep = places (map (fun r => PVec (rb_center r)) (sh_ribs s)) /\
     under "R = " rep = map (fun r => PNum (rb_radius r)) (sh_ribs s) ++ [PNum (surface_max_radius (sh_shape s))] /\
     under "W = " rep = map (fun r => PNum (rb_width r)) (sh_ribs s)) /\
    (under "Γ = " rep = [PNum (vy (sh_euler s) / npi)] /\ under "ß = " rep = [PNum (vz (sh_euler s) / npi)] /\
     under "α = " rep = [PNum (vx (sh_euler s) / npi)]) /\
    (exists p, contact_point s = Ret p /\ under "P = " rep = [PVec p]) /\
    (exists n, contact_normal s = Ret n /\ under "N = " rep = [PVec n]) /\
    (exists f, contact_friction s = Ret f /\ under "f = " rep = [PNum f]) /\
    (exists d, contact_depth s = Ret d /\ under "d = " rep = [PNum d]) /\
    (exists a, contact_area s = Ret a /\ under "A = " rep = map (fun r => PNum (rb_angle r)) (sh_ribs s) ++ [PNum a]) /\
    (exists v, contact_volume s = Ret v /\ under "V = " rep = [PNum v]) /\
    (exists l, contact_point_v s = Ret l /\ numbered " - P = " rep = places (map PVec l)) /\
    (exists l, contact_normal_v s = Ret l /\ numbered " - N = " rep = places (map PVec l)) /\
    (exists l, contact_friction_v s = Ret l /\ numbered " - f = " rep = places (map PNum l)) /\
    (exists l, contact_depth_v s = Ret l /\ numbered " - d = " rep = places (map PNum l)) /\
    (exists l, contact_area_v s = Ret l /\ numbered " - A = " rep = places (map PNum l)) /\
    (exists l, contact_volume_v s = Ret l /\ numbered " - V = " rep = places (map PNum l)) /\
    under "Shell reference frame" rep = [PMat (sh_affine s)] /\
    (exists A, contact_affine s = Ret A /\ under "Local contact point reference frame" rep = [PMat A]) /\
    (exists e, relative_angles s = Ret e /\ under "[Γ ß α]' = " rep = [PVec (vdiv e npi)]) /\
    (exists l, List.length l = sh_size s /\
       (forall i, i < sh_size s -> exists e, nth_error l i = Some e /\ relative_angles_i s i = Ret e) /\
       numbered " - [Γ ß α]' = " rep = places (map (fun e => PVec (vdiv e npi)) l)).
  Proof.
    intros s rep H. unfold shell_print in H.
    repeat match type of H with
      | obind ?o _ = _ => let x := fresh "x" in let E := fresh "E" in destruct o as [x| |] eqn:E; cbn [obind] in H; [|discriminate H|discriminate H]
      end.
    cbv zeta in H. apply (f_equal (fun o => match o with Ret r => r | _ => rep end)) in H. cbv beta iota in H. subst rep.
    unfold shape_print, rib_lines. 
    repeat match goal with |- _ /\ _ => split end.
    all: repeat match goal with |- exists _, Ret _ = Ret _ /\ _ => eexists; split; [reflexivity|] end.
    all: try (steps; first [reflexivity|rewrite ?app_nil_r; reflexivity]).
    all: try (steps; rewrite ?app_nil_r; cbn [fst snd]; match goal with |- map (fun p => PNum (?f (snd p))) (places ?l) ++ _ = _ => rewrite (map_places_snd (fun x => PNum (f x)) l) | |- map (fun p => PNum (?f (snd p))) (places ?l) = _ => rewrite (map_places_snd (fun x => PNum (f x)) l) end; reflexivity).
    match goal with E : relative_angles_v s _ = Ret ?l |- _ => exists l; pose proof (fill_spec _ _ _ _ _ _ E) as (_ & L & N & _) end.
    split; [now rewrite L, repeat_length|]. split; [exact N|]. steps. rewrite ?app_nil_r. reflexivity.
  Qed.
End Reports.
