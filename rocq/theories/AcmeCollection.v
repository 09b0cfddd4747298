(** * The queries of [acme::collection] by kind of entity, method by method
      (toolbox/src/collection.cc:156-983 and the virtual [isX] of
      toolbox/src/acme/*.hxx).  The loops are those of AcmeEntity.v; this file
      says which test each method passes to which loop. *)
From Coq Require Import ZArith Bool List.
From Verif Require Import Base Num Vec Aabb Tree Geom Acme AcmeEntity.
Import ListNotations.

(** The twelve names that collection methods are made of. *)
Inductive kind : Type :=
| KNone | KPoint | KLine | KRay | KPlane | KSegment | KTriangle | KDisk | KBall
| KDegenerated | KClampable | KNonClampable.

Section Kinds.
  Context {K : Type} {NK : Num K}.

  (** isLine, isRay, isPlane, isSegment, isTriangle, isDisk, isBall,
      acme/{none,...,ball}.hxx (e.g. line.hxx:203, ball.hxx:247); isNone and
      isPoint are in AcmeEntity.v. *)
  Definition is_line (e : entity K) : bool := match e with ELine _ => true | _ => false end.
  Definition is_ray (e : entity K) : bool := match e with ERay _ => true | _ => false end.
  Definition is_plane (e : entity K) : bool := match e with EPlane _ => true | _ => false end.
  Definition is_segment (e : entity K) : bool := match e with ESegment _ => true | _ => false end.
  Definition is_triangle (e : entity K) : bool := match e with ETriangle _ => true | _ => false end.
  Definition is_disk (e : entity K) : bool := match e with EDisk _ => true | _ => false end.
  Definition is_ball (e : entity K) : bool := match e with EBall _ => true | _ => false end.
  (** isNonClampable, acme/{none,point,line,ray,plane,segment,triangle,disk,
      ball}.hxx (lines 207, 215, 275, 275, 291, 291, 320, 302, 265): [none]
      answers false here and to isClampable. *)
  Definition is_non_clampable (e : entity K) : bool :=
    match e with
    | ELine _ | ERay _ | EPlane _ => true
    | ENone | EPoint _ | ESegment _ | ETriangle _ | EDisk _ | EBall _ => false
    end.

  (** The virtual method behind each name. *)
  Definition ent_is (k : kind) (tol : K) (e : entity K) : bool :=
    match k with
    | KNone => is_none e | KPoint => is_point e | KLine => is_line e | KRay => is_ray e
    | KPlane => is_plane e | KSegment => is_segment e | KTriangle => is_triangle e
    | KDisk => is_disk e | KBall => is_ball e
    | KDegenerated => ent_is_degenerated e tol
    | KClampable => is_clampable e | KNonClampable => is_non_clampable e
    end.

  (** collection::isX(i), collection.cc:184-192, 250-258, 316-324, 382-390,
      448-456, 513-521, 579-587, 645-653, 711-719, 781-789, 852-860, 918-926:
      no bounds check. *)
  Definition co_is (k : kind) (tol : K) (c : collection K) (i : Z) : outcome bool :=
    let* e := co_nth c i in deref e (ent_is k tol).

  (** collection::containX, collection.cc:156-166, 222-232, 288-298, 354-364,
      420-430, 485-495, 551-561, 617-627, 683-693, 824-834, 890-900; but
      containDegenerated (749-761) has the loop of areDegenerated. *)
  Definition co_contain (k : kind) (tol : K) (c : collection K) : outcome bool :=
    match k with
    | KDegenerated => all_if (fun e => ent_is_degenerated e tol) (co_entities c)
    | _ => contain_if (ent_is k tol) (co_entities c)
    end.

  (** collection::areX, collection.cc:170-180, 236-246, 302-312, 368-378,
      434-444, 565-575, 631-641, 697-707, 765-777, 838-848, 904-914; but
      areSegment (499-509) tests isBall. *)
  Definition co_are (k : kind) (tol : K) (c : collection K) : outcome bool :=
    match k with
    | KSegment => all_if is_ball (co_entities c)
    | _ => all_if (ent_is k tol) (co_entities c)
    end.

  (** collection::countX, collection.cc:207-218, 273-284, 339-350, 405-416,
      470-481, 536-547, 602-613, 668-679, 734-745, 807-820, 875-886; but
      countNonClampable (941-951) counts the entities that are not
      non-clampable. *)
  Definition co_count (k : kind) (tol : K) (c : collection K) : outcome nat :=
    match k with
    | KNonClampable => count_if (fun e => negb (is_non_clampable e)) (co_entities c)
    | _ => count_if (ent_is k tol) (co_entities c)
    end.

  (** collection::removeX, collection.cc:195-203, 261-269, 327-335, 393-401,
      458-466, 524-532, 590-598, 656-664, 722-730, 793-803, 863-871, 929-937. *)
  Definition co_remove_kind (k : kind) (tol : K) (junk : nat -> option (entity K))
    (c : collection K) : outcome (collection K) := co_remove (ent_is k tol) junk c.

  (** collection::size, collection.cc:955-960. *)
  Definition co_size (c : collection K) : nat := length (co_entities c).
  (** collection::count, collection.cc:964-983: the map from names to counts,
      here in the order of the initialiser list. *)
  Definition co_counts (tol : K) (c : collection K) : outcome (list (kind * nat)) :=
    omap (fun k => let* n := co_count k tol c in Ret (k, n))
      [KNone; KPoint; KLine; KRay; KPlane; KSegment; KTriangle; KDisk; KBall;
       KDegenerated; KClampable; KNonClampable].
End Kinds.
