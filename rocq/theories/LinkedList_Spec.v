(** Specification of linked lists: edits of a plain sequence of objects with
    priorities. *)
Require Import Coq.ZArith.ZArith Coq.Lists.List Coq.Bool.Bool Coq.Sorting.Permutation Coq.Sorting.Sorted.
Require Import Verif.Base Verif.Array_Model Verif.Array_Spec Verif.Sort_Spec Verif.LinkedList_Model.
Import ListNotations.

Section Spec.
  Variable A : Type.
  Variable oid : A -> A -> bool.
  Variable P : Type.
  Variable gt : P -> P -> bool.
  Variable pzero : P.

  Definition entry := (A * P)%type.
  Definition plain (l : list A) : list entry := map (fun x => (x, pzero)) l.

  (** The entries before the first one of priority smaller than [p], and the
      rest. *)
  Fixpoint before (p : P) (l : list entry) : list entry :=
    match l with
    | [] => []
    | f :: l' => if gt p (snd f) then [] else f :: before p l'
    end.
  Fixpoint after (p : P) (l : list entry) : list entry :=
    match l with
    | [] => []
    | f :: l' => if gt p (snd f) then l else after p l'
    end.

  Definition present (x : A) (l : list entry) : bool := existsb (fun e => oid (fst e) x) l.

  (** Remove the last entry of [l] holding [x], if there is one. *)
  Fixpoint remove_last (x : A) (l : list entry) : list entry :=
    match l with
    | [] => []
    | e :: l' => if oid (fst e) x && negb (present x l') then l' else e :: remove_last x l'
    end.

  (** Insert [x] before the first entry of smaller priority and take out the
      (last) entry that held it. *)
  Definition place (x : A) (p : P) (l : list entry) : list entry :=
    if present x (after p l)
    then before p l ++ (x, p) :: remove_last x (after p l)
    else remove_last x (before p l) ++ (x, p) :: after p l.

  Definition seq_priority (l : list entry) (x : A) (p : P) (pol : policy) : list entry * bool :=
    match pol, present x l with
    | InsertIfNotFound, true => (l, false)
    | InsertIfFound, false => (l, false)
    | _, _ => (place x p l, true)
    end.

  (** One step: [l] before, [l'] after, with result [r].  Sorting rearranges the
      objects, not the priorities: any ordered rearrangement is allowed. *)
  Inductive lstep (l : list entry) : lop A P -> list entry -> lres A P -> Prop :=
  | st_replace : forall loc len new,
      lstep l (LReplace A P loc len new) (seq_replace entry l loc len (plain new)) (RNone A P)
  | st_append : forall new, lstep l (LAppend A P new) (l ++ plain new) (RNone A P)
  | st_get : forall i,
      lstep l (LGet A P i) l (RObj A P (if (0 <=? i)%Z then nth_error (map fst l) (Z.to_nat i) else None))
  | st_get_range : forall loc len,
      lstep l (LGetRange A P loc len) l
        (RObjs A P (if valid_range entry loc len l
                    then Some (firstn (Z.to_nat len) (skipn (Z.to_nat loc) (map fst l))) else None))
  | st_prio : forall i,
      lstep l (LGetPriority A P i) l (RPrio A P (if (0 <=? i)%Z then nth_error (map snd l) (Z.to_nat i) else None))
  | st_count : lstep l (LCount A P) l (RNum A P (length l))
  | st_reverse : lstep l (LReverse A P) (rev l) (RNone A P)
  | st_sort : forall cmp l', map snd l' = map snd l -> Permutation (map fst l) (map fst l') ->
      ordered A cmp (map fst l') ->
      lstep l (LSort A P cmp) l' (RNone A P)
  | st_priority : forall x p pol,
      lstep l (LPriority A P x p pol) (fst (seq_priority l x p pol)) (RBool A P (snd (seq_priority l x p pol))).

  Inductive lsteps : list entry -> list (lop A P) -> list entry -> list (lres A P) -> Prop :=
  | sts_nil : forall l, lsteps l [] l []
  | sts_cons : forall l o l1 r os l2 rs,
      lstep l o l1 r -> lsteps l1 os l2 rs -> lsteps l (o :: os) l2 (r :: rs).

  (** Requirements on the caller: range ends and lengths are 64-bit integers and
      comparison functions are consistent. *)
  Definition lop_ok (o : lop A P) : Prop :=
    match o with
    | LReplace _ _ loc len _ | LGetRange _ _ loc len => (loc + len <= INT64_MAX)%Z
    | LSort _ _ cmp => consistent A cmp
    | _ => True
    end.

  (** The number of objects inserted by a history; an upper bound of every
      length on the way. *)
  Definition inserted (o : lop A P) : Z :=
    match o with
    | LReplace _ _ _ _ l | LAppend _ _ l => Z.of_nat (length l)
    | LPriority _ _ _ _ _ => 1%Z
    | _ => 0%Z
    end.
  Definition all_inserted (os : list (lop A P)) : Z := fold_right Z.add 0%Z (map inserted os).

  (** Observations: count, and object and priority at each index. *)
  Definition llist_shows (s : llist A P) (l : list entry) : Prop :=
    lcount A P s = length l /\
    forall i, exists s1 s2,
      llist_get A P s i = Ok (s1, if (0 <=? i)%Z then nth_error (map fst l) (Z.to_nat i) else None) /\
      llist_get_priority A P s i = Ok (s2, if (0 <=? i)%Z then nth_error (map snd l) (Z.to_nat i) else None).

  (** ** Prioritised insertion histories (C17) *)

  (** [gt] orders priorities: a strict weak order (as > is on doubles that are
      not NaN). *)
  Definition priority_order : Prop :=
    (forall a, gt a a = false) /\
    (forall a b c, gt a b = true -> gt b c = true -> gt a c = true) /\
    (forall a b c, gt a b = false -> gt b c = false -> gt a c = false).

  (** The accepted insertions still in force, in the order they were made. *)
  Fixpoint in_force (acc : list entry) (os : list (A * P * policy)) : list entry :=
    match os with
    | [] => acc
    | (x, p, pol) :: os' =>
      let without := filter (fun e => negb (oid (fst e) x)) acc in
      in_force (match pol, present x acc with
                | InsertIfNotFound, true => acc
                | InsertIfFound, false => acc
                | _, _ => without ++ [(x, p)]
                end) os'
    end.

  Definition same_priority (p : P) (e : entry) : bool := negb (gt p (snd e)) && negb (gt (snd e) p).

  (** No entry is followed by one of greater priority. *)
  Definition by_priority := StronglySorted (fun a b : entry => gt (snd b) (snd a) = false).

  Definition as_op (o : A * P * policy) : lop A P := LPriority A P (fst (fst o)) (snd (fst o)) (snd o).

  (** [s] is a list made by the history [os], and shows [l]. *)
  Definition made_by (os : list (lop A P)) (s : llist A P) (l : list entry) : Prop :=
    Forall lop_ok os /\ (all_inserted os <= INT64_MAX)%Z /\
    (exists rs, llist_run A oid P gt pzero (llist_init A P) os = Ok (s, rs)) /\ llist_shows s l.

  Definition objects_shown (s : llist A P) (l : list A) : Prop := exists vs, llist_shows s vs /\ map fst vs = l.
End Spec.

(** The result of each insertion of a history: whether it was accepted. *)
Fixpoint accepted {A P} (oid : A -> A -> bool) (acc : list (A * P)) (os : list (A * P * policy)) : list bool :=
  match os with
  | [] => []
  | (x, p, pol) :: os' =>
    let ok := match pol, present A oid P x acc with
              | InsertIfNotFound, true => false
              | InsertIfFound, false => false
              | _, _ => true
              end in
    ok :: accepted oid (in_force A oid P acc [(x, p, pol)]) os'
  end.
