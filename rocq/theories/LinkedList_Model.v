(** Model of Source/DKLinkedList.c: a doubly linked list with a cached cursor.

    The nodes live in a heap of explicitly addressed records; using an address
    that is not allocated (NULL, or a freed node) is [UB].

    Simplifications: an index that has passed DKCheckIndex / DKCheckRange is a
    [nat]; objects are abstract values compared by [oid] where the C code
    compares pointers; priorities (double) are an abstract type with a "greater
    than" test and a zero; reference counting is not modelled here; the node
    pool (DKNodePool.c) is a list of released addresses plus a counter. *)
Require Import Coq.ZArith.ZArith Coq.Lists.List Coq.Bool.Bool Coq.Arith.Arith.
Require Import Verif.Base Verif.Array_Model Verif.Sort_Model Verif.List_Model.
Import ListNotations.

(** DKInsertPolicy, DKPlatform.h: insert always, only when the object is
    absent, only when it is present. *)
Inductive policy := InsertAlways | InsertIfNotFound | InsertIfFound.

Section LinkedList.
  Variable A : Type.                       (* object references *)
  Variable oid : A -> A -> bool.           (* pointer equality *)
  Variable P : Type.                       (* priorities *)
  Variable gt : P -> P -> bool.            (* > on priorities *)
  Variable pzero : P.

  Definition addr := nat.

  (** struct DKLinkedListNode, DKLinkedList.c 44-50. *)
  Record node := mkNode { nprev : option addr; nnext : option addr; nobj : A; nprio : P }.

  (** struct DKLinkedList and its cursor, DKLinkedList.c 52-71. *)
  Record llist := mkList {
    heap : addr -> option node;
    pool : list addr;        (* released nodes *)
    fresh : addr;            (* addresses from here on were never handed out *)
    lfirst : option addr;
    llast : option addr;
    lcount : nat;
    cnode : option addr;
    cindex : nat
  }.

  (** DKLinkedListInitialize, DKLinkedList.c 506-523. *)
  Definition llist_init : llist := mkList (fun _ => None) [] 0 None None 0 None 0.

  (** Reading and writing a node through a pointer. *)
  Definition load (h : addr -> option node) (p : option addr) : outcome node :=
    match p with
    | None => UB
    | Some a => match h a with Some n => Ok n | None => UB end
    end.
  Definition put (h : addr -> option node) (a : addr) (n : option node) : addr -> option node :=
    fun b => if b =? a then n else h b.
  Definition store (h : addr -> option node) (p : option addr) (f : node -> node) : outcome (addr -> option node) :=
    match p with
    | None => UB
    | Some a => match h a with Some n => Ok (put h a (Some (f n))) | None => UB end
    end.
  Definition set_prev (p : option addr) (n : node) : node := mkNode p (nnext n) (nobj n) (nprio n).
  Definition set_next (p : option addr) (n : node) : node := mkNode (nprev n) p (nobj n) (nprio n).
  Definition set_obj (x : A) (n : node) : node := mkNode (nprev n) (nnext n) x (nprio n).
  Definition set_prio (p : P) (n : node) : node := mkNode (nprev n) (nnext n) (nobj n) p.

  Definition with_heap (s : llist) (h : addr -> option node) : llist :=
    mkList h (pool s) (fresh s) (lfirst s) (llast s) (lcount s) (cnode s) (cindex s).
  Definition with_ends (s : llist) (f l : option addr) : llist :=
    mkList (heap s) (pool s) (fresh s) f l (lcount s) (cnode s) (cindex s).
  Definition with_cursor (s : llist) (c : option addr) (i : nat) : llist :=
    mkList (heap s) (pool s) (fresh s) (lfirst s) (llast s) (lcount s) c i.

  (** AllocNode, DKLinkedList.c 290-303, with DKNodePoolAlloc. *)
  Definition alloc_node (s : llist) (x : A) : llist * addr :=
    let '(a, pool', fresh') :=
      match pool s with
      | a :: r => (a, r, fresh s)
      | [] => (fresh s, [], S (fresh s))
      end in
    (mkList (put (heap s) a (Some (mkNode None None x pzero))) pool' fresh'
       (lfirst s) (llast s) (S (lcount s)) (cnode s) (cindex s), a).

  (** FreeNode, DKLinkedList.c 309-317. *)
  Definition free_node (s : llist) (a : addr) : llist :=
    mkList (put (heap s) a None) (a :: pool s) (fresh s)
      (lfirst s) (llast s) (lcount s - 1) (cnode s) (cindex s).

  (** for( ; n > 0; --n ) node = node->next;  and the same with prev. *)
  Fixpoint walk_next (h : addr -> option node) (n : nat) (p : option addr) : outcome (option addr) :=
    match n with
    | O => Ok p
    | S n' => do nd <- load h p; walk_next h n' (nnext nd)
    end.
  Fixpoint walk_prev (h : addr -> option node) (n : nat) (p : option addr) : outcome (option addr) :=
    match n with
    | O => Ok p
    | S n' => do nd <- load h p; walk_prev h n' (nprev nd)
    end.

  (** MoveCursor, DKLinkedList.c 323-376; the result is the cursor's node. *)
  Definition move_cursor (s : llist) (index : nat) : outcome llist :=
    match lfirst s with
    | None => Ok s
    | Some _ =>
      do c1 <-
        (if cindex s <? index then
           let dist_cursor := index - cindex s in
           let dist_back := lcount s - index - 1 in
           if dist_cursor <=? dist_back then walk_next (heap s) dist_cursor (cnode s)
           else walk_prev (heap s) dist_back (llast s)
         else Ok (cnode s));
      do c2 <-
        (if index <? cindex s then
           let dist_cursor := cindex s - index in
           let dist_front := index in
           if dist_cursor <=? dist_front then walk_prev (heap s) dist_cursor c1
           else walk_next (heap s) dist_front (lfirst s)
         else Ok c1);
      Ok (with_cursor s c2 index)
    end.

  Definition ptr_eqb (p q : option addr) : bool :=
    match p, q with
    | None, None => true
    | Some a, Some b => a =? b
    | _, _ => false
    end.

  (** The loop of RemoveRange, DKLinkedList.c 393-416. *)
  Fixpoint remove_loop (n : nat) (s : llist) : outcome llist :=
    match n with
    | O => Ok s
    | S n' =>
      do nd <- load (heap s) (cnode s);
      do h1 <- match nprev nd with
               | Some a => store (heap s) (Some a) (set_next (nnext nd))
               | None => Ok (heap s)
               end;
      do h2 <- match nnext nd with
               | Some a => store h1 (Some a) (set_prev (nprev nd))
               | None => Ok h1
               end;
      let f := if ptr_eqb (lfirst s) (cnode s) then nnext nd else lfirst s in
      let l := if ptr_eqb (llast s) (cnode s) then nprev nd else llast s in
      let s1 := with_ends (with_heap s h2) f l in
      match cnode s with
      | None => UB
      | Some a =>
        let s2 := free_node s1 a in
        remove_loop n' (with_cursor s2 (nnext nd) (cindex s2))
      end
    end.

  (** RemoveRange, DKLinkedList.c 382-434. *)
  Definition remove_range (s : llist) (loc len : nat) : outcome llist :=
    if len =? 0 then Ok s
    else
      do s1 <- move_cursor s loc;
      do s2 <- remove_loop len s1;
      match cnode s2 with
      | None => if 0 <? lcount s2 then Ok (with_cursor s2 (llast s2) (lcount s2 - 1))
                else Ok (with_cursor s2 (lfirst s2) 0)
      | Some _ => Ok s2
      end.

  (** InsertObject, DKLinkedList.c 440-497. *)
  Definition insert_object (s : llist) (index : nat) (x : A) : outcome llist :=
    match lfirst s with
    | None =>
      let '(s1, a) := alloc_node s x in
      Ok (with_cursor (with_ends s1 (Some a) (Some a)) (Some a) 0)
    | Some _ =>
      if index =? 0 then
        let '(s1, a) := alloc_node s x in
        do h1 <- store (heap s1) (Some a) (set_next (lfirst s1));
        do h2 <- store h1 (lfirst s1) (set_prev (Some a));
        Ok (with_cursor (with_ends (with_heap s1 h2) (Some a) (llast s1)) (Some a) 0)
      else if index =? lcount s then
        let '(s1, a) := alloc_node s x in
        do h1 <- store (heap s1) (Some a) (set_prev (llast s1));
        do h2 <- store h1 (llast s1) (set_next (Some a));
        Ok (with_cursor (with_ends (with_heap s1 h2) (lfirst s1) (Some a)) (Some a) (lcount s1 - 1))
      else
        do s0 <- move_cursor s index;
        let next := cnode s0 in
        let '(s1, a) := alloc_node s0 x in
        do h1 <- store (heap s1) (Some a) (set_next next);
        do nx <- load h1 next;
        do h2 <- store h1 (Some a) (set_prev (nprev nx));
        do h3 <- store h2 (nprev nx) (set_next (Some a));
        do h4 <- store h3 next (set_prev (Some a));
        Ok (with_cursor (with_heap s1 h4) (Some a) (cindex s1))
    end.

  Fixpoint insert_objects (s : llist) (index : nat) (l : list A) : outcome llist :=
    match l with
    | [] => Ok s
    | x :: l' => do s' <- insert_object s index x; insert_objects s' (S index) l'
    end.

  (** INTERNAL_DKLinkedListGetObjectAtIndex, DKLinkedList.c 689-696. *)
  Definition llist_get (s : llist) (i : Z) : outcome (llist * option A) :=
    match check_index i (lcount s) with
    | None => Ok (s, None)
    | Some i =>
      do s' <- move_cursor s i;
      do nd <- load (heap s') (cnode s');
      Ok (s', Some (nobj nd))
    end.

  (** DKLinkedListGetPriorityOfObjectAtIndex, DKLinkedList.c 1036-1049 (None is
      the error return). *)
  Definition llist_get_priority (s : llist) (i : Z) : outcome (llist * option P) :=
    match check_index i (lcount s) with
    | None => Ok (s, None)
    | Some i =>
      do s' <- move_cursor s i;
      do nd <- load (heap s') (cnode s');
      Ok (s', Some (nprio nd))
    end.

  (** INTERNAL_DKLinkedListGetObjectsInRange, DKLinkedList.c 713-724. *)
  Fixpoint get_loop (n : nat) (s : llist) (i : nat) : outcome (llist * list A) :=
    match n with
    | O => Ok (s, [])
    | S n' =>
      do s' <- move_cursor s i;
      do nd <- load (heap s') (cnode s');
      do r <- get_loop n' s' (S i);
      Ok (fst r, nobj nd :: snd r)
    end.
  Definition llist_get_range (s : llist) (loc len : Z) : outcome (llist * option (list A)) :=
    do r <- check_range loc len (lcount s);
    match r with
    | None => Ok (s, None)
    | Some (loc, len) => do r <- get_loop len s loc; Ok (fst r, Some (snd r))
    end.

  (** INTERNAL_DKLinkedListReplaceRangeWithCArray, DKLinkedList.c 775-784, and
      ...WithCollection, 815-826, for a collection other than the list itself
      (the callback inserts at consecutive indices). *)
  Definition llist_replace_range (s : llist) (loc len : Z) (objects : list A) : outcome llist :=
    do r <- check_range loc len (lcount s);
    match r with
    | None => Ok s
    | Some (loc, len) =>
      do s1 <- remove_range s loc len;
      insert_objects s1 loc objects
    end.

  (** The same call with the list itself as the collection: the enumeration
      (DKLinkedListApplyFunction, 950-968) follows the next pointers of the
      list that the callback is inserting into. *)
  Fixpoint copy_from_self (fuel : nat) (s : llist) (p : option addr) (index : nat) : outcome llist :=
    match fuel with
    | O => NoFuel
    | S fuel' =>
      match p with
      | None => Ok s
      | Some a =>
        do nd <- load (heap s) (Some a);
        do s' <- insert_object s index (nobj nd);
        do nd' <- load (heap s') (Some a);
        copy_from_self fuel' s' (nnext nd') (S index)
      end
    end.
  Definition llist_replace_range_with_self (fuel : nat) (s : llist) (loc len : Z) : outcome llist :=
    do r <- check_range loc len (lcount s);
    match r with
    | None => Ok s
    | Some (loc, len) =>
      do s1 <- remove_range s loc len;
      copy_from_self fuel s1 (lfirst s1) loc
    end.

  (** DKLinkedListReverse, DKLinkedList.c 886-914. *)
  Fixpoint reverse_loop (fuel : nat) (h : addr -> option node) (prev curr : option addr)
    : outcome (addr -> option node) :=
    match fuel with
    | O => NoFuel
    | S fuel' =>
      match curr with
      | None => Ok h
      | Some a =>
        do nd <- load h (Some a);
        let next := nprev nd in
        do h1 <- store h (Some a) (set_prev prev);
        do h2 <- store h1 (Some a) (set_next next);
        reverse_loop fuel' h2 (Some a) next
      end
    end.
  Definition llist_reverse (s : llist) : outcome llist :=
    do h <- reverse_loop (S (lcount s)) (heap s) None (llast s);
    Ok (with_cursor (with_ends (with_heap s h) (llast s) (lfirst s)) (llast s) 0).

  (** ListToArray and ArrayToList, DKLinkedList.c 832-855: the array has the
      list's length, so the element accesses are in range. *)
  Fixpoint list_to_array (h : addr -> option node) (n : nat) (p : option addr) : outcome (list A) :=
    match n with
    | O => Ok []
    | S n' =>
      do nd <- load h p;
      do r <- list_to_array h n' (nnext nd);
      Ok (nobj nd :: r)
    end.
  Fixpoint array_to_list (h : addr -> option node) (l : list A) (p : option addr) : outcome (addr -> option node) :=
    match l with
    | [] => Ok h
    | x :: l' =>
      do h1 <- store h p (set_obj x);
      do nd <- load h1 p;
      array_to_list h1 l' (nnext nd)
    end.

  (** DKLinkedListSort, DKLinkedList.c 856-880. *)
  Definition llist_sort (cmp : A -> A -> Z) (s : llist) : outcome llist :=
    if 1 <? lcount s then
      do l <- list_to_array (heap s) (lcount s) (lfirst s);
      do l' <- sort_objects A cmp l;
      do h <- array_to_list (heap s) l' (lfirst s);
      Ok (with_cursor (with_heap s h) (lfirst s) 0)
    else Ok s.

  (** DKLinkedListShuffle, DKLinkedList.c 920-944: the array is reserved but
      its length stays zero (DKGenericArrayReserve, not SetLength), so the
      first DKGenericArrayElementAtIndex of ListToArray dereferences the NULL
      that DKCheckIndex returns (DKGenericArray.c 249-253). *)
  Definition llist_shuffle (s : llist) : outcome llist :=
    if 1 <? lcount s then UB else Ok s.

  (** DKLinkedListApplyFunction, DKLinkedList.c 950-968, with a callback that
      folds a state and may stop, and does not modify the list. *)
  Fixpoint apply_loop {S} (cb : S -> A -> S * bool) (st : S) (h : addr -> option node) (fuel : nat) (p : option addr)
    : outcome (S * bool) :=
    match fuel with
    | O => NoFuel
    | Datatypes.S fuel' =>
      match p with
      | None => Ok (st, false)
      | Some a =>
        do nd <- load h (Some a);
        let '(st', stop) := cb st (nobj nd) in
        if stop then Ok (st', true) else apply_loop cb st' h fuel' (nnext nd)
      end
    end.
  Definition llist_apply {S} (cb : S -> A -> S * bool) (st : S) (s : llist) : outcome (S * bool) :=
    apply_loop cb st (heap s) (Datatypes.S (lcount s)) (lfirst s).

  (** The while loop of DKLinkedListInsertObjectWithPriority, DKLinkedList.c
      984-1003.  [None] is the early return for DKInsertIfNotFound; otherwise
      the insertion index with its node, and the index and node to remove. *)
  Fixpoint priority_loop (fuel : nat) (s : llist) (x : A) (p : P) (pol : policy)
    (cur : option addr) (i : nat) (ins : option addr * nat) (rem : option (addr * nat))
    : outcome (option ((option addr * nat) * option (addr * nat))) :=
    match fuel with
    | O => NoFuel
    | S fuel' =>
      match cur with
      | None => Ok (Some (ins, rem))
      | Some a =>
        do nd <- load (heap s) (Some a);
        let found := oid (nobj nd) x in
        if found && match pol with InsertIfNotFound => true | _ => false end then Ok None
        else
          let rem' := if found then Some (a, i) else rem in
          let ins' := if (snd ins =? lcount s) && gt p (nprio nd) then (Some a, i) else ins in
          priority_loop fuel' s x p pol (nnext nd) (S i) ins' rem'
      end
    end.

  (** DKLinkedListInsertObjectWithPriority, DKLinkedList.c 974-1030. *)
  Definition llist_insert_priority (s : llist) (x : A) (p : P) (pol : policy) : outcome (llist * bool) :=
    do r <- priority_loop (S (lcount s)) s x p pol (lfirst s) 0 (llast s, lcount s) None;
    match r with
    | None => Ok (s, false)
    | Some (ins, rem) =>
      match pol, rem with
      | InsertIfFound, None => Ok (s, false)
      | _, _ =>
        do s1 <- insert_object (with_cursor s (fst ins) (snd ins)) (snd ins) x;
        do h <- store (heap s1) (cnode s1) (set_prio p);
        let s2 := with_heap s1 h in
        match rem with
        | None => Ok (s2, true)
        | Some (a, i) =>
          let i' := if snd ins <=? i then S i else i in
          do s3 <- remove_range (with_cursor s2 (Some a) i') i' 1;
          Ok (s3, true)
        end
      end
    end.

  (** Operations of a history. *)
  Inductive lop :=
  | LReplace (loc len : Z) (objects : list A)   (* replace a range; also insert, append, set, remove *)
  | LAppend (objects : list A)
  | LGet (i : Z)
  | LGetRange (loc len : Z)
  | LGetPriority (i : Z)
  | LCount
  | LReverse
  | LSort (cmp : A -> A -> Z)
  | LPriority (x : A) (p : P) (pol : policy).

  Inductive lres :=
  | RNone
  | RObj (x : option A)
  | RObjs (l : option (list A))
  | RPrio (p : option P)
  | RNum (n : nat)
  | RBool (b : bool).

  Definition llist_step (s : llist) (o : lop) : outcome (llist * lres) :=
    match o with
    | LReplace loc len l => do s' <- llist_replace_range s loc len l; Ok (s', RNone)
    | LAppend l => do s' <- llist_replace_range s (Z.of_nat (lcount s)) 0 l; Ok (s', RNone)
    | LGet i => do r <- llist_get s i; Ok (fst r, RObj (snd r))
    | LGetRange loc len => do r <- llist_get_range s loc len; Ok (fst r, RObjs (snd r))
    | LGetPriority i => do r <- llist_get_priority s i; Ok (fst r, RPrio (snd r))
    | LCount => Ok (s, RNum (lcount s))
    | LReverse => do s' <- llist_reverse s; Ok (s', RNone)
    | LSort cmp => do s' <- llist_sort cmp s; Ok (s', RNone)
    | LPriority x p pol => do r <- llist_insert_priority s x p pol; Ok (fst r, RBool (snd r))
    end.

  Fixpoint llist_run (s : llist) (os : list lop) : outcome (llist * list lres) :=
    match os with
    | [] => Ok (s, [])
    | o :: os' =>
      do r <- llist_step s o;
      do r' <- llist_run (fst r) os';
      Ok (fst r', snd r :: snd r')
    end.

  (** The List interface of DKLinkedList (DKLinkedList.c 60-90). *)
  Definition llist_interface : list_interface A llist :=
    mkListInterface lcount llist_get llist_replace_range.
End LinkedList.
