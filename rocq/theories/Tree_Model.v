(** Model of Source/DKBinaryTree.c: the binary tree with sentinel node.

    Memory maps addresses to nodes.  Address 0 is NULL, address 1 is the node
    [null_node] inside the tree structure, other addresses are nodes from the
    tree's node pool.  Nodes never go back to the pool (FreeNode, 337-348, does
    not return them), so each allocation gets a new address.  A pointer to a
    pointer to a node is modelled by the value of the pointer before and after.
    Reference counts of keys and objects are not modelled; keys and objects are
    values.  Copying the key on insertion gives an equal key. *)
Require Import Coq.ZArith.ZArith Coq.Lists.List Coq.Bool.Bool Coq.Arith.Arith.
Require Import Verif.Base.
Require Import Verif.HashTable_Model.
Import ListNotations.

Section Tree.
  Variables K V : Type.
  (** keyCompare, struct DKBinaryTree, DKBinaryTree.c 54-66. *)
  Variable cmp : K -> K -> Z.

  Notation ptr := nat.
  Definition NULL : ptr := 0.
  Definition null_node : ptr := 1.
  (** struct DKBinaryTreeNode, DKBinaryTree.c 44-52; no key and object in
      [null_node] and freed nodes. *)
  Record node : Type := mkN { left : ptr; right : ptr; level : Z; kv : option (K * V) }.
  Definition heap : Type := ptr -> option node.
  Record tree : Type := mkTree { mem : heap; next : ptr; root : ptr; count : Z }.
  Definition ld (h : heap) (p : ptr) : outcome node := match h p with Some n => Ok n | None => UB end.
  Definition set (h : heap) (p : ptr) (n : node) : heap := fun q => if q =? p then Some n else h q.
  Definition set_left (h : heap) (p q : ptr) : outcome heap := do n <- ld h p; Ok (set h p (mkN q (right n) (level n) (kv n))).
  Definition set_right (h : heap) (p q : ptr) : outcome heap := do n <- ld h p; Ok (set h p (mkN (left n) q (level n) (kv n))).
  Definition set_level (h : heap) (p : ptr) (z : Z) : outcome heap := do n <- ld h p; Ok (set h p (mkN (left n) (right n) z (kv n))).
  Definition set_kv (h : heap) (p : ptr) (x : option (K * V)) : outcome heap := do n <- ld h p; Ok (set h p (mkN (left n) (right n) (level n) x)).
  Definition key_of (h : heap) (p : ptr) : outcome K := do n <- ld h p; match kv n with Some x => Ok (fst x) | None => UB end.

  (** DKBinaryTreeInitialize, DKBinaryTree.c 593-615. *)
  Definition init : tree := mkTree (set (fun _ => None) null_node (mkN null_node null_node 0 None)) 2 null_node 0.

  (** RotateWithLeftChild, RotateWithRightChild, DKBinaryTree.c 354-372. *)
  Definition rotate_left_child (h : heap) (k2 : ptr) : outcome (heap * ptr) :=
    do n2 <- ld h k2;
    let k1 := left n2 in
    do n1 <- ld h k1;
    do h <- set_left h k2 (right n1);
    do h <- set_right h k1 k2;
    Ok (h, k1).
  Definition rotate_right_child (h : heap) (k1 : ptr) : outcome (heap * ptr) :=
    do n1 <- ld h k1;
    let k2 := right n1 in
    do n2 <- ld h k2;
    do h <- set_right h k1 (left n2);
    do h <- set_left h k2 k1;
    Ok (h, k2).
  (** Skew and Split, DKBinaryTree.c 378-401. *)
  Definition skew (h : heap) (p : ptr) : outcome (heap * ptr) :=
    do n <- ld h p;
    do l <- ld h (left n);
    if (level l =? level n)%Z then rotate_left_child h p else Ok (h, p).
  Definition split (h : heap) (p : ptr) : outcome (heap * ptr) :=
    do n <- ld h p;
    do r <- ld h (right n);
    do rr <- ld h (right r);
    if (level rr =? level n)%Z then
      do x <- rotate_right_child h p;
      do m <- ld (fst x) (snd x);
      do h <- set_level (fst x) (snd x) (level m + 1);
      Ok (h, snd x)
    else Ok (h, p).
  (** f( tree, &p->right ) *)
  Definition at_right (f : heap -> ptr -> outcome (heap * ptr)) (h : heap) (p : ptr) : outcome (heap * ptr) :=
    do n <- ld h p;
    do x <- f h (right n);
    do h <- set_right (fst x) p (snd x);
    Ok (h, p).

  (** InsertRecursive, DKBinaryTree.c 407-447, with AllocNode, 317-331.  The
      result is the new value of the node pointer. *)
  Definition with_mem (t : tree) (h : heap) : tree := mkTree h (next t) (root t) (count t).
  Definition balance (t : tree) (p : ptr) : outcome (tree * ptr) :=
    do x <- skew (mem t) p;
    do x <- split (fst x) (snd x);
    Ok (with_mem t (fst x), snd x).
  Fixpoint insert_rec (fuel : nat) (t : tree) (p : ptr) (k : K) (v : V) (policy : insert_policy) : outcome (tree * ptr) :=
    match fuel with
    | O => NoFuel
    | S fuel' =>
      if p =? null_node then
        match policy with
        | InsertIfFound => Ok (t, p)
        | _ =>
          let a := next t in
          balance (mkTree (set (mem t) a (mkN null_node null_node 0 (Some (k, v)))) (S a) (root t) (count t + 1)) a
        end
      else
        do pk <- key_of (mem t) p;
        do n <- ld (mem t) p;
        if (cmp pk k <? 0)%Z then
          do x <- insert_rec fuel' t (left n) k v policy;
          do h <- set_left (mem (fst x)) p (snd x);
          balance (with_mem (fst x) h) p
        else if (0 <? cmp pk k)%Z then
          do x <- insert_rec fuel' t (right n) k v policy;
          do h <- set_right (mem (fst x)) p (snd x);
          balance (with_mem (fst x) h) p
        else
          match policy with
          | InsertIfNotFound => Ok (t, p)
          | _ => do h <- set_kv (mem t) p (Some (pk, v)); Ok (with_mem t h, p)
          end
    end.
  (** DKBinaryTreeInsertObject, DKBinaryTree.c 449-458 and 979-1010; keys are not
      NULL.  [fuel] bounds the depth of the recursion. *)
  Definition insert (fuel : nat) (t : tree) (k : K) (v : V) (policy : insert_policy) : outcome tree :=
    do x <- insert_rec fuel t (root t) k v policy;
    Ok (mkTree (mem (fst x)) (next (fst x)) (snd x) (count (fst x))).

  (** FindNode, DKBinaryTree.c 464-483. *)
  Fixpoint find_node (fuel : nat) (h : heap) (p : ptr) (k : K) : outcome (option ptr) :=
    match fuel with
    | O => NoFuel
    | S fuel' =>
      if p =? null_node then Ok None
      else
        do pk <- key_of h p;
        do n <- ld h p;
        if (cmp pk k <? 0)%Z then find_node fuel' h (left n) k
        else if (0 <? cmp pk k)%Z then find_node fuel' h (right n) k
        else Ok (Some p)
    end.
  (** DKBinaryTreeGetObject, DKBinaryTree.c 854-873. *)
  Definition get_object (fuel : nat) (t : tree) (k : K) : outcome (option V) :=
    do r <- find_node fuel (mem t) (root t) k;
    match r with
    | None => Ok None
    | Some p => do n <- ld (mem t) p; Ok (option_map snd (kv n))
    end.

  (** FreeNode, DKBinaryTree.c 337-348. *)
  Definition free_node (t : tree) (p : ptr) : outcome tree :=
    do _ <- ld (mem t) p;
    Ok (mkTree (set (mem t) p (mkN NULL NULL 0 None)) (next t) (root t) (count t - 1)).
  (** Swap, DKBinaryTree.c 489-498. *)
  Definition swap (h : heap) (p q : ptr) : outcome heap :=
    do a <- ld h p;
    do b <- ld h q;
    do h <- set_kv h p (kv b);
    set_kv h q (kv a).
  (** The rebalancing in Remove, DKBinaryTree.c 539-551. *)
  Definition rebalance (h : heap) (p : ptr) : outcome (heap * ptr) :=
    do n <- ld h p;
    do l <- ld h (left n);
    do r <- ld h (right n);
    if ((level l <? level n - 1) || (level r <? level n - 1))%Z then
      do h <- set_level h p (level n - 1);
      do r <- ld h (right n);
      do h <- (if (level n - 1 <? level r)%Z then set_level h (right n) (level n - 1) else Ok h);
      do x <- skew h p;
      do x <- at_right skew (fst x) (snd x);
      do x <- at_right (at_right skew) (fst x) (snd x);
      do x <- split (fst x) (snd x);
      at_right split (fst x) (snd x)
    else Ok (h, p).
  (** Remove, DKBinaryTree.c 504-553: the tree and the new values of the node
      pointer, leaf_node and erase_node. *)
  Fixpoint remove_rec (fuel : nat) (t : tree) (k : K) (p leaf erase : ptr) : outcome (tree * ptr * ptr * ptr) :=
    match fuel with
    | O => NoFuel
    | S fuel' =>
      if p =? null_node then Ok (t, p, leaf, erase)
      else
        do pk <- key_of (mem t) p;
        do n <- ld (mem t) p;
        do y <- (if (cmp pk k <? 0)%Z then
                   do x <- remove_rec fuel' t k (left n) p erase;
                   let '(t, q, leaf, erase) := x in
                   do h <- set_left (mem t) p q;
                   Ok (with_mem t h, leaf, erase)
                 else
                   do x <- remove_rec fuel' t k (right n) p p;
                   let '(t, q, leaf, erase) := x in
                   do h <- set_right (mem t) p q;
                   Ok (with_mem t h, leaf, erase));
        let '(t, leaf, erase) := y in
        if leaf =? p then
          if erase =? null_node then Ok (t, p, leaf, erase)
          else
            do ek <- key_of (mem t) erase;
            if (cmp ek k =? 0)%Z then
              do h <- swap (mem t) erase p;
              do n <- ld h p;
              do t <- free_node (with_mem t h) p;
              Ok (t, right n, NULL, null_node)
            else Ok (t, p, leaf, erase)
        else
          do x <- rebalance (mem t) p;
          Ok (with_mem t (fst x), snd x, leaf, erase)
    end.
  (** DKBinaryTreeRemoveObject, DKBinaryTree.c 1016-1033. *)
  Definition remove (fuel : nat) (t : tree) (k : K) : outcome tree :=
    do x <- remove_rec fuel t k (root t) NULL null_node;
    let '(t, p, _, _) := x in Ok (mkTree (mem t) (next t) p (count t)).

  (** RemoveAllRecursive, DKBinaryTree.c 1048-1059; the loop over right children
      is a second recursion. *)
  Fixpoint remove_all_rec (fuel : nat) (t : tree) (p : ptr) : outcome tree :=
    match fuel with
    | O => NoFuel
    | S fuel' =>
      if p =? null_node then Ok t
      else
        do n <- ld (mem t) p;
        do t <- remove_all_rec fuel' t (left n);
        do t <- free_node t p;
        remove_all_rec fuel' t (right n)
    end.
  (** DKBinaryTreeRemoveAllObjects, DKBinaryTree.c 1061-1069. *)
  Definition remove_all (fuel : nat) (t : tree) : outcome tree :=
    do t <- remove_all_rec fuel t (root t); Ok (mkTree (mem t) (next t) null_node (count t)).

  (** DKBinaryTreeTraverseInOrderInternal, DKBinaryTree.c 926-943, with a callback
      that has a context of type [St] and stops the traversal by a result other
      than 0. *)
  Section Traverse.
    Variable St : Type.
    Variable f : St -> K -> V -> St * Z.
    Fixpoint traverse_rec (fuel : nat) (h : heap) (p : ptr) (st : St) : outcome (St * Z) :=
      match fuel with
      | O => NoFuel
      | S fuel' =>
        if p =? null_node then Ok (st, 0%Z)
        else
          do n <- ld h p;
          do x <- traverse_rec fuel' h (left n) st;
          if negb (snd x =? 0)%Z then Ok x
          else
            match kv n with
            | None => UB
            | Some e =>
              let y := f (fst x) (fst e) (snd e) in
              if negb (snd y =? 0)%Z then Ok y else traverse_rec fuel' h (right n) (fst y)
            end
      end.
  End Traverse.
  Definition traverse (St : Type) (f : St -> K -> V -> St * Z) (fuel : nat) (t : tree) (st : St) : outcome (St * Z) :=
    traverse_rec St f fuel (mem t) (root t) st.

  (** DKBinaryTreeGetFirstObject, DKBinaryTree.c 960-977. *)
  Fixpoint first_loop (fuel : nat) (h : heap) (p : ptr) : outcome (option V) :=
    match fuel with
    | O => NoFuel
    | S fuel' => do n <- ld h p; if left n =? NULL then Ok (option_map snd (kv n)) else first_loop fuel' h (left n)
    end.
  Definition get_first (fuel : nat) (t : tree) : outcome (option V) := first_loop fuel (mem t) (root t).

  (** Histories of calls. *)
  Inductive top : Type :=
  | TInsert (k : K) (v : V) (policy : insert_policy) | TRemove (k : K) | TRemoveAll | TGet (k : K) | TCount | TAll.
  Inductive tres : Type := TUnit | TObject (o : option V) | TNumber (n : Z) | TList (l : list (K * V)).
  Definition tstep (fuel : nat) (t : tree) (o : top) : outcome (tree * tres) :=
    match o with
    | TInsert k v p => do t <- insert fuel t k v p; Ok (t, TUnit)
    | TRemove k => do t <- remove fuel t k; Ok (t, TUnit)
    | TRemoveAll => do t <- remove_all fuel t; Ok (t, TUnit)
    | TGet k => do r <- get_object fuel t k; Ok (t, TObject r)
    | TCount => Ok (t, TNumber (count t))
    | TAll => do r <- traverse (list (K * V)) (fun st k v => (st ++ [(k, v)], 0%Z)) fuel t []; Ok (t, TList (fst r))
    end.
  Fixpoint trun (fuel : nat) (t : tree) (os : list top) : outcome (tree * list tres) :=
    match os with
    | [] => Ok (t, [])
    | o :: os' => do r <- tstep fuel t o; do q <- trun fuel (fst r) os'; Ok (fst q, snd r :: snd q)
    end.
End Tree.
