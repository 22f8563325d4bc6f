(** Model of what keeps objects alive: reference counts, and the references that arrays, linked lists,
    hash tables, binary trees and pairs hold.  Source/DKArray.c 238-256, 283-294, 510-614; Source/DKLinkedList.c
    288-320, 382-490, 766-835; Source/DKHashTable.c 261-295, 699-793; Source/DKBinaryTree.c 318-349, 408-458,
    990-1095; Source/DKPair.c 75-98; Source/DKRuntime+RefCount.c.

    [cells] are the objects made so far, [hands] the references that the program has and must release.
    Nothing is said here about how the classes find a place for what they hold (C01, C09, C11, C15): a table
    or tree is the list of its entries.  Simplifications: the copy of a key is a reference to it, as for
    immutable strings; a slot is emptied before and not after its object is released, which nothing can
    see while the collection is kept alive by its user; finalizers of other classes do nothing; weak
    references, zombies and threads are elsewhere (C40-C44). *)
Require Import Coq.Lists.List Coq.Bool.Bool Coq.Arith.Arith.
Require Import Verif.Base.
Require Verif.HashTable_Model.
Import ListNotations.

Definition ref : Type := option nat.
Inductive body : Type :=
| Leaf | Arr (l : list ref) | Lnk (l : list ref) | Hash (es : list (nat * ref)) | Tree (es : list (nat * ref)) | Pair (a b : ref).
Inductive cell : Type := Live (count : nat) (b : body) | Freed.
Record state : Type := mkS { cells : list cell; hands : list nat }.
Definition init : state := mkS [] [].

Definition somes (l : list ref) : list nat := flat_map (fun r => match r with Some x => [x] | None => [] end) l.
Definition of_entries (es : list (nat * ref)) : list nat := flat_map (fun e => fst e :: somes [snd e]) es.
(** What a collection releases when it is finalized: DKArrayFinalize 238-253, RemoveRange and FreeNode of
    DKLinkedList.c 309-317, RowDelete of DKHashTable.c 286-295, FreeNode of DKBinaryTree.c 335-349,
    DKPairFinalize 92-98. *)
Definition members (b : body) : list nat :=
  match b with
  | Leaf => [] | Arr l | Lnk l => somes l | Hash es | Tree es => of_entries es | Pair a b => somes [a; b]
  end.

Definition set_cell (s : state) (x : nat) (c : cell) : state := mkS (upd (cells s) x c) (hands s).
(** DKRetain, DKRuntime+RefCount.c 61-103; NULL is allowed.  An object that was freed must not be used. *)
Definition retain (s : state) (r : ref) : outcome state :=
  match r with
  | None => Ok s
  | Some x => match nth_error (cells s) x with Some (Live (S n) b) => Ok (set_cell s x (Live (S (S n)) b)) | _ => UB end
  end.
Fixpoint retain_all (s : state) (l : list ref) : outcome state :=
  match l with [] => Ok s | r :: l' => do s' <- retain s r; retain_all s' l' end.
(** DKRelease, DKRuntime+RefCount.c 109-196, of all of [xs] in turn: the last reference finalizes the
    object, which releases its members first. *)
Fixpoint drop (fuel : nat) (s : state) (xs : list nat) : outcome state :=
  match xs with
  | [] => Ok s
  | x :: xs' =>
    match fuel with
    | O => NoFuel
    | S fuel' =>
      match nth_error (cells s) x with
      | Some (Live (S O) b) => drop fuel' (set_cell s x Freed) (members b ++ xs')
      | Some (Live (S n) b) => drop fuel' (set_cell s x (Live n b)) xs'
      | _ => UB
      end
    end
  end.
Definition weight (s : state) : nat := fold_right plus 0 (map (fun c => match c with Live _ b => length (members b) | Freed => 0 end) (cells s)).
Definition release (s : state) (xs : list nat) : outcome state := drop (length xs + weight s) s xs.
Definition release_ref (s : state) (r : ref) : outcome state := release s (somes [r]).

Definition body_of (s : state) (x : nat) : outcome body := match nth_error (cells s) x with Some (Live _ b) => Ok b | _ => UB end.
Definition set_body (s : state) (x : nat) (b : body) : outcome state :=
  match nth_error (cells s) x with Some (Live n _) => Ok (set_cell s x (Live n b)) | _ => UB end.

(** ** Lists *)
(** INTERNAL_DKArrayReplaceRangeWithCArray, DKArray.c 527-534: the part where the range and the objects
    overlap, [i] the index of the first. *)
Definition list_of (s : state) (a : nat) : outcome (list ref) := do b <- body_of s a; match b with Arr l | Lnk l => Ok l | _ => Fatal end.
Definition set_list (s : state) (a : nat) (l : list ref) : outcome state :=
  do b <- body_of s a; match b with Arr _ => set_body s a (Arr l) | Lnk _ => set_body s a (Lnk l) | _ => Fatal end.
Fixpoint overwrite (s : state) (a i : nat) (xs : list ref) : outcome state :=
  match xs with
  | [] => Ok s
  | x :: xs' =>
    do s <- retain s x;
    do l <- list_of s a;
    let old := nth i l None in
    do s <- set_list s a (upd l i None);
    do s <- release_ref s old;
    do s <- set_list s a (upd l i x);
    overwrite s a (S i) xs'
  end.
(** 536-553: what is left of the objects is inserted, or what is left of the range removed. *)
Definition array_splice (s : state) (a i n : nat) (xs : list ref) : outcome state :=
  let overlap := Nat.min n (length xs) in
  do s <- overwrite s a i (firstn overlap xs);
  do l <- list_of s a;
  if n <? length xs then
    do s <- retain_all s (skipn overlap xs);
    set_list s a (firstn (i + overlap) l ++ skipn overlap xs ++ skipn (i + overlap) l)
  else
    do s <- set_list s a (firstn (i + overlap) l ++ skipn (i + n) l);
    release s (somes (firstn (n - overlap) (skipn (i + overlap) l))).
(** RemoveRange, DKLinkedList.c 382-434: from the first of the range on. *)
Definition list_remove (s : state) (a i n : nat) : outcome state :=
  do l <- list_of s a;
  do s <- set_list s a (firstn i l ++ skipn (i + n) l);
  release s (somes (firstn n (skipn i l))).
(** InsertObject, DKLinkedList.c 440-499, for each object. *)
Fixpoint list_insert (s : state) (a i : nat) (xs : list ref) : outcome state :=
  match xs with
  | [] => Ok s
  | x :: xs' =>
    do s <- retain s x;
    do l <- list_of s a;
    do s <- set_list s a (firstn i l ++ x :: skipn i l);
    list_insert s a (S i) xs'
  end.
(** foreachObject of any collection. *)
Definition objects_of (s : state) (c : nat) : outcome (list ref) :=
  do b <- body_of s c;
  match b with Arr l | Lnk l => Ok l | Hash es | Tree es => Ok (map snd es) | _ => Fatal end.
(** DKListReplaceRangeWithCArray: INTERNAL_DKArrayReplaceRangeWithCArray, DKArray.c 519-553, and
    INTERNAL_DKLinkedListReplaceRangeWithCArray, DKLinkedList.c 775-783.  A range outside the list is
    reported and nothing is done. *)
Definition splice (s : state) (a i n : nat) (xs : list ref) : outcome state :=
  do b <- body_of s a;
  match b with
  | Arr l => if length l <? i + n then Ok s else array_splice s a i n xs
  | Lnk l => if length l <? i + n then Ok s else do s <- list_remove s a i n; list_insert s a i xs
  | _ => Fatal
  end.
(** DKListReplaceRangeWithCollection: INTERNAL_DKArrayReplaceRangeWithCollection, DKArray.c 585-614, and
    INTERNAL_DKLinkedListReplaceRangeWithCollection, DKLinkedList.c 824-835, for another collection than
    the list itself.  The new slots of the array are written one after the other. *)
Definition splice_all (s : state) (a i n c : nat) : outcome state :=
  do b <- body_of s a;
  match b with
  | Arr l | Lnk l => if length l <? i + n then Ok s else do s <- list_remove s a i n; do xs <- objects_of s c; list_insert s a i xs
  | _ => Fatal
  end.

(** ** Dictionaries *)
Section Keys.
  (** DKEqual of two keys, or the compare function of a tree. *)
  Variable keq : nat -> nat -> bool.
  Fixpoint find_key (es : list (nat * ref)) (k : nat) : option (nat * ref) :=
    match es with [] => None | e :: es' => if keq (fst e) k then Some e else find_key es' k end.
  Fixpoint set_key (es : list (nat * ref)) (k : nat) (v : ref) : list (nat * ref) :=
    match es with [] => [] | e :: es' => if keq (fst e) k then (fst e, v) :: es' else e :: set_key es' k v end.
  Fixpoint remove_key (es : list (nat * ref)) (k : nat) : list (nat * ref) :=
    match es with [] => [] | e :: es' => if keq (fst e) k then es' else e :: remove_key es' k end.
  Definition same (r r' : ref) : bool := match r, r' with Some x, Some y => x =? y | None, None => true | _, _ => false end.
  (** INTERNAL_DKHashTableInsertObject, DKHashTable.c 717-728, with RowUpdate 269-284. *)
  Definition hash_put (s : state) (d : nat) (es : list (nat * ref)) (k : nat) (v : ref) (p : HashTable_Model.insert_policy) : outcome state :=
    do s <- retain s (Some k);
    do s <- match find_key es k, p with
            | Some (_, old), HashTable_Model.InsertIfNotFound => Ok s
            | Some (_, old), _ =>
              if same old v then Ok s
              else
                do s <- set_body s d (Hash (set_key es k None));
                do s <- release_ref s old;
                do s <- retain s v;
                set_body s d (Hash (set_key es k v))
            | None, HashTable_Model.InsertIfFound => Ok s
            | None, _ =>
              do s <- retain s (Some k); do s <- retain s v; set_body s d (Hash (es ++ [(k, v)]))
            end;
    release s [k].
  (** INTERNAL_DKBinaryTreeInsertObject, DKBinaryTree.c 999-1010, with InsertRecursive 408-447 and AllocNode
      318-332. *)
  Definition tree_put (s : state) (d : nat) (es : list (nat * ref)) (k : nat) (v : ref) (p : HashTable_Model.insert_policy) : outcome state :=
    do s <- retain s (Some k);
    do s <- match find_key es k, p with
            | Some (_, old), HashTable_Model.InsertIfNotFound => Ok s
            | Some (_, old), _ =>
              do s <- retain s v;
              do s <- set_body s d (Tree (set_key es k None));
              do s <- release_ref s old;
              set_body s d (Tree (set_key es k v))
            | None, HashTable_Model.InsertIfFound => Ok s
            | None, _ =>
              do s <- retain s (Some k); do s <- retain s v; set_body s d (Tree (es ++ [(k, v)]))
            end;
    release s [k].
  (** DKDictionarySetObject, AddObject and ReplaceObject.  To add to a set, DKHashTable.c 784-793 and
      DKBinaryTree.c 1086-1095, is to put an object for itself if it is not found. *)
  Definition put (s : state) (d k : nat) (v : ref) (p : HashTable_Model.insert_policy) : outcome state :=
    do b <- body_of s d;
    match b with Hash es => hash_put s d es k v p | Tree es => tree_put s d es k v p | _ => Fatal end.
  (** DKDictionaryRemoveObject: RowDelete, DKHashTable.c 286-295, and FreeNode, DKBinaryTree.c 335-349.
      The key is compared with others and not used after that. *)
  Definition remove (s : state) (d k : nat) : outcome state :=
    do b <- body_of s d;
    do _ <- body_of s k;
    match b with
    | Hash es => match find_key es k with
                 | Some (k', v) => do s <- set_body s d (Hash (remove_key es k)); release s (k' :: somes [v])
                 | None => Ok s
                 end
    | Tree es => match find_key es k with
                 | Some (k', v) => do s <- set_body s d (Tree (remove_key es k)); release s (k' :: somes [v])
                 | None => Ok s
                 end
    | _ => Fatal
    end.
  (** DKDictionaryRemoveAllObjects: DKHashTable.c 765-768, DKBinaryTree.c 1051-1071. *)
  Definition remove_all (s : state) (d : nat) : outcome state :=
    do b <- body_of s d;
    match b with
    | Hash es => do s <- set_body s d (Hash []); release s (of_entries es)
    | Tree es => do s <- set_body s d (Tree []); release s (of_entries es)
    | _ => Fatal
    end.

  (** ** Calls *)
  Inductive op : Type :=
  | New (b : body)                      (* a new empty collection or other object; [New] of what is not empty does nothing *)
  | NewPair (a b : ref)
  | Retain (x : nat) | Release (x : nat)
  | Splice (a i n : nat) (xs : list ref) | SpliceAll (a i n c : nat)
  | Put (d k : nat) (v : ref) (p : HashTable_Model.insert_policy) | Remove (d k : nat) | RemoveAll (d : nat).
  Definition add (s : state) (b : body) : state := mkS (cells s ++ [Live 1 b]) (hands s ++ [length (cells s)]).
  Fixpoint take (x : nat) (l : list nat) : list nat := match l with [] => [] | y :: l' => if x =? y then l' else y :: take x l' end.
  Definition step (s : state) (o : op) : outcome state :=
    match o with
    | New b => match members b with [] => Ok (add s b) | _ => Ok s end
    (** DKPairInit, DKPair.c 75-86. *)
    | NewPair a b => do s <- retain s a; do s <- retain s b; Ok (add s (Pair a b))
    | Retain x => do s <- retain s (Some x); Ok (mkS (cells s) (hands s ++ [x]))
    | Release x => release (mkS (cells s) (take x (hands s))) [x]
    | Splice a i n xs => splice s a i n xs
    | SpliceAll a i n c => splice_all s a i n c
    | Put d k v p => put s d k v p
    | Remove d k => remove s d k
    | RemoveAll d => remove_all s d
    end.
  Fixpoint run (s : state) (os : list op) : outcome state :=
    match os with [] => Ok s | o :: os' => do s <- step s o; run s os' end.
End Keys.
