(** Model of Source/DKNodePool.c 37-150.

    Memory consists of blocks of cells, a cell being what fits a pointer; a node has
    [nodeSize] cells, at least one.  The header of a block, its list pointer and count
    (Source/DKNodePool.h 38-43), is not in memory but in the pool.  A free node holds the
    address of the next one in its first cell.  Memory of a new block is undefined. *)
Require Import Coq.Lists.List Coq.ZArith.ZArith Coq.Arith.Arith.
Require Import Verif.Base.
Import ListNotations.

(** A node's address: the block and the cell. *)
Definition addr : Type := (nat * nat)%type.
Inductive cell : Type := Undef | Data (z : Z) | Ptr (a : addr).
(** Blocks; [None] is one that was freed. *)
Definition heap : Type := list (option (list cell)).
Record pool : Type := mkN { mem : heap; freeList : option addr; blockList : list nat; nodeSize : nat; nodeCount : nat }.

Definition load (h : heap) (a : addr) : outcome cell :=
  match nth_error h (fst a) with
  | Some (Some cs) => match nth_error cs (snd a) with Some c => Ok c | None => UB end
  | _ => UB
  end.
Definition store (h : heap) (a : addr) (c : cell) : outcome heap :=
  match nth_error h (fst a) with
  | Some (Some cs) => if snd a <? length cs then Ok (upd h (fst a) (Some (upd cs (snd a) c))) else UB
  | _ => UB
  end.
Definition to_cell (p : option addr) : cell := match p with Some a => Ptr a | None => Data 0 end.
Definition to_ptr (c : cell) : outcome (option addr) := match c with Ptr a => Ok (Some a) | Data 0 => Ok None | _ => UB end.
Definition plus (a : addr) (o : nat) : addr := (fst a, snd a + o).

(** DKNodePoolFree 136-141. *)
Definition free (p : pool) (a : addr) : outcome pool :=
  do h <- store (mem p) a (to_cell (freeList p)); Ok (mkN h (Some a) (blockList p) (nodeSize p) (nodeCount p)).
(** The loop of DKNodePoolAllocBlock 50-54. *)
Fixpoint free_all (p : pool) (b : nat) (i n : nat) : outcome pool :=
  match n with
  | O => Ok p
  | S n' => do p' <- free p (b, nodeSize p * i); free_all p' b (S i) n'
  end.
(** DKNodePoolAllocBlock 37-57: the pool, the block and its number of nodes. *)
Definition alloc_block (p : pool) (count : nat) : outcome (pool * nat * nat) :=
  let count := if count <? 32 then 32 else count in
  let b := length (mem p) in
  do p' <- free_all (mkN (mem p ++ [Some (repeat Undef (nodeSize p * count))]) (freeList p) (blockList p) (nodeSize p) (nodeCount p)) b 0 count;
  Ok (p', b, count).
(** DKNodePoolAddBlock 63-79. *)
Definition add_block (p : pool) (count : nat) : outcome pool :=
  match blockList p with
  | [] => do r <- alloc_block p count; let '(p', b, n) := r in Ok (mkN (mem p') (freeList p') [b] (nodeSize p') n)
  | bs => do r <- alloc_block p (nodeCount p); let '(p', b, n) := r in Ok (mkN (mem p') (freeList p') (b :: blockList p') (nodeSize p') (nodeCount p' + n))
  end.
(** DKNodePoolInit 85-94. *)
Definition init (size count : nat) : outcome pool :=
  let p := mkN [] None [] size 0 in if 0 <? count then add_block p count else Ok p.
(** memset 127. *)
Fixpoint zero (h : heap) (a : addr) (n : nat) : outcome heap :=
  match n with
  | O => Ok h
  | S n' => do h' <- store h a (Data 0); zero h' (plus a 1) n'
  end.
(** DKNodePoolAlloc 119-130. *)
Definition alloc (p : pool) : outcome (pool * addr) :=
  do p <- (match freeList p with None => add_block p 0 | Some _ => Ok p end);
  match freeList p with
  | None => UB
  | Some a =>
    do c <- load (mem p) a; do next <- to_ptr c;
    do h <- zero (mem p) a (nodeSize p);
    Ok (mkN h next (blockList p) (nodeSize p) (nodeCount p), a)
  end.
(** DKNodePoolFinalize 100-113: every block is freed. *)
Fixpoint free_blocks (h : heap) (bs : list nat) : outcome heap :=
  match bs with
  | [] => Ok h
  | b :: bs' => match nth_error h b with Some (Some _) => free_blocks (upd h b None) bs' | _ => UB end
  end.
Definition finalize (p : pool) : outcome pool :=
  do h <- free_blocks (mem p) (blockList p); Ok (mkN h None [] (nodeSize p) (nodeCount p)).

(** What a program does with the nodes it has, which are numbered in the order in which
    it keeps them. *)
Inductive op : Type := Alloc | Free (k : nat) | Write (k o : nat) (c : cell) | Read (k o : nat).
Definition remove_nth {A} (k : nat) (l : list A) : list A := firstn k l ++ skipn (S k) l.
(** The nodes the program has, and what it has read. *)
Record prog : Type := mkProg { the_pool : pool; nodes : list addr; seen : list cell }.
Definition exec (s : prog) (o : op) : outcome prog :=
  match o with
  | Alloc => do r <- alloc (the_pool s); Ok (mkProg (fst r) (nodes s ++ [snd r]) (seen s))
  | Free k =>
    match nth_error (nodes s) k with
    | Some a => do p <- free (the_pool s) a; Ok (mkProg p (remove_nth k (nodes s)) (seen s))
    | None => UB
    end
  | Write k o c =>
    match nth_error (nodes s) k with
    | Some a =>
      let p := the_pool s in
      do h <- store (mem p) (plus a o) c; Ok (mkProg (mkN h (freeList p) (blockList p) (nodeSize p) (nodeCount p)) (nodes s) (seen s))
    | None => UB
    end
  | Read k o =>
    match nth_error (nodes s) k with
    | Some a => do c <- load (mem (the_pool s)) (plus a o); Ok (mkProg (the_pool s) (nodes s) (seen s ++ [c]))
    | None => UB
    end
  end.
Fixpoint execs (s : prog) (os : list op) : outcome prog :=
  match os with [] => Ok s | o :: os' => do s' <- exec s o; execs s' os' end.
Definition start (size count : nat) : outcome prog := do p <- init size count; Ok (mkProg p [] []).
