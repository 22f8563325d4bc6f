(** Model of the in-place algorithms of Source/DKGenericArray.c: sorting,
    reversing and shuffling an array of object references.

    The array is the list of its [length] elements; any access outside it is
    [UB] (stricter than the C bound, which is the allocation).  A comparison
    function is an arbitrary total function to [Z]; a positive result means
    the first argument comes first. *)
Require Import Coq.ZArith.ZArith Coq.Lists.List Coq.Bool.Bool Coq.Arith.Arith.
Require Import Verif.Base.
Import ListNotations.
Local Open Scope Z_scope.

Section Sort.
  Variable A : Type.
  Variable cmp : A -> A -> Z.

  Definition get (l : list A) (i : Z) : outcome A :=
    if 0 <=? i then match nth_error l (Z.to_nat i) with Some x => Ok x | None => UB end else UB.

  Definition set (l : list A) (i : Z) (x : A) : outcome (list A) :=
    if (0 <=? i) && (i <? Z.of_nat (length l)) then Ok (upd l (Z.to_nat i) x) else UB.

  (** swap = a[i]; a[i] = a[j]; a[j] = swap *)
  Definition swap (l : list A) (i j : Z) : outcome (list A) :=
    do x <- get l i;
    do y <- get l j;
    do l1 <- set l i y;
    set l1 j x.

  (** The inner while loop of InsertionSort, DKGenericArray.c 275-279; [base]
      is the start of the slice and [j] the offset into it.  The last
      assignment array[j+1] = x (281) is included. *)
  Fixpoint insertion_shift (fuel : nat) (l : list A) (base j : Z) (x : A) : outcome (list A) :=
    match fuel with
    | O => NoFuel
    | S fuel' =>
      if 0 <=? j then
        do y <- get l (base + j);
        if cmp y x <? 0 then
          do l' <- set l (base + j + 1) y;
          insertion_shift fuel' l' base (j - 1) x
        else set l (base + j + 1) x
      else set l (base + j + 1) x
    end.

  (** The outer loop of InsertionSort, DKGenericArray.c 268-283, with [n]
      iterations left. *)
  Fixpoint insertion_loop (n : nat) (l : list A) (base i : Z) : outcome (list A) :=
    match n with
    | O => Ok l
    | S n' =>
      do x <- get l (base + i);
      do l' <- insertion_shift (S (Z.to_nat i)) l base (i - 1) x;
      insertion_loop n' l' base (i + 1)
    end.

  Definition insertion_sort (l : list A) (base count : Z) : outcome (list A) :=
    insertion_loop (Z.to_nat (count - 1)) l base 1.

  (** QuickSortPivot, DKGenericArray.c 285-312. *)
  Definition quick_sort_pivot (l : list A) (lo hi : Z) : outcome (list A * A) :=
    let mid := lo + (hi - lo) / 2 in
    do amid <- get l mid; do alo <- get l lo;
    do l1 <- (if cmp amid alo <? 0 then swap l lo mid else Ok l);
    do ahi <- get l1 hi; do alo <- get l1 lo;
    do l2 <- (if cmp ahi alo <? 0 then swap l1 lo hi else Ok l1);
    do amid <- get l2 mid; do ahi <- get l2 hi;
    do l3 <- (if cmp amid ahi <? 0 then swap l2 mid hi else Ok l2);
    do p <- get l3 hi;
    Ok (l3, p).

  (** while( cmp( array[++i], pivot ) > 0 ) ; *)
  Fixpoint scan_up (fuel : nat) (l : list A) (i : Z) (pivot : A) : outcome Z :=
    match fuel with
    | O => NoFuel
    | S fuel' =>
      do x <- get l (i + 1);
      if 0 <? cmp x pivot then scan_up fuel' l (i + 1) pivot else Ok (i + 1)
    end.

  (** while( cmp( array[--j], pivot ) < 0 ) ; *)
  Fixpoint scan_down (fuel : nat) (l : list A) (j : Z) (pivot : A) : outcome Z :=
    match fuel with
    | O => NoFuel
    | S fuel' =>
      do x <- get l (j - 1);
      if cmp x pivot <? 0 then scan_down fuel' l (j - 1) pivot else Ok (j - 1)
    end.

  (** The while( true ) loop of QuickSortPartition, DKGenericArray.c 321-335. *)
  Fixpoint partition_loop (fuel : nat) (l : list A) (i j : Z) (pivot : A) : outcome (list A * Z) :=
    match fuel with
    | O => NoFuel
    | S fuel' =>
      do i' <- scan_up (S (length l)) l i pivot;
      do j' <- scan_down (S (length l)) l j pivot;
      if j' <=? i' then Ok (l, j')
      else
        do l' <- swap l i' j';
        partition_loop fuel' l' i' j' pivot
    end.

  (** QuickSortPartition, DKGenericArray.c 314-336. *)
  Definition quick_sort_partition (l : list A) (lo hi : Z) : outcome (list A * Z) :=
    do lp <- quick_sort_pivot l lo hi;
    partition_loop (S (length l)) (fst lp) (lo - 1) (hi + 1) (snd lp).

  (** QuickSort, DKGenericArray.c 338-353; the fuel bounds the recursion depth. *)
  Fixpoint quick_sort (fuel : nat) (l : list A) (lo hi : Z) : outcome (list A) :=
    match fuel with
    | O => NoFuel
    | S fuel' =>
      if hi - lo <? 10 then insertion_sort l lo (hi - lo + 1)
      else if lo <? hi then
        do lp <- quick_sort_partition l lo hi;
        do l1 <- quick_sort fuel' (fst lp) lo (snd lp);
        quick_sort fuel' l1 (snd lp + 1) hi
      else Ok l
    end.

  (** DKGenericArraySortObjects, DKGenericArray.c 357-361. *)
  Definition sort_objects (l : list A) : outcome (list A) :=
    quick_sort (S (length l)) l 0 (Z.of_nat (length l) - 1).

  (** Reverse64 (and Reverse16/32/Reverse), DKGenericArray.c 367-456: [n]
      iterations left, at index [i]. *)
  Fixpoint reverse_loop (n : nat) (l : list A) (i : Z) : outcome (list A) :=
    match n with
    | O => Ok l
    | S n' =>
      do l' <- swap l i (Z.of_nat (length l) - 1 - i);
      reverse_loop n' l' (i + 1)
    end.

  Definition reverse (l : list A) : outcome (list A) :=
    reverse_loop (Nat.div2 (length l)) l 0.

  (** Shuffle64 (and Shuffle16/32/Shuffle), DKGenericArray.c 462-542.  [rand k]
      is the result of the k-th call of rand(), a non-negative int. *)
  Fixpoint shuffle_loop (n : nat) (l : list A) (i len1 : Z) (rand : nat -> N) (k : nat) : outcome (list A) :=
    match n with
    | O => Ok l
    | S n' =>
      let j := Z.of_N (rand k) mod len1 in
      do l' <- swap l i j;
      shuffle_loop n' l' (i + 1) len1 rand (S k)
    end.

  Definition shuffle_once (l : list A) (rand : nat -> N) (k : nat) : outcome (list A) :=
    let n := Z.of_nat (length l) - 1 in
    shuffle_loop (Z.to_nat n) l 0 n rand k.

  (** DKGenericArrayShuffle for 8-byte elements, DKGenericArray.c 544-563: case 8
      has no break and falls through to the generic Shuffle. *)
  Definition shuffle (l : list A) (rand : nat -> N) : outcome (list A) :=
    do l1 <- shuffle_once l rand 0;
    shuffle_once l1 rand (length l - 1).
End Sort.
