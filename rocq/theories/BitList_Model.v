(** Model of Source/DKBitList.c 118-551.

    The words of a bit list are natural numbers below 2^32.  [1 << 31], which shifts into
    the sign of an int, is taken as 2^31, as the compilers do.  The size computation is
    not limited to 64 bits.  An access outside of the words is undefined. *)
Require Import Coq.Lists.List Coq.NArith.NArith Coq.ZArith.ZArith Coq.Arith.Arith Coq.Bool.Bool.
Require Import Verif.Base.
Import ListNotations.

Notation word := N (only parsing).
Definition ones : word := N.ones 32.
Record bitlist : Type := mkB { numBits : nat; words : list word }.
Definition numInts (b : bitlist) : nat := length (words b).

(** ROUND_POW2 35, with BITS_PER_INT 41. *)
Definition round_pow2 (n : nat) : nat := (n + 31) / 32 * 32.
(** DKBitListInit 118-154, with DKBitListSetAllBits 169 or DKBitListClearAllBits 178.  The
    number of words is the number of bits, rounded up. *)
Definition new (len : Z) (v : bool) : bitlist :=
  if (len <=? 0)%Z then mkB 0 (repeat (if v then ones else 0%N) 1)
  else let bits := Z.to_nat len in mkB bits (repeat (if v then ones else 0%N) (round_pow2 bits)).
(** 160-163. *)
Definition get_length (b : bitlist) : nat := numBits b.
(** 169-196. *)
Definition set_all (b : bitlist) : bitlist := mkB (numBits b) (repeat ones (numInts b)).
Definition clear_all (b : bitlist) : bitlist := mkB (numBits b) (repeat 0%N (numInts b)).
Definition wnot (w : word) : word := N.lxor w ones.
Definition flip_all (b : bitlist) : bitlist := mkB (numBits b) (map wnot (words b)).

(** BIT_INDEX and BIT_OFFSET 42-43; changing one word. *)
Definition on_word (b : bitlist) (i : nat) (f : word -> word -> word) : outcome bitlist :=
  match nth_error (words b) (i / 32) with
  | Some w => Ok (mkB (numBits b) (upd (words b) (i / 32) (f w (N.shiftl 1 (N.of_nat (i mod 32))))))
  | None => UB
  end.
(** DKBitListSetBit 202, DKBitListClearBit 215, DKBitListFlipBit 228. *)
Definition set_bit (b : bitlist) (i : nat) : outcome bitlist := on_word b i N.lor.
Definition clear_bit (b : bitlist) (i : nat) : outcome bitlist := on_word b i (fun w m => N.land w (wnot m)).
Definition flip_bit (b : bitlist) (i : nat) : outcome bitlist := on_word b i N.lxor.
(** DKBitListTestBit 241-250. *)
Definition test_bit (b : bitlist) (i : nat) : outcome bool :=
  match nth_error (words b) (i / 32) with
  | Some w => Ok (negb (N.shiftr (N.land w (N.shiftl 1 (N.of_nat (i mod 32)))) (N.of_nat (i mod 32)) =? 0)%N)
  | None => UB
  end.
(** 256-298. *)
Definition test_and (f : bitlist -> nat -> outcome bitlist) (b : bitlist) (i : nat) : outcome (bitlist * bool) :=
  do t <- test_bit b i; do b' <- f b i; Ok (b', t).

(** The inner loop of 304-343 and 349-388: the first of the lowest [n] bits that is [v]. *)
Fixpoint first_in (w : word) (v : bool) (j n : nat) : option nat :=
  match n with
  | O => None
  | S n' => if Bool.eqb (negb (N.land w (N.shiftl 1 (N.of_nat j)) =? 0)%N) v then Some j else first_in w v (S j) n'
  end.
(** The words that are passed over without looking at the bits. *)
Definition skipped (v : bool) (w : word) : bool := if v then (w =? 0)%N else (w =? ones)%N.
Fixpoint first_loop (ws : list word) (v : bool) (nbits i : nat) : option nat :=
  match ws with
  | [] => None
  | [w] => if skipped v w then None else match first_in w v 0 (nbits mod 32) with Some j => Some (i * 32 + j) | None => None end
  | w :: ws' =>
    match (if skipped v w then None else first_in w v 0 32) with
    | Some j => Some (i * 32 + j)
    | None => first_loop ws' v nbits (S i)
    end
  end.
(** DKBitListGetFirstSetBit 304-343 ([v] is true) and DKBitListGetFirstClearBit 349-388. *)
Definition get_first (b : bitlist) (v : bool) : option nat := first_loop (words b) v (numBits b) 0.

(** 394-429 ([v] is true) and 435-470: the sum over the lowest [n] bits. *)
Fixpoint count_in (w : word) (v : bool) (j n : nat) : nat :=
  match n with
  | O => 0
  | S n' => (if v then N.to_nat (N.land (N.shiftr w (N.of_nat j)) 1) else N.to_nat (N.land (wnot (N.shiftr w (N.of_nat j))) 1)) + count_in w v (S j) n'
  end.
Fixpoint count_loop (ws : list word) (v : bool) (nbits : nat) : nat :=
  match ws with
  | [] => 0
  | [w] => if skipped v w then 0 else count_in w v 0 (nbits mod 32)
  | w :: ws' => (if skipped v w then 0 else count_in w v 0 32) + count_loop ws' v nbits
  end.
Definition count (b : bitlist) (v : bool) : nat := count_loop (words b) v (numBits b).

(** The loops of 476-551: [n] words of [r] are written, [n] being the smaller length of [a]
    and [b]; the length of [r] is not considered.  Word by word, so that [r] may be one of
    the others. *)
Inductive mop : Type := AND | NAND | OR | NOR | XOR | NXOR.
Definition mword (o : mop) (x y : word) : word :=
  match o with
  | AND => N.land x y | NAND => wnot (N.land x y)
  | OR => N.lor x y | NOR => wnot (N.lor x y)
  | XOR => N.lxor x y | NXOR => wnot (N.lxor x y)
  end.
(** [store]: the bit lists of a program.  The words of [a] and [b] are read when needed. *)
Fixpoint merge_loop (o : mop) (st : list bitlist) (a b r : nat) (i n : nat) : outcome (list bitlist) :=
  match n with
  | O => Ok st
  | S n' =>
    match nth_error st a, nth_error st b, nth_error st r with
    | Some la, Some lb, Some lr =>
      match nth_error (words la) i, nth_error (words lb) i, nth_error (words lr) i with
      | Some x, Some y, Some _ => merge_loop o (upd st r (mkB (numBits lr) (upd (words lr) i (mword o x y)))) a b r (S i) n'
      | _, _, _ => UB
      end
    | _, _, _ => UB
    end
  end.
Definition merge (o : mop) (st : list bitlist) (a b r : nat) : outcome (list bitlist) :=
  match nth_error st a, nth_error st b with
  | Some la, Some lb => merge_loop o st a b r 0 (Nat.min (Nat.min (numInts la) (numInts lb)) (numInts lb))
  | _, _ => UB
  end.

(** Programs that use bit lists. *)
Inductive op : Type :=
| New (len : Z) (v : bool)
| SetAll (k : nat) | ClearAll (k : nat) | FlipAll (k : nat)
| SetBit (k i : nat) | ClearBit (k i : nat) | FlipBit (k i : nat)
| TestBit (k i : nat) | TestAndSet (k i : nat) | TestAndClear (k i : nat) | TestAndFlip (k i : nat)
| Merge (o : mop) (a b r : nat).
Definition on_list (st : list bitlist) (k : nat) (f : bitlist -> outcome (bitlist * option bool)) : outcome (list bitlist * option bool) :=
  match nth_error st k with
  | Some b => do r <- f b; Ok (upd st k (fst r), snd r)
  | None => UB
  end.
Definition quiet (r : outcome bitlist) : outcome (bitlist * option bool) := do b <- r; Ok (b, None).
Definition answer (r : outcome (bitlist * bool)) : outcome (bitlist * option bool) := do p <- r; Ok (fst p, Some (snd p)).
Definition exec (st : list bitlist) (o : op) : outcome (list bitlist * option bool) :=
  match o with
  | New len v => Ok (st ++ [new len v], None)
  | SetAll k => on_list st k (fun b => Ok (set_all b, None))
  | ClearAll k => on_list st k (fun b => Ok (clear_all b, None))
  | FlipAll k => on_list st k (fun b => Ok (flip_all b, None))
  | SetBit k i => on_list st k (fun b => quiet (set_bit b i))
  | ClearBit k i => on_list st k (fun b => quiet (clear_bit b i))
  | FlipBit k i => on_list st k (fun b => quiet (flip_bit b i))
  | TestBit k i => on_list st k (fun b => do t <- test_bit b i; Ok (b, Some t))
  | TestAndSet k i => on_list st k (fun b => answer (test_and set_bit b i))
  | TestAndClear k i => on_list st k (fun b => answer (test_and clear_bit b i))
  | TestAndFlip k i => on_list st k (fun b => answer (test_and flip_bit b i))
  | Merge o a b r => do st' <- merge o st a b r; Ok (st', None)
  end.
Fixpoint execs (st : list bitlist) (os : list op) : outcome (list bitlist * list bool) :=
  match os with
  | [] => Ok (st, [])
  | o :: os' =>
    do r <- exec st o; do r' <- execs (fst r) os';
    Ok (fst r', match snd r with Some t => t :: snd r' | None => snd r' end)
  end.
