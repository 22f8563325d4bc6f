(** Bit lists as lists of booleans. *)
Require Import Coq.Lists.List Coq.ZArith.ZArith Coq.Arith.Arith Coq.Bool.Bool.
Require Import Verif.Base Verif.BitList_Model.
Import ListNotations.

Definition mbool (o : mop) (x y : bool) : bool :=
  match o with
  | AND => x && y | NAND => negb (x && y)
  | OR => x || y | NOR => negb (x || y)
  | XOR => xorb x y | NXOR => negb (xorb x y)
  end.
Definition zip {A B C} (f : A -> B -> C) (x : list A) (y : list B) : list C := map (fun p => f (fst p) (snd p)) (combine x y).
(** What the operations mean.  [None]: the caller breaks the rules.  Bits are only used
    within the length, and lists that are merged have the same length. *)
Definition on (st : list (list bool)) (k : nat) (f : list bool -> option (list bool * option bool)) : option (list (list bool) * option bool) :=
  match nth_error st k with
  | Some l => match f l with Some (l', t) => Some (upd st k l', t) | None => None end
  | None => None
  end.
Definition at_bit (i : nat) (f : bool -> bool) (l : list bool) : option (list bool) :=
  match nth_error l i with Some t => Some (upd l i (f t)) | None => None end.
Definition quietly (r : option (list bool)) : option (list bool * option bool) := match r with Some l => Some (l, None) | None => None end.
Definition answering (i : nat) (f : bool -> bool) (l : list bool) : option (list bool * option bool) :=
  match nth_error l i, at_bit i f l with Some t, Some l' => Some (l', Some t) | _, _ => None end.
Definition means (st : list (list bool)) (o : op) : option (list (list bool) * option bool) :=
  match o with
  | New len v => Some (st ++ [repeat v (Z.to_nat len)], None)
  | SetAll k => on st k (fun l => Some (map (fun _ => true) l, None))
  | ClearAll k => on st k (fun l => Some (map (fun _ => false) l, None))
  | FlipAll k => on st k (fun l => Some (map negb l, None))
  | SetBit k i => on st k (fun l => quietly (at_bit i (fun _ => true) l))
  | ClearBit k i => on st k (fun l => quietly (at_bit i (fun _ => false) l))
  | FlipBit k i => on st k (fun l => quietly (at_bit i negb l))
  | TestBit k i => on st k (answering i (fun t => t))
  | TestAndSet k i => on st k (answering i (fun _ => true))
  | TestAndClear k i => on st k (answering i (fun _ => false))
  | TestAndFlip k i => on st k (answering i negb)
  | Merge o a b r =>
    match nth_error st a, nth_error st b, nth_error st r with
    | Some la, Some lb, Some lr =>
      if (length la =? length lr) && (length lb =? length lr) then Some (upd st r (zip (mbool o) la lb), None) else None
    | _, _, _ => None
    end
  end.
Fixpoint meaning (st : list (list bool)) (os : list op) : option (list (list bool) * list bool) :=
  match os with
  | [] => Some (st, [])
  | o :: os' =>
    match means st o with
    | Some (st1, t) =>
      match meaning st1 os' with
      | Some (st2, ts) => Some (st2, match t with Some t => t :: ts | None => ts end)
      | None => None
      end
    | None => None
    end
  end.
(** The bits of a list, as testing them one by one shows. *)
Definition shows (b : bitlist) (l : list bool) : Prop :=
  get_length b = length l /\ forall i, i < length l -> exists t, nth_error l i = Some t /\ test_bit b i = Ok t.
(** The position of the first [v]. *)
Definition first_of (v : bool) (l : list bool) (i : nat) : Prop := nth_error l i = Some v /\ forall j, j < i -> nth_error l j = Some (negb v).
Definition count_of (v : bool) (l : list bool) : nat := count_occ bool_dec l v.
(** Histories that write single bits only. *)
Definition bitwise (o : op) : Prop := match o with SetAll _ | ClearAll _ | FlipAll _ | Merge _ _ _ _ => False | _ => True end.
