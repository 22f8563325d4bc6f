(** What callers of files do, and what a file is. *)
Require Import Coq.ZArith.ZArith Coq.NArith.NArith Coq.Lists.List Coq.Arith.Arith Coq.Bool.Bool.
Require Import Verif.Base Verif.File_Model.
Import ListNotations.

(** ** Holding files and streams *)
Definition is_file (w : world) (i : nat) (f : file) : Prop := nth_error (objs w) i = Some f /\ 0 < refs f.
Definition exists_ (w : world) (i : nat) : Prop := exists f, is_file w i f.
Definition is_stream (w : world) (s : nat) (x : stream) : Prop := nth_error (streams w) s = Some x.
(** The file [i] has the stream [s]. *)
Definition has (w : world) (i s : nat) : Prop := exists f, is_file w i f /\ fptr f = Some s.
Definition opened (w : world) (s : nat) : Prop := exists x, is_stream w s x /\ open x = true.
(** A stream the caller may close or make a file of: one the caller opened, has not given away, and
    that no file has. *)
Definition at_hand (w : world) (s : nat) : Prop := (exists x, is_stream w s x /\ open x = true /\ mine x = true) /\ forall i, ~ has w i s.
(** Reading does not follow writing, nor writing follow reading, without a seek between them or the
    end of the file having been met. *)
Definition may_read (w : world) (i : nat) : Prop := forall s x, has w i s -> is_stream w s x -> last x <> Wrote.
Definition may_write (w : world) (i : nat) : Prop := forall s x, has w i s -> is_stream w s x -> last x <> Did_read false.
(** What a caller that holds the references [c] may do. *)
Definition legal (w : world) (c : list nat) (o : op) : Prop :=
  match o with
  | Open _ | Fopen _ => True
  | Fclose s | Wrap s _ => at_hand w s
  | Retain i | Release i | Close i | Seek i _ _ | Tell i | Status i | Length i => In i c
  | Read i _ _ => In i c /\ may_read w i
  | Write i _ _ => In i c /\ may_write w i
  end.
Fixpoint drop (i : nat) (c : list nat) : list nat := match c with [] => [] | j :: c => if i =? j then c else j :: drop i c end.
Definition after (c : list nat) (o : op) (a : answer) : list nat :=
  match o, a with
  | Open _, New i | Wrap _ _, New i => i :: c
  | Retain i, _ => i :: c
  | Release i, _ | Close i, _ => drop i c
  | _, _ => c
  end.
Inductive reach (drain : list N -> nat) : world -> list nat -> Prop :=
| at_start : reach drain (mkW [] []) []
| by_step : forall w c o w' a, reach drain w c -> legal w c o -> step drain w o = Ok (w', a) -> reach drain w' (after c o a).

(** ** What a file is: its bytes and a position *)
Record afile := mkA { bytes : list N; cursor : nat }.
(** Writing [b] at [p]: byte number [k] afterwards. *)
Definition written (d : list N) (p : nat) (b d' : list N) : Prop :=
  (b = [] -> d' = d) /\
  (b <> [] -> length d' = Nat.max (length d) (p + length b) /\
    forall k, k < length d' -> nth_error d' k =
      if (p <=? k) && (k <? p + length b) then nth_error b (k - p)
      else if k <? length d then nth_error d k else Some 0%N).
Inductive use := USeek (off : Z) (o : origin) | UTell | UStatus | ULength | URead (size count : nat) | UWrite (size : nat) (b : list N).
Definition on (i : nat) (u : use) : op :=
  match u with
  | USeek off o => Seek i off o | UTell => Tell i | UStatus => Status i | ULength => Length i
  | URead size count => Read i size count | UWrite size b => Write i size b
  end.
(** The position that is sought, if there is one. *)
Definition target (a : afile) (off : Z) (o : origin) : option Z :=
  match o with
  | From_start => Some off | From_here => Some (Z.of_nat (cursor a) + off)%Z | From_end => Some (Z.of_nat (length (bytes a)) + off)%Z
  | From_nowhere => None
  end.
Inductive used (a : afile) : use -> afile -> answer -> Prop :=
| seek_to : forall off o t, target a off o = Some t -> (0 <= t)%Z -> used a (USeek off o) (mkA (bytes a) (Z.to_nat t)) (Num 0)
| seek_not : forall off o, (forall t, target a off o = Some t -> (t < 0)%Z) -> used a (USeek off o) a (Num (-1))
| tell_it : used a UTell a (Num (Z.of_nat (cursor a)))
| status_it : used a UStatus a (Num 0)
| length_it : used a ULength a (Num (Z.of_nat (length (bytes a))))
| read_it : forall size count b, 0 < size * count -> b = firstn (size * count) (skipn (cursor a) (bytes a)) ->
    used a (URead size count) (mkA (bytes a) (cursor a + length b)) (Bytes (length b / size) b)
| read_none : forall size count, size * count = 0 -> used a (URead size count) a (Bytes 0 [])
| write_it : forall size b d, 0 < size -> written (bytes a) (cursor a) b d -> used a (UWrite size b) (mkA d (cursor a + length b)) (Num (Z.of_nat (length b / size)))
| write_none : forall b, used a (UWrite 0 b) a (Num 0).
(** A history of uses with its answers. *)
Inductive history : afile -> list (use * answer) -> afile -> Prop :=
| no_use : forall a, history a [] a
| next_use : forall a u r a1 h a2, used a u a1 r -> history a1 h a2 -> history a ((u, r) :: h) a2.
(** Between reading and writing there is a seek, or the end was met: [k] is what was done since
    the last seek. *)
Definition met_end (size count : nat) (r : answer) : bool := match r with Bytes _ b => length b <? size * count | _ => false end.
Definition next_kind (k : last_op) (e : use * answer) : last_op :=
  match fst e with
  | USeek _ _ => match snd e with Num 0 => Sought | _ => k end
  | URead size count => if size * count =? 0 then k else Did_read (met_end size count (snd e))
  | UWrite size _ => if size =? 0 then k else Wrote
  | _ => k
  end.
Fixpoint alternates (k : last_op) (h : list (use * answer)) : Prop :=
  match h with
  | [] => True
  | e :: h =>
    match fst e, k with
    | URead _ _, Wrote | UWrite _ _, Did_read false => False
    | _, _ => True
    end /\ alternates (next_kind k e) h
  end.
(** The length is not asked for after writing, before the next seek. *)
Fixpoint settled (k : last_op) (h : list (use * answer)) : Prop :=
  match h with
  | [] => True
  | e :: h => match fst e, k with ULength, Wrote => False | _, _ => True end /\ settled (next_kind k e) h
  end.
(** A history of calls on the file [i], with what they answer. *)
Inductive calls (drain : list N -> nat) (i : nat) : world -> list (use * answer) -> world -> Prop :=
| no_call : forall w, calls drain i w [] w
| next_call : forall w u r w1 h w2, step drain w (on i u) = Ok (w1, r) -> calls drain i w1 h w2 -> calls drain i w ((u, r) :: h) w2.
