(** Formats as sequences of pieces, and what they print. *)
Require Import Coq.ZArith.ZArith Coq.NArith.NArith Coq.QArith.QArith Coq.Lists.List.
Require Import Verif.Utf8_Spec Verif.Strtonum_Spec Verif.Stream_Model.
Import ListNotations.
Local Open Scope N_scope.

(** A piece of a format: characters that stand for themselves, %%, %s, %@, %c, %n, and a
    conversion of a number, or of a padded string, with flags, width, precision and length
    modifier. *)
Inductive piece : Type :=
| Literal (s : list N) | Percent | Str | Object | Char | Counter
| Integer (flags : list N) (conv : N) | Float (flags : list N) (conv : N) | Padded (flags : list N).

Definition render1 (p : piece) : list N :=
  match p with
  | Literal s => s
  | Percent => [37; 37]
  | Str => [37; 115]
  | Object => [37; 64]
  | Char => [37; 99]
  | Counter => [37; 110]
  | Integer flags c | Float flags c => 37 :: flags ++ [c]
  | Padded flags => 37 :: flags ++ [115]
  end.
(** The format string. *)
Definition render (ps : list piece) : list N := concat (map render1 ps).

(** Flags, width, precision and length modifier: none of the characters that end a
    conversion, no NUL, no star, and at most 5 of them. *)
Definition flags_ok (flags : list N) : Prop :=
  (length flags <= 5)%nat /\ Forall (fun b => 0 < b < 256 /\ ~ In b conversions /\ b <> 42) flags.
(** The length modifiers of 64-bit integers: l, ll, j, z and t. *)
Definition is_long (flags : list N) : Prop := exists f m, flags = f ++ [m] /\ In m [108; 106; 122; 116].
Definition ends_with (flags : list N) (m : N) : Prop := exists f, flags = f ++ [m].
Definition integer_conv (c : N) : Prop := In c [100; 105; 111; 117; 120; 88].
Definition float_conv (c : N) : Prop := In c [102; 70; 101; 69; 97; 65; 103; 71].

(** [t'] is [t] without the zeros that end its fraction, of which one digit is kept. *)
Definition trimmed (t t' : list N) : Prop :=
  (~ In 46 t /\ t' = t) \/
  exists i f k, ~ In 46 i /\ t = i ++ 46 :: f ++ repeat 48 k /\ t' = i ++ 46 :: f /\
    (length f = 1%nat \/ (k = 0%nat /\ f = []) \/ exists f' d, f = f' ++ [d] /\ d <> 48).

Section Print.
Variable cprintf : list N -> arg -> list N.

(** The text that a piece prints for its arguments, and the counter it stores, when [n] bytes
    were printed before it. *)
Inductive prints1 (n : N) : piece -> list arg -> list N -> list N -> Prop :=
| pr_literal : forall s, Forall (fun b => 0 < b < 256 /\ b <> 37) s -> prints1 n (Literal s) [] s []
| pr_percent : prints1 n Percent [] [37] []
| pr_str : forall s, ~ In 0 s -> prints1 n Str [AStr (Some s)] s []
| pr_null : prints1 n Str [AStr None] null_text []
| pr_object : forall d, prints1 n Object [AObj d] d []
| pr_char : forall z, (0 <= z < 256)%Z -> prints1 n Char [AInt z] [Z.to_N z] []
| pr_counter : prints1 n Counter [ACounter] [] [n mod 2^32]
| pr_int : forall flags c z, flags_ok flags -> integer_conv c -> ~ is_long flags ->
    (length (cprintf (37%N :: flags ++ [c]) (AInt z)) < 120)%nat ->
    prints1 n (Integer flags c) [AInt z] (cprintf (37%N :: flags ++ [c]) (AInt z)) []
| pr_long : forall flags c z, flags_ok flags -> integer_conv c -> is_long flags ->
    (length (cprintf (37%N :: flags ++ [c]) (ALong z)) < 120)%nat ->
    prints1 n (Integer flags c) [ALong z] (cprintf (37%N :: flags ++ [c]) (ALong z)) []
| pr_double : forall flags c d t, flags_ok flags -> float_conv c -> ~ ends_with flags 76 ->
    (length (cprintf (37%N :: flags ++ [c]) (ADouble d)) < 120)%nat ->
    (if (list_eq_dec N.eq_dec (flags ++ [c]) [102]) then trimmed (cprintf (37%N :: flags ++ [c]) (ADouble d)) t
     else if (list_eq_dec N.eq_dec (flags ++ [c]) [108; 102]) then trimmed (cprintf (37%N :: flags ++ [c]) (ADouble d)) t
     else t = cprintf (37%N :: flags ++ [c]) (ADouble d)) ->
    prints1 n (Float flags c) [ADouble d] t []
| pr_long_double : forall flags c d, flags_ok flags -> float_conv c -> ends_with flags 76 ->
    (length (cprintf (37%N :: flags ++ [c]) (ALongDouble d)) < 120)%nat ->
    prints1 n (Float flags c) [ALongDouble d] (cprintf (37%N :: flags ++ [c]) (ALongDouble d)) []
| pr_padded : forall flags s, flags_ok flags -> flags <> [] -> ~ ends_with flags 108 ->
    ~ In 0 (cprintf (37%N :: flags ++ [115]) (AStr (Some s))) ->
    prints1 n (Padded flags) [AStr (Some s)] (cprintf (37%N :: flags ++ [115]) (AStr (Some s))) [].

(** The text that a format prints for its arguments. *)
Inductive prints : N -> list piece -> list arg -> list N -> list N -> Prop :=
| prs_end : forall n args, prints n [] args [] []
| prs_piece : forall n p ps a args t ts c cs, prints1 n p a t c ->
    prints (n + N.of_nat (length t)) ps args ts cs -> prints n (p :: ps) (a ++ args) (t ++ ts) (c ++ cs).
End Print.

(** The number that digits with a decimal point denote. *)
Definition number (i f : list N) : Q := (value (i ++ f) # 1) / ((10 ^ Z.of_nat (length f)) # 1).

(** A line of text and the stream that holds lines. *)
Definition line_ok (l : list N) : Prop := ~ In 0 l /\ ~ In 10 l.
Definition line_stream (ls : list (list N)) : list N := concat (map (fun l => l ++ [10]) ls).
(** Reading [n] lines. *)
Fixpoint read_lines (n : nat) (s : list N) : list (list N) * list N :=
  match n with
  | O => ([], s)
  | S n' => let '(l, r) := gets s in let '(ls, r') := read_lines n' r in (l :: ls, r')
  end.
