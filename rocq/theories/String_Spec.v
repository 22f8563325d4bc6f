(** Specifications for strings as sequences of characters. *)
Require Import Coq.ZArith.ZArith Coq.NArith.NArith Coq.Lists.List Coq.Bool.Bool.
Require Import Verif.Utf8_Spec.
Import ListNotations.
Local Open Scope N_scope.

(** A text is a sequence of characters other than NUL; an ASCII text is its own
    encoding. *)
Definition text (cs : list N) : Prop := Forall char_ok cs.
Definition ascii (cs : list N) : Prop := Forall (fun c => 0 < c < 128) cs.

(** [pat] occurs first at [i], looking from [start] on. *)
Definition first_from (pat cs : list N) (start i : nat) : Prop :=
  (start <= i)%nat /\ occurs_at pat cs i /\ forall j, (start <= j < i)%nat -> ~ occurs_at pat cs j.
Definition absent (pat cs : list N) : Prop := forall i, ~ occurs_at pat cs i.

(** [out] is [cs] with the leftmost non-overlapping occurrences of [pat]
    replaced by [rep]. *)
Inductive replaced (pat rep : list N) : list N -> list N -> Prop :=
| rep_none : forall cs, absent pat cs -> replaced pat rep cs cs
| rep_first : forall pre post out, first_from pat (pre ++ pat ++ post) 0 (length pre) ->
    replaced pat rep post out -> replaced pat rep (pre ++ pat ++ post) (pre ++ rep ++ out).

(** Joining components with a separator. *)
Fixpoint join (sep : list N) (l : list (list N)) : list N :=
  match l with
  | [] => []
  | [x] => x
  | x :: l' => x ++ sep ++ join sep l'
  end.
(** A component that can be told from the separator following it. *)
Definition separable (sep c : list N) : Prop := c <> [] /\ forall i, occurs_at sep (c ++ sep) i -> i = length c.

(** [mid] is what remains of [cs] without outer white space. *)
Definition trimmed (space : N -> bool) (cs mid : list N) : Prop :=
  exists pre post, cs = pre ++ mid ++ post /\
    Forall (fun c => space c = true) pre /\ Forall (fun c => space c = true) post /\
    (forall c l, mid = c :: l -> space c = false) /\ (forall c l, mid = l ++ [c] -> space c = false).

(** Paths: components separated by one or more '/'. *)
Definition slash : N := 47.
Definition component (c : list N) : Prop := c <> [] /\ ~ In slash c.
(** [path s abs comps]: the path [s] is absolute or not and has these components. *)
Inductive path_of : list N -> bool -> list (list N) -> Prop :=
| path_nil : path_of [] false []
| path_abs : forall s comps, rest_of s comps -> path_of (slash :: s) true comps
| path_rel : forall c s comps, component c -> rest_of s comps -> (s = [] \/ exists t, s = slash :: t) -> path_of (c ++ s) false (c :: comps)
with rest_of : list N -> list (list N) -> Prop :=
| rest_nil : rest_of [] []
| rest_slash : forall s comps, rest_of s comps -> rest_of (slash :: s) comps
| rest_comp : forall c s comps, component c -> rest_of s comps -> (s = [] \/ exists t, s = slash :: t) -> rest_of (c ++ s) (c :: comps).
(** The standard form of a path. *)
Definition render (abs : bool) (comps : list (list N)) : list N :=
  (if abs then [slash] else []) ++ join [slash] comps.

(** The words of a text: its maximal runs of characters other than white space. *)
Definition blank (c : N) : bool := ((9 <=? c) && (c <=? 13)) || (c =? 32).
Fixpoint words_from (cur cs : list N) : list (list N) :=
  match cs with
  | [] => match cur with [] => [] | _ => [cur] end
  | c :: cs' => if blank c then match cur with [] => words_from [] cs' | _ => cur :: words_from [] cs' end
                else words_from (cur ++ [c]) cs'
  end.
Definition words (cs : list N) : list (list N) := words_from [] cs.

(** Filtering: the callback sees every character, in order, with its position
    and the position it would get, until it stops. *)
Fixpoint filtered {St} (f : St -> nat -> nat -> N -> St * (bool * bool)) (st : St) (i j : nat) (cs : list N) : St * list N :=
  match cs with
  | [] => (st, [])
  | c :: cs' =>
    let '(st', (keep, stop)) := f st i j c in
    let '(st'', out) := if stop then (st', []) else filtered f st' (S i) (if keep then S j else j) cs' in
    (st'', if keep then c :: out else out)
  end.
