(** Where messages go, how they look and what they stop, from the history of calls alone. *)
Require Import Coq.Strings.String Coq.NArith.NArith Coq.Lists.List Coq.Bool.Bool Coq.Arith.Arith.
Require Import Verif.Base Verif.Report_Model.
Require Verif.Describe_Model.
Import ListNotations.

Definition same_kind (a b : kind) : bool :=
  match a, b with KPrint, KPrint | KLog, KLog | KWarning, KWarning | KError, KError | KFatal, KFatal => true | _, _ => false end.
(** The last value that [f] finds in the calls, or [d]. *)
Definition latest {A} (f : call -> option A) (cs : list call) (d : A) : A :=
  fold_left (fun x c => match f c with Some y => y | None => x end) cs d.
Definition asked (k : kind) (cs : list call) : option nat :=
  latest (fun c => match c with SetCallback k' c => if same_kind k k' then Some c else None | _ => None end) cs None.
Definition file_of (k : kind) : place := match k with KError | KFatal => Stderr | _ => Stdout end.
Definition usual (k : kind) : option text * option text :=
  match k with
  | KPrint => (Some [], Some [])
  | KLog => (Some [], Some newline)
  | KWarning => (Some (Describe_Model.ascii "WARNING: "%string), Some newline)
  | KError => (Some (Describe_Model.ascii "ERROR: "%string), Some newline)
  | KFatal => (Some (Describe_Model.ascii "FATAL ERROR: "%string), Some newline)
  end.
(** The prefix and suffix of a kind; what is printed plainly has none. *)
Definition format (k : kind) (cs : list call) : option text * option text :=
  match k with
  | KPrint => (Some [], Some [])
  | _ => latest (fun c => match c with SetFormat k' p q => if same_kind k k' then Some (p, q) else None | _ => None end) cs (usual k)
  end.
Definition strict (cs : list call) : bool := latest (fun c => match c with SetAbort b => Some b | _ => None end) cs false.
(** A text without a zero. *)
Definition whole (t : text) : Prop := Forall (fun c => c <> 0%N) t.
Definition place_of (k : kind) (cs : list call) : place := match asked k cs with Some n => Callback n | None => file_of k end.
(** After which messages the program stops. *)
Definition ends (k : kind) (cs : list call) : bool := match k with KFatal => true | KError => strict cs | _ => false end.
(** What a whole history prints: every message up to the first that stops the program. *)
Fixpoint expected (before cs : list call) : list (place * text) :=
  match cs with
  | [] => []
  | Say k t :: cs' =>
    let p := match fst (format k before) with Some p => p | None => [] end in
    let q := match snd (format k before) with Some q => q | None => [] end in
    (place_of k before, p ++ t ++ q) :: (if ends k before then [] else expected (before ++ [Say k t]) cs')
  | c :: cs' => expected (before ++ [c]) cs'
  end.
(** Texts, prefixes and suffixes are C strings. *)
Definition proper (c : call) : Prop :=
  match c with
  | Say _ t => whole t
  | SetFormat _ p q => exists p' q', p = Some p' /\ q = Some q' /\ whole p' /\ whole q'
  | _ => True
  end.
