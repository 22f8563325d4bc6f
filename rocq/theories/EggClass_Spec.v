(** What it means for an object read from an archive to be like the object that was written. *)
Require Import Coq.ZArith.ZArith Coq.NArith.NArith Coq.Lists.List Coq.Sorting.Permutation Coq.Sorting.Sorted.
Require Import Verif.Base Verif.Encoding_Model Verif.Egg_Model Verif.Utf8_Spec Verif.Compare_Model Verif.EggClass_Model.
Require Verif.Enum_Spec Verif.Predicate_Model.
Import ListNotations.
Local Open Scope N_scope.

(** The objects that an object refers to; a predicate has the name of its operator. *)
Definition one (o : option nat) : list nat := match o with Some i => [i] | None => [] end.
Definition op_name (op : Predicate_Model.op) : list N := Enum_Spec.bytes (Enum_Spec.word op).
Definition refers (consts : list N -> nat) (o : dk) : list nat :=
  match o with
  | DPair x y => one x ++ one y
  | DList _ _ l => flat_map one l
  | DTable _ ps | DTree _ ps => flat_map (fun p => fst p :: one (snd p)) ps
  | DStruct x _ => one x
  | DPredicate op a ka b kb => consts (op_name op) :: one a ++ one ka ++ one b ++ one kb
  | _ => []
  end.
Inductive within (consts : list N -> nat) (objs : list dk) (root : nat) : nat -> Prop :=
| within_root : within consts objs root root
| within_ref : forall i o j, within consts objs root i -> nth_error objs i = Some o -> In j (refers consts o) -> within consts objs root j.

(** An immutable string without NUL, and its text. *)
Definition is_key (objs : list dk) (i : nat) (s : list N) : Prop :=
  exists k, nth_error objs i = Some (DText k s) /\ k <> Mutable /\ cstring s.
(** The keys of a dictionary: strings; of which no two are the same, or each comes before the next. *)
Definition keys (objs : list dk) (ps : list (nat * option nat)) : Prop := Forall (fun p => exists s, is_key objs (fst p) s) ps.
Definition different (objs : list dk) (ps : list (nat * option nat)) : Prop :=
  StronglySorted (fun p q => forall s t, is_key objs (fst p) s -> is_key objs (fst q) t -> s <> t) ps.
Definition in_order (objs : list dk) (ps : list (nat * option nat)) : Prop :=
  StronglySorted (fun p q => forall s t, is_key objs (fst p) s -> is_key objs (fst q) t -> exists c, string_compare s t = Ok c /\ (0 < c)%Z) ps.

(** The objects that an archive can hold. *)
Definition proper (consts : list N -> nat) (objs : list dk) (o : dk) : Prop :=
  match o with
  | DText _ s => N.of_nat (length s) < max_count
  | DNumber _ e l =>
    e < 2 ^ 32 /\ is_number e = true /\ 0 < get_type_size e /\ N.of_nat (length l) = get_count e /\ Forall (fun x => x < 256 ^ get_type_size e) l
  | DBoolean _ | DPair _ _ => True
  | DData _ t b =>
    Forall (fun x => x < 256) b /\ N.of_nat (length b) <= max_count /\
    (t = 0 \/ number_type t = true /\ 0 < type_size t /\ exists n, N.of_nat (length b) = n * type_size t)
  | DList _ _ l => N.of_nat (length l) <= max_count /\ (length l = 1%nat \/ ~ In None l)
  | DTable _ ps => N.of_nat (length ps) <= max_count /\ keys objs ps /\ different objs ps
  | DTree _ ps => N.of_nat (length ps) <= max_count /\ keys objs ps /\ in_order objs ps
  | DStruct _ b => b <> [] /\ N.of_nat (length b) <= max_count
  | DPredicate op _ _ _ _ => nth_error objs (consts (op_name op)) = Some (DText Constant (op_name op))
  end.
(** A graph of objects: every object in it is there and proper, and none refers to the root. *)
Definition graph (consts : list N -> nat) (objs : list dk) (root : nat) : Prop :=
  forall i, within consts objs root i -> exists o, nth_error objs i = Some o /\ proper consts objs o /\ ~ In root (refers consts o).

(** Two objects are alike when they have the same contents, references being to the copies.  The
    bytes of numbers are those of the machine; strings are both mutable or both not. *)
Definition copied (phi : nat -> nat) (ps : list (nat * option nat)) : list (nat * option nat) := map (fun p => (phi (fst p), option_map phi (snd p))) ps.
Definition same_numbers (bw br : bool) (w : nat) (b b' : list N) : Prop :=
  forall i, (S i * w <= length b)%nat -> of_bytes bw (firstn w (skipn (i * w) b)) = of_bytes br (firstn w (skipn (i * w) b')).
Inductive alike (bw br : bool) (phi : nat -> nat) : dk -> dk -> Prop :=
| al_text : forall k k' s, (k = Mutable <-> k' = Mutable) -> alike bw br phi (DText k s) (DText k' s)
| al_number : forall v e l, alike bw br phi (DNumber v e l) (DNumber v e l)
| al_boolean : forall b, alike bw br phi (DBoolean b) (DBoolean b)
| al_data : forall m b, alike bw br phi (DData m 0 b) (DData m 0 b)
| al_numbers : forall m t b b', number_type t = true -> 0 < type_size t -> length b' = length b -> same_numbers bw br (N.to_nat (type_size t)) b b' -> alike bw br phi (DData m t b) (DData m t b')
| al_pair : forall x y, alike bw br phi (DPair x y) (DPair (option_map phi x) (option_map phi y))
| al_list : forall k m l, alike bw br phi (DList k m l) (DList k m (map (option_map phi) l))
| al_table : forall m ps qs, Permutation (copied phi ps) qs -> alike bw br phi (DTable m ps) (DTable m qs)
| al_tree : forall m ps, alike bw br phi (DTree m ps) (DTree m (copied phi ps))
| al_struct : forall x b, alike bw br phi (DStruct x b) (DStruct (option_map phi x) b)
| al_predicate : forall op a ka b kb,
    alike bw br phi (DPredicate op a ka b kb) (DPredicate op (option_map phi a) (option_map phi ka) (option_map phi b) (option_map phi kb)).
