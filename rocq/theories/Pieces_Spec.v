(** The dictionary of query parameters. *)
Require Import Coq.NArith.NArith Coq.Lists.List.
Require Import Verif.Own_Model Verif.Parsed_Spec.
Import ListNotations.

(** A parameter given again replaces the one before, at its place. *)
Fixpoint give (l : list (list N * option (list N))) (k : list N) (v : option (list N)) : list (list N * option (list N)) :=
  match l with
  | [] => [(k, v)]
  | e :: l' => if list_eq_dec N.eq_dec k (fst e) then (k, v) :: l' else e :: give l' k v
  end.
Definition parameters (ps : list (list N * option (list N))) : list (list N * option (list N)) := fold_left (fun l p => give l (fst p) (snd p)) ps [].
(** An entry of the dictionary: a string for the key, and a string for the value or NULL if there is none. *)
Definition entry_is (s : state) (p : list N * option (list N)) (e : nat * option nat) : Prop :=
  leaf s (fst e) /\ match snd p with Some _ => exists v, snd e = Some v /\ leaf s v | None => snd e = None end.
