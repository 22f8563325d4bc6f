(** What the descriptions of objects should be. *)
Require Import Coq.Strings.String Coq.Strings.Ascii Coq.ZArith.ZArith Coq.NArith.NArith Coq.Lists.List Coq.Bool.Bool.
Require Import Verif.Base Verif.Strtonum_Model Verif.JSON_Model Verif.Predicate_Model Verif.Describe_Model.
Import ListNotations.
Local Open Scope N_scope.

(** The references whose descriptions are part of the description of an object. *)
Definition unary (o : op) : bool := match o with NOT | ALL | ANY | NONE => true | _ => false end.
Definition parts (o : object) : list ref :=
  match o with
  | Predicate o a _ b _ => if unary o then [a] else [a; b]
  | Collection _ l => l
  | Keyed _ l => map fst l ++ map snd l
  | _ => []
  end.
Definition part (h : heap) (q p : nat) : Prop := exists o, nth_error h p = Some o /\ In (Some q) (parts o).
(** Every reference is one to an object. *)
Definition valid (h : heap) (r : ref) : Prop := match r with Some p => (p < length h)%nat | None => True end.
Definition closed (h : heap) : Prop := Forall (fun o => Forall (valid h) (parts o)) h.
(** Fewer than 2^31 members. *)
Definition small (h : heap) : Prop :=
  Forall (fun o => match o with Collection _ l => (Z.of_nat (length l) < 2^31)%Z | Keyed _ l => (Z.of_nat (length l) < 2^31)%Z | _ => True end) h.

(** One line for each member, separated by commas. *)
Fixpoint join (sep : bytes) (ls : list bytes) : bytes :=
  match ls with [] => [] | [x] => x | x :: ls' => x ++ sep ++ join sep ls' end.
Definition new_line : bytes := ascii (String "010" "    ").
Definition listing (ls : list bytes) : bytes := match ls with [] => [] | _ => new_line ++ join (ascii "," ++ new_line) ls end.
Definition whole (cls : bytes) (n : Z) (ls : list bytes) : bytes :=
  cls ++ ascii ", " ++ print_int n ++ ascii " objects = (" ++ listing ls ++ ascii (String "010" ")").
(** Strings are in quotes. *)
Definition shown (h : heap) (r : ref) (t : bytes) : bytes := if is_text h r then ascii """" ++ t ++ ascii """" else t.
Definition keyed_text (k : option bytes) : bytes := match k with Some k => ascii "." ++ k | None => [] end.

(** [described h r t]: the description of [r] should be [t]. *)
Inductive described (h : heap) : ref -> bytes -> Prop :=
| D_null : described h None (ascii "null")
| D_text p s : nth_error h p = Some (Text s) -> described h (Some p) s
| D_number p l : nth_error h p = Some (Number l) -> described h (Some p) (join [32] (map print_num l))
| D_boolean p (b : bool) : nth_error h p = Some (Boolean b) -> described h (Some p) (ascii (if b then "true" else "false"))
| D_data p cls n : nth_error h p = Some (Data cls n) -> described h (Some p) (cls ++ ascii " (" ++ print_int n ++ ascii " bytes)")
| D_struct p cls s : nth_error h p = Some (Struct cls s) -> described h (Some p) (cls ++ ascii " (" ++ match s with Some s => s | None => ascii "null" end ++ ascii ")")
| D_plain p cls : nth_error h p = Some (Plain cls) -> described h (Some p) cls
| D_unary p o a ka b kb t : nth_error h p = Some (Predicate o a ka b kb) -> unary o = true -> operand_described h a t ->
    described h (Some p) (op_text o ++ ascii " " ++ t ++ keyed_text ka)
| D_binary p o a ka b kb t u : nth_error h p = Some (Predicate o a ka b kb) -> unary o = false -> operand_described h a t -> operand_described h b u ->
    described h (Some p) ((t ++ keyed_text ka) ++ ascii " " ++ op_text o ++ ascii " " ++ u ++ keyed_text kb)
| D_collection p cls l ls : nth_error h p = Some (Collection cls l) -> Forall2 (fun r line => exists t, described h r t /\ line = shown h r t) l ls ->
    described h (Some p) (whole cls (Z.of_nat (length l)) ls)
| D_keyed p cls l ls : nth_error h p = Some (Keyed cls l) ->
    Forall2 (fun e line => exists t u, described h (fst e) t /\ described h (snd e) u /\ line = shown h (fst e) t ++ ascii " = " ++ shown h (snd e) u) l ls ->
    described h (Some p) (whole cls (Z.of_nat (length l)) ls)
with operand_described (h : heap) : ref -> bytes -> Prop :=
| O_null : operand_described h None (ascii "*")
| O_some p t : described h (Some p) t -> operand_described h (Some p) t.

(** Objects without strings and predicates, and whose classes have names without commas, equal signs
    and ends of lines; [keyed] tells dictionaries from lists by the names of their classes. *)
Definition special (b : N) : bool := (b =? 44) || (b =? 10) || (b =? 61).
Definition clean (t : bytes) : Prop := Forall (fun b => special b = false) t.
Definition simple (keyed : bytes -> bool) (o : object) : Prop :=
  match o with
  | Text _ | Predicate _ _ _ _ _ => False
  | Number _ | Boolean _ => True
  | Data cls _ | Plain cls => clean cls
  | Struct cls s => clean cls /\ match s with Some s => clean s | None => True end
  | Collection cls _ => clean cls /\ keyed cls = false
  | Keyed cls _ => clean cls /\ keyed cls = true
  end.
(** [alike h r h' r']: the same collections of alike members in the same order, or other objects with
    the same description. *)
Definition is_collection (h : heap) (r : ref) : bool :=
  match r with Some p => match nth_error h p with Some (Collection _ _) | Some (Keyed _ _) => true | _ => false end | None => false end.
Inductive alike (h h' : heap) : ref -> ref -> Prop :=
| A_other r r' t : is_collection h r = false -> is_collection h' r' = false -> described h r t -> described h' r' t -> alike h h' r r'
| A_collection p p' cls l l' : nth_error h p = Some (Collection cls l) -> nth_error h' p' = Some (Collection cls l') ->
    Forall2 (alike h h') l l' -> alike h h' (Some p) (Some p')
| A_keyed p p' cls l l' : nth_error h p = Some (Keyed cls l) -> nth_error h' p' = Some (Keyed cls l') ->
    Forall2 (fun e e' => alike h h' (fst e) (fst e') /\ alike h h' (snd e) (snd e')) l l' -> alike h h' (Some p) (Some p').
