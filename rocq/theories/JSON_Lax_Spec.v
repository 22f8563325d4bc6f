(** The texts the JSON parser accepts: JSON texts in which words may begin like a value and go
    on, strings may hold any escapes, and a comma may come last. *)
Require Import Coq.ZArith.ZArith Coq.NArith.NArith Coq.Lists.List Coq.Bool.Bool.
Require Import Verif.Utf8_Spec Verif.Strtonum_Model Verif.Strtonum_Spec Verif.JSON_Model Verif.JSON_Spec.
Import ListNotations.
Local Open Scope N_scope.

Definition ascii (s : list N) : Prop := Forall (fun b => 0 < b < 128) s.
(** A word has no white space and none of the characters , : [ ] and braces. *)
Definition in_word (b : N) : Prop := 0 < b < 128 /\ ~ white b /\ ~ In b [44; 58; 91; 93; 123; 125].
Definition begins {A} (s t : list A) : Prop := exists r, t = s ++ r.
Definition lax_word (first s : list N) : Prop := Forall in_word s /\ begins first s.
(** A word that begins with a digit or a minus.  If it is a number then its value is that. *)
Definition lax_number (n : jnum) (s : list N) : Prop :=
  (exists b, (b = 45 \/ digit b) /\ lax_word [b] s) /\ forall m, number m s -> n = m.
Inductive lax_numbers : list jnum -> list N -> Prop :=
| xn_one : forall n w s w', Forall white w -> lax_number n s -> Forall white w' -> lax_numbers [n] (w ++ s ++ w')
| xn_cons : forall n ns w s w' t, Forall white w -> lax_number n s -> Forall white w' -> lax_numbers ns t -> lax_numbers (n :: ns) (w ++ s ++ w' ++ 44 :: t).
(** The value: one number, or a vector of them (of the first of them if there are 2^24 or more). *)
Definition vector_of (l : list jnum) (v : json) : Prop :=
  exists l', begins l' l /\ (N.of_nat (length l) < 2 ^ 24 -> l' = l) /\ v = match l' with [n] => JNum n | _ => JVec (existsb is_real l) l' end.
(** What is between quotes: no quotes but in escapes.  If it is well-formed its value is that. *)
Inductive quoted : list N -> Prop :=
| q_nil : quoted []
| q_plain : forall b s, b <> 34 -> b <> 92 -> quoted s -> quoted (b :: s)
| q_escape : forall e s, e <> 117 -> quoted s -> quoted (92 :: e :: s)
| q_unicode : forall a b c d s, quoted s -> quoted (92 :: 117 :: a :: b :: c :: d :: s).
Definition lax_string (k s : list N) : Prop := quoted s /\ forall cs, items cs s -> k = encode cs.
(** The text goes on to the end without a closing quote. *)
Definition unended (s : list N) : Prop := quoted s \/ exists q, s = q ++ [92] /\ quoted q.

Section Lax.
Context (vec : bool).
Inductive lax : json -> list N -> Prop :=
| x_null : forall s, lax_word [110; 117; 108; 108] s -> lax JNull s
| x_true : forall s, lax_word [116; 114; 117; 101] s -> lax (JBool true) s
| x_false : forall s, lax_word [102; 97; 108; 115; 101] s -> lax (JBool false) s
| x_num : forall n s, lax_number n s -> lax (JNum n) s
| x_vec : forall v l s, vec = true -> lax_numbers l s -> vector_of l v -> lax v (35 :: 91 :: s ++ [93])
| x_str : forall k s, lax_string k s -> lax (JStr k) (34 :: s ++ [34])
| x_arr : forall l s, lax_elements l s -> lax (JArr l) (91 :: s ++ [93])
| x_obj : forall m d s, lax_members m s -> object_of m d -> lax (JObj d) (123 :: s ++ [125])
with lax_elements : list json -> list N -> Prop :=
| xe_nil : forall w, Forall white w -> lax_elements [] w
| xe_one : forall v w s w', Forall white w -> lax v s -> Forall white w' -> lax_elements [v] (w ++ s ++ w')
| xe_cons : forall v l w s w' t, Forall white w -> lax v s -> Forall white w' -> lax_elements l t -> lax_elements (v :: l) (w ++ s ++ w' ++ 44 :: t)
with lax_members : list (list N * json) -> list N -> Prop :=
| xm_nil : forall w, Forall white w -> lax_members [] w
| xm_one : forall k q v w w' u s u', Forall white w -> lax_string k q -> Forall white w' -> Forall white u -> lax v s -> Forall white u' ->
    lax_members [(k, v)] (w ++ (34 :: q ++ [34]) ++ w' ++ 58 :: u ++ s ++ u')
| xm_cons : forall k q v l w w' u s u' t, Forall white w -> lax_string k q -> Forall white w' -> Forall white u -> lax v s -> Forall white u' -> lax_members l t ->
    lax_members ((k, v) :: l) (w ++ (34 :: q ++ [34]) ++ w' ++ 58 :: u ++ s ++ u' ++ 44 :: t).
End Lax.
