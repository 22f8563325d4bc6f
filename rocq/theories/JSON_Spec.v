(** JSON texts and what they stand for. *)
Require Import Coq.ZArith.ZArith Coq.NArith.NArith Coq.Lists.List Coq.Bool.Bool.
Require Import Verif.Utf8_Spec Verif.Strtonum_Model Verif.Strtonum_Spec Verif.JSON_Model.
Import ListNotations.
Local Open Scope N_scope.

(** A hexadecimal digit. *)
Inductive hex : N -> N -> Prop :=
| hex_0 : forall x, x < 10 -> hex (48 + x) x
| hex_a : forall x, x < 6 -> hex (97 + x) (10 + x)
| hex_A : forall x, x < 6 -> hex (65 + x) (10 + x).
(** How a character is written in a string: as it is, with a short escape, or with a backslash,
    u and four hexadecimal digits. *)
Inductive item : N -> list N -> Prop :=
| i_plain : forall c, char_ok c -> c <> 34 -> c <> 92 -> item c (utf8 c)
| i_quote : item 34 [92; 34] | i_backslash : item 92 [92; 92] | i_slash : item 47 [92; 47]
| i_b : item 8 [92; 98] | i_f : item 12 [92; 102] | i_n : item 10 [92; 110] | i_r : item 13 [92; 114] | i_t : item 9 [92; 116]
| i_u : forall a b c d x y z w, hex a x -> hex b y -> hex c z -> hex d w ->
    char_ok (4096 * x + 256 * y + 16 * z + w) -> item (4096 * x + 256 * y + 16 * z + w) [92; 117; a; b; c; d].
Inductive items : list N -> list N -> Prop :=
| is_nil : items [] []
| is_cons : forall c cs s t, item c s -> items cs t -> items (c :: cs) (s ++ t).
(** Numbers: the integers the library can represent (as in C36), fractions and exponents (as in C86). *)
Inductive number : jnum -> list N -> Prop :=
| n_int : forall neg ds, Forall digit ds -> ds <> [] -> (value ds <= i64max)%Z -> number (NInt (signed neg (value ds))) (sign_text neg ++ ds)
| n_frac : forall (neg : bool) ds fs (es : option (N * list N)), Forall digit ds -> ds <> [] -> (value ds <= i64max)%Z -> Forall digit fs -> (length fs < 18)%nat ->
    match es with None => True | Some (e, ed) => (e = 101 \/ e = 69) /\ Forall digit ed /\ (value ed <= i64max)%Z end ->
    number (NReal (if neg then -1 else 1)%Z (value ds) (map (fun d => d - 48) fs) (match es with None => None | Some (_, ed) => Some (value ed) end))
      (sign_text neg ++ ds ++ (46 :: fs) ++ match es with None => [] | Some (e, ed) => e :: ed end)
| n_exp : forall (neg : bool) ds e ed, Forall digit ds -> ds <> [] -> (value ds <= i64max)%Z -> (e = 101 \/ e = 69) -> Forall digit ed -> (value ed <= i64max)%Z ->
    number (NReal (if neg then -1 else 1)%Z (value ds) [] (Some (value ed))) (sign_text neg ++ ds ++ e :: ed).
Definition is_real (n : jnum) : bool := match n with NInt _ => false | NReal _ _ _ _ => true end.
(** Numbers separated by commas and white space. *)
Inductive numbers : list jnum -> list N -> Prop :=
| ns_one : forall n w s w', Forall white w -> number n s -> Forall white w' -> numbers [n] (w ++ s ++ w')
| ns_cons : forall n ns w s w' t, Forall white w -> number n s -> Forall white w' -> numbers ns t -> numbers (n :: ns) (w ++ s ++ w' ++ 44 :: t).
(** The members of an object: every key once, in the order in which the keys come first, with
    the last of the values given for it. *)
Definition member_of (k : list N) (m : list (list N * json)) : option json :=
  match find (fun p => if list_eq_dec N.eq_dec (fst p) k then true else false) (rev m) with Some p => Some (snd p) | None => None end.
Fixpoint first_keys (seen : list (list N)) (m : list (list N * json)) : list (list N) :=
  match m with
  | [] => []
  | (k, _) :: m' => if in_dec (list_eq_dec N.eq_dec) k seen then first_keys seen m' else k :: first_keys (k :: seen) m'
  end.
Definition object_of (m d : list (list N * json)) : Prop := map fst d = first_keys [] m /\ forall k v, In (k, v) d -> member_of k m = Some v.

Section Text.
(** Whether vectors may be written as #[1, 2]. *)
Context (vec : bool).
Inductive text : json -> list N -> Prop :=
| t_null : text JNull [110; 117; 108; 108]
| t_true : text (JBool true) [116; 114; 117; 101]
| t_false : text (JBool false) [102; 97; 108; 115; 101]
| t_num : forall n s, number n s -> text (JNum n) s
| t_vec : forall l s, vec = true -> (2 <= length l)%nat -> N.of_nat (length l) < 2 ^ 24 -> numbers l s -> text (JVec (existsb is_real l) l) (35 :: 91 :: s ++ [93])
| t_str : forall cs s, items cs s -> text (JStr (encode cs)) (34 :: s ++ [34])
| t_arr0 : forall w, Forall white w -> text (JArr []) (91 :: w ++ [93])
| t_arr : forall l s, elements l s -> text (JArr l) (91 :: s ++ [93])
| t_obj0 : forall w, Forall white w -> text (JObj []) (123 :: w ++ [125])
| t_obj : forall m d s, members m s -> object_of m d -> text (JObj d) (123 :: s ++ [125])
with elements : list json -> list N -> Prop :=
| e_one : forall v w s w', Forall white w -> text v s -> Forall white w' -> elements [v] (w ++ s ++ w')
| e_cons : forall v l w s w' t, Forall white w -> text v s -> Forall white w' -> elements l t -> elements (v :: l) (w ++ s ++ w' ++ 44 :: t)
with members : list (list N * json) -> list N -> Prop :=
| m_one : forall cs k v w w' u s u', Forall white w -> items cs k -> Forall white w' -> Forall white u -> text v s -> Forall white u' ->
    members [(encode cs, v)] (w ++ (34 :: k ++ [34]) ++ w' ++ 58 :: u ++ s ++ u')
| m_cons : forall cs k v l w w' u s u' t, Forall white w -> items cs k -> Forall white w' -> Forall white u -> text v s -> Forall white u' -> members l t ->
    members ((encode cs, v) :: l) (w ++ (34 :: k ++ [34]) ++ w' ++ 58 :: u ++ s ++ u' ++ 44 :: t).
End Text.
Scheme text_i := Induction for text Sort Prop with elements_i := Induction for elements Sort Prop with members_i := Induction for members Sort Prop.
Combined Scheme text_ind3 from text_i, elements_i, members_i.

(** Values that can be written: integers other than the most negative one, strings of
    characters, and dictionaries with different keys; [key] says which keys are allowed, and
    vectors are allowed with the extension. *)
Section Writable.
Context (vec : bool) (key : list N -> Prop).
Definition int_ok (n : jnum) : Prop := match n with NInt z => (- i64max <= z <= i64max)%Z | NReal _ _ _ _ => False end.
Inductive writable : json -> Prop :=
| w_null : writable JNull
| w_bool : forall b, writable (JBool b)
| w_num : forall n, int_ok n -> writable (JNum n)
| w_vec : forall l, vec = true -> (2 <= length l)%nat -> N.of_nat (length l) < 2 ^ 24 -> Forall int_ok l -> writable (JVec false l)
| w_str : forall cs, Forall char_ok cs -> writable (JStr (encode cs))
| w_arr : forall l, Forall writable l -> writable (JArr l)
| w_obj : forall l, Forall (fun p => key (fst p)) l -> Forall (fun p => writable (snd p)) l -> NoDup (map fst l) -> writable (JObj l).
End Writable.
(** Keys without quotes and backslashes. *)
Definition plain_key (k : list N) : Prop := exists cs, Forall char_ok cs /\ k = encode cs /\ ~ In 34 cs /\ ~ In 92 cs.
(** Any keys. *)
Definition any_key (k : list N) : Prop := exists cs, Forall char_ok cs /\ k = encode cs.

(** ASCII texts in which every backslash followed by u goes on with four hexadecimal digits
    that stand for a character, and in which no 18 digits follow each other. *)
Definition tame (s : list N) : Prop :=
  Forall (fun b => 0 < b < 128) s /\
  (forall pre ds post, s = pre ++ ds ++ post -> Forall digit ds -> (length ds < 18)%nat) /\
  (forall pre post, s = pre ++ 92 :: 117 :: post -> exists a b c d x y z w r, post = a :: b :: c :: d :: r /\ hex a x /\ hex b y /\ hex c z /\ hex d w /\ char_ok (4096 * x + 256 * y + 16 * z + w)).
