(** A document that needs more than the first buffer. *)
Require Import Coq.NArith.NArith Coq.Lists.List Coq.Arith.Arith Coq.micromega.Lia.
Require Import Verif.Base Verif.XML_Model Verif.XML_Spec Verif.String_Model Verif.Stream_Model.
Import ListNotations.
Local Open Scope N_scope.
Lemma message : forall a b, dkerror (fun _ _ => []) text_of_stack [AInt a; ALong b] = UB.
Proof. intros a b. vm_compute. reflexivity. Qed.
Lemma upd_same : forall A (l : list A) i v, length (upd l i v) = length l.
Proof. intros A l. induction l as [|a l IH]; intros [|i] v; cbn; auto. Qed.
Lemma pushc_any : forall x ch, let r := pushstackc x ch in
  (length (stack x) <= stacklen x + 1)%nat /\ r = Ok (x, ESTACK) \/
  (stacklen x + 1 < length (stack x))%nat /\ exists s, length s = length (stack x) /\ r = Ok (set_stack x s (S (stacklen x)), OK).
Proof.
  intros x ch. cbn zeta. unfold pushstackc. destruct (length (stack x) <=? stacklen x + 1)%nat eqn:E; [left; split; [now apply Nat.leb_le|reflexivity]|]. right. apply Nat.leb_gt in E. split; [exact E|].
  unfold wrs. replace (stacklen x <? length (stack x))%nat with true by (symmetry; apply Nat.ltb_lt; lia). cbn [obind]. rewrite upd_same. replace (S (stacklen x) <? length (stack x))%nat with true by (symmetry; apply Nat.ltb_lt; lia). cbn [obind].
  eexists. split; [|reflexivity]. now rewrite !upd_same.
Qed.
Lemma name_byte : forall x, st x = S_elem0 -> ignore x = 0 -> exists x', st x' = S_elem0 /\ ignore x' = 0 /\ stack x' = stack x /\ stacklen x' = stacklen x /\ parse_byte x 97 = pushstackc x' 97.
Proof.
  intros x H1 H2. unfold parse_byte. change (97 mod 256) with 97. cbv zeta. change (97 =? 0) with false. cbv iota. rewrite H2. change (0 =? 97) with false. cbv iota. change ((97 =? 10) || (97 =? 13))%bool with false. cbv iota.
  eexists. split; [|split; [|split; [|split]]]. 5: { unfold switch. cbn [st set_position]. rewrite H1. reflexivity. } all: try reflexivity; exact H1.
Qed.
Lemma name_loop : forall n s rest, st (parser s) = S_elem0 -> ignore (parser s) = 0 -> (length (stack (parser s)) <= stacklen (parser s) + n)%nat -> (0 < n)%nat ->
  loop c_isspace (dkerror (fun _ _ => [])) s (repeat 97 n ++ rest) = UB.
Proof.
  induction n as [|n IH]; intros s rest H1 H2 H3 Hn; [lia|]. cbn [repeat app loop]. change (97 =? 0) with false. cbv iota.
  destruct (name_byte (parser s) H1 H2) as (x & E1 & E2 & E3 & E4 & ->). destruct (pushc_any x 97) as [[L ->]|[L (t & Lt & ->)]]; cbn [obind fst snd].
  - cbn [handle]. rewrite message. reflexivity.
  - cbn [handle obind]. apply IH; cbn [parser]; [exact E1|exact E2| |]; cbn [set_stack stack stacklen]; rewrite ?Lt, ?E3, ?E4 in *; lia.
Qed.
Lemma open_byte : forall x, st x = S_init -> ignore x = 0 -> exists x', st x' = S_le0 /\ ignore x' = 0 /\ stack x' = stack x /\ stacklen x' = stacklen x /\ parse_byte x 60 = Ok (x', OK).
Proof.
  intros x H1 H2. unfold parse_byte. change (60 mod 256) with 60. cbv zeta. change (60 =? 0) with false. cbv iota. rewrite H2. change (0 =? 60) with false. cbv iota. change ((60 =? 10) || (60 =? 13))%bool with false. cbv iota.
  eexists. split; [|split; [|split; [|split]]]. 5: { unfold switch. cbn [st set_position]. rewrite H1. reflexivity. } all: reflexivity.
Qed.
Lemma first_byte : forall x, st x = S_le0 -> ignore x = 0 -> exists x', st x' = S_elem0 /\ ignore x' = 0 /\ stack x' = stack x /\ stacklen x' = stacklen x /\ parse_byte x 97 = pushstack x' set_elem 97.
Proof.
  intros x H1 H2. unfold parse_byte. change (97 mod 256) with 97. cbv zeta. change (97 =? 0) with false. cbv iota. rewrite H2. change (0 =? 97) with false. cbv iota. change ((97 =? 10) || (97 =? 13))%bool with false. cbv iota.
  eexists. split; [|split; [|split; [|split]]]. 5: { unfold switch. cbn [st set_position]. rewrite H1. reflexivity. } all: reflexivity.
Qed.
Lemma push_any : forall x ch, (stacklen x + 2 < length (stack x))%nat -> exists s, length s = length (stack x) /\ pushstack x set_elem ch = Ok (set_stack (set_elem x (S (stacklen x))) s (S (S (stacklen x))), OK).
Proof.
  intros x ch H. unfold pushstack. replace (length (stack x) <=? stacklen x + 2)%nat with false by (symmetry; apply Nat.leb_gt; lia).
  unfold wrs. replace (S (stacklen x) <? length (stack x))%nat with true by (symmetry; apply Nat.ltb_lt; lia). cbn [obind]. rewrite upd_same. replace (S (S (stacklen x)) <? length (stack x))%nat with true by (symmetry; apply Nat.ltb_lt; lia). cbn [obind].
  eexists. split; [|reflexivity]. now rewrite !upd_same.
Qed.
Lemma try_message : forall size rest, (3 <= size)%nat -> try_parse c_isspace (dkerror (fun _ _ => [])) (60 :: repeat 97 size ++ rest) size = UB.
Proof.
  intros size rest H. unfold try_parse. assert (E : exists x, init size = Ok x /\ length (stack x) = size /\ stacklen x = 0%nat /\ ignore x = 0 /\ st x = S_init).
  { unfold init, wrs. rewrite repeat_length. replace (0 <? size)%nat with true by (symmetry; apply Nat.ltb_lt; lia). cbn [obind]. eexists. split; [reflexivity|]. cbn [stack stacklen ignore st]. rewrite upd_same, repeat_length. auto. }
  destruct E as (x & -> & E1 & E2 & E3 & E4). cbn [obind loop]. change (60 =? 0) with false. cbv iota. cbn [parser].
  destruct (open_byte x E4 E3) as (x1 & F1 & F2 & F3 & F4 & ->). cbn [obind fst snd handle]. destruct size as [|n]; [lia|]. cbn [repeat app loop]. change (97 =? 0) with false. cbv iota. cbn [parser].
  destruct (first_byte x1 F1 F2) as (x2 & G1 & G2 & G3 & G4 & ->). destruct (push_any x2 97) as (s & Ls & ->); [rewrite G3, G4, F3, F4, E1, E2; lia|]. cbn [obind fst snd handle].
  apply name_loop; cbn [parser set_stack set_elem st ignore stack stacklen]; [exact G1|exact G2| |lia]. rewrite Ls, G3, G4, F3, F4, E1, E2. lia.
Qed.
(** An empty element with a name of 16384 letters. *)
Definition large : list N := 60 :: repeat 97 (N.to_nat 16384) ++ [47; 62].
Lemma large_name : forall n, is_a_name (repeat 97 (S n)).
Proof.
  intros n. cbn [repeat is_a_name]. split; [left; right; split; discriminate|]. induction n as [|n IH]; constructor; [left; left; right; split; discriminate|exact IH].
Qed.
Lemma large_document : forall n, is_document (60 :: repeat 97 (S n) ++ [47; 62]) (Elem (repeat 97 (S n)) [] []).
Proof.
  intros n. exists [], [], [], [], (60 :: repeat 97 (S n) ++ [47; 62]), [].
  split; [now rewrite app_nil_r|]. split; [auto|]. split; [constructor|]. split; [auto|]. split; [constructor|]. split; [|constructor].
  replace (60 :: repeat 97 (S n) ++ [47; 62]) with ((60 :: repeat 97 (S n)) ++ [47; 62]) by reflexivity.
  apply root_empty. exists [], []. split; [now rewrite !app_nil_r|]. split; [apply large_name|]. split; constructor.
Qed.
Lemma large_lines : forall n, unix_lines (before_nul (60 :: repeat 97 n ++ [47; 62])) = 60 :: repeat 97 n ++ [47; 62].
Proof.
  intros n. cbn [before_nul unix_lines]. change (60 =? 0) with false. cbv iota. cbn [unix_lines]. change (60 =? 13) with false. cbv iota. f_equal.
  induction n as [|n IH]; [reflexivity|]. cbn [repeat app before_nul]. change (97 =? 0) with false. cbv iota. cbn [unix_lines]. change (97 =? 13) with false. cbv iota. now rewrite IH.
Qed.
Lemma large_message : parse c_isspace (dkerror (fun _ _ => [])) 1 large = UB.
Proof.
  unfold parse, large. cbn [parse_sizes]. rewrite try_message; [reflexivity|]. lia.
Qed.
Lemma large_is_document : is_document (unix_lines (before_nul large)) (Elem (repeat 97 (N.to_nat 16384)) [] []).
Proof. unfold large. rewrite large_lines. destruct (N.to_nat 16384) eqn:E; [apply (f_equal N.of_nat) in E; rewrite N2Nat.id in E; discriminate E|]. apply large_document. Qed.
