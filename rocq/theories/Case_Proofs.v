(** Proofs about the conversion of letters. *)
Require Import Coq.NArith.NArith Coq.Lists.List Coq.Bool.Bool Coq.Arith.Arith Coq.micromega.Lia.
Require Import Verif.Base Verif.Utf8_Spec Verif.String_Spec Verif.Case_Model.
Import ListNotations.
Local Open Scope N_scope.

(** The letters of the Latin alphabet and their places in it. *)
Definition small (k c : N) : Prop := k < 26 /\ c = 97 + k.
Definition capital (k c : N) : Prop := k < 26 /\ c = 65 + k.
(** [d] is the character [c] in small letters, or in capital letters. *)
Definition lower_of (c d : N) : Prop := (exists k, capital k c /\ small k d) \/ ((forall k, ~ capital k c) /\ d = c).
Definition upper_of (c d : N) : Prop := (exists k, small k c /\ capital k d) \/ ((forall k, ~ small k c) /\ d = c).

Lemma tolower_ok : forall c, lower_of c (tolower c).
Proof.
  intros c. unfold tolower. destruct (N.leb_spec 65 c) as [A|A], (N.leb_spec c 90) as [B|B]; cbn [andb].
  1:{ left. exists (c - 65). unfold capital, small. lia. }
  all: right; split; [intros k (K1 & K2); lia|reflexivity].
Qed.
Lemma toupper_ok : forall c, upper_of c (toupper c).
Proof.
  intros c. unfold toupper. destruct (N.leb_spec 97 c) as [A|A], (N.leb_spec c 122) as [B|B]; cbn [andb].
  1:{ left. exists (c - 97). unfold capital, small. lia. }
  all: right; split; [intros k (K1 & K2); lia|reflexivity].
Qed.
Definition on_byte (f : N -> N) (b : N) : N := if b <? 128 then f b else b.
Lemma capacity_ok : forall size, 0 < size < 2^32 -> capacity size = size - 1.
Proof.
  intros size H. unfold capacity. rewrite (N.mod_small size) by lia. replace (size + (2^32 - 1)) with (size - 1 + 1 * 2^32) by lia. rewrite N.mod_add by discriminate. apply N.mod_small. lia.
Qed.
Lemma convert_ok : forall f s size cap i junk, ~ In 0 s -> i <= cap -> cap < size -> convert f size cap i (s ++ 0 :: junk) = Ok (map (on_byte f) (firstn (N.to_nat (cap - i)) s) ++ [0]).
Proof.
  intros f. induction s as [|b s IH]; intros size cap i junk H0 Hi Hc.
  - rewrite firstn_nil. cbn [app map convert]. destruct (N.ltb_spec i size); [|lia]. cbn. destruct (i <? cap); reflexivity.
  - cbn [app convert]. destruct (N.ltb_spec i size); [|lia]. destruct (N.ltb_spec i cap) as [L|L].
    + destruct (N.eqb_spec b 0) as [->|N0]; [destruct H0; left; reflexivity|]. rewrite IH; [|intros X; apply H0; now right|lia|exact Hc]. cbn [obind].
      replace (N.to_nat (cap - i)) with (S (N.to_nat (cap - (i + 1)))) by lia. reflexivity.
    + replace (N.to_nat (cap - i)) with 0%nat by lia. reflexivity.
Qed.
Lemma byte_text : forall f cs, (forall c, c < 128 -> f c < 128) -> text cs -> map (on_byte f) (encode cs) = encode (map (fun c => on_byte f c) cs).
Proof.
  intros f cs Hf. induction cs as [|c cs IH]; intros H; [reflexivity|]. inversion H as [|? ? (Hs & _) Ht]; subst. unfold encode in *. cbn [map concat]. rewrite map_app, (IH Ht). f_equal.
  unfold on_byte at 2. destruct (N.ltb_spec c 128) as [L|L].
  - pose proof (Hf c L) as L2. unfold utf8. destruct (N.ltb_spec c 128); [|lia]. destruct (N.ltb_spec (f c) 128); [|lia]. cbn [map]. unfold on_byte. destruct (N.ltb_spec c 128); [reflexivity|lia].
  - unfold utf8. destruct (N.ltb_spec c 128); [lia|]. assert (K : forall b, 128 <= b -> on_byte f b = b) by (intros b Hb; unfold on_byte; destruct (N.ltb_spec b 128); [lia|reflexivity]).
    repeat match goal with |- context [if ?e then _ else _] => destruct e end; cbn [map]; rewrite !K by (apply N.le_add_r || (eapply N.le_trans; [|apply N.le_add_r]; discriminate)); reflexivity.
Qed.
Lemma utf8_zero : forall c, c <> 0 -> ~ In 0 (utf8 c).
Proof.
  intros c H. unfold utf8. repeat match goal with |- context [if ?e then _ else _] => destruct e end; cbn [In]; intros X;
  repeat match type of X with _ \/ _ => destruct X as [X|X] end; try contradiction; try congruence; apply N.eq_add_0 in X; destruct X; discriminate.
Qed.
Lemma text_zero : forall cs, text cs -> ~ In 0 (encode cs).
Proof.
  intros cs H X. unfold encode in X. apply in_concat in X. destruct X as (l & Hl & X0). apply in_map_iff in Hl. destruct Hl as (c & <- & Hc). unfold text in H. rewrite Forall_forall in H. destruct (H c Hc) as (_ & N0). exact (utf8_zero c N0 X0).
Qed.
(** Which of the two functions, and what it is for a character. *)
Definition call (up : bool) := if up then ustrupr else ustrlwr.
Definition changed (up : bool) := if up then upper_of else lower_of.
Lemma bytes : forall up size s junk, 0 < size < 2^32 -> ~ In 0 s ->
  exists l, call up size (s ++ 0 :: junk) = Ok (l ++ [0]) /\ l = map (on_byte (if up then toupper else tolower)) (firstn (N.to_nat (size - 1)) s).
Proof.
  intros up size s junk Hs H0. eexists. split; [|reflexivity]. destruct up; cbn [call]; unfold ustrupr, ustrlwr; rewrite capacity_ok by exact Hs; rewrite convert_ok by (exact H0 || lia); now rewrite N.sub_0_r.
Qed.
Theorem fits_buffer : forall up size s junk, 0 < size < 2^32 -> ~ In 0 s ->
  exists l, call up size (s ++ 0 :: junk) = Ok (l ++ [0]) /\ length (l ++ [0]) = Nat.min (length s + 1) (N.to_nat size) /\
    (forall k b, nth_error l k = Some b -> exists a, nth_error s k = Some a /\ (a < 128 -> changed up a b) /\ (128 <= a -> b = a)).
Proof.
  intros up size s junk Hs H0. destruct (bytes up size s junk Hs H0) as (l & E & El). exists l. split; [exact E|]. split; [rewrite El, app_length, map_length, firstn_length; cbn [length]; lia|].
  intros k b Hk. rewrite El, nth_error_map in Hk. destruct (nth_error (firstn (N.to_nat (size - 1)) s) k) as [a|] eqn:Ea; [|discriminate]. cbn in Hk. injection Hk as <-. exists a. split.
  - assert (k < length (firstn (N.to_nat (size - 1)) s))%nat by (apply nth_error_Some; congruence). rewrite firstn_length in H. rewrite <- (firstn_skipn (N.to_nat (size - 1)) s). rewrite nth_error_app1 by (rewrite firstn_length; lia). exact Ea.
  - unfold on_byte. destruct (N.ltb_spec a 128); split; intros; try lia. destruct up; [apply toupper_ok|apply tolower_ok].
Qed.
Theorem whole : forall up size cs junk, text cs -> N.of_nat (length (encode cs)) < size -> size < 2^32 ->
  exists ds, call up size (encode cs ++ 0 :: junk) = Ok (encode ds ++ [0]) /\ text ds /\ Forall2 (changed up) cs ds.
Proof.
  intros up size cs junk Ht Hl Hs. destruct (bytes up size (encode cs) junk ltac:(lia) (text_zero cs Ht)) as (l & E & El). rewrite firstn_all2 in El by lia. rewrite byte_text in El; [|destruct up; intros c Hc; unfold toupper, tolower; match goal with |- context [if ?e then _ else _] => destruct e eqn:X end; try apply andb_true_iff in X; rewrite ?N.leb_le in X; lia|exact Ht].
  eexists. rewrite El in E. split; [exact E|]. clear E El l Hl. induction cs as [|c cs IH]; [split; constructor|]. inversion Ht as [|? ? (Hc & H0) Ht']; subst. destruct (IH Ht') as (A & B). cbn [map].
  assert (C : changed up c (on_byte (if up then toupper else tolower) c)).
  { unfold on_byte. destruct (N.ltb_spec c 128) as [L|L]; [destruct up; [apply toupper_ok|apply tolower_ok]|]. destruct up; right; (split; [intros k (K1 & K2); lia|reflexivity]). }
  split; [|constructor; assumption]. constructor; [|exact A].
  destruct up; destruct C as [(k & (K1 & K2) & (K3 & K4))|(_ & ->)]; try (split; assumption); subst; rewrite K4; split; [split; lia|lia|split; lia|lia].
Qed.
(** No room at all, and a character that is cut. *)
Theorem no_room : forall up s, call up 0 (s ++ [0]) = UB.
Proof. intros up s. destruct up, s as [|b s]; cbn [call app]; unfold ustrupr, ustrlwr; change (capacity 0) with 4294967295; cbn [convert]; change (0 <? 4294967295) with true; change (0 <? 0) with false; cbv iota; try reflexivity; destruct (b =? 0); reflexivity. Qed.
Theorem cut_char : exists cs l, text cs /\ call false 2 (encode cs ++ [0]) = Ok (l ++ [0]) /\ forall ds, text ds -> encode ds <> l.
Proof.
  exists [233], [195]. split; [constructor; [|constructor]; split; [split; lia|discriminate]|]. split; [vm_compute; reflexivity|].
  intros ds Hd E. destruct ds as [|d ds]; [discriminate|]. inversion Hd as [|? ? (Hs & _) _]; subst. unfold encode in E. cbn [map concat] in E. unfold utf8 in E.
  destruct (N.ltb_spec d 128); [injection E as -> _; lia|]. repeat match type of E with context [if ?e then _ else _] => destruct e end; discriminate.
Qed.
