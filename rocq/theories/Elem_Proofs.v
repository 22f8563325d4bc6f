(** Proofs about the objects that parsing XML makes: what is expected of them, and adding to them. *)
Require Import Coq.NArith.NArith Coq.Lists.List Coq.Bool.Bool Coq.Arith.Arith Coq.micromega.Lia.
Require Import Verif.Base Verif.Own_Model Verif.Own_Spec Verif.Own_Proofs Verif.Own_Calls Verif.Own_Ends Verif.Parsed_Model Verif.Parsed_Spec Verif.Parsed_Proofs Verif.Parsed_Steps Verif.Parsed_Shape Verif.Elem_Model Verif.Elem_Spec.
Require Verif.HashTable_Model Verif.XML_Model.
Import ListNotations.
Notation element := XML_Model.element.
Notation eattributes := XML_Model.eattributes.
Notation eelements := XML_Model.eelements.

(** ** What is expected *)
Definition parts (x : nat) : body := Lnk [Some (1 + x); Some (2 + x); Some (3 + x)].
Section Expected.
  Variable at_ : nat -> body -> Prop.
  Variable ks : list (nat * list N).
  Variable ids : nat -> nat.
  Definition attr_for (kv : list N * list N) (e : nat * option nat) : Prop := text_of ks (fst e) = Some (fst kv) /\ at_ (fst e) Leaf /\ exists v, snd e = Some v /\ at_ v Leaf.
  Definition child_for (c : XML_Model.child) (r : option nat) : Prop :=
    match c with XML_Model.CText _ => exists x, r = Some x /\ at_ x Leaf | XML_Model.CElement i => r = Some (ids i) /\ at_ (ids i) (parts (ids i)) end.
  Definition rep (el : element) (x : nat) : Prop :=
    at_ x (parts x) /\ at_ (1 + x) Leaf /\ (exists es, at_ (2 + x) (Hash es) /\ Forall2 attr_for (eattributes el) es) /\ (exists rs, at_ (3 + x) (Arr rs) /\ Forall2 child_for (eelements el) rs).
End Expected.
Lemma f2_impl {A B} (P Q : A -> B -> Prop) l l' : (forall a b, P a b -> Q a b) -> Forall2 P l l' -> Forall2 Q l l'.
Proof. intros H. induction 1; constructor; auto. Qed.
Lemma rep_mono (at1 at2 : nat -> body -> Prop) ks ks' ids el x : (forall y b, at1 y b -> at2 y b) -> (forall y t, at1 y Leaf -> text_of ks y = Some t -> text_of ks' y = Some t) -> rep at1 ks ids el x -> rep at2 ks' ids el x.
Proof.
  intros M T (R1 & R2 & (es & R3 & F3) & (rs & R4 & F4)). split; [apply M, R1|]. split; [apply M, R2|]. split; [exists es; split; [apply M, R3|]|exists rs; split; [apply M, R4|]].
  - apply f2_impl with (2 := F3). intros kv e (E1 & E2 & v & E3 & E4). split; [exact (T _ _ E2 E1)|]. split; [apply M, E2|]. exists v. split; [exact E3|apply M, E4].
  - apply f2_impl with (2 := F4). intros [t|i] r; cbn; [intros (y & Y & L); exists y; split; [exact Y|apply M, L]|intros (Y & L); split; [exact Y|apply M, L]].
Qed.
(** The numbers of the other objects do not matter. *)
Lemma rep_ids at_ ks ids ids' el x : (forall i, In (XML_Model.CElement i) (eelements el) -> ids' i = ids i) -> rep at_ ks ids el x -> rep at_ ks ids' el x.
Proof.
  intros H (R1 & R2 & R3 & (rs & R4 & F4)). split; [exact R1|]. split; [exact R2|]. split; [exact R3|]. exists rs. split; [exact R4|]. clear R4. remember (eelements el) as cs0 eqn:Q0. clear Q0. revert H. induction F4 as [|c r cs rs C F IH]; intros H; constructor.
  - destruct c as [t|i]; [exact C|]. cbn in *. rewrite (H i) by (left; reflexivity). exact C.
  - apply IH. intros i I. apply H. right. exact I.
Qed.
Definition links (h : list element) : Prop := forall i, 0 < i -> i < length h -> exists j el, j < i /\ nth_error h j = Some el /\ In (XML_Model.CElement i) (eelements el).
Lemma f2_in_l {A B} (P : A -> B -> Prop) l l' a : Forall2 P l l' -> In a l -> exists b, In b l' /\ P a b.
Proof. induction 1 as [|x y l l' H F IH]; intros I; [destruct I|]. destruct I as [->|I]; [exists y; split; [left; reflexivity|exact H]|]. destruct (IH I) as (b & Hb & Q). exists b. split; [right; exact Hb|exact Q]. Qed.
Lemma f2_in_r {A B} (P : A -> B -> Prop) l l' b : Forall2 P l l' -> In b l' -> exists a, In a l /\ P a b.
Proof. induction 1 as [|x y l l' H F IH]; intros I; [destruct I|]. destruct I as [->|I]; [exists x; split; [left; reflexivity|exact H]|]. destruct (IH I) as (a & A' & Q). exists a. split; [right; exact A'|exact Q]. Qed.
Lemma f2_with {A B} (P Q : A -> B -> Prop) l l' : (forall a b, In b l' -> P a b -> Q a b) -> Forall2 P l l' -> Forall2 Q l l'.
Proof. intros H F. induction F as [|x y l l' P0 F IH]; constructor; [apply H; [left; reflexivity|exact P0]|]. apply IH. intros a b I. apply H. right. exact I. Qed.

(** What is expected is there when what is there is as expected. *)
Section Settle.
  Variable at_ : nat -> body -> Prop.
  Variable ks : list (nat * list N).
  Variable ids : nat -> nat.
  Variable h : list element.
  Variable s : state.
  Hypothesis I : Inv s [].
  Hypothesis A : forall y b, at_ y b -> lives s y -> has s y b.
  Hypothesis R : 0 < length h -> In (ids 0) (hands s).
  Hypothesis L : links h.
  Hypothesis E : forall i el, nth_error h i = Some el -> rep at_ ks ids el (ids i).
  Lemma hand_lives x : In x (hands s) -> lives s x.
  Proof. intros H. destruct (inv_owned s [] x I H) as (b & n & N). exists n, b. exact N. Qed.
  Lemma member_lives x b y : has s x b -> In y (members b) -> lives s y.
  Proof. intros (n & N) M. exact (members_live s x n b y I N M). Qed.
  Lemma settle_live : forall i, i < length h -> lives s (ids i).
  Proof.
    induction i as [i IH] using lt_wf_ind. intros Hi. destruct i as [|i]; [apply hand_lives, R, Hi|]. destruct (L (S i) ltac:(lia) Hi) as (j & el & J & N & C). specialize (IH j J ltac:(lia)).
    destruct (E j el N) as (R1 & _ & _ & (rs & R4 & F4)). pose proof (A _ _ R1 IH) as P. assert (L3: lives s (3 + ids j)) by (apply (member_lives _ _ _ P); right; right; left; reflexivity). pose proof (A _ _ R4 L3) as P3.
    destruct (f2_in_l _ _ _ _ F4 C) as (r & Ir & (-> & _)). apply (member_lives _ _ _ P3). exact (in_somes _ _ Ir).
  Qed.
  Lemma settle i el : nth_error h i = Some el -> rep (has s) ks ids el (ids i).
  Proof.
    intros N. pose proof (settle_live i (nth_len _ _ _ N)) as Lv. destruct (E i el N) as (R1 & R2 & (es & R3 & F3) & (rs & R4 & F4)). pose proof (A _ _ R1 Lv) as P.
    assert (L1: lives s (1 + ids i)) by (apply (member_lives _ _ _ P); left; reflexivity). assert (L2: lives s (2 + ids i)) by (apply (member_lives _ _ _ P); right; left; reflexivity). assert (L3: lives s (3 + ids i)) by (apply (member_lives _ _ _ P); right; right; left; reflexivity).
    pose proof (A _ _ R3 L2) as P2. pose proof (A _ _ R4 L3) as P3. split; [exact P|]. split; [exact (A _ _ R2 L1)|]. split; [exists es; split; [exact P2|]|exists rs; split; [exact P3|]].
    - apply f2_with with (2 := F3). intros kv (k, r) Ie (E1 & E2 & v & E3 & E4). cbn [fst snd] in *. subst r. split; [exact E1|]. split; [apply (A _ _ E2), (member_lives _ _ _ P2); cbn [members]; apply in_flat_map; exists (k, Some v); split; [exact Ie|left; reflexivity]|].
      exists v. split; [reflexivity|]. apply (A _ _ E4), (member_lives _ _ _ P2). cbn [members]. apply in_flat_map. exists (k, Some v). split; [exact Ie|right; left; reflexivity].
    - apply f2_with with (2 := F4). intros [t|j] r Ir; cbn.
      + intros (x & -> & X). exists x. split; [reflexivity|]. apply (A _ _ X), (member_lives _ _ _ P3), in_somes, Ir.
      + intros (-> & X). split; [reflexivity|]. apply (A _ _ X), (member_lives _ _ _ P3), in_somes, Ir.
  Qed.
End Settle.
Lemma has_fun s y b b' : has s y b -> has s y b' -> b = b'.
Proof. intros (n & N) (m & M). congruence. Qed.
Lemma rep_spec s ks ids el x : rep (has s) ks ids el x -> element_for s ids el x.
Proof.
  intros ((n & N) & R2 & (es & (n3 & N3) & F3) & (rs & (n4 & N4) & F4)). exists n, (1 + x), (2 + x), (3 + x). split; [exact N|]. split; [exact R2|]. split; [exists n3, es; split; [exact N3|]|exists n4, rs; split; [exact N4|]].
  - apply f2_impl with (2 := F3). intros kv e (_ & E2 & E3). split; [exact E2|exact E3].
  - apply f2_impl with (2 := F4). intros [t|i] r; cbn; [auto|intros (Y & _); exact Y].
Qed.

(** ** Adding to a list that something holds *)
Lemma has_counted s x b : Inv s [] -> has s x b -> counted s [] x.
Proof. intros (P & C) (n & N). unfold counted. specialize (C x). unfold rc in C. rewrite N in C. pose proof (P _ _ _ N). lia. Qed.
Lemma append_any B s d l x b : Inv s [] -> up any B s -> B <= d -> has s d (Arr l) -> has s x b -> d < x ->
  exists s', append s d (Some x) = Ok s' /\ Inv s' [] /\ hands s' = hands s /\ later any B s s' /\ has s' d (Arr (l ++ [Some x])) /\ forall y c, y <> d -> has s y c -> has s' y c.
Proof.
  intros I U D (n & N) Hx X. unfold append, list_of, body_of. rewrite N. cbn [obind]. match goal with |- exists s', ?t = _ /\ _ => change t with (splice s d (length l) 0 (@cons Own_Model.ref (@Some nat x) (@nil Own_Model.ref))) end. rewrite (splice_end s d l (Some x) n N).
  destruct (retain_ref s [] (Some x) I (has_counted s x b I Hx)) as (s1 & E1 & I1 & F1). rewrite E1. cbn [obind]. unfold list_of, body_of. rewrite N. cbn [obind]. rewrite Nat.add_0_r, firstn_all, skipn_all, app_nil_r.
  assert (N1: has s1 d (Arr l)) by exact (frame_has _ _ _ _ _ F1 Logic.I (ex_intro _ n N)).
  destruct (set_body_ok s1 _ [] d _ (Arr (l ++ [Some x])) I1 N1) as (s2 & E2 & I2 & K2 & B2). { intros y. cbn [members]. rewrite somes_app, cnt_app. cbn [app somes flat_map]. cbn [count_occ]. destruct (Nat.eq_dec x y); lia. }
  exists s2. assert (E2': set_list s1 d (l ++ [Some x]) = Ok s2). { unfold set_list. destruct N1 as (m & N1). unfold body_of. rewrite N1. cbn [obind]. exact E2. }
  split; [exact E2'|]. split; [exact I2|]. split; [rewrite (proj1 K2); exact (proj1 F1)|].
  assert (L1: later any B s s1) by (apply (retain_later any B s (Some x) s1 U) with (2 := E1); cbn; lia).
  destruct N1 as (m & N1). pose proof (proj1 (proj2 (proj2 L1) d m _ D N1)) as W. cbn [members] in W. pose proof E2 as E3. unfold set_body in E3. rewrite N1 in E3. injection E3 as E3.
  split; [|split; [exact B2|]].
  - apply (later_trans _ _ _ _ _ L1). rewrite <- E3. apply (set_later any B s1 d _ _ (proj2 (proj2 L1)) D N1). intros m' b' Q. injection Q as _ <-. split; [|intros; exact Logic.I]. cbn [members]. rewrite somes_app. apply Forall_app. split; [exact W|]. constructor; [exact X|constructor].
  - intros y c Y Hy. destruct (frame_has _ _ _ _ _ F1 Logic.I Hy) as (k & K). exists k. rewrite <- E3, set_cell_other by congruence. exact K.
Qed.
(** Giving up what something else holds, or an object without members. *)
Lemma drop_nil f s : drop f s [] = Ok s.
Proof. destruct f; reflexivity. Qed.
Lemma give_held B s x : Inv s [] -> up any B s -> B <= x -> In x (hands s) -> In x (content s) ->
  exists s', give_up s (Some x) = Ok s' /\ Inv s' [] /\ hands s' = take x (hands s) /\ later any B s s' /\ forall y c, has s y c -> has s' y c.
Proof.
  intros I U X H C. destruct (release_one (fun _ _ => false) any B s x I H X U) as (s' & E & I' & H' & T). exists s'. split; [exact E|]. split; [exact I'|]. split; [exact H'|]. split; [exact T|].
  intros y c (n & N). cbn [step] in E. unfold release in E. cbn [length plus drop cells] in E. pose proof (proj2 I x) as Cx. unfold rc in Cx. apply cnt_in in H. apply cnt_in in C.
  destruct (nth_error (cells s) x) as [[[|[|k]] b|]|] eqn:Nx; try discriminate; try lia. rewrite drop_nil in E. injection E as <-. destruct (Nat.eq_dec x y) as [->|D].
  - rewrite N in Nx. injection Nx as -> ->. exists (S k). cbn [set_cell cells]. apply nth_error_upd_eq. exact (nth_len _ _ _ N).
  - exists n. cbn [set_cell cells]. rewrite nth_error_upd_neq by exact D. exact N.
Qed.
Lemma release_leaf s x e : Inv s (x :: e) -> has s x Leaf -> exists s', release s [x] = Ok s' /\ Inv s' e /\ hands s' = hands s /\ forall y c, y <> x -> has s y c -> has s' y c.
Proof.
  intros I (n & N). destruct (release_ok [x] s e I) as (s' & E & I' & (H & _)). exists s'. split; [exact E|]. split; [exact I'|]. split; [exact H|]. intros y c Y (m & M). unfold release in E. cbn [length plus drop] in E. rewrite N in E.
  exists m. destruct n as [|[|k]]; [discriminate| |]; cbn [members app] in E; rewrite drop_nil in E; injection E as <-; cbn [set_cell cells]; rewrite nth_error_upd_neq by congruence; exact M.
Qed.
