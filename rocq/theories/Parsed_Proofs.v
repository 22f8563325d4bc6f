(** Proofs about the objects that parsing JSON makes: what is above a given object. *)
Require Import Coq.ZArith.ZArith Coq.NArith.NArith Coq.Lists.List Coq.Bool.Bool Coq.Arith.Arith Coq.micromega.Lia.
Require Import Verif.Base Verif.Own_Model Verif.Own_Spec Verif.Own_Proofs Verif.Own_Calls.
Require Verif.HashTable_Model.
Import ListNotations.

(** From [a] on, what a collection holds was made after it; [a] itself is of a kind [P]. *)
Definition up (P : body -> Prop) (a : nat) (s : state) : Prop :=
  forall y n b, a <= y -> nth_error (cells s) y = Some (Live n b) -> Forall (lt y) (members b) /\ (y = a -> P b).
(** Nothing before [a] is changed. *)
Definition later (P : body -> Prop) (a : nat) (s s' : state) : Prop :=
  length (cells s') = length (cells s) /\ (forall y, y < a -> nth_error (cells s') y = nth_error (cells s) y) /\ up P a s'.
Section Later.
  Variable P : body -> Prop.
  Variable a : nat.
  Notation later := (later P a).
  Notation up := (up P a).
  Lemma later_refl s : up s -> later s s.
  Proof. intros U. split; [reflexivity|]. split; [reflexivity|exact U]. Qed.
  Lemma later_trans s s' s'' : later s s' -> later s' s'' -> later s s''.
  Proof. intros (L & E & U) (L' & E' & U'). split; [congruence|]. split; [|exact U']. intros y Y. rewrite E', E by exact Y. reflexivity. Qed.
  Lemma set_later s x c c' : up s -> a <= x -> nth_error (cells s) x = Some c ->
    (forall n b, c' = Live n b -> Forall (lt x) (members b) /\ (x = a -> P b)) -> later s (set_cell s x c').
  Proof.
    intros U X E H. split; [apply upd_length|]. split.
    - intros y Y. apply set_cell_other. lia.
    - intros y n b Y N. destruct (Nat.eq_dec x y) as [->|D].
      + rewrite (set_cell_same _ _ _ _ E) in N. injection N as N. exact (H n b N).
      + rewrite set_cell_other in N by exact D. exact (U y n b Y N).
  Qed.
  Lemma retain_later s r s' : up s -> ref_in (le a) r -> retain s r = Ok s' -> later s s'.
  Proof.
    intros U R E. destruct r as [x|]; cbn [retain] in E; [|injection E as <-; apply later_refl, U].
    destruct (nth_error (cells s) x) as [[[|n] b|]|] eqn:N; try discriminate. injection E as <-. apply (set_later s x _ _ U R N). intros m b' Q. injection Q as _ <-. exact (U x _ b R N).
  Qed.
  Lemma drop_later : forall f s xs s', up s -> Forall (le a) xs -> drop f s xs = Ok s' -> later s s'.
  Proof.
    induction f as [|f IH]; intros s [|x xs] s' U F E; cbn [drop] in E; try discriminate; try (injection E as <-; apply later_refl, U).
    inversion F as [|? ? X F']; subst. destruct (nth_error (cells s) x) as [[[|n] b|]|] eqn:N; try discriminate. destruct n as [|n].
    - assert (L: later s (set_cell s x Freed)) by (apply (set_later s x _ _ U X N); discriminate). apply (later_trans _ _ _ L). apply (IH _ _ _ (proj2 (proj2 L))) with (2 := E).
      apply Forall_app. split; [|exact F']. apply Forall_impl with (2 := proj1 (U x _ b X N)). intros z Z. lia.
    - assert (L: later s (set_cell s x (Live (S n) b))). { apply (set_later s x _ _ U X N). intros m b' Q. injection Q as _ <-. exact (U x _ b X N). }
      apply (later_trans _ _ _ L). exact (IH _ _ _ (proj2 (proj2 L)) F' E).
  Qed.
  Lemma release_later s xs s' : up s -> Forall (le a) xs -> release s xs = Ok s' -> later s s'.
  Proof. intros U F E. exact (drop_later _ _ _ _ U F E). Qed.
  Lemma body_later s b s' : up s -> Forall (lt a) (members b) -> P b -> set_body s a b = Ok s' -> later s s'.
  Proof.
    intros U M H E. unfold set_body in E. destruct (nth_error (cells s) a) as [[n b0|]|] eqn:N; try discriminate. injection E as <-. apply (set_later s a _ _ U (Nat.le_refl a) N).
    intros m b' Q. injection Q as _ <-. auto.
  Qed.
End Later.
Lemma refs_in (Q : nat -> Prop) r : Forall Q (somes [r]) <-> ref_in Q r.
Proof. destruct r as [x|]; cbn; split; intros H; [inversion H; assumption|constructor; [exact H|constructor]|exact Logic.I|constructor]. Qed.
Definition is_arr (b : body) : Prop := exists l, b = Arr l.
Definition is_hash (b : body) : Prop := exists es, b = Hash es.

(** Adding to an array. *)
Lemma splice_end s a l x n : nth_error (cells s) a = Some (Live n (Arr l)) -> splice s a (length l) 0 [x] = do s1 <- retain s x; do l1 <- list_of s a; set_list s1 a (firstn (length l + 0) l ++ [x] ++ skipn (length l + 0) l).
Proof.
  intros N. unfold splice, body_of. rewrite N. cbn [obind]. replace (length l <? length l + 0) with false by (symmetry; apply Nat.ltb_ge; lia).
  unfold array_splice. cbn [Nat.min length firstn overwrite obind]. unfold list_of, body_of. rewrite N. cbn [obind]. cbn [Nat.ltb Nat.leb skipn retain_all].
  destruct (retain s x) as [s1| | |]; reflexivity.
Qed.
Lemma append_ok s a l n x : Inv s [] -> nth_error (cells s) a = Some (Live n (Arr l)) -> In a (hands s) -> ref_in (own s) x -> ref_in (lt a) x -> up is_arr a s ->
  exists s', splice s a (length l) 0 [x] = Ok s' /\ Inv s' [] /\ hands s' = hands s /\ later is_arr a s s'.
Proof.
  intros I N A O X U.
  destruct (splice_ok s [] a (length l) 0 [x] I A) as [F|(s' & E & I' & (H & _))].
  - constructor; [|constructor]. destruct x as [x|]; [apply own_counted, O|exact Logic.I].
  - intros (Z & _). congruence.
  - exfalso. rewrite (splice_end s a l x n N) in F. destruct (retain s x) as [s1| | |] eqn:R; try discriminate.
    + cbn [obind] in F. unfold list_of, body_of in F. rewrite N in F. cbn [obind] in F. unfold set_list, body_of, set_body in F. destruct x as [x|]; cbn [retain] in R; [|injection R as <-; rewrite N in F; discriminate].
      destruct (nth_error (cells s) x) as [[[|m] b|]|] eqn:Nx; try discriminate. injection R as <-. destruct (Nat.eq_dec x a) as [->|D]; [cbn in X; lia|]. rewrite set_cell_other, N in F by exact D. discriminate.
    + destruct x as [x|]; cbn [retain] in R; [|discriminate]. destruct (nth_error (cells s) x) as [[[|m] b|]|]; discriminate.
  - exists s'. split; [exact E|]. split; [exact I'|]. split; [exact H|]. rewrite (splice_end s a l x n N) in E. apply bind_ok in E. destruct E as (s1 & R & E). apply bind_ok in E. destruct E as (l1 & _ & E).
    assert (L1: later is_arr a s s1) by (apply (retain_later is_arr a s x s1 U); [destruct x; cbn in *; [lia|exact Logic.I]|exact R]). apply (later_trans _ _ _ _ _ L1).
    unfold set_list in E. apply bind_ok in E. destruct E as (b & B & E). assert (W: Forall (lt a) (somes l)) by exact (proj1 (U a n (Arr l) (Nat.le_refl a) N)).
    destruct b as [|l0|l0|es|es|p q]; try discriminate.
    + apply (body_later is_arr a s1 _ s' (proj2 (proj2 L1))) with (3 := E); [|eexists; reflexivity]. cbn [members]. rewrite Nat.add_0_r, firstn_all, skipn_all, app_nil_r, somes_app. apply Forall_app. split; [exact W|apply refs_in, X].
    + exfalso. unfold body_of in B. destruct (nth_error (cells s1) a) as [[m b|]|] eqn:N1; try discriminate. injection B as ->. destruct (proj2 (proj2 (proj2 L1) a m _ (Nat.le_refl a) N1) eq_refl) as (l' & Q). discriminate.
Qed.
(** Adding to a dictionary. *)
Lemma find_entry keq es k k' v : find_key keq es k = Some (k', v) -> In (k', v) es.
Proof. induction es as [|e es IH]; cbn [find_key]; [discriminate|]. destruct (keq (fst e) k); intros E; [injection E as ->; left; reflexivity|right; exact (IH E)]. Qed.
Lemma entries_forall (Q : nat -> Prop) es : Forall Q (of_entries es) <-> Forall (fun e => Q (fst e) /\ ref_in Q (snd e)) es.
Proof.
  induction es as [|e es IH]; [split; constructor|]. change (of_entries (e :: es)) with ((fst e :: somes [snd e]) ++ of_entries es). rewrite Forall_app, IH, Forall_cons_iff, Forall_cons_iff, refs_in. tauto.
Qed.
Lemma set_key_forall (Q : nat -> Prop) keq es k v : Forall (fun e => Q (fst e) /\ ref_in Q (snd e)) es -> ref_in Q v -> Forall (fun e => Q (fst e) /\ ref_in Q (snd e)) (set_key keq es k v).
Proof. induction 1 as [|e es H F IH]; intros V; cbn [set_key]; [constructor|]. destruct (keq (fst e) k); constructor; auto. split; [apply H|exact V]. Qed.
Lemma hash_later keq s a es k v s' : up is_hash a s -> Forall (lt a) (of_entries es) -> a < k -> ref_in (lt a) v -> hash_put keq s a es k v HashTable_Model.InsertAlways = Ok s' -> later is_hash a s s'.
Proof.
  intros U F K V E. unfold hash_put in E. assert (V': ref_in (le a) v) by (destruct v; cbn in *; [lia|exact Logic.I]). pose proof (proj1 (entries_forall _ _) F) as F'.
  apply bind_ok in E. destruct E as (s1 & E1 & E). assert (L1: later is_hash a s s1) by (apply (retain_later is_hash a s (Some k) s1 U); [cbn; lia|exact E1]).
  apply bind_ok in E. destruct E as (s2 & E2 & E). assert (L2: later is_hash a s1 s2).
  { destruct (find_key keq es k) as [(k', old)|] eqn:Fk.
    - assert (Old: ref_in (lt a) old) by (rewrite Forall_forall in F'; exact (proj2 (F' _ (find_entry _ _ _ _ _ Fk)))).
      assert (E2': (if same old v then Ok s1 else do s <- set_body s1 a (Hash (set_key keq es k None)); do s <- release_ref s old; do s <- retain s v; set_body s a (Hash (set_key keq es k v))) = Ok s2) by exact E2. clear E2.
      destruct (same old v); [injection E2' as <-; apply later_refl, L1|]. apply bind_ok in E2'. destruct E2' as (s3 & E3 & E2'). apply bind_ok in E2'. destruct E2' as (s4 & E4 & E2'). apply bind_ok in E2'. destruct E2' as (s5 & E5 & E6).
      assert (L3: later is_hash a s1 s3) by (apply (body_later is_hash a s1 _ s3 (proj2 (proj2 L1))) with (3 := E3); [apply entries_forall, set_key_forall; [exact F'|exact Logic.I]|eexists; reflexivity]).
      assert (L4: later is_hash a s3 s4) by (apply (release_later is_hash a s3 _ s4 (proj2 (proj2 L3))) with (2 := E4); apply refs_in; destruct old; cbn in *; [lia|exact Logic.I]).
      assert (L5: later is_hash a s4 s5) by (apply (retain_later is_hash a s4 _ s5 (proj2 (proj2 L4))) with (2 := E5); exact V').
      assert (L6: later is_hash a s5 s2) by (apply (body_later is_hash a s5 _ s2 (proj2 (proj2 L5))) with (3 := E6); [apply entries_forall, set_key_forall; [exact F'|exact V]|eexists; reflexivity]).
      exact (later_trans _ _ _ _ _ L3 (later_trans _ _ _ _ _ L4 (later_trans _ _ _ _ _ L5 L6))).
    - cbv beta iota in E2. apply bind_ok in E2. destruct E2 as (s3 & E3 & E2). apply bind_ok in E2. destruct E2 as (s4 & E4 & E5).
      assert (L3: later is_hash a s1 s3) by (apply (retain_later is_hash a s1 (Some k) s3 (proj2 (proj2 L1))); [cbn; lia|exact E3]).
      assert (L4: later is_hash a s3 s4) by (apply (retain_later is_hash a s3 _ s4 (proj2 (proj2 L3))) with (2 := E4); exact V').
      assert (L5: later is_hash a s4 s2). { apply (body_later is_hash a s4 _ s2 (proj2 (proj2 L4))) with (3 := E5); [|eexists; reflexivity]. apply entries_forall, Forall_app. split; [exact F'|]. constructor; [split; [exact K|exact V]|constructor]. }
      exact (later_trans _ _ _ _ _ L3 (later_trans _ _ _ _ _ L4 L5)). }
  apply (later_trans _ _ _ _ _ L1), (later_trans _ _ _ _ _ L2). apply (release_later is_hash a s2 [k] s' (proj2 (proj2 L2))); [constructor; [lia|constructor]|exact E].
Qed.
Lemma put_fine keq s a n es k v : Inv s [] -> nth_error (cells s) a = Some (Live n (Hash es)) -> In a (hands s) -> In k (hands s) -> ref_in (own s) v -> a < k -> ref_in (lt a) v -> up is_hash a s ->
  exists s', put keq s a k v HashTable_Model.InsertAlways = Ok s' /\ Inv s' [] /\ hands s' = hands s /\ later is_hash a s s'.
Proof.
  intros I N A Hk O K V U. unfold put, body_of. rewrite N. cbn [obind].
  destruct (hash_put_ok keq s [] a es k v HashTable_Model.InsertAlways I A (ex_intro _ n N)) as (s' & E & I' & (H & _)).
  - apply own_counted, Hk.
  - destruct v as [x|]; [apply own_counted, O|exact Logic.I].
  - intros _. exact O.
  - exists s'. split; [exact E|]. split; [exact I'|]. split; [exact H|]. apply (hash_later keq s a es k v s' U) with (4 := E); auto. exact (proj1 (U a n _ (Nat.le_refl a) N)).
Qed.
(** Giving up the last reference taken. *)
Lemma take_last x l : ~ In x l -> take x (l ++ [x]) = l.
Proof. induction l as [|y l IH]; cbn [take app]; intros N; [rewrite Nat.eqb_refl; reflexivity|]. destruct (Nat.eqb_spec x y) as [->|D]; [exfalso; apply N; left; reflexivity|]. rewrite IH; [reflexivity|]. intros H. apply N. right. exact H. Qed.
Lemma release_one keq P a s x : Inv s [] -> In x (hands s) -> a <= x -> up P a s ->
  exists s', step keq s (Release x) = Ok s' /\ Inv s' [] /\ hands s' = take x (hands s) /\ later P a s s'.
Proof.
  intros I H X U. cbn [step]. destruct (release_ok [x] (mkS (cells s) (take x (hands s))) []) as (s' & E & I' & (Hs & _)).
  - split; [exact (proj1 I)|]. intros y. pose proof (proj2 I y) as C. unfold rc in *. cbn [cells hands content] in *. rewrite app_nil_r. pose proof (cnt_take x (hands s) y H). change (content {| cells := cells s; hands := take x (hands s) |}) with (content s). cbn [count_occ] in C. lia.
  - exists s'. split; [exact E|]. split; [exact I'|]. split; [exact Hs|]. change (later P a (mkS (cells s) (take x (hands s))) s'). apply (release_later P a) with (3 := E); [exact U|]. constructor; [exact X|constructor].
Qed.
