(** Proofs about what keeps objects alive: the calls. *)
Require Import Coq.Lists.List Coq.Bool.Bool Coq.Arith.Arith Coq.micromega.Lia.
Require Import Verif.Base Verif.Own_Model Verif.Own_Spec Verif.Own_Proofs.
Require Verif.HashTable_Model.
Import ListNotations.

Definition has (s : state) (y : nat) (b : body) : Prop := exists n, nth_error (cells s) y = Some (Live n b).
(** All but [a] of what the program has is as before. *)
Definition keeps (a : nat) (s s' : state) : Prop := hands s' = hands s /\ forall y, y <> a -> In y (hands s) -> forall b, has s y b -> has s' y b.
Lemma keeps_refl a s : keeps a s s.
Proof. split; [reflexivity|auto]. Qed.
Lemma keeps_trans a s s' s'' : keeps a s s' -> keeps a s' s'' -> keeps a s s''.
Proof. intros (H & K) (H' & K'). split; [congruence|]. intros y NE I b B. apply K'; [exact NE|rewrite H; exact I|]. exact (K y NE I b B). Qed.
Lemma frame_has (P : nat -> Prop) s s' y b : frame P s s' -> P y -> has s y b -> has s' y b.
Proof. intros (_ & F) Y (n & E). exact (F y Y n b E). Qed.
Lemma frame_keeps (P : nat -> Prop) a s s' : (forall y, In y (hands s) -> P y) -> frame P s s' -> keeps a s s'.
Proof. intros H F. split; [apply F|]. intros y _ I b B. exact (frame_has P s s' y b F (H y I) B). Qed.
Lemma inv_owned s e x : Inv s e -> In x (hands s) -> exists b, has s x b.
Proof. intros I H. apply cnt_in in H. destruct (inv_live s e x I ltac:(lia)) as (n & b & E). exists b, (S n). exact E. Qed.
Lemma somes_one r : somes [r] = match r with Some x => [x] | None => [] end.
Proof. destruct r; reflexivity. Qed.
Lemma somes_cons r l : somes (r :: l) = somes [r] ++ somes l.
Proof. unfold somes. cbn [flat_map]. rewrite app_nil_r. reflexivity. Qed.
Lemma somes_app l l' : somes (l ++ l') = somes l ++ somes l'.
Proof. apply flat_map_app. Qed.

(** Objects that exist: those in hands and those held by a collection are. *)
Definition counted (s : state) (e : list nat) (x : nat) : Prop := 0 < cnt e x + cnt (hands s) x + cnt (content s) x.
Lemma own_counted s e x : In x (hands s) -> counted s e x.
Proof. intros H. apply cnt_in in H. unfold counted. lia. Qed.
Lemma retain_ref s e r : Inv s e -> ref_in (counted s e) r -> exists s', retain s r = Ok s' /\ Inv s' (somes [r] ++ e) /\ frame (fun _ => True) s s'.
Proof.
  intros I R. destruct r as [x|]; cbn [retain].
  - destruct (retain_ok (fun _ => True) s e x I R) as (s' & E & I' & F & _). eauto.
  - exists s. split; [reflexivity|]. split; [exact I|apply frame_refl].
Qed.
Lemma retain_own s e r : Inv s e -> ref_in (own s) r -> exists s', retain s r = Ok s' /\ Inv s' (somes [r] ++ e) /\ frame (fun _ => True) s s'.
Proof. intros I R. apply retain_ref; [exact I|]. destruct r; [apply own_counted; exact R|exact R]. Qed.
Lemma retain_more s e r : Inv s e -> ref_in (counted s e) r -> exists s', retain s r = Ok s' /\ Inv s' (somes [r] ++ e) /\ frame (fun _ => True) s s' /\ content s' = content s.
Proof.
  intros I R. destruct r as [x|]; cbn [retain].
  - destruct (retain_ok (fun _ => True) s e x I R) as (s' & E & I' & F & C). eauto.
  - exists s. split; [reflexivity|]. split; [exact I|]. split; [apply frame_refl|reflexivity].
Qed.
Lemma counted_more s s' e e' r : hands s' = hands s -> content s' = content s -> ref_in (counted s e) r -> ref_in (counted s' (e' ++ e)) r.
Proof. intros H C. destruct r; cbn; [|auto]. unfold counted. rewrite H, C, cnt_app. lia. Qed.
Lemma own_hands s s' r : hands s' = hands s -> ref_in (own s) r -> ref_in (own s') r.
Proof. intros H. destruct r; cbn; [unfold own; rewrite H|]; auto. Qed.
Lemma own_all s s' xs : hands s' = hands s -> Forall (ref_in (own s)) xs -> Forall (ref_in (own s')) xs.
Proof. intros H. apply Forall_impl. intros r. apply own_hands, H. Qed.
Lemma inv_perm s e e' : (forall x, cnt e' x = cnt e x) -> Inv s e -> Inv s e'.
Proof. intros H (P & C). split; [exact P|]. intros x. rewrite H. apply C. Qed.
Ltac perm := let x := fresh "x" in intros x; repeat rewrite ?cnt_app, ?app_nil_r; lia.

(** ** Writing a body *)
Lemma set_body_ok s e e' a b b' : Inv s e -> has s a b -> (forall x, cnt e' x + cnt (members b') x = cnt e x + cnt (members b) x) ->
  exists s', set_body s a b' = Ok s' /\ Inv s' e' /\ keeps a s s' /\ has s' a b'.
Proof.
  intros I (n & E) H. unfold set_body. rewrite E. eexists. split; [reflexivity|]. split; [|split].
  - apply (set_cell_inv s e e' a n b _ I E); [exact (proj1 I _ _ _ E)|]. intros x. specialize (H x). cbn [held_by]. destruct (Nat.eq_dec a x); lia.
  - split; [reflexivity|]. intros y NE _ d (m & D). exists m. rewrite set_cell_other by auto. exact D.
  - exists n. exact (set_cell_same _ _ _ _ E).
Qed.
Lemma body_ok s a b : has s a b -> body_of s a = Ok b.
Proof. intros (n & E). unfold body_of. rewrite E. reflexivity. Qed.
Definition is_list (b : body) (l : list ref) : Prop := b = Arr l \/ b = Lnk l.
Definition lists (s : state) (a : nat) (l : list ref) : Prop := exists b, is_list b l /\ has s a b.
Lemma list_ok s a l : lists s a l -> list_of s a = Ok l.
Proof. intros (b & [-> | ->] & H); unfold list_of; rewrite (body_ok _ _ _ H); reflexivity. Qed.
Lemma set_list_ok s e e' a l l' : Inv s e -> lists s a l -> (forall x, cnt e' x + cnt (somes l') x = cnt e x + cnt (somes l) x) ->
  exists s', set_list s a l' = Ok s' /\ Inv s' e' /\ keeps a s s' /\ lists s' a l'.
Proof.
  intros I (b & [-> | ->] & H) Q; unfold set_list; rewrite (body_ok _ _ _ H); cbn [obind].
  - destruct (set_body_ok s e e' a (Arr l) (Arr l') I H Q) as (s' & E & I' & K & B). exists s'. split; [exact E|]. split; [exact I'|]. split; [exact K|]. exists (Arr l'). split; [left; reflexivity|exact B].
  - destruct (set_body_ok s e e' a (Lnk l) (Lnk l') I H Q) as (s' & E & I' & K & B). exists s'. split; [exact E|]. split; [exact I'|]. split; [exact K|]. exists (Lnk l'). split; [right; reflexivity|exact B].
Qed.
Lemma frame_lists (P : nat -> Prop) s s' a l : frame P s s' -> P a -> lists s a l -> lists s' a l.
Proof. intros F A (b & B & H). exists b. split; [exact B|]. exact (frame_has P s s' a b F A H). Qed.

(** ** Lists *)
Lemma cnt_upd l i r x : i < length l -> cnt (somes (upd l i r)) x + cnt (somes [nth i l None]) x = cnt (somes l) x + cnt (somes [r]) x.
Proof.
  revert i. induction l as [|y l IH]; intros [|i] L; cbn [length] in L; try lia; cbn [upd nth].
  - rewrite (somes_cons r l), (somes_cons y l), !cnt_app. lia.
  - rewrite (somes_cons y (upd l i r)), (somes_cons y l), !cnt_app. specialize (IH i ltac:(lia)). lia.
Qed.
Lemma upd_upd {A} (l : list A) i r r' : upd (upd l i r) i r' = upd l i r'.
Proof. revert i. induction l as [|y l IH]; intros [|i]; cbn [upd]; try reflexivity. rewrite IH. reflexivity. Qed.
Lemma nth_upd_same {A} (l : list A) i r d : i < length l -> nth i (upd l i r) d = r.
Proof. revert i. induction l as [|y l IH]; intros [|i] L; cbn [length] in L; try lia; cbn [upd nth]; [reflexivity|]. apply IH. lia. Qed.

(** One slot: take the old object out, then release it, then write. *)
Lemma slot_ok s e a l i r : Inv s (somes [r] ++ e) -> In a (hands s) -> lists s a l -> i < length l ->
  exists s1 s2 s3, set_list s a (upd l i None) = Ok s1 /\ release_ref s1 (nth i l None) = Ok s2 /\ set_list s2 a (upd l i r) = Ok s3 /\
    Inv s3 e /\ keeps a s s3 /\ lists s3 a (upd l i r).
Proof.
  intros I A L B.
  destruct (set_list_ok s _ (somes [nth i l None] ++ somes [r] ++ e) a l (upd l i None) I L) as (s1 & E1 & I1 & K1 & L1).
  { intros x. pose proof (cnt_upd l i None x B) as C. rewrite !cnt_app. change (somes [None]) with (@nil nat) in C. cbn [count_occ] in C. lia. }
  destruct (release_ok _ _ _ I1) as (s2 & E2 & I2 & F2).
  assert (A1 : In a (hands s1)) by (rewrite (proj1 K1); exact A).
  assert (L2 : lists s2 a (upd l i None)) by (apply (frame_lists _ _ _ _ _ F2); [left; exact A1|exact L1]).
  destruct (set_list_ok s2 _ e a (upd l i None) (upd l i r) I2 L2) as (s3 & E3 & I3 & K3 & L3).
  { intros x. pose proof (cnt_upd l i None x B) as C. pose proof (cnt_upd l i r x B) as C'. rewrite !cnt_app. change (somes [None]) with (@nil nat) in C. cbn [count_occ] in C. lia. }
  exists s1, s2, s3. split; [exact E1|]. split; [exact E2|]. split; [exact E3|]. split; [exact I3|]. split; [|exact L3].
  apply (keeps_trans a s s1 s3 K1). apply (keeps_trans a s1 s2 s3); [|exact K3]. apply (frame_keeps _ a s1 s2) with (2 := F2). auto.
Qed.
Lemma own_count s e xs : Forall (ref_in (own s)) xs -> Forall (ref_in (counted s e)) xs.
Proof. apply Forall_impl. intros [x|]; cbn; [apply own_counted|auto]. Qed.
Lemma overwrite_ok : forall xs s e a l i, Inv s e -> In a (hands s) -> lists s a l -> i + length xs <= length l -> (Forall (ref_in (own s)) xs \/ length xs <= 1 /\ Forall (ref_in (counted s e)) xs) ->
  exists s' l', overwrite s a i xs = Ok s' /\ Inv s' e /\ keeps a s s' /\ lists s' a l' /\ length l' = length l.
Proof.
  induction xs as [|x xs IH]; intros s e a l i I A L B O; cbn [overwrite].
  - exists s, l. split; [reflexivity|]. split; [exact I|]. split; [apply keeps_refl|]. auto.
  - assert (Ox : ref_in (counted s e) x). { destruct O as [O|(_ & O)]; [apply (own_count s e) in O|]; inversion O; assumption. }
    assert (Oxs : Forall (ref_in (own s)) xs). { destruct O as [O|(N & _)]; [inversion O; assumption|]. destruct xs; [constructor|cbn [length] in N; lia]. }
    destruct (retain_ref s e x I Ox) as (s0 & E0 & I0 & F0). rewrite E0. cbn [obind].
    pose proof (frame_lists _ _ _ _ _ F0 Logic.I L) as L0. rewrite (list_ok _ _ _ L0). cbn [obind]. cbv zeta.
    assert (A0 : In a (hands s0)) by (rewrite (proj1 F0); exact A). cbn [length] in B.
    destruct (slot_ok s0 e a l i x I0 A0 L0 ltac:(lia)) as (s1 & s2 & s3 & E1 & E2 & E3 & I3 & K3 & L3). rewrite E1. cbn [obind]. rewrite E2. cbn [obind]. rewrite E3. cbn [obind].
    assert (K : keeps a s s3) by (apply (keeps_trans a s s0 s3); [apply (frame_keeps _ a s s0) with (2 := F0); auto|exact K3]).
    destruct (IH s3 e a (upd l i x) (S i) I3) as (s' & l' & E & I' & K' & L' & N).
    + rewrite (proj1 K). exact A.
    + exact L3.
    + rewrite upd_length. lia.
    + left. exact (own_all s s3 xs (proj1 K) Oxs).
    + exists s', l'. split; [exact E|]. split; [exact I'|]. split; [exact (keeps_trans _ _ _ _ K K')|]. split; [exact L'|]. rewrite N. apply upd_length.
Qed.
Lemma retain_all_ok : forall xs s e, Inv s e -> Forall (ref_in (counted s e)) xs -> exists s', retain_all s xs = Ok s' /\ Inv s' (somes xs ++ e) /\ frame (fun _ => True) s s'.
Proof.
  induction xs as [|x xs IH]; intros s e I O; cbn [retain_all].
  - exists s. split; [reflexivity|]. split; [exact I|apply frame_refl].
  - inversion O as [|? ? Ox Oxs]; subst. destruct (retain_more s e x I Ox) as (s0 & E0 & I0 & F0 & C0). rewrite E0. cbn [obind].
    destruct (IH s0 _ I0) as (s' & E & I' & F).
    { apply (Forall_impl _) with (2 := Oxs). intros r. apply (counted_more s s0 e _ r (proj1 F0) C0). }
    exists s'. split; [exact E|]. split; [|exact (frame_trans _ _ _ _ F0 F)].
    apply (inv_perm s' _ _) with (2 := I'). intros y. rewrite (somes_cons x xs), !cnt_app. lia.
Qed.
Lemma split_at {A} (l : list A) i : l = firstn i l ++ skipn i l.
Proof. symmetry. apply firstn_skipn. Qed.
Lemma cnt_split l i x : cnt (somes l) x = cnt (somes (firstn i l)) x + cnt (somes (skipn i l)) x.
Proof. rewrite (split_at l i) at 1. rewrite somes_app, cnt_app. reflexivity. Qed.
Lemma skip_skip {A} (l : list A) : forall i j, skipn j (skipn i l) = skipn (i + j) l.
Proof. induction l as [|y l IH]; intros [|i] j; cbn [skipn plus]; try reflexivity; [apply skipn_nil|apply IH]. Qed.
Lemma cut_ok s e a l i n : Inv s e -> In a (hands s) -> lists s a l ->
  exists s1 s2, set_list s a (firstn i l ++ skipn (i + n) l) = Ok s1 /\ release s1 (somes (firstn n (skipn i l))) = Ok s2 /\
    Inv s2 e /\ keeps a s s2 /\ lists s2 a (firstn i l ++ skipn (i + n) l).
Proof.
  intros I A L.
  destruct (set_list_ok s e (somes (firstn n (skipn i l)) ++ e) a l (firstn i l ++ skipn (i + n) l) I L) as (s1 & E1 & I1 & K1 & L1).
  { intros x. rewrite somes_app, !cnt_app. pose proof (cnt_split l i x) as C. pose proof (cnt_split (skipn i l) n x) as C'. rewrite skip_skip in C'. lia. }
  destruct (release_ok _ _ _ I1) as (s2 & E2 & I2 & F2). assert (A1 : In a (hands s1)) by (rewrite (proj1 K1); exact A).
  exists s1, s2. split; [exact E1|]. split; [exact E2|]. split; [exact I2|]. split.
  - apply (keeps_trans a s s1 s2 K1). apply (frame_keeps _ a s1 s2) with (2 := F2). auto.
  - apply (frame_lists _ _ _ _ _ F2); [left; exact A1|exact L1].
Qed.
Lemma remove_ok s e a l i n : Inv s e -> In a (hands s) -> lists s a l ->
  exists s', list_remove s a i n = Ok s' /\ Inv s' e /\ keeps a s s' /\ lists s' a (firstn i l ++ skipn (i + n) l).
Proof.
  intros I A L. destruct (cut_ok s e a l i n I A L) as (s1 & s2 & E1 & E2 & I2 & K2 & L2). exists s2. split; [|auto].
  unfold list_remove. rewrite (list_ok _ _ _ L). cbn [obind]. rewrite E1. cbn [obind]. exact E2.
Qed.
(** The counts of what is in collections. *)
Lemma set_list_content s a l l' s' : lists s a l -> set_list s a l' = Ok s' -> forall x, cnt (content s') x + cnt (somes l) x = cnt (content s) x + cnt (somes l') x.
Proof.
  intros (b & B & (n & E)) Q x. unfold set_list, body_of in Q. rewrite E in Q. destruct B as [-> | ->]; cbn [obind] in Q; unfold set_body in Q; rewrite E in Q; injection Q as <-.
  - apply (set_cell_content s a _ (Live n (Arr l')) x E).
  - apply (set_cell_content s a _ (Live n (Lnk l')) x E).
Qed.
Definition grows (s s' : state) : Prop := forall x, cnt (content s) x <= cnt (content s') x.
(** What is inserted stays counted while collections grow and the program keeps what it has. *)
Lemma insert_ok : forall xs s e a l i, Inv s e -> In a (hands s) -> lists s a l ->
  (forall s', keeps a s s' -> grows s s' -> Forall (ref_in (counted s' e)) xs) ->
  exists s', list_insert s a i xs = Ok s' /\ Inv s' e /\ keeps a s s'.
Proof.
  induction xs as [|x xs IH]; intros s e a l i I A L O; cbn [list_insert].
  - exists s. split; [reflexivity|]. split; [exact I|apply keeps_refl].
  - pose proof (O s (keeps_refl a s) (fun y => Nat.le_refl _)) as Os. inversion Os as [|? ? Ox Oxs]; subst. destruct (retain_more s e x I Ox) as (s0 & E0 & I0 & F0 & C0). rewrite E0. cbn [obind].
    pose proof (frame_lists _ _ _ _ _ F0 Logic.I L) as L0. rewrite (list_ok _ _ _ L0). cbn [obind].
    destruct (set_list_ok s0 _ e a l (firstn i l ++ x :: skipn i l) I0 L0) as (s1 & E1 & I1 & K1 & L1).
    { intros y. rewrite somes_app, (somes_cons x), !cnt_app. pose proof (cnt_split l i y). lia. }
    assert (G : grows s s1).
    { intros y. pose proof (set_list_content s0 a l _ s1 L0 E1 y) as C. rewrite C0 in C. rewrite somes_app, (somes_cons x), !cnt_app in C. pose proof (cnt_split l i y). lia. }
    rewrite E1. cbn [obind].
    assert (K : keeps a s s1) by (apply (keeps_trans a s s0 s1); [apply (frame_keeps _ a s s0) with (2 := F0); auto|exact K1]).
    destruct (IH s1 e a (firstn i l ++ x :: skipn i l) (S i) I1) as (s' & E & I' & K').
    + rewrite (proj1 K). exact A.
    + exact L1.
    + intros s' K' G'. pose proof (O s' (keeps_trans _ _ _ _ K K') (fun y => Nat.le_trans _ _ _ (G y) (G' y))) as O'. inversion O'; assumption.
    + exists s'. split; [exact E|]. split; [exact I'|]. exact (keeps_trans _ _ _ _ K K').
Qed.
(** Nothing is taken out. *)
Lemma remove_none s a l i s' : lists s a l -> list_remove s a i 0 = Ok s' -> grows s s'.
Proof.
  intros L E x. unfold list_remove in E. rewrite (list_ok _ _ _ L) in E. cbn [obind firstn] in E. rewrite Nat.add_0_r, firstn_skipn in E.
  apply bind_ok in E. destruct E as (s1 & E1 & E). unfold release in E. cbn [somes flat_map length plus] in E.
  assert (s' = s1) by (destruct (weight s1); cbn [drop] in E; congruence). subst s'. pose proof (set_list_content s a l l s1 L E1 x). lia.
Qed.
Lemma counted_grows a s s' e r : keeps a s s' -> grows s s' -> ref_in (counted s e) r -> ref_in (counted s' e) r.
Proof. intros K G. destruct r as [x|]; cbn; [|auto]. unfold counted. rewrite (proj1 K). specialize (G x). lia. Qed.
Lemma own_stays s e a xs : Forall (ref_in (own s)) xs -> forall s', keeps a s s' -> Forall (ref_in (counted s' e)) xs.
Proof.
  intros O s' K. apply (Forall_impl _) with (2 := O). intros [x|] R; [|exact R]. cbn in *. apply own_counted. rewrite (proj1 K). exact R.
Qed.
Lemma overwrite_none s a i : overwrite s a i [] = Ok s.
Proof. reflexivity. Qed.
Lemma firstn_all_own {A} (P : A -> Prop) n xs : Forall P xs -> Forall P (firstn n xs) /\ Forall P (skipn n xs).
Proof. intros H. rewrite (split_at xs n) in H. apply Forall_app in H. exact H. Qed.
Lemma splice_ok s e a i n xs : Inv s e -> In a (hands s) -> Forall (ref_in (counted s e)) xs ->
  (n <> 0 /\ ((exists c l, nth_error (cells s) a = Some (Live c (Arr l))) -> 1 < length xs) -> Forall (ref_in (own s)) xs) ->
  splice s a i n xs = Fatal \/ exists s', splice s a i n xs = Ok s' /\ Inv s' e /\ keeps a s s'.
Proof.
  intros I A V O. destruct (inv_owned s e a I A) as (b & B). unfold splice. rewrite (body_ok _ _ _ B). cbn [obind].
  destruct b as [|l|l|es|es|x y]; auto; right.
  - assert (L : lists s a l) by (exists (Arr l); split; [left; reflexivity|exact B]).
    destruct (Nat.ltb_spec (length l) (i + n)) as [R|R]; [exists s; split; [reflexivity|]; split; [exact I|apply keeps_refl]|].
    unfold array_splice. cbv zeta. set (ov := Nat.min n (length xs)).
    assert (Hov : ov <= n /\ ov <= length xs /\ (n = 0 -> ov = 0)) by (unfold ov; lia).
    assert (O' : n = 0 \/ Forall (ref_in (own s)) xs \/ length xs <= 1).
    { destruct n as [|n]; [left; reflexivity|]. right. destruct (Nat.le_gt_cases (length xs) 1) as [Q|Q]; [right; exact Q|left]. apply O. split; [discriminate|auto]. }
    destruct (firstn_all_own _ ov xs V) as (V1 & V2).
    assert (X1 : exists s1 l1, overwrite s a i (firstn ov xs) = Ok s1 /\ Inv s1 e /\ keeps a s s1 /\ lists s1 a l1 /\ length l1 = length l /\ (n < length xs -> Forall (ref_in (counted s1 e)) (skipn ov xs))).
    { destruct O' as [O'|O'].
      - rewrite (proj2 (proj2 Hov) O') in *. exists s, l. cbn [firstn skipn overwrite] in *. split; [reflexivity|]. split; [exact I|]. split; [apply keeps_refl|]. auto.
      - destruct (overwrite_ok (firstn ov xs) s e a l i I A L) as (s1 & l1 & E1 & I1 & K1 & L1 & N1).
        + rewrite firstn_length. lia.
        + destruct O' as [O'|O']; [left; apply (firstn_all_own _ ov xs O')|right]. split; [rewrite firstn_length; lia|exact V1].
        + exists s1, l1. split; [exact E1|]. split; [exact I1|]. split; [exact K1|]. split; [exact L1|]. split; [exact N1|]. intros W.
          destruct O' as [O'|O'].
          * apply own_count. apply (own_all s s1 _ (proj1 K1)). apply (firstn_all_own _ ov xs O').
          * destruct n as [|n]; [|lia]. replace ov with 0 in * by lia. cbn [firstn skipn overwrite] in *. injection E1 as <-. exact V. }
    destruct X1 as (s1 & l1 & E1 & I1 & K1 & L1 & N1 & V1').
    rewrite E1. cbn [obind]. rewrite (list_ok _ _ _ L1). cbn [obind].
    assert (A1 : In a (hands s1)) by (rewrite (proj1 K1); exact A).
    destruct (Nat.ltb_spec n (length xs)) as [W|W].
    + destruct (retain_all_ok (skipn ov xs) s1 e I1 (V1' W)) as (s2 & E2 & I2 & F2).
      rewrite E2. cbn [obind]. pose proof (frame_lists _ _ _ _ _ F2 Logic.I L1) as L2.
      destruct (set_list_ok s2 _ e a l1 (firstn (i + ov) l1 ++ skipn ov xs ++ skipn (i + ov) l1) I2 L2) as (s3 & E3 & I3 & K3 & L3).
      { intros x. rewrite !somes_app, !cnt_app. pose proof (cnt_split l1 (i + ov) x). lia. }
      exists s3. split; [exact E3|]. split; [exact I3|]. apply (keeps_trans a s s1 s3 K1). apply (keeps_trans a s1 s2 s3); [|exact K3]. apply (frame_keeps _ a s1 s2) with (2 := F2). auto.
    + destruct (cut_ok s1 e a l1 (i + ov) (n - ov) I1 A1 L1) as (s2 & s3 & E2 & E3 & I3 & K3 & _).
      replace (i + ov + (n - ov)) with (i + n) in E2 by lia. rewrite E2. cbn [obind]. exists s3. split; [exact E3|]. split; [exact I3|]. exact (keeps_trans _ _ _ _ K1 K3).
  - assert (L : lists s a l) by (exists (Lnk l); split; [right; reflexivity|exact B]).
    destruct (Nat.ltb_spec (length l) (i + n)) as [R|R]; [exists s; split; [reflexivity|]; split; [exact I|apply keeps_refl]|].
    destruct (remove_ok s e a l i n I A L) as (s1 & E1 & I1 & K1 & L1). rewrite E1. cbn [obind].
    assert (A1 : In a (hands s1)) by (rewrite (proj1 K1); exact A).
    destruct (insert_ok xs s1 e a (firstn i l ++ skipn (i + n) l) i I1 A1 L1) as (s2 & E2 & I2 & K2).
    { destruct n as [|n].
      - pose proof (remove_none s a l i s1 L E1) as G. intros s' K' G'. apply (Forall_impl _) with (2 := V). intros r Hr. apply (counted_grows a s1 s' e r K' G'). exact (counted_grows a s s1 e r K1 G Hr).
      - intros s' K' _. apply (own_stays s1 e a xs); [|exact K']. apply (own_all s s1 xs (proj1 K1)). apply O. split; [discriminate|]. intros (c & l' & Q). destruct B as (m & B). congruence. }
    exists s2. split; [exact E2|]. split; [exact I2|]. exact (keeps_trans _ _ _ _ K1 K2).
Qed.
(** The members of a collection that exists, do. *)
Lemma member_counted s e c b x : has s c b -> In x (members b) -> counted s e x.
Proof.
  intros (n & E) M. unfold counted. assert (0 < cnt (content s) x); [|lia]. apply cnt_in. unfold content. apply in_concat. exists (members b). split; [|exact M].
  change (members b) with (held_by (Live n b)). apply in_map. apply nth_error_In with (n := c). exact E.
Qed.
Lemma in_somes x l : In (Some x) l -> In x (somes l).
Proof. intros H. unfold somes. apply in_flat_map. exists (Some x). split; [exact H|left; reflexivity]. Qed.
Lemma in_entries x es : In (Some x) (map snd es) -> In x (of_entries es).
Proof. intros H. apply in_map_iff in H. destruct H as ((k & v) & E & H). cbn [snd] in E. subst v. unfold of_entries. apply in_flat_map. exists (k, Some x). split; [exact H|]. right. left. reflexivity. Qed.
Lemma retained_has s a l s' y b : lists s a l -> set_list s a l = Ok s' -> has s y b -> has s' y b.
Proof.
  intros (d & D & (n & E)) Q (m & F). unfold set_list, body_of in Q. rewrite E in Q. destruct (Nat.eq_dec a y) as [->|NE].
  - assert (b = d) by congruence. subst b. exists n. destruct D as [-> | ->]; cbn [obind] in Q; unfold set_body in Q; rewrite E in Q; injection Q as <-; exact (set_cell_same _ _ _ _ E).
  - exists m. destruct D as [-> | ->]; cbn [obind] in Q; unfold set_body in Q; rewrite E in Q; injection Q as <-; rewrite set_cell_other by exact NE; exact F.
Qed.
Lemma remove_none_has s a l i s' y b : lists s a l -> list_remove s a i 0 = Ok s' -> has s y b -> has s' y b.
Proof.
  intros L E H. unfold list_remove in E. rewrite (list_ok _ _ _ L) in E. cbn [obind firstn] in E. rewrite Nat.add_0_r, firstn_skipn in E.
  apply bind_ok in E. destruct E as (s1 & E1 & E). unfold release in E. cbn [somes flat_map length plus] in E.
  assert (s' = s1) by (destruct (weight s1); cbn [drop] in E; congruence). subst s'. exact (retained_has s a l s1 y b L E1 H).
Qed.
Lemma splice_all_ok s e a i n c d : Inv s e -> In a (hands s) -> has s c d -> a <> c -> (n <> 0 -> In c (hands s)) ->
  splice_all s a i n c = Fatal \/ exists s', splice_all s a i n c = Ok s' /\ Inv s' e /\ keeps a s s'.
Proof.
  intros I A D NE CH. destruct (inv_owned s e a I A) as (b & B). unfold splice_all. rewrite (body_ok _ _ _ B). cbn [obind].
  assert (X : forall l, lists s a l -> (if length l <? i + n then Ok s else do s0 <- list_remove s a i n; do xs <- objects_of s0 c; list_insert s0 a i xs) = Fatal \/
    exists s', (if length l <? i + n then Ok s else do s0 <- list_remove s a i n; do xs <- objects_of s0 c; list_insert s0 a i xs) = Ok s' /\ Inv s' e /\ keeps a s s').
  { intros l L. destruct (Nat.ltb_spec (length l) (i + n)) as [R|R]; [right; exists s; split; [reflexivity|]; split; [exact I|apply keeps_refl]|].
    destruct (remove_ok s e a l i n I A L) as (s1 & E1 & I1 & K1 & L1). rewrite E1. cbn [obind].
    assert (D1 : has s1 c d).
    { destruct n as [|n]; [exact (remove_none_has s a l i s1 c d L E1 D)|]. apply (proj2 K1); auto. }
    unfold objects_of. rewrite (body_ok _ _ _ D1). cbn [obind].
    assert (A1 : In a (hands s1)) by (rewrite (proj1 K1); exact A).
    assert (Y : forall xs, (forall x, In (Some x) xs -> In x (members d)) -> exists s', list_insert s1 a i xs = Ok s' /\ Inv s' e /\ keeps a s s').
    { intros xs M. destruct (insert_ok xs s1 e a (firstn i l ++ skipn (i + n) l) i I1 A1 L1) as (s2 & E2 & I2 & K2).
      - intros s' K' G'. apply Forall_forall. intros [x|] Hx; [|exact Logic.I]. apply (counted_grows a s1 s' e (Some x) K' G'). cbn. apply (member_counted s1 e c d x D1). apply M, Hx.
      - exists s2. split; [exact E2|]. split; [exact I2|]. exact (keeps_trans _ _ _ _ K1 K2). }
    destruct d as [|l'|l'|es|es|x y]; auto; cbn [obind]; right; apply Y; cbn [members]; auto using in_somes, in_entries. }
  destruct b as [|l|l|es|es|x y]; auto; apply X; eexists; (split; [|exact B]); [left|right]; reflexivity.
Qed.

(** ** Dictionaries *)
Section Keys.
  Variable keq : nat -> nat -> bool.
  Lemma of_entries_app es es' : of_entries (es ++ es') = of_entries es ++ of_entries es'.
  Proof. apply flat_map_app. Qed.
  Lemma entry_cons e es : of_entries (e :: es) = (fst e :: somes [snd e]) ++ of_entries es.
  Proof. reflexivity. Qed.
  Lemma cnt_set es k v k' old x : find_key keq es k = Some (k', old) -> cnt (of_entries (set_key keq es k v)) x + cnt (somes [old]) x = cnt (of_entries es) x + cnt (somes [v]) x.
  Proof.
    induction es as [|e es IH]; cbn [find_key set_key]; [discriminate|]. destruct (keq (fst e) k); intros E.
    - injection E as ->. rewrite !entry_cons, !cnt_app. cbn [fst snd]. rewrite (cnt_cons k' (somes [v])), (cnt_cons k' (somes [old])). lia.
    - rewrite !entry_cons, !cnt_app. specialize (IH E). lia.
  Qed.
  Lemma cnt_remove es k k' old x : find_key keq es k = Some (k', old) -> cnt (of_entries (remove_key keq es k)) x + cnt (k' :: somes [old]) x = cnt (of_entries es) x.
  Proof.
    induction es as [|e es IH]; cbn [find_key remove_key]; [discriminate|]. destruct (keq (fst e) k); intros E.
    - injection E as ->. rewrite entry_cons, cnt_app. cbn [fst snd]. lia.
    - rewrite !entry_cons, !cnt_app. specialize (IH E). lia.
  Qed.
  Lemma find_set es k v k' old : find_key keq es k = Some (k', old) -> find_key keq (set_key keq es k v) k = Some (k', v).
  Proof.
    induction es as [|e es IH]; cbn [find_key set_key]; [discriminate|]. destruct (keq (fst e) k) eqn:Q; intros E.
    - injection E as ->. cbn [find_key fst] in *. rewrite Q. reflexivity.
    - cbn [find_key]. rewrite Q. apply IH, E.
  Qed.
  Ltac cases_cnt := repeat rewrite ?cnt_app in *; cbn [count_occ] in *; lia.

  (** A new entry. *)
  Lemma enter_ok (T : list (nat * ref) -> body) s e d es k v : (forall es, members (T es) = of_entries es) -> Inv s e -> has s d (T es) -> ref_in (counted s e) (Some k) -> ref_in (counted s e) v ->
    exists s0 s1 s2, retain s (Some k) = Ok s0 /\ retain s0 v = Ok s1 /\ set_body s1 d (T (es ++ [(k, v)])) = Ok s2 /\ Inv s2 e /\ keeps d s s2 /\ has s2 d (T (es ++ [(k, v)])).
  Proof.
    intros MT I B HK HV. destruct (retain_more s e (Some k) I HK) as (s0 & E0 & I0 & F0 & C0).
    destruct (retain_ref s0 _ v I0 (counted_more s s0 e _ v (proj1 F0) C0 HV)) as (s1 & E1 & I1 & F1).
    pose proof (frame_trans _ _ _ _ F0 F1) as F. pose proof (frame_has _ _ _ _ _ F Logic.I B) as B1.
    destruct (set_body_ok s1 _ e d _ (T (es ++ [(k, v)])) I1 B1) as (s2 & E2 & I2 & K2 & B2).
    { intros x. rewrite !MT, of_entries_app, !cnt_app. rewrite (entry_cons (k, v) []), cnt_app. cbn [fst snd]. rewrite (cnt_cons k (somes [v])). change (somes [Some k]) with [k]. change (of_entries []) with (@nil nat). cbn [count_occ]. lia. }
    exists s0, s1, s2. split; [exact E0|]. split; [exact E1|]. split; [exact E2|]. split; [exact I2|]. split; [|exact B2].
    apply (keeps_trans d s s1 s2); [|exact K2]. apply (frame_keeps _ d s s1) with (2 := F). auto.
  Qed.
  Lemma release_key s e d k : Inv s (k :: e) -> In d (hands s) -> exists s', release s [k] = Ok s' /\ Inv s' e /\ keeps d s s'.
  Proof. intros I D. destruct (release_ok [k] s e I) as (s' & E & I' & F). exists s'. split; [exact E|]. split; [exact I'|]. apply (frame_keeps _ d s s') with (2 := F). auto. Qed.
  Lemma hash_put_ok s e d es k v p : Inv s e -> In d (hands s) -> has s d (Hash es) -> ref_in (counted s e) (Some k) -> ref_in (counted s e) v -> (find_key keq es k <> None -> ref_in (own s) v) ->
    exists s', hash_put keq s d es k v p = Ok s' /\ Inv s' e /\ keeps d s s'.
  Proof.
    intros I D B HK HC HV. unfold hash_put. destruct (retain_more s e (Some k) I HK) as (s0 & E0 & I0 & F0 & C0). rewrite E0. cbn [obind].
    change (somes [Some k] ++ e) with (k :: e) in I0.
    assert (K0 : keeps d s s0) by (apply (frame_keeps _ d s s0) with (2 := F0); auto).
    pose proof (frame_has _ _ _ _ _ F0 Logic.I B) as B0. assert (D0 : In d (hands s0)) by (rewrite (proj1 K0); exact D).
    pose proof (counted_more s s0 e [k] _ (proj1 F0) C0 HK) as HK0. pose proof (counted_more s s0 e [k] _ (proj1 F0) C0 HC) as HC0.
    match goal with |- exists s', obind ?m _ = _ /\ _ => assert (X : exists s1, m = Ok s1 /\ Inv s1 (k :: e) /\ keeps d s0 s1) end.
    { assert (Same : exists s1, Ok s0 = Ok s1 /\ Inv s1 (k :: e) /\ keeps d s0 s1) by (exists s0; split; [reflexivity|]; split; [exact I0|apply keeps_refl]).
      destruct (find_key keq es k) as [(k', old)|] eqn:Q.
      - assert (Upd : exists s1, (if same old v then Ok s0 else do s1 <- set_body s0 d (Hash (set_key keq es k None)); do s2 <- release_ref s1 old; do s3 <- retain s2 v; set_body s3 d (Hash (set_key keq es k v))) = Ok s1 /\ Inv s1 (k :: e) /\ keeps d s0 s1).
        { assert (HV0 : ref_in (own s0) v) by (apply (own_hands s s0 v (proj1 K0)); apply HV; discriminate).
          destruct (same old v) eqn:SM; [exact Same|].
          destruct (set_body_ok s0 _ (somes [old] ++ k :: e) d _ (Hash (set_key keq es k None)) I0 B0) as (s1 & E1 & I1 & K1 & B1).
          { intros x. cbn [members]. pose proof (cnt_set es k None k' old x Q) as C. change (somes [None]) with (@nil nat) in C. rewrite cnt_app. cbn [count_occ] in *. lia. }
          rewrite E1. cbn [obind]. destruct (release_ok _ _ _ I1) as (s2 & E2 & I2 & F2). unfold release_ref. rewrite E2. cbn [obind].
          assert (D1 : In d (hands s1)) by (rewrite (proj1 K1); exact D0).
          assert (H2 : hands s2 = hands s0) by (rewrite (proj1 F2); exact (proj1 K1)).
          destruct (retain_own s2 _ v I2 (own_hands s0 s2 v H2 HV0)) as (s3 & E3 & I3 & F3). rewrite E3. cbn [obind].
          assert (B3 : has s3 d (Hash (set_key keq es k None))) by (apply (frame_has _ _ _ _ _ F3 Logic.I); apply (frame_has _ _ _ _ _ F2); [left; exact D1|exact B1]).
          destruct (set_body_ok s3 _ (k :: e) d _ (Hash (set_key keq es k v)) I3 B3) as (s4 & E4 & I4 & K4 & B4).
          { intros x. cbn [members]. pose proof (cnt_set es k None k' old x Q) as C. pose proof (cnt_set es k v k' old x Q) as C'. change (somes [None]) with (@nil nat) in C. rewrite cnt_app. cbn [count_occ] in C. lia. }
          exists s4. split; [exact E4|]. split; [exact I4|]. apply (keeps_trans d s0 s1 s4 K1). apply (keeps_trans d s1 s2 s4); [apply (frame_keeps _ d s1 s2) with (2 := F2); auto|].
          apply (keeps_trans d s2 s3 s4); [apply (frame_keeps _ d s2 s3) with (2 := F3); auto|exact K4]. }
        destruct p; [exact Upd|exact Upd|exact Same].
      - assert (Ent : exists s1, (do s1 <- retain s0 (Some k); do s2 <- retain s1 v; set_body s2 d (Hash (es ++ [(k, v)]))) = Ok s1 /\ Inv s1 (k :: e) /\ keeps d s0 s1).
        { destruct (enter_ok Hash s0 (k :: e) d es k v (fun _ => eq_refl) I0 B0 HK0 HC0) as (s1 & s2 & s3 & E1 & E2 & E3 & I3 & K3 & _). exists s3. split; [|auto].
          rewrite E1. cbn [obind]. rewrite E2. cbn [obind]. exact E3. }
        destruct p; [exact Ent|exact Same|exact Ent]. }
    destruct X as (s1 & E1 & I1 & K1). rewrite E1. cbn [obind]. assert (D1 : In d (hands s1)) by (rewrite (proj1 K1); exact D0).
    destruct (release_key s1 e d k I1 D1) as (s2 & E2 & I2 & K2). exists s2. split; [exact E2|]. split; [exact I2|]. exact (keeps_trans _ _ _ _ (keeps_trans _ _ _ _ K0 K1) K2).
  Qed.
  (** The object may be one that is only held by the tree. *)
  Lemma tree_put_any s e d es k v p : Inv s e -> In d (hands s) -> has s d (Tree es) -> ref_in (counted s e) (Some k) -> ref_in (counted s e) v ->
    exists s', tree_put keq s d es k v p = Ok s' /\ Inv s' e /\ keeps d s s'.
  Proof.
    intros I D B HK HV. unfold tree_put. destruct (retain_ok (fun _ => True) s e k I HK) as (s0 & E0 & I0 & F0 & C0). rewrite E0. cbn [obind].
    assert (K0 : keeps d s s0) by (apply (frame_keeps _ d s s0) with (2 := F0); auto).
    pose proof (frame_has _ _ _ _ _ F0 Logic.I B) as B0. assert (D0 : In d (hands s0)) by (rewrite (proj1 K0); exact D).
    assert (HV0 : ref_in (counted s0 (k :: e)) v).
    { destruct v as [x|]; [|exact Logic.I]. cbn in *. unfold counted in *. rewrite cnt_cons, C0, (proj1 K0). lia. }
    match goal with |- exists s', obind ?m _ = _ /\ _ => assert (X : exists s1, m = Ok s1 /\ Inv s1 (k :: e) /\ keeps d s0 s1) end.
    { assert (Same : exists s1, Ok s0 = Ok s1 /\ Inv s1 (k :: e) /\ keeps d s0 s1) by (exists s0; split; [reflexivity|]; split; [exact I0|apply keeps_refl]).
      destruct (find_key keq es k) as [(k', old)|] eqn:Q.
      - assert (Upd : exists s1, (do s1 <- retain s0 v; do s2 <- set_body s1 d (Tree (set_key keq es k None)); do s3 <- release_ref s2 old; set_body s3 d (Tree (set_key keq es k v))) = Ok s1 /\ Inv s1 (k :: e) /\ keeps d s0 s1).
        { destruct (retain_ref s0 _ v I0 HV0) as (s1 & E1 & I1 & F1). rewrite E1. cbn [obind]. pose proof (frame_has _ _ _ _ _ F1 Logic.I B0) as B1.
          destruct (set_body_ok s1 _ (somes [old] ++ somes [v] ++ k :: e) d _ (Tree (set_key keq es k None)) I1 B1) as (s2 & E2 & I2 & K2 & B2).
          { intros x. cbn [members]. pose proof (cnt_set es k None k' old x Q) as C. change (somes [None]) with (@nil nat) in C. rewrite !cnt_app. cbn [count_occ] in *. lia. }
          rewrite E2. cbn [obind]. destruct (release_ok _ _ _ I2) as (s3 & E3 & I3 & F3). unfold release_ref. rewrite E3. cbn [obind].
          assert (D2 : In d (hands s2)) by (rewrite (proj1 K2), (proj1 F1); exact D0).
          assert (B3 : has s3 d (Tree (set_key keq es k None))) by (apply (frame_has _ _ _ _ _ F3); [left; exact D2|exact B2]).
          destruct (set_body_ok s3 _ (k :: e) d _ (Tree (set_key keq es k v)) I3 B3) as (s4 & E4 & I4 & K4 & B4).
          { intros x. cbn [members]. pose proof (cnt_set es k None k' old x Q) as C. pose proof (cnt_set es k v k' old x Q) as C'. change (somes [None]) with (@nil nat) in C. rewrite cnt_app. cbn [count_occ] in C. lia. }
          exists s4. split; [exact E4|]. split; [exact I4|]. apply (keeps_trans d s0 s1 s4); [apply (frame_keeps _ d s0 s1) with (2 := F1); auto|]. apply (keeps_trans d s1 s2 s4 K2).
          apply (keeps_trans d s2 s3 s4); [apply (frame_keeps _ d s2 s3) with (2 := F3); auto|exact K4]. }
        destruct p; [exact Upd|exact Upd|exact Same].
      - assert (Ent : exists s1, (do s1 <- retain s0 (Some k); do s2 <- retain s1 v; set_body s2 d (Tree (es ++ [(k, v)]))) = Ok s1 /\ Inv s1 (k :: e) /\ keeps d s0 s1).
        { destruct (enter_ok Tree s0 (k :: e) d es k v (fun _ => eq_refl) I0 B0 (counted_more s s0 e [k] _ (proj1 F0) C0 HK) HV0) as (s1 & s2 & s3 & E1 & E2 & E3 & I3 & K3 & _). exists s3. split; [|auto].
          rewrite E1. cbn [obind]. rewrite E2. cbn [obind]. exact E3. }
        destruct p; [exact Ent|exact Same|exact Ent]. }
    destruct X as (s1 & E1 & I1 & K1). rewrite E1. cbn [obind]. assert (D1 : In d (hands s1)) by (rewrite (proj1 K1); exact D0).
    destruct (release_key s1 e d k I1 D1) as (s2 & E2 & I2 & K2). exists s2. split; [exact E2|]. split; [exact I2|]. exact (keeps_trans _ _ _ _ (keeps_trans _ _ _ _ K0 K1) K2).
  Qed.
  Lemma find_in es k : find_key keq es k <> None -> exists e, In e es /\ keq (fst e) k = true.
  Proof.
    induction es as [|e es IH]; cbn [find_key]; [congruence|]. destruct (keq (fst e) k) eqn:Q; intros H.
    - exists e. split; [left; reflexivity|exact Q].
    - destruct (IH H) as (e' & E' & Q'). exists e'. split; [right; exact E'|exact Q'].
  Qed.
  Lemma put_ok s e d k v p : Inv s e -> In d (hands s) -> ref_in (counted s e) (Some k) -> ref_in (counted s e) v ->
    ((exists c es, nth_error (cells s) d = Some (Live c (Hash es)) /\ exists e, In e es /\ keq (fst e) k = true) -> ref_in (own s) v) ->
    put keq s d k v p = Fatal \/ exists s', put keq s d k v p = Ok s' /\ Inv s' e /\ keeps d s s'.
  Proof.
    intros I D HK HC HV. destruct (inv_owned s e d I D) as (b & B). unfold put. rewrite (body_ok _ _ _ B). cbn [obind]. destruct b as [|l|l|es|es|x y]; auto; right.
    - apply hash_put_ok; try assumption. intros F. apply HV. destruct B as (n & B). exists n, es. split; [exact B|]. exact (find_in es k F).
    - apply tree_put_any; assumption.
  Qed.
  Lemma take_out_ok (T : list (nat * ref) -> body) s e d es es' xs : (forall es, members (T es) = of_entries es) -> Inv s e -> In d (hands s) -> has s d (T es) ->
    (forall x, cnt (of_entries es') x + cnt xs x = cnt (of_entries es) x) -> exists s', (do s1 <- set_body s d (T es'); release s1 xs) = Ok s' /\ Inv s' e /\ keeps d s s'.
  Proof.
    intros MT I D B C. destruct (set_body_ok s e (xs ++ e) d _ (T es') I B) as (s1 & E1 & I1 & K1 & B1).
    { intros x. rewrite !MT, cnt_app. specialize (C x). lia. }
    rewrite E1. cbn [obind]. destruct (release_ok _ _ _ I1) as (s2 & E2 & I2 & F2). exists s2. split; [exact E2|]. split; [exact I2|]. apply (keeps_trans d s s1 s2 K1). apply (frame_keeps _ d s1 s2) with (2 := F2). auto.
  Qed.
  Lemma remove_key_ok s e d k : Inv s e -> In d (hands s) -> live s k -> remove keq s d k = Fatal \/ exists s', remove keq s d k = Ok s' /\ Inv s' e /\ keeps d s s'.
  Proof.
    intros I D (m & c & LK). destruct (inv_owned s e d I D) as (b & B). unfold remove. rewrite (body_ok _ _ _ B). cbn [obind]. rewrite (body_ok s k c) by (exists m; exact LK). cbn [obind].
    assert (Same : exists s', Ok s = Ok s' /\ Inv s' e /\ keeps d s s') by (exists s; split; [reflexivity|]; split; [exact I|apply keeps_refl]).
    destruct b as [|l|l|es|es|x y]; auto; right; destruct (find_key keq es k) as [(k', v)|] eqn:Q; try exact Same.
    - apply (take_out_ok Hash s e d es); auto. intros x. exact (cnt_remove es k k' v x Q).
    - apply (take_out_ok Tree s e d es); auto. intros x. exact (cnt_remove es k k' v x Q).
  Qed.
  Lemma remove_all_ok s e d : Inv s e -> In d (hands s) -> remove_all s d = Fatal \/ exists s', remove_all s d = Ok s' /\ Inv s' e /\ keeps d s s'.
  Proof.
    intros I D. destruct (inv_owned s e d I D) as (b & B). unfold remove_all. rewrite (body_ok _ _ _ B). cbn [obind].
    destruct b as [|l|l|es|es|x y]; auto; right.
    - apply (take_out_ok Hash s e d es); auto.
    - apply (take_out_ok Tree s e d es); auto.
  Qed.

  (** ** Histories *)
  Lemma add_inv s e b : Inv s (members b ++ e) -> Inv (add s b) e.
  Proof.
    intros (P & C). split.
    - intros x n d X. cbn [add cells] in X. destruct (Nat.lt_ge_cases x (length (cells s))) as [L|L].
      + rewrite nth_error_app1 in X by exact L. exact (P _ _ _ X).
      + rewrite nth_error_app2 in X by exact L. destruct (x - length (cells s)) as [|[|m]]; cbn in X; try discriminate. injection X as <- _. lia.
    - intros x. specialize (C x). unfold rc, content in *. cbn [add cells hands]. rewrite map_app, concat_app, !cnt_app in *. cbn [map concat held_by]. rewrite app_nil_r.
      destruct (Nat.lt_ge_cases x (length (cells s))) as [L|L].
      + rewrite nth_error_app1 by exact L. cbn [count_occ]. destruct (Nat.eq_dec (length (cells s)) x); lia.
      + rewrite nth_error_app2 by exact L. destruct (nth_error (cells s) x) eqn:N; [apply nth_len in N; lia|]. cbn [count_occ].
        destruct (Nat.eq_dec (length (cells s)) x) as [<-|NE].
        * rewrite Nat.sub_diag. cbn [nth_error]. lia.
        * destruct (x - length (cells s)) as [|[|m]] eqn:M; cbn [nth_error]; lia.
  Qed.
  Lemma cnt_take x l y : In x l -> cnt (take x l) y + cnt [x] y = cnt l y.
  Proof.
    induction l as [|z l IH]; intros H; [destruct H|]. cbn [take]. destruct (Nat.eqb_spec x z) as [->|NE].
    - rewrite (cnt_cons z l). lia.
    - destruct H as [->|H]; [contradiction|]. rewrite (cnt_cons z (take x l)), (cnt_cons z l). specialize (IH H). lia.
  Qed.
  Lemma live_counted s e x : Inv s e -> live s x -> counted s e x.
  Proof. intros (P & C) (n & b & E). unfold counted. specialize (C x). unfold rc in C. rewrite E in C. pose proof (P _ _ _ E). lia. Qed.
  Lemma refs_counted s e r : Inv s e -> ref_in (live s) r -> ref_in (counted s e) r.
  Proof. intros I. destruct r as [x|]; cbn; [apply live_counted; exact I|auto]. Qed.
  Lemma step_ok s o : Inv s [] -> careful keq s o -> step keq s o = Fatal \/ exists s', step keq s o = Ok s' /\ Inv s' [].
  Proof.
    intros I (A & O). assert (W : forall r a, (r = Fatal \/ exists s', r = Ok s' /\ Inv s' [] /\ keeps a s s') -> r = Fatal \/ exists s', r = Ok s' /\ Inv s' []).
    { intros r a [F|(s' & E & I' & _)]; eauto. }
    destruct o as [b|a b|x|x|a i n xs|a i n c|d k v p|d k|d]; cbn [allowed replacing owned] in A, O; cbn [step].
    - right. destruct (members b) eqn:M; [|eauto]. eexists. split; [reflexivity|]. apply add_inv. rewrite M. exact I.
    - right. destruct A as (A & B). destruct (retain_more s [] a I (refs_counted s [] a I A)) as (s1 & E1 & I1 & F1 & C1). rewrite E1. cbn [obind].
      destruct (retain_ref s1 _ b I1 (counted_more s s1 [] _ b (proj1 F1) C1 (refs_counted s [] b I B))) as (s2 & E2 & I2 & F2). rewrite E2. cbn [obind]. eexists. split; [reflexivity|]. apply add_inv.
      apply (inv_perm s2 _ _) with (2 := I2). intros x. cbn [members]. rewrite (somes_cons a [b]), !cnt_app. lia.
    - right. destruct (retain_ok (fun _ => True) s [] x I (live_counted s [] x I A)) as (s1 & E1 & I1 & F1 & C1). rewrite E1. cbn [obind]. eexists. split; [reflexivity|].
      destruct I1 as (P1 & C1'). split; [exact P1|]. intros y. specialize (C1' y). unfold rc, content in *. cbn [cells hands]. rewrite cnt_app. cbn [count_occ] in *. lia.
    - right. destruct (release_ok [x] (mkS (cells s) (take x (hands s))) []) as (s1 & E1 & I1 & _); [|eauto].
      destruct I as (P & C). split; [exact P|]. intros y. specialize (C y). unfold rc, content in *. cbn [cells hands app] in *. pose proof (cnt_take x (hands s) y A). cbn [count_occ] in *. lia.
    - destruct A as (A & V). apply (W _ a). apply splice_ok; try assumption. apply (Forall_impl _) with (2 := V). intros r. apply refs_counted, I.
    - destruct A as (A & (m & d & C) & NE). apply (W _ a). apply (splice_all_ok s [] a i n c d); try assumption. exists m. exact C.
    - destruct A as (A & K & V). apply (W _ d). apply put_ok; try assumption; apply refs_counted; assumption.
    - destruct A as (A & K). apply (W _ d). apply remove_key_ok; assumption.
    - apply (W _ d). apply remove_all_ok; assumption.
  Qed.
  Lemma run_ok : forall os s, Inv s [] -> obeys (careful keq) keq s os -> run keq s os = Fatal \/ exists s', run keq s os = Ok s' /\ Inv s' [].
  Proof.
    induction os as [|o os IH]; intros s I O; cbn [run]; [eauto|]. destruct O as (A & O). destruct (step_ok s o I A) as [F|(s' & E & I')]; [rewrite F; left; reflexivity|].
    rewrite E. cbn [obind]. apply IH; [exact I'|]. apply O, E.
  Qed.
End Keys.
