(** Proofs about bit lists. *)
Require Import Coq.Lists.List Coq.NArith.NArith Coq.ZArith.ZArith Coq.Arith.Arith Coq.Bool.Bool Lia.
Require Import Verif.Base Verif.BitList_Model Verif.BitList_Spec.
Import ListNotations.

Definition bit (ws : list word) (i : nat) : bool := N.testbit (nth (i / 32) ws 0%N) (N.of_nat (i mod 32)).
Definition wlen (n : nat) : nat := if n =? 0 then 1 else round_pow2 n.
Definition small (w : word) : Prop := (w < 2 ^ 32)%N.
(** What the words of a list are to its bits. *)
Record rel (b : bitlist) (l : list bool) : Prop := mkRel {
  r_len : numBits b = length l;
  r_words : length (words b) = wlen (numBits b);
  r_small : Forall small (words b);
  r_bits : forall i, i < length l -> nth_error l i = Some (bit (words b) i) }.

Lemma bits_high w k : small w -> (32 <= k)%N -> N.testbit w k = false.
Proof.
  unfold small. intros H K. destruct (N.eq_dec w 0) as [->|Z]; [apply N.bits_0|]. apply N.bits_above_log2.
  apply N.log2_lt_pow2 in H; lia.
Qed.
Lemma small_bits w : (forall k, (32 <= k)%N -> N.testbit w k = false) -> small w.
Proof.
  intros H. unfold small. destruct (N.eq_dec w 0) as [->|Z]; [reflexivity|]. apply N.log2_lt_pow2; [lia|].
  destruct (N.lt_ge_cases (N.log2 w) 32) as [L|L]; [exact L|]. pose proof (H _ L) as E. rewrite N.bit_log2 in E by exact Z. discriminate.
Qed.
Lemma ones_bit k : N.testbit ones k = (k <? 32)%N.
Proof.
  unfold ones. destruct (N.ltb_spec k 32) as [L|L]; [apply N.ones_spec_low; exact L|apply N.ones_spec_high; exact L].
Qed.
Lemma wnot_bit w k : N.testbit (wnot w) k = xorb (N.testbit w k) (k <? 32)%N.
Proof. unfold wnot. rewrite N.lxor_spec, ones_bit. reflexivity. Qed.
Lemma one_bit k m : N.testbit (N.shiftl 1 k) m = (k =? m)%N.
Proof. rewrite N.shiftl_1_l. apply N.pow2_bits_eqb. Qed.
Lemma small_op w : (forall k, (32 <= k)%N -> N.testbit w k = false) -> small w.
Proof. exact (small_bits w). Qed.
Lemma land_one w k : N.land w (N.shiftl 1 k) = if N.testbit w k then N.shiftl 1 k else 0%N.
Proof.
  apply N.bits_inj. intros m. rewrite N.land_spec, one_bit. destruct (N.eqb_spec k m) as [<-|D].
  - destruct (N.testbit w k); [rewrite one_bit, N.eqb_refl; reflexivity|rewrite N.bits_0; reflexivity].
  - rewrite andb_false_r. destruct (N.testbit w k); [rewrite one_bit; destruct (N.eqb_spec k m); [contradiction|reflexivity]|rewrite N.bits_0; reflexivity].
Qed.
Lemma land_one_nz w k : negb (N.land w (N.shiftl 1 k) =? 0)%N = N.testbit w k.
Proof.
  rewrite land_one. destruct (N.testbit w k); [|reflexivity]. rewrite N.shiftl_1_l.
  destruct (N.eqb_spec (2 ^ k) 0) as [E|E]; [|reflexivity]. exfalso. apply (N.pow_nonzero 2 k); [discriminate|exact E].
Qed.
Lemma test_word w k : negb (N.shiftr (N.land w (N.shiftl 1 k)) k =? 0)%N = N.testbit w k.
Proof.
  rewrite land_one. destruct (N.testbit w k); [|rewrite N.shiftr_0_l; reflexivity].
  rewrite N.shiftr_shiftl_l by lia. rewrite N.sub_diag. reflexivity.
Qed.
Lemma low_bit w : N.to_nat (N.land w 1) = if N.testbit w 0 then 1 else 0.
Proof.
  change 1%N with (N.ones 1). rewrite N.land_ones. change (2 ^ 1)%N with 2%N. rewrite <- N.bit0_mod. destruct (N.testbit w 0); reflexivity.
Qed.

Lemma div_lt i n : i < 32 * n -> i / 32 < n.
Proof. intros H. apply Nat.div_lt_upper_bound; lia. Qed.
Lemma nth_nth_error {A} (l : list A) i d : i < length l -> nth_error l i = Some (nth i l d).
Proof. apply nth_error_nth'. Qed.
Lemma wlen_ge n : n <= 32 * wlen n.
Proof.
  unfold wlen, round_pow2. destruct (Nat.eqb_spec n 0); [lia|]. pose proof (Nat.div_mod (n + 31) 32 ltac:(lia)) as D. pose proof (Nat.mod_upper_bound (n + 31) 32 ltac:(lia)). lia.
Qed.
Lemma wlen_pos n : 0 < wlen n.
Proof. pose proof (wlen_ge n). unfold wlen in *. destruct (n =? 0) eqn:E; [lia|]. apply Nat.eqb_neq in E. lia. Qed.
(** All bits lie in the words before the last one. *)
Lemma wlen_last n : n <= 32 * (wlen n - 1).
Proof.
  unfold wlen, round_pow2. destruct (Nat.eqb_spec n 0); [lia|]. pose proof (Nat.div_mod (n + 31) 32 ltac:(lia)) as D. pose proof (Nat.mod_upper_bound (n + 31) 32 ltac:(lia)). lia.
Qed.

Lemma upd_nth {A} (l : list A) n a d j : n < length l -> nth j (upd l n a) d = if j =? n then a else nth j l d.
Proof.
  revert n j. induction l as [|x l IH]; intros [|n] [|j] H; cbn [length] in H; try lia; cbn; try reflexivity. apply IH. lia.
Qed.
Lemma small_nth ws i : Forall small ws -> small (nth i ws 0%N).
Proof.
  intros F. destruct (Nat.lt_ge_cases i (length ws)) as [L|L]; [|rewrite nth_overflow by exact L; reflexivity].
  rewrite Forall_forall in F. apply F. apply nth_In. exact L.
Qed.
Lemma forall_upd {A} (P : A -> Prop) l n a : Forall P l -> P a -> Forall P (upd l n a).
Proof.
  intros F H. revert n. induction F as [|x l Hx F IH]; intros [|n]; cbn; constructor; auto.
Qed.

Lemma on_word_ok b i f g : Forall small (words b) -> i < 32 * length (words b) ->
  (forall w k m, (k < 32)%N -> N.testbit (f w (N.shiftl 1 k)) m = if (m =? k)%N then g (N.testbit w k) else N.testbit w m) ->
  exists b', on_word b i f = Ok b' /\ numBits b' = numBits b /\ length (words b') = length (words b) /\ Forall small (words b') /\
    forall j, bit (words b') j = if j =? i then g (bit (words b) i) else bit (words b) j.
Proof.
  intros F L G. unfold on_word. pose proof (div_lt _ _ L) as D. rewrite (nth_nth_error _ _ 0%N D). eexists. split; [reflexivity|]. cbn [numBits words].
  pose proof (Nat.mod_upper_bound i 32 ltac:(lia)) as M.
  split; [reflexivity|]. split; [apply upd_length|]. split.
  - apply forall_upd; [exact F|]. apply small_bits. intros k K. rewrite G by lia. destruct (N.eqb_spec k (N.of_nat (i mod 32))); [lia|]. apply bits_high; [apply small_nth; exact F|exact K].
  - intros j. unfold bit. rewrite upd_nth by exact D. destruct (Nat.eqb_spec j i) as [->|N].
    + rewrite Nat.eqb_refl, G by lia. rewrite N.eqb_refl. reflexivity.
    + destruct (Nat.eqb_spec (j / 32) (i / 32)) as [E|E]; [|reflexivity]. rewrite E, G by lia.
      destruct (N.eqb_spec (N.of_nat (j mod 32)) (N.of_nat (i mod 32))) as [E2|E2]; [|reflexivity]. exfalso. apply N.
      rewrite (Nat.div_mod j 32), (Nat.div_mod i 32) by lia. lia.
Qed.
Lemma set_g w k m : (k < 32)%N -> N.testbit (N.lor w (N.shiftl 1 k)) m = if (m =? k)%N then true else N.testbit w m.
Proof.
  intros _. rewrite N.lor_spec, one_bit, (N.eqb_sym k m). destruct (m =? k)%N; [apply orb_true_r|apply orb_false_r].
Qed.
Lemma clear_g w k m : small w -> (k < 32)%N -> N.testbit (N.land w (wnot (N.shiftl 1 k))) m = if (m =? k)%N then false else N.testbit w m.
Proof.
  intros S K. rewrite N.land_spec, wnot_bit, one_bit, (N.eqb_sym k m). destruct (N.eqb_spec m k) as [->|D].
  - destruct (N.ltb_spec k 32); [|lia]. apply andb_false_r.
  - destruct (N.ltb_spec m 32); [apply andb_true_r|]. rewrite (bits_high w m S) by assumption. reflexivity.
Qed.
Lemma flip_g w k m : (k < 32)%N -> N.testbit (N.lxor w (N.shiftl 1 k)) m = if (m =? k)%N then negb (N.testbit w k) else N.testbit w m.
Proof.
  intros _. rewrite N.lxor_spec, one_bit, (N.eqb_sym k m). destruct (N.eqb_spec m k) as [->|]; [destruct (N.testbit w k); reflexivity|apply xorb_false_r].
Qed.
(** Clearing needs that the word is small; it is a different statement for that. *)
Lemma clear_ok b i : Forall small (words b) -> i < 32 * length (words b) ->
  exists b', clear_bit b i = Ok b' /\ numBits b' = numBits b /\ length (words b') = length (words b) /\ Forall small (words b') /\
    forall j, bit (words b') j = if j =? i then false else bit (words b) j.
Proof.
  intros F L. unfold clear_bit.
  destruct (on_word_ok b i (fun w m => if (w <? 2 ^ 32)%N then N.land w (wnot m) else N.ldiff w m) (fun _ => false) F L) as (b' & E & R).
  - intros w k m K. destruct (N.ltb_spec w (2 ^ 32)) as [S|S]; [apply clear_g; assumption|].
    rewrite N.ldiff_spec, one_bit, (N.eqb_sym k m). destruct (m =? k)%N; [apply andb_false_r|apply andb_true_r].
  - exists b'. split; [|exact R]. rewrite <- E. unfold on_word. destruct (nth_error (words b) (i / 32)) as [w|] eqn:W; [|reflexivity].
    apply nth_error_In in W. rewrite Forall_forall in F. apply F in W. unfold small in W. destruct (N.ltb_spec w (2 ^ 32)); [reflexivity|lia].
Qed.

Lemma rel_words_ge b l : rel b l -> forall i, i < length l -> i < 32 * length (words b).
Proof. intros R i L. rewrite (r_words _ _ R), (r_len _ _ R). pose proof (wlen_ge (length l)). lia. Qed.
Lemma test_ok b l i t : rel b l -> nth_error l i = Some t -> test_bit b i = Ok t.
Proof.
  intros R H. assert (L : i < length l) by (apply nth_error_Some; congruence). rewrite (r_bits _ _ R i L) in H. injection H as <-.
  unfold test_bit. rewrite (nth_nth_error _ _ 0%N) by (apply div_lt; exact (rel_words_ge _ _ R _ L)). rewrite test_word. reflexivity.
Qed.
(** Changing one bit. *)
Definition bit_op (f : bitlist -> nat -> outcome bitlist) (g : bool -> bool) : Prop :=
  forall b i, Forall small (words b) -> i < 32 * length (words b) ->
  exists b', f b i = Ok b' /\ numBits b' = numBits b /\ length (words b') = length (words b) /\ Forall small (words b') /\
    forall j, bit (words b') j = if j =? i then g (bit (words b) i) else bit (words b) j.
Lemma set_op : bit_op set_bit (fun _ => true).
Proof. intros b i F L. apply (on_word_ok b i N.lor (fun _ => true) F L). apply set_g. Qed.
Lemma clear_op : bit_op clear_bit (fun _ => false).
Proof. intros b i F L. exact (clear_ok b i F L). Qed.
Lemma flip_op : bit_op flip_bit negb.
Proof. intros b i F L. apply (on_word_ok b i N.lxor negb F L). apply flip_g. Qed.
Lemma upd_nth_error {A} (l : list A) n a j : n < length l -> nth_error (upd l n a) j = if j =? n then Some a else nth_error l j.
Proof.
  revert n j. induction l as [|x l IH]; intros [|n] [|j] H; cbn [length] in H; try lia; cbn; try reflexivity. apply IH. lia.
Qed.
Definition pad (b : bitlist) (v : bool) : Prop := forall i, numBits b <= i < 32 * length (words b) -> bit (words b) i = v.
Lemma bit_op_rel f g b l i l' : bit_op f g -> rel b l -> at_bit i g l = Some l' ->
  exists b', f b i = Ok b' /\ rel b' l' /\ forall v, pad b v -> pad b' v.
Proof.
  intros O R A. unfold at_bit in A. destruct (nth_error l i) as [t|] eqn:T; [|discriminate]. injection A as <-.
  assert (L : i < length l) by (apply nth_error_Some; congruence).
  destruct (O b i (r_small _ _ R) (rel_words_ge _ _ R _ L)) as (b' & E & N & W & S & B). exists b'. split; [exact E|]. split.
  - constructor.
    + rewrite N, upd_length. apply (r_len _ _ R).
    + rewrite W, N. apply (r_words _ _ R).
    + exact S.
    + rewrite upd_length. intros j J. rewrite upd_nth_error by exact L. rewrite B. rewrite (r_bits _ _ R i L) in T. injection T as <-.
      destruct (j =? i); [reflexivity|]. apply (r_bits _ _ R j J).
  - intros v P j J. rewrite N, W in J. rewrite B. destruct (Nat.eqb_spec j i) as [->|]; [|apply P; exact J]. rewrite (r_len _ _ R) in J. lia.
Qed.
Lemma bit_repeat w n i : i < 32 * n -> bit (repeat w n) i = N.testbit w (N.of_nat (i mod 32)).
Proof.
  intros L. unfold bit. f_equal. apply div_lt in L. apply (repeat_spec n w). rewrite <- (repeat_length w n) in L at 1. apply nth_In. exact L.
Qed.
Definition fill (v : bool) : word := if v then ones else 0%N.
Lemma fill_small v : small (fill v).
Proof. destruct v; reflexivity. Qed.
Lemma fill_bit v i : N.testbit (fill v) (N.of_nat (i mod 32)) = v.
Proof.
  destruct v; cbn [fill]; [|apply N.bits_0]. rewrite ones_bit. apply N.ltb_lt. pose proof (Nat.mod_upper_bound i 32 ltac:(lia)). lia.
Qed.
Lemma nth_error_repeat' {A} (v : A) n i : i < n -> nth_error (repeat v n) i = Some v.
Proof. revert i. induction n; intros [|i] H; try lia; cbn; [reflexivity|apply IHn; lia]. Qed.
Lemma fill_rel n v l : length l = n -> (forall i, i < n -> nth_error l i = Some v) -> rel (mkB n (repeat (fill v) (wlen n))) l.
Proof.
  intros L H. constructor; cbn [numBits words].
  - symmetry. exact L.
  - apply repeat_length.
  - apply Forall_forall. intros x X. apply repeat_spec in X. subst. apply fill_small.
  - intros i I. rewrite bit_repeat by (pose proof (wlen_ge n); lia). rewrite fill_bit. apply H. lia.
Qed.
Lemma new_eq len v : new len v = mkB (Z.to_nat len) (repeat (fill v) (wlen (Z.to_nat len))).
Proof.
  unfold new, fill, wlen. destruct (Z.leb_spec len 0) as [L|L].
  - replace (Z.to_nat len) with 0 by lia. reflexivity.
  - destruct (Nat.eqb_spec (Z.to_nat len) 0); [lia|reflexivity].
Qed.
Lemma fill_pad n v : pad (mkB n (repeat (fill v) (wlen n))) v.
Proof. intros i [_ I]. cbn [words] in *. rewrite repeat_length in I. rewrite bit_repeat by exact I. apply fill_bit. Qed.
Lemma new_rel len v : rel (new len v) (repeat v (Z.to_nat len)) /\ pad (new len v) v.
Proof.
  rewrite new_eq. split; [|apply fill_pad]. apply fill_rel; [apply repeat_length|]. intros i I. apply nth_error_repeat'. exact I.
Qed.
Lemma set_all_rel b l (v : bool) : rel b l -> rel (if v then set_all b else clear_all b) (map (fun _ => v) l).
Proof.
  intros R. replace (if v then set_all b else clear_all b) with (mkB (numBits b) (repeat (fill v) (wlen (numBits b)))).
  - apply fill_rel; [rewrite map_length; symmetry; apply (r_len _ _ R)|]. intros i I. rewrite nth_error_map. rewrite (r_len _ _ R) in I. rewrite (r_bits _ _ R i I). reflexivity.
  - unfold set_all, clear_all, numInts. rewrite (r_words _ _ R). destruct v; reflexivity.
Qed.
Lemma flip_all_rel b l : rel b l -> rel (flip_all b) (map negb l).
Proof.
  intros R. constructor; cbn [flip_all numBits words].
  - rewrite map_length. apply (r_len _ _ R).
  - rewrite map_length. apply (r_words _ _ R).
  - pose proof (r_small _ _ R) as S. rewrite Forall_map. eapply Forall_impl; [|exact S]. intros w W. apply small_bits. intros k K. rewrite wnot_bit, (bits_high w k W K).
    destruct (N.ltb_spec k 32); [lia|reflexivity].
  - rewrite map_length. intros i I. rewrite nth_error_map, (r_bits _ _ R i I). cbn. f_equal. unfold bit.
    pose proof (div_lt _ _ (rel_words_ge _ _ R _ I)) as D. rewrite (nth_indep (map wnot (words b)) 0%N (wnot 0%N)) by (rewrite map_length; exact D). rewrite map_nth, wnot_bit.
    pose proof (Nat.mod_upper_bound i 32 ltac:(lia)). destruct (N.ltb_spec (N.of_nat (i mod 32)) 32); [|lia]. destruct (N.testbit _ _); reflexivity.
Qed.

(** ** Merging *)
Lemma mword_small o x y : small x -> small y -> small (mword o x y).
Proof.
  intros X Y. apply small_bits. intros k K. pose proof (bits_high x k X K) as HX. pose proof (bits_high y k Y K) as HY. assert (F : (k <? 32)%N = false) by (apply N.ltb_ge; exact K).
  destruct o; cbn [mword]; rewrite ?wnot_bit, ?N.land_spec, ?N.lor_spec, ?N.lxor_spec, HX, HY, ?F; reflexivity.
Qed.
Lemma mword_bit o x y k : (k < 32)%N -> N.testbit (mword o x y) k = mbool o (N.testbit x k) (N.testbit y k).
Proof.
  intros K. assert (F : (k <? 32)%N = true) by (apply N.ltb_lt; exact K).
  destruct o; cbn [mword mbool]; rewrite ?wnot_bit, ?N.land_spec, ?N.lor_spec, ?N.lxor_spec, ?F, ?xorb_true_r; reflexivity.
Qed.
Lemma upd_upd {A} (l : list A) n a b : upd (upd l n a) n b = upd l n b.
Proof. revert n. induction l as [|x l IH]; intros [|n]; cbn; f_equal; auto. Qed.
Lemma upd_same {A} (l : list A) n a : nth_error l n = Some a -> upd l n a = l.
Proof. revert n. induction l as [|x l IH]; intros [|n] H; cbn in *; try discriminate; [congruence|f_equal; auto]. Qed.
(** [k] words from [i] on are replaced by the merged words of [A] and [B]. *)
Fixpoint merged (o : mop) (A B R : list word) : list word :=
  match A, B, R with
  | x :: A', y :: B', _ :: R' => mword o x y :: merged o A' B' R'
  | _, _, _ => R
  end.
Lemma merge_loop_ok o a b r nr n : forall st i, 
  forall la lb lr, nth_error st a = Some la -> nth_error st b = Some lb -> nth_error st r = Some lr ->
  numBits lr = nr -> length (words la) = i + n -> length (words lb) = i + n -> length (words lr) = i + n ->
  merge_loop o st a b r i n = Ok (upd st r (mkB nr (firstn i (words lr) ++ merged o (skipn i (words la)) (skipn i (words lb)) (skipn i (words lr))))).
Proof.
  induction n as [|n IH]; intros st i la lb lr Ha Hb Hr Nr La Lb Lr; cbn [merge_loop].
  - rewrite (skipn_all2 (words la)) by lia. rewrite (skipn_all2 (words lb)) by lia. rewrite (skipn_all2 (words lr)) by lia. cbn [merged]. rewrite app_nil_r, firstn_all2 by lia.
    rewrite upd_same; [reflexivity|]. rewrite Hr. destruct lr; cbn in *; subst; reflexivity.
  - rewrite Ha, Hb, Hr. destruct (nth_error (words la) i) as [x|] eqn:X; [|apply nth_error_None in X; lia]. destruct (nth_error (words lb) i) as [y|] eqn:Y; [|apply nth_error_None in Y; lia].
    destruct (nth_error (words lr) i) as [z|] eqn:Z; [|apply nth_error_None in Z; lia].
    set (lr1 := mkB (numBits lr) (upd (words lr) i (mword o x y))).
    assert (Rlen : r < length st) by (apply nth_error_Some; congruence).
    set (pick := fun (k : nat) (l : bitlist) => if k =? r then lr1 else l).
    assert (P : forall k l, nth_error st k = Some l -> nth_error (upd st r lr1) k = Some (pick k l)).
    { intros k l K. rewrite upd_nth_error by exact Rlen. unfold pick. destruct (k =? r); [reflexivity|exact K]. }
    assert (Same : forall k l, nth_error st k = Some l -> length (words l) = i + S n -> skipn (S i) (words (pick k l)) = skipn (S i) (words l) /\ length (words (pick k l)) = i + S n).
    { intros k l K Lk. unfold pick. destruct (Nat.eqb_spec k r) as [->|]; [|split; [reflexivity|exact Lk]]. assert (l = lr) by congruence. subst l. cbn [words lr1].
      split; [|rewrite upd_length; exact Lk]. clear - Lr. revert i Lr. induction (words lr) as [|c l IHl]; intros [|i] L; cbn; try reflexivity. cbn [length] in L. apply (IHl i). lia. }
    destruct (Same _ _ Ha La) as [Sa Ea]. destruct (Same _ _ Hb Lb) as [Sb Eb].
    erewrite (IH (upd st r lr1) (S i) (pick a la) (pick b lb) lr1); [|apply P; exact Ha|apply P; exact Hb|rewrite upd_nth_error by exact Rlen; rewrite Nat.eqb_refl; reflexivity|exact Nr|lia|lia|cbn [words lr1]; rewrite upd_length; lia].
    rewrite upd_upd. f_equal. f_equal. f_equal. rewrite Sa, Sb.
    assert (K : forall (l : list word) k c, nth_error l k = Some c -> skipn k l = c :: skipn (S k) l).
    { clear. induction l as [|d l IHl]; intros [|k] c H; cbn in *; try discriminate; [congruence|]. rewrite (IHl _ _ H). destruct l; reflexivity. }
    rewrite (K _ _ _ X), (K _ _ _ Y), (K _ _ _ Z). cbn [merged words lr1].
    destruct (upd_split _ _ _ (mword o x y) _ Z) as (l1 & l2 & E & L1 & E2). rewrite E2, E. subst i.
    change (S (length l1)) with (1 + length l1). rewrite (Nat.add_comm 1). rewrite !firstn_app. 
    rewrite (firstn_all2 l1) by lia. rewrite (firstn_all2 l1) by lia. replace (length l1 + 1 - length l1) with 1 by lia. rewrite Nat.sub_diag. cbn [firstn].
    rewrite !skipn_app. rewrite !(skipn_all2 l1) by lia. replace (length l1 + 1 - length l1) with 1 by lia. cbn [skipn app]. rewrite app_nil_r, <- app_assoc. reflexivity.
Qed.
Lemma merged_spec o : forall A B R i, length A = length R -> length B = length R -> i < length R -> nth i (merged o A B R) 0%N = mword o (nth i A 0%N) (nth i B 0%N).
Proof.
  induction A as [|x A IH]; intros [|y B] [|z R] [|i] LA LB LI; cbn [length merged nth] in *; try lia. apply IH; lia.
Qed.
Lemma merged_length o : forall A B R, length (merged o A B R) = length R.
Proof. induction A as [|x A IH]; intros [|y B] [|z R]; cbn; auto. Qed.
Lemma merged_small o : forall A B R, Forall small A -> Forall small B -> Forall small R -> Forall small (merged o A B R).
Proof.
  induction A as [|x A IH]; intros [|y B] [|z R] HA HB HR; cbn; auto. inversion HA; inversion HB; inversion HR; subst. constructor; [apply mword_small; assumption|auto].
Qed.
Lemma zip_nth {A B C} (f : A -> B -> C) : forall x y i a b, nth_error x i = Some a -> nth_error y i = Some b -> nth_error (zip f x y) i = Some (f a b).
Proof. unfold zip. induction x as [|u x IH]; intros [|v y] [|i] a b Ha Hb; cbn in *; try discriminate; [congruence|apply IH; assumption]. Qed.
Lemma zip_length {A B C} (f : A -> B -> C) x y : length x = length y -> length (zip f x y) = length y.
Proof. intros E. unfold zip. rewrite map_length, combine_length. lia. Qed.
Lemma merge_rel o la lb lr xa xb xr : rel la xa -> rel lb xb -> rel lr xr -> length xa = length xr -> length xb = length xr ->
  rel (mkB (numBits lr) (merged o (words la) (words lb) (words lr))) (zip (mbool o) xa xb).
Proof.
  intros Ra Rb Rr Ea Eb.
  assert (Wa : length (words la) = length (words lr)) by (rewrite (r_words _ _ Ra), (r_words _ _ Rr), (r_len _ _ Ra), (r_len _ _ Rr); congruence).
  assert (Wb : length (words lb) = length (words lr)) by (rewrite (r_words _ _ Rb), (r_words _ _ Rr), (r_len _ _ Rb), (r_len _ _ Rr); congruence).
  constructor; cbn [numBits words].
  - rewrite zip_length by congruence. rewrite (r_len _ _ Rr). congruence.
  - rewrite merged_length. apply (r_words _ _ Rr).
  - apply merged_small; [apply (r_small _ _ Ra)|apply (r_small _ _ Rb)|apply (r_small _ _ Rr)].
  - rewrite zip_length by congruence. intros i I.
    pose proof (r_bits _ _ Ra i ltac:(congruence)) as Ba. pose proof (r_bits _ _ Rb i ltac:(congruence)) as Bb. rewrite (zip_nth _ _ _ _ _ _ Ba Bb). f_equal.
    unfold bit. pose proof (Nat.mod_upper_bound i 32 ltac:(lia)). rewrite merged_spec; [rewrite mword_bit by lia; reflexivity|exact Wa|exact Wb|].
    apply div_lt. apply (rel_words_ge _ _ Rr). congruence.
Qed.

(** ** Programs *)
Definition paired (st : list bitlist) (ls : list (list bool)) : Prop := Forall2 rel st ls.
Lemma paired_nth st ls k l : paired st ls -> nth_error ls k = Some l -> exists b, nth_error st k = Some b /\ rel b l.
Proof.
  intros F. revert k. induction F as [|b l' st ls R F IH]; intros [|k] H; cbn in *; try discriminate; [injection H as <-; eauto|auto].
Qed.
Lemma paired_upd st ls k b l : paired st ls -> rel b l -> paired (upd st k b) (upd ls k l).
Proof.
  intros F R. revert k. induction F as [|b' l' st ls R' F IH]; intros [|k]; cbn; constructor; auto. apply IH.
Qed.
(** Padding of the lists, as long as single bits are written. *)
Definition pads (st : list bitlist) (vs : list bool) : Prop := Forall2 pad st vs.
Lemma pads_upd st vs k b b' : pads st vs -> nth_error st k = Some b -> (forall v, pad b v -> pad b' v) -> pads (upd st k b') vs.
Proof.
  intros F. revert k. induction F as [|c v st vs P F IH]; intros [|k] H I; cbn in *; try discriminate; constructor; auto.
  - injection H as ->. auto.
  - apply IH; assumption.
Qed.
Definition created (os : list op) : list bool := flat_map (fun o => match o with New _ v => [v] | _ => [] end) os.

Lemma exec_ok st ls o ls' t : paired st ls -> means ls o = Some (ls', t) ->
  exists st', exec st o = Ok (st', t) /\ paired st' ls' /\ (bitwise o -> forall vs, pads st vs -> pads st' (vs ++ created [o])).
Proof.
  intros P M.
  assert (One : forall k f F, means ls o = on ls k F -> (exec st o = on_list st k f) -> created [o] = [] ->
     (forall b l l' t', rel b l -> F l = Some (l', t') -> exists b', f b = Ok (b', t') /\ rel b' l' /\ (bitwise o -> forall v, pad b v -> pad b' v)) ->
     exists st', exec st o = Ok (st', t) /\ paired st' ls' /\ (bitwise o -> forall vs, pads st vs -> pads st' (vs ++ created [o]))).
  { intros k f F E1 E2 C H. rewrite E1 in M. rewrite E2. unfold on in M. unfold on_list. destruct (nth_error ls k) as [l|] eqn:L; [|discriminate].
    destruct (paired_nth _ _ _ _ P L) as (b & B & R). rewrite B. destruct (F l) as [[l' t']|] eqn:Fl; [|discriminate]. injection M as <- <-.
    destruct (H b l l' t' R Fl) as (b' & Eb & R' & Pd). rewrite Eb. cbn [obind fst snd]. eexists. split; [reflexivity|]. split; [apply paired_upd; assumption|].
    intros W vs V. rewrite C, app_nil_r. apply (pads_upd _ _ _ b); auto. }
  assert (Bit : forall f g, bit_op f g -> forall b l i l' t', rel b l -> quietly (at_bit i g l) = Some (l', t') ->
     exists b', quiet (f b i) = Ok (b', t') /\ rel b' l' /\ forall v, pad b v -> pad b' v).
  { intros f g O b l i l' t' R Q. unfold quietly in Q. destruct (at_bit i g l) as [l1|] eqn:A; [|discriminate]. injection Q as <- <-.
    destruct (bit_op_rel f g b l i l1 O R A) as (b' & E & R' & Pd). exists b'. unfold quiet. rewrite E. cbn. auto. }
  assert (Ans : forall f g, bit_op f g -> forall b l i l' t', rel b l -> answering i g l = Some (l', t') ->
     exists b', answer (test_and f b i) = Ok (b', t') /\ rel b' l' /\ forall v, pad b v -> pad b' v).
  { intros f g O b l i l' t' R Q. unfold answering in Q. destruct (nth_error l i) as [t1|] eqn:T; [|discriminate]. destruct (at_bit i g l) as [l1|] eqn:A; [|discriminate]. injection Q as <- <-.
    destruct (bit_op_rel f g b l i l1 O R A) as (b' & E & R' & Pd). exists b'. unfold answer, test_and. rewrite (test_ok _ _ _ _ R T), E. cbn. auto. }
  destruct o as [len v|k|k|k|k i|k i|k i|k i|k i|k i|k i|o a b r].
  - cbn in M. injection M as <- <-. eexists. split; [reflexivity|]. destruct (new_rel len v) as [R Pd]. split; [apply Forall2_app; [exact P|constructor; [exact R|constructor]]|].
    intros _ vs V. apply Forall2_app; [exact V|]. cbn. constructor; [exact Pd|constructor].
  - eapply (One k); [reflexivity|reflexivity|reflexivity|]. intros b l l' t' R E. injection E as <- <-. eexists. split; [reflexivity|]. split; [apply (set_all_rel b l true R)|intros []].
  - eapply (One k); [reflexivity|reflexivity|reflexivity|]. intros b l l' t' R E. injection E as <- <-. eexists. split; [reflexivity|]. split; [apply (set_all_rel b l false R)|intros []].
  - eapply (One k); [reflexivity|reflexivity|reflexivity|]. intros b l l' t' R E. injection E as <- <-. eexists. split; [reflexivity|]. split; [apply (flip_all_rel b l R)|intros []].
  - eapply (One k); [reflexivity|reflexivity|reflexivity|]. intros b l l' t' R E. destruct (Bit _ _ set_op b l i l' t' R E) as (b' & ? & ? & ?). eauto 6.
  - eapply (One k); [reflexivity|reflexivity|reflexivity|]. intros b l l' t' R E. destruct (Bit _ _ clear_op b l i l' t' R E) as (b' & ? & ? & ?). eauto 6.
  - eapply (One k); [reflexivity|reflexivity|reflexivity|]. intros b l l' t' R E. destruct (Bit _ _ flip_op b l i l' t' R E) as (b' & ? & ? & ?). eauto 6.
  - eapply (One k); [reflexivity|reflexivity|reflexivity|]. intros b l l' t' R E. unfold answering, at_bit in E. destruct (nth_error l i) as [t1|] eqn:T; [|discriminate]. injection E as <- <-.
    rewrite (test_ok _ _ _ _ R T). cbn [obind]. eexists. split; [reflexivity|]. rewrite upd_same by exact T. auto.
  - eapply (One k); [reflexivity|reflexivity|reflexivity|]. intros b l l' t' R E. destruct (Ans _ _ set_op b l i l' t' R E) as (b' & ? & ? & ?). eauto 6.
  - eapply (One k); [reflexivity|reflexivity|reflexivity|]. intros b l l' t' R E. destruct (Ans _ _ clear_op b l i l' t' R E) as (b' & ? & ? & ?). eauto 6.
  - eapply (One k); [reflexivity|reflexivity|reflexivity|]. intros b l l' t' R E. destruct (Ans _ _ flip_op b l i l' t' R E) as (b' & ? & ? & ?). eauto 6.
  - cbn [means] in M. destruct (nth_error ls a) as [xa|] eqn:A; [|discriminate]. destruct (nth_error ls b) as [xb|] eqn:B; [|discriminate]. destruct (nth_error ls r) as [xr|] eqn:Rr; [|discriminate].
    destruct ((length xa =? length xr) && (length xb =? length xr)) eqn:L; [|discriminate]. injection M as <- <-. apply andb_prop in L as [La Lb]. apply Nat.eqb_eq in La, Lb.
    destruct (paired_nth _ _ _ _ P A) as (la & Na & Ra). destruct (paired_nth _ _ _ _ P B) as (lb & Nb & Rb). destruct (paired_nth _ _ _ _ P Rr) as (lr & Nr & Rlr).
    assert (Wa : length (words la) = length (words lr)) by (rewrite (r_words _ _ Ra), (r_words _ _ Rlr), (r_len _ _ Ra), (r_len _ _ Rlr); congruence).
    assert (Wb : length (words lb) = length (words lr)) by (rewrite (r_words _ _ Rb), (r_words _ _ Rlr), (r_len _ _ Rb), (r_len _ _ Rlr); congruence).
    cbn [exec]. unfold merge, numInts. rewrite Na, Nb. replace (Nat.min (Nat.min (length (words la)) (length (words lb))) (length (words lb))) with (length (words lr)) by lia.
    rewrite (merge_loop_ok o a b r (numBits lr) (length (words lr)) st 0 la lb lr Na Nb Nr eq_refl Wa Wb eq_refl). cbn [obind firstn skipn app]. eexists. split; [reflexivity|].
    split; [|intros []]. apply paired_upd; [exact P|]. apply (merge_rel o la lb lr xa xb xr); assumption.
Qed.
Lemma execs_ok os : forall st ls ls' ts, paired st ls -> meaning ls os = Some (ls', ts) ->
  exists st', execs st os = Ok (st', ts) /\ paired st' ls' /\ (Forall bitwise os -> forall vs, pads st vs -> pads st' (vs ++ created os)).
Proof.
  induction os as [|o os IH]; intros st ls ls' ts P M; cbn [meaning execs] in *.
  - injection M as <- <-. eexists. split; [reflexivity|]. split; [exact P|]. intros _ vs V. cbn. rewrite app_nil_r. exact V.
  - destruct (means ls o) as [[ls1 t]|] eqn:E; [|discriminate]. destruct (meaning ls1 os) as [[ls2 ts2]|] eqn:E2; [|discriminate]. injection M as <- <-.
    destruct (exec_ok st ls o ls1 t P E) as (st1 & X & P1 & D1). rewrite X. cbn [obind fst snd]. destruct (IH st1 ls1 ls2 ts2 P1 E2) as (st2 & X2 & P2 & D2). rewrite X2. cbn [obind fst snd].
    eexists. split; [reflexivity|]. split; [exact P2|]. intros F vs V. inversion F; subst. specialize (D2 ltac:(assumption) _ (D1 ltac:(assumption) _ V)).
    rewrite <- app_assoc in D2. replace (created (o :: os)) with (created [o] ++ created os); [exact D2|]. unfold created. cbn. rewrite app_nil_r. reflexivity.
Qed.
Lemma rel_shows b l : rel b l -> shows b l.
Proof.
  intros R. split; [apply (r_len _ _ R)|]. intros i I. pose proof (r_bits _ _ R i I) as B. eexists. split; [exact B|]. apply (test_ok _ _ _ _ R B).
Qed.
Lemma bits_history os ls ts : meaning [] os = Some (ls, ts) -> exists st, execs [] os = Ok (st, ts) /\ Forall2 shows st ls.
Proof.
  intros M. destruct (execs_ok os [] [] ls ts ltac:(constructor) M) as (st & E & P & _). exists st. split; [exact E|].
  clear - P. induction P; constructor; [apply rel_shows|]; assumption.
Qed.

(** ** Searching and counting *)
Definition wbits (w : word) (n : nat) : list bool := map (fun j => N.testbit w (N.of_nat j)) (seq 0 n).
(** The bits that the loops look at. *)
Fixpoint seen (ws : list word) (n : nat) : list bool :=
  match ws with
  | [] => []
  | [w] => wbits w n
  | w :: ws' => wbits w 32 ++ seen ws' n
  end.
Fixpoint index_of (v : bool) (l : list bool) : option nat :=
  match l with
  | [] => None
  | x :: l' => if Bool.eqb x v then Some 0 else option_map S (index_of v l')
  end.
Lemma index_app v l1 l2 : index_of v (l1 ++ l2) = match index_of v l1 with Some i => Some i | None => option_map (fun i => length l1 + i) (index_of v l2) end.
Proof.
  induction l1 as [|x l1 IH]; cbn; [destruct (index_of v l2); reflexivity|]. destruct (Bool.eqb x v); [reflexivity|]. rewrite IH. destruct (index_of v l1); [reflexivity|]. destruct (index_of v l2); reflexivity.
Qed.
Lemma first_in_spec w v n : forall j, first_in w v j n = option_map (fun i => j + i) (index_of v (map (fun j => N.testbit w (N.of_nat j)) (seq j n))).
Proof.
  induction n as [|n IH]; intros j; cbn [first_in seq map index_of]; [reflexivity|]. rewrite land_one_nz. destruct (Bool.eqb (N.testbit w (N.of_nat j)) v); [cbn; f_equal; lia|].
  rewrite IH. destruct (index_of v _); cbn; f_equal; lia.
Qed.
Lemma first_in_wbits w v n : first_in w v 0 n = index_of v (wbits w n).
Proof. rewrite first_in_spec. unfold wbits. destruct (index_of v _); reflexivity. Qed.
Lemma skipped_none w v n : n <= 32 -> skipped v w = true -> ~ In v (wbits w n).
Proof.
  intros L S I. apply in_map_iff in I as (j & E & J). apply in_seq in J. destruct v; cbn in S; apply N.eqb_eq in S; subst w.
  - rewrite N.bits_0 in E. discriminate.
  - rewrite ones_bit in E. apply N.ltb_ge in E. lia.
Qed.
Lemma index_none v l : index_of v l = None <-> ~ In v l.
Proof.
  induction l as [|x l IH]; cbn; [tauto|]. destruct (Bool.eqb x v) eqn:E.
  - apply eqb_prop in E. subst. split; [discriminate|tauto].
  - apply eqb_false_iff in E. destruct (index_of v l); cbn; [split; [discriminate|]|]; intuition congruence.
Qed.
Lemma count_none v l : ~ In v l -> count_occ bool_dec l v = 0.
Proof. intros H. apply count_occ_not_In. exact H. Qed.
Lemma wbits_length w n : length (wbits w n) = n.
Proof. unfold wbits. rewrite map_length. apply seq_length. Qed.
Lemma first_loop_spec v n ws : forall i, n mod 32 <= 32 -> first_loop ws v n i = option_map (fun k => i * 32 + k) (index_of v (seen ws (n mod 32))).
Proof.
  induction ws as [|w ws IH]; intros i M; [reflexivity|]. destruct ws as [|w' ws].
  - cbn [first_loop seen]. destruct (skipped v w) eqn:S; [rewrite (proj2 (index_none _ _) (skipped_none _ _ _ M S)); reflexivity|]. rewrite first_in_wbits. destruct (index_of v _); reflexivity.
  - change (first_loop (w :: w' :: ws) v n i) with (match (if skipped v w then None else first_in w v 0 32) with Some j => Some (i * 32 + j) | None => first_loop (w' :: ws) v n (S i) end).
    change (seen (w :: w' :: ws) (n mod 32)) with (wbits w 32 ++ seen (w' :: ws) (n mod 32)). rewrite index_app, wbits_length, IH by exact M.
    destruct (skipped v w) eqn:S; [rewrite (proj2 (index_none _ _) (skipped_none _ _ _ (Nat.le_refl 32) S))|rewrite first_in_wbits; destruct (index_of v (wbits w 32)); [reflexivity|]];
    (destruct (index_of v (seen (w' :: ws) (n mod 32))); [cbn [option_map]; f_equal; lia|reflexivity]).
Qed.
Lemma count_in_spec w v n : forall j, j + n <= 32 -> count_in w v j n = count_occ bool_dec (map (fun j => N.testbit w (N.of_nat j)) (seq j n)) v.
Proof.
  induction n as [|n IH]; intros j L; cbn [count_in seq map count_occ]; [reflexivity|]. rewrite IH by lia.
  assert (E : (if v then N.to_nat (N.land (N.shiftr w (N.of_nat j)) 1) else N.to_nat (N.land (wnot (N.shiftr w (N.of_nat j))) 1)) = if Bool.eqb (N.testbit w (N.of_nat j)) v then 1 else 0).
  { destruct v; rewrite low_bit, ?wnot_bit, N.shiftr_spec', N.add_0_l; destruct (N.testbit w (N.of_nat j)); reflexivity. }
  rewrite E. destruct (bool_dec (N.testbit w (N.of_nat j)) v) as [->|D]; [rewrite eqb_reflx; reflexivity|]. apply eqb_false_iff in D. rewrite D. reflexivity.
Qed.
Lemma count_loop_spec v n ws : n mod 32 <= 32 -> count_loop ws v n = count_occ bool_dec (seen ws (n mod 32)) v.
Proof.
  intros M. induction ws as [|w ws IH]; [reflexivity|]. destruct ws as [|w' ws].
  - cbn [count_loop seen]. destruct (skipped v w) eqn:S; [rewrite (count_none _ _ (skipped_none _ _ _ M S)); reflexivity|]. apply count_in_spec. exact M.
  - change (count_loop (w :: w' :: ws) v n) with ((if skipped v w then 0 else count_in w v 0 32) + count_loop (w' :: ws) v n).
    change (seen (w :: w' :: ws) (n mod 32)) with (wbits w 32 ++ seen (w' :: ws) (n mod 32)). rewrite count_occ_app, <- IH. f_equal.
    destruct (skipped v w) eqn:S; [rewrite (count_none _ _ (skipped_none _ _ _ (Nat.le_refl 32) S)); reflexivity|]. apply count_in_spec. lia.
Qed.
Lemma seen_nth n ws : n <= 32 -> forall i, i < length (seen ws n) -> nth_error (seen ws n) i = Some (bit ws i).
Proof.
  intros N. induction ws as [|w ws IH]; intros i I; [cbn in I; lia|].
  assert (W : forall m i, m <= 32 -> i < m -> nth_error (wbits w m) i = Some (bit (w :: ws) i)).
  { clear. intros m i M I. unfold wbits. rewrite nth_error_map. rewrite (nth_nth_error _ _ 0) by (rewrite seq_length; exact I). rewrite seq_nth by exact I. cbn. unfold bit.
    rewrite Nat.div_small by lia. rewrite Nat.mod_small by lia. reflexivity. }
  destruct ws as [|w' ws].
  - cbn [seen] in *. rewrite wbits_length in I. apply W; assumption.
  - change (seen (w :: w' :: ws) n) with (wbits w 32 ++ seen (w' :: ws) n) in *. rewrite app_length, wbits_length in I.
    destruct (Nat.lt_ge_cases i 32) as [L|L].
    + rewrite nth_error_app1 by (rewrite wbits_length; exact L). apply W; [lia|exact L].
    + rewrite nth_error_app2, wbits_length by (rewrite wbits_length; exact L). rewrite IH by lia. f_equal. unfold bit. replace i with (i - 32 + 1 * 32) at 3 4 by lia.
      rewrite Nat.div_add, Nat.mod_add by lia. rewrite Nat.add_1_r. reflexivity.
Qed.
Lemma seen_length n ws : ws <> [] -> length (seen ws n) = 32 * (length ws - 1) + n.
Proof.
  induction ws as [|w ws IH]; [congruence|]. intros _. destruct ws as [|w' ws]; [cbn [seen]; rewrite wbits_length; cbn; lia|].
  change (seen (w :: w' :: ws) n) with (wbits w 32 ++ seen (w' :: ws) n). rewrite app_length, wbits_length, IH by discriminate. cbn [length]. lia.
Qed.
Lemma nth_error_ext {A} (l1 l2 : list A) : (forall i, nth_error l1 i = nth_error l2 i) -> l1 = l2.
Proof.
  revert l2. induction l1 as [|x l1 IH]; intros [|y l2] H; [reflexivity|specialize (H 0); discriminate|specialize (H 0); discriminate|].
  pose proof (H 0) as H0. cbn in H0. injection H0 as <-. f_equal. apply IH. intros i. exact (H (S i)).
Qed.
(** The loops see the bits of the list, followed by padding. *)
Lemma seen_split b l : rel b l -> exists p, seen (words b) (numBits b mod 32) = l ++ p /\ forall v, pad b v -> Forall (eq v) p.
Proof.
  intros R. set (s := seen (words b) (numBits b mod 32)).
  pose proof (Nat.mod_upper_bound (numBits b) 32 ltac:(lia)) as M.
  assert (NE : words b <> []). { intros E. pose proof (r_words _ _ R) as W. rewrite E in W. pose proof (wlen_pos (numBits b)). cbn in W. lia. }
  assert (SL : length s = 32 * (length (words b) - 1) + numBits b mod 32) by (apply seen_length; exact NE).
  assert (L : length l <= length s). { rewrite SL, (r_words _ _ R), <- (r_len _ _ R). pose proof (wlen_last (numBits b)). lia. }
  exists (skipn (length l) s). split.
  - rewrite <- (firstn_skipn (length l) s) at 1. f_equal. apply nth_error_ext. intros i. destruct (Nat.lt_ge_cases i (length l)) as [I|I].
    + assert (Q : nth_error (firstn (length l) s) i = nth_error s i).
      { rewrite <- (firstn_skipn (length l) s) at 2. rewrite nth_error_app1; [reflexivity|]. rewrite firstn_length. lia. }
      rewrite Q. unfold s. rewrite seen_nth by (try lia; fold s; lia). symmetry. apply (r_bits _ _ R i I).
    + rewrite (proj2 (nth_error_None _ _)) by (rewrite firstn_length; lia). symmetry. apply nth_error_None. exact I.
  - intros v P. apply Forall_forall. intros x X. apply In_nth_error in X as (i & X).
    assert (Q : nth_error s (length l + i) = Some x). { rewrite <- (firstn_skipn (length l) s). rewrite nth_error_app2 by (rewrite firstn_length; lia). rewrite firstn_length, Nat.min_l by lia. replace (length l + i - length l) with i by lia. exact X. }
    assert (I : length l + i < length s) by (apply nth_error_Some; congruence). unfold s in Q, I. rewrite seen_nth in Q by (try lia; exact I). injection Q as <-. symmetry. apply P.
    rewrite (r_len _ _ R). split; [lia|]. fold s in I. assert (0 < length (words b)) by (destruct (words b); [congruence|cbn; lia]). lia.
Qed.
Lemma index_first v l i : index_of v l = Some i <-> first_of v l i.
Proof.
  unfold first_of. revert i. induction l as [|x l IH]; intros i; cbn [index_of].
  - split; [discriminate|]. intros [H _]. destruct i; discriminate.
  - destruct (Bool.eqb x v) eqn:E.
    + apply eqb_prop in E. subst x. split.
      * intros H. injection H as <-. split; [reflexivity|lia].
      * intros [H B]. destruct i as [|i]; [reflexivity|]. specialize (B 0 ltac:(lia)). cbn in B. injection B as B. destruct v; discriminate.
    + apply eqb_false_iff in E. assert (X : x = negb v) by (destruct x, v; cbn; congruence). destruct i as [|i].
      * split; [destruct (index_of v l); discriminate|]. intros [H _]. cbn in H. congruence.
      * transitivity (index_of v l = Some i); [destruct (index_of v l); cbn; split; congruence|]. rewrite IH. split; intros [H B]; (split; [exact H|]).
        -- intros [|j] J; [cbn; congruence|]. apply B. lia.
        -- intros j J. apply (B (S j)). lia.
Qed.
Lemma first_any b l v : rel b l ->
  match get_first b v with
  | Some i => if i <? length l then first_of v l i else ~ In v l
  | None => ~ In v l
  end.
Proof.
  intros R. destruct (seen_split b l R) as (p & E & _). unfold get_first. pose proof (Nat.mod_upper_bound (numBits b) 32 ltac:(lia)) as M.
  rewrite first_loop_spec by lia. rewrite E, index_app. destruct (index_of v l) as [i|] eqn:I.
  - cbn [option_map Nat.mul Nat.add]. pose proof (proj1 (index_first v l i) I) as F. assert (L : i < length l) by (apply nth_error_Some; destruct F; congruence). apply Nat.ltb_lt in L. rewrite L. exact F.
  - apply index_none in I. destruct (index_of v p) as [k|]; cbn [option_map Nat.mul Nat.add]; [|exact I]. destruct (Nat.ltb_spec (length l + k) (length l)); [lia|exact I].
Qed.
Lemma first_padded b l v : rel b l -> pad b (negb v) -> get_first b v = index_of v l.
Proof.
  intros R P. destruct (seen_split b l R) as (p & E & F). unfold get_first. pose proof (Nat.mod_upper_bound (numBits b) 32 ltac:(lia)) as M. rewrite first_loop_spec by lia. rewrite E, index_app.
  specialize (F _ P). assert (N : index_of v p = None). { apply index_none. intros I. rewrite Forall_forall in F. specialize (F v I). destruct v; discriminate. }
  rewrite N. destruct (index_of v l); reflexivity.
Qed.
Lemma count_padded b l v : rel b l -> pad b (negb v) -> count b v = count_of v l.
Proof.
  intros R P. destruct (seen_split b l R) as (p & E & F). unfold count. pose proof (Nat.mod_upper_bound (numBits b) 32 ltac:(lia)) as M. rewrite count_loop_spec by lia. rewrite E, count_occ_app.
  specialize (F _ P). rewrite (count_none v p); [unfold count_of; lia|]. intros I. rewrite Forall_forall in F. specialize (F v I). destruct v; discriminate.
Qed.
Lemma forall2_nth {A B} (P : A -> B -> Prop) l1 l2 k a b : Forall2 P l1 l2 -> nth_error l1 k = Some a -> nth_error l2 k = Some b -> P a b.
Proof. intros F. revert k. induction F; intros [|k] Ha Hb; cbn in *; try discriminate; [congruence|eauto]. Qed.
Lemma first_history os ls ts st : meaning [] os = Some (ls, ts) -> execs [] os = Ok (st, ts) ->
  forall k b l v, nth_error st k = Some b -> nth_error ls k = Some l ->
  match get_first b v with
  | Some i => if i <? length l then first_of v l i else ~ In v l
  | None => ~ In v l
  end.
Proof.
  intros M X k b l v B L. destruct (execs_ok os [] [] ls ts ltac:(constructor) M) as (st' & E & P & _). rewrite X in E. injection E as <-.
  apply first_any. exact (forall2_nth _ _ _ _ _ _ P B L).
Qed.
Lemma count_history os ls ts st : Forall bitwise os -> meaning [] os = Some (ls, ts) -> execs [] os = Ok (st, ts) ->
  forall k b l v, nth_error st k = Some b -> nth_error ls k = Some l -> nth_error (created os) k = Some (negb v) ->
  count b v = count_of v l /\ (forall i, get_first b v = Some i <-> first_of v l i).
Proof.
  intros F M X k b l v B L C. destruct (execs_ok os [] [] ls ts ltac:(constructor) M) as (st' & E & P & D). rewrite X in E. injection E as <-.
  specialize (D F [] ltac:(constructor)). pose proof (forall2_nth _ _ _ _ _ _ P B L) as R. pose proof (forall2_nth _ _ _ _ _ _ D B C) as Pd.
  split; [apply count_padded; assumption|]. intros i. rewrite (first_padded b l v R Pd). apply index_first.
Qed.
Lemma count_wrong : exists st, execs [] [New 10 true] = Ok (st, []) /\ meaning [] [New 10 true] = Some ([repeat true 10], []) /\ map (fun b => count b true) st = [1002].
Proof. eexists. split; [vm_compute; reflexivity|]. split; [reflexivity|vm_compute; reflexivity]. Qed.
Lemma clear_count_wrong : exists st, execs [] [New 10 false; SetBit 0 3] = Ok (st, []) /\ map (fun b => count b false) st = [1001].
Proof. eexists. split; vm_compute; reflexivity. Qed.
Lemma first_wrong : exists st, execs [] [New 2 false; SetBit 0 0; SetBit 0 1] = Ok (st, []) /\ map (fun b => get_first b false) st = [Some 2].
Proof. eexists. split; vm_compute; reflexivity. Qed.
Lemma merge_wrong : execs [] [New 8 false; New 8 true; New 0 false; Merge AND 0 1 2] = UB.
Proof. reflexivity. Qed.
