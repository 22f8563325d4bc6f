(** Proofs about files. *)
Require Import Coq.ZArith.ZArith Coq.NArith.NArith Coq.Lists.List Coq.Arith.Arith Coq.Bool.Bool Coq.micromega.Lia.
Require Import Verif.Base Verif.File_Model Verif.File_Spec.
Import ListNotations.

(** ** Writing to a file *)
Lemma put_length : forall d p b, b <> [] -> length (put d p b) = Nat.max (length d) (p + length b).
Proof.
  intros d p b H. destruct b as [|x b]; [congruence|]. unfold put. rewrite !app_length, firstn_length, app_length, repeat_length, skipn_length. lia.
Qed.
Lemma nth_repeat0 : forall n k, k < n -> nth_error (repeat 0%N n) k = Some 0%N.
Proof. induction n; intros [|k] H; cbn; try lia; auto. apply IHn. lia. Qed.
Lemma put_nth : forall d p b k, b <> [] -> k < length (put d p b) -> nth_error (put d p b) k =
  if (p <=? k) && (k <? p + length b) then nth_error b (k - p) else if k <? length d then nth_error d k else Some 0%N.
Proof.
  intros d p b k Hb Hk. rewrite put_length in Hk by exact Hb. destruct b as [|x b0]; [congruence|]. unfold put. set (b := x :: b0) in *.
  assert (L : length (firstn p (d ++ repeat 0%N (p - length d))) = p) by (rewrite firstn_length, app_length, repeat_length; lia).
  destruct (p <=? k) eqn:E1; cbn [andb].
  - apply Nat.leb_le in E1. rewrite nth_error_app2 by lia. rewrite L. destruct (k <? p + length b) eqn:E2.
    + apply Nat.ltb_lt in E2. rewrite nth_error_app1 by lia. reflexivity.
    + apply Nat.ltb_ge in E2. rewrite nth_error_app2 by lia. replace (k <? length d) with true by (symmetry; apply Nat.ltb_lt; lia).
      rewrite <- (firstn_skipn (p + length b) d) at 2. rewrite nth_error_app2; rewrite firstn_length; [|lia]. f_equal. lia.
  - apply Nat.leb_gt in E1. rewrite nth_error_app1 by lia. assert (F : forall (l : list N), nth_error (firstn p l) k = nth_error l k).
    { intros l. rewrite <- (firstn_skipn p l) at 2. destruct (Nat.lt_ge_cases k (length (firstn p l))) as [H|H]; [now rewrite nth_error_app1|]. rewrite firstn_length in H. assert (length l <= k) by lia.
      rewrite firstn_all2 by lia. rewrite skipn_all2 by lia. now rewrite app_nil_r. }
    rewrite F. destruct (k <? length d) eqn:E3.
    + apply Nat.ltb_lt in E3. now rewrite nth_error_app1.
    + apply Nat.ltb_ge in E3. rewrite nth_error_app2 by lia. apply nth_repeat0. lia.
Qed.
Lemma put_written : forall d p b, written d p b (put d p b).
Proof.
  intros d p b. split; [intros ->; reflexivity|]. intros H. split; [now apply put_length|]. intros k Hk. now apply put_nth.
Qed.
Lemma nth_ext : forall (a b : list N), length a = length b -> (forall k, k < length a -> nth_error a k = nth_error b k) -> a = b.
Proof.
  induction a as [|x a IH]; intros [|y b] L H; try discriminate L; [reflexivity|]. pose proof (H 0 ltac:(cbn; lia)) as E. injection E as ->. f_equal. apply IH; [cbn in L; lia|]. intros k Hk. apply (H (S k)). cbn. lia.
Qed.
Lemma put_put : forall d p a b, put (put d p a) (p + length a) b = put d p (a ++ b).
Proof.
  intros d p a b. destruct a as [|x a0]; [cbn [put length app]; now rewrite Nat.add_0_r|]. set (a := x :: a0). assert (Ha : a <> []) by discriminate.
  destruct b as [|y b0]; [now rewrite app_nil_r|]. set (b := y :: b0). assert (Hb : b <> []) by discriminate. assert (Hab : a ++ b <> []) by (destruct a; discriminate).
  apply nth_ext.
  - rewrite !put_length by assumption. rewrite app_length. lia.
  - intros k Hk. rewrite put_nth by assumption. rewrite put_length in Hk by assumption. rewrite put_length in * by assumption.
    rewrite (put_nth d p (a ++ b)) by (try rewrite put_length, app_length; try assumption; lia). rewrite app_length.
    destruct (p + length a <=? k) eqn:E1; cbn [andb].
    + apply Nat.leb_le in E1. replace (p <=? k) with true by (symmetry; apply Nat.leb_le; lia). cbn [andb]. rewrite Nat.add_assoc. destruct (k <? p + length a + length b) eqn:E2.
      * apply Nat.ltb_lt in E2. rewrite nth_error_app2 by lia. f_equal. lia.
      * apply Nat.ltb_ge in E2. replace (k <? Nat.max (length d) (p + length a)) with true by (symmetry; apply Nat.ltb_lt; lia).
        rewrite put_nth by (try rewrite put_length by assumption; try assumption; lia). replace (k <? p + length a) with false by (symmetry; apply Nat.ltb_ge; lia). now rewrite andb_false_r.
    + apply Nat.leb_gt in E1. destruct (k <? Nat.max (length d) (p + length a)) eqn:E3; [|apply Nat.ltb_ge in E3; lia]. apply Nat.ltb_lt in E3.
      rewrite put_nth by (try rewrite put_length by assumption; try assumption; lia). destruct (p <=? k) eqn:E4; cbn [andb]; [|reflexivity]. apply Nat.leb_le in E4.
      replace (k <? p + length a) with true by (symmetry; apply Nat.ltb_lt; lia). replace (k <? p + (length a + length b)) with true by (symmetry; apply Nat.ltb_lt; lia). rewrite nth_error_app1 by lia. reflexivity.
Qed.

(** ** Streams *)
Definition wf (x : stream) : Prop := length (pend x) <= pos x /\ (pend x <> [] -> last x = Wrote).
Definition content (x : stream) : list N := put (disk x) (start x) (pend x).
Definition abs (x : stream) : afile := mkA (content x) (pos x).
Lemma settled_content : forall x, wf x -> last x <> Wrote -> content x = disk x /\ pend x = [].
Proof. intros x (_ & H) Hl. destruct (pend x) eqn:E; [|destruct Hl; apply H; discriminate]. unfold content. now rewrite E. Qed.
Lemma flush_facts : forall x, wf x -> wf (flush x) /\ content (flush x) = content x /\ disk (flush x) = content x.
Proof. intros x (H & _). repeat split; cbn [flush pend pos length last]; [lia|congruence]. Qed.
Lemma fwrite_facts : forall drain x b, wf x -> open x = true -> last x <> Did_read false ->
  exists x', fwrite drain x b = Ok x' /\ wf x' /\ open x' = true /\ mine x' = mine x /\ last x' = Wrote /\ pos x' = pos x + length b /\ content x' = put (content x) (pos x) b.
Proof.
  intros drain x b (Hl & Hp) Ho Hr. unfold fwrite. rewrite Ho. cbn [negb]. destruct (last x) as [| |[|]] eqn:E; try congruence; (eexists; split; [reflexivity|]); cbn [open mine last pos pend disk];
  (split; [split; cbn [pend pos last]; [rewrite skipn_length, app_length; lia|reflexivity]|]); repeat (split; [reflexivity|]); unfold content, start; cbn [disk pend pos];
  set (k := drain (pend x ++ b)); set (st := pos x - length (pend x));
  (replace (pos x + length b - length (skipn k (pend x ++ b))) with (st + length (firstn k (pend x ++ b))) by (rewrite skipn_length, firstn_length, app_length; lia));
  rewrite put_put, firstn_skipn, <- put_put; (replace (st + length (pend x)) with (pos x) by lia); reflexivity.
Qed.
Lemma fread_facts : forall x n, wf x -> open x = true -> last x <> Wrote ->
  exists x', fread x n = Ok (x', firstn n (skipn (pos x) (content x))) /\ wf x' /\ open x' = true /\ mine x' = mine x /\ content x' = content x /\
    pos x' = pos x + length (firstn n (skipn (pos x) (content x))) /\ last x' = Did_read (length (firstn n (skipn (pos x) (content x))) <? n).
Proof.
  intros x n Hw Ho Hr. destruct (settled_content x Hw Hr) as [-> Hp]. unfold fread. rewrite Ho. cbn [negb].
  destruct (last x) as [| |e]; try congruence; (eexists; split; [reflexivity|]); cbn [open mine last pos pend disk]; unfold wf, content, start; cbn [pend pos last disk]; rewrite Hp; cbn [length put]; repeat split; try lia; congruence.
Qed.
Lemma fseek_facts : forall x off o, wf x -> open x = true ->
  exists x' r, fseek x off o = Ok (x', r) /\ wf x' /\ open x' = true /\ mine x' = mine x /\ used (abs x) (USeek off o) (abs x') (Num r) /\ last x' = match r with 0%Z => Sought | _ => last x end.
Proof.
  intros x off o Hw Ho. destruct (flush_facts x Hw) as (Fw & Fc & Fd). unfold fseek. rewrite Ho. cbn [negb].
  assert (N : forall P, P -> (forall t, target (abs x) off o = Some t -> (t < 0)%Z) -> P -> exists x' r, Ok (flush x, (-1)%Z) = Ok (x', r) /\ wf x' /\ open x' = true /\ mine x' = mine x /\ used (abs x) (USeek off o) (abs x') (Num r) /\ last x' = match r with 0%Z => Sought | _ => last x end).
  { intros P _ Ht _. exists (flush x), (-1)%Z. split; [reflexivity|]. split; [exact Fw|]. split; [exact Ho|]. split; [reflexivity|]. split; [|reflexivity]. replace (abs (flush x)) with (abs x); [now apply seek_not|]. unfold abs. now rewrite Fc. }
  assert (Y : forall b, target (abs x) off o = Some (Z.of_nat b + off)%Z -> exists x' r, (if (Z.of_nat b + off <? 0)%Z then Ok (flush x, (-1)%Z) else Ok (mkS true (disk (flush x)) [] (Z.to_nat (Z.of_nat b + off)) Sought (mine x), 0%Z)) = Ok (x', r) /\ wf x' /\ open x' = true /\ mine x' = mine x /\ used (abs x) (USeek off o) (abs x') (Num r) /\ last x' = match r with 0%Z => Sought | _ => last x end).
  { intros b Ht. destruct (Z.of_nat b + off <? 0)%Z eqn:E.
    - apply (N True I); [|exact I]. intros t Et. rewrite Ht in Et. injection Et as <-. now apply Z.ltb_lt.
    - apply Z.ltb_ge in E. eexists; eexists. split; [reflexivity|]. split; [split; cbn; [lia|congruence]|]. repeat (split; [reflexivity|]). split; [|reflexivity].
      pose proof (seek_to (abs x) off o _ Ht E) as U. unfold abs in U |- *. cbn [bytes pos] in U |- *. unfold content at 2. cbn [disk pend start put]. rewrite Fd. exact U. }
  destruct o; cbn zeta iota.
  - apply Y. reflexivity.
  - apply Y. reflexivity.
  - apply Y. cbn [target abs bytes]. now rewrite Fd.
  - apply (N True I); [|exact I]. intros t Et. discriminate Et.
Qed.

(** ** Holding *)
Definition cnt (i : nat) (c : list nat) : nat := count_occ Nat.eq_dec c i.
Lemma cnt_cons : forall i j l, cnt i (j :: l) = (if i =? j then 1 else 0) + cnt i l.
Proof. intros i j l. unfold cnt. cbn [count_occ]. destruct (Nat.eq_dec j i) as [->|H]; [now rewrite Nat.eqb_refl|]. replace (i =? j) with false; [reflexivity|]. symmetry. apply Nat.eqb_neq. congruence. Qed.
Lemma cnt_in : forall i l, In i l <-> 0 < cnt i l.
Proof. intros i l. unfold cnt. rewrite (count_occ_In Nat.eq_dec). lia. Qed.
Lemma cnt_drop : forall i j l, In j l -> cnt i (drop j l) + (if i =? j then 1 else 0) = cnt i l.
Proof.
  intros i j l. induction l as [|x l IH]; intros H; [destruct H|]. cbn [drop]. destruct (j =? x) eqn:E.
  - apply Nat.eqb_eq in E. subst x. rewrite cnt_cons. lia.
  - rewrite !cnt_cons. destruct H as [->|H]; [rewrite Nat.eqb_refl in E; discriminate|]. specialize (IH H). lia.
Qed.
Lemma drop_in : forall i j l, In i (drop j l) -> In i l.
Proof. intros i j l. induction l as [|x l IH]; intros H; [exact H|]. cbn [drop] in H. destruct (j =? x); [now right|]. destruct H as [->|H]; [now left|right; auto]. Qed.
Lemma upd_nth : forall {A} (h : list A) i j x, i < length h -> nth_error (upd h i x) j = if j =? i then Some x else nth_error h j.
Proof.
  intros A h. induction h as [|y h IH]; intros i j x Hi; [cbn in Hi; lia|]. destruct i as [|i], j as [|j]; cbn [upd nth_error]; try reflexivity.
  rewrite IH by (cbn in Hi; lia). reflexivity.
Qed.
Lemma upd_len : forall {A} (h : list A) i x, length (upd h i x) = length h.
Proof. intros A h. induction h as [|y h IH]; intros [|i] x; cbn; auto. Qed.
Lemma upd_upd : forall {A} (h : list A) i x y, upd (upd h i x) i y = upd h i y.
Proof. intros A h. induction h as [|z h IH]; intros [|i] x y; cbn; auto. now rewrite IH. Qed.

Record inv (w : world) (c : list nat) : Prop := mkI {
  i_refs : forall i f, nth_error (objs w) i = Some f -> refs f = cnt i c;
  i_in : forall i, In i c -> i < length (objs w);
  i_open : forall i s, has w i s -> opened w s;
  i_one : forall i j s, has w i s -> has w j s -> i = j;
  i_kept : forall s x, is_stream w s x -> mine x = false -> open x = true -> exists i, has w i s;
  i_mine : forall i f s x, is_file w i f -> fptr f = Some s -> is_stream w s x -> mine x = negb (own f);
  i_wf : forall s x, is_stream w s x -> wf x }.
Lemma obj_range : forall w i f, is_file w i f -> i < length (objs w).
Proof. intros w i f (H & _). apply nth_error_Some. congruence. Qed.
Lemma str_range : forall w s x, is_stream w s x -> s < length (streams w).
Proof. intros w s x H. apply nth_error_Some. unfold is_stream in H. congruence. Qed.
Lemma held_file : forall w c i, inv w c -> In i c -> exists f, is_file w i f.
Proof.
  intros w c i H Hi. destruct (nth_error (objs w) i) as [f|] eqn:E; [|apply nth_error_None in E; pose proof (i_in w c H i Hi); lia]. exists f. split; [exact E|]. rewrite (i_refs w c H i f E). now apply cnt_in.
Qed.
Lemma get_file : forall w i f, is_file w i f -> get_obj w i = Ok f.
Proof. intros w i f (H & Hr). unfold get_obj. rewrite H. apply Nat.ltb_lt in Hr. now rewrite Hr. Qed.
Lemma get_stream : forall w s x, is_stream w s x -> get_str w s = Ok x.
Proof. intros w s x H. unfold get_str. unfold is_stream in H. now rewrite H. Qed.
Lemma file_set : forall w i f0 f j g, is_file w i f0 -> (is_file (set_obj w i f) j g <-> (j = i /\ g = f /\ 0 < refs f) \/ (j <> i /\ is_file w j g)).
Proof.
  intros w i f0 f j g H. apply obj_range in H. unfold is_file, set_obj. cbn [objs]. rewrite upd_nth by exact H. destruct (j =? i) eqn:E.
  - apply Nat.eqb_eq in E. subst j. split; [intros [X Y]; injection X as <-; auto|intros [(_ & -> & Y)|(X & _)]; [auto|congruence]].
  - apply Nat.eqb_neq in E. tauto.
Qed.
Lemma file_str : forall w s x i f, is_file (set_str w s x) i f <-> is_file w i f.
Proof. intros. reflexivity. Qed.
Lemma str_set : forall w s x0 x s' y, is_stream w s x0 -> (is_stream (set_str w s x) s' y <-> (s' = s /\ y = x) \/ (s' <> s /\ is_stream w s' y)).
Proof.
  intros w s x0 x s' y H. apply str_range in H. unfold is_stream, set_str. cbn [streams]. rewrite upd_nth by exact H. destruct (s' =? s) eqn:E.
  - apply Nat.eqb_eq in E. subst s'. split; [intros X; injection X as <-; auto|intros [(_ & ->)|(X & _)]; [auto|congruence]].
  - apply Nat.eqb_neq in E. tauto.
Qed.
Lemma str_obj : forall w i f s x, is_stream (set_obj w i f) s x <-> is_stream w s x.
Proof. intros. reflexivity. Qed.
Lemma stream_fun : forall w s x y, is_stream w s x -> is_stream w s y -> x = y.
Proof. unfold is_stream. congruence. Qed.
Lemma file_fun : forall w i f g, is_file w i f -> is_file w i g -> f = g.
Proof. intros w i f g [H _] [H' _]. congruence. Qed.

(** Using a stream. *)
Lemma inv_use : forall w c s x x', inv w c -> is_stream w s x -> open x = true -> wf x' -> open x' = true -> mine x' = mine x -> inv (set_str w s x') c.
Proof.
  intros w c s x x' H Hs Ho Hw Ho' Hm. constructor.
  - intros i f. apply (i_refs w c H).
  - apply (i_in w c H).
  - intros i s' Hh. destruct (i_open w c H i s' Hh) as (y & Hy & Hyo). destruct (Nat.eq_dec s' s) as [->|Hn]; [exists x'|exists y]; split; try assumption; apply (str_set w s x); auto.
  - intros i j s' A B. exact (i_one w c H i j s' A B).
  - intros s' y Hy My Oy. apply (str_set w s x) in Hy; [|exact Hs]. destruct Hy as [[-> ->]|[_ Hy]]; [|exact (i_kept w c H s' y Hy My Oy)]. rewrite Hm in My. exact (i_kept w c H s x Hs My Ho).
  - intros i f s' y Hf Hp Hy. apply (str_set w s x) in Hy; [|exact Hs]. destruct Hy as [[-> ->]|[_ Hy]]; [|exact (i_mine w c H i f s' y Hf Hp Hy)]. rewrite Hm. exact (i_mine w c H i f s x Hf Hp Hs).
  - intros s' y Hy. apply (str_set w s x) in Hy; [|exact Hs]. destruct Hy as [[-> ->]|[_ Hy]]; [exact Hw|exact (i_wf w c H s' y Hy)].
Qed.
(** Closing a stream. *)
Lemma fclose_facts : forall x, wf x -> open x = true -> exists x', fclose x = Ok x' /\ wf x' /\ open x' = false /\ mine x' = mine x /\ disk x' = content x /\ content x' = content x.
Proof.
  intros x (Hl & Hp) Ho. unfold fclose. rewrite Ho. eexists. split; [reflexivity|]. split; [split; cbn; [lia|congruence]|]. repeat split.
Qed.
Lemma inv_fclose : forall w c s x x', inv w c -> is_stream w s x -> (forall i, ~ has w i s) -> wf x' -> open x' = false -> inv (set_str w s x') c.
Proof.
  intros w c s x x' H Hs Hn Hw Ho. constructor.
  - intros i f. apply (i_refs w c H).
  - apply (i_in w c H).
  - intros i s' Hh. assert (s' <> s) by (intros ->; exact (Hn i Hh)). destruct (i_open w c H i s' Hh) as (y & Hy & Hyo). exists y. split; [|exact Hyo]. apply (str_set w s x); auto.
  - intros i j s' A B. exact (i_one w c H i j s' A B).
  - intros s' y Hy My Oy. apply (str_set w s x) in Hy; [|exact Hs]. destruct Hy as [[-> ->]|[_ Hy]]; [congruence|exact (i_kept w c H s' y Hy My Oy)].
  - intros i f s' y Hf Hp Hy. apply (str_set w s x) in Hy; [|exact Hs]. destruct Hy as [[-> ->]|[_ Hy]]; [|exact (i_mine w c H i f s' y Hf Hp Hy)]. destruct (Hn i). exists f. auto.
  - intros s' y Hy. apply (str_set w s x) in Hy; [|exact Hs]. destruct Hy as [[-> ->]|[_ Hy]]; [exact Hw|exact (i_wf w c H s' y Hy)].
Qed.
(** Changing an object. *)
Lemma has_set : forall w i f0 f j s, is_file w i f0 -> (has (set_obj w i f) j s <-> (j = i /\ 0 < refs f /\ fptr f = Some s) \/ (j <> i /\ has w j s)).
Proof.
  intros w i f0 f j s H. unfold has. split.
  - intros (g & Hg & Hp). apply (file_set w i f0) in Hg; [|exact H]. destruct Hg as [(-> & -> & Hr)|(Hn & Hg)]; [auto|right; eauto].
  - intros [(-> & Hr & Hp)|(Hn & g & Hg & Hp)]; [exists f|exists g]; (split; [apply (file_set w i f0); auto|assumption]).
Qed.
Lemma inv_obj : forall w c c' i f f', inv w c -> is_file w i f -> refs f' = cnt i c' -> (forall j, j <> i -> cnt j c' = cnt j c) -> own f' = own f ->
  (0 < refs f' /\ fptr f' = fptr f \/ fptr f' = None /\ forall s x, fptr f = Some s -> is_stream w s x -> mine x = true \/ open x = false) -> inv (set_obj w i f') c'.
Proof.
  intros w c c' i f f' H Hf Hr Hc Ho Hp.
  assert (B : forall j s, has (set_obj w i f') j s -> has w j s).
  { intros j s Hh. apply (has_set w i f) in Hh; [|exact Hf]. destruct Hh as [(-> & _ & E)|(_ & Hh)]; [|exact Hh]. exists f. split; [exact Hf|]. destruct Hp as [[_ Hp]|[Hp _]]; congruence. }
  constructor.
  - intros j g Hg. unfold set_obj in Hg. cbn [objs] in Hg. rewrite upd_nth in Hg by (eapply obj_range; exact Hf). destruct (j =? i) eqn:E.
    + apply Nat.eqb_eq in E. injection Hg as <-. now subst j.
    + apply Nat.eqb_neq in E. rewrite Hc by exact E. exact (i_refs w c H j g Hg).
  - intros j Hj. unfold set_obj. cbn [objs]. rewrite upd_len. destruct (Nat.eq_dec j i) as [->|Hn]; [eapply obj_range; exact Hf|]. apply (i_in w c H). apply cnt_in. rewrite <- Hc by exact Hn. now apply cnt_in.
  - intros j s Hh. exact (i_open w c H j s (B j s Hh)).
  - intros j k s A A'. exact (i_one w c H j k s (B j s A) (B k s A')).
  - intros s x Hx Mx Ox. destruct (i_kept w c H s x Hx Mx Ox) as (j & Hj). exists j. apply (has_set w i f); [exact Hf|]. destruct (Nat.eq_dec j i) as [->|Hn]; [left|right; auto].
    split; [reflexivity|]. destruct Hj as (g & Hg & E). pose proof (file_fun w i f g Hf Hg) as <-. destruct Hp as [[Hp1 Hp2]|[_ Hp]]; [split; [exact Hp1|congruence]|]. destruct (Hp s x E Hx); congruence.
  - intros j g s x Hg E Hx. apply (file_set w i f) in Hg; [|exact Hf]. destruct Hg as [(-> & -> & _)|(_ & Hg)]; [|exact (i_mine w c H j g s x Hg E Hx)]. rewrite Ho. destruct Hp as [[_ Hp]|[Hp _]]; [|congruence]. apply (i_mine w c H i f s x Hf); [congruence|exact Hx].
  - intros s x Hx. exact (i_wf w c H s x Hx).
Qed.
Lemma inv_detach : forall w c c' i f f' s x x', inv w c -> is_file w i f -> fptr f = Some s -> is_stream w s x -> wf x' -> open x' = false ->
  refs f' = cnt i c' -> (forall j, j <> i -> cnt j c' = cnt j c) -> fptr f' = None -> inv (set_obj (set_str w s x') i f') c'.
Proof.
  intros w c c' i f f' s x x' H Hf Hfs Hs Hw Ho Hr Hc Hp.
  assert (Hf1 : is_file (set_str w s x') i f) by exact Hf.
  assert (B : forall j t, has (set_obj (set_str w s x') i f') j t -> j <> i /\ has w j t /\ t <> s).
  { intros j t Hh. apply (has_set (set_str w s x') i f) in Hh; [|exact Hf1]. destruct Hh as [(-> & _ & E)|(Hn & Hh)]; [congruence|]. split; [exact Hn|]. split; [exact Hh|]. intros ->. apply Hn. apply (i_one w c H j i s Hh). exists f. auto. }
  constructor.
  - intros j g Hg. unfold set_obj in Hg. cbn [objs set_str] in Hg. rewrite upd_nth in Hg by (eapply obj_range; exact Hf). destruct (j =? i) eqn:E.
    + apply Nat.eqb_eq in E. injection Hg as <-. now subst j.
    + apply Nat.eqb_neq in E. rewrite Hc by exact E. exact (i_refs w c H j g Hg).
  - intros j Hj. unfold set_obj. cbn [objs set_str]. rewrite upd_len. destruct (Nat.eq_dec j i) as [->|Hn]; [eapply obj_range; exact Hf|]. apply (i_in w c H). apply cnt_in. rewrite <- Hc by exact Hn. now apply cnt_in.
  - intros j t Hh. destruct (B j t Hh) as (_ & Hh' & Hn). destruct (i_open w c H j t Hh') as (y & Hy & Oy). exists y. split; [|exact Oy]. apply str_obj. apply (str_set w s x); auto.
  - intros j k t A A'. destruct (B j t A) as (_ & A1 & _), (B k t A') as (_ & A2 & _). exact (i_one w c H j k t A1 A2).
  - intros t y Hy My Oy. apply str_obj in Hy. apply (str_set w s x) in Hy; [|exact Hs]. destruct Hy as [[-> ->]|[Hn Hy]]; [congruence|]. destruct (i_kept w c H t y Hy My Oy) as (j & Hj). exists j. apply (has_set (set_str w s x') i f); [exact Hf1|]. right. split; [|exact Hj].
    intros ->. destruct Hj as (g & Hg & E). pose proof (file_fun w i f g Hf Hg). congruence.
  - intros j g t y Hg E Hy. apply (file_set (set_str w s x') i f) in Hg; [|exact Hf1]. destruct Hg as [(-> & -> & _)|(Hn & Hg)]; [congruence|]. apply str_obj in Hy. apply (str_set w s x) in Hy; [|exact Hs].
    destruct Hy as [[-> ->]|[_ Hy]]; [|exact (i_mine w c H j g t y Hg E Hy)]. destruct Hn. apply (i_one w c H j i s); [exists g|exists f]; auto.
  - intros t y Hy. apply str_obj in Hy. apply (str_set w s x) in Hy; [|exact Hs]. destruct Hy as [[-> ->]|[_ Hy]]; [exact Hw|exact (i_wf w c H t y Hy)].
Qed.
Lemma cnt_drop_other : forall i j c, In i c -> j <> i -> cnt j (drop i c) = cnt j c.
Proof. intros i j c H Hn. pose proof (cnt_drop j i c H) as X. apply Nat.eqb_neq in Hn. rewrite Hn in X. lia. Qed.
Lemma cnt_drop_same : forall i c, In i c -> cnt i c = S (cnt i (drop i c)).
Proof. intros i c H. pose proof (cnt_drop i i c H) as X. rewrite Nat.eqb_refl in X. lia. Qed.
Lemma own_stream : forall w c i f s, inv w c -> is_file w i f -> fptr f = Some s -> exists x, is_stream w s x /\ open x = true /\ wf x /\ mine x = negb (own f).
Proof.
  intros w c i f s H Hf Hp. destruct (i_open w c H i s) as (x & Hx & Ox); [exists f; auto|]. exists x. split; [exact Hx|]. split; [exact Ox|]. split; [exact (i_wf w c H s x Hx)|exact (i_mine w c H i f s x Hf Hp Hx)].
Qed.
(** Releasing: the streams are as before, except that the one that goes with its file is closed. *)
Definition closed_as (x x' : stream) : Prop := open x' = false /\ disk x' = content x /\ mine x' = mine x.
Lemma release_inv : forall w c i f, inv w c -> In i c -> is_file w i f ->
  exists w', release w i = Ok w' /\ inv w' (drop i c) /\
    ((refs f = 1 /\ own f = true /\ exists s x x', fptr f = Some s /\ is_stream w s x /\ closed_as x x' /\ streams w' = upd (streams w) s x') \/
     ((1 < refs f \/ own f = false \/ fptr f = None) /\ streams w' = streams w)) /\
    (forall g, is_file w' i g -> fptr g = fptr f).
Proof.
  intros w c i f H Hi Hf. unfold release. rewrite (get_file w i f Hf). cbn [obind]. pose proof (i_refs w c H i f (proj1 Hf)) as Hr. pose proof (cnt_drop_same i c Hi) as Hd.
  assert (G : forall w1 n p o, is_file w1 i f -> (n = 0 \/ p = fptr f) -> forall g, is_file (set_obj w1 i (mkF n p o)) i g -> fptr g = fptr f).
  { intros w1 n p o Hf1 Hn g Hg. apply (file_set w1 i f) in Hg; [|exact Hf1]. destruct Hg as [(_ & -> & Hr0)|(X & _)]; [|congruence]. cbn [refs fptr] in *. destruct Hn; [lia|assumption]. }
  destruct (refs f =? 1) eqn:E.
  - apply Nat.eqb_eq in E. unfold finalize. destruct (fptr f) as [s|] eqn:Ep; [destruct (own f) eqn:Eo|].
    + destruct (own_stream w c i f s H Hf Ep) as (x & Hx & Ox & Wx & _). rewrite (get_stream w s x Hx). cbn [obind]. destruct (fclose_facts x Wx Ox) as (x' & -> & Wx' & Ox' & Mx' & Dx' & _). cbn [obind].
      eexists. split; [reflexivity|]. split; [|split; [left; split; [exact E|]; split; [reflexivity|]; exists s, x, x'; repeat split; auto|apply (G (set_str w s x')); auto]].
      apply (inv_detach w c (drop i c) i f _ s x); auto; [cbn [refs]; lia|]. intros j Hj. now apply cnt_drop_other.
    + cbn [obind]. eexists. split; [reflexivity|]. split; [|split; [right; split; auto|apply G; auto]]. apply (inv_obj w c (drop i c) i f); auto; [cbn [refs]; lia| |].
      * intros j Hj. now apply cnt_drop_other.
      * right. split; [reflexivity|]. intros t x Et Hx. left. rewrite (i_mine w c H i f t x Hf); [now rewrite Eo|congruence|exact Hx].
    + cbn [obind]. eexists. split; [reflexivity|]. split; [|split; [right; split; auto|apply G; auto]]. apply (inv_obj w c (drop i c) i f); auto; [cbn [refs]; lia| |].
      * intros j Hj. now apply cnt_drop_other.
      * right. split; [reflexivity|]. intros t x Et. congruence.
  - apply Nat.eqb_neq in E. assert (Hf' := Hf). destruct Hf' as [Hf1 Hf2]. eexists. split; [reflexivity|]. split; [|split; [right; split; [left; lia|reflexivity]|apply G; auto]].
    apply (inv_obj w c (drop i c) i f); try (split; assumption); auto; [cbn [refs]; lia| |left; split; [cbn [refs]; lia|reflexivity]]. intros j Hj. now apply cnt_drop_other.
Qed.
Lemma close_inv : forall w c i f, inv w c -> In i c -> is_file w i f ->
  exists w' r, close w i = Ok (w', r) /\ inv w' (drop i c) /\
    match fptr f with
    | Some s => r = 0%Z /\ exists x x', is_stream w s x /\ closed_as x x' /\ streams w' = upd (streams w) s x'
    | None => r = (-1)%Z /\ streams w' = streams w
    end /\ (forall g, is_file w' i g -> fptr g = None).
Proof.
  intros w c i f H Hi Hf. unfold close. rewrite (get_file w i f Hf). cbn [obind]. destruct (fptr f) as [s|] eqn:Ep.
  - destruct (own_stream w c i f s H Hf Ep) as (x & Hx & Ox & Wx & _). rewrite (get_stream w s x Hx). cbn [obind]. destruct (fclose_facts x Wx Ox) as (x' & -> & Wx' & Ox' & Mx' & Dx' & _). cbn [obind].
    set (w1 := set_obj (set_str w s x') i (mkF (refs f) None (own f))).
    assert (H1 : inv w1 c). { apply (inv_detach w c c i f _ s x); auto. cbn [refs]. exact (i_refs w c H i f (proj1 Hf)). }
    assert (Hf1 : is_file w1 i (mkF (refs f) None (own f))). { apply (file_set (set_str w s x') i f); [exact Hf|]. left. split; [reflexivity|]. split; [reflexivity|]. cbn. exact (proj2 Hf). }
    destruct (release_inv w1 c i _ H1 Hi Hf1) as (w' & -> & H' & Hs & Hg). cbn [obind]. exists w', 0%Z. split; [reflexivity|]. split; [exact H'|]. split; [|exact Hg].
    split; [reflexivity|]. exists x, x'. split; [exact Hx|]. split; [repeat split; assumption|]. destruct Hs as [(_ & _ & t & y & y' & Et & _)|(_ & ->)]; [discriminate Et|reflexivity].
  - destruct (release_inv w c i f H Hi Hf) as (w' & E & H' & Hs & Hg). rewrite E. cbn [obind]. exists w', (-1)%Z. split; [reflexivity|]. split; [exact H'|]. rewrite Ep in Hg. split; [|exact Hg].
    split; [reflexivity|]. destruct Hs as [(_ & _ & t & y & y' & Et & _)|(_ & ->)]; [congruence|reflexivity].
Qed.

(** Something new. *)
Lemma nth_snoc : forall {A} (l : list A) x k y, nth_error (l ++ [x]) k = Some y <-> nth_error l k = Some y \/ (k = length l /\ y = x).
Proof.
  intros A l x k y. destruct (Nat.lt_ge_cases k (length l)) as [H|H].
  - rewrite nth_error_app1 by exact H. split; [auto|]. intros [E|[E _]]; [exact E|lia].
  - rewrite nth_error_app2 by exact H. assert (N : nth_error l k = None) by now apply nth_error_None. rewrite N. destruct (k - length l) as [|m] eqn:E; cbn [nth_error].
    + split; [intros X; injection X as <-; right; split; [lia|reflexivity]|]. intros [X|[_ ->]]; [discriminate X|reflexivity].
    + split; [destruct m; discriminate|]. intros [X|[X _]]; [discriminate X|lia].
Qed.
Lemma inv_fopen : forall w c d m, inv w c -> m = true -> inv (mkW (objs w) (streams w ++ [new_stream d m])) c.
Proof.
  intros w c d m H Hm. constructor.
  - exact (i_refs w c H).
  - exact (i_in w c H).
  - intros i s Hh. destruct (i_open w c H i s Hh) as (x & Hx & Ox). exists x. split; [apply nth_snoc; now left|exact Ox].
  - intros i j s A B. exact (i_one w c H i j s A B).
  - intros s x Hx Mx Ox. apply nth_snoc in Hx. destruct Hx as [Hx|[-> ->]]; [exact (i_kept w c H s x Hx Mx Ox)|cbn in Mx; congruence].
  - intros i f s x Hf E Hx. apply nth_snoc in Hx. destruct Hx as [Hx|[-> ->]]; [exact (i_mine w c H i f s x Hf E Hx)|]. exfalso. destruct (i_open w c H i (length (streams w))) as (x & Hx & _); [exists f; auto|]. apply str_range in Hx. lia.
  - intros s x Hx. apply nth_snoc in Hx. destruct Hx as [Hx|[-> ->]]; [exact (i_wf w c H s x Hx)|]. split; cbn; [lia|congruence].
Qed.
Lemma file_new : forall w ss f i g, 0 < refs f -> (is_file (mkW (objs w ++ [f]) ss) i g <-> is_file w i g \/ (i = length (objs w) /\ g = f)).
Proof.
  intros w ss f i g Hr. unfold is_file. cbn [objs]. rewrite nth_snoc. split; [intros [[X|[-> ->]] Y]; auto|]. intros [[X Y]|[-> ->]]; auto.
Qed.
Lemma cnt_new : forall w c, inv w c -> cnt (length (objs w)) c = 0.
Proof. intros w c H. destruct (cnt (length (objs w)) c) eqn:E; [reflexivity|]. assert (X : In (length (objs w)) c) by (apply cnt_in; lia). apply (i_in w c H) in X. lia. Qed.
(** A new object with a stream that no object has. *)
Lemma inv_new : forall w c s x x' o, inv w c -> is_stream w s x -> open x = true -> (forall i, ~ has w i s) -> wf x' -> open x' = true -> mine x' = negb o ->
  inv (mkW (objs w ++ [mkF 1 (Some s) o]) (upd (streams w) s x')) (length (objs w) :: c).
Proof.
  intros w c s x x' o H Hs Ox Hn Wx' Ox' Mx'.
  assert (S : forall t y, is_stream (mkW (objs w ++ [mkF 1 (Some s) o]) (upd (streams w) s x')) t y <-> (t = s /\ y = x') \/ (t <> s /\ is_stream w t y)) by (intros t y; exact (str_set w s x x' t y Hs)).
  assert (P : forall t i, has (mkW (objs w ++ [mkF 1 (Some s) o]) (upd (streams w) s x')) i t <-> has w i t \/ (i = length (objs w) /\ t = s)).
  { intros t i. unfold has. split.
    - intros (g & Hg & E). apply file_new in Hg; [|cbn; lia]. destruct Hg as [Hg|[-> ->]]; [left; eauto|right; cbn in E; split; [reflexivity|congruence]].
    - intros [(g & Hg & E)|[-> ->]]; [exists g|eexists]; (split; [apply file_new; [cbn; lia|]|]); auto. }
  constructor.
  - intros i f Hf. cbn [objs] in Hf. apply nth_snoc in Hf. rewrite cnt_cons. destruct Hf as [Hf|[-> ->]].
    + assert (i < length (objs w)) by (apply nth_error_Some; congruence). replace (i =? length (objs w)) with false by (symmetry; apply Nat.eqb_neq; lia). exact (i_refs w c H i f Hf).
    + rewrite Nat.eqb_refl, (cnt_new w c H). reflexivity.
  - intros i [<-|Hi]; cbn [objs]; rewrite app_length; cbn [length]; [lia|]. apply (i_in w c H) in Hi. lia.
  - intros i t Hh. apply P in Hh. destruct Hh as [Hh|[-> ->]]; [|exists x'; split; [apply S; auto|exact Ox']]. destruct (i_open w c H i t Hh) as (y & Hy & Oy). exists y. split; [|exact Oy]. apply S. right. split; [|exact Hy]. intros ->. exact (Hn i Hh).
  - intros i j t A B. apply P in A, B. destruct A as [A|[-> ->]], B as [B|[-> Et]]; [exact (i_one w c H i j t A B)| | |reflexivity]; [subst t; destruct (Hn i A)|destruct (Hn j B)].
  - intros t y Hy My Oy. apply S in Hy. destruct Hy as [[-> ->]|[Hne Hy]]; [exists (length (objs w)); apply P; auto|]. destruct (i_kept w c H t y Hy My Oy) as (i & Hi). exists i. apply P. auto.
  - intros i f t y Hf E Hy. apply file_new in Hf; [|cbn; lia]. apply S in Hy. destruct Hf as [Hf|[-> ->]].
    + destruct Hy as [[-> ->]|[_ Hy]]; [destruct (Hn i); exists f; auto|exact (i_mine w c H i f t y Hf E Hy)].
    + cbn [fptr] in E. injection E as <-. destruct Hy as [[_ ->]|[X _]]; [exact Mx'|congruence].
  - intros t y Hy. apply S in Hy. destruct Hy as [[-> ->]|[_ Hy]]; [exact Wx'|exact (i_wf w c H t y Hy)].
Qed.
Lemma upd_same : forall {A} (l : list A) k x, nth_error l k = Some x -> upd l k x = l.
Proof. intros A l. induction l as [|y l IH]; intros [|k] x H; cbn in *; try discriminate; [congruence|]. f_equal. auto. Qed.
Lemma upd_snoc : forall {A} (l : list A) x y, upd (l ++ [x]) (length l) y = l ++ [y].
Proof. intros A l x y. induction l as [|z l IH]; cbn; [reflexivity|]. now rewrite IH. Qed.

Section Steps.
Variable drain : list N -> nat.
Notation step := (step drain).
Notation reach := (reach drain).
(** A use of a file with a stream: what it does to the stream and answers. *)
Lemma use_step : forall w c i f s x u, inv w c -> is_file w i f -> fptr f = Some s -> is_stream w s x ->
  (match u with URead _ _ => last x <> Wrote | UWrite _ _ => last x <> Did_read false | _ => True end) ->
  exists x' a, step w (on i u) = Ok (set_str w s x', a) /\ wf x' /\ open x' = true /\ mine x' = mine x /\ last x' = next_kind (last x) (u, a) /\ (u = ULength -> last x = Wrote \/ used (abs x) u (abs x') a) /\ (u <> ULength -> used (abs x) u (abs x') a).
Proof.
  intros w c i f s x u H Hf Ep Hx Hu. destruct (own_stream w c i f s H Hf Ep) as (y & Hy & Ox & Wx & _). pose proof (stream_fun w s x y Hx Hy) as <-. clear Hy.
  assert (Same : set_str w s x = w) by (unfold set_str; rewrite upd_same by exact Hx; destruct w; reflexivity).
  assert (T : forall (none : answer) g, through w i none g = g s x) by (intros; unfold through; rewrite (get_file w i f Hf); cbn [obind]; rewrite Ep, (get_stream w s x Hx); reflexivity).
  destruct u as [off o| | | |size count|size b]; cbn [on File_Model.step]; rewrite T.
  - destruct (fseek_facts x off o Wx Ox) as (x' & r & -> & A1 & A2 & A3 & A4 & A5). cbn [obind fst snd]. exists x', (Num r). repeat (split; [first [reflexivity|assumption]|]). split; [discriminate|auto].
  - unfold ftell. rewrite Ox. cbn [obind]. exists x, (Num (Z.of_nat (pos x))). rewrite Same. repeat (split; [first [reflexivity|assumption]|]). split; [discriminate|]. intros _. apply tell_it.
  - unfold ferror. rewrite Ox. cbn [obind]. exists x, (Num 0). rewrite Same. repeat (split; [first [reflexivity|assumption]|]). split; [discriminate|]. intros _. apply status_it.
  - unfold fsize. rewrite Ox. cbn [obind]. exists x, (Num (Z.of_nat (length (disk x)))). rewrite Same. repeat (split; [first [reflexivity|assumption]|]). split; [|congruence]. intros _. destruct (last x) eqn:E; [right|now left|right];
      (rewrite <- (proj1 (settled_content x Wx ltac:(congruence))); apply length_it).
  - destruct ((size =? 0) || (count =? 0)) eqn:E.
    + assert (Z0 : size * count = 0) by (apply orb_true_iff in E; destruct E as [E|E]; apply Nat.eqb_eq in E; subst; lia). exists x, (Bytes 0 []). rewrite Same. repeat (split; [first [reflexivity|assumption]|]). split; [cbn [next_kind fst]; now rewrite Z0|]. split; [discriminate|]. intros _. now apply read_none.
    + apply orb_false_iff in E. destruct E as [E1 E2]. apply Nat.eqb_neq in E1, E2. destruct (fread_facts x (size * count) Wx Ox Hu) as (x' & -> & A1 & A2 & A3 & A4 & A5 & A6). cbn [obind fst snd].
      exists x', (Bytes (length (firstn (size * count) (skipn (pos x) (content x))) / size) (firstn (size * count) (skipn (pos x) (content x)))). repeat (split; [first [reflexivity|assumption]|]).
      split; [cbn [next_kind fst snd met_end]; replace (size * count =? 0) with false by (symmetry; apply Nat.eqb_neq; nia); exact A6|]. split; [discriminate|]. intros _. unfold abs at 2. rewrite A4, A5. apply (read_it (abs x)); [nia|reflexivity].
  - destruct (size =? 0) eqn:E.
    + apply Nat.eqb_eq in E. subst size. exists x, (Num 0). rewrite Same. repeat (split; [first [reflexivity|assumption]|]). split; [discriminate|]. intros _. apply write_none.
    + apply Nat.eqb_neq in E. destruct (fwrite_facts drain x b Wx Ox Hu) as (x' & -> & A1 & A2 & A3 & A4 & A5 & A6). cbn [obind fst snd]. eexists; eexists. split; [reflexivity|]. repeat (split; [assumption|]).
      split; [cbn [next_kind fst]; replace (size =? 0) with false by (symmetry; now apply Nat.eqb_neq); exact A4|]. split; [discriminate|]. intros _. unfold abs at 2. rewrite A5, A6. apply (write_it (abs x)); [lia|]. apply put_written.
Qed.
Lemma use_none : forall w i f u, is_file w i f -> fptr f = None -> step w (on i u) = Ok (w, match u with USeek _ _ | UTell | UStatus => Num (-1) | ULength => Num 0 | URead _ _ => Bytes 0 [] | UWrite _ _ => Num 0 end).
Proof.
  intros w i f u Hf Ep. assert (T : forall (none : answer) g, through w i none g = Ok (w, none)) by (intros; unfold through; rewrite (get_file w i f Hf); cbn [obind]; now rewrite Ep).
  destruct u; cbn [on File_Model.step]; apply T.
Qed.
Theorem step_ok : forall w c o, inv w c -> legal w c o -> exists w' a, step w o = Ok (w', a) /\ inv w' (after c o a).
Proof.
  assert (U : forall w c i u, inv w c -> In i c -> legal w c (on i u) -> exists w' a, step w (on i u) = Ok (w', a) /\ inv w' (after c (on i u) a)).
  { intros w c i u H Hi L. assert (Af : forall a, after c (on i u) a = c) by (intros a; destruct u; reflexivity). destruct (held_file w c i H Hi) as (f & Hf). destruct (fptr f) as [s|] eqn:Ep.
    - destruct (own_stream w c i f s H Hf Ep) as (x & Hx & Ox & Wx & _).
      destruct (use_step w c i f s x u H Hf Ep Hx) as (x' & a & E & A1 & A2 & A3 & _).
      + destruct u; try exact I; cbn [on legal] in L; destruct L as [_ L]; apply (L s x); try exact Hx; exists f; auto.
      + exists (set_str w s x'), a. split; [exact E|]. rewrite Af. now apply (inv_use w c s x).
    - rewrite (use_none w i f u Hf Ep). eexists; eexists. split; [reflexivity|]. now rewrite Af. }
  intros w c o H L. destruct o as [d|d|s|s o|i|i|i|i off o|i|i|i|i size count|i size b].
  - eexists; eexists. split; [reflexivity|]. cbn [after fst snd open_file].
    pose proof (inv_fopen w c d true H eq_refl) as H1. set (w1 := mkW (objs w) (streams w ++ [new_stream d true])) in *.
    assert (Hs : is_stream w1 (length (streams w)) (new_stream d true)) by (apply nth_snoc; auto).
    pose proof (inv_new w1 c (length (streams w)) (new_stream d true) (new_stream d false) true H1 Hs eq_refl) as X. cbn [w1 objs streams] in X. rewrite upd_snoc in X. apply X; try reflexivity.
    + intros i (f & Hf & Ep). destruct (own_stream w c i f _ H Hf Ep) as (x & Hx & _). apply str_range in Hx. lia.
    + split; cbn; [lia|congruence].
  - eexists; eexists. split; [reflexivity|]. now apply inv_fopen.
  - cbn [legal] in L. destruct L as ((x & Hx & Ox & Mx) & Hn). cbn [File_Model.step]. rewrite (get_stream w s x Hx). cbn [obind]. destruct (fclose_facts x (i_wf w c H s x Hx) Ox) as (x' & -> & Wx' & Ox' & _). cbn [obind].
    eexists; eexists. split; [reflexivity|]. cbn [after]. now apply (inv_fclose w c s x).
  - cbn [legal] in L. destruct L as ((x & Hx & Ox & Mx) & Hn). eexists; eexists. split; [reflexivity|]. cbn [after fst snd wrap]. unfold is_stream in Hx. rewrite Hx. destruct o.
    + apply (inv_new w c s x); auto. exact (i_wf w c H s x Hx).
    + pose proof (inv_new w c s x x false H Hx Ox Hn (i_wf w c H s x Hx) Ox Mx) as X. now rewrite (upd_same _ _ _ Hx) in X.
  - cbn [legal] in L. destruct (held_file w c i H L) as (f & Hf). cbn [File_Model.step]. unfold retain. rewrite (get_file w i f Hf). cbn [obind]. eexists; eexists. split; [reflexivity|]. cbn [after].
    apply (inv_obj w c (i :: c) i f); auto; [| |left; split; [cbn [refs]; lia|reflexivity]].
    + cbn [refs]. rewrite cnt_cons, Nat.eqb_refl, (i_refs w c H i f (proj1 Hf)). lia.
    + intros j Hj. rewrite cnt_cons. apply Nat.eqb_neq in Hj. now rewrite Hj.
  - cbn [legal] in L. destruct (held_file w c i H L) as (f & Hf). destruct (release_inv w c i f H L Hf) as (w' & E & H' & _). cbn [File_Model.step]. rewrite E. cbn [obind]. eauto.
  - cbn [legal] in L. destruct (held_file w c i H L) as (f & Hf). destruct (close_inv w c i f H L Hf) as (w' & r & E & H' & _). cbn [File_Model.step]. rewrite E. cbn [obind fst snd]. eauto.
  - exact (U w c i (USeek off o) H L L).
  - exact (U w c i UTell H L L).
  - exact (U w c i UStatus H L L).
  - exact (U w c i ULength H L L).
  - exact (U w c i (URead size count) H (proj1 L) L).
  - exact (U w c i (UWrite size b) H (proj1 L) L).
Qed.
Theorem reach_inv : forall w c, reach w c -> inv w c.
Proof.
  intros w c H. induction H as [|w c o w' a H IH L E].
  - constructor; cbn; try (intros; contradiction).
    + intros [|i] f Hf; discriminate Hf.
    + intros i s (f & (Hf & _) & _). destruct i; discriminate Hf.
    + intros i j s (f & (Hf & _) & _). destruct i; discriminate Hf.
    + intros [|s] x Hx; discriminate Hx.
    + intros [|i] f s x (Hf & _); discriminate Hf.
    + intros [|s] x Hx; discriminate Hx.
  - destruct (step_ok w c o IH L) as (w1 & a1 & E1 & H1). rewrite E in E1. injection E1 as <- <-. exact H1.
Qed.

(** ** The statements *)
Theorem safe : forall w c o, reach w c -> legal w c o -> exists w' a, step w o = Ok (w', a).
Proof. intros w c o H L. destruct (step_ok w c o (reach_inv w c H) L) as (w' & a & E & _). eauto. Qed.
Theorem lifetimes : forall w c, reach w c -> (forall i, exists_ w i <-> In i c) /\ (forall i s, has w i s -> opened w s) /\ (forall i j s, has w i s -> has w j s -> i = j).
Proof.
  intros w c H. apply reach_inv in H. split; [|split; [exact (i_open w c H)|exact (i_one w c H)]]. intros i. split.
  - intros (f & Hf & Hr). rewrite (i_refs w c H i f Hf) in Hr. now apply cnt_in.
  - intros Hi. destruct (held_file w c i H Hi) as (f & Hf). exists f. exact Hf.
Qed.
Theorem no_leak : forall w c s x, reach w c -> is_stream w s x -> mine x = false -> (open x = true <-> exists i, has w i s).
Proof.
  intros w c s x H Hx Mx. apply reach_inv in H. split; [exact (i_kept w c H s x Hx Mx)|]. intros (i & Hi). destruct (i_open w c H i s Hi) as (y & Hy & Oy). now rewrite (stream_fun w s x y Hx Hy).
Qed.
Lemma upd_streams : forall w w' s x x', is_stream w s x -> streams w' = upd (streams w) s x' -> forall t y, is_stream w' t y <-> (t = s /\ y = x') \/ (t <> s /\ is_stream w t y).
Proof. intros w w' s x x' Hx E t y. unfold is_stream at 1. rewrite E. exact (str_set w s x x' t y Hx). Qed.
Theorem closing : forall w c i f, reach w c -> In i c -> is_file w i f ->
  exists w' r, step w (Close i) = Ok (w', Num r) /\
    (forall s, fptr f = Some s -> r = 0%Z /\ (exists x', is_stream w' s x' /\ open x' = false) /\ forall t y, t <> s -> (is_stream w' t y <-> is_stream w t y)) /\
    (fptr f = None -> r = (-1)%Z /\ streams w' = streams w) /\
    (forall u, exists_ w' i -> step w' (on i u) = Ok (w', match u with USeek _ _ | UTell | UStatus => Num (-1) | ULength => Num 0 | URead _ _ => Bytes 0 [] | UWrite _ _ => Num 0 end)).
Proof.
  intros w c i f H Hi Hf. apply reach_inv in H. destruct (close_inv w c i f H Hi Hf) as (w' & r & E & H' & Hr & Hg). exists w', r. cbn [File_Model.step]. rewrite E. cbn [obind fst snd]. split; [reflexivity|].
  split; [|split]. 
  - intros s Es. rewrite Es in Hr. destruct Hr as (-> & x & x' & Hx & (Ox' & _) & Eu). pose proof (upd_streams w w' s x x' Hx Eu) as S. split; [reflexivity|]. split; [exists x'; split; [apply S; auto|exact Ox']|]. intros t y Hn. rewrite S. tauto.
  - intros Es. rewrite Es in Hr. exact Hr.
  - intros u (g & Hgf). exact (use_none w' i g u Hgf (Hg g Hgf)).
Qed.
Theorem releasing : forall w c i f, reach w c -> In i c -> is_file w i f ->
  exists w', step w (Release i) = Ok (w', Nothing) /\
    (forall s, refs f = 1 -> own f = true -> fptr f = Some s -> (exists x', is_stream w' s x' /\ open x' = false) /\ forall t y, t <> s -> (is_stream w' t y <-> is_stream w t y)) /\
    (1 < refs f \/ own f = false \/ fptr f = None -> streams w' = streams w).
Proof.
  intros w c i f H Hi Hf. apply reach_inv in H. destruct (release_inv w c i f H Hi Hf) as (w' & E & H' & Hr & _). exists w'. cbn [File_Model.step]. rewrite E. cbn [obind]. split; [reflexivity|]. split.
  - intros s R1 Ro Es. destruct Hr as [(_ & _ & t & x & x' & Et & Hx & (Ox' & _) & Eu)|([X|[X|X]] & _)]; [|lia|congruence|congruence]. rewrite Es in Et. injection Et as <-. pose proof (upd_streams w w' s x x' Hx Eu) as S. split; [exists x'; split; [apply S; auto|exact Ox']|]. intros t y Hn. rewrite S. tauto.
  - intros X. destruct Hr as [(R1 & Ro & t & x & x' & Et & _)|(_ & Hr)]; [|exact Hr]. destruct X as [X|[X|X]]; [lia|congruence|congruence].
Qed.
(** Other streams are left alone. *)
Theorem uses_one : forall w c i u s x, reach w c -> In i c -> has w i s -> is_stream w s x ->
  (match u with URead _ _ => last x <> Wrote | UWrite _ _ => last x <> Did_read false | _ => True end) ->
  exists w' a, step w (on i u) = Ok (w', a) /\ objs w' = objs w /\ forall t y, t <> s -> (is_stream w' t y <-> is_stream w t y).
Proof.
  intros w c i u s x H Hi (f & Hf & Ep) Hx Hu. apply reach_inv in H. destruct (use_step w c i f s x u H Hf Ep Hx Hu) as (x' & a & E & _). exists (set_str w s x'), a. split; [exact E|]. split; [reflexivity|]. intros t y Hn. rewrite (str_set w s x x' t y Hx). tauto.
Qed.

(** ** Histories of one file *)
Lemma calls_sim : forall h w c i s x w', inv w c -> has w i s -> is_stream w s x -> calls drain i w h w' -> alternates (last x) h -> settled (last x) h ->
  exists x', inv w' c /\ has w' i s /\ is_stream w' s x' /\ history (abs x) h (abs x').
Proof.
  intros h. induction h as [|[u r] h IH]; intros w c i s x w' H Hh Hx C A S.
  - inversion C; subst. exists x. split; [exact H|]. split; [exact Hh|]. split; [exact Hx|]. constructor.
  - inversion C as [|w0 u0 r0 w1 h0 w2 E C']; subst. cbn [alternates settled fst] in A, S. destruct A as [A A'], S as [S S']. destruct Hh as (f & Hf & Ep).
    destruct (use_step w c i f s x u H Hf Ep Hx) as (x1 & a & E1 & W1 & O1 & M1 & L1 & U1 & U2); [destruct u; try exact I; intros X; rewrite X in A; exact A|].
    rewrite E in E1. injection E1 as -> ->. destruct (own_stream w c i f s H Hf Ep) as (y & Hy & Ox & _ & _). pose proof (stream_fun w s x y Hx Hy) as <-.
    assert (H1 : inv (set_str w s x1) c) by now apply (inv_use w c s x).
    assert (X1 : is_stream (set_str w s x1) s x1) by (apply (str_set w s x); auto).
    rewrite <- L1 in A', S'. destruct (IH (set_str w s x1) c i s x1 w' H1) as (x' & R1 & R2 & R3 & R4); try assumption; [exists f; auto|].
    exists x'. split; [exact R1|]. split; [exact R2|]. split; [exact R3|]. apply (next_use _ _ _ (abs x1)); [|exact R4]. destruct u; try (apply U2; discriminate). destruct (U1 eq_refl) as [X|X]; [|exact X]. rewrite X in S. destruct S.
Qed.
Theorem stream_like : forall w c d w1 i h w2, reach w c -> step w (Open d) = Ok (w1, New i) -> calls drain i w1 h w2 -> alternates Sought h -> settled Sought h ->
  exists a, history (mkA d 0) h a /\ exists w3 x, step w2 (Close i) = Ok (w3, Num 0) /\ is_stream w3 (length (streams w)) x /\ open x = false /\ disk x = bytes a.
Proof.
  intros w c d w1 i h w2 H E C A S. apply reach_inv in H. destruct (step_ok w c (Open d) H I) as (w1' & a' & E' & H1). rewrite E in E'. injection E' as <- <-. cbn [after] in H1.
  cbn [File_Model.step] in E. injection E as <- <-. cbn [open_file fst snd] in *. set (w1 := mkW (objs w ++ [mkF 1 (Some (length (streams w))) true]) (streams w ++ [new_stream d false])) in *.
  assert (X1 : is_stream w1 (length (streams w)) (new_stream d false)) by (apply nth_snoc; auto).
  assert (P1 : has w1 (length (objs w)) (length (streams w))). { eexists. split; [apply file_new; [cbn; lia|]; right; split; reflexivity|reflexivity]. }
  destruct (calls_sim h w1 _ _ _ _ w2 H1 P1 X1 C A S) as (x' & H2 & P2 & X2 & Hist). exists (abs x'). split; [exact Hist|]. destruct P2 as (f & Hf & Ep).
  destruct (close_inv w2 _ _ f H2 (or_introl eq_refl) Hf) as (w3 & r & E3 & H3 & Hr & _). rewrite Ep in Hr. destruct Hr as (-> & x & x3 & Hx & (O3 & D3 & _) & Eu). pose proof (stream_fun _ _ _ _ X2 Hx) as <-.
  exists w3, x3. cbn [File_Model.step]. rewrite E3. cbn [obind fst snd]. split; [reflexivity|]. split; [apply (upd_streams w2 w3 _ x' x3 X2 Eu); auto|]. split; [exact O3|exact D3].
Qed.
(** And every history that alternates can be continued. *)
Theorem goes_on : forall w c d w1 i h w2 u, reach w c -> step w (Open d) = Ok (w1, New i) -> calls drain i w1 h w2 ->
  (forall r, alternates Sought (h ++ [(u, r)])) -> exists w3 r, step w2 (on i u) = Ok (w3, r).
Proof.
  intros w c d w1 i h w2 u H E C A. apply reach_inv in H. destruct (step_ok w c (Open d) H I) as (w1' & a' & E' & H1). rewrite E in E'. injection E' as <- <-. cbn [after] in H1.
  cbn [File_Model.step] in E. injection E as <- <-. cbn [open_file fst snd] in *. set (w1 := mkW (objs w ++ [mkF 1 (Some (length (streams w))) true]) (streams w ++ [new_stream d false])) in *.
  assert (X1 : is_stream w1 (length (streams w)) (new_stream d false)) by (apply nth_snoc; auto).
  assert (P1 : has w1 (length (objs w)) (length (streams w))). { eexists. split; [apply file_new; [cbn; lia|]; right; split; reflexivity|reflexivity]. }
  change Sought with (last (new_stream d false)) in A. revert H1 X1 P1 C A. generalize (length (objs w) :: c) as c1. generalize (length (objs w)) as j, (length (streams w)) as s, (new_stream d false) as x. clearbody w1. clear. revert w1 w2.
  induction h as [|[v r] h IH]; intros w1 w2 j s x c1 H1 X1 (f & Hf & Ep) C A.
  - inversion C; subst. destruct (use_step w2 c1 j f s x u H1 Hf Ep X1) as (x' & a & E1 & _); [|eauto]. specialize (A Nothing). cbn [app alternates fst] in A. destruct A as [A _]. destruct u; try exact I; intros X; rewrite X in A; exact A.
  - inversion C as [|w0 u0 r0 w1' h0 w2' E C']; subst.
    destruct (use_step w1 c1 j f s x v H1 Hf Ep X1) as (x1 & a & E1 & W1 & O1 & M1 & L1 & _).
    { specialize (A Nothing). cbn [app alternates fst] in A. destruct A as [A _]. destruct v; try exact I; intros X; rewrite X in A; exact A. }
    rewrite E in E1. injection E1 as -> ->. destruct (own_stream w1 c1 j f s H1 Hf Ep) as (y & Hy & Ox & _ & _). pose proof (stream_fun w1 s x y X1 Hy) as <-.
    apply (IH (set_str w1 s x1) w2 j s x1 c1); [now apply (inv_use w1 c1 s x)|apply (str_set w1 s x); auto|exists f; auto|exact C'|]. intros r. specialize (A r). cbn [app alternates] in A. rewrite L1. tauto.
Qed.
End Steps.
