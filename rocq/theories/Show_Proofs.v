(** Proofs about arrays that show a C array of the caller. *)
Require Import Coq.Lists.List Coq.Bool.Bool Coq.Arith.Arith Coq.micromega.Lia.
Require Import Verif.Base Verif.Own_Model Verif.Own_Spec Verif.Own_Proofs Verif.Own_Calls Verif.Own_Ends Verif.Show_Model Verif.Show_Spec Verif.Show_Len.
Require Verif.Own_May.
Import ListNotations.

(** ** The new list *)
Lemma retain_has s r s' y b : retain s r = Ok s' -> has s y b -> has s' y b.
Proof.
  destruct r as [x|]; cbn [retain]; [|intros E; injection E as <-; auto]. destruct (nth_error (cells s) x) as [[[|n] d|]|] eqn:X; try discriminate. intros E (m & Y). injection E as <-.
  unfold has. destruct (Nat.eq_dec x y) as [->|NE]; [|exists m; rewrite set_cell_other; auto]. rewrite X in Y. injection Y as _ <-. exists (S (S n)). apply (set_cell_same s y (Live (S n) d)). exact X.
Qed.
Lemma set_list_lists s a l l' s' : lists s a l -> set_list s a l' = Ok s' -> lists s' a l'.
Proof.
  intros (b & B & (n & H)) E. assert (Hb: has s a b) by (exists n; exact H). unfold set_list in E. rewrite (body_ok _ _ _ Hb) in E. cbn [obind] in E.
  destruct B as [-> | ->]; unfold set_body in E; rewrite H in E; injection E as <-.
  - exists (Arr l'). split; [left; reflexivity|]. exists n. eapply set_cell_same; exact H.
  - exists (Lnk l'). split; [right; reflexivity|]. exists n. eapply set_cell_same; exact H.
Qed.
Lemma insert_lists : forall xs s a l s', lists s a l -> list_insert s a (length l) xs = Ok s' -> lists s' a (l ++ xs).
Proof.
  induction xs as [|x xs IH]; intros s a l s' L E; cbn [list_insert] in E.
  - injection E as <-. rewrite app_nil_r. exact L.
  - apply bind_ok in E. destruct E as (s1 & E1 & E). assert (L1: lists s1 a l). { destruct L as (b & B & H). exists b. split; [exact B|]. exact (retain_has _ _ _ _ _ E1 H). }
    rewrite (list_ok _ _ _ L1) in E. cbn [obind] in E. apply bind_ok in E. destruct E as (s2 & E2 & E). pose proof (set_list_lists _ _ _ _ _ L1 E2) as L2. rewrite firstn_all, skipn_all in L2.
    specialize (IH s2 a (l ++ [x]) s' L2). rewrite app_length, Nat.add_1_r in IH. specialize (IH E). rewrite <- app_assoc in IH. exact IH.
Qed.
Lemma add_has s b y d : has s y d -> has (add s b) y d.
Proof. intros (n & E). exists n. cbn [add cells]. rewrite nth_error_app1; [exact E|exact (nth_len _ _ _ E)]. Qed.
Lemma add_new s b : has (add s b) (length (cells s)) b.
Proof. exists 1. cbn [add cells]. rewrite nth_error_app2, Nat.sub_diag by lia. reflexivity. Qed.
Lemma has_live s y : live s y <-> exists b, has s y b.
Proof. unfold live, has. split; intros (n & b & E); eauto. Qed.
Lemma list_of_objects s a l : list_of s a = Ok l -> Forall (fun r => match r with Some x => exists b, has s a b /\ In x (members b) | None => True end) l.
Proof.
  unfold list_of. destruct (body_of s a) as [b| | |] eqn:B; cbn [obind]; try discriminate. unfold body_of in B. destruct (nth_error (cells s) a) as [[n d|]|] eqn:X; try discriminate. injection B as ->.
  intros E. assert (M: members b = somes l) by (destruct b; try discriminate; injection E as ->; reflexivity). apply Forall_forall. intros [x|] Hx; [|exact Logic.I]. exists b. split; [exists n; exact X|]. rewrite M. apply in_somes, Hx.
Qed.
Lemma objects_counted w a l : Inv (own w) [] -> readable w a -> objects w a = Ok l -> Forall (ref_in (counted (own w) [])) l.
Proof.
  intros I (A & R) E. unfold objects in E. destruct (shown w a) as [(b, n)|] eqn:S.
  - destruct (R b n eq_refl) as (m & M & L & F). apply bind_ok in E. destruct E as (_ & _ & E). unfold memory in M. rewrite M in E. destruct (Nat.ltb_spec (length m) n); [lia|]. injection E as <-.
    apply (Forall_impl _) with (2 := F). intros r. apply refs_counted, I.
  - apply (Forall_impl _) with (2 := list_of_objects _ _ _ E). intros [x|]; cbn; [|auto]. intros (b & B & M). exact (member_counted _ _ _ _ _ B M).
Qed.
Lemma objects_ok w a : readable w a -> objects w a = Fatal \/ exists l, objects w a = Ok l.
Proof.
  intros ((n & b & E) & R). assert (H: has (own w) a b) by (exists n; exact E). unfold objects. destruct (shown w a) as [(k, m)|].
  - right. destruct (R k m eq_refl) as (l & M & L & _). rewrite (body_ok _ _ _ H). cbn [obind]. unfold memory in M. rewrite M. destruct (Nat.ltb_spec (length l) m); [lia|]. eauto.
  - unfold list_of. rewrite (body_ok _ _ _ H). cbn [obind]. destruct b; eauto.
Qed.
Lemma copy_ok w a l : Inv (own w) [] -> readable w a -> objects w a = Ok l ->
  exists w', mutable_copy w a = Ok w' /\ Inv (own w') [] /\ keeps (length (cells (own w))) (add (own w) (Arr [])) (own w') /\ lists (own w') (length (cells (own w))) l /\ blocks w' = blocks w /\ shows w' = shows w.
Proof.
  intros I R E. pose proof (objects_counted w a l I R E) as C. set (x := length (cells (own w))). set (s1 := add (own w) (Arr [])).
  assert (I1: Inv s1 []) by (apply add_inv; exact I). assert (X1: In x (hands s1)) by (apply in_or_app; right; left; reflexivity).
  assert (L1: lists s1 x []) by (exists (Arr []); split; [left; reflexivity|apply add_new]).
  destruct (insert_ok l s1 [] x [] 0 I1 X1 L1) as (s2 & E2 & I2 & K2).
  { intros s' K G. apply (Forall_impl _) with (2 := C). intros r Hr. apply (counted_grows x s1 s' [] r K G). destruct r as [y|]; cbn in *; [|exact Logic.I]. unfold counted in *. unfold s1, content. cbn [add hands cells].
    rewrite map_app, concat_app, !cnt_app. unfold content in Hr. lia. }
  pose proof (insert_lists l s1 x [] s2 L1 E2) as L2. eexists. unfold mutable_copy. rewrite E. cbn [obind]. fold x s1. rewrite E2. cbn [obind]. split; [reflexivity|]. auto.
Qed.

(** ** Calls *)
Lemma call_ok keq w c : Inv (own w) [] -> fair keq w c -> do_call keq w c = Fatal \/ exists w', do_call keq w c = Ok w' /\ Inv (own w') [].
Proof.
  intros I F. destruct c as [o|l|b i r|b|b n|a|a]; cbn [fair] in F; cbn [do_call].
  - destruct (step_ok keq (own w) o I F) as [E|(s' & E & I')]; rewrite E; cbn [obind]; eauto.
  - right. eauto.
  - right. destruct F as (l & M & L). unfold memory in M. rewrite M. destruct (Nat.ltb_spec i (length l)); [|lia]. eauto.
  - right. destruct F as (l & M). unfold memory in M. rewrite M. eauto.
  - right. eexists. split; [reflexivity|]. cbn [lend own]. apply add_inv. exact I.
  - unfold copy. destruct (shown w a); [|left; reflexivity]. right. assert (Cf: careful keq (own w) (Retain a)) by (split; [exact F|intros []]).
    destruct (step_ok keq (own w) (Retain a) I Cf) as [E|(s' & E & I')]; cbn [step] in E.
    { destruct (retain (own w) (Some a)) as [s| | |] eqn:Er; cbn [obind] in E; try discriminate. cbn [retain] in Er. destruct (nth_error (cells (own w)) a) as [[[|k] d|]|]; discriminate. }
    destruct (retain (own w) (Some a)) as [s| | |] eqn:Er; cbn [obind] in E; try discriminate. injection E as <-. cbn [obind]. eauto.
  - destruct (objects_ok w a F) as [E|(l & E)].
    + left. unfold mutable_copy. rewrite E. reflexivity.
    + right. destruct (copy_ok w a l I F E) as (w' & E' & I' & _). eauto.
Qed.
Lemma calls_ok keq : forall cs w, Inv (own w) [] -> plays keq w cs -> calls keq w cs = Fatal \/ exists w', calls keq w cs = Ok w' /\ Inv (own w') [].
Proof.
  induction cs as [|c cs IH]; intros w I P; cbn [calls]; [eauto|]. destruct P as (F & P). destruct (call_ok keq w c I F) as [E|(w' & E & I')]; rewrite E; cbn [obind]; auto.
Qed.
Lemma safe keq cs : plays keq start cs -> calls keq start cs = Fatal \/ exists w, calls keq start cs = Ok w /\ sound (own w).
Proof. intros P. destruct (calls_ok keq cs start init_inv P) as [E|(w & E & I)]; [auto|]. right. exists w. split; [exact E|apply inv_sound, I]. Qed.
Lemma reached keq cs w : plays keq start cs -> calls keq start cs = Ok w -> Inv (own w) [].
Proof. intros P E. destruct (calls_ok keq cs start init_inv P) as [F|(w' & E' & I)]; congruence. Qed.

(** ** What stays *)
Lemma in_take x y l : In x l -> x <> y -> In x (take y l).
Proof.
  induction l as [|z l IH]; intros H NE; [destruct H|]. cbn [take]. destruct (Nat.eqb_spec y z) as [->|N]; [destruct H as [->|H]; [contradiction|exact H]|].
  destruct H as [->|H]; [left; reflexivity|right; auto].
Qed.
Lemma keeps_stay a s s' x b : keeps a s s' -> x <> a -> In x (hands s) -> has s x b -> In x (hands s') /\ has s' x b.
Proof. intros (H & K) NE X B. split; [rewrite H; exact X|exact (K x NE X b B)]. Qed.
Lemma step_stay keq s o s' x b : Inv s [] -> careful keq s o -> step keq s o = Ok s' -> leaves x (Other o) -> In x (hands s) -> has s x b -> In x (hands s') /\ has s' x b.
Proof.
  intros I (A & O) E L X B.
  assert (W: forall r a, (r = Fatal \/ exists s', r = Ok s' /\ Inv s' [] /\ keeps a s s') -> r = Ok s' -> x <> a -> In x (hands s') /\ has s' x b).
  { intros r a [F|(s2 & E2 & _ & K)] Er NE; [congruence|]. assert (s2 = s') by congruence. subst s2. exact (keeps_stay a s s' x b K NE X B). }
  destruct o as [d|p q|y|y|a i n xs|a i n c|d k v p|d k|d]; cbn [allowed replacing owned leaves] in A, O, L; cbn [step] in E.
  - destruct (members d); injection E as <-; [|auto]. split; [apply in_or_app; auto|apply add_has, B].
  - apply bind_ok in E. destruct E as (s1 & E1 & E). apply bind_ok in E. destruct E as (s2 & E2 & E). injection E as <-.
    assert (H1: hands s1 = hands s). { destruct p as [p|]; cbn [retain] in E1; [destruct (nth_error (cells s) p) as [[[|k] d|]|]; try discriminate; injection E1 as <-; reflexivity|injection E1 as <-; reflexivity]. }
    assert (H2: hands s2 = hands s1). { destruct q as [q|]; cbn [retain] in E2; [destruct (nth_error (cells s1) q) as [[[|k] d|]|]; try discriminate; injection E2 as <-; reflexivity|injection E2 as <-; reflexivity]. }
    split; [cbn [add hands]; rewrite H2, H1; apply in_or_app; auto|]. apply add_has. exact (retain_has _ _ _ _ _ E2 (retain_has _ _ _ _ _ E1 B)).
  - apply bind_ok in E. destruct E as (s1 & E1 & E). injection E as <-. pose proof (retain_has _ _ _ _ _ E1 B) as B1.
    assert (H1: hands s1 = hands s). { cbn [retain] in E1. destruct (nth_error (cells s) y) as [[[|k] d|]|]; try discriminate. injection E1 as <-. reflexivity. }
    split; [cbn [hands]; rewrite H1; apply in_or_app; auto|]. destruct B1 as (n & B1). exists n. exact B1.
  - destruct (release_ok [y] (mkS (cells s) (take y (hands s))) []) as (s1 & E1 & I1 & F1).
    { destruct I as (P & C). split; [exact P|]. intros z. specialize (C z). unfold rc, content in *. cbn [cells hands app] in *. pose proof (cnt_take y (hands s) z A). cbn [count_occ] in *. lia. }
    assert (s1 = s') by congruence. subst s1. assert (Xt: In x (take y (hands s))) by (apply in_take; auto). split; [rewrite (proj1 F1); exact Xt|].
    apply (frame_has _ _ _ _ _ F1); [left; exact Xt|]. destruct B as (n & B). exists n. exact B.
  - destruct A as (A & V). apply (W (splice s a i n xs) a); auto. apply splice_ok; try assumption. apply (Forall_impl _) with (2 := V). intros r. apply refs_counted, I.
  - destruct A as (A & (m & d & C) & NE). apply (W (splice_all s a i n c) a); auto. apply (splice_all_ok s [] a i n c d); try assumption. exists m. exact C.
  - destruct A as (A & K & V). apply (W (put keq s d k v p) d); auto. apply put_ok; try assumption; apply refs_counted; assumption.
  - destruct A as (A & K). apply (W (remove keq s d k) d); auto. apply remove_key_ok; assumption.
  - apply (W (remove_all s d) d); auto. apply remove_all_ok; assumption.
Qed.
Lemma call_stay keq w c w' x b : Inv (own w) [] -> fair keq w c -> do_call keq w c = Ok w' -> leaves x c -> In x (hands (own w)) -> has (own w) x b -> In x (hands (own w')) /\ has (own w') x b.
Proof.
  intros I F E L X B. destruct c as [o|l|k i r|k|k n|a|a]; cbn [fair] in F; cbn [do_call] in E.
  - apply bind_ok in E. destruct E as (s' & E & E'). injection E' as <-. exact (step_stay keq _ _ _ _ _ I F E L X B).
  - injection E as <-. auto.
  - destruct (nth_error (blocks w) k) as [[m|]|]; try discriminate. destruct (i <? length m); try discriminate. injection E as <-. auto.
  - destruct (nth_error (blocks w) k) as [[m|]|]; try discriminate. injection E as <-. auto.
  - injection E as <-. cbn [lend own]. split; [apply in_or_app; auto|apply add_has, B].
  - unfold copy in E. destruct (shown w a); [|discriminate]. apply bind_ok in E. destruct E as (s & E & E'). injection E' as <-. cbn [own].
    apply (step_stay keq (own w) (Retain a) _ x b I); auto; [split; [exact F|intros []]|]. cbn [step]. rewrite E. reflexivity.
  - destruct (objects_ok w a F) as [Eo|(l & Eo)]; [unfold mutable_copy in E; rewrite Eo in E; discriminate|]. destruct (copy_ok w a l I F Eo) as (w2 & E2 & _ & K & _). assert (w2 = w') by congruence. subst w2.
    apply (keeps_stay _ _ _ x b K); [|apply in_or_app; auto|apply add_has, B]. destruct B as (n & B). apply nth_len in B. lia.
Qed.
Lemma calls_stay keq x b : forall cs w w', Inv (own w) [] -> plays keq w cs -> calls keq w cs = Ok w' -> Forall (leaves x) cs -> In x (hands (own w)) -> has (own w) x b -> Inv (own w') [] /\ In x (hands (own w')) /\ has (own w') x b.
Proof.
  induction cs as [|c cs IH]; intros w w' I P E L X B; cbn [calls] in E; [injection E as <-; auto|]. apply bind_ok in E. destruct E as (w1 & E1 & E). destruct P as (F & P). inversion L as [|? ? L1 L2]; subst.
  destruct (call_ok keq w c I F) as [Ef|(w2 & E2 & I2)]; [congruence|]. assert (w2 = w1) by congruence. subst w2. destruct (call_stay keq w c w1 x b I F E1 L1 X B) as (X1 & B1). apply (IH w1 w'); auto.
Qed.
(** What an array shows does not change, and an object that is there is not made again. *)
Lemma shown_old keq w c w' a p : do_call keq w c = Ok w' -> a < length (cells (own w)) -> shown w a = p -> shown w' a = p.
Proof.
  intros E A S. destruct c as [o|l|k i r|k|k n|y|y]; cbn [do_call] in E.
  - apply bind_ok in E. destruct E as (s & _ & E). injection E as <-. exact S.
  - injection E as <-. exact S.
  - destruct (nth_error (blocks w) k) as [[m|]|]; try discriminate. destruct (i <? length m); try discriminate. injection E as <-. exact S.
  - destruct (nth_error (blocks w) k) as [[m|]|]; try discriminate. injection E as <-. exact S.
  - injection E as <-. unfold shown, lend. cbn [shows find fst]. destruct (Nat.eqb_spec (length (cells (own w))) a); [lia|]. exact S.
  - unfold copy in E. destruct (shown w y); [|discriminate]. apply bind_ok in E. destruct E as (s & _ & E). injection E as <-. exact S.
  - unfold mutable_copy in E. apply bind_ok in E. destruct E as (l & _ & E). apply bind_ok in E. destruct E as (s & _ & E). injection E as <-. exact S.
Qed.
Lemma calls_shown keq a p b : forall cs w w', Inv (own w) [] -> plays keq w cs -> calls keq w cs = Ok w' -> Forall (leaves a) cs -> In a (hands (own w)) -> has (own w) a b -> shown w a = p -> shown w' a = p.
Proof.
  induction cs as [|c cs IH]; intros w w' I P E L X B S; cbn [calls] in E; [injection E as <-; auto|]. apply bind_ok in E. destruct E as (w1 & E1 & E). destruct P as (F & P). inversion L as [|? ? L1 L2]; subst.
  destruct (call_ok keq w c I F) as [Ef|(w2 & E2 & I2)]; [congruence|]. assert (w2 = w1) by congruence. subst w2. destruct (call_stay keq w c w1 a b I F E1 L1 X B) as (X1 & B1).
  apply (IH w1 w'); auto. apply (shown_old keq w c w1 a _ E1); auto. destruct B as (n & B). apply nth_len in B. exact B.
Qed.

(** ** The results *)
Lemma shows_memory keq cs w b n cs' w' l : plays keq start cs -> calls keq start cs = Ok w -> plays keq (lend w b n) cs' -> calls keq (lend w b n) cs' = Ok w' ->
  Forall (leaves (length (cells (own w)))) cs' -> memory w' b l -> n <= length l -> forall i, get w' (length (cells (own w))) i = Ok (if i <? n then nth i l None else None).
Proof.
  intros P E P' E' L M N i. pose proof (reached keq cs w P E) as I. set (a := length (cells (own w))) in *.
  assert (I1: Inv (own (lend w b n)) []) by (apply add_inv; exact I).
  assert (X: In a (hands (own (lend w b n)))) by (apply in_or_app; right; left; reflexivity).
  assert (B: has (own (lend w b n)) a Leaf) by apply add_new.
  assert (S: shown (lend w b n) a = Some (b, n)). { unfold shown, lend. cbn [shows find fst]. fold a. rewrite Nat.eqb_refl. reflexivity. }
  destruct (calls_stay keq a Leaf cs' _ w' I1 P' E' L X B) as (_ & _ & B'). pose proof (calls_shown keq a _ Leaf cs' _ w' I1 P' E' L X B S) as S'.
  unfold get, objects. rewrite S', (body_ok _ _ _ B'). cbn [obind]. unfold memory in M. rewrite M. destruct (Nat.ltb_spec (length l) n); [lia|]. cbn [obind]. rewrite firstn_length, Nat.min_l by lia.
  destruct (Nat.ltb_spec i n); [|reflexivity]. f_equal. rewrite <- (firstn_skipn n l) at 2. rewrite app_nth1 by (rewrite firstn_length; lia). reflexivity.
Qed.
Lemma copy_keeps keq cs w a l cs' w1 w' : plays keq start cs -> calls keq start cs = Ok w -> readable w a -> objects w a = Ok l -> mutable_copy w a = Ok w1 ->
  plays keq w1 cs' -> calls keq w1 cs' = Ok w' -> Forall (leaves (length (cells (own w)))) cs' ->
  objects w' (length (cells (own w))) = Ok l /\ In (length (cells (own w))) (hands (own w')) /\ Forall (ref_in (live (own w'))) l.
Proof.
  intros P E R Eo Ec P' E' L. pose proof (reached keq cs w P E) as I. destruct (copy_ok w a l I R Eo) as (w2 & E2 & I2 & K2 & L2 & _ & Sw). assert (w2 = w1) by congruence. subst w2. pose proof (shown_new keq cs w E) as Sx. set (x := length (cells (own w))) in *.
  assert (X: In x (hands (own w1))) by (rewrite (proj1 K2); apply in_or_app; right; left; reflexivity).
  assert (B: has (own w1) x (Arr l)).
  { destruct L2 as (b & [-> | ->] & B); [exact B|exfalso]. unfold mutable_copy in Ec. rewrite Eo in Ec. cbn [obind] in Ec. apply bind_ok in Ec. destruct Ec as (s & Es & Ec). injection Ec as <-. cbn [own] in B.
    assert (G: forall xs s i s' m, has s x (Arr m) -> list_insert s x i xs = Ok s' -> exists m', has s' x (Arr m')).
    { clear. induction xs as [|r xs IH]; intros s i s' m H E; cbn [list_insert] in E; [injection E as <-; eauto|]. apply bind_ok in E. destruct E as (s1 & E1 & E). pose proof (retain_has _ _ _ _ _ E1 H) as H1.
      assert (L1: lists s1 x m) by (exists (Arr m); split; [left; reflexivity|exact H1]). rewrite (list_ok _ _ _ L1) in E. cbn [obind] in E. apply bind_ok in E. destruct E as (s2 & E2 & E).
      destruct H1 as (k & H1). unfold set_list in E2. rewrite (body_ok s1 x (Arr m)) in E2 by (exists k; exact H1). cbn [obind] in E2. unfold set_body in E2. rewrite H1 in E2. injection E2 as <-.
      eapply (IH _ _ _ _ _ E). Unshelve. 2: { exists k. eapply set_cell_same. exact H1. } }
    destruct (G l _ 0 s [] (add_new (own w) (Arr [])) Es) as (m' & k & Hm). destruct B as (k' & B). rewrite Hm in B. discriminate. }
  destruct (calls_stay keq x (Arr l) cs' w1 w' I2 P' E' L X B) as (I' & X' & B').
  assert (S1: shown w1 x = None) by (unfold shown in *; rewrite Sw; exact Sx). pose proof (calls_shown keq x None (Arr l) cs' w1 w' I2 P' E' L X B S1) as S'.
  split; [unfold objects; rewrite S'; apply list_ok; exists (Arr l); split; [left; reflexivity|exact B']|]. split; [exact X'|].
  apply Forall_forall. intros [y|] Hy; [|exact Logic.I]. cbn. destruct (inv_live (own w') [] y I') as (n & b & Y); [|exists (S n), b; exact Y].
  pose proof (member_counted (own w') [] x (Arr l) y B' (in_somes y l Hy)) as C. exact C.
Qed.
(** Releasing an array that shows a block. *)
Lemma drop_leaf s x k n : nth_error (cells s) x = Some (Live (S k) Leaf) -> drop (S n) s [x] = Ok (set_cell s x (match k with O => Freed | _ => Live k Leaf end)).
Proof. intros E. cbn [drop]. rewrite E. destruct k; cbn [members app]; destruct n; reflexivity. Qed.
Lemma release_only keq cs w b n cs' w' : plays keq start cs -> calls keq start cs = Ok w -> plays keq (lend w b n) cs' -> calls keq (lend w b n) cs' = Ok w' ->
  Forall (leaves (length (cells (own w)))) cs' ->
  exists s', step keq (own w') (Release (length (cells (own w)))) = Ok s' /\ forall y, y <> length (cells (own w)) -> nth_error (cells s') y = nth_error (cells (own w')) y.
Proof.
  intros P E P' E' L. pose proof (reached keq cs w P E) as I. set (a := length (cells (own w))) in *.
  assert (I1: Inv (own (lend w b n)) []) by (apply add_inv; exact I).
  assert (X: In a (hands (own (lend w b n)))) by (apply in_or_app; right; left; reflexivity).
  assert (B: has (own (lend w b n)) a Leaf) by apply add_new.
  destruct (calls_stay keq a Leaf cs' _ w' I1 P' E' L X B) as ((Po & _) & _ & (k & B')). pose proof (Po _ _ _ B') as N. destruct k as [|k]; [lia|]. cbn [step]. unfold release. cbn [length plus].
  rewrite (drop_leaf (mkS (cells (own w')) (take a (hands (own w')))) a k _ B'). eexists. split; [reflexivity|]. intros y NE. rewrite set_cell_other; auto.
Qed.
