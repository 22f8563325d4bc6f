(** Proofs about the references graphs hold: the calls. *)
Require Import Coq.Lists.List Coq.Bool.Bool Coq.Arith.Arith Coq.micromega.Lia.
Require Import Verif.Base Verif.Own_Model Verif.Own_Spec Verif.Own_Proofs Verif.Own_Calls Verif.Own_Ends Verif.Own_May Verif.Parsed_Model Verif.Parsed_Spec Verif.Parsed_Proofs Verif.Parsed_Steps Verif.Parsed_Shape Verif.Parsed_Ends Verif.Elem_Proofs Verif.Arcs_Model Verif.Arcs_Spec Verif.Arcs_Proofs.
Require Verif.HashTable_Model.
Import ListNotations.

Lemma retain_fwd s r s' : retain s r = Ok s' -> forall y c, has s y c -> has s' y c.
Proof.
  intros E y c (n & Q). destruct r as [x|]; cbn [retain] in E; [|injection E as <-; exists n; exact Q]. destruct (nth_error (cells s) x) as [[[|m] b|]|] eqn:Nx; try discriminate. injection E as <-. destruct (Nat.eq_dec x y) as [->|D].
  - rewrite Q in Nx. injection Nx as -> ->. eexists. exact (set_cell_same _ _ _ _ Q).
  - exists n. rewrite set_cell_other by exact D. exact Q.
Qed.
Lemma body_fwd s a b s' : set_body s a b = Ok s' -> forall y c, y <> a -> has s y c -> has s' y c.
Proof. intros E y c D (n & Q). unfold set_body in E. destruct (nth_error (cells s) a) as [[m b0|]|]; try discriminate. injection E as <-. exists n. rewrite set_cell_other by congruence. exact Q. Qed.
Lemma retain_next s r s' : retain s r = Ok s' -> next s' = next s.
Proof. destruct r as [x|]; cbn [retain]; [|intros E; injection E as <-; reflexivity]. destruct (nth_error (cells s) x) as [[[|m] b|]|]; try discriminate. intros E. injection E as <-. unfold next, set_cell. cbn [cells]. apply upd_length. Qed.
Lemma live_has s x : live s x -> exists b, has s x b.
Proof. intros (n & b & Q). exists b. exists n. exact Q. Qed.
Lemma has_live s x b : has s x b -> live s x.
Proof. intros (n & Q). exists n, b. exact Q. Qed.
Lemma in_member s y b x : has s y b -> In x (members b) -> In x (content s).
Proof. intros (n & Q) M. apply in_content. exists y, n, b. auto. Qed.
Lemma has_below s y b : has s y b -> y < next s.
Proof. intros (n & Q). exact (nth_len _ _ _ Q). Qed.

Lemma append_plain s l rs x b : Inv s [] -> has s l (Arr rs) -> has s x b ->
  exists s', append s l (Some x) = Ok s' /\ Inv s' [] /\ hands s' = hands s /\ has s' l (Arr (rs ++ [Some x])) /\ (forall y c, y <> l -> has s y c -> has s' y c) /\ Parsed_Shape.keeps (other l) s s'.
Proof.
  intros I (n & Q) Hx. destruct (retain_ref s [] (Some x) I (has_counted s x b I Hx)) as (s1 & E1 & I1 & F1).
  assert (N1: has s1 l (Arr rs)) by exact (frame_has _ _ _ _ _ F1 Logic.I (ex_intro _ n Q)).
  destruct (set_body_ok s1 _ [] l _ (Arr (rs ++ [Some x])) I1 N1) as (s2 & E2 & I2 & K2 & B2). { intros y. cbn [members]. rewrite somes_app, cnt_app. cbn [app somes flat_map]. cbn [count_occ]. destruct (Nat.eq_dec x y); lia. }
  assert (E: append s l (Some x) = Ok s2).
  { unfold append, list_of, body_of. rewrite Q. cbn [obind]. match goal with |- ?t = _ => change t with (splice s l (length rs) 0 (@cons Own_Model.ref (@Some nat x) (@nil Own_Model.ref))) end. rewrite (splice_end s l rs (Some x) n Q). rewrite E1. cbn [obind]. unfold list_of, body_of. rewrite Q. cbn [obind].
    rewrite Nat.add_0_r, firstn_all, skipn_all, app_nil_r. unfold set_list. rewrite (body_ok _ _ _ N1). cbn [obind]. exact E2. }
  exists s2. split; [exact E|]. split; [exact I2|]. split; [rewrite (proj1 K2); exact (proj1 F1)|]. split; [exact B2|]. split; [|exact (proj1 (append_cells _ _ _ _ _ _ Q E))].
  intros y c D H. apply (body_fwd _ _ _ _ E2); [exact D|]. exact (retain_fwd _ _ _ E1 _ _ H).
Qed.
Section Graph.
Variable keq : nat -> nat -> bool.
Local Notation typed := (Arcs_Proofs.typed keq).
Local Notation T := (Arcs_Proofs.T keq).
Local Notation W := (Arcs_Proofs.W keq).
Lemma new_edge_ok s l rs from to : W s -> has s l (Arr rs) -> live s from -> live s to -> (forall e x, In (Some e) rs -> has s e (Pair x (Some to)) -> False) ->
  exists s', new_edge s l from to = Ok s' /\ W s' /\ hands s' = hands s /\ (forall y c, y <> l -> has s y c -> has s' y c) /\ has s' l (Arr (rs ++ [Some (next s)])) /\ has s' (next s) (Pair (Some from) (Some to)).
Proof.
  intros (I & Ts) Hl Lf Lt No. unfold new_edge. destruct (live_has _ _ Lf) as (bf & Hf). destruct (live_has _ _ Lt) as (bt & Ht).
  destruct (retain_more s [] (Some from) I (has_counted s from bf I Hf)) as (s1 & E1 & I1 & F1 & C1). rewrite E1. cbn [obind].
  destruct (retain_ref s1 _ (Some to) I1 (counted_more s s1 [] _ (Some to) (proj1 F1) C1 (has_counted s to bt I Ht))) as (s2 & E2 & I2 & F2). rewrite E2. cbn [obind]. cbv zeta.
  assert (Nx: next s2 = next s) by (rewrite (retain_next _ _ _ E2); exact (retain_next _ _ _ E1)).
  assert (I3: Inv (make s2 (Pair (Some from) (Some to))) []). { apply add_inv. apply (inv_perm s2 (somes [Some to] ++ somes [Some from] ++ [])); [|exact I2]. intros x. cbn. destruct (Nat.eq_dec from x), (Nat.eq_dec to x); reflexivity. }
  assert (H3: hands (make s2 (Pair (Some from) (Some to))) = hands s ++ [next s]) by (rewrite <- Nx; change (hands s2 ++ [next s2] = hands s ++ [next s2]); rewrite (proj1 F2), (proj1 F1); reflexivity).
  assert (Fw: forall y c, has s y c -> has (make s2 (Pair (Some from) (Some to))) y c) by (intros y c H; apply has_make; exact (retain_fwd _ _ _ E2 _ _ (retain_fwd _ _ _ E1 _ _ H))).
  assert (T3: T (make s2 (Pair (Some from) (Some to)))). { apply T_make; [|exact Logic.I]. apply (T_every s1 s2 _ (T_every s s1 _ Ts I1 (retain_keeps _ _ _ E1)) I2 (retain_keeps _ _ _ E2)). }
  pose proof (has_new s2 (Pair (Some from) (Some to))) as He. rewrite Nx in *. remember (make s2 (Pair (Some from) (Some to))) as s3.
  destruct (append_plain s3 l rs (next s) _ I3 (Fw _ _ Hl) He) as (s4 & E4 & I4 & H4 & B4 & F4 & K4). rewrite E4. cbn [obind].
  assert (NE: next s <> l) by (pose proof (has_below _ _ _ Hl); lia).
  assert (T4: T s4). { apply (T_set s3 s4 [] l (Arr rs) (Arr (rs ++ [Some (next s)])) T3 I4 K4 (Fw _ _ Hl)); [intros c Hc; exact (has_fun' _ _ _ _ Hc B4)|exact Logic.I|]. cbn [Arcs_Proofs.typed]. destruct (T3 l _ (Fw _ _ Hl)) as (T3' & O3). split; [apply Forall_app; split; [exact T3'|]; constructor; [|constructor]; exists (next s), (Some from), (Some to); auto|].
    apply apart_end; [exact O3|]. intros r' R e e' x x' y -> E' P Q. injection E' as <-. pose proof (has_fun' _ _ _ _ He Q) as X. injection X as <- <-. destruct (Ts l _ Hl) as (Ts' & _). rewrite Forall_forall in Ts'. destruct (Ts' _ R) as (z & p & q & Z & Hz). injection Z as <-. pose proof (has_fun' _ _ _ _ (Fw _ _ Hz) P) as X. injection X as -> ->. exact (No _ _ R Hz). }
  destruct (give_shared s4 (next s) I4) as (s5 & E5 & I5 & H5 & F5 & K5); [rewrite H4, H3; apply in_or_app; right; left; reflexivity|apply (in_member s4 l _ _ B4); cbn [members]; apply in_somes, in_or_app; right; left; reflexivity|].
  exists s5. split; [exact E5|]. split; [split; [exact I5|exact (T_every s4 s5 [] T4 I5 K5)]|]. split; [rewrite H5, H4, H3; apply take_last, hands_old; [exact I|lia]|].
  split; [intros y c D H; apply F5, F4; [exact D|apply Fw, H]|]. split; [apply F5, B4|apply F5, F4; [exact NE|exact He]].
Qed.
  Lemma find_none (es : list (nat * Own_Model.ref)) k : find_key keq es k = None -> entered keq es k = fun v => es ++ [(k, v)].
  Proof. intros E. unfold entered. rewrite E. reflexivity. Qed.
  Lemma keys_end es k v : ForallOrdPairs (fun e e' : nat * Own_Model.ref => keq (fst e) (fst e') = false) es -> find_key keq es k = None -> ForallOrdPairs (fun e e' => keq (fst e) (fst e') = false) (es ++ [(k, v)]).
  Proof.
    induction es as [|e es IH]; intros O F; [repeat constructor|]. inversion O as [|? ? B O']; subst. cbn [find_key] in F. destruct (keq (fst e) k) eqn:Ek; [discriminate|]. cbn [app]. constructor; [|exact (IH O' F)]. apply Forall_app. split; [exact B|]. constructor; [exact Ek|constructor].
  Qed.
  Lemma new_list_ok s d es from : W s -> In d (hands s) -> has s d (Hash es) -> find_key keq es from = None -> live s from ->
    exists s', new_list keq s d from = Ok (s', next s) /\ W s' /\ hands s' = hands s /\ (forall y c, y <> d -> has s y c -> has s' y c) /\ has s' d (Hash (es ++ [(from, Some (next s))])) /\ has s' (next s) (Arr []).
  Proof.
    intros (I & Ts) Hd Hes Fk Lf. unfold new_list. cbv zeta. destruct (live_has _ _ Lf) as (bf & Hf). destruct (make_ok (Arr []) s eq_refl I) as (I1 & _ & _ & H1 & _). pose proof (has_new s (Arr [])) as Hl. assert (Fw: forall y c, has s y c -> has (make s (Arr [])) y c) by (intros; apply has_make; assumption).
    assert (T1: T (make s (Arr []))) by (apply T_make; [exact Ts|split; constructor]). remember (make s (Arr [])) as s1.
    destruct (retain_more s1 [] (Some from) I1 (has_counted s1 from bf I1 (Fw _ _ Hf))) as (s2 & E2 & I2 & F2 & C2). change (somes [Some from] ++ []) with [from] in I2.
    destruct (enter_ok Hash s2 [from] d es from (Some (next s)) (fun _ => eq_refl) I2 (retain_fwd _ _ _ E2 _ _ (Fw _ _ Hes))) as (s3 & s4 & s5 & E3 & E4 & E5 & I5 & K5 & B5).
    { unfold ref_in, counted. cbn [count_occ]. destruct (Nat.eq_dec from from); [lia|congruence]. }
    { unfold ref_in. apply own_counted. rewrite (proj1 F2), H1. apply in_or_app. right. left. reflexivity. }
    assert (Fw5: forall y c, y <> d -> has s1 y c -> has s5 y c) by (intros y c D H; apply (body_fwd _ _ _ _ E5); [exact D|]; exact (retain_fwd _ _ _ E4 _ _ (retain_fwd _ _ _ E3 _ _ (retain_fwd _ _ _ E2 _ _ H)))).
    assert (K: Parsed_Shape.keeps (other d) s1 s5). { apply (Parsed_Shape.keeps_trans _ s1 s2 s5); [exact (other_every _ _ _ (retain_keeps _ _ _ E2))|]. apply (Parsed_Shape.keeps_trans _ s2 s3 s5); [exact (other_every _ _ _ (retain_keeps _ _ _ E3))|]. apply (Parsed_Shape.keeps_trans _ s3 s4 s5); [exact (other_every _ _ _ (retain_keeps _ _ _ E4))|exact (proj1 (body_keeps _ _ _ _ E5))]. }
    assert (NE: next s <> d) by (pose proof (has_below _ _ _ Hes); lia).
    assert (T5: T s5). { apply (T_set s1 s5 [from] d (Hash es) (Hash (es ++ [(from, Some (next s))])) T1 I5 K (Fw _ _ Hes)); [intros c Hc; exact (has_fun' _ _ _ _ Hc B5)|exact Logic.I|]. cbn [Arcs_Proofs.typed]. destruct (T1 d _ (Fw _ _ Hes)) as (T1' & O1). split; [apply Forall_app; split; [exact T1'|]; constructor; [|constructor]; exists (next s), []; auto|apply keys_end; [exact O1|exact Fk]]. }
    assert (H5: hands s5 = hands s ++ [next s]) by (rewrite (proj1 K5), (proj1 F2); exact H1).
    destruct (release_shared s5 from [] I5) as (s6 & E6 & I6 & H6 & F6 & K6); [apply (member_counted s5 [] d _ from B5); cbn [members]; apply (in_fst from (Some (next s))), in_or_app; right; left; reflexivity|].
    assert (P: put keq s1 d from (Some (next s)) HashTable_Model.InsertAlways = Ok s6). { unfold put. rewrite (body_ok _ _ _ (Fw _ _ Hes)). cbn [obind]. unfold hash_put. rewrite E2. cbn [obind]. rewrite Fk. rewrite E3. cbn [obind]. rewrite E4. cbn [obind]. rewrite E5. cbn [obind]. exact E6. }
    rewrite P. cbn [obind]. destruct (give_shared s6 (next s) I6) as (s7 & E7 & I7 & H7 & F7 & K7); [rewrite H6, H5; apply in_or_app; right; left; reflexivity|apply (in_member s6 d _ _ (F6 _ _ B5)); cbn [members]; apply (in_snd from), in_or_app; right; left; reflexivity|].
    rewrite E7. cbn [obind]. exists s7. split; [reflexivity|]. split; [split; [exact I7|exact (T_every s6 s7 [] (T_every s5 s6 [] T5 I6 K6) I7 K7)]|]. split; [rewrite H7, H6, H5; apply take_last, hands_old; [exact I|lia]|].
    split; [intros y c D H; apply F7, F6, Fw5; [exact D|apply Fw, H]|]. split; [apply F7, F6, B5|apply F7, F6, Fw5; [exact NE|exact Hl]].
  Qed.
  Lemma edges_ok s d es from : W s -> has s d (Hash es) -> live s from ->
    (find_key keq es from = None /\ edges_of keq s d from = Ok None) \/ exists k l rs, find_key keq es from = Some (k, Some l) /\ edges_of keq s d from = Ok (Some l) /\ has s l (Arr rs) /\ typed s (Arr rs).
  Proof.
    intros (I & Ts) H (n & b & Lf). unfold edges_of. rewrite (body_ok _ _ _ H). cbn [obind]. rewrite (body_ok s from b) by (exists n; exact Lf). cbn [obind]. destruct (find_key keq es from) as [(k, v)|] eqn:Fk; [right|left; auto].
    destruct (Ts d _ H) as (F & _). rewrite Forall_forall in F. assert (In (k, v) es). { clear - Fk. induction es as [|e es IH]; cbn [find_key] in Fk; [discriminate|]. destruct (keq (fst e) from); [injection Fk as ->; left; reflexivity|right; auto]. }
    destruct (F _ H0) as (l & rs & E & Hl). cbn [snd] in E. subst v. exists k, l, rs. split; [reflexivity|]. split; [reflexivity|]. split; [exact Hl|exact (Ts l _ Hl)].
  Qed.
  Lemma same_is y to : same y (Some to) = true <-> y = Some to.
  Proof. destruct y as [y|]; cbn [same]; [rewrite Nat.eqb_eq; split; congruence|split; discriminate]. Qed.
  Lemma find_ok s to : forall rs i, typed s (Arr rs) -> exists f, find s rs to i = Ok f /\
    match f with
    | Some (j, e) => i <= j < i + length rs /\ nth_error rs (j - i) = Some (Some e) /\ exists x, has s e (Pair x (Some to))
    | None => forall e x, In (Some e) rs -> has s e (Pair x (Some to)) -> False
    end.
  Proof.
    induction rs as [|r rs IH]; intros i Ty; [exists None; split; [reflexivity|intros e x []]|]. cbn [Arcs_Proofs.typed] in Ty. destruct Ty as (Ty & O). inversion O as [|? ? _ O']; subst. inversion Ty as [|? ? (e & x & y & -> & He) Ty']; subst. cbn [find]. unfold second. rewrite (body_ok _ _ _ He). cbn [obind].
    destruct (same y (Some to)) eqn:Sy.
    - exists (Some (i, e)). split; [reflexivity|]. split; [cbn [length]; lia|]. rewrite Nat.sub_diag. split; [reflexivity|]. apply same_is in Sy. subst y. eauto.
    - destruct (IH (S i) (conj Ty' O')) as (f & E & B). exists f. split; [exact E|]. destruct f as [(j, e')|].
      + destruct B as (B1 & B2 & B3). split; [cbn [length]; lia|]. split; [|exact B3]. replace (j - i) with (S (j - S i)) by lia. exact B2.
      + intros e' x' [X|R] P; [|exact (B _ _ R P)]. injection X as <-. pose proof (has_fun' _ _ _ _ He P) as X. injection X as -> ->. rewrite (proj2 (same_is (Some to) to) eq_refl) in Sy. discriminate.
  Qed.
  Lemma add_one_ok s d es from to : W s -> In d (hands s) -> has s d (Hash es) -> live s from -> live s to ->
    exists s', add_one keq s d from to = Ok s' /\ W s' /\ hands s' = hands s /\ (forall x, live s x -> live s' x) /\ (exists es', has s' d (Hash es')).
  Proof.
    intros Ws Hd Hes Lf Lt. unfold add_one. destruct (edges_ok s d es from Ws Hes Lf) as [(Fk & ->)|(k & l & rs & Fk & -> & Hl & Ty)]; cbn [obind].
    - destruct (new_list_ok s d es from Ws Hd Hes Fk Lf) as (s1 & -> & W1 & H1 & F1 & B1 & A1). cbn [obind fst snd].
      assert (L1: forall x, live s x -> live s1 x). { intros x Lx. destruct (live_has _ _ Lx) as (b & Hx). destruct (Nat.eq_dec x d) as [->|D]; [exact (has_live _ _ _ B1)|exact (has_live _ _ _ (F1 _ _ D Hx))]. }
      destruct (new_edge_ok s1 (next s) [] from to W1 A1 (L1 _ Lf) (L1 _ Lt) (fun _ _ (H : In _ []) _ => H)) as (s2 & -> & W2 & H2 & F2 & B2 & A2). exists s2. split; [reflexivity|]. split; [exact W2|]. split; [congruence|]. split.
      + intros x Lx. destruct (live_has _ _ (L1 x Lx)) as (b & Hx). destruct (Nat.eq_dec x (next s)) as [->|D]; [exact (has_live _ _ _ B2)|exact (has_live _ _ _ (F2 _ _ D Hx))].
      + eexists. apply F2; [pose proof (has_below _ _ _ Hes); lia|exact B1].
    - rewrite (list_ok s l rs) by (exists (Arr rs); split; [left; reflexivity|exact Hl]). cbn [obind]. destruct (find_ok s to rs 0 Ty) as (f & -> & Bf). cbn [obind]. destruct f as [(j, e)|]; [exists s; split; [reflexivity|]; split; [exact Ws|]; split; [reflexivity|]; split; [auto|eauto]|]. cbn [obind fst snd].
      destruct (new_edge_ok s l rs from to Ws Hl Lf Lt Bf) as (s2 & -> & W2 & H2 & F2 & B2 & A2). exists s2. split; [reflexivity|]. split; [exact W2|]. split; [exact H2|]. split.
      + intros x Lx. destruct (live_has _ _ Lx) as (b & Hx). destruct (Nat.eq_dec x l) as [->|D]; [exact (has_live _ _ _ B2)|exact (has_live _ _ _ (F2 _ _ D Hx))].
      + exists es. apply F2; [intros ->; pose proof (has_fun' _ _ _ _ Hl Hes); discriminate|exact Hes].
  Qed.
  (** Taking out. *)
  Lemma remove_keys es k : forall e, In e (remove_key keq es k) -> In e es.
  Proof. induction es as [|e0 es IH]; intros e H; [destruct H|]. cbn [remove_key] in H. destruct (keq (fst e0) k); [right; exact H|]. destruct H as [->|H]; [left; reflexivity|right; auto]. Qed.
  Lemma remove_ord es k : ForallOrdPairs (fun e e' : nat * Own_Model.ref => keq (fst e) (fst e') = false) es -> ForallOrdPairs (fun e e' => keq (fst e) (fst e') = false) (remove_key keq es k).
  Proof.
    induction es as [|e es IH]; intros O; [constructor|]. inversion O as [|? ? B O']; subst. cbn [remove_key]. destruct (keq (fst e) k); [exact O'|]. constructor; [|exact (IH O')]. rewrite Forall_forall in *. intros x X. exact (B x (remove_keys es k x X)).
  Qed.
  Lemma cut_keys s d es es' xs : W s -> In d (hands s) -> has s d (Hash es) -> (forall e, In e es' -> In e es) -> (ForallOrdPairs (fun e e' => keq (fst e) (fst e') = false) es -> ForallOrdPairs (fun e e' => keq (fst e) (fst e') = false) es') -> (forall x, cnt (of_entries es') x + cnt xs x = cnt (of_entries es) x) ->
    exists s', (do s1 <- set_body s d (Hash es'); release s1 xs) = Ok s' /\ W s' /\ hands s' = hands s /\ has s' d (Hash es').
  Proof.
    intros (I & Ts) Hd Hes Sub Ord C. destruct (set_body_ok s [] (xs ++ []) d _ (Hash es') I Hes) as (s1 & E1 & I1 & K1 & B1). { intros x. cbn [members]. rewrite cnt_app. cbn [count_occ]. specialize (C x). lia. }
    rewrite E1. cbn [obind]. destruct (release_ok xs s1 [] I1) as (s2 & E2 & I2 & F2). exists s2. split; [exact E2|]. assert (B2: has s2 d (Hash es')) by (apply (frame_has _ _ _ _ _ F2); [left; rewrite (proj1 K1); exact Hd|exact B1]). split; [|split; [rewrite (proj1 F2); exact (proj1 K1)|exact B2]].
    split; [exact I2|]. apply (T_set s s2 [] d (Hash es) (Hash es') Ts I2); [|exact Hes|intros c Hc; exact (has_fun' _ _ _ _ Hc B2)|exact Logic.I|].
    - apply (Parsed_Shape.keeps_trans _ s s1 s2); [exact (proj1 (body_keeps _ _ _ _ E1))|exact (other_every _ _ _ (release_keeps _ _ _ E2))].
    - cbn [Arcs_Proofs.typed]. destruct (Ts d _ Hes) as (F & O). split; [|exact (Ord O)]. rewrite Forall_forall in *. intros e He. exact (F e (Sub e He)).
  Qed.
  Lemma cut_list s l rs i : W s -> has s l (Arr rs) -> i < length rs -> exists s', splice s l i 1 [] = Ok s' /\ W s' /\ hands s' = hands s /\ (forall c, has s' l c -> c = Arr (firstn i rs ++ skipn (i + 1) rs)) /\ Parsed_Shape.keeps (other l) s s'.
  Proof.
    intros (I & Ts) Hl L. unfold splice. rewrite (body_ok _ _ _ Hl). cbn [obind]. destruct (Nat.ltb_spec (length rs) (i + 1)); [lia|]. unfold array_splice. change (Nat.min 1 (length (@nil Own_Model.ref))) with 0. cbn [firstn overwrite obind length Nat.ltb Nat.leb]. rewrite (list_ok s l rs) by (exists (Arr rs); split; [left; reflexivity|exact Hl]). cbn [obind]. rewrite Nat.add_0_r. change (1 - 0) with 1.
    destruct (set_body_ok s [] (somes (firstn 1 (skipn i rs)) ++ []) l _ (Arr (firstn i rs ++ skipn (i + 1) rs)) I Hl) as (s1 & E1 & I1 & K1 & B1).
    { intros x. cbn [members]. rewrite cnt_app, somes_app, cnt_app, (cnt_split rs i x), (cnt_split (skipn i rs) 1 x), skip_skip. cbn [count_occ]. lia. }
    unfold set_list. rewrite (body_ok _ _ _ Hl). cbn [obind]. rewrite E1. cbn [obind]. destruct (release_ok _ s1 [] I1) as (s2 & E2 & I2 & F2). exists s2. split; [exact E2|]. pose proof (release_keeps _ _ _ E2) as K2. split; [|split; [rewrite (proj1 F2); exact (proj1 K1)|split; [intros c Hc; exact (has_fun' _ _ _ _ (keeps_has _ _ _ _ _ K2 Logic.I Hc) B1)|apply (Parsed_Shape.keeps_trans _ s s1 s2); [exact (proj1 (body_keeps _ _ _ _ E1))|exact (other_every _ _ _ K2)]]]]. split; [exact I2|].
    apply (T_set s s2 [] l (Arr rs) (Arr (firstn i rs ++ skipn (i + 1) rs)) Ts I2); [|exact Hl|intros c Hc; exact (has_fun' _ _ _ _ (keeps_has _ _ _ _ _ K2 Logic.I Hc) B1)|exact Logic.I|].
    - apply (Parsed_Shape.keeps_trans _ s s1 s2); [exact (proj1 (body_keeps _ _ _ _ E1))|exact (other_every _ _ _ K2)].
    - destruct (Ts l _ Hl) as (F & O). cbn [Arcs_Proofs.typed] in *. split; [|exact (apart_cut keq s rs i O)]. apply Forall_app. split; [apply (firstn_all_own _ i rs F)|apply (firstn_all_own _ (i + 1) rs F)].
  Qed.
  Lemma hash_stays' s s' d es : hands s' = hands s -> In d (hands s) -> W s' -> Parsed_Shape.keeps (fun y => y = d) s s' -> has s d (Hash es) -> exists es', has s' d (Hash es').
  Proof. intros H Hd (I & _) K Hes. destruct (inv_owned s' [] d I) as (b & B); [rewrite H; exact Hd|]. rewrite (has_fun' _ _ _ _ (keeps_has _ _ _ _ _ K eq_refl B) Hes) in B. eauto. Qed.
  Lemma remove_one_ok s d es from to : W s -> In d (hands s) -> has s d (Hash es) -> live s from -> exists s', remove_one keq s d from to = Ok s' /\ W s' /\ hands s' = hands s /\ (exists es', has s' d (Hash es')).
  Proof.
    intros Ws Hd Hes Lf. unfold remove_one. destruct (edges_ok s d es from Ws Hes Lf) as [(Fk & ->)|(k & l & rs & Fk & -> & Hl & Ty)]; cbn [obind]; [exists s; split; [reflexivity|]; split; [exact Ws|]; split; [reflexivity|eauto]|].
    rewrite (list_ok s l rs) by (exists (Arr rs); split; [left; reflexivity|exact Hl]). cbn [obind]. destruct (find_ok s to rs 0 Ty) as (f & -> & B). cbn [obind]. destruct f as [(j, e)|]; [|exists s; split; [reflexivity|]; split; [exact Ws|]; split; [reflexivity|eauto]].
    destruct (length rs =? 1).
    - unfold remove. rewrite (body_ok _ _ _ Hes). cbn [obind]. destruct Lf as (n & bf & Lf). rewrite (body_ok s from bf) by (exists n; exact Lf). cbn [obind]. rewrite Fk. destruct (cut_keys s d es (remove_key keq es from) (k :: somes [Some l]) Ws Hd Hes) as (s1 & E1 & W1 & H1 & B1); [apply remove_keys|apply remove_ord|intros x; exact (cnt_remove keq es from k (Some l) x Fk)|]. exists s1. split; [exact E1|]. split; [exact W1|]. split; [exact H1|eauto].
    - destruct (cut_list s l rs j Ws Hl) as (s' & E & W' & H' & _ & K'); [lia|]. exists s'. split; [exact E|]. split; [exact W'|]. split; [exact H'|]. apply (hash_stays' s s' d es H' Hd W'); [|exact Hes].
      intros y n b -> Q. apply (K' d n b) with (2 := Q). intros ->. pose proof (has_fun' _ _ _ _ Hl Hes). discriminate.
  Qed.
End Graph.
Arguments new_edge_ok {keq}.
