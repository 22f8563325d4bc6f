(** Proofs about classes. *)
Require Import Coq.NArith.NArith Coq.Lists.List Coq.Arith.Arith Coq.Bool.Bool Coq.micromega.Lia Coq.Sorting.Permutation.
Require Import Verif.Base Verif.Class_Model Verif.Class_Spec.
Require Verif.HashTable_Model Verif.HashTable_Spec Verif.HashTable_Proofs Verif.HashTable_Probe.
Import ListNotations.

Definition cnt (i : nat) (l : list nat) : nat := count_occ Nat.eq_dec l i.
Lemma cnt_cons : forall i j l, cnt i (j :: l) = (if i =? j then 1 else 0) + cnt i l.
Proof. intros i j l. unfold cnt. cbn [count_occ]. destruct (Nat.eq_dec j i) as [->|H]; [now rewrite Nat.eqb_refl|]. replace (i =? j) with false; [reflexivity|]. symmetry. apply Nat.eqb_neq. congruence. Qed.
Lemma cnt_app : forall i a b, cnt i (a ++ b) = cnt i a + cnt i b.
Proof. intros i a b. apply count_occ_app. Qed.
Lemma cnt_in : forall i l, In i l <-> 0 < cnt i l.
Proof. intros i l. unfold cnt. rewrite (count_occ_In Nat.eq_dec). lia. Qed.
Lemma cnt_drop : forall i j l, In j l -> cnt i (drop j l) + (if i =? j then 1 else 0) = cnt i l.
Proof.
  intros i j l. induction l as [|x l IH]; intros H; [destruct H|]. cbn [drop]. destruct (j =? x) eqn:E.
  - apply Nat.eqb_eq in E. subst x. rewrite cnt_cons. lia.
  - rewrite !cnt_cons. destruct H as [->|H]; [rewrite Nat.eqb_refl in E; discriminate|]. specialize (IH H). lia.
Qed.
Lemma drop_in : forall i j l, In i (drop j l) -> In i l.
Proof. intros i j l. induction l as [|x l IH]; intros H; [exact H|]. cbn [drop] in H. destruct (j =? x); [now right|]. destruct H as [->|H]; [now left|right; auto]. Qed.

(** Edges. *)
Definition super_list (k : option cls) : list nat := match k with Some k => match csuper k with Some s => [s] | None => [] end | None => [] end.
Definition cell_edges (o : cell) : list nat := if live o then isa o :: super_list (what o) else [].
Definition edges (h : list cell) : list nat := flat_map cell_edges h.
Lemma edges_app : forall a b, edges (a ++ b) = edges a ++ edges b.
Proof. intros a b. unfold edges. apply flat_map_app. Qed.
Lemma edges_upd : forall i j h o o', nth_error h j = Some o -> cnt i (edges (upd h j o')) + cnt i (cell_edges o) = cnt i (edges h) + cnt i (cell_edges o').
Proof.
  intros i j h. revert j. induction h as [|x h IH]; intros j o o' H; [destruct j; discriminate|]. destruct j as [|j]; cbn [nth_error] in H.
  - injection H as ->. cbn [upd]. unfold edges. cbn [flat_map]. rewrite !cnt_app. lia.
  - cbn [upd]. unfold edges in *. cbn [flat_map]. rewrite !cnt_app. specialize (IH j o o' H). lia.
Qed.
Lemma edge_from : forall i h, In i (edges h) <-> exists j o, nth_error h j = Some o /\ In i (cell_edges o).
Proof.
  intros i h. unfold edges. rewrite in_flat_map. split.
  - intros (o & H & Hi). apply In_nth_error in H. destruct H as (j & H). eauto.
  - intros (j & o & H & Hi). exists o. split; [eapply nth_error_In; eauto|exact Hi].
Qed.
Lemma upd_nth : forall {A} (h : list A) i j x, i < length h -> nth_error (upd h i x) j = if j =? i then Some x else nth_error h j.
Proof.
  intros A h. induction h as [|y h IH]; intros i j x Hi; [cbn in Hi; lia|]. destruct i as [|i], j as [|j]; cbn [upd nth_error]; try reflexivity.
  rewrite IH by (cbn in Hi; lia). reflexivity.
Qed.
Lemma upd_len : forall {A} (h : list A) i x, length (upd h i x) = length h.
Proof. intros A h. induction h as [|y h IH]; intros [|i] x; cbn; auto. Qed.

Section Proofs.
Variable hash : text -> N.
Notation refines := (HashTable_Proofs.refines text nat hash text_eqb).
Lemma text_eqb_eq : forall a b, text_eqb a b = true <-> a = b.
Proof. intros a b. unfold text_eqb. destruct (list_eq_dec N.eq_dec a b); split; congruence. Qed.
Lemma equiv : HashTable_Spec.equivalence text text_eqb.
Proof.
  split; [|split]; intros.
  - now apply text_eqb_eq.
  - unfold text_eqb. destruct (list_eq_dec N.eq_dec a b), (list_eq_dec N.eq_dec b a); congruence.
  - apply text_eqb_eq in H, H0. apply text_eqb_eq. congruence.
Qed.
Lemma respects : HashTable_Spec.hash_respects text text_eqb hash.
Proof. intros a b H. apply text_eqb_eq in H. now subst. Qed.

(** What holds without regard to the names: [l] are all references held from outside. *)
Record counts (w : world) (l : list nat) : Prop := mkI {
  i_refs : forall i o, is_cell w i o -> counted o = true -> refs o = cnt i l + cnt i (edges (heap w));
  i_in : forall i, In i l -> i < length (heap w);
  i_isa : forall j o, is_cell w j o -> live o = true -> exists p k, is_cell w (isa o) p /\ what p = Some k /\ (counted p = true -> isa o < j);
  i_super : forall j o k s, is_cell w j o -> live o = true -> what o = Some k -> csuper k = Some s -> s < j /\ exists p k', is_cell w s p /\ what p = Some k' }.
Definition named_by (w : world) : Prop := exists m, refines (names w) m /\ forall n i, In (n, i) m <-> named w i n.
Definition good (w : world) (l : list nat) : Prop := counts w l /\ named_by w.

Lemma in_range : forall w i o, is_cell w i o -> i < length (heap w).
Proof. intros w i o H. apply nth_error_Some. unfold is_cell in H. congruence. Qed.
Lemma ref_live : forall w l i o, counts w l -> is_cell w i o -> In i (l ++ edges (heap w)) -> live o = true.
Proof.
  intros w l i o H Hi Hin. unfold live. destruct (counted o) eqn:Ec; [|reflexivity]. cbn [negb orb]. apply Nat.ltb_lt. rewrite (i_refs w l H i o Hi Ec). apply cnt_in in Hin. rewrite cnt_app in Hin. lia.
Qed.
Lemma cell_at : forall w i, i < length (heap w) -> exists o, is_cell w i o.
Proof. intros w i H. unfold is_cell. destruct (nth_error (heap w) i) eqn:E; [eauto|]. apply nth_error_None in E. lia. Qed.
Lemma owned_live : forall w l i, counts w l -> In i l -> exists o, is_cell w i o /\ live o = true.
Proof. intros w l i H Hi. destruct (cell_at w i (i_in w l H i Hi)) as (o & Ho). exists o. split; [exact Ho|]. apply (ref_live w l i); [assumption..|]. apply in_or_app. now left. Qed.
Lemma get_live : forall w i o, is_cell w i o -> live o = true -> get w i = Ok o.
Proof. intros w i o H Hl. unfold get. unfold is_cell in H. now rewrite H, Hl. Qed.
Lemma get_inv : forall w i o, get w i = Ok o -> is_cell w i o /\ live o = true.
Proof. intros w i o H. unfold get in H. destruct (nth_error (heap w) i) as [o'|] eqn:E; [|discriminate]. destruct (live o') eqn:L; [|discriminate]. injection H as ->. auto. Qed.
Lemma class_inv : forall w i k, get_class w i = Ok k -> exists o, is_cell w i o /\ live o = true /\ what o = Some k.
Proof.
  intros w i k H. unfold get_class in H. destruct (get w i) as [o| | |] eqn:E; try discriminate H. cbn [obind] in H. destruct (what o) eqn:W; [|discriminate H]. injection H as ->.
  apply get_inv in E. exists o. tauto.
Qed.
Lemma class_live : forall w i o k, is_cell w i o -> live o = true -> what o = Some k -> get_class w i = Ok k.
Proof. intros w i o k H Hl Hw. unfold get_class. rewrite (get_live w i o H Hl). cbn [obind]. now rewrite Hw. Qed.
Lemma isa_live : forall w l j o, counts w l -> is_cell w j o -> live o = true -> exists p k, is_cell w (isa o) p /\ live p = true /\ what p = Some k /\ (counted p = true -> isa o < j).
Proof.
  intros w l j o H Hj Hl. destruct (i_isa w l H j o Hj Hl) as (p & k & Hp & Hk & Hlt). exists p, k. split; [exact Hp|]. split; [|auto].
  apply (ref_live w l (isa o)); [assumption..|]. apply in_or_app. right. apply edge_from. exists j, o. split; [exact Hj|]. unfold cell_edges. rewrite Hl. now left.
Qed.
Lemma super_live : forall w l j o k s, counts w l -> is_cell w j o -> live o = true -> what o = Some k -> csuper k = Some s ->
  s < j /\ exists p k', is_cell w s p /\ live p = true /\ what p = Some k'.
Proof.
  intros w l j o k s H Hj Hl Hw Hs. destruct (i_super w l H j o k s Hj Hl Hw Hs) as (Hlt & p & k' & Hp & Hk). split; [exact Hlt|]. exists p, k'. split; [exact Hp|]. split; [|exact Hk].
  apply (ref_live w l s); [assumption..|]. apply in_or_app. right. apply edge_from. exists j, o. split; [exact Hj|]. unfold cell_edges. rewrite Hl, Hw. cbn [super_list]. rewrite Hs. right. now left.
Qed.

(** The chain of superclasses. *)
Lemma chain_ok : forall w l, counts w l -> forall fuel i, is_class w i -> i < fuel -> exists r, chain fuel w (Some i) = Ok r.
Proof.
  intros w l H. induction fuel as [|fuel IH]; intros i (o & k & Hi & Hl & Hw) Hf; [lia|]. cbn [chain]. rewrite (class_live w i o k Hi Hl Hw). cbn [obind].
  destruct (csuper k) as [s|] eqn:Es.
  - destruct (super_live w l i o k s H Hi Hl Hw Es) as (Hlt & p & k' & Hp & Hpl & Hk). destruct (IH s) as (r & ->); [exists p, k'; auto|lia|]. cbn [obind]. eauto.
  - destruct fuel; cbn [chain obind]; eauto.
Qed.
Lemma classes_ok : forall w l i, counts w l -> is_class w i -> exists r, classes_of w i = Ok r.
Proof. intros w l i H Hi. apply (chain_ok w l H); [exact Hi|]. destruct Hi as (o & k & Hi & _). apply in_range in Hi. lia. Qed.

(** References. *)
Lemma live_edges : forall o n, live o = true -> 0 < n -> cell_edges (with_refs o n) = cell_edges o.
Proof. intros o n H Hn. unfold cell_edges. rewrite H. replace (live (with_refs o n)) with true; [reflexivity|]. unfold live. cbn [with_refs counted refs]. destruct (counted o); cbn [negb orb]; [|reflexivity]. symmetry. now apply Nat.ltb_lt. Qed.
Lemma with_refs_live : forall o n, live o = true -> 0 < n -> live (with_refs o n) = true.
Proof. intros o n H Hn. unfold live. cbn [with_refs counted refs]. destruct (counted o); cbn [negb orb]; [now apply Nat.ltb_lt|reflexivity]. Qed.
Lemma put_cell : forall w i o j p, is_cell w i o -> forall x, is_cell (put w i x) j p <-> (j = i /\ p = x) \/ (j <> i /\ is_cell w j p).
Proof.
  intros w i o j p Hi x. unfold is_cell, put. cbn [heap]. rewrite upd_nth by (apply in_range in Hi; exact Hi). destruct (j =? i) eqn:E.
  - apply Nat.eqb_eq in E. subst j. split; [intros H; injection H as ->; auto|intros [[_ ->]|[H _]]; [reflexivity|congruence]].
  - apply Nat.eqb_neq in E. tauto.
Qed.
(** Changing a count, the object remaining. *)
Lemma counts_refs : forall w l l' i o n, counts w l -> is_cell w i o -> live o = true -> 0 < n -> (counted o = true -> n = cnt i l' + cnt i (edges (heap w))) ->
  (forall j, j <> i -> cnt j l' = cnt j l) -> (In i l' -> i < length (heap w)) -> counts (put w i (with_refs o n)) l'.
Proof.
  intros w l l' i o n H Hi Hl Hn Hc Hj Hin.
  assert (E : forall j, cnt j (edges (heap (put w i (with_refs o n)))) = cnt j (edges (heap w))).
  { intros j. unfold put. cbn [heap]. pose proof (edges_upd j i (heap w) o (with_refs o n) Hi) as X. rewrite live_edges in X by assumption. lia. }
  assert (B : forall j p, is_cell (put w i (with_refs o n)) j p -> exists p', is_cell w j p' /\ live p = live p' /\ isa p = isa p' /\ what p = what p' /\ counted p = counted p').
  { intros j p Hp. apply (put_cell w i o j p Hi) in Hp. destruct Hp as [[-> ->]|[_ Hp]]; [|exists p; auto]. exists o. split; [exact Hi|]. rewrite Hl, with_refs_live by assumption. auto. }
  assert (C : forall j p', is_cell w j p' -> exists p, is_cell (put w i (with_refs o n)) j p /\ what p = what p' /\ counted p = counted p').
  { intros j p' Hp. destruct (Nat.eq_dec j i) as [->|Hne].
    - assert (p' = o) by (unfold is_cell in *; congruence). subst p'. exists (with_refs o n). split; [|auto]. apply (put_cell w i o i _ Hi). auto.
    - exists p'. split; [|auto]. apply (put_cell w i o j _ Hi). auto. }
  constructor.
  - intros j p Hp Hcp. rewrite E. apply (put_cell w i o j p Hi) in Hp. destruct Hp as [[-> ->]|[Hne Hp]]; [exact (Hc Hcp)|]. rewrite Hj by exact Hne. now apply (i_refs w l H).
  - intros j Hjl. unfold put. cbn [heap]. rewrite upd_len. destruct (Nat.eq_dec j i) as [->|Hne]; [auto|]. apply (i_in w l H). apply cnt_in. rewrite <- Hj by exact Hne. now apply cnt_in.
  - intros j p Hp Hlp. destruct (B j p Hp) as (p' & Hp' & E1 & E2 & E3 & E4). rewrite E1 in Hlp. destruct (i_isa w l H j p' Hp' Hlp) as (q & k & Hq & Hk & Hlt). rewrite E2.
    destruct (C _ _ Hq) as (q' & Hq' & F1 & F2). exists q', k. split; [exact Hq'|]. rewrite F1, F2. auto.
  - intros j p k s Hp Hlp Hw Hs. destruct (B j p Hp) as (p' & Hp' & E1 & E2 & E3 & E4). rewrite E1 in Hlp. rewrite E3 in Hw. destruct (i_super w l H j p' k s Hp' Hlp Hw Hs) as (Hlt & q & k' & Hq & Hk).
    split; [exact Hlt|]. destruct (C _ _ Hq) as (q' & Hq' & F1 & F2). exists q', k'. split; [exact Hq'|]. now rewrite F1.
Qed.
Lemma named_refs : forall w i o n, is_cell w i o -> live o = true -> 0 < n -> forall j x, named (put w i (with_refs o n)) j x <-> named w j x.
Proof.
  intros w i o n Hi Hl Hn j x. split; intros (p & k & Hp & Hlp & Hw & Hx).
  - apply (put_cell w i o j p Hi) in Hp. destruct Hp as [[-> ->]|[_ Hp]]; [exists o, k; auto|exists p, k; auto].
  - destruct (Nat.eq_dec j i) as [->|Hne].
    + assert (p = o) by (unfold is_cell in *; congruence). subst p. exists (with_refs o n), k. split; [apply (put_cell w i o i _ Hi); auto|]. split; [now apply with_refs_live|auto].
    + exists p, k. split; [apply (put_cell w i o j _ Hi); auto|auto].
Qed.
Lemma named_by_same : forall w w', names w' = names w -> (forall i n, named w' i n <-> named w i n) -> named_by w -> named_by w'.
Proof. intros w w' E H (m & Hm & Hn). exists m. rewrite E. split; [exact Hm|]. intros n i. rewrite Hn. symmetry. apply H. Qed.
Lemma retain_good : forall w l i w', good w l -> retain w i = Ok w' -> good w' (i :: l).
Proof.
  intros w l i w' [Hc Hn] H. unfold retain in H. destruct (get w i) as [o| | |] eqn:E; try discriminate H. cbn [obind] in H. injection H as <-. apply get_inv in E. destruct E as [Hi Hl]. destruct (counted o) eqn:Ec.
  - split.
    + apply (counts_refs w l); try assumption; [lia| | |].
      * intros _. rewrite (i_refs w l Hc i o Hi Ec), cnt_cons, Nat.eqb_refl. lia.
      * intros j Hj. rewrite cnt_cons. apply Nat.eqb_neq in Hj. now rewrite Hj.
      * intros _. now apply in_range in Hi.
    + apply (named_by_same w); [reflexivity| |exact Hn]. apply named_refs; [exact Hi|exact Hl|lia].
  - split; [|exact Hn]. destruct Hc as [C1 C2 C3 C4]. constructor; try assumption.
    + intros j p Hp Hcp. rewrite cnt_cons. replace (j =? i) with false; [now apply C1|]. symmetry. apply Nat.eqb_neq. intros ->. unfold is_cell in *. congruence.
    + intros j [<-|Hj]; [now apply in_range in Hi|auto].
Qed.

(** The last reference. *)
Lemma counts_last : forall w l i o, counts w (i :: l) -> is_cell w i o -> counted o = true -> refs o = 1 ->
  counts (put w i (with_refs o 0)) (super_list (what o) ++ isa o :: l).
Proof.
  intros w l i o H Hi Hc H1. assert (Hl : live o = true) by (unfold live; rewrite Hc, H1; reflexivity).
  pose proof (i_refs w _ H i o Hi Hc) as Hr. rewrite H1, cnt_cons, Nat.eqb_refl in Hr.
  assert (Dead : live (with_refs o 0) = false) by (unfold live; cbn; rewrite Hc; reflexivity).
  assert (E : forall j, cnt j (edges (heap (put w i (with_refs o 0)))) + cnt j (isa o :: super_list (what o)) = cnt j (edges (heap w))).
  { intros j. unfold put. cbn [heap]. pose proof (edges_upd j i (heap w) o (with_refs o 0) Hi) as X. assert (E1 : cell_edges o = isa o :: super_list (what o)) by (unfold cell_edges; now rewrite Hl). assert (E2 : cell_edges (with_refs o 0) = []) by (unfold cell_edges; now rewrite Dead). rewrite E1, E2 in X. change (cnt j []) with 0 in X. lia. }
  assert (L : forall j p, is_cell (put w i (with_refs o 0)) j p -> live p = true -> j <> i /\ is_cell w j p).
  { intros j p Hp Hlp. apply (put_cell w i o j p Hi) in Hp. destruct Hp as [[-> ->]|Hp]; [rewrite Dead in Hlp; discriminate|exact Hp]. }
  assert (C : forall j p', is_cell w j p' -> exists p, is_cell (put w i (with_refs o 0)) j p /\ what p = what p' /\ counted p = counted p').
  { intros j p' Hp. destruct (Nat.eq_dec j i) as [->|Hne].
    - assert (p' = o) by (unfold is_cell in *; congruence). subst p'. exists (with_refs o 0). split; [|auto]. apply (put_cell w i o i _ Hi). auto.
    - exists p'. split; [|auto]. apply (put_cell w i o j _ Hi). auto. }
  constructor.
  - intros j p Hp Hcp. specialize (E j). rewrite cnt_app, cnt_cons. rewrite cnt_cons in E. apply (put_cell w i o j p Hi) in Hp. destruct Hp as [[-> ->]|[Hne Hp]].
    + cbn [refs with_refs]. assert (cnt i (edges (heap w)) = 0) by lia.
      assert (cnt i (super_list (what o)) = 0 /\ (if i =? isa o then 1 else 0) = 0) by lia. lia.
    + pose proof (i_refs w _ H j p Hp Hcp) as Hj. rewrite cnt_cons in Hj. apply Nat.eqb_neq in Hne. rewrite Hne in Hj. lia.
  - intros j Hj. unfold put. cbn [heap]. rewrite upd_len. apply in_app_or in Hj. destruct Hj as [Hj|[<-|Hj]].
    + destruct (what o) as [k|] eqn:W; [|destruct Hj]. cbn [super_list] in Hj. destruct (csuper k) as [s|] eqn:S; [|destruct Hj]. destruct Hj as [<-|[]].
      destruct (i_super w _ H i o k s Hi Hl W S) as (_ & p & k' & Hp & _). now apply in_range in Hp.
    + destruct (i_isa w _ H i o Hi Hl) as (p & k & Hp & _). now apply in_range in Hp.
    + apply (i_in w _ H). now right.
  - intros j p Hp Hlp. destruct (L j p Hp Hlp) as [_ Hp']. destruct (i_isa w _ H j p Hp' Hlp) as (q & k & Hq & Hk & Hlt). destruct (C _ _ Hq) as (q' & Hq' & F1 & F2). exists q', k. split; [exact Hq'|]. rewrite F1, F2. auto.
  - intros j p k s Hp Hlp Hw Hs. destruct (L j p Hp Hlp) as [_ Hp']. destruct (i_super w _ H j p k s Hp' Hlp Hw Hs) as (Hlt & q & k' & Hq & Hk).
    split; [exact Hlt|]. destruct (C _ _ Hq) as (q' & Hq' & F1 & F2). exists q', k'. split; [exact Hq'|]. now rewrite F1.
Qed.
Lemma counts_names : forall w l t, counts w l -> counts (mkW (heap w) t) l.
Proof. intros w l t [H1 H2 H3 H4]. now constructor. Qed.
Lemma counts_uncounted : forall w l i o, counts w (i :: l) -> is_cell w i o -> counted o = false -> counts w l.
Proof.
  intros w l i o [H1 H2 H3 H4] Hi Hc. constructor; try assumption.
  - intros j p Hp Hcp. rewrite (H1 j p Hp Hcp), cnt_cons. replace (j =? i) with false; [reflexivity|]. symmetry. apply Nat.eqb_neq. intros ->. unfold is_cell in *. congruence.
  - intros j Hj. apply H2. now right.
Qed.

(** The table of names. *)
Lemma in_get : forall t m n i, refines t m -> (In (n, i) m <-> option_map snd (HashTable_Spec.amap_get text nat text_eqb m n) = Some i).
Proof.
  intros t m n i H. pose proof (HashTable_Proofs.refines_nodup text nat hash text_eqb equiv t m H) as Hnd. split.
  - intros Hin. rewrite (proj2 (HashTable_Proofs.amap_get_some text nat text_eqb equiv m n (n, i) Hnd)); [reflexivity|]. split; [exact Hin|]. now apply text_eqb_eq.
  - intros E. destruct (HashTable_Spec.amap_get text nat text_eqb m n) as [[n' j]|] eqn:G; [|discriminate E]. cbn in E. injection E as ->.
    apply (HashTable_Proofs.amap_get_some text nat text_eqb equiv m n (n', i) Hnd) in G. destruct G as [Hin Hk]. cbn [fst] in Hk. apply text_eqb_eq in Hk. now subst.
Qed.
Lemma lookup_named : forall w n r, named_by w -> ht_lookup hash (names w) n = Ok r -> forall i, option_map snd r = Some i <-> named w i n.
Proof.
  intros w n r (m & Hm & Hn) H i. apply (HashTable_Proofs.lookup_refines text nat hash text_eqb equiv respects (names w) m n r Hm) in H. rewrite H, <- (in_get (names w) m n i Hm). apply Hn.
Qed.
Lemma remove_load : forall t n t', ht_remove hash t n = Ok t' ->
  (HashTable_Model.rowCount t' = HashTable_Model.rowCount t /\ HashTable_Model.activeCount t' + HashTable_Model.deletedCount t' = HashTable_Model.activeCount t + HashTable_Model.deletedCount t)%N.
Proof.
  intros t n t' H. unfold ht_remove, HashTable_Model.remove in H. destruct (0 <? HashTable_Model.activeCount t)%N eqn:E; [|injection H as <-; auto]. apply N.ltb_lt in E.
  destruct (HashTable_Model.rows t); [|discriminate H]. destruct (HashTable_Model.find _ _ _ _ _ _ _) as [[x st]| | |]; try discriminate H. cbn [obind snd fst] in H. destruct st; injection H as <-; cbn; auto. split; [reflexivity|lia].
Qed.
Definition load (w : world) : N * N := (HashTable_Model.rowCount (names w), HashTable_Model.activeCount (names w) + HashTable_Model.deletedCount (names w))%N.
Lemma remove_safe : forall t m n, refines t m -> (exists t', ht_remove hash t n = Ok t') \/ (HashTable_Model.rowCount t = 25 /\ HashTable_Model.activeCount t + HashTable_Model.deletedCount t = 11)%N.
Proof.
  intros t m n [Hm _]. destruct (HashTable_Probe.step_total text nat hash text_eqb equiv respects t (HashTable_Model.OpRemove n) Hm) as [(r & H)|[(H & _)|(_ & H)]]; [| |right; exact H].
  - left. cbn [HashTable_Model.step] in H. change (HashTable_Model.remove text nat hash text_eqb t n) with (ht_remove hash t n) in H. destruct (ht_remove hash t n); try discriminate H. eauto.
  - cbn [HashTable_Model.step] in H. unfold HashTable_Model.remove in H. exfalso. destruct (0 <? HashTable_Model.activeCount t)%N; [|discriminate H]. destruct (HashTable_Model.rows t); [|discriminate H].
    destruct (HashTable_Model.find text nat hash text_eqb l (HashTable_Model.rowCount t) n) as [[x st]| | |] eqn:E; try discriminate H; [destruct st; discriminate H|]. exact (HashTable_Proofs.find_not_fatal text nat hash text_eqb l (HashTable_Model.rowCount t) n E).
Qed.

(** Lists of references that agree. *)
Lemma counts_ext : forall w l l', (forall i, cnt i l = cnt i l') -> counts w l -> counts w l'.
Proof.
  intros w l l' E [H1 H2 H3 H4]. constructor; try assumption.
  - intros i o Hi Hc. rewrite <- E. now apply H1.
  - intros i Hi. apply H2. apply cnt_in. rewrite E. now apply cnt_in.
Qed.
Lemma good_ext : forall w l l', (forall i, cnt i l = cnt i l') -> good w l -> good w l'.
Proof. intros w l l' E [H1 H2]. split; [now apply (counts_ext w l)|exact H2]. Qed.

Lemma named_unique : forall w i j n, named_by w -> named w i n -> named w j n -> i = j.
Proof.
  intros w i j n (m & Hm & Hn) Hi Hj. apply Hn in Hi, Hj. apply (in_get _ m n _ Hm) in Hi, Hj. congruence.
Qed.

(** The names after the last reference to a class. *)
Lemma named_dead : forall w i o, is_cell w i o -> counted o = true -> forall j x, named (put w i (with_refs o 0)) j x <-> named w j x /\ j <> i.
Proof.
  intros w i o Hi Hc j x. split.
  - intros (p & k & Hp & Hlp & Hw & Hx). apply (put_cell w i o j p Hi) in Hp. destruct Hp as [[-> ->]|[Hne Hp]].
    + unfold live in Hlp. cbn in Hlp. rewrite Hc in Hlp. discriminate.
    + split; [exists p, k; auto|exact Hne].
  - intros [(p & k & Hp & Hlp & Hw & Hx) Hne]. exists p, k. split; [apply (put_cell w i o j _ Hi); auto|auto].
Qed.
Lemma remove_named : forall w i o k w', named_by w -> is_cell w i o -> counted o = true -> live o = true -> what o = Some k ->
  remove_name hash (put w i (with_refs o 0)) (cname k) = Ok w' -> heap w' = heap (put w i (with_refs o 0)) /\ named_by w'.
Proof.
  intros w i o k w' (m & Hm & Hn) Hi Hc Hl Hw H. destruct (cname k) as [n|] eqn:En; cbn [remove_name] in H.
  - destruct (ht_remove hash (names (put w i (with_refs o 0))) n) as [t| | |] eqn:E; try discriminate H. cbn [obind] in H. injection H as <-. split; [reflexivity|].
    exists (HashTable_Spec.amap_remove text nat text_eqb m n). split; [exact (HashTable_Proofs.remove_refines text nat hash text_eqb equiv respects _ m n t Hm E)|].
    intros x j. unfold HashTable_Spec.amap_remove. rewrite filter_In. cbn [fst]. rewrite Hn. assert (ND : named {| heap := heap (put w i (with_refs o 0)); names := t |} j x <-> named w j x /\ j <> i) by exact (named_dead w i o Hi Hc j x).
    rewrite ND. split; intros [A B]; (split; [exact A|]).
    + intros ->. destruct A as (p & k' & Hp & _ & Hw' & Hx). assert (p = o) by (unfold is_cell in *; congruence). subst p. assert (x = n) by congruence. subst x. rewrite (proj2 (text_eqb_eq n n) eq_refl) in B. discriminate.
    + apply negb_true_iff. destruct (text_eqb x n) eqn:Ex; [|reflexivity]. exfalso. apply text_eqb_eq in Ex. subst x. apply B. apply (named_unique w j i n); [exists m; auto|exact A|]. exists o, k. auto.
  - assert (w' = put w i (with_refs o 0)) as ->.
    { destruct (0 <? HashTable_Model.activeCount (names (put w i (with_refs o 0))))%N; [|congruence]. destruct (HashTable_Model.rows (names (put w i (with_refs o 0)))); [|discriminate H]. destruct (_ =? 0)%N; [discriminate H|]. destruct (null_loop _ _ _ _); try discriminate H. cbn [obind] in H. congruence. }
    split; [reflexivity|]. exists m. split; [exact Hm|]. intros x j. rewrite (named_dead w i o Hi Hc), Hn. split; [|tauto]. intros A. split; [exact A|]. intros ->. destruct A as (p & k' & Hp & _ & Hw' & Hx). unfold is_cell in *. congruence.
Qed.
Lemma named_dead_object : forall w i o, named_by w -> is_cell w i o -> counted o = true -> what o = None -> named_by (put w i (with_refs o 0)).
Proof.
  intros w i o Hn Hi Hc Hw. apply (named_by_same w); [reflexivity| |exact Hn]. intros j x. rewrite (named_dead w i o Hi Hc). split; [tauto|]. intros A. split; [exact A|]. intros ->. destruct A as (p & k' & Hp & _ & Hw' & Hx). unfold is_cell in *. congruence.
Qed.

Lemma release_good : forall fuel w l i w', good w (i :: l) -> release hash fuel w i = Ok w' -> good w' l.
Proof.
  induction fuel as [|fuel IH]; intros w l i w' [Hc Hn] H; [discriminate H|]. cbn [release] in H. destruct (get w i) as [o| | |] eqn:E; try discriminate H. cbn [obind] in H. apply get_inv in E. destruct E as [Hi Hl].
  destruct (counted o) eqn:Ec; cbn [negb] in H.
  2:{ injection H as <-. split; [apply (counts_uncounted w l i o); assumption|exact Hn]. }
  destruct (1 <? refs o) eqn:E1.
  - apply Nat.ltb_lt in E1. injection H as <-. pose proof (i_refs w _ Hc i o Hi Ec) as R. rewrite cnt_cons, Nat.eqb_refl in R. split.
    + apply (counts_refs w (i :: l)); try assumption; [lia|lia| |].
      * intros j Hj. rewrite cnt_cons. apply Nat.eqb_neq in Hj. now rewrite Hj.
      * intros _. now apply in_range in Hi.
    + apply (named_by_same w); [reflexivity| |exact Hn]. apply named_refs; [exact Hi|exact Hl|lia].
  - apply Nat.ltb_ge in E1. assert (R1 : refs o = 1) by (unfold live in Hl; rewrite Ec in Hl; cbn [negb orb] in Hl; apply Nat.ltb_lt in Hl; lia).
    destruct (classes_of w (isa o)); try discriminate H. cbn [obind] in H. pose proof (counts_last w l i o Hc Hi Ec R1) as C1.
    destruct (what o) as [k|] eqn:Ew.
    + destruct (remove_name hash (put w i (with_refs o 0)) (cname k)) as [w1| | |] eqn:Er; try discriminate H. cbn [obind] in H.
      destruct (remove_named w i o k w1 Hn Hi Ec Hl Ew Er) as [Eh Hn1]. assert (C2 : counts w1 (super_list (Some k) ++ isa o :: l)).
      { destruct w1 as [h1 t1]. cbn [heap] in Eh. subst h1. exact (counts_names _ _ t1 C1). }
      cbn [super_list] in C2. destruct (csuper k) as [s|].
      * destruct (release hash fuel w1 s) as [w2| | |] eqn:E2; try discriminate H. cbn [obind] in H. apply (IH w2 l (isa o) w'); [|exact H]. apply (IH w1 (isa o :: l) s w2); [|exact E2]. split; assumption.
      * cbn [obind] in H. apply (IH w1 l (isa o) w'); [|exact H]. split; assumption.
    + cbn [obind] in H. apply (IH (put w i (with_refs o 0)) l (isa o) w'); [|exact H]. split; [exact C1|]. now apply named_dead_object.
Qed.

(** Releasing is safe. *)
Definition shape (w : world) : list (nat * bool * option cls) := map (fun o => (isa o, counted o, what o)) (heap w).
Lemma shape_put : forall w i o n, is_cell w i o -> shape (put w i (with_refs o n)) = shape w.
Proof.
  intros w i o n. unfold is_cell, shape, put. cbn [heap]. generalize (heap w). intros h. revert i. induction h as [|x h IH]; intros i H; [destruct i; discriminate|]. destruct i; cbn [nth_error upd map] in *; [injection H as ->; reflexivity|]. f_equal. now apply IH.
Qed.
Lemma shape_cell : forall w w' i o, shape w' = shape w -> is_cell w i o -> exists o', is_cell w' i o' /\ isa o' = isa o /\ counted o' = counted o /\ what o' = what o.
Proof.
  intros w w' i o E H. unfold is_cell in *. assert (X : nth_error (shape w') i = Some (isa o, counted o, what o)) by (rewrite E; unfold shape; rewrite nth_error_map, H; reflexivity).
  unfold shape in X. rewrite nth_error_map in X. destruct (nth_error (heap w') i) as [o'|]; [|discriminate]. cbn in X. injection X as A B C. exists o'. auto.
Qed.
Lemma remove_name_heap : forall w n w', remove_name hash w n = Ok w' -> heap w' = heap w.
Proof.
  intros w [n|] w' H; cbn [remove_name] in H.
  - destruct (ht_remove hash (names w) n); try discriminate H. cbn [obind] in H. injection H as <-. reflexivity.
  - destruct (0 <? HashTable_Model.activeCount (names w))%N; [|congruence]. destruct (HashTable_Model.rows (names w)); [|discriminate H]. destruct (_ =? 0)%N; [discriminate H|]. destruct (null_loop _ _ _ _); try discriminate H. cbn [obind] in H. congruence.
Qed.
Lemma release_shape : forall fuel w i w', release hash fuel w i = Ok w' -> shape w' = shape w.
Proof.
  induction fuel as [|fuel IH]; intros w i w' H; [discriminate H|]. cbn [release] in H. destruct (get w i) as [o| | |] eqn:E; try discriminate H. cbn [obind] in H. apply get_inv in E. destruct E as [Hi Hl].
  destruct (counted o) eqn:Ec; cbn [negb] in H; [|congruence]. destruct (1 <? refs o) eqn:E1; [injection H as <-; now apply shape_put|].
  destruct (classes_of w (isa o)); try discriminate H. cbn [obind] in H. rewrite <- (shape_put w i o 0 Hi). destruct (what o) as [k|].
  - destruct (remove_name hash (put w i (with_refs o 0)) (cname k)) as [w1| | |] eqn:Er; try discriminate H. cbn [obind] in H. apply remove_name_heap in Er.
    assert (Es : shape (put w i (with_refs o 0)) = shape w1) by (unfold shape; now rewrite Er). rewrite Es.
    destruct (csuper k) as [s|]; [destruct (release hash fuel w1 s) as [w2| | |] eqn:E2; try discriminate H; cbn [obind] in H; rewrite <- (IH _ _ _ E2)|cbn [obind] in H]; now apply IH in H.
  - cbn [obind] in H. now apply IH in H.
Qed.

(** Nothing awkward. *)
Lemma calm_sub : forall w w', load w' = load w -> (forall i, nameless w' i -> nameless w i) -> ~ awkward w -> ~ awkward w'.
Proof. intros w w' E Hn H [X|(i & X)]; apply H; [left|right; exists i; auto]. unfold tight in *. unfold load in E. injection E as <- <-. exact X. Qed.
Lemma nameless_put : forall w i o n, is_cell w i o -> live o = true -> forall j, nameless (put w i (with_refs o n)) j -> nameless w j.
Proof.
  intros w i o n Hi Hl j (p & k & Hp & Hlp & Hw & Hx). apply (put_cell w i o j p Hi) in Hp. destruct Hp as [[-> ->]|[_ Hp]]; [exists o, k; auto|exists p, k; auto].
Qed.
Lemma release_total : forall fuel w l i o, good w (i :: l) -> ~ awkward w -> is_cell w i o -> 0 < fuel -> (counted o = true -> S i < fuel) ->
  exists w', release hash fuel w i = Ok w' /\ ~ awkward w'.
Proof.
  induction fuel as [|fuel IH]; intros w l i o [Hc Hn] Ha Hi Hf Hf2; [lia|]. cbn [release].
  assert (Hl : live o = true) by (apply (ref_live w (i :: l) i o Hc Hi); now left). rewrite (get_live w i o Hi Hl). cbn [obind]. destruct (counted o) eqn:Ec; cbn [negb]; [|eauto]. specialize (Hf2 eq_refl).
  destruct (1 <? refs o) eqn:E1.
  - eexists. split; [reflexivity|]. apply (calm_sub w); [reflexivity|now apply nameless_put|exact Ha].
  - apply Nat.ltb_ge in E1. assert (R1 : refs o = 1) by (unfold live in Hl; rewrite Ec in Hl; cbn [negb orb] in Hl; apply Nat.ltb_lt in Hl; lia).
    destruct (isa_live w _ i o Hc Hi Hl) as (p & kp & Hp & Hlp & Hkp & Hlt). destruct (classes_ok w _ (isa o) Hc) as (r & ->); [exists p, kp; auto|]. cbn [obind]. pose proof (counts_last w l i o Hc Hi Ec R1) as C1.
    assert (A1 : ~ awkward (put w i (with_refs o 0))) by (apply (calm_sub w); [reflexivity|now apply nameless_put|exact Ha]).
    assert (Last : forall w2, shape w2 = shape w -> good w2 (isa o :: l) -> ~ awkward w2 -> exists w', release hash fuel w2 (isa o) = Ok w' /\ ~ awkward w').
    { intros w2 Es Hg Ha2. destruct (shape_cell w w2 (isa o) p Es Hp) as (p' & Hp' & _ & Ecp & _). apply (IH w2 l (isa o) p' Hg Ha2 Hp'); [lia|]. rewrite Ecp. intros X. specialize (Hlt X). lia. }
    destruct (what o) as [k|] eqn:Ew.
    + destruct (cname k) as [n|] eqn:En; [|exfalso; apply Ha; right; exists i, o, k; auto].
      assert (Er : exists w1, remove_name hash (put w i (with_refs o 0)) (Some n) = Ok w1 /\ load w1 = load w).
      { cbn [remove_name]. destruct Hn as (m & Hm & _). destruct (remove_safe (names w) m n Hm) as [(t & Et)|X]; [|exfalso; apply Ha; now left]. change (names (put w i (with_refs o 0))) with (names w). rewrite Et. cbn [obind].
        eexists. split; [reflexivity|]. unfold load. cbn [names]. destruct (remove_load _ _ _ Et) as [-> ->]. reflexivity. }
      destruct Er as (w1 & Er & El). rewrite Er. cbn [obind]. rewrite <- En in Er. destruct (remove_named w i o k w1 Hn Hi Ec Hl Ew Er) as [Eh Hn1].
      assert (C2 : counts w1 (super_list (Some k) ++ isa o :: l)). { destruct w1 as [h1 t1]. cbn [heap] in Eh. subst h1. exact (counts_names _ _ t1 C1). }
      assert (Es : shape w1 = shape w) by (rewrite <- (shape_put w i o 0 Hi); unfold shape; now rewrite Eh).
      assert (A2 : ~ awkward w1). { apply (calm_sub w); [exact El| |exact Ha]. intros j X. apply (nameless_put w i o 0 Hi Hl). unfold nameless, is_cell in *. now rewrite <- Eh. }
      cbn [super_list] in C2. destruct (csuper k) as [s|] eqn:Esup.
      * destruct (super_live w _ i o k s Hc Hi Hl Ew Esup) as (Hs & q & kq & Hq & _). destruct (shape_cell w w1 s q Es Hq) as (q' & Hq' & _). destruct (IH w1 (isa o :: l) s q') as (w2 & E2 & A3); [split; assumption|exact A2|exact Hq'|lia|intros; lia|].
        rewrite E2. cbn [obind]. apply Last; [rewrite (release_shape _ _ _ _ E2); exact Es| |exact A3]. apply (release_good fuel w1 (isa o :: l) s); [split; assumption|exact E2].
      * cbn [obind]. apply Last; [exact Es|split; assumption|exact A2].
    + cbn [obind]. apply Last; [now apply shape_put| |exact A1]. split; [exact C1|now apply named_dead_object].
Qed.
End Proofs.
