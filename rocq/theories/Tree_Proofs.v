(** Histories of calls on the tree of Tree_Model. *)
Require Import Coq.ZArith.ZArith Coq.Lists.List Coq.Bool.Bool Coq.Arith.Arith Coq.micromega.Lia Coq.Sorting.Sorted.
Require Import Verif.Base Verif.HashTable_Model Verif.Tree_Model Verif.Tree_Spec Verif.Tree_Fun Verif.Tree_Heap.
Import ListNotations.
Local Open Scope Z_scope.

Section Proofs.
  Variables K V : Type.
  Variable cmp : K -> K -> Z.
  Notation tr := (tr K V).
  Notation heap := (heap K V).
  Notation tree := (tree K V).
  Notation ents := (ents K V).
  Notation addrs := (addrs K V).
  Notation lev := (lev K V).
  Notation rt := (rt K V).
  Notation aa := (aa K V).
  Notation mem := (mem K V).
  Notation next := (next K V).
  Notation root := (root K V).
  Notation count := (count K V).
  Notation size := (size K V).
  Notation height := (height K V).
  Notation rep := (rep K V).
  Notation ok := (ok K V).
  Notation null_ok := (null_ok K V).
  Notation addr := (addr K V).
  Notation setkv := (setkv K V).
  Notation unlink := (unlink K V cmp).
  Notation cand := (cand K V cmp).
  Notation bottom := (bottom K V cmp).
  Notation pairs := (pairs K V).
  Ltac inn := repeat (rewrite in_app_iff; cbn [In]); tauto.
  Ltac sets := repeat first [rewrite set_eq | rewrite set_ne by (auto; try lia)].
  Lemma aa_pos : forall t, aa t -> pos K V t.
  Proof. induction t as [|p lv l IHl x r IHr]; intros H; cbn in *; auto. destruct H as (A & B & C & _). auto. Qed.
  Lemma ok_E : forall h, null_ok h -> ok h E.
  Proof. intros h H. split; auto. split; [exact I|]. split; [constructor|exact I]. Qed.
  Lemma addr_ne : forall h t, ok h t -> t <> E -> (addr t =? null_node)%nat = false.
  Proof. intros h [|p lv l x r] H Hn; [congruence|]. apply ok_T in H. cbn. apply Nat.eqb_neq. unfold null_node. lia. Qed.

  (** ** Insertion *)
  Lemma insert_rec_ok : forall s t fuel k v pol, (height s < fuel)%nat -> ok (mem t) s -> (2 <= next t)%nat -> (forall q, In q (addrs s) -> (q < next t)%nat) ->
    let s' := insert_f K V cmp (next t) s k v pol in
    exists h' n', insert_rec K V cmp fuel t (addr s) k v pol = Ok (mkTree h' n' (root t) (count t + Z.of_nat (size s') - Z.of_nat (size s)), addr s') /\
      ok h' s' /\ (forall q, ~ In q (addrs s) -> q <> next t -> h' q = mem t q) /\ (next t <= n')%nat /\ (forall q, In q (addrs s') -> (q < n')%nat).
  Proof.
    assert (Sz : forall s, size (split_f K V (skew_f K V s)) = size s) by (intros s; rewrite !size_ents, split_ents, skew_ents; auto).
    assert (In' : forall a s k v pol q, In q (addrs (insert_f K V cmp a s k v pol)) -> In q (addrs s) \/ q = a).
    { intros a s k v pol q H. unfold Tree_Fun.addrs in H at 1. destruct (insert_ents K V cmp a s k v pol) as [G|(L & R & G1 & G2)]; [rewrite G in H; auto|]. rewrite G2 in H. rewrite G1. revert H. rewrite !in_app_iff. cbn [In]. intuition. }
    assert (Bd : forall t s k v pol, (forall q, In q (addrs s) -> (q < next t)%nat) -> forall n', (next t <= n')%nat -> (forall q, In q (addrs (insert_f K V cmp (next t) s k v pol)) -> (q < n')%nat) -> True) by auto.
    clear Bd. induction s as [|p lv l IHl x r IHr]; intros t fuel k v pol Hf H Hnx Hb; (destruct fuel as [|fuel]; [lia|]); cbn [insert_rec].
    - cbn [Tree_Heap.addr]. unfold null_node at 1. cbn [Nat.eqb]. destruct H as (N & _ & _ & _).
      assert (New : exists h' n', balance K V (mkTree (set K V (mem t) (next t) (mkN null_node null_node 0 (Some (k, v)))) (S (next t)) (root t) (count t + 1)) (next t) = Ok (mkTree h' n' (root t) (count t + 1), next t) /\
        ok h' (T (next t) 1 E (k, v) E) /\ (forall q, ~ In q (addrs E) -> q <> next t -> h' q = mem t q) /\ (next t <= n')%nat /\ (forall q, In q (addrs (T (next t) 1 E (k, v) E)) -> (q < n')%nat)).
      { assert (Nn : Tree_Heap.null_ok K V (mem t)) by auto. unfold Tree_Heap.null_ok in Nn. unfold balance, null_node, skew, ld. cbn [Tree_Model.mem]. sets. cbn [obind left]. sets. rewrite Nn. cbn [obind level]. rewrite Z.eqb_refl.
        unfold rotate_left_child, ld. sets. cbn [obind left]. sets. rewrite Nn. cbn [obind right]. unfold set_left, ld. sets. cbn [obind right level kv]. unfold set_right, ld. sets. rewrite Nn. cbn [obind left level kv fst snd].
        unfold split, ld. sets. cbn [obind right level]. sets. cbn [obind right level]. sets. cbn [obind level]. rewrite Z.eqb_refl.
        unfold rotate_right_child, ld. sets. cbn [obind right]. sets. cbn [obind left]. unfold set_right, ld. sets. cbn [obind left level kv]. unfold set_left, ld. sets. cbn [obind right level kv fst snd]. sets. cbn [obind]. unfold set_level, ld. sets. cbn [obind left right level kv fst snd]. unfold with_mem. cbn [Tree_Model.next Tree_Model.root Tree_Model.count].
        eexists. exists (S (next t)). split; [reflexivity|]. split; [|split; [|split]].
        - assert (N' : forall h : heap, h 1%nat = Some (mkN 1%nat 1%nat 0 None) -> null_ok h) by (intros; assumption). apply mk_ok.
          + apply N'. sets. auto.
          + auto.
          + sets. auto.
          + apply ok_E. apply N'. sets. auto.
          + apply ok_E. apply N'. sets. auto.
          + lia.
          + intros [].
          + intros [].
          + intros q [].
        - intros q _ Hq. destruct (Nat.eq_dec q 1) as [->|G]; sets; auto.
        - lia.
        - intros q [<-|[]]. cbn. lia. }
      cbn [insert_f]. destruct pol; cbv zeta.
      + cbn [Tree_Fun.size Tree_Heap.addr]. replace (count t + Z.of_nat (0 + 1) - Z.of_nat 0) with (count t + 1) by lia. exact New.
      + exists (mem t), (next t). cbn [Tree_Fun.size]. replace (count t + Z.of_nat 0 - Z.of_nat 0) with (count t) by lia. destruct t. split; auto. split; [apply ok_E; exact N|]. split; auto.
      + cbn [Tree_Fun.size Tree_Heap.addr]. replace (count t + Z.of_nat (0 + 1) - Z.of_nat 0) with (count t + 1) by lia. exact New.
    - pose proof (ok_T _ _ _ _ _ _ _ _ H) as (N & P2 & Hp & Hl & Hr & Hlv & Pl & Pr & Dj). cbn [Tree_Heap.addr]. replace (p =? null_node)%nat with false by (symmetry; apply Nat.eqb_neq; unfold null_node; lia).
      unfold key_of, ld. rewrite Hp. cbn [obind kv left right]. rewrite addrs_T in Hb. cbn [Tree_Fun.height] in Hf. cbv zeta. cbn [insert_f].
      assert (Pn : (p < next t)%nat) by (apply Hb; inn).
      destruct (cmp (fst x) k <? 0); [|destruct (0 <? cmp (fst x) k)].
      + edestruct (IHl t fuel k v pol) as (h1 & n1 & E1 & E2 & E3 & E4 & E5); auto; try lia. { intros q Hq. apply Hb. inn. }
        rewrite E1. cbn [obind fst snd Tree_Model.mem]. unfold set_left, ld. rewrite (E3 p Pl) by lia. rewrite Hp. cbn [obind right level kv]. unfold with_mem at 1. cbn [Tree_Model.next Tree_Model.root Tree_Model.count].
        set (l' := insert_f K V cmp (next t) l k v pol) in *. set (h2 := set K V h1 p _).
        assert (N2 : null_ok h2). { unfold h2, Tree_Heap.null_ok. rewrite set_ne by lia. apply E2. }
        assert (Al : forall q, In q (addrs l') -> In q (addrs l) \/ q = next t) by (intros q Q; eapply In'; exact Q).
        assert (O2 : ok h2 (T p lv l' x r)).
        { apply mk_ok; auto.
          - unfold h2. sets. auto.
          - eapply ok_ext; [exact E2|auto|]. intros q Hq. unfold h2. rewrite set_ne; auto. intros ->. apply Al in Hq. destruct Hq as [Hq|Hq]; [auto|lia].
          - eapply ok_ext; [exact Hr|auto|]. intros q Hq. assert (q < next t)%nat by (apply Hb; inn). unfold h2. rewrite set_ne by congruence. apply E3; [|lia]. intros Q. eapply Dj; eauto.
          - intros Q. apply Al in Q. destruct Q as [Q|Q]; [auto|lia].
          - intros q Q1 Q2. assert (q < next t)%nat by (apply Hb; inn). apply Al in Q1. destruct Q1 as [Q1|Q1]; [eapply Dj; eauto|lia]. }
        destruct (balance_does K V (mkTree h2 n1 (root t) (count t + Z.of_nat (size l') - Z.of_nat (size l))) (T p lv l' x r) O2 ltac:(discriminate)) as (h3 & F1 & F2 & F3). cbn [Tree_Heap.addr] in F1. rewrite F1. unfold with_mem. cbn [Tree_Model.next Tree_Model.root Tree_Model.count Tree_Model.mem] in *.
        exists h3, n1. split; [|split; [auto|split; [|split; [auto|]]]].
        * do 2 f_equal. rewrite Sz. cbn [Tree_Fun.size]. f_equal. lia.
        * intros q Q1 Q2. rewrite addrs_T in Q1. rewrite F3.
          -- unfold h2. rewrite set_ne; [apply E3; auto|]; [intros Q; apply Q1; inn|intros ->; apply Q1; inn].
          -- rewrite addrs_T. rewrite in_app_iff in *. cbn [In] in *. intros [Q|Q]; [apply Al in Q; tauto|tauto].
        * intros q Q. apply (same_ents K V _ (T p lv l' x r)) in Q; [|rewrite split_ents, skew_ents; auto]. rewrite addrs_T, in_app_iff in Q. cbn [In] in Q. destruct Q as [Q|[<-|Q]]; [auto|lia|]. assert (q < next t)%nat by (apply Hb; inn). lia.
      + edestruct (IHr t fuel k v pol) as (h1 & n1 & E1 & E2 & E3 & E4 & E5); auto; try lia. { intros q Hq. apply Hb. inn. }
        rewrite E1. cbn [obind fst snd Tree_Model.mem]. unfold set_right, ld. rewrite (E3 p Pr) by lia. rewrite Hp. cbn [obind left level kv]. unfold with_mem at 1. cbn [Tree_Model.next Tree_Model.root Tree_Model.count].
        set (r' := insert_f K V cmp (next t) r k v pol) in *. set (h2 := set K V h1 p _).
        assert (N2 : null_ok h2). { unfold h2, Tree_Heap.null_ok. rewrite set_ne by lia. apply E2. }
        assert (Al : forall q, In q (addrs r') -> In q (addrs r) \/ q = next t) by (intros q Q; eapply In'; exact Q).
        assert (O2 : ok h2 (T p lv l x r')).
        { apply mk_ok; auto.
          - unfold h2. sets. auto.
          - eapply ok_ext; [exact Hl|auto|]. intros q Hq. assert (q < next t)%nat by (apply Hb; inn). unfold h2. rewrite set_ne by congruence. apply E3; [|lia]. intros Q. eapply Dj; eauto.
          - eapply ok_ext; [exact E2|auto|]. intros q Hq. unfold h2. rewrite set_ne; auto. intros ->. apply Al in Hq. destruct Hq as [Hq|Hq]; [auto|lia].
          - intros Q. apply Al in Q. destruct Q as [Q|Q]; [auto|lia].
          - intros q Q1 Q2. assert (q < next t)%nat by (apply Hb; inn). apply Al in Q2. destruct Q2 as [Q2|Q2]; [eapply Dj; eauto|lia]. }
        destruct (balance_does K V (mkTree h2 n1 (root t) (count t + Z.of_nat (size r') - Z.of_nat (size r))) (T p lv l x r') O2 ltac:(discriminate)) as (h3 & F1 & F2 & F3). cbn [Tree_Heap.addr] in F1. rewrite F1. unfold with_mem. cbn [Tree_Model.next Tree_Model.root Tree_Model.count Tree_Model.mem] in *.
        exists h3, n1. split; [|split; [auto|split; [|split; [auto|]]]].
        * do 2 f_equal. rewrite Sz. cbn [Tree_Fun.size]. f_equal. lia.
        * intros q Q1 Q2. rewrite addrs_T in Q1. rewrite F3.
          -- unfold h2. rewrite set_ne; [apply E3; auto|]; [intros Q; apply Q1; inn|intros ->; apply Q1; inn].
          -- rewrite addrs_T. rewrite in_app_iff in *. cbn [In] in *. intros [Q|[Q|Q]]; [tauto|tauto|apply Al in Q; tauto].
        * intros q Q. apply (same_ents K V _ (T p lv l x r')) in Q; [|rewrite split_ents, skew_ents; auto]. rewrite addrs_T, in_app_iff in Q. cbn [In] in Q. destruct Q as [Q|[<-|Q]]; [|lia|auto]. assert (q < next t)%nat by (apply Hb; inn). lia.
      + assert (Same : exists h' n', Ok (t, p) = Ok (mkTree h' n' (root t) (count t + Z.of_nat (size (T p lv l x r)) - Z.of_nat (size (T p lv l x r))), addr (T p lv l x r)) /\
          ok h' (T p lv l x r) /\ (forall q, ~ In q (addrs (T p lv l x r)) -> q <> next t -> h' q = mem t q) /\ (next t <= n')%nat /\ (forall q, In q (addrs (T p lv l x r)) -> (q < n')%nat)).
        { exists (mem t), (next t). split; [|split; [auto|split; [auto|split; [auto|]]]].
          - replace (count t + Z.of_nat (size (T p lv l x r)) - Z.of_nat (size (T p lv l x r))) with (count t) by lia. destruct t; auto.
          - rewrite addrs_T. auto. }
        assert (Upd : exists h' n', (do h <- set_kv K V (mem t) p (Some (fst x, v)); Ok (with_mem K V t h, p)) = Ok (mkTree h' n' (root t) (count t + Z.of_nat (size (T p lv l (fst x, v) r)) - Z.of_nat (size (T p lv l x r))), addr (T p lv l (fst x, v) r)) /\
          ok h' (T p lv l (fst x, v) r) /\ (forall q, ~ In q (addrs (T p lv l x r)) -> q <> next t -> h' q = mem t q) /\ (next t <= n')%nat /\ (forall q, In q (addrs (T p lv l (fst x, v) r)) -> (q < n')%nat)).
        { unfold set_kv, ld. rewrite Hp. cbn [obind left right level]. eexists. exists (next t). split; [unfold with_mem; do 3 f_equal; cbn [Tree_Fun.size]; lia|]. split; [|split; [|split; [auto|]]].
          - assert (N2 : forall n, null_ok (set K V (mem t) p n)) by (intros n; unfold Tree_Heap.null_ok; rewrite set_ne by lia; apply N). apply mk_ok; auto.
            + sets. auto.
            + eapply ok_ext; [exact Hl|auto|]. intros q Hq. rewrite set_ne; auto. congruence.
            + eapply ok_ext; [exact Hr|auto|]. intros q Hq. rewrite set_ne; auto. congruence.
          - intros q Q _. rewrite addrs_T in Q. rewrite set_ne; auto. intros ->. apply Q. inn.
          - rewrite addrs_T. auto. }
        destruct pol; [exact Upd|exact Upd|exact Same].
  Qed.

  (** ** Removal *)
  Lemma setkv_lev : forall e y t, lev (setkv e y t) = lev t.
  Proof. intros e y [|p lv l x r]; auto. Qed.
  Lemma setkv_rt : forall e y t, rt (setkv e y t) = setkv e y (rt t).
  Proof. intros e y [|p lv l x r]; auto. Qed.
  Lemma setkv_addr : forall e y t, addr (setkv e y t) = addr t.
  Proof. intros e y [|p lv l x r]; auto. Qed.
  Lemma setkv_skew : forall e y t, setkv e y (skew_f K V t) = skew_f K V (setkv e y t).
  Proof. intros e y [|p lv [|q lq a z b] x r]; auto. cbn [skew_f Tree_Fun.setkv]. destruct (lq =? lv); auto. Qed.
  Lemma setkv_split : forall e y t, setkv e y (split_f K V t) = split_f K V (setkv e y t).
  Proof. intros e y [|p lv a x [|q lq b z [|s ls c w d]]]; auto. cbn [split_f Tree_Fun.setkv]. destruct (ls =? lv); auto. Qed.
  Lemma setkv_onright : forall e y f t, (forall u, setkv e y (f u) = f (setkv e y u)) -> setkv e y (onright K V f t) = onright K V f (setkv e y t).
  Proof. intros e y f [|p lv l x r] H; auto. cbn [onright Tree_Fun.setkv]. rewrite H. auto. Qed.
  Lemma setkv_lowered : forall e y t, setkv e y (lowered K V t) = lowered K V (setkv e y t).
  Proof. intros e y [|p lv l x r]; auto. cbn [lowered Tree_Fun.setkv]. rewrite setkv_lev. destruct (lv - 1 <? lev r); auto. destruct r; auto. Qed.
  Lemma setkv_triggers : forall e y t, triggers K V (setkv e y t) = triggers K V t.
  Proof. intros e y [|p lv l x r]; auto. cbn [triggers Tree_Fun.setkv]. rewrite !setkv_lev. auto. Qed.
  Lemma setkv_almost : forall e y t, setkv e y (split_f K V (onright K V (onright K V (skew_f K V)) (onright K V (skew_f K V) (skew_f K V (lowered K V t))))) = split_f K V (onright K V (onright K V (skew_f K V)) (onright K V (skew_f K V) (skew_f K V (lowered K V (setkv e y t))))).
  Proof.
    intros e y t. rewrite setkv_split, setkv_onright, setkv_onright, setkv_skew, setkv_lowered; auto; intros; [apply setkv_skew|apply setkv_onright; intros; apply setkv_skew].
  Qed.
  Lemma setkv_fix : forall e y t, setkv e y (fix_f K V t) = fix_f K V (setkv e y t).
  Proof.
    intros e y t. unfold fix_f. rewrite setkv_triggers. destruct (triggers K V t); auto. rewrite setkv_onright by (intros; apply setkv_split). rewrite setkv_almost. auto.
  Qed.
  Lemma setkv_E : forall e y t, setkv e y t = E -> t = E.
  Proof. intros e y [|p lv l x r] H; [auto|discriminate]. Qed.
  Lemma setkv_off : forall e y t, ~ In e (addrs t) -> setkv e y t = t.
  Proof.
    intros e y t. induction t as [|p lv l IHl x r IHr]; intros H; auto. rewrite addrs_T in H. cbn [Tree_Fun.setkv]. rewrite IHl, IHr by (intros Q; apply H; inn).
    replace (p =? e)%nat with false; auto. symmetry. apply Nat.eqb_neq. intros ->. apply H. inn.
  Qed.
  Lemma setkv_addrs : forall e y t, addrs (setkv e y t) = addrs t.
  Proof. intros e y t. unfold Tree_Fun.addrs. rewrite setkv_ents, map_map. apply map_ext. intros [a b]. cbn [fst]. destruct (a =? e)%nat; auto. Qed.
  Lemma cand_in : forall t k d, cand t k d = d \/ In (cand t k d) (addrs t).
  Proof.
    induction t as [|p lv l IHl x r IHr]; intros k d; cbn [Tree_Fun.cand]; auto. rewrite addrs_T. destruct (cmp (fst x) k <? 0).
    - destruct (IHl k d) as [H|H]; auto. right. inn.
    - right. destruct (IHr k p) as [H|H]; [rewrite H|]; inn.
  Qed.
  Lemma bottom_in : forall t k b y, bottom t k = Some (b, y) -> In b (addrs t).
  Proof.
    induction t as [|p lv l IHl x r IHr]; intros k b y H; [discriminate|]. cbn [Tree_Fun.bottom] in H. rewrite addrs_T. destruct (cmp (fst x) k <? 0).
    - destruct l; [inversion H; subst; inn|]. apply IHl in H. inn.
    - destruct r; [inversion H; subst; inn|]. apply IHr in H. inn.
  Qed.
  Lemma unlink_in : forall t k q, aa t -> In q (addrs (unlink t k)) -> In q (addrs t).
  Proof.
    intros t k q Ha H. destruct t as [|p lv l x r] eqn:Et; auto. rewrite <- Et in *. destruct (bottom_some K V cmp t k) as [e He]; [subst; discriminate|].
    destruct (unlink_ents K V cmp t k Ha e He) as (L & R & E1 & E2 & _). unfold Tree_Fun.addrs in *. rewrite E1. rewrite E2 in H. rewrite map_app in *. cbn [map]. revert H. rewrite !in_app_iff. cbn [In]. tauto.
  Qed.
  Lemma aa_calm : forall t, aa t -> triggers K V t = false.
  Proof. intros [|p lv l x r] H; auto. cbn [Tree_Fun.aa triggers] in *. apply orb_false_iff. rewrite !Z.ltb_ge. lia. Qed.
  Definition holds (h : heap) (e : nat) (x : K * V) : Prop := exists n, h e = Some n /\ kv K V n = Some x.

  Lemma remove_rec_ok : forall s t fuel k leaf erase b y, (height s < fuel)%nat -> ok (mem t) s -> aa s ->
    (erase = 1%nat \/ (2 <= erase)%nat /\ ~ In erase (addrs s) /\ exists x, holds (mem t) erase x) -> bottom s k = Some (b, y) ->
    let e := cand s k erase in let u := setkv e y (unlink s k) in
    (e <> 1%nat -> (exists x, holds (mem t) e x /\ cmp (fst x) k = 0) ->
      exists h', remove_rec K V cmp fuel t k (addr s) leaf erase = Ok (mkTree h' (next t) (root t) (count t - 1), addr u, 0%nat, 1%nat) /\
        ok h' u /\ (forall q, ~ In q (addrs s) -> q <> e -> h' q = mem t q) /\
        (~ In e (addrs s) -> forall n, mem t e = Some n -> h' e = Some (mkN (left K V n) (right K V n) (level K V n) (Some y)))) /\
    (e = 1%nat \/ (exists x, holds (mem t) e x /\ cmp (fst x) k <> 0) ->
      exists h', remove_rec K V cmp fuel t k (addr s) leaf erase = Ok (mkTree h' (next t) (root t) (count t), addr s, b, e) /\ forall q, h' q = mem t q).
  Proof.
    induction s as [|p lv l IHl x r IHr]; intros t fuel k leaf erase b y Hf H Ha He Hb; [discriminate|]. destruct fuel as [|fuel]; [lia|].
    pose proof (ok_T _ _ _ _ _ _ _ _ H) as (N & P2 & Hp & Hl & Hr & Hlv & Pl & Pr & Dj). cbn [Tree_Heap.addr remove_rec]. replace (p =? null_node)%nat with false by (symmetry; apply Nat.eqb_neq; unfold null_node; lia).
    unfold key_of, ld. rewrite Hp. cbn [obind kv left right]. cbn [Tree_Fun.height] in Hf. pose proof Ha as Ha'. cbn [Tree_Fun.aa] in Ha'. destruct Ha' as (_ & Hal & Har & Hll & Hlr & Hrr).
    cbn [Tree_Fun.cand Tree_Fun.bottom Tree_Fun.unlink] in *. rewrite !addrs_T. rewrite addrs_T in He. unfold Tree_Heap.null_ok in N.
    assert (Rec0 : forall lf er, remove_rec K V cmp fuel t k 1%nat lf er = Ok (t, 1%nat, lf, er)) by (intros; destruct fuel; [lia|reflexivity]).
    assert (Sm : forall q, set K V (mem t) p (mkN (addr l) (addr r) lv (Some x)) q = mem t q) by (intros q; destruct (Nat.eq_dec q p) as [->|G]; sets; auto).
    destruct (cmp (fst x) k <? 0) eqn:Ec.
    - destruct l as [|q0 lq0 a0 z0 b0] eqn:El.
      + inversion Hb; subst b y. clear Hb. cbn [Tree_Heap.addr]. rewrite Rec0. cbn [obind]. unfold set_left, ld. rewrite Hp. cbn [obind right level kv]. unfold with_mem. cbn [Tree_Model.mem Tree_Model.next Tree_Model.root Tree_Model.count Tree_Heap.addr Tree_Fun.cand] in *. rewrite Nat.eqb_refl. cbv zeta. cbn [Tree_Fun.cand].
        set (h1 := set K V (mem t) p _) in *. split.
        * intros G (xe & (ne & E1 & E2) & E3). destruct He as [He|(He & Ho & _)]; [congruence|]. replace (erase =? null_node)%nat with false by (symmetry; apply Nat.eqb_neq; auto).
          assert (Hpe : erase <> p) by (intros ->; apply Ho; inn).
          unfold key_of, ld. rewrite (Sm erase), E1. cbn [obind]. rewrite E2. cbn [obind]. rewrite E3. cbn [Z.eqb]. unfold swap, ld. rewrite (Sm erase), E1. cbn [obind]. rewrite (Sm p), Hp. cbn [obind kv]. unfold set_kv, ld. rewrite (Sm erase), E1. cbn [obind]. sets. rewrite (Sm p), Hp. cbn [obind left right level kv]. sets. cbn [obind right].
          unfold free_node, ld, with_mem. cbn [Tree_Model.mem Tree_Model.next Tree_Model.root Tree_Model.count]. sets. cbn [obind]. assert (Or : ~ In erase (addrs r)) by (intros Q; apply Ho; inn). rewrite setkv_off by auto.
          eexists. split; [reflexivity|]. split; [|split].
          -- eapply ok_ext; [exact Hr| |].
             ++ unfold Tree_Heap.null_ok. sets. rewrite Sm. auto.
             ++ intros q Hq. rewrite !set_ne by (intros ->; contradiction). apply Sm.
          -- intros q Q1 Q2. rewrite !set_ne; auto; intros ->; apply Q1; inn.
          -- intros _ n Hn. sets. try rewrite E1 in Hn. inversion Hn; subst. auto.
        * intros G. assert (Dec : (erase =? null_node)%nat = true \/ (erase =? null_node)%nat = false /\ exists xe ne, mem t erase = Some ne /\ kv K V ne = Some xe /\ cmp (fst xe) k <> 0).
          { destruct G as [G|(xe & (ne & E1 & E2) & E3)]; [left; subst; auto|]. destruct (Nat.eq_dec erase 1) as [->|G]; [left; auto|]. right. split; [apply Nat.eqb_neq; auto|]. eauto. }
          destruct Dec as [D|(D & xe & ne & E1 & E2 & E3)]; rewrite D.
          -- exists h1. destruct t. auto.
          -- unfold key_of, ld. rewrite (Sm erase), E1. cbn [obind]. rewrite E2. cbn [obind]. apply Z.eqb_neq in E3. rewrite E3. exists h1. auto.
      + rewrite <- El in *. assert (Nl : l <> E) by (subst; discriminate). cbv zeta. set (e := cand l k erase) in *.
        edestruct (IHl t fuel k p erase b y) as [F1 F2]; auto; try lia. { destruct He as [He|(A & B & C)]; auto. right. split; auto. split; auto. intros Q. apply B. inn. }
        cbv zeta in F1, F2. fold e in F1, F2.
        assert (Ep : e <> p). { unfold e. destruct (cand_in l k erase) as [->|Q]; [|congruence]. destruct He as [->|(A & B & _)]; [lia|]. intros ->. apply B. inn. }
        assert (Er : ~ In e (addrs r)). { unfold e. destruct (cand_in l k erase) as [->|Q]; [|intros Q2; apply (Dj _ Q Q2)]. destruct He as [->|(A & B & _)]; [|intros Q; apply B; inn]. intros Q. apply (rep_ge K V _ _ (proj1 (proj2 Hr))) in Q. lia. }
        assert (Bl : In b (addrs l)) by (eapply bottom_in; exact Hb).
        split.
        * intros G1 G2. destruct (F1 G1 G2) as (h1 & -> & A2 & A3 & A4). cbn [obind Tree_Model.mem]. unfold set_left, ld. rewrite (A3 p Pl) by auto. rewrite Hp. cbn [obind right level kv]. unfold with_mem. cbn [Tree_Model.mem Tree_Model.next Tree_Model.root Tree_Model.count].
          replace (0 =? p)%nat with false by (symmetry; apply Nat.eqb_neq; lia). unfold with_mem. cbn [Tree_Model.mem Tree_Model.next Tree_Model.root Tree_Model.count].
          set (u := setkv e y (unlink l k)) in *. set (h2 := set K V h1 p _).
          assert (N2 : null_ok h2) by (unfold h2, Tree_Heap.null_ok; rewrite set_ne by lia; apply A2).
          assert (Ul : forall q, In q (addrs u) -> In q (addrs l)). { intros q Q. unfold u in Q. rewrite setkv_addrs in Q. eapply unlink_in; eauto. }
          assert (O2 : ok h2 (T p lv u x r)).
          { apply mk_ok; auto.
            - unfold h2. sets. auto.
            - eapply ok_ext; [exact A2|auto|]. intros q Q. unfold h2. rewrite set_ne; auto. intros ->. auto.
            - eapply ok_ext; [exact Hr|auto|]. intros q Q. unfold h2. rewrite set_ne by congruence. apply A3; [intros Q2; apply (Dj q); auto|congruence].
            - intros q Q1 Q2. apply (Dj q); auto. }
          assert (Eu : T p lv u x r = setkv e y (T p lv (unlink l k) x r)).
          { cbn [Tree_Fun.setkv]. replace (p =? e)%nat with false by (symmetry; apply Nat.eqb_neq; auto). rewrite (setkv_off e y r) by auto. auto. }
          pose proof (fix_left K V p lv l x r (unlink l k) Ha (unlink_good K V cmp l k Hal Nl)) as [_ Trg].
          destruct (rebalance_does K V h2 (T p lv u x r) O2 ltac:(discriminate)) as (h3 & B1 & B2 & B3).
          { intros Q. rewrite Eu in Q |- *. rewrite setkv_triggers in Q. destruct (Trg Q) as [T1 T2]. split; [exact T1|]. rewrite <- setkv_almost, setkv_rt. intros Q2. apply setkv_E in Q2. auto. }
          cbn [Tree_Heap.addr] in B1. rewrite B1. cbn [obind fst snd]. unfold with_mem. cbn [Tree_Model.next Tree_Model.root Tree_Model.count].
          exists h3. rewrite El. cbn iota. rewrite <- El. rewrite setkv_fix, <- Eu. split; auto. split; auto. rewrite addrs_T in B3. split.
          -- intros q Q1 Q2. rewrite B3.
             ++ unfold h2. rewrite set_ne by (intros ->; apply Q1; inn). apply A3; auto. intros Q. apply Q1. inn.
             ++ intros Q. apply Q1. rewrite in_app_iff in *. cbn [In] in *. intuition.
          -- intros Q1 n Hn. rewrite B3.
             ++ unfold h2. rewrite set_ne by auto. apply A4; auto. intros Q. apply Q1. inn.
             ++ intros Q. apply Q1. rewrite in_app_iff in *. cbn [In] in *. intuition.
        * intros G. destruct (F2 G) as (h1 & -> & A2). cbn [obind Tree_Model.mem]. unfold set_left, ld. rewrite A2, Hp. cbn [obind right level kv]. unfold with_mem. cbn [Tree_Model.mem Tree_Model.next Tree_Model.root Tree_Model.count].
          replace (b =? p)%nat with false by (symmetry; apply Nat.eqb_neq; congruence). unfold with_mem. cbn [Tree_Model.mem Tree_Model.next Tree_Model.root Tree_Model.count].
          set (h2 := set K V h1 p _). assert (S2 : forall q, h2 q = mem t q). { intros q. unfold h2. destruct (Nat.eq_dec q p) as [->|Q]; sets; auto. }
          assert (O2 : ok h2 (T p lv l x r)). { eapply ok_ext; [exact H| |intros; apply S2]. unfold Tree_Heap.null_ok. rewrite S2. auto. }
          destruct (rebalance_does K V h2 (T p lv l x r) O2 ltac:(discriminate)) as (h3 & B1 & B2 & B3). { intros Q. rewrite aa_calm in Q by auto. discriminate. }
          unfold fix_f in B1, B2. rewrite aa_calm in B1, B2 by auto. cbn [Tree_Heap.addr] in B1. rewrite B1. cbn [obind fst snd]. unfold with_mem. cbn [Tree_Model.next Tree_Model.root Tree_Model.count]. exists h3. split; auto.
          intros q. destruct (in_dec Nat.eq_dec q (addrs (T p lv l x r))) as [Q|Q]; [|rewrite B3 by auto; apply S2].
          destruct B2 as (_ & B2 & _). destruct H as (_ & H & _). revert B2 H Q. generalize (T p lv l x r). clear. induction t0 as [|p lv l IHl x r IHr]; intros A B Q; [destruct Q|]. cbn [Tree_Heap.rep] in *. rewrite addrs_T, in_app_iff in Q. cbn [In] in Q. destruct A as (_ & A1 & A2 & A3), B as (_ & B1 & B2 & B3). destruct Q as [Q|[<-|Q]]; auto. congruence.
    - destruct r as [|q0 lq0 a0 z0 b0] eqn:El.
      + inversion Hb; subst b y. clear Hb. cbn [Tree_Heap.addr]. rewrite Rec0. cbn [obind]. unfold set_right, ld. rewrite Hp. cbn [obind left level kv]. unfold with_mem. cbn [Tree_Model.mem Tree_Model.next Tree_Model.root Tree_Model.count Tree_Heap.addr Tree_Fun.cand] in *. rewrite Nat.eqb_refl. cbv zeta. cbn [Tree_Fun.cand].
        set (h1 := set K V (mem t) p _) in *. assert (Hp1 : h1 p = mem t p) by apply Sm. replace (p =? null_node)%nat with false by (symmetry; apply Nat.eqb_neq; unfold null_node; lia). split.
        * intros G (xe & (ne & E1 & E2) & E3). rewrite Hp in E1. inversion E1; subst ne. cbn [kv] in E2. inversion E2; subst xe. clear E1 E2.
          unfold key_of, ld. rewrite Hp1, Hp. cbn [obind kv]. rewrite E3. cbn [Z.eqb]. unfold swap, ld. rewrite Hp1, Hp. cbn [obind kv]. unfold set_kv, ld. rewrite Hp1, Hp. cbn [obind left right level kv]. sets. cbn [obind left right level kv]. sets. cbn [obind right].
          unfold free_node, ld, with_mem. cbn [Tree_Model.mem Tree_Model.next Tree_Model.root Tree_Model.count]. sets. cbn [obind Tree_Fun.setkv Tree_Heap.addr].
          eexists. split; [reflexivity|]. split; [|split].
          -- apply ok_E. unfold Tree_Heap.null_ok. sets. rewrite Sm. auto.
          -- intros q Q1 Q2. rewrite !set_ne; auto; intros ->; apply Q1; inn.
          -- intros Q. exfalso. apply Q. inn.
        * intros G. destruct G as [G|(xe & (ne & E1 & E2) & E3)]; [lia|]. rewrite Hp in E1. inversion E1; subst ne. cbn [kv] in E2. inversion E2; subst xe.
          unfold key_of, ld. rewrite Hp1, Hp. cbn [obind kv]. apply Z.eqb_neq in E3. rewrite E3. exists h1. auto.
      + rewrite <- El in *. assert (Nr : r <> E) by (subst; discriminate). cbv zeta. set (e := cand r k p) in *.
        edestruct (IHr t fuel k p p b y) as [F1 F2]; auto; try lia. { right. split; auto. split; auto. exists x. eexists. split; [exact Hp|auto]. }
        cbv zeta in F1, F2. fold e in F1, F2.
        assert (Ep : e = p \/ In e (addrs r)) by apply cand_in.
        assert (El' : ~ In e (addrs l)). { destruct Ep as [->|Q]; auto. intros Q2. eapply Dj; eauto. }
        assert (Bl : In b (addrs r)) by (eapply bottom_in; exact Hb).
        split.
        * intros G1 G2. destruct (F1 G1 G2) as (h1 & -> & A2 & A3 & A4). cbn [obind Tree_Model.mem]. set (x' := if (p =? e)%nat then y else x).
          assert (Hp1 : h1 p = Some (mkN (addr l) (addr r) lv (Some x'))).
          { unfold x'. destruct (Nat.eqb_spec p e) as [Q|Q]; [|rewrite A3; auto]. rewrite <- Q in A4. rewrite (A4 Pr _ Hp). auto. }
          unfold set_right, ld. rewrite Hp1. cbn [obind left level kv]. unfold with_mem. cbn [Tree_Model.mem Tree_Model.next Tree_Model.root Tree_Model.count].
          replace (0 =? p)%nat with false by (symmetry; apply Nat.eqb_neq; lia). unfold with_mem. cbn [Tree_Model.mem Tree_Model.next Tree_Model.root Tree_Model.count].
          set (u := setkv e y (unlink r k)) in *. set (h2 := set K V h1 p _).
          assert (N2 : null_ok h2) by (unfold h2, Tree_Heap.null_ok; rewrite set_ne by lia; apply A2).
          assert (Ul : forall q, In q (addrs u) -> In q (addrs r)). { intros q Q. unfold u in Q. rewrite setkv_addrs in Q. eapply unlink_in; eauto. }
          assert (O2 : ok h2 (T p lv l x' u)).
          { apply mk_ok; auto.
            - unfold h2. sets. auto.
            - eapply ok_ext; [exact Hl|auto|]. intros q Q. unfold h2. rewrite set_ne by congruence. apply A3; [intros Q2; apply (Dj q); auto|congruence].
            - eapply ok_ext; [exact A2|auto|]. intros q Q. unfold h2. rewrite set_ne; auto. intros ->. auto.
            - intros q Q1 Q2. apply (Dj q); auto. }
          assert (Eu : T p lv l x' u = setkv e y (T p lv l x (unlink r k))).
          { cbn [Tree_Fun.setkv]. rewrite (setkv_off e y l) by auto. auto. }
          pose proof (fix_right K V p lv l x r (unlink r k) Ha (unlink_good K V cmp r k Har Nr)) as [_ Trg].
          destruct (rebalance_does K V h2 (T p lv l x' u) O2 ltac:(discriminate)) as (h3 & B1 & B2 & B3).
          { intros Q. rewrite Eu in Q |- *. rewrite setkv_triggers in Q. destruct (Trg Q) as [T1 T2]. split; [exact T1|]. rewrite <- setkv_almost, setkv_rt. intros Q2. apply setkv_E in Q2. auto. }
          cbn [Tree_Heap.addr] in B1. rewrite B1. cbn [obind fst snd]. unfold with_mem. cbn [Tree_Model.next Tree_Model.root Tree_Model.count].
          exists h3. rewrite El. cbn iota. rewrite <- El. rewrite setkv_fix, <- Eu. split; auto. split; auto. rewrite addrs_T in B3. split.
          -- intros q Q1 Q2. rewrite B3.
             ++ unfold h2. rewrite set_ne by (intros ->; apply Q1; inn). apply A3; auto. intros Q. apply Q1. inn.
             ++ intros Q. apply Q1. rewrite in_app_iff in *. cbn [In] in *. intuition.
          -- intros Q1. exfalso. apply Q1. destruct Ep as [->|Q]; inn.
        * intros G. destruct (F2 G) as (h1 & -> & A2). cbn [obind Tree_Model.mem]. unfold set_right, ld. rewrite A2, Hp. cbn [obind left level kv]. unfold with_mem. cbn [Tree_Model.mem Tree_Model.next Tree_Model.root Tree_Model.count].
          replace (b =? p)%nat with false by (symmetry; apply Nat.eqb_neq; congruence). unfold with_mem. cbn [Tree_Model.mem Tree_Model.next Tree_Model.root Tree_Model.count].
          set (h2 := set K V h1 p _). assert (S2 : forall q, h2 q = mem t q). { intros q. unfold h2. destruct (Nat.eq_dec q p) as [->|Q]; sets; auto. }
          assert (O2 : ok h2 (T p lv l x r)). { eapply ok_ext; [exact H| |intros; apply S2]. unfold Tree_Heap.null_ok. rewrite S2. auto. }
          destruct (rebalance_does K V h2 (T p lv l x r) O2 ltac:(discriminate)) as (h3 & B1 & B2 & B3). { intros Q. rewrite aa_calm in Q by auto. discriminate. }
          unfold fix_f in B1, B2. rewrite aa_calm in B1, B2 by auto. cbn [Tree_Heap.addr] in B1. rewrite B1. cbn [obind fst snd]. unfold with_mem. cbn [Tree_Model.next Tree_Model.root Tree_Model.count]. exists h3. split; auto.
          intros q. destruct (in_dec Nat.eq_dec q (addrs (T p lv l x r))) as [Q|Q]; [|rewrite B3 by auto; apply S2].
          destruct B2 as (_ & B2 & _). destruct H as (_ & H & _). revert B2 H Q. generalize (T p lv l x r). clear. induction t0 as [|p lv l IHl x r IHr]; intros A B Q; [destruct Q|]. cbn [Tree_Heap.rep] in *. rewrite addrs_T, in_app_iff in Q. cbn [In] in Q. destruct A as (_ & A1 & A2 & A3), B as (_ & B1 & B2 & B3). destruct Q as [Q|[<-|Q]]; auto. congruence.
  Qed.
End Proofs.
