(** The operations of Tree_Model on memory that represents a tree value. *)
Require Import Coq.ZArith.ZArith Coq.Lists.List Coq.Bool.Bool Coq.Arith.Arith Coq.micromega.Lia.
Require Import Verif.Base Verif.HashTable_Model Verif.Tree_Model Verif.Tree_Spec Verif.Tree_Fun.
Import ListNotations.
Local Open Scope Z_scope.
Arguments E {K V}.
Arguments T {K V} p lv l x r.
Arguments mkN {K V} left right level kv.
Arguments mkTree {K V} mem next root count.

Section Heap.
  Variables K V : Type.
  Variable cmp : K -> K -> Z.
  Notation tr := (tr K V).
  Notation heap := (heap K V).
  Notation tree := (tree K V).
  Notation ents := (ents K V).
  Notation addrs := (addrs K V).
  Notation lev := (lev K V).
  Notation rt := (rt K V).
  Notation mem := (mem K V).
  Definition addr (t : tr) : nat := match t with E => 1%nat | T p _ _ _ _ => p end.
  Fixpoint rep (h : heap) (t : tr) : Prop :=
    match t with
    | E => True
    | T p lv l x r => (2 <= p)%nat /\ h p = Some (mkN (addr l) (addr r) lv (Some x)) /\ rep h l /\ rep h r
    end.
  Definition null_ok (h : heap) : Prop := h 1%nat = Some (mkN 1%nat 1%nat 0 None).
  Fixpoint pos (t : tr) : Prop := match t with E => True | T _ lv l _ r => 1 <= lv /\ pos l /\ pos r end.
  Definition ok (h : heap) (t : tr) : Prop := null_ok h /\ rep h t /\ NoDup (addrs t) /\ pos t.

  Lemma addrs_T : forall p lv l x r, addrs (T p lv l x r) = addrs l ++ p :: addrs r.
  Proof. intros. unfold Tree_Fun.addrs. cbn [Tree_Fun.ents]. rewrite map_app. auto. Qed.
  Lemma rep_ge : forall h t, rep h t -> forall q, In q (addrs t) -> (2 <= q)%nat.
  Proof.
    induction t as [|p lv l IHl x r IHr]; intros H q Hq; [destruct Hq|]. cbn [rep] in H. destruct H as (A & _ & B & C). rewrite addrs_T in Hq. apply in_app_or in Hq. destruct Hq as [Hq|[<-|Hq]]; auto.
  Qed.
  Lemma rep_ext : forall h h' t, rep h t -> (forall q, In q (addrs t) -> h' q = h q) -> rep h' t.
  Proof.
    induction t as [|p lv l IHl x r IHr]; intros H G; [exact I|]. cbn [rep] in *. destruct H as (A & B & C & D). split; [auto|]. split; [rewrite G; auto; rewrite addrs_T; apply in_or_app; right; left; auto|].
    split; [apply IHl|apply IHr]; auto; intros q Hq; apply G; rewrite addrs_T; apply in_or_app; [left|right; right]; auto.
  Qed.
  Lemma addr_in : forall t, t <> E -> In (addr t) (addrs t).
  Proof. intros [|p lv l x r] H; [congruence|]. rewrite addrs_T. apply in_or_app. right. left. auto. Qed.
  Lemma nodup_T : forall p lv l x r, NoDup (addrs (T p lv l x r)) -> NoDup (addrs l) /\ NoDup (addrs r) /\ ~ In p (addrs l) /\ ~ In p (addrs r) /\ (forall q, In q (addrs l) -> In q (addrs r) -> False).
  Proof.
    intros p lv l x r H. rewrite addrs_T in H. pose proof (NoDup_remove_1 _ _ _ H) as A. pose proof (NoDup_remove_2 _ _ _ H) as B.
    assert (C : forall (a b : list nat), NoDup (a ++ b) -> NoDup a /\ NoDup b /\ forall q, In q a -> In q b -> False).
    { clear. induction a as [|y a IH]; intros b H; cbn in *.
      - split; [constructor|]. split; auto.
      - inversion H; subst. destruct (IH b H3) as (A & B & C). split; [constructor; auto; intros G; apply H2; apply in_or_app; auto|]. split; auto.
        intros q [->|Hq] Hb; [apply H2; apply in_or_app; auto|]. eapply C; eauto. }
    destruct (C _ _ A) as (D & F & G). split; auto. split; auto. split; [intros Q; apply B; apply in_or_app; auto|]. split; [intros Q; apply B; apply in_or_app; auto|]. auto.
  Qed.
  Lemma ok_T : forall h p lv l x r, ok h (T p lv l x r) ->
    null_ok h /\ (2 <= p)%nat /\ h p = Some (mkN (addr l) (addr r) lv (Some x)) /\ ok h l /\ ok h r /\ 1 <= lv /\ ~ In p (addrs l) /\ ~ In p (addrs r) /\ (forall q, In q (addrs l) -> In q (addrs r) -> False).
  Proof.
    intros h p lv l x r (A & B & C & D). cbn [rep pos] in *. apply nodup_T in C. unfold ok. tauto.
  Qed.
  Lemma mk_ok : forall h p lv l x r, null_ok h -> (2 <= p)%nat -> h p = Some (mkN (addr l) (addr r) lv (Some x)) -> ok h l -> ok h r -> 1 <= lv -> ~ In p (addrs l) -> ~ In p (addrs r) -> (forall q, In q (addrs l) -> In q (addrs r) -> False) -> ok h (T p lv l x r).
  Proof.
    intros h p lv l x r A B C (_ & D1 & D2 & D3) (_ & F1 & F2 & F3) G H I J. unfold ok. cbn [rep pos]. repeat split; auto. rewrite addrs_T.
    apply NoDup_Add with (a := p) (l := addrs l ++ addrs r). 
    - apply Add_app.
    - split.
      + clear - D2 F2 J. induction (addrs l) as [|a m IH]; cbn; auto. inversion D2; subst. constructor; [|apply IH; auto; intros q Q1 Q2; apply (J q); auto; right; auto].
        intros Q. apply in_app_or in Q. destruct Q; [contradiction|]. apply (J a); auto. left. auto.
      + intros Q. apply in_app_or in Q. tauto.
  Qed.
  Lemma ok_node : forall h t, ok h t -> exists n, h (addr t) = Some n /\ level K V n = lev t /\ right K V n = addr (rt t).
  Proof.
    intros h [|p lv l x r] H.
    - destruct H as (A & _). exists (mkN 1%nat 1%nat 0 None). auto.
    - apply ok_T in H. destruct H as (_ & _ & A & _). eexists. split; [exact A|]. auto.
  Qed.
  Lemma ok_ext : forall h h' t, ok h t -> null_ok h' -> (forall q, In q (addrs t) -> h' q = h q) -> ok h' t.
  Proof. intros h h' t (A & B & C & D) G H. split; auto. split; auto. eapply rep_ext; eauto. Qed.
  (** An operation on memory carries out an operation on trees, and touches nothing
      else. *)
  Definition does (h : heap) (t : tr) (o : outcome (heap * nat)) (t' : tr) : Prop :=
    exists h', o = Ok (h', addr t') /\ ok h' t' /\ (forall q, ~ In q (addrs t) -> h' q = h q).
  Lemma does_same : forall h t h', ok h t -> (forall q, h' q = h q) -> does h t (Ok (h', addr t)) t.
  Proof. intros h t h' H G. exists h'. split; auto. split; [|auto]. apply ok_ext with h; auto. unfold null_ok. rewrite G. apply H. Qed.
  Lemma set_eq : forall (h : heap) p n, set K V h p n p = Some n.
  Proof. intros. unfold set. rewrite Nat.eqb_refl. auto. Qed.
  Lemma set_ne : forall (h : heap) p n q, q <> p -> set K V h p n q = h q.
  Proof. intros. unfold set. apply Nat.eqb_neq in H. rewrite H. auto. Qed.
  Ltac inn := repeat (rewrite in_app_iff; cbn [In]); tauto.
  Ltac sets := repeat first [rewrite set_eq | rewrite set_ne by (auto; try lia)].
  Lemma one_off : forall h t, rep h t -> ~ In 1%nat (addrs t).
  Proof. intros h t H G. pose proof (rep_ge h t H _ G). lia. Qed.
  Lemma off_ne : forall (t : tr) p q, ~ In p (addrs t) -> In q (addrs t) -> q <> p.
  Proof. congruence. Qed.

  Lemma skew_does : forall h t, ok h t -> t <> E -> does h t (skew K V h (addr t)) (skew_f K V t).
  Proof.
    intros h [|p lv l x r] H Hn; [congruence|]. cbn [addr skew_f]. pose proof (ok_T _ _ _ _ _ _ H) as (N & P2 & Hp & Hl & Hr & Hlv & Pl & Pr & Dj).
    unfold skew, ld. rewrite Hp. cbn [obind left]. destruct l as [|q lq a y b].
    - cbn [addr]. rewrite N. cbn [obind level]. replace (0 =? lv) with false by (symmetry; apply Z.eqb_neq; lia). apply (does_same h (T p lv E x r)); auto.
    - cbn [addr]. pose proof (ok_T _ _ _ _ _ _ Hl) as (_ & Q2 & Hq & Ha & Hb & Hlq & Qa & Qb & Dq). rewrite Hq. cbn [obind level].
      destruct (lq =? lv) eqn:El; [|apply (does_same h (T p lv (T q lq a y b) x r)); auto].
      assert (Hpq : q <> p). { intros ->. apply Pl. rewrite addrs_T. apply in_or_app. right. left. auto. }
      unfold rotate_left_child, ld, set_left, set_right. rewrite Hp. cbn [obind left]. cbn [addr]. unfold ld. rewrite Hq. cbn [obind right]. rewrite Hp. cbn [obind right level kv]. sets. rewrite Hq. cbn [obind left level kv].
      eexists. split; [reflexivity|]. rewrite addrs_T in Pl. 
      assert (Ia : forall z, In z (addrs a) -> z <> p /\ z <> q). { intros z Hz. split; intros ->; [apply Pl; apply in_or_app|]; auto. }
      assert (Ib : forall z, In z (addrs b) -> z <> p /\ z <> q). { intros z Hz. split; intros ->; [apply Pl; apply in_or_app; right; right|]; auto. }
      assert (Ir : forall z, In z (addrs r) -> z <> p /\ z <> q). { intros z Hz. split; intros ->; auto. apply (Dj q); auto. rewrite addrs_T. apply in_or_app. right. left. auto. }
      set (h' := set K V _ _ _).
      assert (Hn' : null_ok h') by (unfold h', null_ok; sets; auto).
      split.
      + apply mk_ok; auto.
        * unfold h'. sets. auto.
        * eapply ok_ext; [exact Ha|auto|]. intros z Hz. apply Ia in Hz. unfold h'. sets; tauto.
        * apply mk_ok; auto.
          -- unfold h'. sets. auto.
          -- eapply ok_ext; [exact Hb|auto|]. intros z Hz. apply Ib in Hz. unfold h'. sets; tauto.
          -- eapply ok_ext; [exact Hr|auto|]. intros z Hz. apply Ir in Hz. unfold h'. sets; tauto.
          -- intros Q. apply Pl. apply in_or_app. right. right. auto.
          -- intros z Z1 Z2. apply (Dj z); auto. rewrite addrs_T. apply in_or_app. right. right. auto.
        * rewrite addrs_T. intros Q. apply in_app_or in Q. destruct Q as [Q|[Q|Q]]; auto. apply Ir in Q. tauto.
        * intros z Z1 Z2. rewrite addrs_T in Z2. apply in_app_or in Z2. destruct Z2 as [Z2|[Z2|Z2]].
          -- eapply Dq; eauto.
          -- apply Ia in Z1. symmetry in Z2. tauto.
          -- apply (Dj z); auto. rewrite addrs_T. apply in_or_app. auto.
      + intros z Hz. rewrite !addrs_T in Hz. unfold h'. rewrite !set_ne; auto; intros ->; apply Hz; inn.
  Qed.
  Lemma split_does : forall h t, ok h t -> t <> E -> does h t (split K V h (addr t)) (split_f K V t).
  Proof.
    intros h [|p lv a x t1] H Hn; [congruence|]. cbn [addr]. pose proof (ok_T _ _ _ _ _ _ H) as (N & P2 & Hp & Ha & Ht & Hlv & Pa & Pt & Dj).
    unfold split, ld. rewrite Hp. cbn [obind right level]. destruct t1 as [|q lq b y c].
    - cbn [addr]. rewrite N. cbn [obind right]. rewrite N. cbn [obind level]. replace (0 =? lv) with false by (symmetry; apply Z.eqb_neq; lia). apply (does_same h (T p lv a x E)); auto.
    - cbn [addr]. pose proof (ok_T _ _ _ _ _ _ Ht) as (_ & Q2 & Hq & Hb & Hc & Hlq & Qb & Qc & Dq). rewrite Hq. cbn [obind right].
      destruct c as [|s ls c z d].
      { cbn [addr]. rewrite N. cbn [obind level]. replace (0 =? lv) with false by (symmetry; apply Z.eqb_neq; lia). apply (does_same h (T p lv a x (T q lq b y E))); auto. }
      cbn [addr]. pose proof (ok_T _ _ _ _ _ _ Hc) as (_ & _ & Hs & _). rewrite Hs. cbn [obind level split_f].
      destruct (ls =? lv) eqn:El; [|apply (does_same h (T p lv a x (T q lq b y (T s ls c z d)))); auto].
      remember (T s ls c z d) as w eqn:Ew. clear Ew Hs El s ls c z d.
      assert (Hpq : q <> p). { intros ->. apply Pt. rewrite addrs_T. apply in_or_app. right. left. auto. }
      unfold rotate_right_child, ld, set_left, set_right. rewrite Hp. cbn [obind right]. cbn [addr]. unfold ld. rewrite Hq. cbn [obind left]. rewrite Hp. cbn [obind left level kv]. sets. rewrite Hq. cbn [obind right level kv fst snd]. unfold set_level, ld. sets. cbn [obind level left right kv]. sets. cbn [obind level left right kv].
      eexists. split; [reflexivity|]. rewrite addrs_T in Pt.
      assert (Ia : forall z, In z (addrs a) -> z <> p /\ z <> q). { intros z Hz. split; intros ->; auto. apply (Dj q); auto. rewrite addrs_T. apply in_or_app. right. left. auto. }
      assert (Ib : forall z, In z (addrs b) -> z <> p /\ z <> q). { intros z Hz. split; intros ->; [apply Pt; apply in_or_app|]; auto. }
      assert (Ic : forall z, In z (addrs w) -> z <> p /\ z <> q). { intros z Hz. split; intros ->; [apply Pt; apply in_or_app; right; right|]; auto. }
      set (h' := set K V _ _ _).
      assert (Hn' : null_ok h') by (unfold h', null_ok; sets; auto).
      split.
      + apply mk_ok; auto; try lia.
        * unfold h'. sets. auto.
        * apply mk_ok; auto.
          -- unfold h'. sets. auto.
          -- eapply ok_ext; [exact Ha|auto|]. intros z Hz. apply Ia in Hz. unfold h'. sets; tauto.
          -- eapply ok_ext; [exact Hb|auto|]. intros z Hz. apply Ib in Hz. unfold h'. sets; tauto.
          -- intros Q. apply Pt. apply in_or_app. left. auto.
          -- intros z Z1 Z2. apply (Dj z); auto. rewrite addrs_T. apply in_or_app. auto.
        * eapply ok_ext; [exact Hc|auto|]. intros z Hz. apply Ic in Hz. unfold h'. sets; tauto.
        * rewrite addrs_T. intros Q. apply in_app_or in Q. destruct Q as [Q|[Q|Q]]; auto. apply Ia in Q. tauto.
        * intros z Z1 Z2. rewrite addrs_T in Z1. apply in_app_or in Z1. destruct Z1 as [Z1|[Z1|Z1]].
          -- apply (Dj z); auto. rewrite addrs_T. apply in_or_app. right. right. auto.
          -- apply Ic in Z2. symmetry in Z1. tauto.
          -- eapply Dq; eauto.
      + intros z Hz. rewrite !addrs_T in Hz. unfold h'. rewrite !set_ne; auto; intros ->; apply Hz; inn.
  Qed.
  Lemma skew_null : forall h, null_ok h -> does h E (skew K V h 1%nat) E.
  Proof.
    intros h N. unfold skew, ld. rewrite N. cbn [obind left]. rewrite N. cbn [obind level]. rewrite Z.eqb_refl. unfold rotate_left_child, ld, set_left, set_right. rewrite N. cbn [obind left]. rewrite N. cbn [obind right]. unfold ld. rewrite N. cbn [obind right level kv]. sets. cbn [obind left level kv].
    assert (Q : forall q, set K V (set K V h 1 (mkN 1 1 0 None)) 1 (mkN 1 1 0 None) q = h q).
    { intros q. destruct (Nat.eq_dec q 1) as [->|G]; sets; auto. }
    eexists. split; [reflexivity|]. split; auto. split; [|split; [exact I|split; [constructor|exact I]]]. unfold null_ok. rewrite Q. auto.
  Qed.
  Lemma skew_any : forall h t, ok h t -> does h t (skew K V h (addr t)) (skew_f K V t).
  Proof. intros h [|p lv l x r] H; [apply skew_null; apply H|]. apply skew_does; auto. discriminate. Qed.
  Lemma at_right_does : forall f ff, (forall t, forall q, In q (addrs (ff t)) <-> In q (addrs t)) ->
    forall h t, ok h t -> (forall h, ok h (rt t) -> does h (rt t) (f h (addr (rt t))) (ff (rt t))) -> (t = E -> ff E = E) ->
    does h t (at_right K V f h (addr t)) (onright K V ff t).
  Proof.
    intros f ff A h [|p lv l x r] H Hf Hn.
    - cbn [Tree_Fun.rt addr onright] in *. destruct (Hf h H) as (h' & E1 & E2 & E3). rewrite Hn in * by auto. cbn [addr] in *. unfold at_right, ld. destruct H as (N & _). rewrite N. cbn [obind right]. rewrite E1. cbn [obind fst snd]. unfold set_right, ld.
      assert (N' : null_ok h') by apply E2. rewrite N'. cbn [obind left level kv]. eexists. split; [reflexivity|].
      assert (Q : forall q, set K V h' 1 (mkN 1 1 0 None) q = h q). { intros q. destruct (Nat.eq_dec q 1) as [->|G]; sets; auto. }
      split; auto. split; [unfold null_ok; rewrite Q; auto|split; [exact I|split; [constructor|exact I]]].
    - cbn [Tree_Fun.rt addr onright] in *. pose proof (ok_T _ _ _ _ _ _ H) as (N & P2 & Hp & Hl & Hr & Hlv & Pl & Pr & Dj). destruct (Hf h Hr) as (h' & E1 & E2 & E3). unfold at_right, ld. rewrite Hp. cbn [obind right]. rewrite E1. cbn [obind fst snd]. unfold set_right, ld. rewrite E3 by auto. rewrite Hp. cbn [obind left level kv].
      assert (N' : null_ok h') by apply E2. eexists. split; [reflexivity|].
      assert (N2 : forall n, null_ok (set K V h' p n)) by (intros n; unfold null_ok; sets; auto). split.
      + apply mk_ok; auto.
        * sets. auto.
        * eapply ok_ext; [exact Hl|auto|]. intros z Hz. rewrite set_ne by congruence. apply E3. intros Q. eapply Dj; eauto.
        * eapply ok_ext; [exact E2|auto|]. intros z Hz. rewrite set_ne; auto. intros ->. apply (A r) in Hz. auto.
        * intros Q. apply (A r) in Q. auto.
        * intros q Q1 Q2. apply (A r) in Q2. eapply Dj; eauto.
      + intros q Hq. rewrite addrs_T in Hq. rewrite set_ne. { apply E3. intros Q. apply Hq. apply in_or_app. right. right. auto. } intros ->. apply Hq. apply in_or_app. right. left. auto.
  Qed.
  Lemma does_bind : forall h t o t1 (g : heap * nat -> outcome (heap * nat)) t2, does h t o t1 -> (forall q, In q (addrs t1) <-> In q (addrs t)) ->
    (forall h', ok h' t1 -> does h' t1 (g (h', addr t1)) t2) -> does h t (do x <- o; g x) t2.
  Proof.
    intros h t o t1 g t2 (h' & -> & B & C) A D. destruct (D h' B) as (h2 & E1 & E2 & E3). exists h2. cbn [obind]. split; auto. split; auto. intros q Hq. rewrite E3, C; auto. rewrite A. auto.
  Qed.
  Lemma same_ents : forall t t' : tr, ents t = ents t' -> forall q, In q (addrs t) <-> In q (addrs t').
  Proof. intros t t' H q. unfold Tree_Fun.addrs. rewrite H. tauto. Qed.
  Lemma nodup_ents : forall t t' : tr, ents t = ents t' -> NoDup (addrs t) -> NoDup (addrs t').
  Proof. intros t t' H. unfold Tree_Fun.addrs. rewrite H. auto. Qed.

  Lemma rebalance_does : forall h t, ok h t -> t <> E ->
    (triggers K V t = true -> 2 <= lev t /\ rt (split_f K V (onright K V (onright K V (skew_f K V)) (onright K V (skew_f K V) (skew_f K V (lowered K V t))))) <> E) ->
    does h t (rebalance K V h (addr t)) (fix_f K V t).
  Proof.
    intros h [|p lv l x r] H Hn Htr; [congruence|]. cbn [addr]. pose proof (ok_T _ _ _ _ _ _ H) as (N & P2 & Hp & Hl & Hr & Hlv & Pl & Pr & Dj).
    destruct (ok_node h l Hl) as (nl & L1 & L2 & _). destruct (ok_node h r Hr) as (nr & R1 & R2 & _).
    unfold rebalance, ld. rewrite Hp. cbn [obind left right level]. rewrite L1. cbn [obind]. rewrite R1. cbn [obind]. rewrite L2, R2.
    unfold fix_f. cbn [triggers] in *. destruct ((lev l <? lv - 1) || (lev r <? lv - 1))%bool.
    2:{ apply (does_same h (T p lv l x r)); auto. }
    destruct (Htr eq_refl) as [Hlv2 Hrt]. cbn [Tree_Fun.lev] in Hlv2. unfold set_level at 1, ld. rewrite Hp. cbn [obind left right level kv].
    set (h1 := set K V h p (mkN (addr l) (addr r) (lv - 1) (Some x))).
    assert (N1 : null_ok h1) by (unfold h1, null_ok; sets; auto).
    assert (R1' : h1 (addr r) = Some nr).
    { unfold h1. destruct r as [|s ls b z c]; [cbn [addr]; sets; auto|]. rewrite set_ne; auto. intros G. apply Pr. rewrite <- G. apply addr_in. discriminate. }
    rewrite R1'. cbn [obind]. rewrite R2.
    assert (Low : exists h2, (if lv - 1 <? lev r then set_level K V h1 (addr r) (lv - 1) else Ok h1) = Ok h2 /\ ok h2 (lowered K V (T p lv l x r)) /\ (forall q, ~ In q (addrs (T p lv l x r)) -> h2 q = h q)).
    { cbn [lowered]. 
      assert (Hl1 : ok h1 l). { eapply ok_ext; [exact Hl|auto|]. intros z Hz. unfold h1. rewrite set_ne; auto. congruence. }
      assert (Hr1 : ok h1 r). { eapply ok_ext; [exact Hr|auto|]. intros z Hz. unfold h1. rewrite set_ne; auto. congruence. }
      destruct (lv - 1 <? lev r) eqn:Elr.
      - destruct r as [|s ls b z c]; [cbn [Tree_Fun.lev] in Elr; apply Z.ltb_lt in Elr; lia|]. cbn [addr withlev]. unfold set_level, ld. pose proof (ok_T _ _ _ _ _ _ Hr1) as (_ & S2 & Hs & Hb & Hc & Hls & Sb & Sc & Ds). rewrite Hs. cbn [obind left right kv].
        eexists. split; [reflexivity|]. set (h2 := set K V h1 s _). assert (N2 : null_ok h2) by (unfold h2, null_ok; sets; auto).
        assert (Hsp : s <> p). { intros ->. apply Pr. rewrite addrs_T. apply in_or_app. right. left. auto. }
        assert (Sl : ~ In s (addrs l)). { intros Q. apply (Dj s); auto. rewrite addrs_T. apply in_or_app. right. left. auto. }
        split.
        + apply mk_ok; auto; try lia.
          * unfold h2, h1. sets. auto.
          * eapply ok_ext; [exact Hl1|auto|]. intros u Hu. unfold h2. rewrite set_ne; auto. congruence.
          * apply mk_ok; auto; try lia.
            -- unfold h2. sets. auto.
            -- eapply ok_ext; [exact Hb|auto|]. intros u Hu. unfold h2. rewrite set_ne; auto. congruence.
            -- eapply ok_ext; [exact Hc|auto|]. intros u Hu. unfold h2. rewrite set_ne; auto. congruence.
        + intros u Hu. rewrite !addrs_T in Hu. unfold h2, h1. rewrite !set_ne; auto; intros ->; apply Hu; inn.
      - exists h1. split; auto. split.
        + apply mk_ok; auto; try lia. unfold h1. sets. auto.
        + intros u Hu. unfold h1. rewrite set_ne; auto. intros ->. apply Hu. rewrite addrs_T. apply in_or_app. right. left. auto. }
    destruct Low as (h2 & -> & Hlow & Fr). cbn [obind]. clear R1' R1 L1 L2 R2. revert Hrt Hlow.
    remember (lowered K V (T p lv l x r)) as t1 eqn:E1. intros Hrt Hlow.
    assert (Aq : addr t1 = p) by (subst t1; reflexivity). assert (N1' : t1 <> E) by (subst t1; discriminate).
    assert (Ad : forall q, In q (addrs t1) <-> In q (addrs (T p lv l x r))). { apply same_ents. subst t1. apply (lowered_ents K V). }
    rewrite <- Aq. clear E1.
    assert (G : does h2 t1 (do x0 <- skew K V h2 (addr t1); do x1 <- at_right K V (skew K V) (fst x0) (snd x0); do x2 <- at_right K V (at_right K V (skew K V)) (fst x1) (snd x1); do x3 <- split K V (fst x2) (snd x2); at_right K V (split K V) (fst x3) (snd x3))
       (onright K V (split_f K V) (split_f K V (onright K V (onright K V (skew_f K V)) (onright K V (skew_f K V) (skew_f K V t1)))))).
    { assert (Sq : forall (t : tr) q, In q (addrs (skew_f K V t)) <-> In q (addrs t)) by (intros t; apply same_ents; apply skew_ents).
      assert (Oq : forall (t : tr) q, In q (addrs (onright K V (skew_f K V) t)) <-> In q (addrs t)) by (intros t; apply same_ents; apply onright_ents; apply skew_ents).
      assert (OOq : forall (t : tr) q, In q (addrs (onright K V (onright K V (skew_f K V)) t)) <-> In q (addrs t)) by (intros t; apply same_ents; apply onright_ents; intros; apply onright_ents; apply skew_ents).
      assert (Pq : forall (t : tr) q, In q (addrs (split_f K V t)) <-> In q (addrs t)) by (intros t; apply same_ents; apply split_ents).
      assert (Ne : forall t : tr, t <> E -> skew_f K V t <> E).
      { intros [|? ? [|? ? ? ? ?] ? ?] Q; auto. cbn [skew_f]. destruct (_ =? _); discriminate. }
      assert (Nr : forall f (t : tr), t <> E -> onright K V f t <> E) by (intros f [|? ? ? ? ?] Q; [congruence|discriminate]).
      assert (Np : forall t : tr, t <> E -> split_f K V t <> E).
      { intros [|? ? ? ? [|? ? ? ? [|? ? ? ? ?]]] Q; auto; try discriminate. cbn [split_f]. destruct (_ =? _); discriminate. }
      eapply does_bind; [apply skew_any; auto|apply Sq|]. intros h3 H3. cbn [fst snd].
      eapply does_bind; [apply at_right_does with (ff := skew_f K V); auto; intros; apply skew_any; auto|apply Oq|]. intros h4 H4. cbn [fst snd].
      eapply does_bind; [apply at_right_does with (ff := onright K V (skew_f K V)); auto|apply OOq|].
      { intros h5 H5. apply at_right_does; auto. intros; apply skew_any; auto. }
      intros h5 H5. cbn [fst snd]. eapply does_bind; [apply split_does; auto|apply Pq|]. intros h6 H6. cbn [fst snd].
      apply at_right_does; auto. intros h7 H7. apply split_does; auto. }
    destruct G as (h' & G1 & G2 & G3). exists h'. split; auto. split; auto. intros q Hq. rewrite Aq in Hq. rewrite G3 by (rewrite Ad; exact Hq). apply Fr. exact Hq.
  Qed.

  Lemma balance_does : forall t s, ok (mem t) s -> s <> E ->
    exists h', balance K V t (addr s) = Ok (with_mem K V t h', addr (split_f K V (skew_f K V s))) /\ ok h' (split_f K V (skew_f K V s)) /\ (forall q, ~ In q (addrs s) -> h' q = mem t q).
  Proof.
    intros t s H Hn. unfold balance. destruct (skew_does _ s H Hn) as (h1 & -> & B & C). cbn [obind fst snd]. 
    assert (Ne : skew_f K V s <> E). { destruct s as [|? ? [|? ? ? ? ?] ? ?]; auto. cbn [skew_f]. destruct (_ =? _); discriminate. }
    destruct (split_does _ _ B Ne) as (h2 & -> & D & F). cbn [obind fst snd]. exists h2. split; auto. split; auto. intros q Hq. rewrite F, C; auto. intros Q. apply Hq. revert Q. apply same_ents. symmetry. apply skew_ents.
  Qed.
End Heap.
