(** Proofs about classes: every call, and every history. *)
Require Import Coq.NArith.NArith Coq.Lists.List Coq.Arith.Arith Coq.Bool.Bool Coq.micromega.Lia.
Require Import Verif.Base Verif.Class_Model Verif.Class_Spec Verif.Class_Proofs.
Require Verif.HashTable_Model Verif.HashTable_Spec Verif.HashTable_Proofs Verif.HashTable_Probe.
Import ListNotations.

Section Steps.
Variable hash : text -> N.
Notation good := (Class_Proofs.good hash).
Notation named_by := (Class_Proofs.named_by hash).

(** A new object. *)
Definition grow (w : world) (x : cell) : world := mkW (heap w ++ [x]) (names w).
Lemma grow_cell : forall w x j p, is_cell (grow w x) j p <-> is_cell w j p \/ (j = length (heap w) /\ p = x).
Proof.
  intros w x j p. unfold is_cell, grow. cbn [heap]. destruct (Nat.lt_ge_cases j (length (heap w))) as [H|H].
  - rewrite nth_error_app1 by exact H. split; [auto|]. intros [A|[A _]]; [exact A|lia].
  - rewrite nth_error_app2 by exact H. destruct (Nat.eq_dec j (length (heap w))) as [->|Hne].
    + rewrite Nat.sub_diag. cbn [nth_error]. split; [intros A; injection A as ->; auto|]. intros [A|[_ ->]]; [|reflexivity]. assert (length (heap w) < length (heap w)) by (apply nth_error_Some; congruence). lia.
    + replace (nth_error [x] (j - length (heap w))) with (@None cell); [|symmetry; apply nth_error_None; cbn; lia]. split; [discriminate|]. intros [A|[A _]]; [|lia]. assert (j < length (heap w)) by (apply nth_error_Some; congruence). lia.
Qed.
Lemma edges_range : forall w l i, counts w l -> In i (edges (heap w)) -> i < length (heap w).
Proof.
  intros w l i H Hi. apply edge_from in Hi. destruct Hi as (j & o & Hj & Hi). unfold cell_edges in Hi. destruct (live o) eqn:L; [|destruct Hi]. destruct Hi as [<-|Hi].
  - destruct (i_isa w l H j o Hj L) as (p & k & Hp & _). now apply in_range in Hp.
  - destruct (what o) as [k|] eqn:W; [|destruct Hi]. cbn [super_list] in Hi. destruct (csuper k) as [s|] eqn:Es; [|destruct Hi]. destruct Hi as [<-|[]]. destruct (i_super w l H j o k s Hj L W Es) as (_ & p & k' & Hp & _). now apply in_range in Hp.
Qed.
Lemma not_in_cnt : forall i l, ~ In i l -> cnt i l = 0.
Proof. intros i l H. destruct (cnt i l) eqn:E; [reflexivity|]. exfalso. apply H. apply cnt_in. lia. Qed.
Lemma grow_counts : forall w l c ct k, counts w (c :: super_list k ++ l) -> is_class w c -> (forall s, In s (super_list k) -> is_class w s) ->
  counts (grow w (mkCell c 1 ct k)) (length (heap w) :: l).
Proof.
  intros w l c ct k H Hc Hs. set (x := mkCell c 1 ct k). assert (Lx : live x = true) by (unfold live; cbn; apply orb_true_r).
  assert (E : forall j, cnt j (edges (heap (grow w x))) = cnt j (edges (heap w)) + cnt j (c :: super_list k)).
  { intros j. unfold grow. cbn [heap]. rewrite edges_app, cnt_app. f_equal. unfold edges. cbn [flat_map]. rewrite app_nil_r. unfold cell_edges. rewrite Lx. reflexivity. }
  assert (Fresh : cnt (length (heap w)) (c :: super_list k ++ l) = 0) by (apply not_in_cnt; intros A; apply (i_in w _ H) in A; lia).
  assert (Fresh2 : cnt (length (heap w)) (edges (heap w)) = 0) by (apply not_in_cnt; intros A; apply (edges_range w _ _ H) in A; lia).
  constructor.
  - intros i o Hi Ho. rewrite E. rewrite !cnt_cons. apply grow_cell in Hi. destruct Hi as [Hi|[-> ->]].
    + rewrite (i_refs w _ H i o Hi Ho), cnt_cons, cnt_app. replace (i =? length (heap w)) with false; [lia|]. symmetry. apply Nat.eqb_neq. apply in_range in Hi. lia.
    + rewrite Nat.eqb_refl. rewrite cnt_cons, cnt_app in Fresh. cbn [refs x]. lia.
  - intros i Hi. unfold grow. cbn [heap]. rewrite app_length. cbn. destruct Hi as [<-|Hi]; [lia|]. assert (i < length (heap w)); [|lia]. apply (i_in w _ H). right. apply in_or_app. now right.
  - intros j o Hj Hl. apply grow_cell in Hj. destruct Hj as [Hj|[-> ->]].
    + destruct (i_isa w _ H j o Hj Hl) as (p & k' & Hp & R). exists p, k'. split; [apply grow_cell; now left|exact R].
    + destruct Hc as (p & k' & Hp & _ & Hk). exists p, k'. split; [apply grow_cell; now left|]. split; [exact Hk|]. intros _. now apply in_range in Hp.
  - intros j o k0 s Hj Hl Hw Hsup. apply grow_cell in Hj. destruct Hj as [Hj|[-> ->]].
    + destruct (i_super w _ H j o k0 s Hj Hl Hw Hsup) as (Hlt & p & k' & Hp & Hk). split; [exact Hlt|]. exists p, k'. split; [apply grow_cell; now left|exact Hk].
    + cbn [what x] in Hw. subst k. destruct (Hs s) as (p & k' & Hp & _ & Hk); [cbn [super_list]; rewrite Hsup; now left|]. split; [now apply in_range in Hp|]. exists p, k'. split; [apply grow_cell; now left|exact Hk].
Qed.
Lemma grow_named : forall w x j n, live x = true -> (named (grow w x) j n <-> named w j n \/ (j = length (heap w) /\ exists k, what x = Some k /\ cname k = Some n)).
Proof.
  intros w x j n Hl. split.
  - intros (o & k & Ho & L & W & Hn). apply grow_cell in Ho. destruct Ho as [Ho|[-> ->]]; [left; exists o, k; auto|right; eauto].
  - intros [(o & k & Ho & L & W & Hn)|[-> (k & W & Hn)]]; [exists o, k; split; [apply grow_cell; now left|auto]|exists x, k; split; [apply grow_cell; now right|auto]].
Qed.

(** Retaining. *)
Lemma retain_class : forall w i w' j, retain w i = Ok w' -> is_class w j -> is_class w' j.
Proof.
  intros w i w' j H (o & k & Hj & Hl & Hk). unfold retain in H. destruct (get w i) as [p| | |] eqn:E; try discriminate H. cbn [obind] in H. injection H as <-. apply get_inv in E. destruct E as [Hi Hlp]. destruct (counted p); [|exists o, k; auto].
  destruct (Nat.eq_dec j i) as [->|Hne].
  - assert (o = p) by (unfold is_cell in *; congruence). subst o. exists (with_refs p (S (refs p))), k. split; [apply (put_cell w i p i _ Hi); auto|]. split; [apply with_refs_live; [exact Hlp|lia]|exact Hk].
  - exists o, k. split; [apply (put_cell w i p j _ Hi); auto|auto].
Qed.
Lemma retain_ok : forall w i, exists_ w i -> exists w', retain w i = Ok w'.
Proof. intros w i (o & Hi & Hl). unfold retain. rewrite (get_live w i o Hi Hl). cbn [obind]. eauto. Qed.
Lemma retain_names : forall w i w', retain w i = Ok w' -> names w' = names w.
Proof. intros w i w' H. unfold retain in H. destruct (get w i) as [p| | |]; try discriminate H. cbn [obind] in H. injection H as <-. destruct (counted p); reflexivity. Qed.
Lemma retain_shape : forall w i w', retain w i = Ok w' -> shape w' = shape w.
Proof. intros w i w' H. unfold retain in H. destruct (get w i) as [p| | |] eqn:E; try discriminate H. cbn [obind] in H. injection H as <-. apply get_inv in E. destruct E as [Hi _]. destruct (counted p); [now apply shape_put|reflexivity]. Qed.
Lemma retain_named : forall w i w', retain w i = Ok w' -> forall j n, named w' j n <-> named w j n.
Proof.
  intros w i w' H j n. unfold retain in H. destruct (get w i) as [p| | |] eqn:E; try discriminate H. cbn [obind] in H. injection H as <-. apply get_inv in E. destruct E as [Hi Hl]. destruct (counted p); [|reflexivity]. apply named_refs; [exact Hi|exact Hl|lia].
Qed.
Lemma retain_nameless : forall w i w', retain w i = Ok w' -> forall j, nameless w' j -> nameless w j.
Proof.
  intros w i w' H j. unfold retain in H. destruct (get w i) as [p| | |] eqn:E; try discriminate H. cbn [obind] in H. injection H as <-. apply get_inv in E. destruct E as [Hi Hl]. destruct (counted p); [|auto]. now apply nameless_put.
Qed.
Lemma class_of_get : forall w i k, get_class w i = Ok k -> is_class w i.
Proof. intros w i k H. apply class_inv in H. destruct H as (o & A & B & C). exists o, k. auto. Qed.

(** Allocating. *)
Lemma alloc_inv : forall w c k w' i, alloc w c k = Ok (w', i) -> exists kc w1, get_class w c = Ok kc /\ abstract kc = false /\ retain w c = Ok w1 /\ w' = grow w1 (mkCell c 1 (negb (uncounted kc)) k) /\ i = length (heap w1).
Proof.
  intros w c k w' i H. unfold alloc in H. destruct (get_class w c) as [kc| | |] eqn:E; try discriminate H. cbn [obind] in H. destruct (abstract kc) eqn:Ea; [discriminate H|]. destruct (retain w c) as [w1| | |] eqn:Er; try discriminate H. cbn [obind] in H.
  destruct (classes_of w1 c); try discriminate H. cbn [obind] in H. injection H as <- <-. exists kc, w1. auto.
Qed.
Lemma alloc_good : forall w l c w' i, good w l -> alloc w c None = Ok (w', i) -> good w' (i :: l).
Proof.
  intros w l c w' i Hg H. apply alloc_inv in H. destruct H as (kc & w1 & Hk & _ & Hr & -> & ->). destruct (retain_good hash w l c w1 Hg Hr) as [C N]. split.
  - apply grow_counts; [exact C| |intros s []]. apply (retain_class w c w1); [exact Hr|]. now apply class_of_get in Hk.
  - apply (named_by_same hash w1); [reflexivity| |exact N]. intros j n. rewrite grow_named by (unfold live; cbn; apply orb_true_r). cbn [what]. split; [|auto]. intros [A|(_ & k & A & _)]; [exact A|discriminate A].
Qed.
Lemma insert_named : forall w n i w', named_by w -> insert_name hash w (Some n) i = Ok w' ->
  (forall j, ~ named w j n) /\ heap w' = heap w /\ exists m, HashTable_Proofs.refines text nat hash text_eqb (names w') m /\ forall x j, In (x, j) m <-> named w j x \/ (x = n /\ j = i).
Proof.
  intros w n i w' (m & Hm & Hn) H. cbn [insert_name] in H. destruct (ht_insert hash (names w) n i HashTable_Model.InsertIfNotFound) as [[t b]| | |] eqn:E; try discriminate H. cbn [obind fst snd] in H. destruct b; [|discriminate H]. injection H as <-.
  destruct (HashTable_Proofs.insert_refines text nat hash text_eqb equiv (respects hash) (names w) m n i HashTable_Model.InsertIfNotFound t true Hm E) as [Hr Hb].
  destruct (HashTable_Spec.amap_get text nat text_eqb m n) eqn:G; [discriminate Hb|].
  assert (Hno : forall j, ~ named w j n). { intros j A. apply Hn in A. apply (in_get hash _ m n _ Hm) in A. rewrite G in A. discriminate A. }
  split; [exact Hno|]. split; [reflexivity|]. eexists. split; [exact Hr|]. intros x j. cbn [HashTable_Proofs.amap_insert]. unfold HashTable_Spec.amap_add. rewrite G. cbn [In]. rewrite <- Hn. split.
  - intros [A|A]; [injection A as <- <-; auto|auto].
  - intros [A|[-> ->]]; auto.
Qed.
Lemma new_class_inv : forall w n s pre abs unc imm w' i, new_class hash w n s pre abs unc imm = Ok (w', i) ->
  exists w1 w2 ct, (forall s', s = Some s' -> exists k, get_class w s' = Ok k /\ prevent k = false) /\ retain_opt w s = Ok w1 /\ is_class w1 1 /\ retain w1 1 = Ok w2 /\ i = length (heap w2) /\
    insert_name hash (grow w2 (mkCell 1 1 ct (Some (mkCls n s pre abs unc imm)))) n i = Ok w'.
Proof.
  intros w n s pre abs unc imm w' i H. unfold new_class in H.
  destruct (match s with Some s0 => do k <- get_class w s0; Ok (prevent k) | None => Ok false end) as [p| | |] eqn:Ep; try discriminate H. cbn [obind] in H. destruct p; [discriminate H|].
  destruct (retain_opt w s) as [w1| | |] eqn:E1; try discriminate H. cbn [obind] in H. destruct (alloc w1 class_class (Some (mkCls n s pre abs unc imm))) as [[w3 j]| | |] eqn:E2; try discriminate H. cbn [obind fst snd] in H.
  destruct (insert_name hash w3 n j) as [w4| | |] eqn:E3; try discriminate H. cbn [obind] in H. injection H as <- <-. apply alloc_inv in E2. destruct E2 as (kc & w2 & Hk & _ & Hr & -> & ->). exists w1, w2, (negb (uncounted kc)).
  split. { intros s' ->. destruct (get_class w s') as [k| | |]; try discriminate Ep. cbn [obind] in Ep. injection Ep as Ep. eauto. }
  split; [reflexivity|]. split; [now apply class_of_get in Hk|]. auto.
Qed.
Lemma new_class_good : forall w l n s pre abs unc imm w' i, good w l -> new_class hash w n s pre abs unc imm = Ok (w', i) -> good w' (i :: l).
Proof.
  intros w l n s pre abs unc imm w' i Hg H. apply new_class_inv in H. destruct H as (w1 & w2 & ct & Hs & H1 & Hc & H2 & -> & H3).
  set (x := mkCell 1 1 ct (Some (mkCls n s pre abs unc imm))) in *. assert (Lx : live x = true) by (unfold live; cbn; apply orb_true_r).
  assert (G1 : good w1 (super_list (what x) ++ l)). { cbn [what x super_list csuper]. destruct s as [s|]; cbn [retain_opt] in H1; [now apply (retain_good hash w l s)|injection H1 as <-; exact Hg]. }
  assert (G2 : good w2 (1 :: super_list (what x) ++ l)) by now apply (retain_good hash w1).
  assert (C : counts (grow w2 x) (length (heap w2) :: l)).
  { apply grow_counts; [apply G2|now apply (retain_class w1 1)|]. intros s' A. apply (retain_class w1 1); [exact H2|]. cbn [super_list csuper] in A. destruct s as [s|]; [|destruct A]. destruct A as [->|[]]. cbn [retain_opt] in H1. destruct (Hs s' eq_refl) as (k & Hk & _). apply (retain_class w s'); [exact H1|]. now apply class_of_get in Hk. }
  destruct n as [n|].
  - assert (N2 : forall j y, named (grow w2 x) j y <-> named w2 j y \/ (j = length (heap w2) /\ y = n)).
    { intros j y. rewrite (grow_named w2 x j y Lx). cbn [what x]. split; (intros [A|[-> A]]; [now left|right; split; [reflexivity|]]). - destruct A as (k & E1 & E2). injection E1 as <-. cbn in E2. congruence. - subst y. eexists. split; reflexivity. }
    cbn [insert_name] in H3. change (names (grow w2 x)) with (names w2) in H3.
    destruct (ht_insert hash (names w2) n (length (heap w2)) HashTable_Model.InsertIfNotFound) as [[t b]| | |] eqn:E; try discriminate H3. cbn [obind fst snd] in H3. destruct b; [|discriminate H3]. injection H3 as <-.
    destruct (insert_named w2 n (length (heap w2)) (mkW (heap w2) t)) as (_ & _ & m & Hm & Hin); [apply G2|cbn [insert_name]; rewrite E; reflexivity|].
    split; [exact (counts_names _ _ t C)|]. exists m. split; [exact Hm|]. intros y j. rewrite Hin.
    assert (ND : named {| heap := heap (grow w2 x); names := t |} j y <-> named (grow w2 x) j y) by reflexivity. rewrite ND, N2. tauto.
  - cbn [insert_name] in H3. injection H3 as <-. split; [exact C|]. apply (named_by_same hash w2); [reflexivity| |apply G2]. intros j y. rewrite (grow_named w2 x j y Lx). cbn [what x]. split; [|auto]. intros [A|(_ & k & A & B)]; [exact A|]. injection A as <-. discriminate B.
Qed.

(** The classes of the runtime. *)
Lemma statics_counts : counts (mkW statics HashTable_Model.table_init) [8; 9].
Proof.
  constructor.
  - intros i o Hi Ho. unfold is_cell in Hi. cbn [heap] in *. do 10 (destruct i as [|i]; [cbn in Hi; injection Hi as <-; cbn in Ho; try discriminate Ho; reflexivity|]). destruct i; discriminate Hi.
  - intros i [<-|[<-|[]]]; cbn; lia.
  - intros j o Hj _. unfold is_cell in *. cbn [heap] in *. do 10 (destruct j as [|j]; [cbn in Hj; injection Hj as <-; cbn; eexists; eexists; split; [reflexivity|]; split; [reflexivity|]; cbn; (discriminate || lia)|]). destruct j; discriminate Hj.
  - intros j o k s Hj _ Hw Hs. unfold is_cell in *. cbn [heap] in *. do 10 (destruct j as [|j]; [cbn in Hj; injection Hj as <-; cbn in Hw; injection Hw as <-; cbn in Hs; first [discriminate Hs|injection Hs as <-; split; [lia|eexists; eexists; split; reflexivity]]|]). destruct j; discriminate Hj.
Qed.
Lemma statics_nameless : forall i, i < 10 -> nameless (mkW statics HashTable_Model.table_init) i.
Proof. intros i H. unfold nameless, is_cell. cbn [heap]. do 10 (destruct i as [|i]; [eexists; eexists; repeat split; reflexivity|]). lia. Qed.
(** The class of classes can be allocated. *)
Definition fixed (w : world) : Prop := exists o k, is_cell w 1 o /\ counted o = false /\ what o = Some k /\ abstract k = false.
Lemma fixed_shape : forall w w', shape w' = shape w -> fixed w -> fixed w'.
Proof. intros w w' E (o & k & Ho & Hc & Hw & Ha). destruct (shape_cell w w' 1 o E Ho) as (o' & Ho' & _ & E1 & E2). exists o', k. rewrite E1, E2. auto. Qed.
Lemma fixed_grow : forall w x, fixed w -> fixed (grow w x).
Proof. intros w x (o & k & Ho & H). exists o, k. split; [apply grow_cell; now left|exact H]. Qed.

Lemma set_name_good : forall w l i n w', good w l -> fixed w -> nameless w i -> set_name hash w i n = Ok w' -> good w' l /\ fixed w' /\ forall j, j <> i -> nameless w j -> nameless w' j.
Proof.
  intros w l i n w' [Hc Hn] Hf (o & k & Hi & Hl & Hw & Hk) H. unfold set_name in H. rewrite (get_live w i o Hi Hl), (class_live w i o k Hi Hl Hw) in H. cbn [obind] in H.
  set (o' := mkCell (isa o) (refs o) (counted o) (Some (mkCls (Some n) (csuper k) (prevent k) (abstract k) (uncounted k) (immutable k)))) in *.
  assert (Ho' : live o' = live o) by reflexivity. assert (Hse : cell_edges o' = cell_edges o) by (unfold cell_edges; rewrite Ho', Hw; reflexivity).
  set (w1 := put w i o') in *.
  assert (B : forall j p, is_cell w1 j p -> exists p', is_cell w j p' /\ live p = live p' /\ isa p = isa p' /\ counted p = counted p' /\ refs p = refs p' /\ super_list (what p) = super_list (what p') /\ (what p = None <-> what p' = None)).
  { intros j p Hp. apply (put_cell w i o j p Hi) in Hp. destruct Hp as [[-> ->]|[_ Hp]]; [|exists p; repeat split; auto]. exists o. rewrite Hw. cbn. repeat split; auto; discriminate. }
  assert (C : forall j p', is_cell w j p' -> (exists k', what p' = Some k') -> exists p k', is_cell w1 j p /\ what p = Some k' /\ counted p = counted p').
  { intros j p' Hp (k' & Hk'). destruct (Nat.eq_dec j i) as [->|Hne].
    - assert (p' = o) by (unfold is_cell in *; congruence). subst p'. exists o'. eexists. split; [apply (put_cell w i o i _ Hi); auto|split; reflexivity].
    - exists p', k'. split; [apply (put_cell w i o j _ Hi); auto|auto]. }
  assert (C1 : counts w1 l).
  { constructor.
    - intros j p Hp Hcp. destruct (B j p Hp) as (p' & Hp' & E1 & E2 & E3 & E4 & _). rewrite E4. rewrite E3 in Hcp. rewrite (i_refs w l Hc j p' Hp' Hcp). f_equal. unfold w1, put. cbn [heap]. pose proof (edges_upd j i (heap w) o o' Hi) as X. rewrite Hse in X. lia.
    - intros j Hj. unfold w1, put. cbn [heap]. rewrite upd_len. now apply (i_in w l Hc).
    - intros j p Hp Hlp. destruct (B j p Hp) as (p' & Hp' & E1 & E2 & E3 & E4 & _). rewrite E1 in Hlp. destruct (i_isa w l Hc j p' Hp' Hlp) as (q & k' & Hq & Hk' & Hlt). rewrite E2. destruct (C _ _ Hq) as (q' & k'' & Hq' & F1 & F2); [eauto|]. exists q', k''. rewrite F2. auto.
    - intros j p k0 s Hp Hlp Hwp Hs. destruct (B j p Hp) as (p' & Hp' & E1 & E2 & E3 & E4 & E5 & _). rewrite E1 in Hlp. rewrite Hwp in E5. cbn [super_list] in E5. rewrite Hs in E5. destruct (what p') as [k1|] eqn:W; [|discriminate E5]. cbn [super_list] in E5. destruct (csuper k1) as [s'|] eqn:Es; [|discriminate E5]. injection E5 as <-.
      destruct (i_super w l Hc j p' k1 s Hp' Hlp W Es) as (Hlt & q & k' & Hq & Hk'). split; [exact Hlt|]. destruct (C _ _ Hq) as (q' & k'' & Hq' & F1 & F2); [eauto|]. exists q', k''. auto. }
  assert (N1 : forall j x, named w1 j x <-> named w j x \/ (x = n /\ j = i)).
  { intros j x. split.
    - intros (p & k0 & Hp & Hlp & Hwp & Hx). apply (put_cell w i o j p Hi) in Hp. destruct Hp as [[-> ->]|[_ Hp]]; [|left; exists p, k0; auto]. right. cbn [what o'] in Hwp. injection Hwp as <-. cbn in Hx. split; congruence.
    - intros [(p & k0 & Hp & Hlp & Hwp & Hx)|[-> ->]].
      + destruct (Nat.eq_dec j i) as [->|Hne]; [unfold is_cell in *; congruence|]. exists p, k0. split; [apply (put_cell w i o j _ Hi); auto|auto].
      + exists o'. eexists. split; [apply (put_cell w i o i _ Hi); auto|]. split; [exact Hl|]. split; reflexivity. }
  cbn [insert_name] in H. change (names w1) with (names w) in H.
  destruct (ht_insert hash (names w) n i HashTable_Model.InsertIfNotFound) as [[t b]| | |] eqn:E; try discriminate H. cbn [obind fst snd] in H. destruct b; [|discriminate H]. injection H as <-.
  destruct (insert_named w n i (mkW (heap w) t)) as (_ & _ & m & Hm & Hin); [exact Hn|cbn [insert_name]; rewrite E; reflexivity|].
  split; [split; [exact (counts_names _ _ t C1)|]|split].
  - exists m. split; [exact Hm|]. intros x j. rewrite Hin. rewrite <- N1. reflexivity.
  - destruct Hf as (p & kp & Hp & Hcp & Hwp & Hap). destruct (Nat.eq_dec 1 i) as [<-|Hne].
    + assert (p = o) by (unfold is_cell in *; congruence). subst p. exists o'. eexists. split; [apply (put_cell w 1 o 1 o' Hi); auto|]. split; [exact Hcp|]. split; [reflexivity|]. cbn. congruence.
    + exists p, kp. split; [apply (put_cell w i o 1 p Hi); auto|auto].
  - intros j Hne (p & kp & Hp & R). exists p, kp. split; [apply (put_cell w i o j p Hi); auto|exact R].
Qed.
Lemma set_names_good : forall ns w l w', good w l -> fixed w -> NoDup (map fst ns) -> (forall i, In i (map fst ns) -> nameless w i) -> set_names hash w ns = Ok w' -> good w' l /\ fixed w'.
Proof.
  induction ns as [|[i n] ns IH]; intros w l w' Hg Hf Hnd Hn H; cbn [set_names] in H; [injection H as <-; auto|]. destruct (set_name hash w i n) as [w1| | |] eqn:E; try discriminate H. cbn [obind] in H. cbn [map fst] in *. inversion Hnd as [|? ? Hni Hnd']; subst.
  destruct (set_name_good w l i n w1 Hg Hf) as (G & F & R); [apply Hn; now left|exact E|]. apply (IH w1 l w' G F Hnd'); [|exact H]. intros j Hj. apply R; [intros ->; contradiction|]. apply Hn. now right.
Qed.
Lemma init_good : forall w, runtime_init hash = Ok w -> good w [8; 9] /\ fixed w.
Proof.
  intros w H. unfold runtime_init in H. revert H. apply set_names_good.
  - split; [exact statics_counts|]. exists []. split; [apply HashTable_Proofs.refines_init|]. intros n i. split; [intros []|]. intros (o & k & Ho & _ & Hw & Hk). destruct (statics_nameless i) as (o' & k' & Ho' & _ & Hw' & Hk'); [apply in_range in Ho; exact Ho|]. unfold is_cell in *. congruence.
  - eexists. eexists. repeat split; reflexivity.
  - cbn. repeat constructor; cbn; intuition discriminate.
  - intros i Hi. apply statics_nameless. cbn in Hi. lia.
Qed.

(** Every history. *)
Lemma cnt_drop_app : forall i j c r, In j c -> cnt i (j :: drop j c ++ r) = cnt i (c ++ r).
Proof. intros i j c r H. rewrite cnt_cons, !cnt_app. pose proof (cnt_drop i j c H). lia. Qed.
Theorem reach_good : forall w c, reach hash w c -> good w (c ++ [8; 9]) /\ fixed w.
Proof.
  intros w c H. induction H as [w H|w c n s pre abs unc imm w' i _ [IH F] H|w c k w' i _ [IH F] H|w c i w' r _ [IH F] H|w c i w' r _ [IH F] Hi H].
  - now apply init_good.
  - cbn [step] in H. destruct (new_class hash w n s pre abs unc imm) as [[w1 j]| | |] eqn:E; try discriminate H. cbn [obind fst snd] in H. injection H as <- <-. split; [now apply (new_class_good w _ n s pre abs unc imm)|].
    apply new_class_inv in E. destruct E as (w2 & w3 & ct & _ & H1 & _ & H2 & _ & H3). assert (F3 : fixed w3).
    { apply (fixed_shape w2); [now apply (retain_shape w2 1)|]. destruct s as [s|]; cbn [retain_opt] in H1; [|injection H1 as <-; exact F]. apply (fixed_shape w); [now apply (retain_shape w s)|exact F]. }
    assert (E : heap w1 = heap (grow w3 (mkCell 1 1 ct (Some (mkCls n s pre abs unc imm))))). { destruct n as [nm|]; cbn [insert_name] in H3; [|injection H3 as <-; reflexivity]. destruct (ht_insert _ _ _ _ _) as [[tb b]| | |]; try discriminate H3. cbn [obind fst snd] in H3. destruct b; [|discriminate H3]. injection H3 as <-. reflexivity. }
    apply (fixed_shape (grow w3 (mkCell 1 1 ct (Some (mkCls n s pre abs unc imm))))); [unfold shape; now rewrite E|now apply fixed_grow].
  - cbn [step] in H. destruct (alloc w k None) as [[w1 j]| | |] eqn:E; try discriminate H. cbn [obind fst snd] in H. injection H as <- <-. split; [now apply (alloc_good w _ k)|]. apply alloc_inv in E. destruct E as (kc & w2 & _ & _ & H1 & -> & _). apply fixed_grow. apply (fixed_shape w); [now apply (retain_shape w k)|exact F].
  - cbn [step] in H. destruct (retain w i) as [w1| | |] eqn:E; try discriminate H. cbn [obind] in H. injection H as <- _. split; [now apply (retain_good hash w _ i)|]. apply (fixed_shape w); [now apply (retain_shape w i)|exact F].
  - cbn [step] in H. destruct (release hash (S (length (heap w))) w i) as [w1| | |] eqn:E; try discriminate H. cbn [obind] in H. injection H as <- _. split.
    + apply (release_good hash (S (length (heap w))) w (drop i c ++ [8; 9]) i w1); [|exact E]. apply (good_ext hash w (c ++ [8; 9])); [intros j; symmetry; now apply cnt_drop_app|exact IH].
    + apply (fixed_shape w); [now apply release_shape in E|exact F].
Qed.

(** ** Lifetimes *)
Theorem lifetimes : forall w c i, reach hash w c -> (exists_ w i <-> held w c i).
Proof.
  intros w c i H. apply reach_good in H. destruct H as [[Hc _] _]. split.
  - assert (P : forall n i, length (heap w) - i <= n -> exists_ w i -> held w c i).
    { induction n as [|n IH]; intros j Hn (o & Hj & Hl); pose proof (in_range w j o Hj) as R; [lia|]. destruct (counted o) eqn:Ec; [|now apply (forever w c j o)].
      assert (0 < refs o) by (unfold live in Hl; rewrite Ec in Hl; cbn [negb orb] in Hl; now apply Nat.ltb_lt in Hl). rewrite (i_refs w _ Hc j o Hj Ec), cnt_app in H.
      destruct (Nat.eq_dec (cnt j c) 0) as [E0|E0]; [|apply by_client; apply cnt_in; lia]. destruct (Nat.eq_dec (cnt j [8; 9]) 0) as [E1|E1]; [|apply by_runtime; apply cnt_in; lia].
      assert (In j (edges (heap w))) as X by (apply cnt_in; lia). apply edge_from in X. destruct X as (i' & p & Hp & X). unfold cell_edges in X. destruct (live p) eqn:Lp; [|destruct X]. pose proof (in_range w i' p Hp) as R'. destruct X as [X|X].
      - destruct (i_isa w _ Hc i' p Hp Lp) as (q & k & Hq & _ & Hlt). rewrite X in *. assert (q = o) by (unfold is_cell in *; congruence). subst q. specialize (Hlt Ec). apply (by_instance w c j i'); [apply IH; [lia|exists p; auto]|exists p; auto].
      - destruct (what p) as [k|] eqn:W; [|destruct X]. cbn [super_list] in X. destruct (csuper k) as [s|] eqn:Es; [|destruct X]. destruct X as [->|[]]. destruct (i_super w _ Hc i' p k j Hp Lp W Es) as [Hlt _]. apply (by_subclass w c j i'); [apply IH; [lia|exists p; auto]|exists p, k; auto]. }
    apply (P (length (heap w))). lia.
  - intros Hh. induction Hh as [i Hi|i Hi|i o Hi Ho|i j _ _ (o & Hj & Hl & <-)|i j _ _ (o & k & Hj & Hl & Hw & Hs)].
    + apply (owned_live w _ i Hc). apply in_or_app. now left.
    + apply (owned_live w _ i Hc). apply in_or_app. now right.
    + exists o. split; [exact Hi|]. unfold live. now rewrite Ho.
    + destruct (isa_live w _ j o Hc Hj Hl) as (p & k & Hp & Hlp & _). exists p. auto.
    + destruct (super_live w _ j o k i Hc Hj Hl Hw Hs) as (_ & p & k' & Hp & Hlp & _). exists p. auto.
Qed.
(** The class of an object and the superclass of a class are classes. *)
Theorem classes : forall w c i k, reach hash w c -> instance_of w i k \/ subclass_of w i k -> is_class w k.
Proof.
  intros w c i k H X. apply reach_good in H. destruct H as [[Hc _] _]. destruct X as [(o & Hi & Hl & <-)|(o & k0 & Hi & Hl & Hw & Hs)].
  - destruct (isa_live w _ i o Hc Hi Hl) as (p & k' & Hp & Hlp & Hk & _). exists p, k'. auto.
  - destruct (super_live w _ i o k0 k Hc Hi Hl Hw Hs) as (_ & p & k' & Hp & Hlp & Hk). exists p, k'. auto.
Qed.

(** ** Names *)
Theorem names_unique : forall w c i j n, reach hash w c -> named w i n -> named w j n -> i = j.
Proof. intros w c i j n H. apply reach_good in H. destruct H as [[_ Hn] _]. now apply (named_unique hash). Qed.
Lemma lookup_ok : forall t m n, HashTable_Proofs.refines text nat hash text_eqb t m -> ~ (HashTable_Model.rowCount t = 25 /\ HashTable_Model.activeCount t + HashTable_Model.deletedCount t = 11)%N -> exists r, ht_lookup hash t n = Ok r.
Proof.
  intros t m n [Hm _] Ha. destruct (HashTable_Probe.step_ok text nat hash text_eqb equiv (respects hash) t (HashTable_Model.OpGet n) Hm Ha) as [(r & X)|(X & _)]; cbn [HashTable_Model.step] in X; fold (ht_lookup hash) in X; change (HashTable_Model.lookup text nat hash text_eqb t n) with (ht_lookup hash t n) in X.
  - destruct (ht_lookup hash t n); try discriminate X. eauto.
  - exfalso. unfold ht_lookup, HashTable_Model.lookup in X. destruct (0 <? HashTable_Model.activeCount t)%N; [|discriminate X]. destruct (HashTable_Model.rows t); [|discriminate X].
    destruct (HashTable_Model.find text nat hash text_eqb l (HashTable_Model.rowCount t) n) as [[x st]| | |] eqn:E; try discriminate X; [|exact (HashTable_Proofs.find_not_fatal text nat hash text_eqb l (HashTable_Model.rowCount t) n E)]. destruct st; cbn in X; try discriminate X. destruct (HashTable_Model.row_at text nat l x) as [[]|]; discriminate X.
Qed.
Theorem by_name : forall w c n r, reach hash w c -> class_from_string hash w n = Ok r -> forall i, r = Some i <-> named w i n.
Proof.
  intros w c n r H E. apply reach_good in H. destruct H as [[_ Hn] _]. unfold class_from_string in E. destruct (ht_lookup hash (names w) n) as [x| | |] eqn:El; try discriminate E. cbn [obind] in E. injection E as <-. intros i. now apply (lookup_named hash w n x).
Qed.
Theorem by_name_ok : forall w c n, reach hash w c -> ~ tight w -> exists r, class_from_string hash w n = Ok r.
Proof.
  intros w c n H Ha. apply reach_good in H. destruct H as [[_ (m & Hm & _)] _]. destruct (lookup_ok (names w) m n Hm) as (r & E); [exact Ha|]. unfold class_from_string. rewrite E. cbn [obind]. eauto.
Qed.

(** ** Ancestry *)
Lemma meets_spec : forall w c, reach hash w c -> forall fuel i k b, meets fuel w (Some i) k = Ok b -> (b = true <-> inherits w i k).
Proof.
  intros w c H. induction fuel as [|fuel IH]; intros i k b E; cbn [meets] in E; destruct (i =? k) eqn:Ei.
  - apply Nat.eqb_eq in Ei. subst k. injection E as <-. split; [intros _; apply same|reflexivity].
  - discriminate E.
  - apply Nat.eqb_eq in Ei. subst k. injection E as <-. split; [intros _; apply same|reflexivity].
  - apply Nat.eqb_neq in Ei. destruct (get_class w i) as [ki| | |] eqn:Ek; try discriminate E. cbn [obind] in E. apply class_inv in Ek. destruct Ek as (o & Hi & Hl & Hw). destruct (csuper ki) as [s|] eqn:Es.
    + rewrite (IH s k b E). split.
      * intros X. apply (up w i s k); [exists o, ki; auto|exact X].
      * intros X. inversion X as [|? s' ? (o' & k' & Hi' & _ & Hw' & Hs') X']; subst; [congruence|]. assert (s' = s) by (unfold is_cell in *; congruence). now subst.
    + assert (b = false) as -> by (destruct fuel; cbn [meets] in E; congruence). split; [discriminate|]. intros X. inversion X as [|? s' ? (o' & k' & Hi' & _ & Hw' & Hs') X']; subst; [congruence|]. unfold is_cell in *. congruence.
Qed.
Lemma meets_ok : forall w l, counts w l -> forall fuel i k, is_class w i -> i < fuel -> exists b, meets fuel w (Some i) k = Ok b.
Proof.
  intros w l H. induction fuel as [|fuel IH]; intros i k (o & ki & Hi & Hl & Hw) Hf; [lia|]. cbn [meets]. destruct (i =? k); [eauto|]. rewrite (class_live w i o ki Hi Hl Hw). cbn [obind]. destruct (csuper ki) as [s|] eqn:Es.
  - destruct (super_live w l i o ki s H Hi Hl Hw Es) as (Hlt & p & k' & Hp & Hlp & Hk). apply IH; [exists p, k'; auto|lia].
  - destruct fuel; cbn [meets]; eauto.
Qed.
Theorem kinds : forall w c i k cl, reach hash w c -> instance_of w i cl -> exists b, is_kind w i k = Ok b /\ (b = true <-> inherits w cl k).
Proof.
  intros w c i k cl H (o & Hi & Hl & <-). unfold is_kind. rewrite (get_live w i o Hi Hl). cbn [obind]. destruct (reach_good w c H) as [[Hc _] _]. destruct (isa_live w _ i o Hc Hi Hl) as (p & k' & Hp & Hlp & Hk & _).
  destruct (meets_ok w _ Hc (length (heap w)) (isa o) k) as (b & E); [exists p, k'; auto|now apply in_range in Hp|]. exists b. split; [exact E|]. now apply (meets_spec w c H) in E.
Qed.
Theorem subclasses : forall w c i k, reach hash w c -> is_class w i -> exists b, is_subclass w i k = Ok b /\ (b = true <-> inherits w i k).
Proof.
  intros w c i k H Hi. assert (Hi' := Hi). destruct Hi' as (o & ki & Ho & Hl & Hw). unfold is_subclass. rewrite (class_live w i o ki Ho Hl Hw). cbn [obind]. destruct (reach_good w c H) as [[Hc _] _]. destruct (meets_ok w _ Hc (length (heap w)) i k Hi) as (b & E); [now apply in_range in Ho|]. exists b. split; [exact E|]. now apply (meets_spec w c H) in E.
Qed.
Lemma inherits_trans : forall w i j k, inherits w i j -> inherits w j k -> inherits w i k.
Proof. intros w i j k H. induction H as [|i s j Hs _ IH]; intros X; [exact X|]. apply (up w i s k Hs). auto. Qed.
Lemma inherits_le : forall w c i j, reach hash w c -> inherits w i j -> j <= i.
Proof.
  intros w c i j H X. apply reach_good in H. destruct H as [[Hc _] _]. induction X as [|i s j (o & k & Ho & Hl & Hw & Hs) _ IH]; [lia|]. destruct (i_super w _ Hc i o k s Ho Hl Hw Hs) as [Hlt _]. lia.
Qed.
Theorem inherits_antisym : forall w c i j, reach hash w c -> inherits w i j -> inherits w j i -> i = j.
Proof. intros w c i j H X Y. apply (inherits_le w c _ _ H) in X, Y. lia. Qed.
(** The ancestors of a class are in a line. *)
Theorem inherits_line : forall w i j k, inherits w i j -> inherits w i k -> inherits w j k \/ inherits w k j.
Proof.
  intros w i j k X. induction X as [i|i s j Hs X IH]; intros Y; [now left|]. inversion Y as [|? s' ? Hs' Y']; subst; [right; now apply (up w k s j)|]. apply IH. replace s with s'; [exact Y'|]. destruct Hs as (o & ko & Ho & _ & Hw & E), Hs' as (o' & ko' & Ho' & _ & Hw' & E'). unfold is_cell in *. congruence.
Qed.

(** ** Safety of calls *)
Theorem retain_safe : forall w c i, reach hash w c -> exists_ w i -> exists w', step hash w (Retain i) = Ok (w', None).
Proof. intros w c i H Hi. cbn [step]. destruct (retain_ok w i Hi) as (w' & ->). cbn [obind]. eauto. Qed.
Theorem release_safe : forall w c i, reach hash w c -> In i c -> ~ awkward w -> exists w', step hash w (Release i) = Ok (w', None) /\ ~ awkward w'.
Proof.
  intros w c i H Hi Ha. apply reach_good in H. destruct H as [Hg _]. destruct (owned_live w _ i (proj1 Hg)) as (o & Ho & _); [apply in_or_app; left; exact Hi|]. cbn [step].
  destruct (release_total hash (S (length (heap w))) w (drop i c ++ [8; 9]) i o) as (w' & E & A).
  - apply (good_ext hash w (c ++ [8; 9])); [intros j; symmetry; now apply cnt_drop_app|exact Hg].
  - exact Ha.
  - exact Ho.
  - lia.
  - intros _. apply in_range in Ho. lia.
  - rewrite E. cbn [obind]. eauto.
Qed.
Lemma alloc_total : forall w l i ki o x, good w l -> is_cell w i o -> live o = true -> what o = Some ki -> abstract ki = false -> exists w1, retain w i = Ok w1 /\ alloc w i x = Ok (grow w1 (mkCell i 1 (negb (uncounted ki)) x), length (heap w1)).
Proof.
  intros w l i ki o x Hg Hi Hl Hw Ha. destruct (retain_ok w i) as (w1 & E); [exists o; auto|]. exists w1. split; [exact E|]. unfold alloc. rewrite (class_live w i o ki Hi Hl Hw). cbn [obind]. rewrite Ha, E. cbn [obind].
  destruct (classes_ok w1 (i :: l) i) as (r & ->); [apply (retain_good hash w l i w1 Hg E)|apply (retain_class w i w1 i E); exists o, ki; auto|]. reflexivity.
Qed.
Theorem alloc_safe : forall w c i, reach hash w c -> is_class w i ->
  (abstract_class w i /\ step hash w (Alloc i) = Fatal) \/ (~ abstract_class w i /\ exists w' j, step hash w (Alloc i) = Ok (w', Some j) /\ instance_of w' j i /\ ~ exists_ w j /\ exists p, is_cell w' j p /\ (counted p = false <-> uncounted_class w i)).
Proof.
  intros w c i H (o & ki & Hi & Hl & Hw). apply reach_good in H. destruct H as [Hg _]. cbn [step]. destruct (abstract ki) eqn:Ea.
  - left. split; [exists o, ki; auto|]. unfold alloc. rewrite (class_live w i o ki Hi Hl Hw). cbn [obind]. now rewrite Ea.
  - right. split; [intros (o' & k' & Ho' & Hw' & Ha'); unfold is_cell in *; congruence|]. destruct (alloc_total w _ i ki o None Hg Hi Hl Hw Ea) as (w1 & E1 & E2). rewrite E2. cbn [obind fst snd]. eexists. eexists. split; [reflexivity|].
    assert (Len : length (heap w1) = length (heap w)) by (apply retain_shape in E1; unfold shape in E1; apply (f_equal (@length _)) in E1; now rewrite !map_length in E1). split.
    + eexists. split; [apply grow_cell; right; split; reflexivity|]. split; [unfold live; cbn; apply orb_true_r|reflexivity].
    + split; [intros (p & Hp & _); apply in_range in Hp; lia|]. eexists. split; [apply grow_cell; right; split; reflexivity|]. cbn [counted]. rewrite negb_false_iff. split; [intros E; exists o, ki; auto|]. intros (o' & k' & Ho' & Hw' & E'). unfold is_cell in *. congruence.
Qed.
Lemma insert_ok : forall w n i, named_by w -> ~ (HashTable_Model.rowCount (names w) = 25 /\ HashTable_Model.activeCount (names w) + HashTable_Model.deletedCount (names w) = 11)%N ->
  (exists w', insert_name hash w (Some n) i = Ok w') \/ (insert_name hash w (Some n) i = Fatal /\ ((exists j, named w j n) \/ names_full w)).
Proof.
  intros w n i (m & Hm & Hn) Ha. cbn [insert_name]. destruct (HashTable_Probe.step_ok text nat hash text_eqb equiv (respects hash) (names w) (HashTable_Model.OpAdd n i) (proj1 Hm) Ha) as [(r & X)|(X & Y)]; cbn [HashTable_Model.step] in X; change (HashTable_Model.insert text nat hash text_eqb (names w) n i HashTable_Model.InsertIfNotFound) with (ht_insert hash (names w) n i HashTable_Model.InsertIfNotFound) in X.
  - destruct (ht_insert hash (names w) n i HashTable_Model.InsertIfNotFound) as [[t b]| | |] eqn:E; try discriminate X. cbn [obind fst snd]. destruct b; [left; eauto|right]. split; [reflexivity|]. left.
    destruct (HashTable_Proofs.insert_refines text nat hash text_eqb equiv (respects hash) (names w) m n i HashTable_Model.InsertIfNotFound t false Hm E) as [_ Hb]. destruct (HashTable_Spec.amap_get text nat text_eqb m n) as [[n' j]|] eqn:G; [|discriminate Hb].
    exists j. apply Hn. apply (in_get hash _ m n j Hm). rewrite G. reflexivity.
  - right. destruct (ht_insert hash (names w) n i HashTable_Model.InsertIfNotFound); try discriminate X. split; [reflexivity|]. right. exact Y.
Qed.
Lemma new_class_core : forall w c n s pre abs unc imm, reach hash w c -> (forall s', s = Some s' -> is_class w s') ->
  (forall w2 n i, named_by w2 -> names w2 = names w -> (exists w', insert_name hash w2 (Some n) i = Ok w') \/ (insert_name hash w2 (Some n) i = Fatal /\ ((exists j, named w2 j n) \/ names_full w2))) ->
  let o := NewClass n s pre abs unc imm in
  (exists w' i, step hash w o = Ok (w', Some i) /\ ~ exists_ w i /\ (exists p k, is_cell w' i p /\ live p = true /\ what p = Some k /\ cname k = n /\ csuper k = s /\ abstract k = abs /\ prevent k = pre /\ uncounted k = unc /\ immutable k = imm)) \/
  (step hash w o = Fatal /\ ((exists s', s = Some s' /\ final_class w s') \/ (exists x j, n = Some x /\ named w j x) \/ names_full w)).
Proof.
  intros w c n s pre abs unc imm H Hs Ha. apply reach_good in H. destruct H as [Hg Hf]. cbn [step]. unfold new_class.
  assert (Hp : exists p, match s with Some s0 => do k <- get_class w s0; Ok (prevent k) | None => Ok false end = Ok p /\ (p = true -> exists s', s = Some s' /\ final_class w s')).
  { destruct s as [s|]; [|exists false; split; [reflexivity|discriminate]]. destruct (Hs s eq_refl) as (o & k & Ho & Hl & Hw). rewrite (class_live w s o k Ho Hl Hw). cbn [obind]. exists (prevent k). split; [reflexivity|]. intros Hp. exists s. split; [reflexivity|]. exists o, k. auto. }
  destruct Hp as (p & -> & Hp). cbn [obind]. destruct p; [right; split; [reflexivity|]; left; auto|].
  assert (H1 : exists w1, retain_opt w s = Ok w1 /\ good w1 (super_list (Some (mkCls n s pre abs unc imm)) ++ c ++ [8; 9]) /\ shape w1 = shape w /\ names w1 = names w /\ forall j x, named w1 j x <-> named w j x).
  { cbn [super_list csuper]. destruct s as [s|]; cbn [retain_opt]; [|exists w; split; [reflexivity|]; split; [exact Hg|]; split; [reflexivity|]; split; [reflexivity|intros; reflexivity]]. destruct (retain_ok w s) as (w1 & E); [destruct (Hs s eq_refl) as (o & k & Ho & Hl & _); exists o; auto|]. exists w1. split; [exact E|]. split; [now apply (retain_good hash w)|]. split; [now apply (retain_shape w s)|]. split; [now apply (retain_names w s)|now apply (retain_named w s)]. }
  destruct H1 as (w1 & -> & G1 & S1 & E1 & N1). cbn [obind]. destruct (fixed_shape w w1 S1 Hf) as (o1 & k1 & Ho1 & Hc1 & Hw1 & Ha1).
  destruct (alloc_total w1 _ class_class k1 o1 (Some (mkCls n s pre abs unc imm)) G1 Ho1) as (w2 & E2 & E3); [unfold live; now rewrite Hc1|exact Hw1|exact Ha1|]. rewrite E3. cbn [obind fst snd].
  set (x := mkCell class_class 1 (negb (uncounted k1)) (Some (mkCls n s pre abs unc imm))) in *. assert (Lx : live x = true) by (unfold live; cbn; apply orb_true_r).
  assert (Len : length (heap w2) = length (heap w)). { apply retain_shape in E2. rewrite S1 in E2. unfold shape in E2. apply (f_equal (@length _)) in E2. now rewrite !map_length in E2. }
  assert (G2 : good w2 (1 :: super_list (Some (mkCls n s pre abs unc imm)) ++ c ++ [8; 9])) by now apply (retain_good hash w1).
  assert (En : names w2 = names w) by (rewrite (retain_names w1 1 w2 E2); exact E1).
  assert (New : forall w', heap w' = heap (grow w2 x) -> ~ exists_ w (length (heap w2)) /\ exists p k, is_cell w' (length (heap w2)) p /\ live p = true /\ what p = Some k /\ cname k = n /\ csuper k = s /\ abstract k = abs /\ prevent k = pre /\ uncounted k = unc /\ immutable k = imm).
  { intros w' Eh. split.
    - intros (q & Hq & _). apply in_range in Hq. lia.
    - exists x. eexists. split; [unfold is_cell; rewrite Eh; apply grow_cell; right; split; reflexivity|]. split; [exact Lx|]. repeat split; reflexivity. }
  destruct n as [n|].
  - destruct (Ha w2 n (length (heap w2)) (proj2 G2) En) as [(w' & E)|(E & X)].
    + left. cbn [insert_name] in E |- *. change (names (grow w2 x)) with (names w2). destruct (ht_insert hash (names w2) n (length (heap w2)) HashTable_Model.InsertIfNotFound) as [[t b]| | |]; try discriminate E. cbn [obind fst snd] in E |- *. destruct b; [|discriminate E]. eexists. eexists. split; [reflexivity|]. apply New. reflexivity.
    + right. cbn [insert_name] in E |- *. change (names (grow w2 x)) with (names w2). destruct (ht_insert hash (names w2) n (length (heap w2)) HashTable_Model.InsertIfNotFound) as [[t b]| | |]; try discriminate E; cbn [obind fst snd] in E |- *; [destruct b; [discriminate E|]|]; (split; [reflexivity|]); right.
      * destruct X as [(j & X)|X]; [left; exists n, j; split; [reflexivity|]; apply N1; now apply (retain_named w1 1 w2 E2)|right; unfold names_full in *; now rewrite <- En].
      * destruct X as [(j & X)|X]; [left; exists n, j; split; [reflexivity|]; apply N1; now apply (retain_named w1 1 w2 E2)|right; unfold names_full in *; now rewrite <- En].
  - left. cbn [insert_name obind]. eexists. eexists. split; [reflexivity|]. apply New. reflexivity.
Qed.
Theorem new_class_safe : forall w c n s pre abs unc imm, reach hash w c -> (forall s', s = Some s' -> is_class w s') -> ~ tight w ->
  let o := NewClass n s pre abs unc imm in
  (exists w' i, step hash w o = Ok (w', Some i) /\ ~ exists_ w i /\ (exists p k, is_cell w' i p /\ live p = true /\ what p = Some k /\ cname k = n /\ csuper k = s /\ abstract k = abs /\ prevent k = pre /\ uncounted k = unc /\ immutable k = imm)) \/
  (step hash w o = Fatal /\ ((exists s', s = Some s' /\ final_class w s') \/ (exists x j, n = Some x /\ named w j x) \/ names_full w)).
Proof.
  intros w c n s pre abs unc imm H Hs Ha. apply (new_class_core w c n s pre abs unc imm H Hs). intros w2 n2 i Hn En. apply insert_ok; [exact Hn|]. rewrite En. exact Ha.
Qed.
End Steps.

Section More.
Variable hash : text -> N.
Lemma ancestry_order : forall w c i j k, reach hash w c ->
  (inherits w i j -> inherits w j k -> inherits w i k) /\ (inherits w i j -> inherits w j i -> i = j) /\ (inherits w i j -> inherits w i k -> inherits w j k \/ inherits w k j).
Proof. intros w c i j k H. split; [apply inherits_trans|]. split; [now apply (inherits_antisym hash w c)|apply inherits_line]. Qed.

Definition kept (w w' : world) : Prop := forall i o, is_cell w i o -> exists o', is_cell w' i o' /\ isa o' = isa o /\ what o' = what o.
Lemma kept_refl : forall w, kept w w.
Proof. intros w i o H. exists o. auto. Qed.
Lemma kept_trans : forall w w1 w2, kept w w1 -> kept w1 w2 -> kept w w2.
Proof. intros w w1 w2 A B i o H. destruct (A i o H) as (o1 & H1 & E1 & E2). destruct (B i o1 H1) as (o2 & H2 & E3 & E4). exists o2. split; [exact H2|]. split; congruence. Qed.
Lemma kept_shape : forall w w', shape w' = shape w -> kept w w'.
Proof. intros w w' E i o H. destruct (shape_cell w w' i o E H) as (o' & H' & E1 & _ & E2). exists o'. auto. Qed.
Lemma kept_grow : forall w x, kept w (grow w x).
Proof. intros w x i o H. exists o. split; [apply grow_cell; now left|auto]. Qed.
Lemma kept_heap : forall w w', heap w' = heap w -> kept w w'.
Proof. intros w w' E i o H. exists o. unfold is_cell in *. now rewrite E. Qed.
Lemma insert_heap : forall w n i w', insert_name hash w n i = Ok w' -> heap w' = heap w.
Proof.
  intros w [n|] i w' H; cbn [insert_name] in H; [|now injection H as <-]. destruct (ht_insert _ _ _ _ _) as [[tb b]| | |]; try discriminate H. cbn [obind fst snd] in H. destruct b; [|discriminate H]. now injection H as <-.
Qed.
Lemma step_kept : forall w o w' r, step hash w o = Ok (w', r) -> kept w w'.
Proof.
  intros w [n s pre abs unc imm|k|i|i] w' r H; cbn [step] in H.
  - destruct (new_class hash w n s pre abs unc imm) as [[w1 j]| | |] eqn:E; try discriminate H. cbn [obind fst snd] in H. injection H as <- _. apply new_class_inv in E. destruct E as (w2 & w3 & ct & _ & H1 & _ & H2 & _ & H3).
    apply (kept_trans w w2). { destruct s as [s|]; cbn [retain_opt] in H1; [|injection H1 as <-; apply kept_refl]. apply kept_shape. now apply (retain_shape w s). }
    apply (kept_trans w2 w3); [apply kept_shape; now apply (retain_shape w2 1)|]. eapply kept_trans; [apply kept_grow|]. apply kept_heap. exact (insert_heap _ _ _ _ H3).
  - destruct (alloc w k None) as [[w1 j]| | |] eqn:E; try discriminate H. cbn [obind fst snd] in H. injection H as <- _. apply alloc_inv in E. destruct E as (kc & w2 & _ & _ & H1 & -> & _). apply (kept_trans w w2); [apply kept_shape; now apply (retain_shape w k)|apply kept_grow].
  - destruct (retain w i) as [w1| | |] eqn:E; try discriminate H. cbn [obind] in H. injection H as <- _. apply kept_shape. now apply (retain_shape w i).
  - destruct (release hash (S (length (heap w))) w i) as [w1| | |] eqn:E; try discriminate H. cbn [obind] in H. injection H as <- _. apply kept_shape. now apply release_shape in E.
Qed.
Lemma ancestry_stable : forall w c o w' r i j, reach hash w c -> step hash w o = Ok (w', r) -> exists_ w i -> exists_ w' i -> (instance_of w' i j <-> instance_of w i j) /\ (subclass_of w' i j <-> subclass_of w i j).
Proof.
  intros w c o w' r i j _ H (p & Hp & Lp) (p' & Hp' & Lp'). apply step_kept in H. destruct (H i p Hp) as (q & Hq & E1 & E2). assert (q = p') by (unfold is_cell in *; congruence). subst q. split.
  - split; intros (x & Hx & _ & <-); [exists p|exists p']; (split; [assumption|]); (split; [assumption|]); unfold is_cell in *; congruence.
  - split; intros (x & k & Hx & _ & Hw & Hs); [exists p, k|exists p', k]; (split; [assumption|]); (split; [assumption|]); (split; [unfold is_cell in *; congruence|exact Hs]).
Qed.
Lemma new_class_refused : forall w c n s pre abs unc imm r, reach hash w c -> step hash w (NewClass n s pre abs unc imm) = Ok r ->
  (forall s', s = Some s' -> is_class w s' /\ ~ final_class w s') /\ (forall x, n = Some x -> ~ exists j, named w j x).
Proof.
  intros w c n s pre abs unc imm r H E. apply reach_good in H. destruct H as [Hg _]. cbn [step] in E. destruct (new_class hash w n s pre abs unc imm) as [[w1 j]| | |] eqn:E1; try discriminate E. apply new_class_inv in E1. destruct E1 as (w2 & w3 & ct & Hs & H1 & _ & H2 & -> & H3). split.
  - intros s' ->. destruct (Hs s' eq_refl) as (k & Hk & Hp). split; [now apply class_of_get in Hk|]. apply class_inv in Hk. destruct Hk as (o & Ho & _ & Hw). intros (o' & k' & Ho' & Hw' & Hp'). unfold is_cell in *. congruence.
  - intros x -> (j & Hj).
    assert (G2 : Class_Proofs.good hash w2 (super_list (Some (mkCls (Some x) s pre abs unc imm)) ++ c ++ [8; 9]) /\ named w2 j x).
    { cbn [super_list csuper]. destruct s as [s|]; cbn [retain_opt] in H1; [|injection H1 as <-; split; assumption]. split; [now apply (retain_good hash w _ s)|now apply (retain_named w s w2 H1)]. }
    destruct G2 as [G2 N2]. pose proof (retain_good hash w2 _ 1 w3 G2 H2) as G3. apply (retain_named w2 1 w3 H2) in N2.
    cbn [insert_name] in H3. change (names (grow w3 (mkCell 1 1 ct (Some (mkCls (Some x) s pre abs unc imm))))) with (names w3) in H3. destruct (ht_insert hash (names w3) x (length (heap w3)) HashTable_Model.InsertIfNotFound) as [[t b]| | |] eqn:E2; try discriminate H3. cbn [obind fst snd] in H3. destruct b; [|discriminate H3].
    destruct (insert_named hash w3 x (length (heap w3)) (mkW (heap w3) t) (proj2 G3)) as (A & _); [cbn [insert_name]; rewrite E2; reflexivity|]. exact (A j N2).
Qed.
End More.
