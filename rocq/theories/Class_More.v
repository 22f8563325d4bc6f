(** What is told about an object: its class, its name and its superclass. *)
Require Import Coq.NArith.NArith Coq.Lists.List Coq.Arith.Arith Coq.Bool.Bool Coq.micromega.Lia.
Require Import Verif.Base Verif.Class_Model Verif.Class_Spec Verif.Class_Proofs Verif.Class_Steps.
Require Verif.HashTable_Model.
Import ListNotations.

Section More.
Variable hash : text -> N.

Definition form (o : cell) : Prop := (what o <> None -> isa o = 0 \/ isa o = 1) /\ (isa o = 0 -> what o <> None).
Definition meta (w : world) : Prop := abstract_class w 0 /\ forall i o, is_cell w i o -> form o.
Lemma meta_shape : forall w w', shape w' = shape w -> meta w -> meta w'.
Proof.
  intros w w' E [(o & k & Ho & Hw & Ha) F]. split.
  - destruct (shape_cell w w' 0 o E Ho) as (o' & Ho' & _ & _ & E2). exists o', k. rewrite E2. auto.
  - intros i p Hp. destruct (shape_cell w' w i p (eq_sym E) Hp) as (p' & Hp' & E1 & _ & E2). specialize (F i p' Hp'). unfold form in *. now rewrite <- E1, <- E2.
Qed.
Lemma meta_grow : forall w x, meta w -> form x -> meta (grow w x).
Proof.
  intros w x [(o & k & Ho & H) F] X. split; [exists o, k; split; [apply grow_cell; now left|exact H]|]. intros i p Hp. apply grow_cell in Hp. destruct Hp as [Hp|[_ ->]]; [now apply (F i)|exact X].
Qed.
Lemma meta_heap : forall w w', heap w' = heap w -> meta w -> meta w'.
Proof. intros w w' E. apply meta_shape. unfold shape. now rewrite E. Qed.
Lemma meta_set_name : forall w i n w', meta w -> set_name hash w i n = Ok w' -> meta w'.
Proof.
  intros w i n w' [(q & kq & Hq & Wq & Aq) F] H. unfold set_name in H. destruct (get w i) as [o| | |] eqn:Eo; try discriminate H. destruct (get_class w i) as [k| | |] eqn:Ek; try discriminate H. cbn [obind] in H. apply (meta_heap _ _ (insert_heap hash _ _ _ _ H)). clear H.
  apply get_inv in Eo. destruct Eo as [Ho _]. apply class_inv in Ek. destruct Ek as (o1 & H1 & _ & W1). assert (o1 = o) by (unfold is_cell in *; congruence). subst o1. split.
  - destruct (Nat.eq_dec 0 i) as [<-|Hne].
    + eexists. eexists. split; [apply (put_cell w 0 o 0 _ Ho); left; split; reflexivity|]. split; [reflexivity|]. cbn. unfold is_cell in *. congruence.
    + exists q, kq. split; [apply (put_cell w i o 0 q Ho); auto|auto].
  - intros j p Hp. apply (put_cell w i o j p Ho) in Hp. destruct Hp as [[-> ->]|[_ Hp]]; [|now apply (F j)]. specialize (F i o Ho). unfold form in *. cbn. split; [|congruence]. intros _. apply F. congruence.
Qed.
Lemma reach_meta : forall w c, reach hash w c -> meta w.
Proof.
  intros w c H. induction H as [w H|w c n s pre abs unc imm w' i _ IH H|w c k w' i _ IH H|w c i w' r _ IH H|w c i w' r _ IH Hi H].
  - unfold runtime_init in H. assert (M : meta (mkW statics HashTable_Model.table_init)).
    { split; [eexists; eexists; repeat split; reflexivity|]. intros i o Ho. unfold is_cell in Ho. cbn [heap] in Ho. apply nth_error_In in Ho. unfold form. cbn in Ho. repeat (destruct Ho as [<-|Ho]; [cbn; split; [intros _; auto|intros _; discriminate]|]). destruct Ho. }
    revert M H. generalize (mkW statics HashTable_Model.table_init). generalize static_names. induction l as [|[i n] l IH]; intros w0 M H; cbn [set_names] in H; [injection H as <-; exact M|]. destruct (set_name hash w0 i n) as [w1| | |] eqn:E; try discriminate H. cbn [obind] in H. apply (IH w1); [now apply (meta_set_name w0 i n)|exact H].
  - cbn [step] in H. destruct (new_class hash w n s pre abs unc imm) as [[w1 j]| | |] eqn:E; try discriminate H. cbn [obind fst snd] in H. injection H as <- _. apply new_class_inv in E. destruct E as (w2 & w3 & ct & _ & H1 & _ & H2 & _ & H3).
    apply (meta_heap _ _ (insert_heap hash _ _ _ _ H3)). apply meta_grow; [|split; cbn; [auto|discriminate]]. apply (meta_shape w2); [now apply (retain_shape w2 1)|]. destruct s as [s|]; cbn [retain_opt] in H1; [|injection H1 as <-; exact IH]. apply (meta_shape w); [now apply (retain_shape w s)|exact IH].
  - cbn [step] in H. destruct (alloc w k None) as [[w1 j]| | |] eqn:E; try discriminate H. cbn [obind fst snd] in H. injection H as <- _. apply alloc_inv in E. destruct E as (kc & w2 & Hk & Ha & H1 & -> & _). apply meta_grow.
    + apply (meta_shape w); [now apply (retain_shape w k)|exact IH].
    + split; cbn; [congruence|]. intros ->. destruct IH as [(o & k' & Ho & Wo & Ao) _]. apply class_inv in Hk. destruct Hk as (o1 & H2 & _ & W2). unfold is_cell in *. congruence.
  - cbn [step] in H. destruct (retain w i) as [w1| | |] eqn:E; try discriminate H. cbn [obind] in H. injection H as <- _. apply (meta_shape w); [now apply (retain_shape w i)|exact IH].
  - cbn [step] in H. destruct (release hash (S (length (heap w))) w i) as [w1| | |] eqn:E; try discriminate H. cbn [obind] in H. injection H as <- _. apply (meta_shape w); [now apply release_shape in E|exact IH].
Qed.

Lemma queries : forall w c i cl, reach hash w c -> instance_of w i cl ->
  class_of w i = Ok cl /\ (forall k, is_member w i k = Ok (cl =? k)) /\ (exists s, superclass_of w i = Ok s /\ forall j, s = Some j <-> subclass_of w cl j) /\ (exists b, is_mutable w i = Ok b /\ (b = false <-> immutable_class w cl)).
Proof.
  intros w c i cl H (o & Ho & Lo & <-). apply reach_good in H. destruct H as [[C _] _]. destruct (isa_live w _ i o C Ho Lo) as (p & k & Hp & Lp & Wp & _).
  unfold class_of, is_member, superclass_of, is_mutable. rewrite (get_live w i o Ho Lo). cbn [obind]. rewrite (class_live w _ p k Hp Lp Wp). cbn [obind]. split; [reflexivity|]. split; [reflexivity|]. split.
  - exists (csuper k). split; [reflexivity|]. intros j. split; [intros E; exists p, k; auto|]. intros (p' & k' & Hp' & _ & W' & E'). unfold is_cell in *. congruence.
  - exists (negb (immutable k)). split; [reflexivity|]. split; [intros E; exists p, k; apply negb_false_iff in E; auto|]. intros (p' & k' & Hp' & W' & E'). apply negb_false_iff. unfold is_cell in *. congruence.
Qed.
Lemma name_of : forall w o k p i, is_cell w p o -> live o = true -> what o = Some k -> cname k = i -> forall x, i = Some x <-> named w p x.
Proof. intros w o k p i Ho Lo Wo <- x. split; [intros E; exists o, k; auto|]. intros (o' & k' & Ho' & _ & W' & E'). unfold is_cell in *. congruence. Qed.
Lemma class_names : forall w c i cl, reach hash w c -> instance_of w i cl ->
  (is_class w i -> exists n, class_name w i = Ok n /\ forall x, n = Some x <-> named w i x) /\
  (~ is_class w i -> cl <> 1 -> exists n, class_name w i = Ok n /\ forall x, n = Some x <-> named w cl x).
Proof.
  intros w c i cl H (o & Ho & Lo & <-). pose proof (reach_meta w c H) as [_ M]. specialize (M i o Ho). destruct M as [M1 M2]. apply reach_good in H. destruct H as [[C _] _]. destruct (isa_live w _ i o C Ho Lo) as (p & k & Hp & Lp & Wp & _).
  unfold class_name, class_class. rewrite (get_live w i o Ho Lo). cbn [obind]. split.
  - intros (o' & k' & Ho' & _ & W'). assert (o' = o) by (unfold is_cell in *; congruence). subst o'. assert (E : (isa o =? 1) || (isa o =? 0) = true). { apply orb_true_iff. rewrite !Nat.eqb_eq. assert (isa o = 0 \/ isa o = 1) by (apply M1; congruence). tauto. }
    rewrite E, (class_live w i o k' Ho Lo W'). cbn [obind]. exists (cname k'). split; [reflexivity|]. now apply (name_of w o k').
  - intros Hn H1. assert (E : (isa o =? 1) || (isa o =? 0) = false). { apply orb_false_iff. rewrite !Nat.eqb_neq. split; [exact H1|]. intros H0. apply M2 in H0. destruct (what o) as [k'|] eqn:W; [|congruence]. apply Hn. exists o, k'. auto. }
    rewrite E, (class_live w _ p k Hp Lp Wp). cbn [obind]. exists (cname k). split; [reflexivity|]. now apply (name_of w p k).
Qed.
End More.
