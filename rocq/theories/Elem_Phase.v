(** Proofs about the objects that parsing XML makes: between the start and the end of an attribute comes nothing else. *)
Require Import Coq.ZArith.ZArith Coq.NArith.NArith Coq.Lists.List Coq.Bool.Bool Coq.Arith.Arith.
Require Import Verif.Base Verif.XML_Model.
Import ListNotations.

Definition valued (s : ystate) : bool := match s with S_attr1 | S_attr2 | S_attr3 | S_attr4 => true | _ => false end.
Definition phase (x x' : yxml) (r : ret) : Prop :=
  valued (nextst x') = false /\
  match r with
  | ATTRSTART => valued (st x) = false /\ valued (st x') = true
  | ATTREND => valued (st x) = true /\ valued (st x') = false
  | ELEMSTART => valued (st x) = false /\ valued (st x') = false
  | EEOF | EREF | ECLOSE | ESTACK | ESYN => True
  | _ => valued (st x') = valued (st x)
  end.
Lemma bind_inv {A B} (x : outcome A) (f : A -> outcome B) b : obind x f = Ok b -> exists a, x = Ok a /\ f a = Ok b.
Proof. destruct x; cbn [obind]; intros E; try discriminate. eauto. Qed.
(** The helpers leave the state. *)
Definition stays (x x' : yxml) : Prop := st x' = st x /\ nextst x' = nextst x.
Lemma put_data_stays x bs r x' r' : put_data x bs r = Ok (x', r') -> stays x x' /\ r' = r.
Proof. unfold put_data. intros E. apply bind_inv in E. destruct E as (d & _ & E). injection E as <- <-. split; [split; reflexivity|reflexivity]. Qed.
Lemma pushstack_stays x res ch x' r : (forall y n, stays y (res y n)) -> pushstack x res ch = Ok (x', r) -> stays x x' /\ (r = OK \/ r = ESTACK).
Proof.
  intros H. unfold pushstack. destruct (_ <=? _). { intros E. injection E as <- <-. split; [split; reflexivity|auto]. }
  intros E. apply bind_inv in E. destruct E as (s & _ & E). apply bind_inv in E. destruct E as (s' & _ & E). injection E as <- <-. split; [exact (H x _)|auto].
Qed.
Lemma pushstackc_stays x ch x' r : pushstackc x ch = Ok (x', r) -> stays x x' /\ (r = OK \/ r = ESTACK).
Proof.
  unfold pushstackc. destruct (_ <=? _). { intros E. injection E as <- <-. split; [split; reflexivity|auto]. }
  intros E. apply bind_inv in E. destruct E as (s & _ & E). apply bind_inv in E. destruct E as (s' & _ & E). injection E as <- <-. split; [split; reflexivity|auto].
Qed.
Lemma popstack_stays x x' : popstack x = Ok x' -> stays x x'.
Proof. unfold popstack. intros E. apply bind_inv in E. destruct E as (n & _ & E). injection E as <-. split; reflexivity. Qed.
Lemma selfclose_stays x ch x' r : selfclose x ch = Ok (x', r) -> r = ELEMEND /\ nextst x' = nextst x /\ (st x' = st x \/ st x' = S_misc3).
Proof.
  unfold selfclose. intros E. apply bind_inv in E. destruct E as (y & P & E). destruct (popstack_stays _ _ P) as (H & H'). destruct (stacklen y).
  - injection E as <- <-. cbn. auto.
  - apply bind_inv in E. destruct E as (e & _ & E). injection E as <- <-. cbn. auto.
Qed.
Lemma elemclose_stays x ch x' r : elemclose x ch = Ok (x', r) -> stays x x' /\ (r = OK \/ r = ECLOSE).
Proof. unfold elemclose. intros E. apply bind_inv in E. destruct E as (b & _ & E). destruct (b =? ch)%N; injection E as <- <-; (split; [split; reflexivity|auto]). Qed.
Lemma refend_stays x r x' r' : refend x r = Ok (x', r') -> stays x x' /\ (r' = r \/ r' = EREF).
Proof.
  unfold refend. intros E. apply bind_inv in E. destruct E as (ch & _ & E). destruct (bad_char ch); [injection E as <- <-; split; [split; reflexivity|auto]|].
  apply bind_inv in E. destruct E as (d & _ & E). injection E as <- <-. split; [split; reflexivity|auto].
Qed.
Lemma ref_stays x ch x' r : ref x ch = Ok (x', r) -> stays x x' /\ (r = OK \/ r = EREF).
Proof.
  unfold ref. destruct (_ <=? _); [intros E; injection E as <- <-; split; [split; reflexivity|auto]|]. intros E. apply bind_inv in E. destruct E as (d & _ & E). injection E as <- <-. split; [split; reflexivity|auto].
Qed.
Lemma pinameend_stays x ch x' r : pinameend x ch = Ok (x', r) -> stays x x' /\ (r = PISTART \/ r = ESYN).
Proof.
  unfold pinameend. intros E. repeat (apply bind_inv in E; destruct E as (? & _ & E); match type of E with (if ?c then _ else _) = _ => destruct c end; try (injection E as <- <-; split; [split; reflexivity|auto])).
Qed.
Lemma elemcloseend_stays x ch x' r : elemcloseend x ch = Ok (x', r) -> nextst x' = nextst x /\ (r = ECLOSE \/ r = ELEMEND /\ (st x' = st x \/ st x' = S_misc3)).
Proof. unfold elemcloseend. intros E. apply bind_inv in E. destruct E as (b & _ & E). destruct (b =? 0)%N; [destruct (selfclose_stays _ _ _ _ E) as (H & H' & Q); auto|injection E as <- <-; auto]. Qed.

Ltac leaf Hn Es :=
  match goal with
  | E : put_data _ _ _ = Ok _ |- _ => apply put_data_stays in E; destruct E as ((?Q & ?R) & ->); unfold phase; rewrite ?Q, ?R; cbn [st nextst to_state to_next set_next set_quote set_string]; rewrite ?Es; auto
  | E : pushstack _ _ _ = Ok _ |- _ => apply pushstack_stays in E; [destruct E as ((?Q & ?R) & [->| ->]); unfold phase; rewrite ?Q, ?R; cbn [st nextst to_state to_next set_next set_quote set_string]; rewrite ?Es; auto|intros; split; reflexivity]
  | E : pushstackc _ _ = Ok _ |- _ => apply pushstackc_stays in E; destruct E as ((?Q & ?R) & [->| ->]); unfold phase; rewrite ?Q, ?R; cbn [st nextst to_state to_next set_next set_quote set_string]; rewrite ?Es; auto
  | E : ref _ _ = Ok _ |- _ => apply ref_stays in E; destruct E as ((?Q & ?R) & [->| ->]); unfold phase; rewrite ?Q, ?R; cbn [st nextst to_state to_next set_next set_quote set_string]; rewrite ?Es; auto
  | E : refend _ _ = Ok _ |- _ => apply refend_stays in E; destruct E as ((?Q & ?R) & [->| ->]); unfold phase; rewrite ?Q, ?R; cbn [st nextst to_state to_next set_next set_quote set_string]; rewrite ?Es; auto
  | E : pinameend _ _ = Ok _ |- _ => apply pinameend_stays in E; destruct E as ((?Q & ?R) & [->| ->]); unfold phase; rewrite ?Q, ?R; cbn [st nextst to_state to_next set_next set_quote set_string]; rewrite ?Es; auto
  | E : elemclose _ _ = Ok _ |- _ => apply elemclose_stays in E; destruct E as ((?Q & ?R) & [->| ->]); unfold phase; rewrite ?Q, ?R; cbn [st nextst to_state to_next set_next set_quote set_string]; rewrite ?Es; auto
  | E : elemcloseend _ _ = Ok _ |- _ => apply elemcloseend_stays in E; destruct E as (?R & [->|(-> & [?Q|?Q])]); unfold phase; rewrite ?Q, ?R; cbn [st nextst to_state to_next set_next set_quote set_string]; rewrite ?Es; auto
  | E : selfclose _ _ = Ok _ |- _ => apply selfclose_stays in E; destruct E as (-> & ?R & [?Q|?Q]); unfold phase; rewrite ?Q, ?R; cbn [st nextst to_state to_next set_next set_quote set_string]; rewrite ?Es; auto
  | E : Ok _ = Ok _ |- _ => injection E as <- <-; unfold phase; cbn [st nextst to_state to_next set_next set_quote set_string set_data set_pi]; rewrite ?Es, ?Hn; auto
  | E : obind (popstack _) _ = Ok _ |- _ => apply bind_inv in E; destruct E as (?y & ?P & E); apply popstack_stays in P; destruct P as (?Q & ?R); injection E as <- <-; unfold phase; cbn [st nextst set_pi]; rewrite ?Q, ?R; cbn [st nextst to_state to_next set_next set_quote set_string]; rewrite ?Es; auto
  end.
Lemma switch_phase x ch x' r : valued (nextst x) = false -> switch x ch = Ok (x', r) -> phase x x' r.
Proof.
  intros Hn E. unfold switch in E. destruct (st x) eqn:Es.
  1: { apply bind_inv in E. destruct E as (b & _ & E). destruct (ch =? b)%N; [|leaf Hn Es]. cbv zeta in E. apply bind_inv in E. destruct E as (b' & _ & E). destruct (b' =? 0)%N; leaf Hn Es. }
  all: cbv zeta in E; repeat match type of E with (if ?c then _ else _) = _ => destruct c end.
  all: unfold elemstart, elemname, elemnameend, attrstart, attrname, attrnameend, attrvalend, pistart, piname, piabort, pivalend, refstart, refcontent, refattrval, datacontent, datapi1, datapi2, datacd1, datacd2, dataattr in E; try leaf Hn Es.
Qed.
Lemma byte_phase x b x' r : valued (nextst x) = false -> parse_byte x b = Ok (x', r) -> phase x x' r.
Proof.
  intros Hn E. unfold parse_byte in E. cbv zeta in E. destruct (_ =? 0)%N; [injection E as <- <-; split; [exact Hn|exact Logic.I]|]. destruct (_ =? _)%N; [injection E as <- <-; split; [exact Hn|reflexivity]|].
  apply switch_phase in E; [exact E|exact Hn].
Qed.
