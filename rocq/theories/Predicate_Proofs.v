(** Proofs about predicates. *)
Require Import Coq.ZArith.ZArith Coq.NArith.NArith Coq.Lists.List Coq.Arith.Arith Coq.Bool.Bool Coq.micromega.Lia.
Require Import Verif.Base Verif.Array_Model Verif.Utf8_Model Verif.Utf8_Spec Verif.String_Spec Verif.String_Model Verif.String_Proofs Verif.Predicate_Model Verif.Predicate_Spec.
Import ListNotations.

Definition decides (W : world) (s x : obj) (P : Prop) : Prop := exists f0 b, (forall f, f0 <= f -> eval f W s x = Ok b) /\ (b = true <-> P).
Lemma operand_first W s a ka A : operand W s a ka A ->
  match ka with Some _ => dk_prop W (if is_nil a then s else a) ka | None => if is_nil a then s else a end = A.
Proof.
  intros H. destruct H; cbn; auto.
  - destruct a; auto. contradiction.
  - destruct a; cbn; auto. contradiction.
  - destruct s; cbn; auto. contradiction.
  - now rewrite H.
Qed.
Lemma operand_second W s b ka kb B : operand W s b kb B -> kb = None \/ kb = ka ->
  match kb with Some _ => dk_prop W (if is_nil b then s else b) ka | None => if is_nil b then s else b end = B.
Proof.
  intros H [->| <-]; [|apply (operand_first W s b kb B H)]. exact (operand_first W s b None B H).
Qed.
(** One step of evaluation on the operands. *)
Lemma step W s n o a ka b kb A B f : operand W s a ka A -> operand W s b kb B -> usable o A B ka kb ->
  eval (S f) W s (Pred n o a ka b kb) = eval_op W (eval f W s) o A B.
Proof.
  intros HA HB [K _]. cbn [eval]. rewrite (operand_first W s a ka A HA), (operand_second W s b ka kb B HB K). reflexivity.
Qed.
Lemma dk_compare_before W a b : fair W -> (0 < dk_compare W a b <-> before W a b)%Z /\ (dk_compare W a b < 0 <-> before W b a)%Z.
Proof.
  intros F. unfold dk_compare, before. specialize (F a b).
  destruct (Nat.eqb_spec (ident a) (ident b)) as [E|E].
  - destruct a, b; cbn in *; try discriminate; intuition (try lia; congruence).
  - destruct a, b; cbn -[Z.lt Z.opp] in *; try congruence; rewrite ?F; intuition (try lia; try congruence).
Qed.
Lemma dk_equal_same W a b : dk_equal W a b = true <-> same W a b.
Proof.
  unfold dk_equal, same. destruct (Nat.eqb_spec (ident a) (ident b)) as [E|E]; [tauto|].
  destruct a, b; cbn; split; intros H; try discriminate; try congruence; try (right; repeat split; congruence);
    destruct H as [H|(H1 & H2 & H3)]; try contradiction; try congruence.
Qed.
Lemma fits_of n : (Z.of_nat n < 2 ^ 63)%Z -> fits n.
Proof. unfold fits, Array_Model.INT64_MAX. lia. Qed.
Lemma relates_ok W ev o A B P ka kb : fair W -> usable o A B ka kb -> relates W o A B P -> exists b, eval_op W ev o A B = Ok b /\ (b = true <-> P).
Proof.
  intros F U H. pose proof (dk_compare_before W A B F) as [C1 C2]. destruct H; cbn [eval_op].
  - exists false. split; auto. split; [discriminate|tauto].
  - eexists. split; [reflexivity|]. apply Nat.eqb_eq.
  - eexists. split; [reflexivity|]. rewrite negb_true_iff. apply Nat.eqb_neq.
  - unfold eval_eq. rewrite H, H0. eexists. split; [reflexivity|]. apply dk_equal_same.
  - unfold eval_eq. rewrite H, H0. cbn. eexists. split; [reflexivity|]. rewrite negb_true_iff, <- (dk_equal_same W A B). destruct (dk_equal W A B); intuition congruence.
  - eexists. split; [reflexivity|]. rewrite Z.ltb_lt. exact C1.
  - eexists. split; [reflexivity|]. rewrite Z.ltb_lt. exact C2.
  - eexists. split; [reflexivity|]. rewrite Z.leb_le, <- C2. lia.
  - eexists. split; [reflexivity|]. rewrite Z.leb_le, <- C1. lia.
  - destruct H as (n & -> & T & L), H0 as (m & -> & T' & L'). cbn [is_str on_strings]. apply has_substring_ok; auto. now apply fits_of.
  - cbn. exists b. split; auto. tauto.
  - destruct H as (n & -> & T & L), H0 as (m & -> & T' & L'). cbn [is_str on_strings]. apply has_substring_ok; auto. now apply fits_of.
  - destruct U as [_ U]. rewrite <- (U eq_refl). cbn. exists b. split; auto. tauto.
  - destruct B; [congruence|..]; cbn [dk_has_key is_nil]; exists b; split; auto; tauto.
  - destruct A; [congruence|..]; cbn [dk_has_key is_nil]; exists b; split; auto; tauto.
  - destruct A; [congruence|..]; cbn [is_nil]; rewrite H0; eexists; split; eauto; tauto.
  - destruct A; [congruence|..]; cbn [is_nil]; rewrite H0, H1; eexists; split; eauto; tauto.
  - destruct H as (n & -> & T & L), H0 as (m & -> & T' & L'). cbn [same_string]. eexists. split; [reflexivity|].
    destruct (Nat.eqb_spec n m) as [E|E].
    + subst m. specialize (H1 eq_refl). injection H1 as H1. split; auto. intros _. now apply encode_inj.
    + destruct (list_eq_dec N.eq_dec (encode ca) (encode cb)) as [Q|Q]; split; auto; try discriminate; [intros _; now apply encode_inj|intros ->; contradiction].
  - destruct H as (n & -> & T & L), H0 as (m & -> & T' & L'). cbn [on_strings]. apply has_prefix_ok; auto. now apply fits_of.
  - destruct H as (n & -> & T & L), H0 as (m & -> & T' & L'). cbn [on_strings]. apply has_suffix_ok; auto. now apply fits_of.
Qed.
Lemma foreach_ok W s stop items : forall P : nat -> Prop, (forall i x, nth_error items i = Some x -> decides W s x (P i)) ->
  exists (f0 : nat) (b : bool), (forall f, f0 <= f -> Predicate_Model.foreach stop (eval f W s) items = Ok (if b then 1 else 0)%Z) /\
  (b = true <-> exists i, i < length items /\ (if stop then P i else ~ P i)).
Proof.
  induction items as [|x items IH]; intros P H.
  - exists 0, false. split; [reflexivity|]. split; [discriminate|]. intros (i & L & _). cbn in L. lia.
  - destruct (H 0 x eq_refl) as (f1 & b & E & Q). destruct (IH (fun i => P (S i))) as (f2 & c & E' & Q'); [intros i y Y; apply (H (S i) y Y)|].
    exists (Nat.max f1 f2), (if Bool.eqb b stop then true else c). split.
    + intros f L. cbn [foreach]. rewrite E by lia. cbn [obind]. destruct (Bool.eqb b stop); auto. apply E'. lia.
    + destruct (Bool.eqb b stop) eqn:X.
      * apply Bool.eqb_prop in X. subst stop. split; auto. intros _. exists 0. split; [cbn; lia|]. destruct b; [tauto|]. intros Y. apply Q in Y. discriminate.
      * rewrite Q'. split.
        -- intros (i & L & Y). exists (S i). split; [cbn; lia|exact Y].
        -- intros ([|i] & L & Y); [|exists i; split; [cbn in L; lia|exact Y]]. exfalso. destruct stop, b; try discriminate; [apply Q in Y; discriminate|apply Y, Q; reflexivity].
Qed.
Lemma means_decides W s x P : fair W -> means W usable s x P -> decides W s x P.
Proof.
  intros F H. induction H as [|x b N NP E|n o a ka b kb A B P HA HB U R|n a ka b kb A B P HA HB U HP IP|n a ka b kb A B P Q HA HB U HP IP HQ IQ|n a ka b kb A B P Q HA HB U HP IP HQ IQ|n a ka b kb A B P Q HA HB U D HP IP HQ IQ|n a ka b kb A B P Q HA HB U D HP IP HQ IQ|n a ka b kb m items B P HA HB U HP IP|n a ka b kb m items B P HA HB U HP IP|n a ka b kb m items B P HA HB U HP IP].
  - exists 1, false. split; [intros [|f] L; [lia|reflexivity]|]. split; [discriminate|tauto].
  - exists 1, b. split; [|tauto]. intros [|f] L; [lia|]. destruct x; try discriminate; try contradiction; exact E.
  - destruct (relates_ok W (eval 0 W s) o A B P ka kb F U R) as (c & _ & Q).
    exists 1, c. split; [|exact Q]. intros [|f] L; [lia|]. rewrite (step W s n o a ka b kb A B f HA HB U).
    destruct (relates_ok W (eval f W s) o A B P ka kb F U R) as (d & E & Q'). rewrite E. f_equal. destruct c, d; intuition congruence.
  - destruct IP as (f1 & c & E & Q). exists (S f1), (negb c). split.
    + intros [|f] L; [lia|]. rewrite (step W s n NOT a ka b kb A B f HA HB U). cbn [eval_op]. rewrite E by lia. reflexivity.
    + destruct c; cbn; intuition congruence.
  - destruct IP as (f1 & c & E & Q1). destruct IQ as (f2 & d & E' & Q2). exists (S (Nat.max f1 f2)), (c && d). split.
    + intros [|f] L; [lia|]. rewrite (step W s n AND a ka b kb A B f HA HB U). cbn [eval_op]. rewrite E by lia. cbn [obind]. destruct c; auto. apply E'. lia.
    + rewrite andb_true_iff. tauto.
  - destruct IP as (f1 & c & E & Q1). destruct IQ as (f2 & d & E' & Q2). exists (S (Nat.max f1 f2)), (c || d). split.
    + intros [|f] L; [lia|]. rewrite (step W s n OR a ka b kb A B f HA HB U). cbn [eval_op]. rewrite E by lia. cbn [obind]. destruct c; auto. apply E'. lia.
    + rewrite orb_true_iff. tauto.
  - destruct IP as (f1 & c & E & Q1). destruct IQ as (f2 & d & E' & Q2). exists (S (Nat.max f1 f2)), (Bool.eqb c d). split.
    + intros [|f] L; [lia|]. rewrite (step W s n EQ a ka b kb A B f HA HB U). cbn [eval_op]. unfold eval_eq.
      replace (is_pred A || is_pred B) with true by (destruct D as [-> | ->]; auto using orb_true_r). rewrite E, E' by lia. reflexivity.
    + rewrite eqb_true_iff. destruct c, d; intuition congruence.
  - destruct IP as (f1 & c & E & Q1). destruct IQ as (f2 & d & E' & Q2). exists (S (Nat.max f1 f2)), (negb (Bool.eqb c d)). split.
    + intros [|f] L; [lia|]. rewrite (step W s n NEQ a ka b kb A B f HA HB U). cbn [eval_op]. unfold eval_eq.
      replace (is_pred A || is_pred B) with true by (destruct D as [-> | ->]; auto using orb_true_r). rewrite E, E' by lia. reflexivity.
    + rewrite negb_true_iff, eqb_false_iff. destruct c, d; intuition congruence.
  - destruct (foreach_ok W s false items P IP) as (f1 & c & E & Q). exists (S f1), (negb c). split.
    + intros [|f] L; [lia|]. rewrite (step W s n ALL a ka b kb (Coll m items) B f HA HB U). cbn [eval_op all_of]. rewrite E by lia. destruct c; reflexivity.
    + assert (D: forall i, i < length items -> P i \/ ~ P i).
      { intros i L. destruct (nth_error items i) as [x|] eqn:X; [|apply nth_error_None in X; lia]. destruct (IP i x X) as (_ & [|] & _ & Y); [left; tauto|right; intros Z; apply Y in Z; discriminate]. }
      destruct c; cbn.
      * split; [discriminate|]. intros G. destruct (proj1 Q eq_refl) as (i & L & N). elim N. auto.
      * split; auto. intros _ i L. destruct (D i L) as [Y|Y]; auto. assert (false = true) by (apply Q; eauto). discriminate.
  - destruct (foreach_ok W s true items P IP) as (f1 & c & E & Q). exists (S f1), c. split; [|exact Q].
    intros [|f] L; [lia|]. rewrite (step W s n ANY a ka b kb (Coll m items) B f HA HB U). cbn [eval_op any_of]. rewrite E by lia. destruct c; reflexivity.
  - destruct (foreach_ok W s true items P IP) as (f1 & c & E & Q). exists (S f1), (negb c). split.
    + intros [|f] L; [lia|]. rewrite (step W s n NONE a ka b kb (Coll m items) B f HA HB U). cbn [eval_op any_of]. rewrite E by lia. destruct c; reflexivity.
    + destruct c; cbn; split; auto; try discriminate.
      * intros G. destruct (proj1 Q eq_refl) as (i & L & N). elim (G i L N).
      * intros _ i L N. assert (false = true) by (apply Q; eauto). discriminate.
Qed.
(** ** Every logical tree stands for a proposition *)
Lemma operand_filled W s a : operand W s a None (filled s a).
Proof. destruct a; cbn; constructor; congruence. Qed.
Lemma usable_none o A B : o <> CONTAINS -> usable o A B None None.
Proof. intros H. split; auto. contradiction. Qed.
Lemma choose (items : list obj) (R : obj -> Prop -> Prop) : (forall x, In x items -> exists P, R x P) -> exists P : nat -> Prop, forall i x, nth_error items i = Some x -> R x (P i).
Proof.
  induction items as [|y items IH]; intros H.
  - exists (fun _ => True). intros [|i] x X; discriminate.
  - destruct IH as (P & HP); [intros x X; apply H; cbn; auto|]. destruct (H y (or_introl eq_refl)) as (Q & HQ).
    exists (fun i => match i with O => Q | S i => P i end). intros [|i] x X; cbn in X; [injection X as <-; exact HQ|eauto].
Qed.
Lemma logical_means W s x : logical W s x -> exists P, means W usable s x P.
Proof.
  intros H. induction H as [|x b N NP E|n a b _ (P & IP)|n o a b O _ (P & IP) _ (Q & IQ)|n o a b O|n o a m items b O F _ IH].
  - eexists. constructor.
  - eexists. eapply m_value; eauto.
  - eexists. eapply m_not; eauto using operand_filled. apply usable_none. discriminate.
  - assert (U: usable o (filled s a) (filled s b) None None) by (apply usable_none; intros ->; cbn in O; intuition discriminate).
    cbn in O. destruct O as [<-|[<-|[<-|[<-|[]]]]].
    + eexists. eapply m_and; eauto using operand_filled.
    + eexists. eapply m_or; eauto using operand_filled.
    + destruct (is_pred (filled s a)) eqn:A; [eexists; eapply m_eq; eauto using operand_filled|].
      destruct (is_pred (filled s b)) eqn:B; [eexists; eapply m_eq; eauto using operand_filled|].
      eexists. eapply m_relates; eauto using operand_filled. now constructor.
    + destruct (is_pred (filled s a)) eqn:A; [eexists; eapply m_neq; eauto using operand_filled|].
      destruct (is_pred (filled s b)) eqn:B; [eexists; eapply m_neq; eauto using operand_filled|].
      eexists. eapply m_relates; eauto using operand_filled. now constructor.
  - assert (U: usable o (filled s a) (filled s b) None None) by (apply usable_none; intros ->; cbn in O; intuition discriminate).
    cbn in O. destruct O as [<-|[<-|[<-|[<-|[<-|[<-|[<-|[]]]]]]]]; eexists; (eapply m_relates; [apply operand_filled|apply operand_filled|exact U|constructor]).
  - assert (U: usable o (filled s a) (filled s b) None None) by (apply usable_none; intros ->; cbn in O; intuition discriminate).
    pose proof (operand_filled W s a) as HA. rewrite F in HA, U. destruct (choose items (means W usable s) IH) as (P & HP).
    cbn in O. destruct O as [<-|[<-|[<-|[]]]]; eexists; [eapply m_all|eapply m_any|eapply m_none]; eauto using operand_filled.
Qed.
Lemma logical_decided W s x : fair W -> logical W s x -> exists P, means W usable s x P /\ decides W s x P.
Proof. intros F H. destruct (logical_means W s x H) as (P & HP). eauto using means_decides. Qed.
(** ** Where it goes wrong *)
(** Objects with two properties: under key 0 the object 0, under key 1 the object itself. *)
Definition demo : world := mkW (fun _ => Ok true) (fun a b => ident a =? ident b) (fun a b => Z.of_nat (ident b) - Z.of_nat (ident a))%Z
  (fun c x => match c with Coll _ items => Ok (existsb (fun y => ident x =? ident y) items) | _ => Fatal end) (fun _ _ => Fatal)
  (fun x k => if k =? 0 then Leaf 0 else x) (fun _ => false) (fun _ => false) (fun _ _ => false) (fun _ _ => false).
Lemma demo_fair : fair demo.
Proof. intros a b. cbn. lia. Qed.
(** The property 0 of object 1 is equal to the property 1 of object 2: no, but the code compares
    the property 0 of both. *)
Lemma keys_wrong : exists x P, fair demo /\ means demo anything Nil x P /\ ~ P /\ forall f, 1 < f -> eval f demo Nil x = Ok true.
Proof.
  exists (Pred 9 EQ (Leaf 1) (Some 0) (Leaf 2) (Some 1)), (same demo (Leaf 0) (Leaf 2)). split; [apply demo_fair|]. split; [|split].
  - eapply m_relates with (A := Leaf 0) (B := Leaf 2); [apply (operand_object_key demo Nil (Leaf 1) 0); discriminate|apply (operand_object_key demo Nil (Leaf 2) 1); discriminate|exact Logic.I|now constructor].
  - intros [H|(_ & _ & H)]; discriminate.
  - intros [|[|f]] L; try lia. reflexivity.
Qed.
(** A collection that contains a string is taken for a string. *)
Lemma contains_wrong : exists x P, fair demo /\ means demo anything Nil x P /\ P /\ forall f, 1 < f -> eval f demo Nil x = UB.
Proof.
  exists (Pred 9 CONTAINS (Coll 5 [Str 1 [97%N]]) None (Str 1 [97%N]) None), (true = true). split; [apply demo_fair|]. split; [|split; auto].
  - eapply m_relates; [apply operand_object; discriminate|apply operand_object; discriminate|exact Logic.I|now constructor].
  - intros [|[|f]] L; try lia. reflexivity.
Qed.
(** A predicate evaluated for itself. *)
Lemma itself W n : forall f, eval f W (Pred n NOT Nil None Nil None) (Pred n NOT Nil None Nil None) = NoFuel.
Proof. induction f as [|f IH]; [reflexivity|]. cbn [eval is_nil eval_op]. rewrite IH. reflexivity. Qed.
