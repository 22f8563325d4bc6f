(** Property theorems about predicates. *)
Require Import Coq.ZArith.ZArith Coq.NArith.NArith Coq.Lists.List Coq.Arith.Arith.
Require Import Verif.Base Verif.Utf8_Model Verif.Predicate_Model Verif.Predicate_Spec Verif.Predicate_Proofs.
Import ListNotations.

(** C58, the part that holds: evaluating a predicate that stands for the proposition [P]
    terminates, and says whether [P] holds.  Missing: second keys that differ from the first,
    and collections that are asked for a string ([usable]). *)
Theorem C58_evaluate_partial : forall W s x P, fair W -> means W usable s x P ->
  exists f0 b, (forall f, f0 <= f -> eval f W s x = Ok b) /\ (b = true <-> P).
Proof. exact means_decides. Qed.
Print Assumptions C58_evaluate_partial.
(** Every tree of logical operators and comparisons stands for a proposition and is
    evaluated accordingly. *)
Theorem C58_logic : forall W s x, fair W -> logical W s x ->
  exists P, means W usable s x P /\ exists f0 b, (forall f, f0 <= f -> eval f W s x = Ok b) /\ (b = true <-> P).
Proof. exact logical_decided. Qed.
Print Assumptions C58_logic.
(** not (any of [object 1 comes before the subject; the subject is object 3]) or "ab" begins with "a" *)
Definition case : obj :=
  Pred 20 OR (Pred 21 NOT (Pred 22 ANY (Coll 30 [Pred 23 LT (Leaf 1) None Nil None; Pred 24 IS Nil None (Leaf 3) None]) None Nil None) None Nil None) None
    (Pred 25 BEGINSWITH (Str 31 [97%N; 98%N]) None (Str 32 [97%N]) None) None.
Example C58_case : fair demo /\ (exists P, means demo usable (Leaf 2) case P) /\ eval 9 demo (Leaf 2) case = Ok true /\
  eval 9 demo (Leaf 2) (Pred 22 ANY (Coll 30 [Pred 23 LT (Leaf 1) None Nil None; Pred 24 IS Nil None (Leaf 3) None]) None Nil None) = Ok true /\
  eval 9 demo (Leaf 0) (Pred 22 ANY (Coll 30 [Pred 23 LT (Leaf 1) None Nil None; Pred 24 IS Nil None (Leaf 3) None]) None Nil None) = Ok false /\
  logical demo (Leaf 2) (Pred 22 ANY (Coll 30 [Pred 23 LT (Leaf 1) None Nil None; Pred 24 IS Nil None (Leaf 3) None]) None Nil None).
Proof.
  split; [apply demo_fair|]. split; [|repeat split; try reflexivity].
  - assert (L: logical demo (Leaf 2) (Pred 21 NOT (Pred 22 ANY (Coll 30 [Pred 23 LT (Leaf 1) None Nil None; Pred 24 IS Nil None (Leaf 3) None]) None Nil None) None Nil None)).
    { constructor. cbn. eapply l_many; [cbn; auto|reflexivity|]. intros x [<-|[<-|[]]]; apply l_order; cbn; auto. }
    destruct (logical_means _ _ _ L) as (P & HP). eexists. eapply m_or; [apply operand_object; discriminate|apply operand_object; discriminate|apply usable_none; discriminate|exact HP|].
    eapply m_relates; [apply operand_object; discriminate|apply operand_object; discriminate|apply usable_none; discriminate|].
    apply r_begins with (ca := [97%N; 98%N]) (cb := [97%N]); [eexists|eexists|discriminate]; (split; [reflexivity|split; [repeat constructor; vm_compute; auto|vm_compute; auto]]).
    all: try intros [G _]; try discriminate; try (intros H; congruence); contradiction G; reflexivity.
  - eapply l_many; [cbn; auto|reflexivity|]. intros x [<-|[<-|[]]]; apply l_order; cbn; auto.
Qed.
(** C58 does not hold of predicates with two keys: the second operand is read with the first key. *)
Theorem C58_keys_refuted : exists x P, fair demo /\ means demo anything Nil x P /\ ~ P /\ forall f, 1 < f -> eval f demo Nil x = Ok true.
Proof. exact keys_wrong. Qed.
Print Assumptions C58_keys_refuted.
(** C58 does not hold of CONTAINS: a collection that contains a string is read as a string. *)
Theorem C58_contains_refuted : exists x P, fair demo /\ means demo anything Nil x P /\ P /\ forall f, 1 < f -> eval f demo Nil x = UB.
Proof. exact contains_wrong. Qed.
Print Assumptions C58_contains_refuted.
(** A predicate with an open operand never returns when it is evaluated for itself. *)
Theorem C58_itself_refuted : forall W n f, eval f W (Pred n NOT Nil None Nil None) (Pred n NOT Nil None Nil None) = NoFuel.
Proof. exact itself. Qed.
Print Assumptions C58_itself_refuted.
