(** Properties of equality, comparison and hashing of objects. *)
Require Import Coq.ZArith.ZArith Coq.NArith.NArith Coq.Lists.List Coq.micromega.Lia.
Require Import Verif.Base Verif.Number_Model Verif.Number_Spec Verif.Utf8_Spec Verif.Compare_Model Verif.Compare_Spec Verif.Compare_Proofs.
Import ListNotations.
Local Open Scope N_scope.

Ltac memory := apply memory_parts; intros x y Ix Iy E; cbn in Ix, Iy;
  repeat match goal with H : _ \/ _ |- _ => destruct H as [H|H] | H : False |- _ => destruct H end; subst; try reflexivity; discriminate E.
Ltac each := intros x H; apply inside_parts in H; cbn in H;
  repeat match goal with H : _ \/ _ |- _ => destruct H as [H|H] | H : False |- _ => destruct H end; subst; cbn; auto;
  repeat split; cbn; auto; try (intros [?|[]]; discriminate); repeat constructor; discriminate.

(** C103 for references to objects in one memory, with strings without NUL, numbers of one
    integer type and structures with semantics: objects are equal exactly if their contents
    are.  Missing, and false: structures without semantic, below, and numbers of different
    types, see C35.  Not covered: numbers of floating point types, and objects that contain
    themselves. *)
Theorem C103_contents_partial : forall t a b, (forall o, In o (objects [a; b]) -> proper t o) -> one_memory (objects [a; b]) ->
  exists e, dk_equal a b = Ok e /\ (e = true <-> both same a b).
Proof. exact equality. Qed.
Print Assumptions C103_contents_partial.
(** C103, under the same conditions: an equivalence relation. *)
Theorem C103_equivalence_partial : forall t a b c, (forall o, In o (objects [a; b; c]) -> proper t o) -> one_memory (objects [a; b; c]) ->
  dk_equal a a = Ok true /\ dk_equal a b = dk_equal b a /\ (dk_equal a b = Ok true -> dk_equal b c = Ok true -> dk_equal a c = Ok true).
Proof. exact equality_laws. Qed.
Print Assumptions C103_equivalence_partial.
Definition pair_of (p q : N) : obj := OPair p (Some (OString q [97])) (Some (OList (q + 8) true [None; Some (OOther 64); Some (ONumber (q + 4) (mkNum int32 (Vec 1) [7; 0; 0; 0]%Z))])).
Example C103_example : (forall o, In o (objects [Some (pair_of 16 32); Some (pair_of 128 160)]) -> proper int32 o) /\
  one_memory (objects [Some (pair_of 16 32); Some (pair_of 128 160)]) /\ dk_equal (Some (pair_of 16 32)) (Some (pair_of 128 160)) = Ok true /\
  dk_equal (Some (pair_of 16 32)) (Some (OString 200 [97])) = Ok false.
Proof.
  split; [|split; [memory|split; vm_compute; reflexivity]].
  intros o [<-|[<-|[]]]; each.
Qed.
(** C103 is false for structures without semantic: with the same bytes they are not equal, and
    comparing one that has a semantic with one that has none uses the string NULL. *)
Theorem C103_struct_refuted : exists a b c, one_memory [a; b; c] /\ same a b /\ dk_equal (Some a) (Some b) = Ok false /\ dk_equal (Some c) (Some a) = UB.
Proof. exists (OStruct 16 None [1]), (OStruct 32 None [1]), (OStruct 48 (Some [97]) [1]). split; [memory|]. split; [constructor|]. split; vm_compute; reflexivity. Qed.
Print Assumptions C103_struct_refuted.

(** C104 under the conditions of C103, for objects without lists and dictionaries inside. *)
Theorem C104_hash_partial : forall t a b, (forall o, In o (objects [a; b]) -> proper t o) -> (forall o, In o (objects [a]) -> no_collection o) -> one_memory (objects [a; b]) ->
  dk_equal a b = Ok true -> exists h, dk_hash a = Ok h /\ dk_hash b = Ok h.
Proof. exact hashing. Qed.
Print Assumptions C104_hash_partial.
Example C104_example : let p := OPair 16 (Some (OString 32 [97])) None in let q := OPair 48 (Some (OString 64 [97])) None in
  one_memory (objects [Some p; Some q]) /\ proper int32 p /\ proper int32 q /\ no_collection p /\ dk_equal (Some p) (Some q) = Ok true /\ dk_hash (Some p) = Ok 97 /\ dk_hash (Some q) = Ok 97.
Proof.
  cbv zeta. split; [memory|]. split; [each|]. split; [each|]. split; [each|]. vm_compute; auto.
Qed.
(** C104 is false for lists and dictionaries: equal ones have different hashes. *)
Theorem C104_refuted : exists a b c d h1 h2 h3 h4, one_memory [a; b; c; d] /\ dk_equal (Some a) (Some b) = Ok true /\ dk_hash (Some a) = Ok h1 /\ dk_hash (Some b) = Ok h2 /\ h1 <> h2 /\
  dk_equal (Some c) (Some d) = Ok true /\ dk_hash (Some c) = Ok h3 /\ dk_hash (Some d) = Ok h4 /\ h3 <> h4.
Proof.
  exists (OList 16 false [None]), (OList 32 false [None]), (ODict 48 [([97], OOther 80)]), (ODict 64 [([97], OOther 80)]), 1, 2, 3, 4.
  split; [memory|]. repeat split; try (vm_compute; reflexivity); discriminate.
Qed.
Print Assumptions C104_refuted.

(** C105 for references to objects of one kind: well-formed strings, data, numbers of one integer
    type, objects without contents, and pairs of these, to any depth.  Missing, and false: other
    mixtures, below, and lists, see C19. *)
Theorem C105_order_partial : forall k a b c, ref_of_kind k a -> ref_of_kind k b -> ref_of_kind k c -> one_memory (objects [a; b; c]) ->
  exists x y z w, dk_compare a b = Ok x /\ dk_compare b a = Ok y /\ dk_compare b c = Ok z /\ dk_compare a c = Ok w /\
    (0 < x <-> y < 0)%Z /\ (x = 0 <-> y = 0)%Z /\ (0 <= x -> 0 <= z -> 0 <= w)%Z /\ (x = 0%Z <-> both same a b).
Proof. exact order. Qed.
Print Assumptions C105_order_partial.
Example C105_example : let p := OPair 16 (Some (OString 32 (encode [97]))) None in let q := OPair 48 (Some (OString 64 (encode [97]))) (Some (OData 96 [1])) in
  one_memory (objects [Some p; Some q; None]) /\ ref_of_kind (KPair KString KData) (Some p) /\ ref_of_kind (KPair KString KData) (Some q) /\ ref_of_kind (KPair KString KData) None /\ 
  dk_compare (Some p) (Some q) = Ok (-1)%Z /\ dk_compare (Some q) None = Ok 1%Z.
Proof.
  cbv zeta. split; [memory|].
  assert (C : Forall char_ok [97]) by (constructor; [unfold char_ok, scalar; lia|constructor]).
  split; [|split; [|split; [discriminate|vm_compute; auto]]]; intros o E; injection E as <-; apply k_pair; intros o E; try discriminate; injection E as <-;
    first [apply (k_string _ _ C)|apply k_data].
Qed.
(** C105 is false: two strings and an object of another class can come before each other in a
    circle, equal dictionaries do not compare as equal, and a number is compared with a string
    as if it were a number. *)
Theorem C105_refuted : exists a b c, one_memory [a; b; c] /\ dk_compare (Some a) (Some b) = Ok 1%Z /\ dk_compare (Some b) (Some c) = Ok 1%Z /\ dk_compare (Some c) (Some a) = Ok 1%Z.
Proof. exists (OString 48 [97]), (OString 16 [98]), (OOther 32). split; [memory|]. repeat split; vm_compute; reflexivity. Qed.
Print Assumptions C105_refuted.
Theorem C105_dictionary_refuted : exists a b, one_memory [a; b] /\ dk_equal (Some a) (Some b) = Ok true /\ dk_compare (Some a) (Some b) = Ok 1%Z.
Proof. exists (ODict 48 [([97], OOther 80)]), (ODict 64 [([97], OOther 80)]). split; [memory|]. repeat split; vm_compute; reflexivity. Qed.
Print Assumptions C105_dictionary_refuted.
Theorem C105_number_refuted : exists a b, one_memory [a; b] /\ proper int32 a /\ dk_compare (Some a) (Some b) = UB.
Proof.
  exists (ONumber 16 (mkNum int32 (Vec 1) [7; 0; 0; 0]%Z)), (OString 32 [97]). split; [memory|]. split; [|reflexivity].
  each.
Qed.
Print Assumptions C105_number_refuted.
