(** Properties C164-C166: descriptions. *)
Require Import Coq.Strings.String Coq.Strings.Ascii Coq.ZArith.ZArith Coq.NArith.NArith Coq.Lists.List Coq.Bool.Bool.
Require Import Verif.Base Verif.Strtonum_Model Verif.JSON_Model Verif.Predicate_Model Verif.Describe_Model Verif.Describe_Spec.
Require Verif.Describe_Proofs Verif.Describe_Alike.
Import ListNotations.
Local Open Scope N_scope.

(** C164, what holds: the description of an object ends exactly if following members, keys, objects and
    operands from it always ends. *)
Theorem C164_ends_partial :
  forall h p, closed h -> (p < length h)%nat ->
    ((exists fuel t, describe lower_half h fuel (Some p) = Ok t) <-> Acc (part h) p).
Proof. exact Describe_Proofs.ends_iff. Qed.
Print Assumptions C164_ends_partial.

(** C164 is false of the code: the description of a list that was added to itself never ends. *)
Theorem C164_itself_refuted :
  exists h p, closed h /\ (p < length h)%nat /\ forall fuel, describe lower_half h fuel (Some p) = NoFuel.
Proof.
  exists [Collection (ascii "DKMutableArray") [Some 0%nat]], 0%nat. split; [repeat constructor|]. split; [constructor|]. exact (Describe_Proofs.itself _).
Qed.
Print Assumptions C164_itself_refuted.

(** C165, what holds where the lower half of a DKIndex is read as an int: the description of a
    collection is the name of its class, the number of its members and one line for each, in the order
    of enumeration, strings in quotes; those of other objects are as listed in Describe_Spec; and no
    other text is ever returned.  Missing: collections of 2^31 members and more, and what the C standard
    says (see below). *)
Theorem C165_says_partial :
  forall h r fuel t, small h -> describe lower_half h fuel r = Ok t ->
    described h r t /\ forall fuel' t', describe lower_half h fuel' r = Ok t' -> t' = t.
Proof. exact Describe_Proofs.says. Qed.
Print Assumptions C165_says_partial.

(** C165 is false of the code: the number of members is passed as a DKIndex and read as an int.  By the
    C standard the behaviour is undefined for every collection; *)
Theorem C165_undefined_refuted :
  forall h p o fuel, nth_error h p = Some o -> match o with Collection _ _ | Keyed _ _ => True | _ => False end ->
    describe strict h (S fuel) (Some p) = UB.
Proof. exact Describe_Proofs.undefined. Qed.
Print Assumptions C165_undefined_refuted.

(** and where it is defined by the platform, 2^31 members are said to be -2147483648. *)
Theorem C165_count_refuted :
  forall cls, exists l, Z.of_nat (length l) = (2^31)%Z /\
    exists fuel t, describe lower_half [Collection cls l] fuel (Some 0%nat) = Ok (cls ++ ascii ", -2147483648 objects = (" ++ t).
Proof. exact Describe_Proofs.count_wrong. Qed.
Print Assumptions C165_count_refuted.

(** C166, what holds: two objects with the same description are the same collections of the same
    members, at every depth, up to objects that are not collections and have the same description -
    provided that no strings and predicates are among them. *)
Theorem C166_tells_apart_partial :
  forall keyed h h' r r' fuel fuel' t,
    Forall (simple keyed) h -> Forall (simple keyed) h' -> small h -> small h' ->
    describe lower_half h fuel r = Ok t -> describe lower_half h' fuel' r' = Ok t -> alike h h' r r'.
Proof. exact Describe_Alike.tells_apart. Qed.
Print Assumptions C166_tells_apart_partial.

(** C166 is false of the code: quotes in strings are not escaped, so two lists of two different strings
    have the same description; *)
Theorem C166_quotes_refuted :
  exists h t p q a b c d, nth_error h p = Some (Collection (ascii "DKArray") [Some a; Some b]) /\ nth_error h q = Some (Collection (ascii "DKArray") [Some c; Some d]) /\
    (exists s s', nth_error h a = Some (Text s) /\ nth_error h c = Some (Text s') /\ s <> s') /\
    describe lower_half h 2 (Some p) = Ok t /\ describe lower_half h 2 (Some q) = Ok t.
Proof.
  destruct Describe_Proofs.tricky_same as (t & A & B). exists Describe_Proofs.tricky_heap, t, 0%nat, 1%nat, 2%nat, 3%nat, 4%nat, 5%nat.
  split; [reflexivity|]. split; [reflexivity|]. split; [|split; assumption]. eexists. eexists. split; [reflexivity|]. split; [reflexivity|]. discriminate.
Qed.
Print Assumptions C166_quotes_refuted.

(** and a predicate on the string of one star is described like one on the object substituted. *)
Theorem C166_star_refuted :
  exists h p q a, nth_error h p = Some (Predicate EQ (Some a) None None None) /\ nth_error h q = Some (Predicate EQ None None (Some a) None) /\
    describe lower_half h 2 (Some p) = Ok (ascii "* EQ *") /\ describe lower_half h 2 (Some q) = Ok (ascii "* EQ *").
Proof. exists Describe_Proofs.star_heap, 1%nat, 2%nat, 0%nat. split; [reflexivity|]. split; [reflexivity|]. exact Describe_Proofs.star_same. Qed.
Print Assumptions C166_star_refuted.

(** A list of a number and of a dictionary of NULL: the hypotheses hold. *)
Example C164_case :
  let h := [Collection (ascii "DKArray") [Some 1%nat; Some 2%nat; None]; Number [NInt 12; NInt (-3)]; Keyed (ascii "DKHashTable") [(Some 1%nat, Some 3%nat)]; Boolean true] in
  let keyed cls := if list_eq_dec N.eq_dec cls (ascii "DKHashTable") then true else false in
  closed h /\ small h /\ Forall (simple keyed) h /\
  describe lower_half h 3 (Some 0%nat) = Ok (
    ascii "DKArray, 3 objects = (" ++ new_line ++
    ascii "12 -3," ++ new_line ++
    ascii "DKHashTable, 1 objects = (" ++ new_line ++ ascii "12 -3 = true" ++ [10] ++ ascii ")," ++ new_line ++
    ascii "null" ++ [10] ++ ascii ")").
Proof.
  cbv zeta. split; [repeat constructor|]. split; [repeat constructor|]. split.
  - repeat constructor; cbn [simple]; try (split; [|reflexivity]); repeat constructor.
  - vm_compute. reflexivity.
Qed.
Print Assumptions C164_case.
