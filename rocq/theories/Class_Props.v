(** Properties of classes. *)
Require Import Coq.NArith.NArith Coq.Lists.List.
Require Import Verif.Base Verif.Class_Model Verif.Class_Spec Verif.Class_Proofs Verif.Class_Steps Verif.Class_More Verif.Class_Cases Verif.Class_Anchor.
Import ListNotations.

(** C124: what exists is what is held. *)
Theorem C124_lifetimes : forall hash w c i, reach hash w c -> (exists_ w i <-> held w c i).
Proof. exact lifetimes. Qed.
Print Assumptions C124_lifetimes.
Theorem C124_classes : forall hash w c i k, reach hash w c -> instance_of w i k \/ subclass_of w i k -> is_class w k.
Proof. exact classes. Qed.
Print Assumptions C124_classes.
Example C124_case : exists w c, reach real_hash w c /\ c = [11] /\ instance_of w 11 10 /\ subclass_of w 10 6 /\ held w c 10.
Proof. exact kept_case. Qed.
Example C124_case_gone : exists w c, reach real_hash w c /\ c = [] /\ length (heap w) = 12 /\ ~ exists_ w 10 /\ ~ exists_ w 11.
Proof. exact gone_case. Qed.

(** C125: names. *)
Theorem C125_found : forall hash w c n r, reach hash w c -> class_from_string hash w n = Ok r -> forall i, r = Some i <-> named w i n.
Proof. exact by_name. Qed.
Print Assumptions C125_found.
Theorem C125_unique : forall hash w c i j n, reach hash w c -> named w i n -> named w j n -> i = j.
Proof. exact names_unique. Qed.
Print Assumptions C125_unique.
Theorem C125_search : forall w c n, reach real_hash w c -> exists r, class_from_string real_hash w n = Ok r.
Proof. exact search_ok. Qed.
Print Assumptions C125_search.
Theorem C125_search_any_hash : forall hash w c n, reach hash w c -> ~ tight w -> exists r, class_from_string hash w n = Ok r.
Proof. exact by_name_ok. Qed.
Print Assumptions C125_search_any_hash.
Theorem C125_making : forall w c n s pre abs unc imm, reach real_hash w c -> (forall s', s = Some s' -> is_class w s') ->
  let o := NewClass n s pre abs unc imm in
  (exists w' i, step real_hash w o = Ok (w', Some i) /\ ~ exists_ w i /\ (exists p k, is_cell w' i p /\ live p = true /\ what p = Some k /\ cname k = n /\ csuper k = s /\ abstract k = abs /\ prevent k = pre /\ uncounted k = unc /\ immutable k = imm)) \/
  (step real_hash w o = Fatal /\ ((exists s', s = Some s' /\ final_class w s') \/ (exists x j, n = Some x /\ named w j x) \/ names_full w)).
Proof. exact making_ok. Qed.
Print Assumptions C125_making.
Theorem C125_making_any_hash : forall hash w c n s pre abs unc imm, reach hash w c -> (forall s', s = Some s' -> is_class w s') -> ~ tight w ->
  let o := NewClass n s pre abs unc imm in
  (exists w' i, step hash w o = Ok (w', Some i) /\ ~ exists_ w i /\ (exists p k, is_cell w' i p /\ live p = true /\ what p = Some k /\ cname k = n /\ csuper k = s /\ abstract k = abs /\ prevent k = pre /\ uncounted k = unc /\ immutable k = imm)) \/
  (step hash w o = Fatal /\ ((exists s', s = Some s' /\ final_class w s') \/ (exists x j, n = Some x /\ named w j x) \/ names_full w)).
Proof. exact new_class_safe. Qed.
Print Assumptions C125_making_any_hash.
Theorem C125_refused : forall hash w c n s pre abs unc imm r, reach hash w c -> step hash w (NewClass n s pre abs unc imm) = Ok r ->
  (forall s', s = Some s' -> is_class w s' /\ ~ final_class w s') /\ (forall x, n = Some x -> ~ exists j, named w j x).
Proof. exact new_class_refused. Qed.
Print Assumptions C125_refused.
Example C125_case : exists w, runtime_init real_hash = Ok w /\ ~ tight w /\ named w 6 name_object /\ class_from_string real_hash w name_object = Ok (Some 6) /\ class_from_string real_hash w [75%N] = Ok None /\
  step real_hash w (NewClass (Some name_object) None false false false false) = Fatal.
Proof. exact names_case. Qed.

(** C126: ancestry. *)
Theorem C126_kind : forall hash w c i k cl, reach hash w c -> instance_of w i cl -> exists b, is_kind w i k = Ok b /\ (b = true <-> inherits w cl k).
Proof. exact kinds. Qed.
Print Assumptions C126_kind.
Theorem C126_subclass : forall hash w c i k, reach hash w c -> is_class w i -> exists b, is_subclass w i k = Ok b /\ (b = true <-> inherits w i k).
Proof. exact subclasses. Qed.
Print Assumptions C126_subclass.
Theorem C126_order : forall hash w c i j k, reach hash w c ->
  (inherits w i j -> inherits w j k -> inherits w i k) /\ (inherits w i j -> inherits w j i -> i = j) /\ (inherits w i j -> inherits w i k -> inherits w j k \/ inherits w k j).
Proof. exact ancestry_order. Qed.
Print Assumptions C126_order.
Theorem C126_stable : forall hash w c o w' r i j, reach hash w c -> step hash w o = Ok (w', r) -> exists_ w i -> exists_ w' i -> (instance_of w' i j <-> instance_of w i j) /\ (subclass_of w' i j <-> subclass_of w i j).
Proof. exact ancestry_stable. Qed.
Print Assumptions C126_stable.
Theorem C126_told : forall hash w c i cl, reach hash w c -> instance_of w i cl ->
  class_of w i = Ok cl /\ (forall k, is_member w i k = Ok (Nat.eqb cl k)) /\ (exists s, superclass_of w i = Ok s /\ forall j, s = Some j <-> subclass_of w cl j) /\ (exists b, is_mutable w i = Ok b /\ (b = false <-> immutable_class w cl)).
Proof. exact queries. Qed.
Print Assumptions C126_told.
Theorem C126_name : forall hash w c i cl, reach hash w c -> instance_of w i cl ->
  (is_class w i -> exists n, class_name w i = Ok n /\ forall x, n = Some x <-> named w i x) /\
  (~ is_class w i -> cl <> 1 -> exists n, class_name w i = Ok n /\ forall x, n = Some x <-> named w cl x).
Proof. exact class_names. Qed.
Print Assumptions C126_name.
Example C126_case : exists w c, reach real_hash w c /\ is_kind w 11 6 = Ok true /\ is_kind w 11 8 = Ok false /\ is_subclass w 10 6 = Ok true /\ is_subclass w 6 10 = Ok false.
Proof. exact kind_case. Qed.

(** C127: safety of retaining, releasing and allocating. *)
Theorem C127_retain : forall hash w c i, reach hash w c -> exists_ w i -> exists w', step hash w (Retain i) = Ok (w', None).
Proof. exact retain_safe. Qed.
Print Assumptions C127_retain.
Theorem C127_alloc : forall hash w c i, reach hash w c -> is_class w i ->
  (abstract_class w i /\ step hash w (Alloc i) = Fatal) \/ (~ abstract_class w i /\ exists w' j, step hash w (Alloc i) = Ok (w', Some j) /\ instance_of w' j i /\ ~ exists_ w j /\ exists p, is_cell w' j p /\ (counted p = false <-> uncounted_class w i)).
Proof. exact alloc_safe. Qed.
Print Assumptions C127_alloc.
Theorem C127_release_partial : forall w c i, reach real_hash w c -> In i c -> (forall j, ~ nameless w j) -> exists w', step real_hash w (Release i) = Ok (w', None) /\ forall j, ~ nameless w' j.
Proof. exact release_ok. Qed.
Print Assumptions C127_release_partial.
Theorem C127_nameless_refuted : exists w c i, reach real_hash w c /\ In i c /\ ~ tight w /\ step real_hash w (Release i) = UB.
Proof. exact nameless_case. Qed.
Print Assumptions C127_nameless_refuted.
Example C127_case : exists w, reach real_hash w [] /\ is_class w 0 /\ step real_hash w (Alloc 0) = Fatal /\ is_class w 6 /\ exists w', step real_hash w (Alloc 6) = Ok (w', Some 10) /\ class_name w' 10 = Ok (Some name_object) /\ class_name w' 6 = Ok (Some name_object) /\ is_mutable w' 10 = Ok true.
Proof. exact alloc_case. Qed.
