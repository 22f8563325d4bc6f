(** Properties of classes, interfaces, initialisation and finalization. *)
Require Import Coq.Lists.List Coq.Arith.Arith Coq.Bool.Bool.
Require Import Verif.Base Verif.Runtime_Model Verif.Runtime_Spec Verif.Runtime_Proofs.
Import ListNotations.

(** C48: whatever is created, installed and looked up, the results are those of classes that
    are plain maps from selectors to interfaces. *)
Theorem C48_lookup : forall os, visible (execs start os) = visible (s_execs s_start os).
Proof. exact refines. Qed.
Print Assumptions C48_lookup.
(** Three dynamic selectors share a line with a fourth; the lookups alternate, a subclass
    overrides one method and inherits another, later changes of the superclass are not seen. *)
Example C48_case :
  let os := repeat NewSelector 17 ++
    [NewInterface 0 [Some 1; Some 2]; NewInterface 16 [Some 3]; NewInterface 0 [None; Some 5]; NewInterface 16 [Some 9];
     NewRootClass 16 false false [] [0; 1]; NewClass 0 24 false false true true; Query 1 true 0; Query 1 true 16; Query 1 true 0;
     Install 1 2; Get 1 true 0; Methods 2; NewClass 1 0 true false false false; Get 2 true 0; Get 2 true 16;
     InstallMsg 1 true 16 44; Get 1 true 16; Get 2 true 16; Query 1 true 5; GetMsg 1 true 5 16 0 (fun _ => true); Query 2 false 0] in
  visible (execs start os) = Ok (repeat Nothing 23 ++
    [Found (Some 0); Found (Some 1); Found (Some 0); Nothing; Found (Some 2); The [Some 1; Some 5]; Nothing; Found (Some 2); Found (Some 1);
     Nothing; Found (Some 4); Found (Some 1); Found None; Handler (Some 4); Found None]).
Proof. vm_compute. reflexivity. Qed.

(** C47: the initialisers of a class and its superclasses are executed once each, the root
    first, and no more after the first that fails; a class without initialiser that does not
    allow that of its superclass stops the program. *)
Theorem C47_init : forall os r xs ok c, execs start os = Ok (r, xs) -> c < length (classes r) ->
  exists l, line (classes r) c l /\ NoDup l /\
  init_object r ok c = if existsb (forbidden (classes r)) l then Fatal
                       else Ok (map Inited (until_failure ok (rev (filter (initialiser (classes r)) l))), forallb ok (filter (initialiser (classes r)) l)).
Proof. exact init_order. Qed.
Print Assumptions C47_init.
(** The finalizers are executed once each, the most derived class first. *)
Theorem C47_finalize : forall os r xs c, execs start os = Ok (r, xs) -> c < length (classes r) ->
  exists l, line (classes r) c l /\ NoDup l /\ finalize_object r c = Ok (map Finalized (filter (finalizer (classes r)) l)).
Proof. exact finalize_order. Qed.
Print Assumptions C47_finalize.
(** A class has only one line of superclasses. *)
Theorem C47_line : forall ks c l l', line ks c l -> line ks c l' -> l = l'.
Proof. exact line_fun. Qed.
Print Assumptions C47_line.
Example C47_case : exists r xs,
  execs start [NewRootClass 16 false true [] []; NewClass 0 24 false false true true; NewClass 1 0 false false false false; NewClass 2 40 false false true true; NewClass 0 0 false true false true] = Ok (r, xs) /\
  init_object r (fun _ => true) 3 = Ok ([Inited 1; Inited 3], true) /\ init_object r (fun c => negb (c =? 1)) 3 = Ok ([Inited 1], false) /\
  init_object r (fun _ => true) 4 = Fatal /\ finalize_object r 3 = Ok [Finalized 3; Finalized 1; Finalized 0].
Proof. eexists. eexists. split; [vm_compute; reflexivity|]. vm_compute. auto. Qed.

(** C77 is false: installing an interface on a class without superclass reads from NULL. *)
Theorem C77_root_refuted : execs start [NewFastSelector 1; NewInterface 0 [Some 7]; NewRootClass 16 false false [] []; Install 0 0] = UB.
Proof. exact root_refuted. Qed.
Print Assumptions C77_root_refuted.
(** The part that holds: on any other class an interface can be installed if the superclass
    has none for the selector, or one with as many methods. *)
Theorem C77_install_partial : forall os r xs c k i f, execs start os = Ok (r, xs) -> nth_error (classes r) c = Some k -> super k <> None ->
  nth_error (ifaces r) i = Some f -> (forall j g, nth_error (ifaces r) j = Some g -> sel g = sel f -> length (methods g) = length (methods f)) ->
  exists r', exec r (Install c i) = Ok (r', Nothing) /\ exists r'', lookup r' c true (sel f) = Ok (r'', Some i).
Proof. exact install_works. Qed.
Print Assumptions C77_install_partial.
Example C77_case : exists r xs, execs start [NewFastSelector 1; NewInterface 0 [Some 7]; NewInterface 0 [None]; NewRootClass 16 false false [] [0]; NewClass 0 0 false false false false] = Ok (r, xs) /\
  (exists k, nth_error (classes r) 1 = Some k /\ super k <> None) /\ exec r (Install 1 1) <> UB.
Proof. eexists. eexists. split; [vm_compute; reflexivity|]. split; [eexists; split; [reflexivity|discriminate]|vm_compute; discriminate]. Qed.

(** C78, the part that holds: what the fast lookup finds is what the lookup finds.
    Missing: that it finds the interfaces of root classes. *)
Theorem C78_fast_partial : forall os r xs c s l i, execs start os = Ok (r, xs) -> nth_error (lines r) s = Some l -> (forall s', nth_error (lines r) s' = Some l -> s' = s) ->
  fast r c l = Ok (Some i) -> exists r', lookup r c true s = Ok (r', Some i).
Proof. exact fast_sound. Qed.
Print Assumptions C78_fast_partial.
(** The comparison interface of DKObject is not in the cache of a new class. *)
Theorem C78_fast_refuted : exists os r xs, execs start os = Ok (r, xs) /\ (exists r', lookup r 1 true 0 = Ok (r', Some 0)) /\ fast r 1 1 = Ok None.
Proof. exact fast_refuted. Qed.
Print Assumptions C78_fast_refuted.
Example C78_case : exists r xs, execs start [NewFastSelector 1; NewInterface 0 [Some 7]; NewInterface 0 [None]; NewRootClass 16 false false [] [0]; NewClass 0 0 false false false false; Install 1 1; NewClass 1 0 false false false false] = Ok (r, xs) /\
  nth_error (lines r) 0 = Some 1 /\ fast r 2 1 = Ok (Some 1).
Proof. eexists. eexists. split; [vm_compute; reflexivity|]. vm_compute. auto. Qed.
