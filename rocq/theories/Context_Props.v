(** Properties C160 to C163: what belongs to a thread. *)
Require Import Coq.Lists.List Coq.Bool.Bool Coq.Arith.Arith Coq.Sorting.Permutation.
Require Import Verif.Base Verif.Pool_Model Verif.Context_Model Verif.Context_Spec.
Require Verif.HashTable_Spec Verif.Context_Results.
Import ListNotations.

(** C160: whatever the other threads do, a thread finds in its dictionary what it put there itself. *)
Theorem C160_own_dictionary :
  forall (key obj : Type) (keq : key -> key -> bool) (same : obj -> obj -> bool) (fin : obj -> list obj),
  HashTable_Spec.equivalence key keq -> (forall a b, same a b = true -> a = b) ->
  forall fuel ls, proper key obj keq same fin at_start ls ->
    run key obj keq same fin fuel init ls = NoFuel \/
    exists s outs, run key obj keq same fin fuel init ls = Ok (s, outs) /\ forall t, gets_of t outs = own key obj keq [] (ops_of t ls).
Proof. exact Context_Results.dictionaries. Qed.
Print Assumptions C160_own_dictionary.

(** C161: every reference that the dictionary or the pools of a thread were given is released once or
    still held by the context of a thread that runs; a thread of the library has its thread object until
    it has ended, and then leaves no reference to it.  Missing: DKThreadExit, finalizers that autorelease at
    the end of a thread, and objects autoreleased without a pool; see below. *)
Theorem C161_nothing_lost_partial :
  forall (key obj : Type) (keq : key -> key -> bool) (same : obj -> obj -> bool) (fin : obj -> list obj),
  HashTable_Spec.equivalence key keq -> (forall a b, same a b = true -> a = b) ->
  forall fuel ls, proper key obj keq same fin at_start ls ->
    run key obj keq same fin fuel init ls = NoFuel \/
    exists s outs, run key obj keq same fin fuel init ls = Ok (s, outs) /\ Permutation (taken s) (released s ++ held s) /\ owned s /\ objects_alive s.
Proof. exact Context_Results.nothing_lost. Qed.
Print Assumptions C161_nothing_lost_partial.

(** DKThreadExit in a thread of the library ends the process: the pool that was pushed for the thread is
    never popped. *)
Theorem C161_exit_refuted :
  forall fuel, run nat nat Nat.eqb Nat.eqb (fun _ => []) (S fuel) init [(0, New); (1, Begin); (1, Exit)] = Fatal.
Proof. exact Context_Results.exit_refuted. Qed.
Print Assumptions C161_exit_refuted.
(** An object in the dictionary of a thread whose finalizer autoreleases another: when the thread returns
    there is no context any more. *)
Theorem C161_finalizer_refuted :
  exists fin fuel, run nat nat Nat.eqb Nat.eqb fin fuel init [(0, New); (1, Begin); (1, Put 5 7); (1, Return)] = UB.
Proof. exact Context_Results.finalizer_refuted. Qed.
Print Assumptions C161_finalizer_refuted.
(** An object autoreleased before a pool was pushed is never released. *)
Theorem C161_unpooled_refuted :
  exists fuel s outs, run nat nat Nat.eqb Nat.eqb (fun _ => []) fuel init [(0, Spawn); (1, Alloc); (1, Pool (Auto 7)); (1, Return)] = Ok (s, outs) /\
    taken s = [7] /\ released s = [] /\ held s = [].
Proof. exact Context_Results.unpooled_refuted. Qed.
Print Assumptions C161_unpooled_refuted.

(** C162: two threads never get the same thread object, a thread always gets the same one (unless it
    replaced its context), and only the first thread is the main thread. *)
Theorem C162_current_thread :
  forall (key obj : Type) (keq : key -> key -> bool) (same : obj -> obj -> bool) (fin : obj -> list obj),
  HashTable_Spec.equivalence key keq -> (forall a b, same a b = true -> a = b) ->
  forall fuel ls, proper key obj keq same fin at_start ls ->
    run key obj keq same fin fuel init ls = NoFuel \/
    exists s outs, run key obj keq same fin fuel init ls = Ok (s, outs) /\
      (forall t t' n, In (t, AThread n) outs -> In (t', AThread n) outs -> t = t') /\
      (forall t n n', (forall b, ~ In (Free b) (ops_of t ls)) -> In (t, AThread n) outs -> In (t, AThread n') outs -> n = n') /\
      (forall t b, In (t, ABool b) outs -> b = (t =? 0)).
Proof. exact Context_Results.current_threads. Qed.
Print Assumptions C162_current_thread.

(** C163: a thread that was made by the platform and frees its context as DKThread.h 86-88 asks, without
    setting the current context to NULL, has it freed again when it ends.  That it is safe to unset it
    first, or not to free it, is part of C161. *)
Theorem C163_freed_twice_refuted :
  exists fuel s outs, run nat nat Nat.eqb Nat.eqb (fun _ => []) fuel init [(0, Spawn); (1, Alloc); (1, Put 5 7); (1, Free false)] = Ok (s, outs) /\
    run nat nat Nat.eqb Nat.eqb (fun _ => []) fuel init [(0, Spawn); (1, Alloc); (1, Put 5 7); (1, Free false); (1, Return)] = UB.
Proof. exact Context_Results.freed_twice_refuted. Qed.
Print Assumptions C163_freed_twice_refuted.

(** Three threads, one of each kind; object 3 autoreleases 30 when it is released. *)
Example C160_case :
  let fin := fun x => match x with 3 => [30] | _ => [] end in
  let ls := [(0, Put 1 10); (0, New); (1, Begin); (0, Spawn); (2, Alloc); (1, Put 1 3); (2, Put 1 12); (1, Pool (Auto 3)); (1, Put 1 4); (1, Get 1); (2, Get 1); (0, Get 1);
             (2, Remove 1); (2, Get 1); (1, Current); (2, Current); (1, IsMain); (0, IsMain); (1, Return); (2, Free true); (2, Alloc); (2, Get 1); (2, Return)] in
  proper nat nat Nat.eqb Nat.eqb fin at_start ls /\
  exists s outs, run nat nat Nat.eqb Nat.eqb fin 50 init ls = Ok (s, outs) /\ released s = [3; 12; 3; 30; 30; 4] /\ held s = [10] /\
    gets_of 0 outs = [Some 10] /\ gets_of 1 outs = [Some 4] /\ gets_of 2 outs = [Some 12; None; None] /\ refs s = [1; 0; 0].
Proof. exact Context_Results.case. Qed.
