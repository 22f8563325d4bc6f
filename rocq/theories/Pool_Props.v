(** C45, C46, C72: autorelease pools. *)
Require Import Coq.Lists.List Coq.Arith.Arith.
Require Import Verif.Base Verif.Pool_Model Verif.Pool_Spec Verif.Pool_Proofs.
Import ListNotations.

(** C45.  For any behaviour of releases that only autorelease, and any well-nested
    calls: no error, and the objects released, in order, and those still waiting are
    those of the stack of queues. *)
Theorem C45_pools : forall (client obj : Type) (fin : client -> obj -> client * list obj) (c : client) (l : list (act obj)) (fuel : nat), nested 0 l ->
  exec (only_autoreleases fin) fuel (start c) l = NoFuel \/
  exists s k, exec (only_autoreleases fin) fuel (start c) l = Ok s /\ history fin (mkK [] [] c []) l k /\
    released s = done k /\ user s = state k /\ objs s = concat (rev (inner k :: outer k)).
Proof. exact pools_sound. Qed.
Print Assumptions C45_pools.
(** Every call returns unless releases go on autoreleasing for ever. *)
Theorem C45_pools_return : forall (client obj : Type) (fin : client -> obj -> client * list obj) (c : client) (l : list (act obj)) k, nested 0 l -> history fin (mkK [] [] c []) l k ->
  exists fuel s, exec (only_autoreleases fin) fuel (start c) l = Ok s /\ released s = done k.
Proof. exact pools_complete. Qed.
Print Assumptions C45_pools_return.
(** Emptying a queue releases what was in it and then what was autoreleased meanwhile:
    each autorelease causes one release, in order. *)
Theorem C45_once : forall (client obj : Type) (fin : client -> obj -> client * list obj) c q ev c', empties fin c q ev c' -> map fst ev = q ++ concat (map snd ev).
Proof. exact empties_releases. Qed.
Print Assumptions C45_once.

(** C46.  Missing: the eighth push. *)
Theorem C46_push_drain_partial : forall (client obj : Type) (fin : client -> obj -> client * list obj) (c : client) (l : list (act obj)) (fuel : nat), nested 0 (l ++ [Push; Drain]) ->
  exec (only_autoreleases fin) fuel (start c) (l ++ [Push; Drain]) <> Fatal /\ exec (only_autoreleases fin) fuel (start c) (l ++ [Push; Drain]) <> UB.
Proof. intros client obj fin c l fuel H. destruct (pools_sound client obj fin c _ fuel H) as [E|(s & k & E & _)]; rewrite E; split; discriminate. Qed.
Print Assumptions C46_push_drain_partial.
Definition quiet_fin (c : unit) (x : nat) : unit * list nat := (c, []).
Theorem C46_push_drain_refuted : exists fuel (l : list (act nat)) s,
  exec (only_autoreleases quiet_fin) fuel (start tt) (l ++ [Push]) = Ok s /\ exec (only_autoreleases quiet_fin) fuel (start tt) (l ++ [Push; Drain]) = Fatal.
Proof. exists 20, (repeat Push 7). eexists. split; vm_compute; reflexivity. Qed.
Print Assumptions C46_push_drain_refuted.

(** C72.  The release of object 0 pushes a pool, autoreleases 255 objects and pops the
    pool; or drains the pool it is released from. *)
Definition uses_pool (c : unit) (x : nat) : unit * list (act nat) := (c, match x with O => Push :: repeat (Auto 7) 255 ++ [Pop] | _ => [] end).
Theorem C72_pool_in_finalizer_refuted : exists fuel (l : list (act nat)), nested 0 l /\ exec uses_pool fuel (start tt) l = UB.
Proof. exists 600, [Auto 0; Auto 1; Drain]. split; [cbn; auto with arith|vm_compute; reflexivity]. Qed.
Print Assumptions C72_pool_in_finalizer_refuted.
Definition drains_pool (c : nat) (x : nat) : nat * list (act nat) := (S c, match c with O => [Drain] | _ => [] end).
Theorem C72_drain_in_finalizer_refuted : exists fuel (l : list (act nat)), nested 0 l /\ exec drains_pool fuel (start 0) l = UB.
Proof. exists 60, [Auto 0; Drain]. split; [cbn; auto with arith|vm_compute; reflexivity]. Qed.
Print Assumptions C72_drain_in_finalizer_refuted.

(** Cases: object 3 autoreleases 30 and 31, 30 autoreleases 40; the outer pool keeps 1
    until its own pop. *)
Definition fin_case (c : nat) (x : nat) : nat * list nat := (S c, match x with 3 => [30; 31] | 30 => [40] | _ => [] end).
Definition calls_case : list (act nat) := [Auto 1; Push; Auto 2; Auto 3; Drain; Auto 4; Push; Auto 5; Pop; Pop; Auto 6].
Example C45_case : nested 0 calls_case /\ exists s, exec (only_autoreleases fin_case) 100 (start 0) calls_case = Ok s /\ released s = [2; 3; 30; 31; 40; 5; 4] /\ objs s = [1; 6].
Proof. split; [cbn; repeat split; auto with arith|]. eexists. split; [vm_compute; reflexivity|split; reflexivity]. Qed.
Example C45_history_case : history fin_case (mkK [] [] 0 []) [Auto 3; Drain] (mkK [] [] 4 [3; 30; 31; 40]).
Proof.
  eapply history_cons; [apply does_auto|]. eapply history_cons; [|apply history_nil].
  apply (does_drain _ _ fin_case [3] [] 0 [] [(3, [30; 31]); (30, [40]); (31, []); (40, [])]).
  repeat (eapply empties_cons; [reflexivity|cbn [app]]). apply empties_nil.
Qed.
Example C46_case : nested 0 (repeat (@Push nat) 6 ++ [Push; Drain]).
Proof. cbn. repeat split; auto with arith. Qed.
