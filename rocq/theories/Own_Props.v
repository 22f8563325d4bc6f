(** Properties C167-C169: what keeps objects alive. *)
Require Import Coq.Lists.List Coq.Bool.Bool Coq.Arith.Arith.
Require Import Verif.Base Verif.Own_Model Verif.Own_Spec.
Require Verif.HashTable_Model Verif.Own_Ends Verif.Own_May.
Import ListNotations.

(** C167, what holds: whatever a program does with objects that exist, no call uses an object that was
    freed, if what it puts in the place of something else is its own (and one object can be put into an
    array, and anything into a tree, without that).  Missing: see below. *)
Theorem C167_safe_partial :
  forall keq os, obeys (careful keq) keq init os -> run keq init os = Fatal \/ exists s, run keq init os = Ok s /\ sound s.
Proof. exact Own_Ends.history_ok. Qed.
Print Assumptions C167_safe_partial.

(** C167 is false of the code: a value of a hash table cannot be replaced by an object that only the
    old value holds. *)
Theorem C167_value_refuted :
  exists os, obeys allowed Nat.eqb init os /\ run Nat.eqb init os = UB.
Proof.
  exists [New (Hash []); New Leaf; New (Arr []); New Leaf; Splice 2 0 0 [Some 3]; Put 0 1 (Some 2) HashTable_Model.InsertAlways;
          Release 2; Release 3; Put 0 1 (Some 3) HashTable_Model.InsertAlways].
  split; [apply Own_Ends.allowed_run|]; vm_compute; reflexivity.
Qed.
Print Assumptions C167_value_refuted.

(** Nor an object in a linked list by itself. *)
Theorem C167_itself_refuted :
  exists os, obeys allowed Nat.eqb init os /\ run Nat.eqb init os = UB.
Proof.
  exists [New (Lnk []); New Leaf; Splice 0 0 0 [Some 1]; Release 1; Splice 0 0 1 [Some 1]].
  split; [apply Own_Ends.allowed_run|]; vm_compute; reflexivity.
Qed.
Print Assumptions C167_itself_refuted.

(** Two elements of an array cannot be exchanged. *)
Theorem C167_exchange_refuted :
  exists os, obeys allowed Nat.eqb init os /\ run Nat.eqb init os = UB.
Proof.
  exists [New (Arr []); New Leaf; New Leaf; Splice 0 0 0 [Some 1; Some 2]; Release 1; Release 2; Splice 0 0 2 [Some 2; Some 1]].
  split; [apply Own_Ends.allowed_run|]; vm_compute; reflexivity.
Qed.
Print Assumptions C167_exchange_refuted.

(** A list in a list cannot be replaced by its own elements. *)
Theorem C167_flatten_refuted :
  exists os, obeys allowed Nat.eqb init os /\ run Nat.eqb init os = UB.
Proof.
  exists [New (Arr []); New (Arr []); Splice 0 0 0 [Some 1]; Release 1; SpliceAll 0 0 1 1].
  split; [apply Own_Ends.allowed_run|]; vm_compute; reflexivity.
Qed.
Print Assumptions C167_flatten_refuted.

(** C168: in any program that passes only objects that exist, up to a call that goes wrong, an object is
    freed exactly when neither the program nor a collection that exists holds it. *)
Theorem C168_freed :
  forall keq os s, obeys allowed keq init os -> run keq init os = Ok s ->
    forall x, x < length (cells s) -> (freed s x <-> ~ held s x).
Proof. exact Own_May.freed_iff. Qed.
Print Assumptions C168_freed.
(** And its reference count is the number of references to it. *)
Theorem C168_count :
  forall keq os s, obeys allowed keq init os -> run keq init os = Ok s ->
    forall x n b, nth_error (cells s) x = Some (Live n b) -> n = count_occ Nat.eq_dec (references s) x.
Proof. intros keq os s O E. exact (proj2 (Own_May.may_sound keq os s O E)). Qed.
Print Assumptions C168_count.

(** C169, what holds, for the same programs: when a program has given up all its references and no
    collection holds itself, directly or through others, every object is freed.  Missing: collections
    that do. *)
Theorem C169_all_freed_partial :
  forall keq os s, obeys allowed keq init os -> run keq init os = Ok s ->
    hands s = [] -> (forall x, ~ chain s x x) -> forall x, x < length (cells s) -> freed s x.
Proof. exact Own_May.all_freed. Qed.
Print Assumptions C169_all_freed_partial.
(** At any time, what is alive can be reached from the program or from such a circle. *)
Theorem C169_alive_partial :
  forall keq os s, obeys allowed keq init os -> run keq init os = Ok s ->
    forall x, live s x <-> exists w, (In w (hands s) \/ chain s w w) /\ (w = x \/ chain s w x).
Proof. intros keq os s O E x. exact (Own_Ends.live_iff s x (Own_May.may_sound keq os s O E)). Qed.
Print Assumptions C169_alive_partial.

(** C169 is false of the code: a list that was added to itself is never freed. *)
Theorem C169_circle_refuted :
  exists os s x, obeys allowed Nat.eqb init os /\ run Nat.eqb init os = Ok s /\ hands s = [] /\ live s x.
Proof.
  exists [New (Arr []); Splice 0 0 0 [Some 0]; Release 0]. eexists. exists 0. split; [apply Own_Ends.allowed_run; vm_compute; reflexivity|].
  split; [vm_compute; reflexivity|]. split; [reflexivity|]. eexists. eexists. reflexivity.
Qed.
Print Assumptions C169_circle_refuted.

(** A history that meets the hypotheses: a dictionary of lists in a tree, a value replaced, a part removed,
    and all of it freed with the last reference. *)
Definition story : list op :=
  [New (Tree []); New Leaf; New (Lnk []); New (Hash []); New Leaf; Splice 2 0 0 [Some 4; None; Some 4]; Put 3 1 (Some 2) HashTable_Model.InsertAlways;
   Put 0 1 (Some 3) HashTable_Model.InsertIfNotFound; NewPair (Some 4) None; Put 3 1 (Some 5) HashTable_Model.InsertIfFound;
   SpliceAll 2 1 1 3; Release 5; Release 4; Remove 3 1; Splice 2 0 2 []; Release 2; Release 3; Release 1].
Example C167_case :
  obeys (careful Nat.eqb) Nat.eqb init story /\
  run Nat.eqb init story = Ok (mkS [Live 1 (Tree [(1, Some 3)]); Live 1 Leaf; Freed; Live 1 (Hash []); Freed; Freed] [0]) /\
  obeys (careful Nat.eqb) Nat.eqb init (story ++ [Release 0]) /\
  run Nat.eqb init (story ++ [Release 0]) = Ok (mkS [Freed; Freed; Freed; Freed; Freed; Freed] []).
Proof. split; [apply Own_Ends.careful_run; vm_compute; reflexivity|]. split; [vm_compute; reflexivity|]. split; [apply Own_Ends.careful_run|]; vm_compute; reflexivity. Qed.
