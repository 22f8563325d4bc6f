(** Archives of library objects. *)
Require Import Coq.NArith.NArith Coq.Lists.List Coq.Arith.Arith Coq.micromega.Lia Coq.Sorting.Sorted.
Require Import Verif.Utf8_Spec Verif.Base Verif.Encoding_Model Verif.Egg_Model Verif.Egg_Spec Verif.EggClass_Model Verif.EggClass_Spec Verif.EggClass_Proofs.
Require Verif.HashTable_Model Verif.Predicate_Model Verif.Enum_Model.
Import ListNotations.
Local Open Scope N_scope.

(** C139, the part that holds: every object of a graph of proper objects is read back with the same
    contents on a machine of either byte order, from data and from a stream.  Missing: hash tables
    of more than ten entries may fail to be built; references to the root; NULL in lists of more
    than one element; and what is false, below. *)
Theorem C139_objects_partial : forall bw consts objs root g, registry_ok g -> incl library (rclasses g) -> graph consts objs root -> N.of_nat (length objs) + 1 < 2 ^ 32 ->
  exists l, save bw (map (to_node bw consts) objs) root = Ok l /\ (N.of_nat (length l) < 2 ^ 32 -> forall br known rest, exists h' phi,
    load br g l = Ok (Some (h', Some (phi root))) /\ load_stream br g (l ++ rest) = Ok (Some (h', Some (phi root), rest)) /\
    forall i o, within consts objs root i -> nth_error objs i = Some o -> exists n, nth_error h' (phi i) = Some n /\
      match of_node br known h' n with
      | Ok o' => alike bw br phi o o' | NoFuel => False | _ => exists m ps, o = DTable m ps /\ (10 < length ps)%nat end).
Proof. exact object_round_trip. Qed.
Print Assumptions C139_objects_partial.

(** A pair of a hash table and a tree; the table has a list under b and an array under a, the tree
    a predicate and a structure; the list has two of a number, a boolean and 16 bit integers. *)
Definition ref (i : nat) : option nat := Some i.
Definition entry (k : nat) (o : option nat) : nat * option nat := (k, o).
Definition case_consts (s : list N) : nat := 13%nat.
Definition case_objects : list dk :=
  [ DPair (ref 1) (ref 2);
    DTable true [entry 3 (ref 5); entry 4 (ref 6)];
    DTree false [entry 4 (ref 7); entry 3 (ref 8); entry 12 (None)];
    DText Immutable [98]; DText Constant [97];
    DList true true [ref 9; ref 10; ref 11; ref 9];
    DList false false [ref 3];
    DPredicate Predicate_Model.EQ (ref 4) (ref 3) None (ref 12);
    DStruct (ref 4) [1; 0; 2];
    DNumber true (encode 11 2) [258; 5]; DBoolean true; DData false 9 [1; 2; 3; 4];
    DText Immutable [99; 206; 177]; DText Constant [69; 81]; DText Mutable [] ].
Definition case_classes : registry := mkR library [].
Lemma case_names : Forall name_ok (map fst (rclasses case_classes)).
Proof.
  assert (H: forallb (fun s => forallb (fun b => negb (b =? 0)) s && (N.of_nat (length s) <? max_count))%bool (map fst (rclasses case_classes)) = true) by (vm_compute; reflexivity).
  rewrite forallb_forall in H. apply Forall_forall. intros s J. specialize (H s J). apply Bool.andb_true_iff in H. destruct H as [H1 H2]. split; [|now apply N.ltb_lt].
  apply Forall_forall. intros b K ->. rewrite forallb_forall in H1. specialize (H1 0 K). discriminate H1.
Qed.
Lemma case_within : forall i, within case_consts case_objects 0 i -> (i < 14)%nat.
Proof.
  intros k W. induction W as [|i o j _ IH E J]; [lia|].
  destruct i as [|[|[|[|[|[|[|[|[|[|[|[|[|[|i]]]]]]]]]]]]]]; [..|lia]; injection E as <-; vm_compute in J; repeat (destruct J as [<-|J]; [lia|]); destruct J.
Qed.
Ltac bytes_ok := split; [repeat constructor|intros X; cbn in X; repeat (destruct X as [X|X]; [discriminate X|]); destruct X].
Ltac a_key := eexists; eexists; split; [reflexivity|]; split; [discriminate|bytes_ok].
Lemma case_key : forall i s, is_key case_objects i s -> (i = 3%nat /\ s = [98]) \/ (i = 4%nat /\ s = [97]) \/ (i = 12%nat /\ s = [99; 206; 177]) \/ (i = 13%nat /\ s = [69; 81]).
Proof.
  intros i s (k & E & K & _). destruct i as [|[|[|[|[|[|[|[|[|[|[|[|[|[|[|i]]]]]]]]]]]]]]]; try discriminate; try (injection E as <- <-; auto 6); [contradiction|destruct i; discriminate].
Qed.
Ltac key_facts := intros s t Hs Ht; apply case_key in Hs; apply case_key in Ht; cbn [fst entry] in Hs, Ht; decompose [or and] Hs; decompose [or and] Ht; try discriminate; subst.
Ltac root_free := vm_compute; intros X; repeat (destruct X as [X|X]; [discriminate X|]); destruct X.
Example C139_case : registry_ok case_classes /\ graph case_consts case_objects 0 /\
  match save false (map (to_node false case_consts) case_objects) 0 with
  | Ok l => match load true case_classes l with
            | Ok (Some (h, Some r)) => map (of_node true (fun _ => false) h) h =
              map Ok [ DPair (ref 1) (ref 9);
                DTable true [entry 7 (ref 8); entry 2 (ref 3)];
                DText Immutable [98];
                DList true true [ref 4; ref 5; ref 6; ref 4];
                DNumber true (encode 11 2) [258; 5]; DBoolean true; DData false 9 [2; 1; 4; 3];
                DText Immutable [97]; DList false false [ref 2];
                DTree false [entry 7 (ref 10); entry 2 (ref 13); entry 12 (None)];
                DPredicate Predicate_Model.EQ (ref 7) (ref 2) None (ref 12); DText Immutable [69; 81]; DText Immutable [99; 206; 177];
                DStruct (ref 7) [1; 0; 2] ]
            | _ => False
            end
  | _ => False
  end.
Proof.
  split; [|split].
  - split; [|split; [|constructor]].
    + apply (NoDup_map_inv (fun x => x)). vm_compute. repeat constructor; cbn; intros X; decompose [or] X; try discriminate; auto.
    + exact case_names.
  - intros i W. apply case_within in W. destruct i as [|[|[|[|[|[|[|[|[|[|[|[|[|[|i]]]]]]]]]]]]]]; [..|lia]; (eexists; split; [reflexivity|]; split; [|root_free]); cbn [proper].
    + exact Logic.I.
    + split; [vm_compute; discriminate|]. split; [repeat constructor; a_key|].
      apply SSorted_cons; [apply SSorted_cons; [apply SSorted_nil|constructor]|]. apply Forall_cons; [|constructor]. key_facts; discriminate.
    + split; [vm_compute; discriminate|]. split; [repeat constructor; a_key|].
      apply SSorted_cons; [apply SSorted_cons; [apply SSorted_cons; [apply SSorted_nil|constructor]|]|]; repeat (apply Forall_cons; [key_facts; eexists; split; [vm_compute; reflexivity|lia]|]); constructor.
    + reflexivity.
    + reflexivity.
    + split; [vm_compute; discriminate|]. right. intros X. cbn in X. repeat (destruct X as [X|X]; [discriminate X|]). destruct X.
    + split; [vm_compute; discriminate|]. now left.
    + reflexivity.
    + split; [discriminate|vm_compute; discriminate].
    + repeat (split; [reflexivity|]). repeat (apply Forall_cons; [reflexivity|]). constructor.
    + exact Logic.I.
    + split; [repeat constructor|]. split; [vm_compute; discriminate|]. right. split; [reflexivity|]. split; [reflexivity|]. exists 2. reflexivity.
    + reflexivity.
    + reflexivity.
  - vm_compute. reflexivity.
Qed.

(** What becomes of objects that are written, the first as the root, and read by a program with some
    classes, on one machine. *)
Definition again (g : registry) (os : list dk) : outcome (list (outcome dk)) :=
  do l <- save false (map (to_node false case_consts) os) 0;
  do r <- load false g l;
  match r with Some (h, Some 0%nat) => Ok (map (of_node false (fun _ => false) h) h) | _ => NoFuel end.
(** C139 is false of data whose type is not one of numbers, which loses its type; of numbers with
    bytes left over, which are lost; and of data of the types that are reserved, which divides by
    zero. *)
Theorem C139_data_refuted :
  again case_classes [DData false 5 [97]] = Ok [Ok (DData false 0 [97])] /\ again case_classes [DData true 9 [1; 2; 3]] = Ok [Ok (DData true 9 [1; 2])] /\
  again case_classes [DData false 10 [1; 2]] = UB.
Proof. repeat split; vm_compute; reflexivity. Qed.
Print Assumptions C139_data_refuted.
(** It is false of a tree with a comparison of its own, here one that puts b before a: the tree that
    is read puts a before b. *)
Theorem C139_tree_refuted : again case_classes [DTree true [entry 1 None; entry 2 None]; DText Immutable [98]; DText Immutable [97]] =
  Ok (map Ok [DTree true [entry 2 None; entry 1 None]; DText Immutable [98]; DText Immutable [97]]).
Proof. vm_compute. reflexivity. Qed.
Print Assumptions C139_tree_refuted.
(** It is false in a program that has not used one of the classes: the object is lost. *)
Theorem C139_class_refuted : again (mkR (filter (fun c => negb (list_eqb (fst c) (class_name (CList true false)))) library) [])
  [DPair (ref 1) (ref 2); DList true false []; DText Immutable [97]] = Ok (map Ok [DPair None (ref 1); DText Immutable [97]]).
Proof. vm_compute. reflexivity. Qed.
Print Assumptions C139_class_refuted.
(** It is false of a dictionary of twelve entries, made by inserting its keys, which are strings of
    one letter, one after the other: the table that is read accesses memory outside of its rows. *)
Definition letters : list (list N) := map (fun c => [c]) [66; 69; 71; 74; 75; 76; 79; 81; 84; 86; 89; 100].
Definition twelve : list dk := DTable true (map (fun i => (S i, None)) (seq 0 12)) :: map (DText Immutable) letters.
Definition made (ks : list (list N)) : outcome (list (list N)) :=
  do r <- HashTable_Model.run (list N) nat (fun s => Enum_Model.real_hash (Some s)) list_eqb HashTable_Model.table_init (map (fun s => HashTable_Model.OpSet s 0%nat) ks);
  Ok (map fst (HashTable_Model.enumerate (fst r))).
Theorem C139_table_refuted : made ([100] :: removelast letters) = Ok letters /\ again case_classes twelve = Ok (UB :: map Ok (map (DText Immutable) letters)).
Proof. split; vm_compute; reflexivity. Qed.
Print Assumptions C139_table_refuted.
