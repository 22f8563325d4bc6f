(** Property theorems about graphs. *)
Require Import Coq.ZArith.ZArith Coq.Lists.List Coq.Arith.Arith Coq.Bool.Bool.
Require Import Verif.Base Verif.Graph_Model Verif.Graph_Spec Verif.Graph_Proofs.
Import ListNotations.

(** C81: whatever is done to a graph, every operation answers as if the graph were the list
    of its edges in the order they were added, with at most one edge from one vertex to
    another. *)
Theorem C81_edges : forall os, snd (gexecs [] os) = snd (s_gexecs [] os).
Proof. exact edges_refine. Qed.
Print Assumptions C81_edges.
Example C81_case : snd (gexecs [] [AddEdge 1 2 true; AddEdge 1 3 false; AddEdge 1 2 false; SetInfo 1 2 (Some 7); GetEdge 1 2; GetEdge 2 1; GetEdges 1; RemoveEdge 1 2 true; GetEdges 1; GetEdges 2; GetEdge 1 2]) =
  [GUnit; GUnit; GUnit; GUnit; GEdge (Some (mkE 2 (Some 7))); GEdge (Some (mkE 1 None)); GEdges (Some [mkE 2 (Some 7); mkE 3 None]); GUnit; GEdges (Some [mkE 3 None]); GEdges None; GEdge None].
Proof. reflexivity. Qed.

(** C56: a traversal ends, whatever the graph and its cycles; it calls back for exactly the
    vertices that can be reached from the first one, which comes first, until a callback does
    not return zero, and returns what the last callback returned. *)
Theorem C56_traverse : forall g from, exists L fuel0, (forall v, In v L <-> reach g from v) /\
  forall cb fuel, fuel0 <= fuel -> traverse fuel g cb from = Ok (call_back cb [] L).
Proof. exact traverse_ends. Qed.
Print Assumptions C56_traverse.
Example C56_case : traverse 10 (fst (gexecs [] [AddEdge 1 2 true; AddEdge 2 3 false; AddEdge 3 1 false; AddEdge 4 1 false])) (fun _ v => if v =? 9 then 5%Z else 0%Z) 1 = Ok ([1; 2; 3], 0%Z) /\
  traverse 10 (fst (gexecs [] [AddEdge 1 2 true; AddEdge 2 3 false; AddEdge 3 1 false])) (fun _ v => if v =? 2 then 5%Z else 0%Z) 1 = Ok ([1; 2], 5%Z).
Proof. split; reflexivity. Qed.

(** C57, the part that holds: if everything that can be reached hangs below the first vertex
    as a tree, then no vertex is visited twice.  Missing: all other graphs. *)
Theorem C57_once_partial : forall g from fuel cb log r, tree_below g from -> traverse fuel g cb from = Ok (log, r) -> NoDup log.
Proof. exact once. Qed.
Print Assumptions C57_once_partial.
Example C57_case : let g := fst (gexecs [] [AddEdge 1 2 false; AddEdge 1 3 false; AddEdge 2 4 false]) in
  tree_below g 1 /\ traverse 10 g (fun _ _ => 0%Z) 1 = Ok ([1; 2; 3; 4], 0%Z).
Proof.
  assert (K: forall v w, In w (neighbours (fst (gexecs [] [AddEdge 1 2 false; AddEdge 1 3 false; AddEdge 2 4 false])) v) -> v = 1 /\ (w = 2 \/ w = 3) \/ v = 2 /\ w = 4).
  { intros v w. unfold neighbours. cbn. destruct v as [|[|[|v]]]; cbn; intuition congruence. }
  split; [|reflexivity]. split; [|split].
  - intros u _ H. apply K in H. intuition discriminate.
  - intros u u' w _ _ H H'. apply K in H, H'. intuition congruence.
  - intros u _. unfold neighbours. cbn. destruct u as [|[|[|u]]]; cbn; repeat constructor; cbn; intuition discriminate.
Qed.
(** C57 does not hold of every graph: a vertex with edges from two vertices that are queued
    is visited twice. *)
Theorem C57_once_refuted : exists os fuel log, traverse fuel (fst (gexecs [] os)) (fun _ _ => 0%Z) 1 = Ok (log, 0%Z) /\ ~ NoDup log.
Proof. exact twice. Qed.
Print Assumptions C57_once_refuted.

(** C82 does not hold: whatever the costs and the addresses, DKGraphGetShortestPath never
    returns, because the first call of DKBinaryTreeGetFirstObject (C11) does not. *)
Theorem C82_path_refuted : forall R cost addr (rest : option nat -> outcome R) fuel, shortest_path fuel cost addr rest = NoFuel.
Proof. exact path_diverges. Qed.
Print Assumptions C82_path_refuted.
