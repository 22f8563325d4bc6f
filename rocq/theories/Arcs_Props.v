(** Property C188: the references graphs hold. *)
Require Import Coq.Lists.List Coq.Bool.Bool Coq.Arith.Arith.
Require Import Verif.Base Verif.Own_Model Verif.Own_Spec Verif.Arcs_Model Verif.Arcs_Spec.
Require Verif.Arcs_Ends Verif.Arcs_Lists.
Import ListNotations.

(** C188, partial: in every history of calls where an edge is removed in both directions only by a program that has a
    reference to the second vertex, no freed object is used and every count is the number of references there are. *)
Theorem C188_safe_partial :
  forall keq os, follows also_held keq init os -> exists s, grun keq init os = Ok s /\ sound s.
Proof. exact Arcs_Ends.safe. Qed.
Print Assumptions C188_safe_partial.
(** So graphs neither lose vertices nor keep them: an object exists exactly if the program has it, or it is in
    something that the program has or that is in itself. *)
Theorem C188_held :
  forall keq os s, follows also_held keq init os -> grun keq init os = Ok s -> forall x, live s x <-> exists w, (In w (hands s) \/ chain s w w) /\ (w = x \/ chain s w x).
Proof. exact Arcs_Ends.held_only. Qed.
Print Assumptions C188_held.
(** An edge that was added is found. *)
Theorem C188_added :
  forall keq, (forall x, keq x x = true) -> forall os s d from to s', follows also_held keq init os -> grun keq init os = Ok s -> exists_only s (AddEdge d from to false) ->
    gstep keq s (AddEdge d from to false) = Ok s' -> exists i e, get_edge keq s' d from to = Ok (Some (i, e)).
Proof. exact Arcs_Ends.added_after. Qed.
Print Assumptions C188_added.
(** Adding an edge, in one or both directions, loses none in any graph. *)
Theorem C188_kept :
  forall keq os s d from to both s' d' a b i e, follows also_held keq init os -> grun keq init os = Ok s -> exists_only s (AddEdge d from to both) -> gstep keq s (AddEdge d from to both) = Ok s' ->
    is_graph s d' -> live s a -> get_edge keq s d' a b = Ok (Some (i, e)) -> exists i' e', get_edge keq s' d' a b = Ok (Some (i', e')).
Proof. exact Arcs_Ends.kept_after. Qed.
Print Assumptions C188_kept.
(** An edge that was removed is not found, where equality of vertices is an equivalence. *)
Theorem C188_removed :
  forall keq, (forall x, keq x x = true) -> (forall x y, keq x y = true -> keq y x = true) -> (forall x y z, keq x y = true -> keq y z = true -> keq x z = true) ->
  forall os s d from to s', follows also_held keq init os -> grun keq init os = Ok s -> exists_only s (RemoveEdge d from to false) ->
    gstep keq s (RemoveEdge d from to false) = Ok s' -> live s' from -> get_edge keq s' d from to = Ok None.
Proof. exact Arcs_Ends.removed_after. Qed.
Print Assumptions C188_removed.
(** All others still are, in this graph and in others. *)
Theorem C188_others :
  forall keq, (forall x y, keq x y = true -> keq y x = true) -> (forall x y z, keq x y = true -> keq y z = true -> keq x z = true) ->
  forall os s d from to s' d' a b i e, follows also_held keq init os -> grun keq init os = Ok s -> exists_only s (RemoveEdge d from to false) -> gstep keq s (RemoveEdge d from to false) = Ok s' ->
    In d' (hands s) -> is_graph s d' -> live s a -> live s' a -> d' <> d \/ keq a from = false \/ b <> to -> get_edge keq s d' a b = Ok (Some (i, e)) -> exists i' e', get_edge keq s' d' a b = Ok (Some (i', e')).
Proof. exact Arcs_Lists.frame_after. Qed.
Print Assumptions C188_others.
(** And no other is found after an edge was added, or after one was removed, that was not before. *)
Theorem C188_none_made :
  forall keq, (forall x y, keq x y = true -> keq y x = true) -> (forall x y z, keq x y = true -> keq y z = true -> keq x z = true) ->
  forall os s d from to s' d' a b i e, follows also_held keq init os -> grun keq init os = Ok s -> exists_only s (AddEdge d from to false) -> gstep keq s (AddEdge d from to false) = Ok s' ->
    is_graph s d' -> live s a -> d' <> d \/ keq a from = false \/ b <> to -> get_edge keq s' d' a b = Ok (Some (i, e)) -> exists i' e', get_edge keq s d' a b = Ok (Some (i', e')).
Proof. exact Arcs_Lists.add_back_after. Qed.
Print Assumptions C188_none_made.
Theorem C188_none_left :
  forall keq, (forall x y, keq x y = true -> keq y x = true) -> (forall x y z, keq x y = true -> keq y z = true -> keq x z = true) ->
  forall os s d from to s' d' a b i e, follows also_held keq init os -> grun keq init os = Ok s -> exists_only s (RemoveEdge d from to false) -> gstep keq s (RemoveEdge d from to false) = Ok s' ->
    In d' (hands s) -> is_graph s d' -> live s a -> live s' a -> get_edge keq s' d' a b = Ok (Some (i, e)) -> exists i' e', get_edge keq s d' a b = Ok (Some (i', e')).
Proof. exact Arcs_Lists.remove_back_after. Qed.
Print Assumptions C188_none_left.
(** After all edges of a graph were removed none is found in it, and those of other graphs still are. *)
Theorem C188_cleared :
  forall keq os s d s', follows also_held keq init os -> grun keq init os = Ok s -> exists_only s (RemoveAll d) -> gstep keq s (RemoveAll d) = Ok s' ->
    (forall a b, live s' a -> get_edge keq s' d a b = Ok None) /\
    forall d' a b i e, In d' (hands s) -> is_graph s d' -> d' <> d -> live s a -> live s' a -> get_edge keq s d' a b = Ok (Some (i, e)) -> exists i' e', get_edge keq s' d' a b = Ok (Some (i', e')).
Proof. exact Arcs_Lists.cleared_after. Qed.
Print Assumptions C188_cleared.
(** Edges in both directions: after they were added both are found, and after they were removed neither is. *)
Theorem C188_both :
  forall keq, (forall x, keq x x = true) ->
  forall os s d from to s', follows also_held keq init os -> grun keq init os = Ok s -> exists_only s (AddEdge d from to true) -> gstep keq s (AddEdge d from to true) = Ok s' ->
    (exists i e, get_edge keq s' d from to = Ok (Some (i, e))) /\ exists i e, get_edge keq s' d to from = Ok (Some (i, e)).
Proof. exact Arcs_Lists.both_after. Qed.
Print Assumptions C188_both.
Theorem C188_neither :
  forall keq, (forall x y, keq x y = true -> keq y x = true) -> (forall x y z, keq x y = true -> keq y z = true -> keq x z = true) -> (forall x, keq x x = true) ->
  forall os s d from to s', follows also_held keq init os -> grun keq init os = Ok s -> also_held s (RemoveEdge d from to true) -> gstep keq s (RemoveEdge d from to true) = Ok s' ->
    (live s' from -> get_edge keq s' d from to = Ok None) /\ get_edge keq s' d to from = Ok None.
Proof. exact Arcs_Lists.neither_after. Qed.
Print Assumptions C188_neither.
(** The rest is false: with the only edge of two vertices that only the graph holds, the removal in both directions frees
    them and then looks the second one up. *)
Theorem C188_refuted : exists keq os, follows exists_only keq init os /\ grun keq init os = UB.
Proof. exact Arcs_Ends.unsafe. Qed.
Print Assumptions C188_refuted.

(** A triangle with an edge in both directions, of which one edge is removed: the vertices are there while the
    graph has them, and everything is gone after it is released. *)
Example C188_case :
  follows also_held Nat.eqb init Arcs_Ends.some_calls /\
  grun Nat.eqb init Arcs_Ends.some_calls = Ok (mkS [Live 3 Leaf; Live 3 Leaf; Freed; Live 1 (Hash [(0, Some 4); (1, Some 6)]); Live 1 (Arr [Some 5]); Live 1 (Pair (Some 0) (Some 1)); Live 1 (Arr [Some 7]); Live 1 (Pair (Some 1) (Some 0)); Freed] [3]) /\
  grun Nat.eqb init (Arcs_Ends.some_calls ++ [Leave 3]) = Ok (mkS [Freed; Freed; Freed; Freed; Freed; Freed; Freed; Freed; Freed] []).
Proof. exact Arcs_Ends.some_case. Qed.
(** Of the two edges of a vertex one is removed. *)
Example C188_removal :
  exists s s', follows also_held Nat.eqb init (firstn 7 Arcs_Ends.some_calls) /\ grun Nat.eqb init (firstn 7 Arcs_Ends.some_calls) = Ok s /\ exists_only s (RemoveEdge 3 1 0 false) /\ gstep Nat.eqb s (RemoveEdge 3 1 0 false) = Ok s' /\ live s' 1 /\
    get_edge Nat.eqb s 3 1 0 = Ok (Some (0, 7)) /\ get_edge Nat.eqb s 3 1 2 = Ok (Some (1, 8)) /\ get_edge Nat.eqb s' 3 1 0 = Ok None /\ get_edge Nat.eqb s' 3 1 2 = Ok (Some (0, 8)).
Proof. exact Arcs_Ends.some_removal. Qed.
(** Two graphs with the same vertices, of which one gets an edge more or loses all. *)
Example C188_two :
  exists s s1 s2, follows also_held Nat.eqb init Arcs_Ends.two_graphs /\ grun Nat.eqb init Arcs_Ends.two_graphs = Ok s /\ exists_only s (AddEdge 3 1 0 false) /\ gstep Nat.eqb s (AddEdge 3 1 0 false) = Ok s1 /\ is_graph s 3 /\ live s 0 /\ get_edge Nat.eqb s 3 0 1 = Ok (Some (0, 7)) /\ get_edge Nat.eqb s1 3 0 1 = Ok (Some (0, 7)) /\
    exists_only s (RemoveAll 2) /\ gstep Nat.eqb s (RemoveAll 2) = Ok s2 /\ In 3 (hands s) /\ live s2 0 /\ get_edge Nat.eqb s 2 0 1 = Ok (Some (0, 5)) /\ get_edge Nat.eqb s2 2 0 1 = Ok None /\ get_edge Nat.eqb s2 3 0 1 = Ok (Some (0, 7)).
Proof. exact Arcs_Ends.two_case. Qed.
