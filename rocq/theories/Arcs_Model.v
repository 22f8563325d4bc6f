(** Model of the references graphs hold, Source/DKGraph.c, over the objects and references of Own_Model.  The graph is its
    dictionary (struct DKGraph 202-207, DKGraphInit 228-238, DKGraphFinalize 244-249): a hash table from a vertex to an array
    of edges; an edge is a pair of the first and the second vertex (DKGraphEdgeInit 67-78, DKGraphEdgeFinalize 84-91).
    Simplified: the graph and its dictionary are one object, and edges have no user info (C81). *)
Require Import Coq.Lists.List Coq.Bool.Bool Coq.Arith.Arith.
Require Import Verif.Base Verif.Own_Model Verif.Parsed_Model.
Require Verif.HashTable_Model.
Import ListNotations.

Section Graph.
  (** DKEqual of two vertices. *)
  Variable keq : nat -> nat -> bool.
  (** DKDictionaryGetObject of the graph: the vertex is hashed and compared, so it must not have been freed. *)
  Definition edges_of (s : state) (d from : nat) : outcome (option nat) :=
    do b <- body_of s d;
    do _ <- body_of s from;
    match b with Hash es => Ok (match find_key keq es from with Some (_, v) => v | None => None end) | _ => UB end.
  (** DKGraphEdgeGetSecondVertex 106-109 of an object of the list. *)
  Definition second (s : state) (e : nat) : outcome Own_Model.ref := do b <- body_of s e; match b with Pair _ t => Ok t | _ => UB end.
  (** The loops of FindEdge 261-267 and RemoveEdge 299-313: vertices are compared as pointers.  The index and the edge. *)
  Fixpoint find (s : state) (rs : list Own_Model.ref) (to i : nat) : outcome (option (nat * nat)) :=
    match rs with
    | [] => Ok None
    | None :: rs' => find s rs' to (S i)
    | Some e :: rs' => do t <- second s e; if same t (Some to) then Ok (Some (i, e)) else find s rs' to (S i)
    end.
  (** FindEdge 254-288 without insertion: DKGraphGetEdge 375-381. *)
  Definition get_edge (s : state) (d from to : nat) : outcome (option (nat * nat)) :=
    do l <- edges_of s d from;
    match l with None => Ok None | Some l => do rs <- list_of s l; find s rs to 0 end.
  (** FindEdge 272-277: a new list for the vertex. *)
  Definition new_list (s : state) (d from : nat) : outcome (state * nat) :=
    let l := next s in
    do s <- put keq (make s (Arr [])) d from (Some l) HashTable_Model.InsertAlways;
    do s <- give_up s (Some l);
    Ok (s, l).
  (** FindEdge 279-281: a new edge at the end of the list. *)
  Definition new_edge (s : state) (l from to : nat) : outcome state :=
    do s <- retain s (Some from);
    do s <- retain s (Some to);
    let e := next s in
    do s <- append (make s (Pair (Some from) (Some to))) l (Some e);
    give_up s (Some e).
  (** FindEdge 254-288 with insertion. *)
  Definition add_one (s : state) (d from to : nat) : outcome state :=
    do l <- edges_of s d from;
    do f <- match l with None => Ok None | Some l => do rs <- list_of s l; find s rs to 0 end;
    match f with
    | Some _ => Ok s
    | None =>
      do r <- match l with Some l => Ok (s, l) | None => new_list s d from end;
      new_edge (fst r) (snd r) from to
    end.
  (** RemoveEdge 294-314: with its last edge the vertex is removed. *)
  Definition remove_one (s : state) (d from to : nat) : outcome state :=
    do l <- edges_of s d from;
    match l with
    | None => Ok s
    | Some l =>
      do rs <- list_of s l;
      do f <- find s rs to 0;
      match f with
      | None => Ok s
      | Some (i, _) => if length rs =? 1 then remove keq s d from else splice s l i 1 []
      end
    end.

  Inductive gop : Type :=
  | Vertex                                        (* a new object without members *)
  | Graph                                         (* DKNewGraph *)
  | Keep (x : nat) | Leave (x : nat)              (* DKRetain, DKRelease *)
  | AddEdge (d from to : nat) (both : bool)       (* DKGraphAddEdge 321-330 *)
  | RemoveEdge (d from to : nat) (both : bool)    (* DKGraphRemoveEdge 336-345 *)
  | RemoveAll (d : nat).                          (* DKGraphRemoveAllEdges 351-357 *)
  Definition gstep (s : state) (o : gop) : outcome state :=
    match o with
    | Vertex => step keq s (New Leaf)
    | Graph => step keq s (New (Hash []))
    | Keep x => step keq s (Retain x)
    | Leave x => step keq s (Release x)
    | AddEdge d a b both => do s <- add_one s d a b; if both then add_one s d b a else Ok s
    | RemoveEdge d a b both => do s <- remove_one s d a b; if both then remove_one s d b a else Ok s
    | RemoveAll d => remove_all s d
    end.
  Fixpoint grun (s : state) (os : list gop) : outcome state :=
    match os with [] => Ok s | o :: os' => do s <- gstep s o; grun s os' end.
End Graph.
