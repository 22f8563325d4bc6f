(** What a program may do with graphs. *)
Require Import Coq.Lists.List.
Require Import Verif.Base Verif.Own_Model Verif.Own_Spec Verif.Arcs_Model.
Import ListNotations.

Definition is_graph (s : state) (d : nat) : Prop := exists n es, nth_error (cells s) d = Some (Live n (Hash es)).
(** A program uses graphs that it has a reference to, and objects that exist. *)
Definition exists_only (s : state) (o : gop) : Prop :=
  match o with
  | Vertex | Graph => True
  | Keep x => live s x
  | Leave x => In x (hands s)
  | AddEdge d a b _ | RemoveEdge d a b _ => In d (hands s) /\ is_graph s d /\ live s a /\ live s b
  | RemoveAll d => In d (hands s) /\ is_graph s d
  end.
(** And where an edge is removed in both directions, it has a reference to the second vertex. *)
Definition also_held (s : state) (o : gop) : Prop :=
  exists_only s o /\ match o with RemoveEdge _ _ b true => In b (hands s) | _ => True end.
Fixpoint follows (P : state -> gop -> Prop) (keq : nat -> nat -> bool) (s : state) (os : list gop) : Prop :=
  match os with [] => True | o :: os' => P s o /\ forall s', gstep keq s o = Ok s' -> follows P keq s' os' end.
