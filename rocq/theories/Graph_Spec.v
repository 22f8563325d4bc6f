(** Graphs as lists of edges. *)
Require Import Coq.ZArith.ZArith Coq.Lists.List Coq.Arith.Arith Coq.Bool.Bool.
Require Import Verif.Base Verif.Graph_Model.
Import ListNotations.

(** An edge from [src] to [dst]; edges are in the order in which they were added. *)
Record sedge : Type := mkSE { src : nat; dst : nat; info : option nat }.
Definition is_edge (a b : nat) (e : sedge) : bool := (src e =? a) && (dst e =? b).
Definition s_add (l : list sedge) (a b : nat) : list sedge := if existsb (is_edge a b) l then l else l ++ [mkSE a b None].
Definition s_del (l : list sedge) (a b : nat) : list sedge := filter (fun e => negb (is_edge a b e)) l.
Definition out (l : list sedge) (a : nat) : list edge := map (fun e => mkE (dst e) (info e)) (filter (fun e => src e =? a) l).
Definition s_gexec (l : list sedge) (o : gop) : list sedge * gres :=
  match o with
  | AddEdge a b both => let l1 := s_add l a b in ((if both then s_add l1 b a else l1), GUnit)
  | RemoveEdge a b both => let l1 := s_del l a b in ((if both then s_del l1 b a else l1), GUnit)
  | RemoveAll => ([], GUnit)
  | GetEdges a => (l, GEdges (match out l a with [] => None | es => Some es end))
  | GetEdge a b => (l, GEdge (option_map (fun e => mkE (dst e) (info e)) (find (is_edge a b) l)))
  | SetInfo a b x => (map (fun e => if is_edge a b e then mkSE a b x else e) l, GUnit)
  end.
Fixpoint s_gexecs (l : list sedge) (os : list gop) : list sedge * list gres :=
  match os with [] => (l, []) | o :: os' => let p := s_gexec l o in let q := s_gexecs (fst p) os' in (fst q, snd p :: snd q) end.

(** The vertices that can be reached over edges. *)
Inductive reach (g : graph) : nat -> nat -> Prop :=
| reach_refl : forall v, reach g v v
| reach_step : forall v w x, In w (neighbours g v) -> reach g w x -> reach g v x.
(** Calling back for the vertices of [l] until a callback does not return zero. *)
Fixpoint call_back (cb : list nat -> nat -> Z) (log l : list nat) : list nat * Z :=
  match l with
  | [] => (log, 0%Z)
  | v :: l' => if (cb log v =? 0)%Z then call_back cb (log ++ [v]) l' else (log ++ [v], cb log v)
  end.
(** Everything that can be reached from [v] hangs below it as a tree. *)
Definition tree_below (g : graph) (v : nat) : Prop :=
  (forall u, reach g v u -> ~ In v (neighbours g u)) /\
  (forall u u' w, reach g v u -> reach g v u' -> In w (neighbours g u) -> In w (neighbours g u') -> u = u') /\
  (forall u, reach g v u -> NoDup (neighbours g u)).
