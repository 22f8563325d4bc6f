(** Model of graphs, Source/DKGraph.c.

    Vertices are objects that are equal only to themselves (FindEdge and RemoveEdge compare
    pointers, the dictionary and the set use DKEqual) and not NULL.  The dictionary is a list
    of pairs with different keys, which stands for the finite map of C01; lists are the
    sequences of C12 and C16.  Reference counts are left out. *)
Require Import Coq.ZArith.ZArith Coq.Lists.List Coq.Arith.Arith Coq.Bool.Bool.
Require Import Verif.Base Verif.HashTable_Model Verif.Tree_Model.
Import ListNotations.

(** struct DKGraphEdge 43-50; the first vertex is the key of the dictionary. *)
Record edge : Type := mkE { second : nat; userInfo : option nat }.
Definition graph : Type := list (nat * list edge).
(** DKDictionaryGetObject, DKDictionarySetObject, DKDictionaryRemoveObject. *)
Fixpoint dget (g : graph) (v : nat) : option (list edge) :=
  match g with [] => None | (w, es) :: g' => if w =? v then Some es else dget g' v end.
Fixpoint dset (g : graph) (v : nat) (es : list edge) : graph :=
  match g with [] => [(v, es)] | (w, fs) :: g' => if w =? v then (v, es) :: g' else (w, fs) :: dset g' v es end.
Definition dremove (g : graph) (v : nat) : graph := filter (fun p => negb (fst p =? v)) g.
(** FindEdge 254-288 without insertion: the index of the edge in the list. *)
Fixpoint find_index (es : list edge) (to : nat) (i : nat) : option nat :=
  match es with [] => None | e :: es' => if second e =? to then Some i else find_index es' to (S i) end.
Definition find_edge (g : graph) (from to : nat) : option edge :=
  match dget g from with
  | Some es => match find_index es to 0 with Some i => nth_error es i | None => None end
  | None => None
  end.
(** FindEdge 254-288 with insertion. *)
Definition insert_edge (g : graph) (from to : nat) : graph :=
  match dget g from with
  | Some es => match find_index es to 0 with Some _ => g | None => dset g from (es ++ [mkE to None]) end
  | None => dset g from [mkE to None]
  end.
(** RemoveEdge 294-314. *)
Definition remove_edge (g : graph) (from to : nat) : graph :=
  match dget g from with
  | Some es =>
    match find_index es to 0 with
    | Some i => if length es =? 1 then dremove g from else dset g from (firstn i es ++ skipn (S i) es)
    | None => g
    end
  | None => g
  end.
Inductive gop : Type :=
| AddEdge (from to : nat) (both : bool)                (* DKGraphAddEdge 321-330 *)
| RemoveEdge (from to : nat) (both : bool)             (* DKGraphRemoveEdge 336-345 *)
| RemoveAll                                            (* DKGraphRemoveAllEdges 351-357 *)
| GetEdges (from : nat)                                (* DKGraphGetEdges 363-369 *)
| GetEdge (from to : nat)                              (* DKGraphGetEdge 375-381 *)
| SetInfo (from to : nat) (x : option nat).            (* DKGraphEdgeSetUserInfo 122-130 for the edge DKGraphGetEdge returns *)
Inductive gres : Type := GUnit | GEdges (l : option (list edge)) | GEdge (e : option edge).
Definition gexec (g : graph) (o : gop) : graph * gres :=
  match o with
  | AddEdge a b both => let g1 := insert_edge g a b in ((if both then insert_edge g1 b a else g1), GUnit)
  | RemoveEdge a b both => let g1 := remove_edge g a b in ((if both then remove_edge g1 b a else g1), GUnit)
  | RemoveAll => ([], GUnit)
  | GetEdges a => (g, GEdges (dget g a))
  | GetEdge a b => (g, GEdge (find_edge g a b))
  | SetInfo a b x =>
    (match dget g a with
     | Some es => match find_index es b 0 with Some i => dset g a (upd es i (mkE b x)) | None => g end
     | None => g
     end, GUnit)
  end.
Fixpoint gexecs (g : graph) (os : list gop) : graph * list gres :=
  match os with [] => (g, []) | o :: os' => let p := gexec g o in let q := gexecs (fst p) os' in (fst q, snd p :: snd q) end.

(** DKGraphTraverse 387-419.  [cb log v] is what the callback returns for [v] when it was
    called for the vertices in [log] before.  [fuel] bounds the number of rounds. *)
Definition neighbours (g : graph) (v : nat) : list nat := match dget g v with Some es => map second es | None => [] end.
Fixpoint traverse_loop (fuel : nat) (g : graph) (cb : list nat -> nat -> Z) (log visited queue : list nat) : outcome (list nat * Z) :=
  match fuel with
  | O => NoFuel
  | S fuel' =>
    match queue with
    | [] => Ok (log, 0%Z)
    | v :: queue' =>
      let r := cb log v in
      if (r =? 0)%Z then
        let visited := v :: visited in
        traverse_loop fuel' g cb (log ++ [v]) visited (queue' ++ filter (fun w => negb (existsb (Nat.eqb w) visited)) (neighbours g v))
      else Ok (log ++ [v], r)
    end
  end.
Definition traverse (fuel : nat) (g : graph) (cb : list nat -> nat -> Z) (from : nat) : outcome (list nat * Z) := traverse_loop fuel g cb [] [] [from].

(** DKGraphGetShortestPath 438-515 up to the first call of DKBinaryTreeGetFirstObject (461).
    A node is its estimated cost (a whole number here) and its address; DKGraphNodeCompare
    180-198.  [rest] is what follows. *)
Definition node_cmp (a b : Z * Z) : Z :=
  (if (fst a =? fst b) && (snd a =? snd b) then 0 else if fst a <? fst b then 1 else if fst b <? fst a then -1 else if snd a <? snd b then 1 else -1)%Z.
Definition shortest_path {R} (fuel : nat) (cost addr : Z) (rest : option nat -> outcome R) : outcome R :=
  do t <- insert (Z * Z) nat node_cmp fuel (Tree_Model.init (Z * Z) nat) (cost, addr) 0 InsertIfNotFound;
  do current <- get_first (Z * Z) nat fuel t;
  rest current.
