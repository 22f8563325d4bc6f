(** Specification of dictionaries: a finite map given as an association list
    with at most one entry per key (up to key equality). *)
Require Import Coq.Lists.List Coq.NArith.NArith Coq.Bool.Bool.
Require Import Verif.HashTable_Model.
Import ListNotations.

Section Spec.
  Variables K V : Type.
  Variable keq : K -> K -> bool.

  (** Key equality is an equivalence relation. *)
  Definition equivalence : Prop :=
    (forall a, keq a a = true) /\
    (forall a b, keq a b = keq b a) /\
    (forall a b c, keq a b = true -> keq b c = true -> keq a c = true).

  (** Equal keys have equal hashes. *)
  Definition hash_respects (hash : K -> N) : Prop :=
    forall a b, keq a b = true -> hash a = hash b.

  (** The entry stored under (a key equal to) [k]. *)
  Definition amap_get (m : list (K * V)) (k : K) : option (K * V) :=
    List.find (fun e => keq (fst e) k) m.

  (** Overwrite the object stored under [k], keeping the stored key. *)
  Definition amap_overwrite (m : list (K * V)) (k : K) (v : V) : list (K * V) :=
    map (fun e => if keq (fst e) k then (fst e, v) else e) m.

  Definition amap_set (m : list (K * V)) (k : K) (v : V) : list (K * V) :=
    match amap_get m k with
    | Some _ => amap_overwrite m k v
    | None => (k, v) :: m
    end.

  Definition amap_add (m : list (K * V)) (k : K) (v : V) : list (K * V) :=
    match amap_get m k with
    | Some _ => m
    | None => (k, v) :: m
    end.

  Definition amap_replace (m : list (K * V)) (k : K) (v : V) : list (K * V) :=
    amap_overwrite m k v.

  Definition amap_remove (m : list (K * V)) (k : K) : list (K * V) :=
    List.filter (fun e => negb (keq (fst e) k)) m.

  Definition amap_count (m : list (K * V)) : N := N.of_nat (length m).

  (** No two entries have equal keys. *)
  Definition amap_nodup (m : list (K * V)) : Prop :=
    ForallOrdPairs (fun e1 e2 => keq (fst e1) (fst e2) = false) m.

  (** Calling [cb] on the entries in order until it asks to stop. *)
  Fixpoint visit {S : Type} (cb : S -> K -> V -> S * bool) (s : S) (es : list (K * V)) : S * bool :=
    match es with
    | [] => (s, false)
    | (k, v) :: es' =>
        let '(s', stop) := cb s k v in
        if stop then (s', true) else visit cb s' es'
    end.

  (** What each dictionary operation does to, and reads from, the finite map. *)
  Definition amap_step (m : list (K * V)) (o : op K V) : list (K * V) * result K V :=
    match o with
    | OpSet k v => (amap_set m k v, RUnit)
    | OpAdd k v => (amap_add m k v, RUnit)
    | OpReplace k v => (amap_replace m k v, RUnit)
    | OpRemove k => (amap_remove m k, RUnit)
    | OpRemoveAll => ([], RUnit)
    | OpGet k => (m, RGet (amap_get m k))
    | OpCount => (m, RCount (amap_count m))
    end.

  Fixpoint amap_run (m : list (K * V)) (os : list (op K V)) : list (K * V) * list (result K V) :=
    match os with
    | [] => (m, [])
    | o :: os' =>
        let (m1, r) := amap_step m o in
        let (m2, rest) := amap_run m1 os' in
        (m2, r :: rest)
    end.
End Spec.
