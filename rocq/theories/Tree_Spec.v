(** Specification of ordered maps. *)
Require Import Coq.ZArith.ZArith Coq.Lists.List Coq.Bool.Bool Coq.Sorting.Sorted.
Require Import Verif.Base Verif.HashTable_Model Verif.Tree_Model.
Import ListNotations.

Section Spec.
  Variables K V : Type.
  Variable cmp : K -> K -> Z.
  (** [cmp a b > 0]: a comes before b. *)
  Definition ordering : Prop :=
    (forall a, cmp a a = 0%Z) /\
    (forall a b, (cmp a b > 0 <-> cmp b a < 0)%Z) /\
    (forall a b c, (cmp a b >= 0 -> cmp b c >= 0 -> cmp a c >= 0)%Z) /\
    (forall a b c, (cmp a b > 0 -> cmp b c >= 0 -> cmp a c > 0)%Z) /\
    (forall a b c, (cmp a b >= 0 -> cmp b c > 0 -> cmp a c > 0)%Z).

  (** A map is a list of pairs; at most one pair for a key. *)
  Definition lookup (m : list (K * V)) (k : K) : option V :=
    option_map snd (List.find (fun e => (cmp (fst e) k =? 0)%Z) m).
  Fixpoint put (m : list (K * V)) (k : K) (v : V) (policy : insert_policy) : list (K * V) :=
    match m with
    | [] => match policy with InsertIfFound => [] | _ => [(k, v)] end
    | (k', v') :: m' =>
      if (cmp k' k <? 0)%Z then match policy with InsertIfFound => m | _ => (k, v) :: m end
      else if (cmp k' k =? 0)%Z then match policy with InsertIfNotFound => m | _ => (k', v) :: m' end
      else (k', v') :: put m' k v policy
    end.
  Definition without (m : list (K * V)) (k : K) : list (K * V) := List.filter (fun e => negb (cmp (fst e) k =? 0)%Z) m.
  (** The order of the pairs. *)
  Definition ordered (m : list (K * V)) : Prop := StronglySorted (fun a b => (cmp (fst a) (fst b) > 0)%Z) m.

  Definition mstep (m : list (K * V)) (o : top K V) : list (K * V) * tres K V :=
    match o with
    | TInsert _ _ k v p => (put m k v p, TUnit _ _)
    | TRemove _ _ k => (without m k, TUnit _ _)
    | TRemoveAll _ _ => ([], TUnit _ _)
    | TGet _ _ k => (m, TObject _ _ (lookup m k))
    | TCount _ _ => (m, TNumber _ _ (Z.of_nat (length m)))
    | TAll _ _ => (m, TList _ _ m)
    end.
  Fixpoint mrun (m : list (K * V)) (os : list (top K V)) : list (K * V) * list (tres K V) :=
    match os with
    | [] => (m, [])
    | o :: os' => let '(m1, r) := mstep m o in let '(m2, rs) := mrun m1 os' in (m2, r :: rs)
    end.
  (** A traversal that stops at the first result other than 0. *)
  Fixpoint visited {St} (f : St -> K -> V -> St * Z) (st : St) (m : list (K * V)) : St * Z :=
    match m with
    | [] => (st, 0%Z)
    | (k, v) :: m' => let y := f st k v in if (snd y =? 0)%Z then visited f (fst y) m' else y
    end.
  (** [t] is the tree after some history of calls, [m] the map after the same calls. *)
  Definition reachable (t : tree K V) (m : list (K * V)) : Prop :=
    exists fuel os rs, trun K V cmp fuel (init K V) os = Ok (t, rs) /\ m = fst (mrun [] os).
End Spec.
