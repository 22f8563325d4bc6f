(** What autorelease pools mean: a stack of queues. *)
Require Import Coq.Lists.List Coq.Arith.Arith.
Require Import Verif.Base Verif.Pool_Model.
Import ListNotations.

Section Spec.
  Variable client : Type.
  Variable obj : Type.
  (** Releasing an object in a client state gives the next state and the objects that
      are autoreleased meanwhile. *)
  Variable fin : client -> obj -> client * list obj.

  (** Emptying a queue: its objects are released in order; objects autoreleased
      meanwhile are added to the end of the same queue.  The events are the objects
      released, each with the objects autoreleased during its release. *)
  Inductive empties : client -> list obj -> list (obj * list obj) -> client -> Prop :=
  | empties_nil : forall c, empties c [] [] c
  | empties_cons : forall c x q c1 l ev c2, fin c x = (c1, l) -> empties c1 (q ++ l) ev c2 -> empties c (x :: q) ((x, l) :: ev) c2.

  (** A pool stack: the queue of the innermost pool, those of the enclosing ones, the
      outermost being the pool that exists without a push; and all releases so far. *)
  Record stack : Type := mkK { inner : list obj; outer : list (list obj); state : client; done : list obj }.
  Inductive does : stack -> act obj -> stack -> Prop :=
  | does_auto : forall q o c d x, does (mkK q o c d) (Auto x) (mkK (q ++ [x]) o c d)
  | does_push : forall q o c d, does (mkK q o c d) Push (mkK [] (q :: o) c d)
  | does_pop : forall q p o c d ev c', empties c q ev c' -> does (mkK q (p :: o) c d) Pop (mkK p o c' (d ++ map fst ev))
  | does_drain : forall q o c d ev c', empties c q ev c' -> does (mkK q o c d) Drain (mkK [] o c' (d ++ map fst ev)).
  Inductive history : stack -> list (act obj) -> stack -> Prop :=
  | history_nil : forall k, history k [] k
  | history_cons : forall k a k1 l k2, does k a k1 -> history k1 l k2 -> history k (a :: l) k2.
End Spec.
Arguments empties {client obj}. Arguments mkK {client obj}. Arguments inner {client obj}. Arguments outer {client obj}. Arguments state {client obj}. Arguments done {client obj}.
Arguments does {client obj}. Arguments history {client obj}.

(** Releases that call the pools only to autorelease. *)
Definition only_autoreleases {client obj : Type} (fin : client -> obj -> client * list obj) (c : client) (x : obj) : client * list (act obj) :=
  (fst (fin c x), map Auto (snd (fin c x))).
(** [d] pools are pushed before the calls: no pop without a push, at most [top] pools,
    and a drain only where fewer than 8 are pushed. *)
Fixpoint nested {obj : Type} (d : nat) (l : list (act obj)) : Prop :=
  match l with
  | [] => True
  | Auto _ :: l' => nested d l'
  | Push :: l' => d < 8 /\ nested (S d) l'
  | Pop :: l' => match d with O => False | S d' => nested d' l' end
  | Drain :: l' => d < 8 /\ nested d l'
  end.
