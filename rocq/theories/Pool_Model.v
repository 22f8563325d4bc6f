(** Model of the autorelease pools of one thread, Source/DKRuntime+RefCount.c 239-347
    and Source/DKThread.c 67-97.

    The array of objects is its list of elements (DKGenericArray is modelled in
    Array_Model.v) with its capacity and a number that changes when its storage is
    reallocated, so that a pointer into storage that was freed can be recognised.
    [marks] are the entries of lowWater in use, the top one first.  What a release
    does is left open: [rel] gives, from a state of the client, the next state and the
    calls to the pools that are made before DKRelease returns.  A call to
    DKAutorelease for NULL or for an object that is not counted has no effect and is
    left out. *)
Require Import Coq.Lists.List Coq.Bool.Bool Coq.Arith.Arith.
Require Import Verif.Base.
Import ListNotations.

(** DK_AUTORELEASE_POOL_STACK_SIZE; DK_AUTORELEASE_POOL_RESERVE, DKThread.c 50. *)
Definition STACK_SIZE : nat := 8.
Definition RESERVE : nat := 256.

Section Pools.
  Variable client : Type.
  Variable obj : Type.
  Inductive act : Type := Auto (x : obj) | Push | Pop | Drain.
  Variable rel : client -> obj -> client * list act.

  (** [released] lists the objects released so far by the pools, in order. *)
  Record pools : Type := mkP { objs : list obj; cap : nat; gen : nat; marks : list nat; user : client; released : list obj }.
  (** DKThreadContextInit, DKThread.c 67-83. *)
  Definition start (c : client) : pools := mkP [] RESERVE 0 [] c [].

  (** DKAutorelease, 332-347, with the growth of ResizeArray, DKGenericArray.c. *)
  Definition append (s : pools) (x : obj) : pools :=
    let n := S (length (objs s)) in
    if n <=? cap s then mkP (objs s ++ [x]) (cap s) (gen s) (marks s) (user s) (released s)
    else mkP (objs s ++ [x]) (Nat.max 32 (Nat.max n (cap s + cap s / 4))) (S (gen s)) (marks s) (user s) (released s).
  (** range.location, 244-260. *)
  Definition low (s : pools) : nat := match marks s with [] => 0 | m :: _ => m end.
  (** DKGenericArrayReplaceElements( objects, range, NULL, 0 ), 281. *)
  Definition cut (s : pools) (loc len : nat) : outcome pools :=
    if loc + len <=? length (objs s)
    then Ok (mkP (firstn loc (objs s) ++ skipn (loc + len) (objs s)) (cap s) (gen s) (marks s) (user s) (released s))
    else UB.
  (** objects[i] through a pointer taken when the storage was [g], 271. *)
  Definition read (s : pools) (g k : nat) : outcome obj :=
    if g =? gen s then match nth_error (objs s) k with Some x => Ok x | None => UB end else UB.

  Fixpoint exec (fuel : nat) (s : pools) (l : list act) : outcome pools :=
    match fuel with
    | O => NoFuel
    | S f =>
      match l with
      | [] => Ok s
      | a :: l' => do s' <- call f s a; exec f s' l'
      end
    end
  (** DKAutorelease, DKPushAutoreleasePool 302-312, DKPopAutoreleasePool 318-326,
      DKDrainAutoreleasePool 290-296; DKRequire is fatal. *)
  with call (fuel : nat) (s : pools) (a : act) : outcome pools :=
    match fuel with
    | O => NoFuel
    | S f =>
      match a with
      | Auto x => Ok (append s x)
      | Push =>
        if length (marks s) <? STACK_SIZE then Ok (mkP (objs s) (cap s) (gen s) (length (objs s) :: marks s) (user s) (released s)) else Fatal
      | Pop =>
        if 1 <=? length (marks s) then do s' <- drain f s; Ok (mkP (objs s') (cap s') (gen s') (tl (marks s')) (user s') (released s')) else Fatal
      | Drain => if length (marks s) <? STACK_SIZE then drain f s else Fatal
      end
    end
  (** INTERNAL_DKDrainAutoreleasePool, 239-288: the outer loop. *)
  with drain (fuel : nat) (s : pools) : outcome pools :=
    match fuel with
    | O => NoFuel
    | S f =>
      let loc := low s in
      let len := length (objs s) - loc in
      if 0 <? len then do s' <- release_all f s loc len 0 (length (objs s)) (gen s); do s'' <- cut s' loc len; drain f s'' else Ok s
    end
  (** The loop over the objects, 269-279; [known] is arrayLength, [g] the storage the
      pointer was taken in. *)
  with release_all (fuel : nat) (s : pools) (loc len i known g : nat) : outcome pools :=
    match fuel with
    | O => NoFuel
    | S f =>
      if i <? len then
        do x <- read s g (loc + i);
        let '(c, l) := rel (user s) x in
        do s' <- exec f (mkP (objs s) (cap s) (gen s) (marks s) c (released s ++ [x])) l;
        if length (objs s') =? known then release_all f s' loc len (S i) known g
        else release_all f s' loc len (S i) (length (objs s')) (gen s')
      else Ok s
    end.
End Pools.
Arguments Auto {obj}. Arguments Push {obj}. Arguments Pop {obj}. Arguments Drain {obj}.
Arguments mkP {client obj}. Arguments objs {client obj}. Arguments cap {client obj}. Arguments gen {client obj}. Arguments marks {client obj}.
Arguments user {client obj}. Arguments released {client obj}. Arguments start {client obj}. Arguments append {client obj}. Arguments low {client obj}.
Arguments cut {client obj}. Arguments read {client obj}.
Arguments exec {client obj}. Arguments call {client obj}. Arguments drain {client obj}. Arguments release_all {client obj}.
