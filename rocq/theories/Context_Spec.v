(** What threads rely on: each has its own dictionary and pools, and nothing it was given is lost. *)
Require Import Coq.Lists.List Coq.Bool.Bool Coq.Arith.Arith Coq.Sorting.Permutation.
Require Import Verif.Base Verif.Pool_Model Verif.Context_Model.
Import ListNotations.

Section Spec.
  Variables key obj : Type.
  Variable keq : key -> key -> bool.
  Variable same : obj -> obj -> bool.
  Variable fin : obj -> list obj.
  Local Notation op := (op key obj).
  Local Notation entries := (entries key obj).

  (** The objects in a thread's dictionary when its calls are taken alone: a dictionary with one entry for
      each key. *)
  Definition mlookup (m : entries) (k : key) : option obj := option_map snd (List.find (fun e => keq (fst e) k) m).
  Definition mput (m : entries) (k : key) (v : obj) : entries := (k, v) :: filter (fun e => negb (keq (fst e) k)) m.
  Definition mremove (m : entries) (k : key) : entries := filter (fun e => negb (keq (fst e) k)) m.
  (** The answers to the lookups of a thread, from its own calls only. *)
  Fixpoint own (m : entries) (os : list op) : list (option obj) :=
    match os with
    | [] => []
    | Put k v :: os' => own (mput m k v) os'
    | Remove k :: os' => own (mremove m k) os'
    | Get k :: os' => mlookup m k :: own m os'
    | Free _ :: os' => own [] os'
    | _ :: os' => own m os'
    end.
  Definition ops_of (t : nat) (ls : list (nat * op)) : list op := map snd (filter (fun l => fst l =? t) ls).
  Definition gets_of (t : nat) (outs : list (nat * answer obj)) : list (option obj) :=
    flat_map (fun a => match snd a with AObject x => if fst a =? t then [x] else [] | _ => [] end) outs.

  (** What the contract of the functions asks of a thread.  A thread that has a context has pushed [d] pools
      (the one of DKThreadExec included) and has the entries [m]. *)
  Inductive kind : Type := KMain | KDuck | KOther.
  Inductive view : Type := VWaits | VNone | VHas (d : nat) (m : entries) | VGone.
  (** No finalizer of the objects autoreleases. *)
  Definition quiet (m : entries) : bool := forallb (fun e => match fin (snd e) with [] => true | _ => false end) m.
  Definition drops (d : nat) (m : entries) (k : key) : bool := match lookup key obj keq m k with Some w => (1 <=? d) || match fin w with [] => true | _ => false end | None => true end.
  (** The next view, or none if the call is against the rules: a context is needed; pools are popped after
      they were pushed, eight at most, and seven when one is drained; objects are autoreleased only when a
      pool is pushed; a thread that ends has popped its pools and its dictionary has only objects whose
      finalizers do not autorelease; DKThreadExit is not called in a thread of the library; a context is
      freed after it was unset. *)
  Definition vstep (k : kind) (v : view) (o : op) : option view :=
    match v, o with
    | VWaits, Begin => Some (VHas 1 [])
    | VNone, New | VNone, Spawn => Some VNone
    | VNone, Alloc => Some (VHas 0 [])
    | VNone, Return => Some VGone
    | VHas d m, New | VHas d m, Spawn | VHas d m, Current | VHas d m, IsMain | VHas d m, Get _ => Some v
    | VHas d m, Put x y => if drops d m x then Some (VHas d (match lookup key obj keq m x with Some w => if same w y then m else replace key obj keq m x y | None => m ++ [(x, y)] end)) else None
    | VHas d m, Remove x => if drops d m x then Some (VHas d (match lookup key obj keq m x with Some w => remove key obj keq m x | None => m end)) else None
    | VHas d m, Pool (Auto _) => if 1 <=? d then Some v else None
    | VHas d m, Pool Push => if d <? 8 then Some (VHas (S d) m) else None
    | VHas d m, Pool Pop => match d with S d' => Some (VHas d' m) | O => None end
    | VHas d m, Pool Drain => if d <? 8 then Some v else None
    | VHas d m, Free true => match k with KOther => if (d =? 0) && quiet m then Some VNone else None | _ => None end
    | VHas d m, Return =>
      match k with
      | KMain => Some v
      | KDuck => if (d =? 1) && quiet m then Some VGone else None
      | KOther => if (d =? 0) && quiet m then Some VGone else None
      end
    | VHas d m, Exit =>
      match k with
      | KMain => Some v
      | KDuck => None
      | KOther => if (d =? 0) && quiet m then Some VGone else None
      end
    | _, _ => None
    end.
  Definition made_by (o : op) : list (kind * view) := match o with New => [(KDuck, VWaits)] | Spawn => [(KOther, VNone)] | _ => [] end.
  (** All threads keep to the rules. *)
  Fixpoint proper (vs : list (kind * view)) (ls : list (nat * op)) : Prop :=
    match ls with
    | [] => True
    | (t, o) :: ls' =>
      match nth_error vs t with
      | None => False
      | Some (k, v) => match vstep k v o with None => False | Some v' => proper (upd vs t (k, v') ++ made_by o) ls' end
      end
    end.
  Definition at_start : list (kind * view) := [(KMain, VHas 0 [])].

  (** The references held by the contexts. *)
  Definition cell_objs (c : cell key obj) : list obj := match c with Live c => map snd (entries_of c) ++ objs (pool c) | Freed => [] end.
  Definition held (s : state key obj) : list obj := flat_map cell_objs (ctxs s).
  (** Every context that exists is that of a thread that runs. *)
  Definition owned (s : state key obj) : Prop :=
    forall i c, nth_error (ctxs s) i = Some (Live c) -> exists t k, nth_error (threads s) t = Some (mkT (Some i) k Runs).
  (** A thread made by the library has its thread object while it waits and runs, and leaves no reference
      to it. *)
  Definition objects_alive (s : state key obj) : Prop :=
    forall t i o p, nth_error (threads s) t = Some (mkT i (Duck o) p) -> exists n, nth_error (refs s) o = Some n /\ (n = 0 <-> p = Gone).
End Spec.
Arguments VWaits {key obj}. Arguments VNone {key obj}. Arguments VHas {key obj}. Arguments VGone {key obj}. Arguments at_start {key obj}.
Arguments held {key obj}. Arguments owned {key obj}. Arguments objects_alive {key obj}. Arguments ops_of {key obj}. Arguments gets_of {obj}. Arguments cell_objs {key obj}.
