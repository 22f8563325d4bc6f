(** Classes without caches: a class maps selectors to interfaces. *)
Require Import Coq.Lists.List Coq.Arith.Arith Coq.Bool.Bool.
Require Import Verif.Base Verif.Runtime_Model.
Import ListNotations.

(** What a class knows: its superclass and, for its instances and for itself, the
    interface for each selector. *)
Record sclass : Type := mkSC { s_super : option nat; s_prevent : bool; s_inst : nat -> option nat; s_class : nat -> option nat }.
Record srt : Type := mkS { s_sels : nat; s_ifaces : list iface; s_classes : list sclass }.
Definition s_get (k : sclass) (inst : bool) : nat -> option nat := if inst then s_inst k else s_class k.
(** Installing: the selector now has this interface, others keep theirs. *)
Definition s_bind (m : nat -> option nat) (s i : nat) : nat -> option nat := fun s' => if s' =? s then Some i else m s'.
Definition s_put (k : sclass) (inst : bool) (s i : nat) : sclass :=
  if inst then mkSC (s_super k) (s_prevent k) (s_bind (s_inst k) s i) (s_class k) else mkSC (s_super k) (s_prevent k) (s_inst k) (s_bind (s_class k) s i).
Definition s_lookup (r : srt) (c : nat) (inst : bool) (s : nat) : outcome (option nat) :=
  match nth_error (s_classes r) c with
  | Some k => if s <? s_sels r then Ok (s_get k inst s) else UB
  | None => UB
  end.
Definition s_insert (r : srt) (c : nat) (inst : bool) (i : nat) : outcome srt :=
  match nth_error (s_classes r) c, nth_error (s_ifaces r) i with
  | Some k, Some f => Ok (mkS (s_sels r) (s_ifaces r) (upd (s_classes r) c (s_put k inst (sel f) i)))
  | _, _ => UB
  end.
(** The methods of an interface that are missing are those of the superclass. *)
Definition s_inherit (r : srt) (i : nat) (c : option nat) : outcome srt :=
  match c, nth_error (s_ifaces r) i with
  | Some c, Some f =>
    do x <- s_lookup r c true (sel f);
    match x with
    | None => Ok r
    | Some j =>
      match nth_error (s_ifaces r) j with
      | Some g => if length (methods f) =? length (methods g) then Ok (mkS (s_sels r) (upd (s_ifaces r) i (mkI (sel f) (fill (methods f) (methods g)))) (s_classes r)) else Fatal
      | None => UB
      end
    end
  | _, _ => UB
  end.
Definition s_find_msg (r : srt) (c : nat) (inst : bool) (s dyn resp : nat) (answer : nat -> bool) : outcome (option nat) :=
  do x <- s_lookup r c inst s;
  match x with
  | Some i => Ok (Some i)
  | None => do h <- s_lookup r c inst resp; match h with Some h => if answer h then s_lookup r c inst dyn else Ok None | None => Ok None end
  end.
Definition s_exec (r : srt) (o : op) : outcome (srt * result) :=
  match o with
  | NewSelector => Ok (mkS (S (s_sels r)) (s_ifaces r) (s_classes r), Nothing)
  | NewFastSelector l => if l <? 16 then Ok (mkS (S (s_sels r)) (s_ifaces r) (s_classes r), Nothing) else UB
  | NewInterface s ms => if s <? s_sels r then Ok (mkS (s_sels r) (s_ifaces r ++ [mkI s ms]) (s_classes r), Nothing) else UB
  | NewRootClass size prev fin ci ii =>
    if forallb (fun i => i <? length (s_ifaces r)) (ci ++ ii) then
      let m := fun is => fold_left (fun m i => match nth_error (s_ifaces r) i with Some f => s_bind m (sel f) i | None => m end) is (fun _ => None) in
      Ok (mkS (s_sels r) (s_ifaces r) (s_classes r ++ [mkSC None prev (m ii) (m ci)]), Nothing)
    else UB
  (** A new class starts with the interfaces its superclass has at that time. *)
  | NewClass sup size prev noimp ini fin =>
    match nth_error (s_classes r) sup with
    | Some k => if s_prevent k then Fatal else Ok (mkS (s_sels r) (s_ifaces r) (s_classes r ++ [mkSC (Some sup) prev (s_inst k) (s_class k)]), Nothing)
    | None => UB
    end
  | Install c i =>
    match nth_error (s_classes r) c with
    | Some k => do r1 <- s_inherit r i (s_super k); do r2 <- s_insert r1 c true i; Ok (r2, Nothing)
    | None => UB
    end
  | InstallOnClass c i => do r' <- s_insert r c false i; Ok (r', Nothing)
  | InstallMsg c inst s m =>
    if s <? s_sels r then do r' <- s_insert (mkS (s_sels r) (s_ifaces r ++ [mkI s [Some m]]) (s_classes r)) c inst (length (s_ifaces r)); Ok (r', Nothing) else UB
  | Get c inst s => do x <- s_lookup r c inst s; match x with Some i => Ok (r, Found (Some i)) | None => Fatal end
  | Query c inst s => do x <- s_lookup r c inst s; Ok (r, Found x)
  | GetMsg c inst s dyn resp answer => do x <- s_find_msg r c inst s dyn resp answer; Ok (r, Handler x)
  | QueryMsg c inst s dyn resp answer => do x <- s_find_msg r c inst s dyn resp answer; Ok (r, Handler x)
  | Methods i => match nth_error (s_ifaces r) i with Some f => Ok (r, The (methods f)) | None => UB end
  end.
Fixpoint s_execs (r : srt) (os : list op) : outcome (srt * list result) :=
  match os with
  | [] => Ok (r, [])
  | o :: os' => do p <- s_exec r o; do q <- s_execs (fst p) os'; Ok (fst q, snd p :: snd q)
  end.
Definition s_start : srt := mkS 0 [] [].
(** What the outside sees: the results, or how the program ends. *)
Definition visible {A} (x : outcome (A * list result)) : outcome (list result) := do p <- x; Ok (snd p).

(** A class, its superclass, and so on. *)
Inductive line (ks : list class) : nat -> list nat -> Prop :=
| line_root : forall c k, nth_error ks c = Some k -> super k = None -> line ks c [c]
| line_sub : forall c k c' l, nth_error ks c = Some k -> super k = Some c' -> line ks c' l -> line ks c (c :: l).
Definition initialiser (ks : list class) (c : nat) : bool := match nth_error ks c with Some k => has_init k | None => false end.
Definition finalizer (ks : list class) (c : nat) : bool := match nth_error ks c with Some k => has_finalize k | None => false end.
(** Without its own and without the right to use that of its superclass. *)
Definition forbidden (ks : list class) (c : nat) : bool := match nth_error ks c with Some k => negb (has_init k) && noImplicit k | None => false end.
(** The initialisers in the given order, up to and including the first that fails. *)
Fixpoint until_failure (ok : nat -> bool) (cs : list nat) : list nat :=
  match cs with [] => [] | c :: cs' => c :: (if ok c then until_failure ok cs' else []) end.
