(** What strings and data show, without memory: an object has bytes of its own, or shows the memory of the
    caller as it is at that time. *)
Require Import Coq.Arith.Arith Coq.NArith.NArith Coq.Lists.List Coq.Bool.Bool.
Require Import Verif.Base Verif.Lent_Model.
Require Verif.StrObj_Spec.
Import ListNotations.

Inductive body : Type := Shows (k n : nat) | Has (bs : list N).
Record sobj : Type := mkX { scls : cls; sbody : body; hashed : bool }.
Record spec : Type := mkP { bufs : list (option (list N)); sobjs : list (option sobj) }.
Definition nothing : spec := mkP [] [].
(** The bytes up to the first NUL, and the hash code of a text. *)
Definition cut : list N -> list N := StrObj_Spec.cut.
Definition poly : list N -> N := StrObj_Spec.poly.
(** The memory lent as number [k], as long as the caller has not taken it back. *)
Definition buffer (s : spec) (k : nat) : option (list N) := match nth_error (bufs s) k with Some c => c | None => None end.
Definition object (s : spec) (o : nat) : option sobj := match nth_error (sobjs s) o with Some x => x | None => None end.
(** The bytes an object shows, and the text of a string, which ends at the first NUL. *)
Definition contents (s : spec) (x : sobj) : option (list N) :=
  match sbody x with Has bs => Some bs | Shows k n => option_map (firstn n) (buffer s k) end.
Definition text (s : spec) (x : sobj) : option (list N) :=
  match sbody x with Has bs => Some (cut bs) | Shows k n => option_map cut (buffer s k) end.
Definition put {A} (l : list A) (i : nat) (x : A) : list A := firstn i l ++ x :: skipn (S i) l.
Definition splice (bs : list N) (loc n : nat) (new : list N) : list N := firstn loc bs ++ new ++ skipn (loc + n) bs.

Definition with_bufs (s : spec) (l : list (option (list N))) : spec := mkP l (sobjs s).
Definition with_obj (s : spec) (o : nat) (x : option sobj) : spec := mkP (bufs s) (put (sobjs s) o x).
Definition more (s : spec) (x : sobj) : spec := mkP (bufs s) (sobjs s ++ [Some x]).
Definition mark (x : sobj) : sobj := mkX (scls x) (sbody x) true.
(** What each call does, and its answer; nothing if the caller uses memory or an object that is gone. *)
Definition sstep (s : spec) (o : op) : option (spec * out) :=
  match o with
  | Lend bs => Some (with_bufs s (bufs s ++ [Some bs]), ONone)
  | Poke k i v => match buffer s k with Some c => if (i <? length c)%nat then Some (with_bufs s (put (bufs s) k (Some (put c i v))), ONone) else None | None => None end
  | Reclaim k => match buffer s k with Some _ => Some (with_bufs s (put (bufs s) k None), ONone) | None => None end
  | NoCopyString k => match buffer s k with Some c => Some (more s (mkX Imm (Shows k (length (cut c))) false), ONone) | None => None end
  | NoCopyData k => match buffer s k with Some c => Some (more s (mkX Dat (Shows k (length c)) false), ONone) | None => None end
  | Copy a =>
    match object s a with
    | Some x => match contents s x with Some bs => Some (more s (mkX (if is_string (scls x) then Imm else scls x) (Has bs) (hashed x)), ONone) | None => None end
    | None => None
    end
  | MutableCopy a =>
    match object s a with
    | Some x => match contents s x with Some bs => Some (more s (mkX (if is_string (scls x) then Mut else MDat) (Has bs) (hashed x)), ONone) | None => None end
    | None => None
    end
  | Splice a loc n new =>
    match object s a with
    | Some (mkX c (Has bs) h) => if mutable c && (loc + n <=? length bs)%nat then Some (with_obj s a (Some (mkX c (Has (splice bs loc n new)) false)), ONone) else Some (s, ONone)
    | Some _ => Some (s, ONone)
    | None => None
    end
  | WritePtr a i v =>
    match object s a with
    | Some (mkX c (Has bs) h) => if mutable c && (i <? length bs)%nat then Some (with_obj s a (Some (mkX c (Has (put bs i v)) h)), ONone) else Some (s, ONone)
    | Some _ => Some (s, ONone)
    | None => None
    end
  | MakeImmutable a =>
    match object s a with
    | Some (mkX c b h) => Some (with_obj s a (Some (mkX (match c with Mut => Imm | MDat => Dat | c => c end) b h)), ONone)
    | None => None
    end
  | Release a => match object s a with Some _ => Some (with_obj s a None, ONone) | None => None end
  | Bytes a => match object s a with Some x => match contents s x with Some bs => Some (s, OBytes bs) | None => None end | None => None end
  | Hash a =>
    match object s a with
    | Some x => if is_string (scls x) then match text s x with Some t => Some (with_obj s a (Some (mark x)), OHash (poly t)) | None => None end else Some (s, ONone)
    | None => None
    end
  | Equal a b =>
    match object s a, object s b with
    | Some x, Some y =>
      if is_string (scls x) && is_string (scls y) then
        match text s x, text s y with
        | Some t, Some u =>
          Some (if (a =? b)%nat then s else with_obj (with_obj s a (Some (mark x))) b (Some (mark y)), OEqual (if list_eq_dec N.eq_dec t u then true else false))
        | _, _ => None
        end
      else Some (s, ONone)
    | _, _ => None
    end
  end.
Fixpoint srun (s : spec) (ops : list op) : option (spec * list out) :=
  match ops with
  | [] => Some (s, [])
  | o :: ops' => match sstep s o with Some (s', r) => match srun s' ops' with Some (t, rs) => Some (t, r :: rs) | None => None end | None => None end
  end.
(** Memory is not written to directly while a string that shows it or has it remembers its hash code, and
    lent text keeps its length. *)
Definition calm_op (s : spec) (o : op) : Prop :=
  match o with
  | Poke k i v => v <> 0%N /\ (forall c, buffer s k = Some c -> nth i c 1%N <> 0%N) /\
      forall a x n, object s a = Some x -> is_string (scls x) = true -> sbody x = Shows k n -> hashed x = false
  | WritePtr a _ _ => forall x, object s a = Some x -> is_string (scls x) = true -> hashed x = false
  | _ => True
  end.
Fixpoint calm (s : spec) (ops : list op) : Prop :=
  match ops with [] => True | o :: ops' => calm_op s o /\ match sstep s o with Some (s', _) => calm s' ops' | None => True end end.
(** Answers other than hash codes and equality. *)
Definition plain (o : out) : bool := match o with OHash _ | OEqual _ => false | _ => true end.
Definition agree (want got : out) : Prop := if plain want then got = want else plain got = false.
(** The memory of the caller is what the caller wrote there. *)
Definition memory (m : state) (k : nat) : option (list N) :=
  match nth_error (lent m) k with Some b => match nth_error (hp m) b with Some (mkB _ d) => d | None => None end | None => None end.
