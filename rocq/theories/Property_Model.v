(** Model of the properties of objects, Source/DKRuntime+Properties.c, with the names of
    enumerations, Source/DKEnum.c, and the values of structures, Source/DKStruct.c.  Objects are
    numbered; an object has a class, a value, a count of references (C02, C03 model the count
    itself) and memory.  The memory of an object is taken as slots by offset: properties at
    different offsets do not overlap.  Memory never written is zero, as allocated.  Finalizers
    are not modelled: an object whose count reaches zero is dead, and using it is UB.  Property
    interfaces (undefined names of dictionaries), numbers of floating point types, locks and
    the archive are not modelled here. *)
Require Import Coq.NArith.NArith Coq.ZArith.ZArith Coq.Lists.List Coq.Arith.Arith Coq.Bool.Bool.
Require Import Verif.Base Verif.Number_Model.
Require Verif.String_Model.
Import ListNotations.
Local Open Scope nat_scope.

Definition text : Type := list N.
Definition text_eqb (a b : text) : bool := if list_eq_dec N.eq_dec a b then true else false.
(** A value: a string, a number, a structure (its semantic and bytes), or something else. *)
Inductive content : Type := CText (t : text) | CNum (n : num) | CStruct (sem : option text) (b : list Z) | COther.
Record object : Type := mkObj { cls : nat; body : content; refs : nat }.
Inductive slot : Type := SRef (r : option nat) | SWeak (r : option nat) | SBytes (b : list Z).
(** What observers and the warning callback are told. *)
Inductive event : Type := WillRead (o : nat) (n : text) | DidRead (o : nat) (n : text) | WillWrite (o : nat) (n : text) | DidWrite (o : nat) (n : text) | Warning.
(** [pool] are the objects autoreleased and not yet released. *)
Record world : Type := mkW { heap : list object; memory : list ((nat * nat) * slot); pool : list nat; log : list event }.
Definition with_heap (w : world) (h : list object) : world := mkW h (memory w) (pool w) (log w).
Definition with_memory (w : world) (m : list ((nat * nat) * slot)) : world := mkW (heap w) m (pool w) (log w).
Definition with_pool (w : world) (p : list nat) : world := mkW (heap w) (memory w) p (log w).
Definition note (w : world) (e : event) : world := mkW (heap w) (memory w) (pool w) (log w ++ [e]).

(** What reading a property gives: nothing, an object, or the string of an enumeration, which
    belongs to the enumeration (DKEnum.c 262-263). *)
Inductive got : Type := GNull | GObj (i : nat) | GText (t : text).
(** The encodings of properties: DKEncodingTypeObject, number types, DKEncodingTypeBinaryData. *)
Inductive encoding : Type := EObj | ENum (t : ity) (s : shape) | EBin (n : nat).
(** struct DKProperty, DKRuntime.h 611-631; observers are present or not, and only watch. *)
Record property : Type := mkP {
  pname : text; semantic : option text; readonly : bool; weak : bool; copied : bool; offset : nat; enc : encoding;
  enumt : option (list (text * Z)); pred : option (option (nat * content) -> bool);
  getter : option (world -> nat -> outcome (world * got)); setter : option (world -> nat -> option nat -> outcome world);
  wr : bool; dr : bool; ww : bool; dw : bool }.
(** The classes: their properties, and how an instance is copied: retained (DKRuntime.c 189-194,
    DKString.c 124) or made into a new instance of some class (DKString.c 207). *)
Record program : Type := mkProg { props : nat -> list property; copies : nat -> option nat }.

(** * Objects *)
Definition get_obj (w : world) (i : nat) : option object := nth_error (heap w) i.
Definition set_refs (o : object) (n : nat) : object := mkObj (cls o) (body o) n.
(** DKRetain and DKRelease (DKRuntime.c, see C02), the object in question being alive. *)
Definition retain (w : world) (x : option nat) : outcome world :=
  match x with
  | None => Ok w
  | Some i => match get_obj w i with
              | Some o => if refs o =? 0 then UB else Ok (with_heap w (upd (heap w) i (set_refs o (S (refs o)))))
              | None => UB
              end
  end.
Definition release (w : world) (x : option nat) : outcome world :=
  match x with
  | None => Ok w
  | Some i => match get_obj w i with
              | Some o => if refs o =? 0 then UB else Ok (with_heap w (upd (heap w) i (set_refs o (refs o - 1))))
              | None => UB
              end
  end.
(** DKAlloc and DKInit of an object with a value. *)
Definition alloc (w : world) (c : nat) (b : content) : world * nat := (with_heap w (heap w ++ [mkObj c b 1]), length (heap w)).
(** DKCopy, DKCopying.c 42-51. *)
Definition copy (P : program) (w : world) (x : option nat) : outcome (world * option nat) :=
  match x with
  | None => Ok (w, None)
  | Some i =>
    match get_obj w i with
    | Some o => if refs o =? 0 then UB else
        match copies P (cls o) with
        | None => do w <- retain w x; Ok (w, x)
        | Some c => let '(w, j) := alloc w c (body o) in Ok (w, Some j)
        end
    | None => UB
    end
  end.
(** DKAutorelease, DKRuntime+Autorelease.c: released when the pool is drained (C05). *)
Definition autorelease (w : world) (x : option nat) : world := match x with None => w | Some i => with_pool w (i :: pool w) end.
(** DKResolveWeak (C04): the object, retained, or nothing when it is dead. *)
Definition resolve (w : world) (x : option nat) : outcome (world * option nat) :=
  match x with
  | None => Ok (w, None)
  | Some i => match get_obj w i with
              | Some o => if refs o =? 0 then Ok (w, None) else do w <- retain w x; Ok (w, x)
              | None => UB
              end
  end.

(** * Memory *)
Fixpoint find_slot (m : list ((nat * nat) * slot)) (k : nat * nat) : option slot :=
  match m with
  | [] => None
  | (k', s) :: m' => if ((fst k' =? fst k) && (snd k' =? snd k))%bool then Some s else find_slot m' k
  end.
Fixpoint put_slot (m : list ((nat * nat) * slot)) (k : nat * nat) (s : slot) : list ((nat * nat) * slot) :=
  match m with
  | [] => [(k, s)]
  | (k', s') :: m' => if ((fst k' =? fst k) && (snd k' =? snd k))%bool then (k, s) :: m' else (k', s') :: put_slot m' k s
  end.
(** The value at an offset as a reference, a weak reference, or bytes. *)
Definition load_ref (w : world) (o off : nat) : outcome (option nat) :=
  match find_slot (memory w) (o, off) with None => Ok None | Some (SRef r) => Ok r | _ => UB end.
Definition load_weak (w : world) (o off : nat) : outcome (option nat) :=
  match find_slot (memory w) (o, off) with None => Ok None | Some (SWeak r) => Ok r | _ => UB end.
Definition load_bytes (w : world) (o off n : nat) : outcome (list Z) :=
  match find_slot (memory w) (o, off) with
  | None => Ok (repeat 0%Z n)
  | Some (SBytes b) => if length b =? n then Ok b else UB
  | _ => UB
  end.
Definition save (w : world) (o off : nat) (s : slot) : world := with_memory w (put_slot (memory w) (o, off) s).

(** * Enumerations: the rows of the table *)
(** DKEnumFromString64 231-243. *)
Fixpoint enum_value (e : list (text * Z)) (s : text) : Z :=
  match e with [] => 0%Z | (t, v) :: e' => if text_eqb t s then v else enum_value e' s end.
(** DKStringFromEnum64 249-272. *)
Fixpoint enum_string (e : list (text * Z)) (v : Z) : option text :=
  match e with [] => None | (t, x) :: e' => if (x =? v)%Z then Some t else enum_string e' v end.

(** * Reading and writing *)
(** DKWillReadProperty ... DKDidWriteProperty 428-462. *)
Definition will_read (w : world) (o : nat) (p : property) : world := if wr p then note w (WillRead o (pname p)) else w.
Definition did_read (w : world) (o : nat) (p : property) : world := if dr p then note w (DidRead o (pname p)) else w.
Definition will_write (w : world) (o : nat) (p : property) : world := if ww p then note w (WillWrite o (pname p)) else w.
Definition did_write (w : world) (o : nat) (p : property) : world := if dw p then note w (DidWrite o (pname p)) else w.
(** The class and value a predicate is evaluated with. *)
Definition view (w : world) (x : option nat) : option (nat * content) :=
  match x with None => None | Some i => match get_obj w i with Some o => Some (cls o, body o) | None => None end end.
Definition body_of (w : world) (x : option nat) : option content := match view w x with Some (_, b) => Some b | None => None end.
(** DKEncodingGetSize. *)
Definition esize (e : encoding) : nat := match e with EObj => 8 | ENum t s => size t s | EBin n => n end.
(** DKNumberConvert into a property 1038-1088: whether something was converted. *)
Definition convert_in (w : world) (o : nat) (p : property) (ts : ity) (ss : shape) (src : list Z) : outcome (world * bool) :=
  match enc p with
  | ENum td sd =>
    do dst <- load_bytes w o (offset p) (size td sd);
    do r <- convert ts ss src td sd dst;
    Ok (save w o (offset p) (SBytes (snd r)), negb (fst r =? 0))
  | _ => Ok (w, false)
  end.
(** DKStructGetValue, DKStruct.c 338-369, into a property. *)
Definition opt_text_eqb (a b : option text) : bool :=
  match a, b with None, None => true | Some a, Some b => text_eqb a b | _, _ => false end.
Definition struct_in (w : world) (o : nat) (p : property) (sem : option text) (b : list Z) : world * bool :=
  if esize (enc p) =? length b then
    if opt_text_eqb sem (semantic p) then (save w o (offset p) (SBytes b), true) else (note w Warning, false)
  else (note w Warning, false).
Definition is_obj (e : encoding) : bool := match e with EObj => true | _ => false end.
(** DKWritePropertyObject 468-555, as the steps of the function. *)
Definition store_object (P : program) (w : world) (o : nat) (p : property) (x : option nat) : outcome world :=
  if copied p then
    do (w, c) <- copy P w x;
    do old <- load_ref w o (offset p);
    do w <- release w old;
    Ok (save w o (offset p) (SRef c))
  else if weak p then
    do _ <- load_weak w o (offset p);
    Ok (save w o (offset p) (SWeak x))
  else
    do w <- retain w x;
    do old <- load_ref w o (offset p);
    do w <- release w old;
    Ok (save w o (offset p) (SRef x)).
Definition write_enum (w : world) (o : nat) (p : property) (x : option nat) : outcome (world * bool) :=
  match enumt p, body_of w x with
  | Some e, Some (CText t) =>
    do (w, ok) <- convert_in (will_write w o p) o p int32 (Vec 1) (le 4 (enum_value e t));
    Ok (did_write w o p, ok)
  | _, _ => Ok (w, false)
  end.
Definition write_number (w : world) (o : nat) (p : property) (x : option nat) : outcome (world * bool) :=
  match body_of w x with
  | Some (CNum n) =>
    do (w, ok) <- convert_in (will_write w o p) o p (ty n) (sh n) (mem n);
    Ok (did_write w o p, ok)
  | _ => Ok (w, false)
  end.
Definition write_struct (w : world) (o : nat) (p : property) (x : option nat) : world * bool :=
  match body_of w x with
  | Some (CStruct sem b) => let '(w, ok) := struct_in (will_write w o p) o p sem b in (did_write w o p, ok)
  | _ => (w, false)
  end.
Definition write_object (P : program) (w : world) (o : nat) (p : property) (x : option nat) : outcome world :=
  match setter p with
  | Some f => do w <- f (will_write w o p) o x; Ok (did_write w o p)
  | None =>
    if is_obj (enc p) then
      if match pred p with Some f => negb (f (view w x)) | None => false end then Ok (note w Warning)
      else do w <- store_object P (will_write w o p) o p x; Ok (did_write w o p)
    else
      do (w, ok) <- write_enum w o p x; if (ok : bool) then Ok w else
      do (w, ok) <- write_number w o p x; if (ok : bool) then Ok w else
      let '(w, ok) := write_struct w o p x in if (ok : bool) then Ok w else Ok (note w Warning)
  end.

Definition got_of (x : option nat) : got := match x with None => GNull | Some i => GObj i end.
(** The classes of the numbers and structures made when reading (DKNewNumber, DKNewStruct). *)
Definition number_class : nat := 0.
Definition struct_class : nat := 1.
(** DKReadPropertyObject 561-634.  [junk] is the variable enumValue before (602). *)
Definition read_enum (w : world) (o : nat) (p : property) (junk : list Z) : outcome (world * option got) :=
  match enumt p, enc p with
  | Some e, ENum t s =>
    let w := will_read w o p in
    do src <- load_bytes w o (offset p) (size t s);
    do r <- convert t s src int32 (Vec 1) junk;
    let w := did_read w o p in
    if fst r =? 0 then Ok (w, None)
    else do v <- load int32 (snd r) 0; Ok (w, Some (match enum_string e v with Some t => GText t | None => GNull end))
  | Some _, _ => Ok (did_read (will_read w o p) o p, None)
  | None, _ => Ok (w, None)
  end.
Definition read_object (w : world) (o : nat) (p : property) (junk : list Z) : outcome (world * got) :=
  match getter p with
  | Some f => do (w, g) <- f (will_read w o p) o; Ok (did_read w o p, g)
  | None =>
    match enc p with
    | EObj =>
      let w := will_read w o p in
      do (w, x) <- (if weak p then do r <- load_weak w o (offset p); resolve w r
                    else do r <- load_ref w o (offset p); do w <- retain w r; Ok (w, r));
      let w := autorelease w x in
      Ok (did_read w o p, got_of x)
    | e =>
      do (w, g) <- read_enum w o p junk;
      match g with
      | Some g => Ok (w, g)
      | None =>
        match e with
        | ENum t s =>
          let w := will_read w o p in
          do b <- load_bytes w o (offset p) (size t s);
          let '(w, i) := alloc w number_class (CNum (mkNum t s b)) in
          Ok (autorelease (did_read w o p) (Some i), GObj i)
        | _ =>
          match semantic p with
          | Some _ =>
            let w := will_read w o p in
            do b <- load_bytes w o (offset p) (esize e);
            let '(w, i) := alloc w struct_class (CStruct (semantic p) b) in
            Ok (autorelease (did_read w o p) (Some i), GObj i)
          | None => Ok (note w Warning, GNull)
          end
        end
      end
    end
  end.

(** * The interface *)
(** DKGetPropertyDefinition 313-332 for the class of an object: the property of a name. *)
Definition find_property (l : list property) (n : text) : option property := find (fun p => text_eqb (pname p) n) l.
Definition definition (P : program) (w : world) (o : nat) (n : text) : outcome (option property) :=
  match get_obj w o with
  | Some ob => if refs ob =? 0 then UB else Ok (find_property (props P (cls ob)) n)
  | None => UB
  end.
(** DKTrySetProperty 672-702 with a warning when the name is not found.  The receiver is nothing,
    an object, or the string of an enumeration, which has no properties. *)
Definition set_property (P : program) (w : world) (o : got) (n : text) (x : option nat) : outcome world :=
  match o with
  | GNull => Ok w
  | GText _ => Ok (note w Warning)
  | GObj o =>
    do d <- definition P w o n;
    match d with
    | None => Ok (note w Warning)
    | Some p => if readonly p then Ok (note w Warning) else write_object P w o p x
    end
  end.
(** DKTryGetProperty 720-743. *)
Definition get_property (P : program) (w : world) (o : got) (n : text) (junk : list Z) : outcome (world * got) :=
  match o with
  | GNull => Ok (w, GNull)
  | GText _ => Ok (note w Warning, GNull)
  | GObj o =>
    do d <- definition P w o n;
    match d with
    | None => Ok (note w Warning, GNull)
    | Some p => read_object w o p junk
    end
  end.
(** DKResolveTargetForKeyPath 640-666: the loop over the keys after the first. *)
Fixpoint follow (P : program) (w : world) (o : got) (k : text) (ks : list text) (junk : list Z) : outcome (world * got * text) :=
  match ks with
  | [] => Ok (w, o, k)
  | k' :: ks' => do (w, g) <- get_property P w o k junk; follow P w g k' ks' junk
  end.
Definition resolve_path (P : program) (w : world) (root : got) (path : text) (junk : list Z) : outcome (world * option (got * text)) :=
  match root with
  | GNull => Ok (w, None)
  | _ =>
    do keys <- String_Model.split path [46%N];
    match keys with
    | [] => Ok (w, None)
    | k :: ks => do (w, o, k) <- follow P w root k ks junk; Ok (w, Some (o, k))
    end
  end.
(** DKTrySetPropertyForKeyPath 708-715, DKTryGetPropertyForKeyPath 749-758. *)
Definition set_path (P : program) (w : world) (root : got) (path : text) (x : option nat) (junk : list Z) : outcome world :=
  do (w, r) <- resolve_path P w root path junk;
  match r with Some (o, k) => set_property P w o k x | None => Ok w end.
Definition get_path (P : program) (w : world) (root : got) (path : text) (junk : list Z) : outcome (world * got) :=
  do (w, r) <- resolve_path P w root path junk;
  match r with Some (o, k) => get_property P w o k junk | None => Ok (w, GNull) end.

(** DKSetNumberProperty 766-816. *)
Definition set_number (P : program) (w : world) (o : got) (n : text) (v : num) : outcome world :=
  match o with
  | GNull => Ok w
  | GText _ => Ok (note w Warning)
  | GObj o =>
    do d <- definition P w o n;
    match d with
    | None => Ok (note w Warning)
    | Some p =>
      if readonly p then Ok (note w Warning)
      else if (match setter p with Some _ => true | None => false end || is_obj (enc p))%bool then
        let '(w, i) := alloc w number_class (CNum v) in
        do w <- write_object P w o p (Some i);
        release w (Some i)
      else
        do (w, ok) <- convert_in (will_write w o p) o p (ty v) (sh v) (mem v);
        let w := did_write w o p in
        if (ok : bool) then Ok w else Ok (note w Warning)
    end
  end.
(** UnpackNumber 834-850, and DKGetNumberProperty 853-911: the result and the bytes of the destination. *)
Definition unpack_number (w : world) (g : got) (t : ity) (s : shape) (dst : list Z) : outcome (nat * list Z) :=
  match g with
  | GNull => Ok (count s, repeat 0%Z (size t s) ++ skipn (size t s) dst)
  | GObj i => match body_of w (Some i) with
              | Some (CNum n) => convert (ty n) (sh n) (mem n) t s dst
              | _ => Ok (0, dst)
              end
  | GText _ => Ok (0, dst)
  end.
Definition get_number (P : program) (w : world) (o : got) (n : text) (t : ity) (s : shape) (dst junk : list Z) : outcome (world * nat * list Z) :=
  match o with
  | GNull => Ok (w, 0, dst)
  | GText _ => Ok (note w Warning, 0, dst)
  | GObj o =>
    do d <- definition P w o n;
    match d with
    | None => Ok (note w Warning, 0, dst)
    | Some p =>
      do (w, r) <-
        (if (match getter p with Some _ => true | None => false end || is_obj (enc p))%bool then
           do (w, g) <- read_object w o p junk; do r <- unpack_number w g t s dst; Ok (w, r)
         else
           let w := will_read w o p in
           do r <- (match enc p with
                    | ENum ts ss => do src <- load_bytes w o (offset p) (size ts ss); convert ts ss src t s dst
                    | _ => Ok (0, dst)
                    end);
           Ok (did_read w o p, r));
      if fst r =? 0 then Ok (note w Warning, 0, snd r) else Ok (w, fst r, snd r)
    end
  end.
(** DKSetIntegerProperty and DKGetIntegerProperty; [junk] is the variable x before. *)
Definition set_integer (P : program) (w : world) (o : got) (n : text) (z : Z) : outcome world :=
  set_number P w o n (mkNum int64 (Vec 1) (le 8 z)).
Definition get_integer (P : program) (w : world) (o : got) (n : text) (junk junk' : list Z) : outcome (world * Z) :=
  do (w, r, b) <- get_number P w o n int64 (Vec 1) junk junk';
  if r =? 0 then Ok (w, 0%Z) else do z <- load int64 b 0; Ok (w, z).

(** CheckSemanticRequirement 404-419.  Only that there is a warning is modelled: its text takes
    the name of the property, a string object, for a C string (406-407). *)
Definition semantic_fails (p : property) (sem : option text) : bool :=
  match semantic p with None => false | Some s => negb (opt_text_eqb sem (Some s)) end.
(** DKSetStructProperty 935-981. *)
Definition set_struct (P : program) (w : world) (o : got) (n : text) (sem : option text) (b : list Z) : outcome world :=
  match o with
  | GNull => Ok w
  | GText _ => Ok (note w Warning)
  | GObj o =>
    do d <- definition P w o n;
    match d with
    | None => Ok (note w Warning)
    | Some p =>
      if readonly p then Ok (note w Warning)
      else if semantic_fails p sem then Ok (note w Warning)
      else if (match setter p with Some _ => true | None => false end || is_obj (enc p))%bool then
        let '(w, i) := alloc w struct_class (CStruct sem b) in
        do w <- write_object P w o p (Some i);
        release w (Some i)
      else match enc p with
           | EBin k => if k =? length b
                       then let w := will_write w o p in let w := save w o (offset p) (SBytes b) in Ok (did_write w o p)
                       else Ok (note w Warning)
           | _ => Ok (note w Warning)
           end
    end
  end.
(** UnpackStructure 1000-1016 and DKGetStructProperty 1019-1076: the result and the destination. *)
Definition unpack_struct (w : world) (g : got) (sem : option text) (dst : list Z) : world * nat * list Z :=
  match g with
  | GNull => (w, length dst, repeat 0%Z (length dst))
  | GObj i => match body_of w (Some i) with
              | Some (CStruct sem' b) =>
                if length dst =? length b then if opt_text_eqb sem' sem then (w, length b, b) else (note w Warning, 0, dst)
                else (note w Warning, 0, dst)
              | _ => (w, 0, dst)
              end
  | GText _ => (w, 0, dst)
  end.
Definition get_struct (P : program) (w : world) (o : got) (n : text) (sem : option text) (dst junk : list Z) : outcome (world * nat * list Z) :=
  match o with
  | GNull => Ok (w, 0, dst)
  | GText _ => Ok (note w Warning, 0, dst)
  | GObj o =>
    do d <- definition P w o n;
    match d with
    | None => Ok (note w Warning, 0, dst)
    | Some p =>
      if semantic_fails p sem then Ok (note w Warning, 0, dst)
      else
        do (w, r, dst) <-
          (if (match getter p with Some _ => true | None => false end || is_obj (enc p))%bool then
             do (w, g) <- read_object w o p junk; Ok (unpack_struct w g sem dst)
           else Ok (w, 0, dst));
        if negb (r =? 0) then Ok (w, r, dst)
        else match enc p with
             | EBin k => if k =? length dst then
                           let w := will_read w o p in
                           do b <- load_bytes w o (offset p) k;
                           Ok (did_read w o p, length dst, b)
                         else Ok (note w Warning, 0, dst)
             | _ => Ok (note w Warning, 0, dst)
             end
    end
  end.

(** * What a client can do *)
Inductive op : Type :=
| New (c : nat) (b : content)                        (* DKNew: the client owns one reference *)
| Mutate (x : nat) (b : content)                     (* changing an object that has mutable instances *)
| Retain (x : nat) | Release (x : nat)               (* DKRetain, DKRelease *)
| Set_ (o : got) (n : text) (x : option nat) | Get_ (o : got) (n : text)
| SetNum (o : got) (n : text) (v : num) | GetNum (o : got) (n : text) (t : ity) (s : shape) (dst : list Z)
| SetStruct (o : got) (n : text) (sem : option text) (b : list Z) | GetStruct (o : got) (n : text) (sem : option text) (dst : list Z)
| Drain.                                             (* DKPopAutoreleasePool *)
Definition zeros4 : list Z := [0; 0; 0; 0]%Z.
Fixpoint release_all (w : world) (l : list nat) : outcome world :=
  match l with [] => Ok w | i :: l' => do w <- release w (Some i); release_all w l' end.
Definition step (P : program) (w : world) (a : op) : outcome world :=
  match a with
  | New c b => Ok (fst (alloc w c b))
  | Mutate x b => match get_obj w x with
                  | Some o => if refs o =? 0 then UB else Ok (with_heap w (upd (heap w) x (mkObj (cls o) b (refs o))))
                  | None => UB
                  end
  | Retain x => retain w (Some x)
  | Release x => release w (Some x)
  | Set_ o n x => set_property P w o n x
  | Get_ o n => do r <- get_property P w o n zeros4; Ok (fst r)
  | SetNum o n v => set_number P w o n v
  | GetNum o n t s dst => do r <- get_number P w o n t s dst zeros4; Ok (fst (fst r))
  | SetStruct o n sem b => set_struct P w o n sem b
  | GetStruct o n sem dst => do r <- get_struct P w o n sem dst zeros4; Ok (fst (fst r))
  | Drain => release_all (with_pool w []) (pool w)
  end.
Definition start : world := mkW [] [] [] [].

(** * Definitions of properties: DKInstallProperty 83-96 and DKNewClass (DKRuntime.c 460-464) *)
Inductive class_op : Type := NewClass (super : option nat) | Install (c : nat) (p : property).
(** The table of the class, keyed by name: inserting replaces. *)
Definition insert_property (l : list property) (p : property) : list property :=
  p :: filter (fun q => negb (text_eqb (pname q) (pname p))) l.
(** The tables of the classes, by number; DKCopyPropertiesTable 102-118. *)
Definition class_step (t : list (list property)) (a : class_op) : list (list property) :=
  match a with
  | NewClass None => t ++ [[]]
  | NewClass (Some s) => t ++ [nth s t []]
  | Install c p => match nth_error t c with Some l => upd t c (insert_property l p) | None => t end
  end.
Definition class_run (l : list class_op) : list (list property) := fold_left class_step l [].
