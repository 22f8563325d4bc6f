(** Model of files, Source/DKFile.c, on the streams of the C library.

    A stream of the C library (section 7.21 of the C standard) is its file, what was written and has
    not reached the file yet, the position, and what was done last.  Simplifications: files are
    regular files opened in binary mode for update, and not for appending; no error happens on the
    medium; nothing else writes to the files; how much of what was written reaches the file at once
    is the parameter [drain].  Allocation never fails; one thread. *)
Require Import Coq.ZArith.ZArith Coq.NArith.NArith Coq.Lists.List Coq.Arith.Arith Coq.Bool.Bool.
Require Import Verif.Base.
Import ListNotations.

(** ** The C library *)
(** What the last operation was (C standard, 7.21.5.3 (7)): [Sought] after opening or fseek, [Wrote],
    or [Did_read] with whether the end of the file was met. *)
Inductive last_op := Sought | Wrote | Did_read (ended : bool).
Record stream := mkS { open : bool; disk : list N; pend : list N; pos : nat; last : last_op; mine : bool }.
(** [mine]: whether it is up to the caller to close the stream (not part of the program). *)

(** The file after the bytes [b] are written at [p]; a gap is filled with zeros. *)
Definition put (d : list N) (p : nat) (b : list N) : list N :=
  match b with
  | [] => d
  | _ => firstn p (d ++ repeat 0%N (p - length d)) ++ b ++ skipn (p + length b) d
  end.
Definition start (s : stream) : nat := pos s - length (pend s).
Definition flush (s : stream) : stream := mkS (open s) (put (disk s) (start s) (pend s)) [] (pos s) (last s) (mine s).
(** fwrite (7.21.8.2) of whole items. *)
Definition fwrite (drain : list N -> nat) (s : stream) (b : list N) : outcome stream :=
  if negb (open s) then UB else
  match last s with
  | Did_read false => UB
  | _ =>
    let p := pend s ++ b in
    let k := drain p in
    Ok (mkS true (put (disk s) (start s) (firstn k p)) (skipn k p) (pos s + length b) Wrote (mine s))
  end.
(** fread (7.21.8.1): the bytes read. *)
Definition fread (s : stream) (n : nat) : outcome (stream * list N) :=
  if negb (open s) then UB else
  match last s with
  | Wrote => UB
  | _ =>
    let b := firstn n (skipn (pos s) (disk s)) in
    Ok (mkS true (disk s) (pend s) (pos s + length b) (Did_read (length b <? n)) (mine s), b)
  end.
(** fseek (7.21.9.2). *)
Inductive origin := From_start | From_here | From_end | From_nowhere.
Definition fseek (s : stream) (off : Z) (o : origin) : outcome (stream * Z) :=
  if negb (open s) then UB else
  let s' := flush s in
  let base := match o with From_start => Some 0 | From_here => Some (pos s) | From_end => Some (length (disk s')) | From_nowhere => None end in
  match base with
  | None => Ok (s', (-1)%Z)
  | Some b =>
    let t := (Z.of_nat b + off)%Z in
    if (t <? 0)%Z then Ok (s', (-1)%Z) else Ok (mkS true (disk s') [] (Z.to_nat t) Sought (mine s), 0%Z)
  end.
Definition ftell (s : stream) : outcome Z := if open s then Ok (Z.of_nat (pos s)) else UB.
Definition ferror (s : stream) : outcome Z := if open s then Ok 0%Z else UB.
(** fileno and fstat: the size of the file. *)
Definition fsize (s : stream) : outcome Z := if open s then Ok (Z.of_nat (length (disk s))) else UB.
Definition fclose (s : stream) : outcome stream :=
  if open s then let s' := flush s in Ok (mkS false (disk s') [] (pos s) (last s) (mine s)) else UB.

(** ** Files *)
(** struct DKFile, DKFile.c 36-41, with the count of references; [refs] = 0: no longer there. *)
Record file := mkF { refs : nat; fptr : option nat; own : bool }.
Record world := mkW { objs : list file; streams : list stream }.
Definition get_obj (w : world) (i : nat) : outcome file :=
  match nth_error (objs w) i with Some f => if 0 <? refs f then Ok f else UB | None => UB end.
Definition set_obj (w : world) (i : nat) (f : file) : world := mkW (upd (objs w) i f) (streams w).
Definition get_str (w : world) (s : nat) : outcome stream := match nth_error (streams w) s with Some x => Ok x | None => UB end.
Definition set_str (w : world) (s : nat) (x : stream) : world := mkW (objs w) (upd (streams w) s x).

Section Files.
Variable drain : list N -> nat.
(** DKFileOpen 125-150 of a file with the bytes [d]. *)
Definition new_stream (d : list N) (m : bool) : stream := mkS true d [] 0 Sought m.
Definition open_file (w : world) (d : list N) : world * nat :=
  (mkW (objs w ++ [mkF 1 (Some (length (streams w))) true]) (streams w ++ [new_stream d false]), length (objs w)).
(** DKFileInitWithStreamPtr 70-84. *)
Definition wrap (w : world) (s : nat) (o : bool) : world * nat :=
  (mkW (objs w ++ [mkF 1 (Some s) o])
       (match nth_error (streams w) s with
        | Some x => if o then upd (streams w) s (mkS (open x) (disk x) (pend x) (pos x) (last x) false) else streams w
        | None => streams w
        end), length (objs w)).
(** DKFileFinalize 87-101. *)
Definition finalize (w : world) (f : file) : outcome world :=
  match fptr f with
  | Some s => if own f then do x <- get_str w s; do x <- fclose x; Ok (set_str w s x) else Ok w
  | None => Ok w
  end.
(** DKRetain and DKRelease, DKRuntime+RefCount.c, of one thread. *)
Definition retain (w : world) (i : nat) : outcome world :=
  do f <- get_obj w i; Ok (set_obj w i (mkF (refs f + 1) (fptr f) (own f))).
Definition release (w : world) (i : nat) : outcome world :=
  do f <- get_obj w i;
  if refs f =? 1 then do w <- finalize w f; Ok (set_obj w i (mkF 0 None (own f)))
  else Ok (set_obj w i (mkF (refs f - 1) (fptr f) (own f))).
(** DKFileClose 153-174; EOF is -1. *)
Definition close (w : world) (i : nat) : outcome (world * Z) :=
  do f <- get_obj w i;
  match fptr f with
  | Some s =>
    do x <- get_str w s; do x <- fclose x;
    do w <- release (set_obj (set_str w s x) i (mkF (refs f) None (own f))) i; Ok (w, 0%Z)
  | None => do w <- release w i; Ok (w, (-1)%Z)
  end.

Inductive op :=
| Open (d : list N)                                  (* DKFileOpen *)
| Fopen (d : list N)                                 (* the caller opens a stream of the C library *)
| Fclose (s : nat)                                   (* the caller closes one *)
| Wrap (s : nat) (o : bool)                          (* DKFileInitWithStreamPtr *)
| Retain (i : nat) | Release (i : nat) | Close (i : nat)
| Seek (i : nat) (off : Z) (o : origin) | Tell (i : nat) | Status (i : nat) | Length (i : nat)
| Read (i : nat) (size count : nat) | Write (i : nat) (size : nat) (b : list N).
Inductive answer := Nothing | New (i : nat) | Num (n : Z) | Bytes (n : nat) (b : list N).

(** Through the stream of an object, if it has one, DKFile.c 189-310. *)
Definition through {A} (w : world) (i : nat) (none : A) (f : nat -> stream -> outcome (world * A)) : outcome (world * A) :=
  do o <- get_obj w i;
  match fptr o with Some s => do x <- get_str w s; f s x | None => Ok (w, none) end.
(** [size] and [count] of [Write]: the bytes are [count] items of [size] bytes.  fread gives the
    number of whole items; nothing is read or written if the size is 0. *)
Definition step (w : world) (o : op) : outcome (world * answer) :=
  match o with
  | Open d => Ok (fst (open_file w d), New (snd (open_file w d)))
  | Fopen d => Ok (mkW (objs w) (streams w ++ [new_stream d true]), New (length (streams w)))
  | Fclose s => do x <- get_str w s; do x <- fclose x; Ok (set_str w s x, Nothing)
  | Wrap s o => Ok (fst (wrap w s o), New (snd (wrap w s o)))
  | Retain i => do w <- retain w i; Ok (w, Nothing)
  | Release i => do w <- release w i; Ok (w, Nothing)
  | Close i => do r <- close w i; Ok (fst r, Num (snd r))
  | Seek i off o => through w i (Num (-1)) (fun s x => do r <- fseek x off o; Ok (set_str w s (fst r), Num (snd r)))
  | Tell i => through w i (Num (-1)) (fun s x => do r <- ftell x; Ok (w, Num r))
  | Status i => through w i (Num (-1)) (fun s x => do r <- ferror x; Ok (w, Num r))
  | Length i => through w i (Num 0) (fun s x => do r <- fsize x; Ok (w, Num r))
  | Read i size count =>
    through w i (Bytes 0 []) (fun s x =>
      if (size =? 0) || (count =? 0) then Ok (w, Bytes 0 [])
      else do r <- fread x (size * count); Ok (set_str w s (fst r), Bytes (length (snd r) / size) (snd r)))
  | Write i size b =>
    through w i (Num 0) (fun s x =>
      if size =? 0 then Ok (w, Num 0)
      else do x <- fwrite drain x b; Ok (set_str w s x, Num (Z.of_nat (length b / size))))
  end.
End Files.
