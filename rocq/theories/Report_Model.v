(** Model of messages: DKPrintf, DKLog, DKWarning, DKError and DKFatalError with the calls that say where
    they go and how they look, Source/DKPlatform.c 38-247.  The text is what DKVSPrintf made of the
    arguments (modelled elsewhere).  A callback is a number; it is given a format and its arguments, and taken to print
    them as vfprintf does, without calling anything of this itself.  A prefix or suffix is kept as a pointer:
    its memory is taken to stay as it was.  Windows is not modelled, nor are
    assertions of debug builds. *)
Require Import Coq.Strings.String Coq.NArith.NArith Coq.Lists.List Coq.Bool.Bool Coq.Arith.Arith.
Require Import Verif.Base.
Require Verif.Describe_Model.
Import ListNotations.

Definition text : Type := list N.
Inductive kind : Type := KPrint | KLog | KWarning | KError | KFatal.
Inductive place : Type := Callback (n : nat) | Stdout | Stderr.
(** The static variables 38-53: of a kind the callback, prefix and suffix, where NULL can be set, and
    AbortOnErrors. *)
Record setting : Type := mkSet { callback : option nat; prefix : option text; suffix : option text }.
Record state : Type := mkSt { of_print : setting; of_log : setting; of_warning : setting; of_error : setting; of_fatal : setting; abort_on_errors : bool; printed : list (place * text); stopped : bool }.
(** DK_DEFAULT_ABORT_ON_ERRORS is false in release builds, DKPlatform.h 389-393. *)
Definition newline : text := [10%N].
Definition start : state :=
  mkSt (mkSet None (Some []) (Some [])) (mkSet None (Some []) (Some newline)) (mkSet None (Some (Describe_Model.ascii "WARNING: "%string)) (Some newline))
       (mkSet None (Some (Describe_Model.ascii "ERROR: "%string)) (Some newline)) (mkSet None (Some (Describe_Model.ascii "FATAL ERROR: "%string)) (Some newline)) false [] false.
Definition with_callback (s : setting) (c : option nat) : setting := mkSet c (prefix s) (suffix s).
Definition with_format (s : setting) (p q : option text) : setting := mkSet (callback s) p q.
(** DKSetPrintfCallback ... DKSetFatalErrorCallback 55-78. *)
Definition set_callback (s : state) (k : kind) (c : option nat) : state :=
  let '(mkSt a b w e f ab o st) := s in
  match k with
  | KPrint => mkSt (with_callback a c) b w e f ab o st
  | KLog => mkSt a (with_callback b c) w e f ab o st
  | KWarning => mkSt a b (with_callback w c) e f ab o st
  | KError => mkSt a b w (with_callback e c) f ab o st
  | KFatal => mkSt a b w e (with_callback f c) ab o st
  end.
(** DKSetLogFormat ... DKSetFatalErrorFormat 80-102; DKPrintf has no format. *)
Definition set_format (s : state) (k : kind) (p q : option text) : state :=
  let '(mkSt a b w e f ab o st) := s in
  match k with
  | KPrint => s
  | KLog => mkSt a (with_format b p q) w e f ab o st
  | KWarning => mkSt a b (with_format w p q) e f ab o st
  | KError => mkSt a b w (with_format e p q) f ab o st
  | KFatal => mkSt a b w e (with_format f p q) ab o st
  end.
(** DKSetAbortOnErrors 104-107. *)
Definition set_abort (s : state) (b : bool) : state :=
  mkSt (of_print s) (of_log s) (of_warning s) (of_error s) (of_fatal s) b (printed s) (stopped s).
(** What "%s" prints of a string: up to the first zero; of NULL it is undefined. *)
Fixpoint c_string (t : text) : text := match t with [] => [] | 0%N :: _ => [] | c :: t' => c :: c_string t' end.
Definition arg (t : option text) : outcome text := match t with Some t => Ok (c_string t) | None => UB end.
(** _DKPrintfInternal 113-142: to the callback if there is one, to the file if not. *)
Definition put (s : state) (c : option nat) (file : place) (args : list (option text)) : outcome state :=
  let fix all (l : list (option text)) : outcome text :=
    match l with [] => Ok [] | a :: l' => do t <- arg a; do u <- all l'; Ok (t ++ u) end in
  do t <- all args;
  Ok (mkSt (of_print s) (of_log s) (of_warning s) (of_error s) (of_fatal s) (abort_on_errors s)
           (printed s ++ [(match c with Some n => Callback n | None => file end, t)]) (stopped s)).
(** dk_abortfatal, DKPlatform.h 71-75: abort in release builds. *)
Definition abort (s : state) : state :=
  mkSt (of_print s) (of_log s) (of_warning s) (of_error s) (of_fatal s) (abort_on_errors s) (printed s) true.
(** _DKPrintf 149-164, _DKLog 170-183, _DKWarning 189-202, _DKError 208-226, _DKFatalError 232-247. *)
Definition say (s : state) (k : kind) (t : text) : outcome state :=
  match k with
  | KPrint => put s (callback (of_print s)) Stdout [Some t]
  | KLog => put s (callback (of_log s)) Stdout [prefix (of_log s); Some t; suffix (of_log s)]
  | KWarning => put s (callback (of_warning s)) Stdout [prefix (of_warning s); Some t; suffix (of_warning s)]
  | KError => do s <- put s (callback (of_error s)) Stderr [prefix (of_error s); Some t; suffix (of_error s)];
              Ok (if abort_on_errors s then abort s else s)
  | KFatal => do s <- put s (callback (of_fatal s)) Stderr [prefix (of_fatal s); Some t; suffix (of_fatal s)]; Ok (abort s)
  end.
Inductive call : Type := SetCallback (k : kind) (c : option nat) | SetFormat (k : kind) (p q : option text) | SetAbort (b : bool) | Say (k : kind) (t : text).
(** A program that was stopped does nothing more. *)
Definition step (s : state) (c : call) : outcome state :=
  if stopped s then Ok s else
  match c with
  | SetCallback k c => Ok (set_callback s k c)
  | SetFormat k p q => Ok (set_format s k p q)
  | SetAbort b => Ok (set_abort s b)
  | Say k t => say s k t
  end.
Fixpoint run (s : state) (cs : list call) : outcome state := match cs with [] => Ok s | c :: cs' => do s <- step s c; run s cs' end.
