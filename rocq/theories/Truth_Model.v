(** Model of truth values and the values of enumerations as properties: DKSetBoolProperty,
    DKGetBoolProperty, DKSetEnumProperty and DKGetEnumProperty, Source/DKRuntime+Properties.c
    1098-1195, on top of Property_Model.  The two truth values are the static objects of
    DKBoolean.c 49-59: two objects of the heap, [yes] and [no].  Their references are not
    counted in the code (DKDisableReferenceCounting, 75-76); here they are, and the client is
    taken never to give up its own. *)
Require Import Coq.NArith.NArith Coq.ZArith.ZArith Coq.Lists.List Coq.Arith.Arith Coq.Bool.Bool.
Require Import Verif.Base Verif.Number_Model Verif.Property_Model.
Require Verif.Scalar_Model.
Import ListNotations.
Local Open Scope nat_scope.

(** DKNumberBoolean, DKBoolean.h 36: bool is an unsigned integer of one byte. *)
Definition bool_type : ity := mkI false 1.
(** struct DKBoolean, DKBoolean.c 43-59: a number of that type, one or zero. *)
Definition boolean (b : bool) : content := CNum (mkNum bool_type (Vec 1) [if b then 1 else 0]%Z).
(** DKBoolean( value ), DKBoolean.h 42. *)
Definition truth (yes no : nat) (b : bool) : nat := if b then yes else no.
(** DKSetBoolProperty 1098-1101. *)
Definition set_bool (P : program) (w : world) (o : got) (n : text) (yes no : nat) (b : bool) : outcome world :=
  set_property P w o n (Some (truth yes no b)).
(** conversion->getBool( x ) 1121-1124: of a number DKNumberGetBool (DKNumber.c 1094-1109), of a
    string DKStringGetBool (DKString.c 2420-2441); nothing else has the interface.  [junk] is
    the variable the number is converted into before. *)
Definition as_bool (junk : list Z) (b : option content) : outcome bool :=
  match b with
  | Some (CNum n) => Number_Model.get_bool junk n
  | Some (CText t) => Ok (Scalar_Model.get_bool (Some t))
  | _ => Ok false
  end.
(** DKGetBoolProperty 1107-1128. *)
Definition get_bool (P : program) (w : world) (o : got) (n : text) (yes no : nat) (junk junk' : list Z) : outcome (world * bool) :=
  do (w, g) <- get_property P w o n junk';
  match g with
  | GNull => Ok (w, false)
  | GObj i =>
    if i =? no then Ok (w, false)
    else if i =? yes then Ok (w, true)
    else do b <- as_bool junk (body_of w (Some i)); Ok (w, b)
  | GText t => Ok (w, Scalar_Model.get_bool (Some t))
  end.
(** DKSetEnumProperty 1176-1179 and DKGetEnumProperty 1185-1195: int is an integer of four bytes. *)
Definition set_enum (P : program) (w : world) (o : got) (n : text) (z : Z) : outcome world :=
  set_number P w o n (mkNum int32 (Vec 1) (le 4 z)).
Definition get_enum (P : program) (w : world) (o : got) (n : text) (junk junk' : list Z) : outcome (world * Z) :=
  do (w, r, b) <- get_number P w o n int32 (Vec 1) junk junk';
  if r =? 0 then Ok (w, 0%Z) else do z <- load int32 b 0; Ok (w, z).
