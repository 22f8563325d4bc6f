(** What encodings stand for. *)
Require Import Coq.NArith.NArith Coq.Lists.List.
Import ListNotations.
Local Open Scope N_scope.

(** The types of the enumeration, and the bytes that an element takes (64 bit pointers). *)
Inductive element : N -> N -> Prop :=
| e_void : element 0 0 | e_class : element 1 8 | e_selector : element 2 8 | e_object : element 3 8 | e_keyed : element 4 16
| e_text : element 5 1 | e_binary : element 6 1
| e_int8 : element 8 1 | e_int16 : element 9 2 | e_int32 : element 11 4 | e_int64 : element 15 8
| e_uint8 : element 16 1 | e_uint16 : element 17 2 | e_uint32 : element 19 4 | e_uint64 : element 23 8
| e_float : element 24 4 | e_double : element 25 8.
