(** The types a program can name. *)
Require Import Coq.NArith.NArith Coq.Lists.List.
Import ListNotations.
Local Open Scope N_scope.

(** The values of DKEncodingType, DKEncoding.h 39-88, without those marked reserved or invalid:
    nothing, class, selector, object, keyed object, text, binary, the integers and the reals. *)
Definition public_types : list N := [0; 1; 2; 3; 4; 5; 6; 8; 9; 11; 15; 16; 17; 19; 23; 24; 25].
