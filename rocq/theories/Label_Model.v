(** Model of the descriptions of encodings, Source/DKEncoding.c 43-156. *)
Require Import Coq.Strings.String Coq.ZArith.ZArith Coq.NArith.NArith Coq.Lists.List Coq.Bool.Bool.
Require Import Verif.Encoding_Model.
Require Verif.Describe_Model Verif.Strtonum_Model.
Import ListNotations.
Local Open Scope N_scope.

(** The names in TypeInfo, DKEncoding.c 43-78. *)
Definition names : list string :=
  ["void"; "class"; "selector"; "object"; "key:object"; "text"; "binary"; "reserved";
   "int8_t"; "int16_t"; "invalid"; "int32_t"; "invalid"; "invalid"; "invalid"; "int64_t";
   "uint8_t"; "uint16_t"; "invalid"; "uint32_t"; "invalid"; "invalid"; "invalid"; "uint64_t";
   "float"; "double"]%string.
(** DKEncodingGetTypeName, DKEncoding.c 119-127. *)
Definition type_name (e : N) : list N :=
  let t := get_type e in
  Describe_Model.ascii (if (0 <? t) && (t <? 26) then nth (N.to_nat t) names ""%string else nth 0 names ""%string).
(** "[%d]" with an unsigned int, which is below 2^31 here. *)
Definition index (n : N) : list N := [91] ++ Strtonum_Model.print_int (Z.of_N n) ++ [93].
(** DKEncodingGetDescription, DKEncoding.c 133-156. *)
Definition description (e : N) : list N :=
  if is_matrix e then type_name e ++ index (get_rows e) ++ index (get_cols e)
  else if get_count e =? 1 then type_name e else type_name e ++ index (get_count e).
