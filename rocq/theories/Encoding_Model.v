(** Model of type encodings, Source/DKEncoding.h and Source/DKEncoding.c.  A DKEncoding is a
    32 bit word; the macros are applied to non-negative arguments. *)
Require Import Coq.NArith.NArith Coq.Lists.List Coq.Bool.Bool.
Import ListNotations.
Local Open Scope N_scope.

(** DKEncodingMatrixBit, TypeBits, DKMaxEncodingCount and so on, DKEncoding.h 96-103. *)
Definition matrix_bit : N := 0x80000000.
Definition type_bits : N := 0x7f000000.
Definition max_count : N := 0x00ffffff.
Definition max_rows : N := 0xfff.
Definition max_cols : N := 0xfff.
(** DKEncode, DKEncoding.h 106-108. *)
Definition encode (t count : N) : N := N.lor (N.land (N.shiftl t 24) type_bits) (N.land count max_count).
(** DKEncodeMatrix, DKEncoding.h 111-115. *)
Definition encode_matrix (t rows cols : N) : N :=
  N.lor (N.lor (N.lor matrix_bit (N.land (N.shiftl t 24) type_bits)) (N.shiftl (N.land rows max_rows) 12)) (N.land cols max_cols).
(** DKEncodingIsMatrix 134. *)
Definition is_matrix (e : N) : bool := negb (N.land e matrix_bit =? 0).
(** DKEncodingGetType 137-140. *)
Definition get_type (e : N) : N := N.shiftr (N.land e type_bits) 24.
(** DKEncodingGetCount 142-152: the product is an unsigned int. *)
Definition get_count (e : N) : N :=
  if is_matrix e then (N.land (N.shiftr e 12) max_rows * N.land e max_cols) mod 2 ^ 32 else N.land e max_count.
(** DKEncodingGetRows 154-160, DKEncodingGetCols 162-168. *)
Definition get_rows (e : N) : N := if is_matrix e then N.land (N.shiftr e 12) max_rows else 1.
Definition get_cols (e : N) : N := if is_matrix e then N.land e max_cols else N.land e max_count.
(** DKEncodingEqv 170-174. *)
Definition eqv (a b : N) : bool := (get_type a =? get_type b) && (get_count a =? get_count b).
(** The sizes in TypeInfo, DKEncoding.c 43-78, with 64 bit pointers. *)
Definition type_info : list N := [0; 8; 8; 8; 16; 1; 1; 0; 1; 2; 0; 4; 0; 0; 0; 8; 1; 2; 0; 4; 0; 0; 0; 8; 4; 8].
(** DKEncodingTypeGetSize, DKEncoding.c 93-99. *)
Definition type_size (t : N) : N := if (0 <? t) && (t <? 26) then nth (N.to_nat t) type_info 0 else nth 0 type_info 0.
(** DKEncodingGetTypeSize, DKEncoding.c 105-113. *)
Definition get_type_size (e : N) : N := type_size (get_type e).
(** DKEncodingGetSize, DKEncoding.c 84-87: size_t. *)
Definition get_size (e : N) : N := (get_type_size e * get_count e) mod 2 ^ 64.
(** DKEncodeIntegerType, DKEncoding.h 119. *)
Definition encode_integer (size count : N) : N := encode (8 + size - 1) count.
