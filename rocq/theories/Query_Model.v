(** Model of query parameters and CSS styles, Source/DKString.c 2179-2306.

    A dictionary that is read is the list of its entries, in the order of its enumeration (C03); a
    dictionary that is made is the list of what is set in it, in order (C01, C02).  Allocation never
    fails. *)
Require Import Coq.ZArith.ZArith Coq.NArith.NArith Coq.Lists.List Coq.Bool.Bool.
Require Import Verif.Base Verif.String_Model.
Import ListNotations.
Local Open Scope N_scope.

Notation bytes := (list N).
Section Query.
  (** Bounds the number of matches of each pattern of the escapes, as in String_Model. *)
  Variable fuel : nat.
  (** DKStringSplitQueryParametersCallback, DKString.c 2182-2203.  Getting an object outside the list
      gives NULL, and NULL is not allowed as a key. *)
  Definition query_pair (c : bytes) : outcome (bytes * option bytes) :=
    do l <- split c [61];
    match l with
    | [] => Fatal
    | k :: l' =>
      do key <- remove_escapes fuel k;
      match l' with
      | [] => Ok (key, None)
      | v :: _ => do value <- remove_escapes fuel v; Ok (key, Some value)
      end
    end.
  Fixpoint query_pairs (l : list bytes) : outcome (list (bytes * option bytes)) :=
    match l with
    | [] => Ok []
    | c :: l' => do p <- query_pair c; do ps <- query_pairs l'; Ok (p :: ps)
    end.
  (** DKStringSplitQueryParameters 2205-2223: NULL for the empty text. *)
  Definition split_query (s : bytes) : outcome (option (list (bytes * option bytes))) :=
    match s with
    | [] => Ok None
    | _ => do l <- split s [38]; do ps <- query_pairs l; Ok (Some ps)
    end.
  (** DKStringCombineQueryParametersCallback 2229-2250 for every entry; [str] is the text so far.
      What DKSPrintf writes to a string is appended to it (C94). *)
  Fixpoint combine_query_loop (es : list (bytes * option bytes)) (str : bytes) : outcome bytes :=
    match es with
    | [] => Ok str
    | (key, object) :: es' =>
      do k <- add_escapes fuel key;
      let amp := match str with [] => [] | _ => [38] end in
      match object with
      | Some o => do v <- add_escapes fuel o; combine_query_loop es' (str ++ amp ++ k ++ [61] ++ v)
      | None => combine_query_loop es' (str ++ amp ++ k)
      end
    end.
  (** DKStringCombineQueryParameters 2252-2266. *)
  Definition combine_query (d : option (list (bytes * option bytes))) : outcome bytes :=
    match d with Some es => combine_query_loop es [] | None => Ok [] end.
End Query.

Section Styles.
  Variable isspace : Z -> outcome bool.
  (** DKStringSplitCSSStylesCallback 2271-2287. *)
  Definition style_pair (c : bytes) : outcome (option (bytes * bytes)) :=
    do l <- split c [58];
    match l with
    | [k; v] => do key <- trim isspace k; do value <- trim isspace v; Ok (Some (key, value))
    | _ => Ok None
    end.
  Fixpoint style_pairs (l : list bytes) : outcome (list (bytes * bytes)) :=
    match l with
    | [] => Ok []
    | c :: l' => do p <- style_pair c; do ps <- style_pairs l'; Ok (match p with Some e => e :: ps | None => ps end)
    end.
  (** DKStringSplitCSSStyles 2289-2306. *)
  Definition split_styles (s : bytes) : outcome (option (list (bytes * bytes))) :=
    match s with
    | [] => Ok None
    | _ => do l <- split s [59]; do ps <- style_pairs l; Ok (Some ps)
    end.
End Styles.
