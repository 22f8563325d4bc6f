(** Property C187: what splitting strings makes. *)
Require Import Coq.NArith.NArith Coq.Lists.List Coq.Bool.Bool Coq.Arith.Arith.
Require Import Verif.Base Verif.Own_Model Verif.Own_Spec Verif.Parsed_Spec Verif.Pieces_Spec.
Require Verif.String_Model Verif.Query_Model Verif.Pieces_Model Verif.Pieces_Ends.
Import ListNotations.

(** C187: after any history, splitting a string gives one reference to a new list with a new string for each piece, in
    their order; all that was there before stays as it was; and of what was made, exactly the list and what is in it is left. *)
Theorem C187_split :
  forall keq os s, obeys allowed keq init os -> run keq init os = Ok s -> forall text sep l, String_Model.split text sep = Ok l ->
    exists s', Pieces_Model.split text sep s = Ok (l, length (cells s), s') /\ sound s' /\ hands s' = hands s ++ [length (cells s)] /\ untouched s s' /\
      (exists n rs, nth_error (cells s') (length (cells s)) = Some (Live n (Arr rs)) /\ Forall2 (fun _ r => exists x, r = Some x /\ leaf s' x) l rs) /\
      forall x, length (cells s) <= x -> (live s' x <-> within s' (Some (length (cells s))) x).
Proof. exact Pieces_Ends.pieces_made. Qed.
Print Assumptions C187_split.
(** When the list is released, all of it is freed and everything is as before. *)
Theorem C187_list_released :
  forall keq os s, obeys allowed keq init os -> run keq init os = Ok s -> forall text sep l s', String_Model.split text sep = Ok l -> Pieces_Model.split text sep s = Ok (l, length (cells s), s') ->
    exists s'', step keq s' (Release (length (cells s))) = Ok s'' /\ hands s'' = hands s /\ untouched s s'' /\ forall y, length (cells s) <= y -> ~ live s'' y.
Proof. exact Pieces_Ends.pieces_gone. Qed.
Print Assumptions C187_list_released.
(** Splitting query parameters gives a new dictionary with the parameters, the last value given for each key, and leaves
    references [L] in the pool besides. *)
Theorem C187_query :
  forall keq os s, obeys allowed keq init os -> run keq init os = Ok s -> forall fuel text ps, Query_Model.split_query fuel text = Ok (Some ps) ->
    exists L s', Pieces_Model.split_query fuel text s = Ok (Some (length (cells s)), s') /\ sound s' /\ hands s' = hands s ++ length (cells s) :: L /\ untouched s s' /\
      (exists n es, nth_error (cells s') (length (cells s)) = Some (Live n (Hash es)) /\ Forall2 (entry_is s') (parameters ps) es).
Proof. exact Pieces_Ends.query_made. Qed.
Print Assumptions C187_query.
(** When the pool is popped, all that was made is freed and everything is as before. *)
Theorem C187_popped :
  forall keq os s, obeys allowed keq init os -> run keq init os = Ok s -> forall fuel text ps s' L, Query_Model.split_query fuel text = Ok (Some ps) -> Pieces_Model.split_query fuel text s = Ok (Some (length (cells s)), s') -> hands s' = hands s ++ length (cells s) :: L ->
    exists s'', run keq s' (map Release (length (cells s) :: L)) = Ok s'' /\ hands s'' = hands s /\ untouched s s'' /\ forall y, length (cells s) <= y -> ~ live s'' y.
Proof. exact Pieces_Ends.query_popped. Qed.
Print Assumptions C187_popped.
(** When the dictionary is retained before, it is left with its parameters, and of what was made exactly it and what is
    in it. *)
Theorem C187_kept :
  forall keq os s, obeys allowed keq init os -> run keq init os = Ok s -> forall fuel text ps s' L, Query_Model.split_query fuel text = Ok (Some ps) -> Pieces_Model.split_query fuel text s = Ok (Some (length (cells s)), s') -> hands s' = hands s ++ length (cells s) :: L ->
    exists s'', run keq s' (Retain (length (cells s)) :: map Release (length (cells s) :: L)) = Ok s'' /\ sound s'' /\ hands s'' = hands s ++ [length (cells s)] /\ untouched s s'' /\
      (exists n es, nth_error (cells s'') (length (cells s)) = Some (Live n (Hash es)) /\ Forall2 (entry_is s'') (parameters ps) es) /\
      forall y, length (cells s) <= y -> (live s'' y <-> within s'' (Some (length (cells s))) y).
Proof. exact Pieces_Ends.query_kept. Qed.
Print Assumptions C187_kept.

(** a,b is split after a history with a list. *)
Example C187_split_case :
  obeys allowed Nat.eqb init [New (Arr [])] /\ run Nat.eqb init [New (Arr [])] = Ok (mkS [Live 1 (Arr [])] [0]) /\ String_Model.split [97; 44; 98]%N [44%N] = Ok [[97%N]; [98%N]] /\
  Pieces_Model.split [97; 44; 98]%N [44%N] (mkS [Live 1 (Arr [])] [0]) = Ok ([[97%N]; [98%N]], 1, mkS [Live 1 (Arr []); Live 1 (Arr [Some 2; Some 3]); Live 1 Leaf; Live 1 Leaf] [0; 1]).
Proof. split; [split; [exact Logic.I|intros; exact Logic.I]|]. split; [reflexivity|]. split; vm_compute; reflexivity. Qed.
(** a=1, then b without a value, then a=2: the first value is in the pool only. *)
Definition some_query : list N := [97; 61; 49; 38; 98; 38; 97; 61; 50]%N.
Definition after_query : state :=
  mkS [Live 1 (Hash [(8, Some 17); (12, None)]); Live 1 (Arr [Some 2; Some 3; Some 4]); Live 1 Leaf; Live 1 Leaf; Live 1 Leaf;
       Live 1 (Arr [Some 6; Some 7]); Live 1 Leaf; Live 1 Leaf; Live 2 Leaf; Live 1 Leaf; Live 1 (Arr [Some 11]); Live 1 Leaf; Live 2 Leaf;
       Live 1 (Arr [Some 14; Some 15]); Live 1 Leaf; Live 1 Leaf; Live 1 Leaf; Live 2 Leaf] [0; 1; 5; 8; 9; 10; 12; 13; 16; 17].
Example C187_query_case :
  Query_Model.split_query 9 some_query = Ok (Some [([97%N], Some [49%N]); ([98%N], None); ([97%N], Some [50%N])]) /\
  parameters [([97%N], Some [49%N]); ([98%N], None); ([97%N], Some [50%N])] = [([97%N], Some [50%N]); ([98%N], None)] /\
  Pieces_Model.split_query 9 some_query init = Ok (Some 0, after_query) /\
  run Nat.eqb after_query (Retain 0 :: map Release [0; 1; 5; 8; 9; 10; 12; 13; 16; 17]) =
    Ok (mkS [Live 1 (Hash [(8, Some 17); (12, None)]); Freed; Freed; Freed; Freed; Freed; Freed; Freed; Live 1 Leaf; Freed; Freed; Freed; Live 1 Leaf; Freed; Freed; Freed; Freed; Live 1 Leaf] [0]).
Proof. repeat split; vm_compute; reflexivity. Qed.
