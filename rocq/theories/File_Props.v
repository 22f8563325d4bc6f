(** Properties C130 and C131: files. *)
Require Import Coq.ZArith.ZArith Coq.NArith.NArith Coq.Lists.List Coq.Arith.Arith.
Require Import Verif.Base Verif.File_Model Verif.File_Spec Verif.File_Proofs.
Import ListNotations.

(** C130. Whatever a program does with files it holds and streams at its disposal is defined. *)
Theorem C130_safe : forall drain w c o, reach drain w c -> legal w c o -> exists w' a, step drain w o = Ok (w', a).
Proof. exact safe. Qed.
Print Assumptions C130_safe.
(** A file is there as long as it is held; its stream is open; no two files share a stream. *)
Theorem C130_held : forall drain w c, reach drain w c ->
  (forall i, exists_ w i <-> In i c) /\ (forall i s, has w i s -> opened w s) /\ (forall i j s, has w i s -> has w j s -> i = j).
Proof. exact lifetimes. Qed.
Print Assumptions C130_held.
(** A stream that is not for the caller to close is open exactly as long as a file has it. *)
Theorem C130_owned : forall drain w c s x, reach drain w c -> is_stream w s x -> mine x = false ->
  (open x = true <-> exists i, has w i s).
Proof. exact no_leak. Qed.
Print Assumptions C130_owned.
(** DKFileClose closes the stream and no other, gives -1 if there was none; afterwards the file
    answers that it cannot be used. *)
Theorem C130_closed : forall drain w c i f, reach drain w c -> In i c -> is_file w i f ->
  exists w' r, step drain w (Close i) = Ok (w', Num r) /\
    (forall s, fptr f = Some s ->
       r = 0%Z /\ (exists x', is_stream w' s x' /\ open x' = false) /\ forall t y, t <> s -> (is_stream w' t y <-> is_stream w t y)) /\
    (fptr f = None -> r = (-1)%Z /\ streams w' = streams w) /\
    (forall u, exists_ w' i -> step drain w' (on i u) = Ok (w', match u with
       | USeek _ _ | UTell | UStatus => Num (-1) | ULength => Num 0 | URead _ _ => Bytes 0 [] | UWrite _ _ => Num 0 end)).
Proof. exact closing. Qed.
Print Assumptions C130_closed.
(** The last release closes the stream of a file that owns it, and no other; a release that is not
    the last, or of a file that does not own its stream, leaves all streams as they were. *)
Theorem C130_released : forall drain w c i f, reach drain w c -> In i c -> is_file w i f ->
  exists w', step drain w (Release i) = Ok (w', Nothing) /\
    (forall s, refs f = 1 -> own f = true -> fptr f = Some s ->
       (exists x', is_stream w' s x' /\ open x' = false) /\ forall t y, t <> s -> (is_stream w' t y <-> is_stream w t y)) /\
    (1 < refs f \/ own f = false \/ fptr f = None -> streams w' = streams w).
Proof. exact releasing. Qed.
Print Assumptions C130_released.
(** Using a file affects no other stream. *)
Theorem C130_apart : forall drain w c i u s x, reach drain w c -> In i c -> has w i s -> is_stream w s x ->
  (match u with URead _ _ => last x <> Wrote | UWrite _ _ => last x <> Did_read false | _ => True end) ->
  exists w' a, step drain w (on i u) = Ok (w', a) /\ objs w' = objs w /\ forall t y, t <> s -> (is_stream w' t y <-> is_stream w t y).
Proof. exact uses_one. Qed.
Print Assumptions C130_apart.
(** A program that opens a file twice over, keeps one, and closes it. *)
Definition keep_all : list N -> nat := fun _ => 0.
Example C130_case : exists w, reach keep_all w [0] /\ is_file w 0 (mkF 1 (Some 0) true) /\ exists x, is_stream w 1 x /\ open x = false /\ mine x = false.
Proof.
  set (w1 := mkW [mkF 1 (Some 0) true] [new_stream [1%N; 2%N] false]).
  assert (R1 : reach keep_all w1 [0]) by (apply (by_step _ (mkW [] []) [] (Open [1%N; 2%N]) w1 (New 0)); [constructor|exact I|reflexivity]).
  set (w2 := mkW [mkF 1 (Some 0) true; mkF 1 (Some 1) true] [new_stream [1%N; 2%N] false; new_stream [3%N] false]).
  assert (R2 : reach keep_all w2 [1; 0]) by (apply (by_step _ w1 [0] (Open [3%N]) w2 (New 1)); [exact R1|exact I|reflexivity]).
  exists (mkW [mkF 1 (Some 0) true; mkF 0 None true] [new_stream [1%N; 2%N] false; mkS false [3%N] [] 0 Sought false]). split; [|split; [split; [reflexivity|cbn; auto]|eexists; split; [reflexivity|split; reflexivity]]].
  apply (by_step keep_all w2 [1; 0] (Close 1) _ (Num 0)); [exact R2|cbn; auto|reflexivity].
Qed.

(** C131. A file is a sequence of bytes with a position. *)
Theorem C131_history_partial : forall drain w c d w1 i h w2, reach drain w c -> step drain w (Open d) = Ok (w1, New i) -> calls drain i w1 h w2 ->
  alternates Sought h -> settled Sought h ->
  exists a, history (mkA d 0) h a /\ exists w3 x, step drain w2 (Close i) = Ok (w3, Num 0) /\ is_stream w3 (length (streams w)) x /\ open x = false /\ disk x = bytes a.
Proof. exact stream_like. Qed.
Print Assumptions C131_history_partial.
Theorem C131_goes_on : forall drain w c d w1 i h w2 u, reach drain w c -> step drain w (Open d) = Ok (w1, New i) -> calls drain i w1 h w2 ->
  (forall r, alternates Sought (h ++ [(u, r)])) -> exists w3 r, step drain w2 (on i u) = Ok (w3, r).
Proof. exact goes_on. Qed.
Print Assumptions C131_goes_on.
(** The length told after writing, before a seek, leaves out what has not reached the file yet. *)
Theorem C131_length_refuted : exists drain d w1 i h w2, step drain (mkW [] []) (Open d) = Ok (w1, New i) /\ calls drain i w1 h w2 /\
  alternates Sought h /\ ~ exists a, history (mkA d 0) h a.
Proof.
  exists keep_all, [], (mkW [mkF 1 (Some 0) true] [new_stream [] false]), 0, [(UWrite 1 [7%N], Num 1); (ULength, Num 0)]. eexists. split; [reflexivity|]. split.
  - eapply next_call; [reflexivity|]. eapply next_call; [reflexivity|]. apply no_call.
  - split; [cbn; auto|]. intros (a & H). inversion H as [|? ? ? a1 ? ? U1 H1]; subst. inversion H1 as [|? ? ? a2 ? ? U2 H2]; subst. inversion U1 as [| | | | | | |? ? d Hs (_ & W)|]; subst. destruct W as (L & _); [discriminate|]. inversion U2; subst. cbn in *. rewrite L in *. discriminate.
Qed.
Print Assumptions C131_length_refuted.
(** Reading directly after writing is not defined. *)
Theorem C131_turn_refuted : exists drain w c i, reach drain w c /\ In i c /\ step drain w (Read i 1 1) = UB.
Proof.
  set (w1 := mkW [mkF 1 (Some 0) true] [new_stream [1%N; 2%N] false]).
  exists keep_all, (mkW [mkF 1 (Some 0) true] [mkS true [1%N; 2%N] [7%N] 1 Wrote false]), [0], 0. split; [|split; [cbn; auto|reflexivity]].
  apply (by_step keep_all w1 [0] (Write 0 1 [7%N]) _ (Num 1)); [|split; [cbn; auto|]|reflexivity].
  - apply (by_step _ (mkW [] []) [] (Open [1%N; 2%N]) w1 (New 0)); [constructor|exact I|reflexivity].
  - intros s x (f & (Hf & _) & Ep) Hx. cbn in Hf. injection Hf as <-. injection Ep as <-. cbn in Hx. injection Hx as <-. discriminate.
Qed.
Print Assumptions C131_turn_refuted.
(** A file that is written beyond its end, and read back. *)
Definition example_calls : list (use * answer) :=
  [(URead 1 1, Bytes 1 [1%N]); (USeek 1 From_end, Num 0); (UWrite 1 [8%N; 9%N], Num 2); (UTell, Num 5);
   (USeek (-9) From_start, Num (-1)); (USeek 0 From_start, Num 0); (ULength, Num 5); (URead 2 4, Bytes 2 [1%N; 2%N; 0%N; 8%N; 9%N])].
Example C131_case : exists w1 w2, step keep_all (mkW [] []) (Open [1%N; 2%N]) = Ok (w1, New 0) /\ calls keep_all 0 w1 example_calls w2 /\ alternates Sought example_calls /\ settled Sought example_calls.
Proof.
  eexists. eexists. split; [reflexivity|]. split.
  - do 8 (eapply next_call; [vm_compute; reflexivity|]). apply no_call.
  - split; vm_compute; intuition.
Qed.
