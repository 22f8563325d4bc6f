(** Bit lists. *)
Require Import Coq.Lists.List Coq.ZArith.ZArith Coq.Arith.Arith.
Require Import Verif.Base Verif.BitList_Model Verif.BitList_Spec Verif.BitList_Proofs.
Import ListNotations.

(** C59: programs with any number of bit lists that stay within the lengths behave as if
    the lists were lists of booleans. *)
Theorem C59_bits : forall os ls ts, meaning [] os = Some (ls, ts) -> exists st, execs [] os = Ok (st, ts) /\ Forall2 shows st ls.
Proof. exact bits_history. Qed.
Print Assumptions C59_bits.
(** A search that ends within the length gives the first set (or clear) bit; otherwise there is none. *)
Theorem C59_search_partial : forall os ls ts st, meaning [] os = Some (ls, ts) -> execs [] os = Ok (st, ts) ->
  forall k b l v, nth_error st k = Some b -> nth_error ls k = Some l ->
  match get_first b v with
  | Some i => if i <? length l then first_of v l i else ~ In v l
  | None => ~ In v l
  end.
Proof. exact first_history. Qed.
Print Assumptions C59_search_partial.
(** Searches and counts are right for set bits of lists that were created clear, and for
    clear bits of lists that were created set, if only single bits were written.
    Missing: other lists, for which they are wrong. *)
Theorem C59_count_partial : forall os ls ts st, Forall bitwise os -> meaning [] os = Some (ls, ts) -> execs [] os = Ok (st, ts) ->
  forall k b l v, nth_error st k = Some b -> nth_error ls k = Some l -> nth_error (created os) k = Some (negb v) ->
  count b v = count_of v l /\ (forall i, get_first b v = Some i <-> first_of v l i).
Proof. exact count_history. Qed.
Print Assumptions C59_count_partial.
(** Ten set bits are counted as 1002. *)
Theorem C59_count_refuted : exists st, execs [] [New 10 true] = Ok (st, []) /\ meaning [] [New 10 true] = Some ([repeat true 10], []) /\ map (fun b => count b true) st = [1002].
Proof. exact count_wrong. Qed.
Print Assumptions C59_count_refuted.
Theorem C59_count_clear_refuted : exists st, execs [] [New 10 false; SetBit 0 3] = Ok (st, []) /\ map (fun b => count b false) st = [1001].
Proof. exact clear_count_wrong. Qed.
Print Assumptions C59_count_clear_refuted.
(** The first clear bit of a list of two set bits is the third. *)
Theorem C59_first_refuted : exists st, execs [] [New 2 false; SetBit 0 0; SetBit 0 1] = Ok (st, []) /\ map (fun b => get_first b false) st = [Some 2].
Proof. exact first_wrong. Qed.
Print Assumptions C59_first_refuted.
(** Merging two lists into a shorter one writes outside of it. *)
Theorem C59_merge_refuted : execs [] [New 8 false; New 8 true; New 0 false; Merge AND 0 1 2] = UB.
Proof. exact merge_wrong. Qed.
Print Assumptions C59_merge_refuted.

Example C59_case : meaning [] [New 3 false; New 3 true; SetBit 0 2; ClearBit 1 1; TestAndFlip 0 0; Merge NAND 0 1 1; TestBit 1 0; TestBit 1 1] =
  Some ([[true; false; true]; [false; true; false]], [false; false; true]).
Proof. reflexivity. Qed.
Example C59_case_count : exists st, execs [] [New 40 false; SetBit 0 2; SetBit 0 33; FlipBit 0 2; FlipBit 0 39] = Ok (st, []) /\
  map (fun b => (count b true, get_first b true)) st = [(2, Some 33)].
Proof. eexists. split; vm_compute; reflexivity. Qed.
