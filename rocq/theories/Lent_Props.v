(** Properties C173-C175: strings and data that show the memory of the caller. *)
Require Import Coq.NArith.NArith Coq.Lists.List Coq.Bool.Bool Coq.Arith.Arith.
Require Import Verif.Base Verif.Lent_Model Verif.Lent_Spec.
Require Verif.Lent_Run.
Import ListNotations.

(** C173: for every history in which the caller uses only memory and objects that are not gone, no call
    has undefined behaviour, objects show what they should ([agree]: hash codes and equality are C175),
    and the memory of the caller is as the caller left it. *)
Theorem C173_shown_and_untouched :
  forall ops s rs, srun nothing ops = Some (s, rs) ->
  exists m rs', run start ops = Ok (m, rs') /\ Forall2 agree rs rs' /\ forall k c, buffer s k = Some c -> memory m k = Some (c ++ [0%N]).
Proof. exact Lent_Run.shows. Qed.
Print Assumptions C173_shown_and_untouched.

(** A string and data show the text ab, which is changed to cb; copies made before keep ab.  Copies are
    edited, beyond the size they had, and the memory is taken back while the string is still there. *)
Definition history : list op :=
  [Lend [97; 98]%N; NoCopyString 0; NoCopyData 0; Copy 0; MutableCopy 1; Poke 0 0 99%N; Bytes 0; Bytes 1; Bytes 2; Bytes 3; Splice 3 1 1 (repeat 120%N 70); Splice 3 2 69 [100%N]; WritePtr 3 0 101%N;
   Bytes 3; Reclaim 0; Release 0; Bytes 2; Release 1; MakeImmutable 3; Splice 3 0 1 []; Bytes 3; Release 2; Release 3].
Example C173_case :
  option_map snd (srun nothing history) = Some [ONone; ONone; ONone; ONone; ONone; ONone; OBytes [99; 98]; OBytes [99; 98]; OBytes [97; 98]; OBytes [97; 98]; ONone; ONone; ONone;
    OBytes [101; 120; 100]; ONone; ONone; OBytes [97; 98]; ONone; ONone; ONone; OBytes [101; 120; 100]; ONone; ONone]%N.
Proof. vm_compute. reflexivity. Qed.
(** Memory that is used after the caller took it back is a mistake of the caller. *)
Example C173_careless : srun nothing [Lend [97%N]; NoCopyString 0; Reclaim 0; Bytes 0] = None /\ run start [Lend [97%N]; NoCopyString 0; Reclaim 0; Bytes 0] = UB.
Proof. split; reflexivity. Qed.

(** C174: when every object is gone, everything that was allocated was freed. *)
Theorem C174_given_back :
  forall ops s rs m rs', srun nothing ops = Some (s, rs) -> run start ops = Ok (m, rs') -> (forall o, object s o = None) ->
  forall b, In b (hp m) -> lib b = true -> data b = None.
Proof. exact Lent_Run.gives_back. Qed.
Print Assumptions C174_given_back.
Example C174_case : exists m rs', run start history = Ok (m, rs') /\ length (filter lib (hp m)) = 3 /\ exists s rs, srun nothing history = Some (s, rs) /\ forall o, object s o = None.
Proof.
  eexists _, _. split; [vm_compute; reflexivity|]. split; [vm_compute; reflexivity|]. eexists _, _. split; [vm_compute; reflexivity|]. intros [|[|[|[|[|o]]]]]; reflexivity.
Qed.

(** C175, what holds: hash codes and equality are those of the text, if memory is not written to directly
    while a string with that memory remembers its hash code.  Missing: see below. *)
Theorem C175_answers_partial :
  forall ops s rs, srun nothing ops = Some (s, rs) -> calm nothing ops -> exists m, run start ops = Ok (m, rs).
Proof. exact Lent_Run.answers. Qed.
Print Assumptions C175_answers_partial.
(** A string is written to through a pointer before it is hashed, and edited after that. *)
Definition calm_history : list op :=
  [Lend [97; 98]%N; NoCopyString 0; MutableCopy 0; Poke 0 0 99%N; Equal 0 1; Splice 1 2 0 [100%N]; WritePtr 1 0 99%N; Splice 1 2 1 []; Equal 0 1; Hash 1].
Example C175_case : calm nothing calm_history /\ option_map snd (srun nothing calm_history) = Some [ONone; ONone; ONone; ONone; OEqual false; ONone; ONone; ONone; OEqual true; OHash 3167%N].
Proof.
  split; [|vm_compute; reflexivity]. vm_compute. split; [exact Logic.I|]. split; [exact Logic.I|]. split; [exact Logic.I|]. split.
  - split; [discriminate|]. split; [intros c E; injection E as <-; discriminate|]. intros [|[|[|a]]] x n E; try discriminate E; injection E as <-; reflexivity.
  - split; [exact Logic.I|]. split; [exact Logic.I|]. split; [intros x E; injection E as <-; reflexivity|]. repeat split.
Qed.

(** C175 is false of the code: a mutable string that was hashed and then changed through the pointer the
    library gives for that is not equal to a string with the same text. *)
Theorem C175_pointer_refuted :
  exists ops s rs m rs', Forall (fun o => match o with Poke _ _ _ | Reclaim _ => False | _ => True end) ops /\
    srun nothing ops = Some (s, rs ++ [OBytes [99; 98]; OBytes [99; 98]; OEqual true]%N) /\ run start ops = Ok (m, rs' ++ [OBytes [99; 98]; OBytes [99; 98]; OEqual false]%N).
Proof.
  exists [Lend [97; 98]%N; Lend [99; 98]%N; NoCopyString 0; NoCopyString 1; MutableCopy 0; Hash 2; WritePtr 2 0 99%N; Bytes 1; Bytes 2; Equal 1 2].
  eexists _, [ONone; ONone; ONone; ONone; ONone; _; ONone], _, [ONone; ONone; ONone; ONone; ONone; _; ONone]. split; [repeat constructor|]. split; vm_compute; reflexivity.
Qed.
Print Assumptions C175_pointer_refuted.
(** Nor a string that shows memory of the caller that changed since it was hashed; a copy of it is wrong
    for good. *)
Theorem C175_shown_refuted :
  exists ops s rs m rs', srun nothing ops = Some (s, rs ++ [OBytes [99; 98]; OBytes [99; 98]; OEqual true]%N) /\ run start ops = Ok (m, rs' ++ [OBytes [99; 98]; OBytes [99; 98]; OEqual false]%N).
Proof.
  exists [Lend [97; 98]%N; Lend [99; 98]%N; NoCopyString 0; NoCopyString 1; Hash 0; Poke 0 0 99%N; Copy 0; Bytes 1; Bytes 2; Equal 1 2].
  eexists _, [ONone; ONone; ONone; ONone; _; ONone; ONone], _, [ONone; ONone; ONone; ONone; _; ONone; ONone]. split; vm_compute; reflexivity.
Qed.
Print Assumptions C175_shown_refuted.
