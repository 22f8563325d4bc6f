(** Properties C176 and C177: path extensions. *)
Require Import Coq.NArith.NArith Coq.Lists.List Coq.Bool.Bool.
Require Import Verif.Base Verif.Utf8_Spec Verif.String_Model Verif.String_Spec Verif.Ext_Model Verif.Ext_Spec.
Require Verif.Ext_Proofs.
Import ListNotations.
Local Open Scope N_scope.

(** C176: a path has the extension that is read from it and no other, and that is what follows the last
    period after the last separator. *)
Theorem C176_has : forall cs x, text cs -> text x ->
  has_path_extension (encode cs) (encode x) = Ok (if list_eq_dec N.eq_dec (extension (file_name cs)) x then true else false).
Proof. exact Ext_Proofs.has_ok. Qed.
Print Assumptions C176_has.
Theorem C176_get : forall cs, text cs -> path_extension (encode cs) = Ok (encode (extension (file_name cs))).
Proof. exact Ext_Proofs.get_ok. Qed.
Print Assumptions C176_get.
(** a.b/c has none, and a/b.c.d has the extension d. *)
Example C176_case : extension (file_name [97; 46; 98; 47; 99]) = [] /\ extension (file_name [97; 47; 98; 46; 99; 46; 100]) = [100] /\ text [97; 47; 98; 46; 99; 46; 100] /\
  has_path_extension [97; 47; 98; 46; 99; 46; 100] [100] = Ok true /\ has_path_extension [97; 46; 98; 47; 99] [98; 47; 99] = Ok false.
Proof. repeat split; repeat constructor; vm_compute; intuition discriminate. Qed.

(** C177 for paths that do not end with a separator. *)
Theorem C177_component_partial : forall cs abs l c, text cs -> path_of cs abs (l ++ [c]) -> (forall t, cs <> t ++ [slash]) ->
  exists name, last_path_component (encode cs) = Ok name /\ path_extension name = path_extension (encode cs).
Proof. exact Ext_Proofs.of_component. Qed.
Print Assumptions C177_component_partial.
Example C177_case : path_of [97; 47; 98; 46; 99] false ([[97]] ++ [[98; 46; 99]]) /\ path_extension [97; 47; 98; 46; 99] = Ok [99].
Proof.
  split; [|vm_compute; reflexivity]. apply (path_rel [97] [47; 98; 46; 99]); [split; [discriminate|]| |right; eexists; reflexivity]; [intros [H|[]]; discriminate H|].
  apply rest_slash. apply (rest_comp [98; 46; 99] []); [split; [discriminate|]|constructor|left; reflexivity]. intros [H|[H|[H|[]]]]; discriminate H.
Qed.
(** C177 is false of the code: the last component of b.c/ is b.c, but the path has no extension. *)
Theorem C177_separator_refuted : exists cs abs l c, text cs /\ path_of cs abs (l ++ [c]) /\
  last_path_component (encode cs) = Ok (encode c) /\ path_extension (encode c) = Ok [99] /\ path_extension (encode cs) = Ok [].
Proof.
  exists [98; 46; 99; 47], false, [], [98; 46; 99]. split; [repeat constructor; vm_compute; intuition discriminate|]. split; [|repeat split; vm_compute; reflexivity].
  apply (path_rel [98; 46; 99] [47] []); [split; [discriminate|intros [H|[H|[H|[]]]]; discriminate H]| |right; exists []; reflexivity]. apply rest_slash. constructor.
Qed.
Print Assumptions C177_separator_refuted.
