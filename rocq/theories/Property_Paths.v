(** Proofs about properties: key paths, and inheritance. *)
Require Import Coq.NArith.NArith Coq.ZArith.ZArith Coq.Lists.List Coq.Arith.Arith Coq.Bool.Bool Coq.micromega.Lia.
Require Import Verif.Base Verif.Number_Model Verif.Property_Model Verif.Property_Spec Verif.Property_Steps.
Require Verif.Utf8_Spec Verif.String_Model Verif.String_Spec Verif.String_Lists.
Import ListNotations.
Local Open Scope nat_scope.

Lemma follow_walk P j : forall ks k w g, (do (w, o, k) <- follow P w g k ks j; get_property P w o k j) = walk P w g (k :: ks) j.
Proof.
  induction ks as [|k' ks IH]; intros k w g.
  - cbn [follow obind walk]. destruct (get_property P w g k j) as [[w' g']| | |]; reflexivity.
  - cbn [follow]. change (walk P w g (k :: k' :: ks) j) with (match get_property P w g k j with Ok (w', g') => walk P w' g' (k' :: ks) j | UB => UB | Fatal => Fatal | NoFuel => NoFuel end).
    destruct (get_property P w g k j) as [[w' g']| | |]; cbn [obind]; auto.
Qed.
Lemma walk_app P j : forall ks l w g, walk P w g (ks ++ l) j = match walk P w g ks j with Ok (w', g') => walk P w' g' l j | UB => UB | Fatal => Fatal | NoFuel => NoFuel end.
Proof. induction ks as [|k ks IH]; intros l w g; cbn [walk app]; auto. destruct (get_property P w g k j) as [[w' g']| | |]; auto. Qed.
Lemma follow_last P j : forall ks k l w g, k :: ks = l ++ [last (k :: ks) []] ->
  follow P w g k ks j = match walk P w g l j with Ok (w', g') => Ok (w', g', last (k :: ks) []) | UB => UB | Fatal => Fatal | NoFuel => NoFuel end.
Proof.
  induction ks as [|k' ks IH]; intros k l w g E.
  - destruct l as [|x [|y l]]; cbn [last app] in E; try discriminate. reflexivity.
  - change (last (k :: k' :: ks) []) with (last (k' :: ks) []) in *. destruct l as [|x l]; [discriminate|]. cbn [app] in E. injection E as <- E. cbn [follow walk].
    destruct (get_property P w g k j) as [[w' g']| | |]; cbn [obind]; auto.
Qed.
Lemma walk_null P j w : forall ks, walk P w GNull ks j = Ok (w, GNull).
Proof. induction ks as [|k ks IH]; auto. Qed.
Lemma join_dotted ks : String_Spec.join [46%N] ks = dotted ks.
Proof. induction ks as [|k [|k' ks] IH]; auto. cbn [String_Spec.join dotted] in *. rewrite IH. reflexivity. Qed.
Lemma split_path ks : Forall key_text ks -> String_Model.split (Utf8_Spec.encode (dotted ks)) [46%N] = Ok (map Utf8_Spec.encode ks).
Proof.
  intros F. rewrite <- join_dotted, String_Lists.encode_join, <- String_Lists.combine_join. change (String_Model.split (String_Model.combine (map Utf8_Spec.encode ks) (Utf8_Spec.encode [46%N])) (Utf8_Spec.encode [46%N]) = Ok (map Utf8_Spec.encode ks)). apply String_Lists.split_join.
  - constructor; [cbv; intuition discriminate|constructor].
  - discriminate.
  - eapply Forall_impl; [|exact F]. intros k (A & _). exact A.
  - eapply Forall_impl; [|exact F]. intros k (_ & A & B). apply String_Lists.separable_char; auto.
Qed.
Lemma get_path_walk P w g ks j : Forall key_text ks -> ks <> [] -> get_path P w g (Utf8_Spec.encode (dotted ks)) j = walk P w g (map Utf8_Spec.encode ks) j.
Proof.
  intros F N. unfold get_path, resolve_path. destruct g as [|i|t]; [cbn [obind]; rewrite walk_null; reflexivity| |]; rewrite (split_path ks F); cbn [obind];
  (destruct ks as [|k ks]; [congruence|]); cbn [map]; rewrite <- follow_walk; destruct (follow _ _ _ _ _ _) as [[[w' o] k']| | |]; reflexivity.
Qed.
Lemma set_path_walk P w g ks k x j : Forall key_text (ks ++ [k]) ->
  set_path P w g (Utf8_Spec.encode (dotted (ks ++ [k]))) x j = match walk P w g (map Utf8_Spec.encode ks) j with Ok (w', o) => set_property P w' o (Utf8_Spec.encode k) x | UB => UB | Fatal => Fatal | NoFuel => NoFuel end.
Proof.
  intros F. unfold set_path, resolve_path. destruct g as [|i|t]; [cbn [obind]; rewrite walk_null; reflexivity| |]; rewrite (split_path _ F); cbn [obind]; rewrite map_app; cbn [map];
  (destruct (map Utf8_Spec.encode ks ++ [Utf8_Spec.encode k]) as [|y l] eqn:E; [destruct (map Utf8_Spec.encode ks); discriminate|]);
  (assert (L: last (y :: l) [] = Utf8_Spec.encode k) by (rewrite <- E; apply last_last));
  (rewrite (follow_last P j l y (map Utf8_Spec.encode ks)) by (rewrite L, <- E; reflexivity)); rewrite L;
  destruct (walk _ _ _ _ _) as [[w' o]| | |]; reflexivity.
Qed.

(** * Inheritance *)
Lemma find_insert l p n : find_property (insert_property l p) n = if text_eqb (pname p) n then Some p else find_property l n.
Proof.
  unfold find_property, insert_property. cbn [find]. destruct (text_eqb (pname p) n) eqn:E; auto. induction l as [|q l IH]; auto. cbn [filter find].
  destruct (text_eqb (pname q) (pname p)) eqn:Q; cbn [negb find].
  - rewrite IH. apply text_eqb_eq in Q. rewrite Q, E. reflexivity.
  - rewrite IH. reflexivity.
Qed.
Lemma class_snoc l a : class_run (l ++ [a]) = class_step (class_run l) a. Proof. unfold class_run. rewrite fold_left_app. reflexivity. Qed.
Lemma classes_length h : length (class_run (rev h)) = classes h.
Proof.
  induction h as [|a h IH]; auto. cbn [rev]. rewrite class_snoc. destruct a as [[s|]|c p]; cbn [class_step classes]; try (rewrite app_length; cbn [length]; lia).
  destruct (nth_error (class_run (rev h)) c); [rewrite upd_length|]; auto.
Qed.
Lemma nth_upd {A} (l : list A) d : forall i k x, i < length l -> nth k (upd l i x) d = if i =? k then x else nth k l d.
Proof.
  intros i k x L. destruct (Nat.eqb_spec i k) as [->|N].
  - apply nth_error_nth. apply nth_error_upd_eq. auto.
  - destruct (le_lt_dec (length l) k) as [G|G]; [rewrite !nth_overflow; auto; rewrite upd_length; auto|]. apply nth_error_nth. rewrite nth_error_upd_neq by auto. apply nth_error_nth'. auto.
Qed.
Lemma inheritance h : forall c n, find_property (nth c (class_run (rev h)) []) n = inherited h c n.
Proof.
  induction h as [|a h IH]; intros c n; [destruct c; reflexivity|]. cbn [rev]. rewrite class_snoc. pose proof (classes_length h) as L. destruct a as [[s|]|c' p]; cbn [class_step inherited].
  - destruct (Nat.eqb_spec c (classes h)) as [->|N].
    + rewrite app_nth2, L, Nat.sub_diag by lia. cbn [nth]. apply IH.
    + destruct (le_lt_dec (classes h) c) as [G|G]; [|rewrite app_nth1 by lia; apply IH]. rewrite <- IH. rewrite app_nth2, L by lia. destruct (c - classes h) as [|k] eqn:K; [lia|]. cbn [nth]. rewrite (nth_overflow (class_run (rev h))) by lia. destruct k; reflexivity.
  - destruct (Nat.eqb_spec c (classes h)) as [->|N].
    + rewrite app_nth2, L, Nat.sub_diag by lia. reflexivity.
    + destruct (le_lt_dec (classes h) c) as [G|G]; [|rewrite app_nth1 by lia; apply IH]. rewrite <- IH. rewrite app_nth2, L by lia. destruct (c - classes h) as [|k] eqn:K; [lia|]. cbn [nth]. rewrite (nth_overflow (class_run (rev h))) by lia. destruct k; reflexivity.
  - destruct (Nat.ltb_spec c' (classes h)) as [B|B].
    + destruct (nth_error (class_run (rev h)) c') as [l|] eqn:E; [|apply nth_error_None in E; lia]. rewrite nth_upd by lia. destruct (Nat.eqb_spec c' c) as [->|N]; cbn [andb]; [|apply IH].
      rewrite find_insert. destruct (text_eqb (pname p) n); auto. rewrite <- IH. rewrite (nth_error_nth _ _ [] E). reflexivity.
    + rewrite andb_false_r. cbn [andb]. destruct (nth_error (class_run (rev h)) c') as [l|] eqn:E; [|apply IH]. assert (X: c' < length (class_run (rev h))) by (apply nth_error_Some; congruence). lia.
Qed.
