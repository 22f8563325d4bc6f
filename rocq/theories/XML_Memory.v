(** The memory of the parser: the names on its stack, its data, and the text of elements. *)
Require Import Coq.ZArith.ZArith Coq.NArith.NArith Coq.Lists.List Coq.Bool.Bool Coq.micromega.Lia Coq.micromega.ZifyBool Coq.micromega.ZifyN.
Require Verif.Utf8_Strings.
Require Import Verif.Base Verif.XML_Model Verif.XML_Spec Verif.XML_Machine Verif.XML_Forward Verif.XML_Forward2 Verif.XML_Backward.
Import ListNotations.
Local Open Scope N_scope.

Definition good (b : N) : Prop := 0 < b < 256.
Definition clean (n : bytes) : Prop := n <> [] /\ Forall good n.
Definition mem (ns : list bytes) : bytes := 0 :: flat_map (fun n => n ++ [0]) ns.
Lemma mem_snoc : forall ns n, mem (ns ++ [n]) = mem ns ++ n ++ [0].
Proof. intros ns n. unfold mem. rewrite flat_map_app. cbn [flat_map app]. now rewrite app_nil_r. Qed.
Lemma mem_last : forall ns, exists m, mem ns = m ++ [0].
Proof.
  intros ns. destruct ns as [|n ns] using rev_ind; [exists []; reflexivity|]. exists (mem ns ++ n). now rewrite mem_snoc, app_assoc.
Qed.

Lemma upd_here : forall A (a : list A) x r v, upd (a ++ x :: r) (length a) v = a ++ v :: r.
Proof. intros A a. induction a as [|y a IH]; intros x r v; [reflexivity|]. cbn [app length upd]. now rewrite IH. Qed.
Lemma nth_here : forall A (a : list A) x r, nth_error (a ++ x :: r) (length a) = Some x.
Proof. intros. rewrite nth_error_app2, Nat.sub_diag by lia. reflexivity. Qed.
Lemma wrs_here : forall a x r b n, n = length a -> wrs (a ++ x :: r) n b = Ok (a ++ Some b :: r).
Proof. intros a x r b n ->. unfold wrs. rewrite app_length. cbn [length]. replace (_ <? _)%nat with true by lia. now rewrite upd_here. Qed.
Lemma rds_here : forall a b r n, n = length a -> rds (map Some a ++ Some b :: r) n = Ok b.
Proof. intros a b r n ->. unfold rds. rewrite <- (map_length Some a), nth_here. reflexivity. Qed.

(** Pushing. *)
Lemma push_ok : forall x res ns rest ch, stack x = map Some (mem ns) ++ rest -> S (stacklen x) = length (mem ns) -> good ch ->
  pushstack x res ch = Ok (x, ESTACK) /\ (length (stack x) <= stacklen x + 2)%nat \/
  exists rest', length (map Some (mem (ns ++ [[ch]])) ++ rest') = length (stack x) /\ (stacklen x + 2 < length (stack x))%nat /\
    pushstack x res ch = Ok (set_stack (res x (length (mem ns))) (map Some (mem (ns ++ [[ch]])) ++ rest') (stacklen x + 2), OK).
Proof.
  intros x res ns rest ch Hs Hl Hc. unfold pushstack. destruct (Nat.leb_spec (length (stack x)) (stacklen x + 2)) as [H|H]; [left; auto|right].
  assert (Hr : (length rest >= 2)%nat) by (rewrite Hs, app_length, map_length in H; lia).
  destruct rest as [|r0 [|r1 rest]]; cbn [length] in Hr; try lia. exists rest.
  rewrite mem_snoc. cbn [app]. rewrite map_app, <- app_assoc. cbn [map app].
  split. { rewrite Hs, !app_length. reflexivity. } split; [assumption|]. cbv zeta. rewrite Hl, Hs.
  rewrite N.mod_small by (unfold good in Hc; lia).
  rewrite wrs_here by now rewrite map_length. cbn [obind].
  replace (map Some (mem ns) ++ Some ch :: r1 :: rest) with ((map Some (mem ns) ++ [Some ch]) ++ r1 :: rest) by now rewrite <- app_assoc.
  rewrite wrs_here by (rewrite app_length, map_length; cbn [length]; lia). cbn [obind].
  replace (stacklen x + 2)%nat with (S (length (mem ns))) by lia.
  rewrite <- app_assoc. reflexivity.
Qed.
Lemma pushc_ok : forall x ns n rest ch, stack x = map Some (mem (ns ++ [n])) ++ rest -> S (stacklen x) = length (mem (ns ++ [n])) -> good ch ->
  pushstackc x ch = Ok (x, ESTACK) /\ (length (stack x) <= stacklen x + 2)%nat \/
  exists rest', length (map Some (mem (ns ++ [n ++ [ch]])) ++ rest') = length (stack x) /\
    pushstackc x ch = Ok (set_stack x (map Some (mem (ns ++ [n ++ [ch]])) ++ rest') (S (stacklen x)), OK).
Proof.
  intros x ns n rest ch Hs Hl Hc. unfold pushstackc. destruct (Nat.leb_spec (length (stack x)) (stacklen x + 1)) as [H|H]; [left; split; [reflexivity|lia]|right].
  assert (Hr : (length rest >= 1)%nat) by (rewrite Hs, app_length, map_length in H; lia).
  destruct rest as [|r0 rest]; cbn [length] in Hr; try lia. exists rest.
  rewrite !mem_snoc in *.
  split. { rewrite Hs. repeat (rewrite ?app_length, ?map_length; cbn [length]). lia. }
  rewrite N.mod_small by (unfold good in Hc; lia). rewrite !app_length in Hl. cbn [length] in Hl.
  replace (stack x) with (map Some (mem ns ++ n) ++ Some 0 :: r0 :: rest) by (rewrite Hs; repeat (rewrite ?map_app, <- ?app_assoc; cbn [map app]); reflexivity).
  rewrite wrs_here by (rewrite map_length, app_length; lia). cbn [obind].
  replace (map Some (mem ns ++ n) ++ Some ch :: r0 :: rest) with ((map Some (mem ns ++ n) ++ [Some ch]) ++ r0 :: rest) by now rewrite <- app_assoc.
  rewrite wrs_here by (rewrite app_length, map_length, app_length; cbn [length]; lia). cbn [obind].
  repeat (rewrite ?map_app, <- ?app_assoc; cbn [map app]). reflexivity.
Qed.

(** Popping. *)
Lemma pop_back : forall m n rest, Forall good n -> pop_loop (map Some (m ++ [0] ++ n) ++ rest) (length (m ++ [0] ++ n)) = Ok (length m).
Proof.
  intros m n. induction n as [|b n IH] using rev_ind; intros rest Hn.
  - cbn [app]. rewrite app_length. cbn [length]. rewrite Nat.add_1_r. cbn [pop_loop]. rewrite map_app, <- app_assoc. cbn [map app].
    rewrite rds_here by reflexivity. reflexivity.
  - apply Forall_app in Hn. destruct Hn as [Hn Hb]. inversion Hb as [|? ? Hb' _]; subst.
    replace (length (m ++ [0] ++ n ++ [b])) with (S (length (m ++ [0] ++ n))) by (rewrite !app_length; cbn [length]; lia). cbn [pop_loop].
    replace (map Some (m ++ [0] ++ n ++ [b]) ++ rest) with (map Some (m ++ [0] ++ n) ++ Some b :: rest) by (repeat (rewrite ?map_app, <- ?app_assoc; cbn [map app]); reflexivity).
    rewrite rds_here by reflexivity. cbn [obind]. replace (b =? 0) with false by (unfold good in Hb'; lia). now apply IH.
Qed.
Lemma pop_ok : forall x ns n rest, stack x = map Some (mem (ns ++ [n])) ++ rest -> S (stacklen x) = length (mem (ns ++ [n])) -> clean n ->
  popstack x = Ok (set_stack x (stack x) (length (mem ns) - 1)).
Proof.
  intros x ns n rest Hs Hl [_ Hn]. unfold popstack. destruct (mem_last ns) as (m & Em). rewrite mem_snoc, Em in *.
  rewrite !app_length in Hl. cbn [length] in Hl.
  replace (stack x) with (map Some (m ++ [0] ++ n) ++ Some 0 :: rest) by (rewrite Hs; repeat (rewrite ?map_app, <- ?app_assoc; cbn [map app]); reflexivity).
  replace (stacklen x) with (length (m ++ [0] ++ n)) by (rewrite !app_length; cbn [length]; lia).
  rewrite pop_back by assumption. cbn [obind]. do 3 f_equal. rewrite app_length. cbn [length]. lia.
Qed.
Lemma elem_back : forall m n rest, Forall good n -> elem_loop (map Some (m ++ [0] ++ n) ++ rest) (length (m ++ [0] ++ n)) = Ok (length (m ++ [0])).
Proof.
  intros m n. induction n as [|b n IH] using rev_ind; intros rest Hn.
  - cbn [app]. rewrite app_length. cbn [length]. rewrite Nat.add_1_r. cbn [elem_loop]. rewrite map_app, <- app_assoc. cbn [map app].
    rewrite rds_here by reflexivity. reflexivity.
  - apply Forall_app in Hn. destruct Hn as [Hn Hb]. inversion Hb as [|? ? Hb' _]; subst.
    replace (length (m ++ [0] ++ n ++ [b])) with (S (length (m ++ [0] ++ n))) by (rewrite !app_length; cbn [length]; lia). cbn [elem_loop].
    replace (map Some (m ++ [0] ++ n ++ [b]) ++ rest) with (map Some (m ++ [0] ++ n) ++ Some b :: rest) by (repeat (rewrite ?map_app, <- ?app_assoc; cbn [map app]); reflexivity).
    rewrite rds_here by reflexivity. cbn [obind]. replace (b =? 0) with false by (unfold good in Hb'; lia). now apply IH.
Qed.
(** Closing an element that is not the outermost, and the outermost. *)
Lemma selfclose_inner : forall x ns n n' rest ch, stack x = map Some (mem (ns ++ [n'; n])) ++ rest -> S (stacklen x) = length (mem (ns ++ [n'; n])) -> clean n -> clean n' ->
  selfclose x ch = Ok (set_elem (set_stack x (stack x) (length (mem (ns ++ [n'])) - 1)) (length (mem ns)), ELEMEND).
Proof.
  intros x ns n n' rest ch Hs Hl Hn Hn'. unfold selfclose. change ([n'; n]) with ([n'] ++ [n]) in *. rewrite app_assoc in Hs, Hl.
  rewrite (pop_ok x (ns ++ [n']) n rest Hs Hl Hn). cbn [obind stacklen set_stack].
  destruct Hn' as [Hne Hg]. destruct (exists_last Hne) as (n1 & b & ->). apply Forall_app in Hg. destruct Hg as [Hg _].
  destruct (mem_last ns) as (m & Em).
  assert (El : (length (mem (ns ++ [n1 ++ [b]])) - 1)%nat = S (length (m ++ [0] ++ n1))) by (rewrite mem_snoc, Em, !app_length; cbn [length]; lia).
  rewrite El. cbn [stack set_stack].
  replace (stack x) with (map Some (m ++ [0] ++ n1) ++ Some b :: Some 0 :: map Some n ++ Some 0 :: rest).
  2: { rewrite Hs, !mem_snoc, Em. repeat (rewrite ?map_app, <- ?app_assoc; cbn [map app]). reflexivity. }
  rewrite elem_back by assumption. cbn [obind]. rewrite Em. reflexivity.
Qed.
Lemma selfclose_outer : forall x n rest ch, stack x = map Some (mem [n]) ++ rest -> S (stacklen x) = length (mem [n]) -> clean n ->
  selfclose x ch = Ok (to_state (set_elem (set_stack x (stack x) 0) 0) S_misc3, ELEMEND).
Proof.
  intros x n rest ch Hs Hl Hn. unfold selfclose. rewrite (pop_ok x [] n rest Hs Hl Hn). reflexivity.
Qed.
Lemma cstring_at_ok : forall n rest, Forall good n -> cstring_at (map Some n ++ Some 0 :: rest) = Ok n.
Proof.
  induction n as [|b n IH]; intros rest H; [reflexivity|]. inversion H as [|? ? Hb Hn]; subst. cbn [map app cstring_at].
  replace (b =? 0) with false by (unfold good in Hb; lia). now rewrite IH.
Qed.
Lemma skipn_here : forall A (a b : list A) n, n = length a -> skipn n (a ++ b) = b.
Proof. intros A a b n ->. now rewrite skipn_app, skipn_all, Nat.sub_diag. Qed.
Lemma name_read : forall ns n rest, clean n -> cstring_at (skipn (length (mem ns)) (map Some (mem (ns ++ [n])) ++ rest)) = Ok n.
Proof.
  intros ns n rest [_ Hn]. rewrite mem_snoc, !map_app, <- !app_assoc. rewrite skipn_here by now rewrite map_length. cbn [map app]. now apply cstring_at_ok.
Qed.
(** Reading inside a name. *)
Lemma rds_name : forall ns n rest i, (i <= length n)%nat -> rds (map Some (mem (ns ++ [n])) ++ rest) (length (mem ns) + i) = Ok (nth i (n ++ [0]) 0).
Proof.
  intros ns n rest i Hi. unfold rds. rewrite mem_snoc, map_app, <- app_assoc. rewrite nth_error_app2 by (rewrite map_length; lia).
  rewrite map_length. replace (length (mem ns) + i - length (mem ns))%nat with i by lia.
  rewrite nth_error_app1 by (rewrite map_length, app_length; cbn [length]; lia). rewrite nth_error_map.
  rewrite (nth_error_nth' _ 0) by (rewrite app_length; cbn [length]; lia). reflexivity.
Qed.
Lemma piname_ok : forall x ns n rest ch, stack x = map Some (mem (ns ++ [n])) ++ rest -> pi x = length (mem ns) -> clean n ->
  pinameend x ch = Ok (x, if xml_name n then ESYN else PISTART).
Proof.
  intros x ns n rest ch Hs Hp [Hne Hn]. unfold pinameend. rewrite Hs, Hp. rewrite <- (Nat.add_0_r (length (mem ns))) at 1.
  destruct n as [|b0 n]; [congruence|]. rewrite rds_name by lia. cbn [nth obind app].
  destruct n as [|b1 n].
  - destruct (N.lor b0 32 =? 120); [|reflexivity]. rewrite rds_name by (cbn; lia). reflexivity.
  - destruct (N.lor b0 32 =? 120) eqn:E0.
    2: { replace (xml_name (b0 :: b1 :: n)) with false by (unfold xml_name; destruct n as [|b2 [|]]; rewrite ?E0; reflexivity). reflexivity. }
    rewrite rds_name by (cbn; lia). cbn [nth obind app]. destruct (N.lor b1 32 =? 109) eqn:E1.
    2: { replace (xml_name (b0 :: b1 :: n)) with false by (unfold xml_name; destruct n as [|b2 [|]]; rewrite ?E0, ?E1; reflexivity). reflexivity. }
    rewrite rds_name by (cbn; lia). cbn [nth obind app].
    destruct n as [|b2 n]; [cbn [app nth obind]; reflexivity|]. cbn [app nth]. destruct (N.lor b2 32 =? 108) eqn:E2.
    2: { replace (xml_name (b0 :: b1 :: b2 :: n)) with false by (unfold xml_name; destruct n; rewrite ?E0, ?E1, ?E2; reflexivity). reflexivity. }
    rewrite rds_name by (cbn; lia). cbn [nth obind app].
    destruct n as [|b3 n]; [cbn [app nth obind xml_name]; rewrite E0, E1, E2; reflexivity|].
    cbn [app nth xml_name]. replace (b3 =? 0) with false; [reflexivity|].
    do 3 (apply Forall_inv_tail in Hn). apply Forall_inv in Hn. unfold good in Hn. lia.
Qed.

(** The data. *)
Lemma wrd_ok : forall bs d i, (i + length bs <= length d)%nat -> wrd d i bs = Ok (firstn i d ++ bs ++ skipn (i + length bs) d).
Proof.
  induction bs as [|b bs IH]; intros d i H.
  - cbn [wrd length app]. now rewrite Nat.add_0_r, firstn_skipn.
  - cbn [wrd length] in *. replace (i <? length d)%nat with true by lia.
    destruct (skipn i d) as [|y r] eqn:E. { apply (f_equal (@length N)) in E. rewrite skipn_length in E. cbn [length] in E. lia. }
    assert (Ed : d = firstn i d ++ y :: r) by (rewrite <- E; now rewrite firstn_skipn).
    assert (Hi : length (firstn i d) = i) by (rewrite firstn_length; lia).
    rewrite Ed at 1. rewrite <- Hi at 2. rewrite upd_here.
    rewrite IH by (rewrite app_length; cbn [length]; rewrite Hi; apply (f_equal (@length N)) in Ed; rewrite app_length, Hi in Ed; cbn [length] in Ed; lia).
    f_equal. replace (firstn (S i) (firstn i d ++ b :: r)) with (firstn i d ++ [b]).
    2: { rewrite firstn_app, Hi. rewrite (firstn_all2 (firstn i d)) by lia. replace (S i - i)%nat with 1%nat by lia. reflexivity. }
    rewrite <- app_assoc. cbn [app]. do 3 f_equal.
    rewrite skipn_app, Hi. rewrite (skipn_all2 (firstn i d)) by lia. replace (S i + length bs - i)%nat with (S (length bs)) by lia. cbn [app skipn].
    rewrite Ed at 1. rewrite skipn_app, Hi. rewrite (skipn_all2 (firstn i d)) by lia. replace (i + S (length bs) - i)%nat with (S (length bs)) by lia. reflexivity.
Qed.
Lemma put_ok : forall x bs r, length (data x) = 8%nat -> (length bs <= 7)%nat -> exists tail,
  length (bs ++ 0 :: tail) = 8%nat /\ put_data x bs r = Ok (set_data x (bs ++ 0 :: tail) (reflen x), r).
Proof.
  intros x bs r Hd Hl. exists (skipn (length bs + 1) (data x)). split.
  - rewrite app_length. cbn [length]. rewrite skipn_length. lia.
  - unfold put_data. rewrite wrd_ok by (rewrite app_length; cbn [length]; lia). cbn [firstn app obind plus]. rewrite app_length. cbn [length].
    now rewrite <- app_assoc.
Qed.
Lemma cstring_ok : forall bs tail, Forall good bs -> cstring (bs ++ 0 :: tail) = Ok bs.
Proof.
  induction bs as [|b bs IH]; intros tail H; [reflexivity|]. inversion H as [|? ? Hb Hn]; subst. cbn [app cstring].
  replace (b =? 0) with false by (unfold good in Hb; lia). now rewrite IH.
Qed.
Lemma lor_add : forall k a y, y < 2 ^ k -> N.lor (a * 2 ^ k) y = a * 2 ^ k + y.
Proof. intros k a y H. rewrite <- lor_shift by assumption. now rewrite N.shiftl_mul_pow2. Qed.
Lemma utf8_stored : forall c, 0 < c <= 0x10FFFF -> utf8_bytes c = utf8 c ++ [0] /\ Forall good (utf8 c) /\ (1 <= length (utf8 c) <= 4)%nat.
Proof.
  intros c Hc. unfold utf8_bytes, utf8, setchar.
  assert (M : N.lor 128 (N.land c 63) = 128 + c mod 64).
  { change 63 with (N.ones 6). rewrite N.land_ones. change 128 with (2 * 2 ^ 6) at 1. rewrite lor_add; [reflexivity|]. apply N.mod_lt. discriminate. }
  assert (M6 : N.lor 128 (N.land (N.shiftr c 6) 63) = 128 + c / 64 mod 64).
  { change 63 with (N.ones 6). rewrite N.land_ones, N.shiftr_div_pow2. change 128 with (2 * 2 ^ 6) at 1. rewrite lor_add; [reflexivity|]. apply N.mod_lt. discriminate. }
  assert (M12 : N.lor 128 (N.land (N.shiftr c 12) 63) = 128 + c / 4096 mod 64).
  { change 63 with (N.ones 6). rewrite N.land_ones, N.shiftr_div_pow2. change 128 with (2 * 2 ^ 6) at 1. rewrite lor_add; [reflexivity|]. apply N.mod_lt. discriminate. }
  rewrite M, M6, M12, !N.shiftr_div_pow2.
  assert (B1 : c mod 64 < 64) by (apply N.mod_lt; discriminate). assert (B2 : c / 64 mod 64 < 64) by (apply N.mod_lt; discriminate).
  assert (B3 : c / 4096 mod 64 < 64) by (apply N.mod_lt; discriminate).
  destruct (N.leb_spec c 127) as [H|H].
  - replace (c <? 128) with true by lia. rewrite N.mod_small by lia. split; [reflexivity|]. split; [|cbn; lia]. apply Forall_cons; [unfold good; lia|apply Forall_nil].
  - replace (c <? 128) with false by lia. change (2 ^ 6) with 64. change (2 ^ 12) with 4096. change (2 ^ 18) with 262144. destruct (N.leb_spec c 2047) as [H1|H1].
    + replace (c <? 2048) with true by lia. assert (c / 64 < 32) by (apply N.div_lt_upper_bound; lia).
      change 192 with (6 * 2 ^ 5) at 1. rewrite lor_add by (change (2 ^ 5) with 32; lia). change (6 * 2 ^ 5) with 192.
      rewrite !(N.mod_small _ 256) by lia. split; [reflexivity|]. split; [|cbn; lia]. repeat (apply Forall_cons; [unfold good; lia|]). apply Forall_nil.
    + replace (c <? 2048) with false by lia. destruct (N.leb_spec c 65535) as [H2|H2].
      * replace (c <? 65536) with true by lia. assert (c / 4096 < 16) by (apply N.div_lt_upper_bound; lia).
        change 224 with (14 * 2 ^ 4) at 1. rewrite lor_add by (change (2 ^ 4) with 16; lia). change (14 * 2 ^ 4) with 224.
        rewrite !(N.mod_small _ 256) by lia. split; [reflexivity|]. split; [|cbn; lia]. repeat (apply Forall_cons; [unfold good; lia|]). apply Forall_nil.
      * replace (c <? 65536) with false by lia. assert (c / 262144 < 8) by (apply N.div_lt_upper_bound; lia).
        change 240 with (30 * 2 ^ 3) at 1. rewrite lor_add by (change (2 ^ 3) with 8; lia). change (30 * 2 ^ 3) with 240.
        rewrite !(N.mod_small _ 256) by lia. split; [reflexivity|]. split; [|cbn; lia]. repeat (apply Forall_cons; [unfold good; lia|]). apply Forall_nil.
Qed.
Lemma ref_put : forall x r0 ch, data x = r0 ++ repeat 0 (8 - length r0) -> reflen x = length r0 -> (length r0 < 7)%nat -> good ch ->
  ref x ch = Ok (set_data x ((r0 ++ [ch]) ++ repeat 0 (8 - length (r0 ++ [ch]))) (length (r0 ++ [ch])), OK).
Proof.
  intros x r0 ch Hd Hr Hl Hg. unfold ref. rewrite Hr. replace (7 <=? length r0)%nat with false by lia.
  rewrite wrd_ok by (rewrite Hd, app_length, repeat_length; cbn [length]; lia). cbn [obind]. unfold setchar. rewrite N.mod_small by (unfold good in Hg; lia).
  rewrite Hd, app_length. cbn [length]. rewrite firstn_app, Nat.sub_diag, firstn_all, app_nil_r.
  rewrite skipn_app, skipn_all2 by lia. replace (length r0 + 1 - length r0)%nat with 1%nat by lia. rewrite <- app_assoc.
  destruct (8 - length r0)%nat as [|k] eqn:E; [lia|]. cbn [repeat skipn app]. replace (8 - (length r0 + 1))%nat with k by lia. now rewrite Nat.add_1_r.
Qed.
Lemma refend_ok : forall x r0 r, data x = r0 ++ repeat 0 (8 - length r0) -> (length r0 <= 7)%nat ->
  match ref_value r0 with
  | None => refend x r = Ok (x, EREF)
  | Some c => 0 < c <= 0x10FFFF /\ exists tail, length (utf8 c ++ 0 :: tail) = 8%nat /\ refend x r = Ok (set_data x (utf8 c ++ 0 :: tail) (reflen x), r)
  end.
Proof.
  intros x r0 r Hd Hl. unfold ref_value, refend. rewrite Hd.
  assert (T : exists c, ref_char (r0 ++ repeat 0 (8 - length r0)) = Ok c).
  { unfold ref_char. rewrite padded by assumption. set (z := repeat 0 (7 - length r0)).
    assert (L : length (r0 ++ 0 :: z) = 8%nat) by (rewrite app_length; cbn [length]; unfold z; rewrite repeat_length; lia).
    unfold Utf8_Model.rd.
    assert (Hn : forall i, (i < 8)%nat -> exists b, nth_error (r0 ++ 0 :: z) i = Some b).
    { intros i Hi. destruct (nth_error (r0 ++ 0 :: z) i) eqn:E; [eauto|]. apply nth_error_None in E. lia. }
    destruct (Hn 0%nat) as (b0 & ->); [lia|]. destruct (Hn 1%nat) as (b1 & E1); [lia|]. rewrite E1. cbn [obind].
    destruct (b0 =? 35).
    - destruct (b1 =? 120) eqn:E120.
      + destruct r0 as [|x0 [|x1 r1]]; cbn [app skipn].
        * unfold z. cbn [length Nat.sub repeat skipn]. cbn. eauto.
        * unfold z. cbn [length Nat.sub repeat skipn]. cbn. eauto.
        * destruct (hex_total r1 0 z) as (c & b & ->). cbn [obind]. eauto.
      + destruct r0 as [|x0 r1]; cbn [app skipn].
        * unfold z. cbn [length Nat.sub repeat skipn]. cbn. eauto.
        * destruct (dec_total r1 0 z) as (c & b & ->). cbn [obind]. eauto.
    - destruct (Hn 2%nat) as (b2 & ->); [lia|]. destruct (Hn 3%nat) as (b3 & ->); [lia|]. destruct (Hn 4%nat) as (b4 & ->); [lia|]. cbn [obind]. eauto. }
  destruct T as (c & ->). cbn [obind]. destruct (bad_char c) eqn:Eb; [reflexivity|].
  apply bad_char_spec in Eb. destruct Eb as (Hc & _). split; [lia|]. destruct (utf8_stored c) as (E & Hg & Hn); [lia|]. rewrite E.
  exists (skipn (length (utf8 c) + 1) (data x)). rewrite Hd. split.
  { rewrite app_length. cbn [length]. rewrite skipn_length, app_length, repeat_length. lia. }
  rewrite wrd_ok by (rewrite !app_length, repeat_length; cbn [length]; lia). cbn [firstn app obind plus]. rewrite app_length. cbn [length].
  now rewrite <- app_assoc.
Qed.

(** Text. *)
Definition spacelike (isspace : Z -> outcome bool) : Prop := forall b, b < 256 -> isspace (to_char b) = Ok (blank b).
Lemma blank_high : forall b, 128 <= b -> blank b = false.
Proof. intros b H. unfold blank. lia. Qed.
Lemma strlen_text : forall t r, Forall good t -> Utf8_Model.strlen (t ++ 0 :: r) = Ok (length t).
Proof.
  intros t r H. induction H as [|b t Hb H IH]; [reflexivity|]. cbn [app length Utf8_Model.strlen].
  replace (b =? 0) with false by (unfold good in Hb; lia). rewrite IH. reflexivity.
Qed.
Lemma prev_loop_lead : forall s fuel p i count shift c z j, Utf8_Model.prev_loop fuel s p i count shift c = Ok (z, j) ->
  j = p \/ exists b, nth_error s j = Some b /\ 128 <= b.
Proof.
  intros s fuel. induction fuel as [|fuel IH]; intros p i count shift c z j H; [discriminate H|]. cbn [Utf8_Model.prev_loop] in H.
  destruct i as [|i]; [injection H as _ <-; auto|]. unfold Utf8_Model.rd in H. destruct (nth_error s i) as [b|] eqn:Eb; [|discriminate H]. cbn [obind] in H.
  destruct ((b + 256 - 128) mod 256 <? 126) eqn:E1; [|injection H as _ <-; auto].
  destruct (negb (N.land b 64 =? 0)) eqn:E2.
  - assert (Hb : 128 <= b).
    { destruct (N.lt_ge_cases b 128) as [Hlt|]; [|assumption]. exfalso.
      replace ((b + 256 - 128) mod 256) with (b + 128) in E1 by (symmetry; apply N.mod_small_iff || (rewrite N.mod_small; lia)). lia. }
    destruct (count =? Utf8_Model.count_trail b).
    + destruct (_ || _) in H; injection H as _ <-; right; eauto.
    + destruct (count <? Utf8_Model.count_trail b); injection H as _ <-; [right; eauto|auto].
  - destruct (count <? 5); [|injection H as _ <-; auto]. exact (IH _ _ _ _ _ _ _ H).
Qed.
Lemma last_char : forall t, Forall good t -> t <> [] -> exists i b, Utf8_Model.ustrridx (t ++ [0]) 0 = Ok (Some i) /\ Utf8_Model.rd (t ++ [0]) i = Ok b /\
  b < 256 /\ blank b = blank (last t 32).
Proof.
  intros t Ht Hne. unfold Utf8_Model.ustrridx. rewrite strlen_text by assumption. cbn [obind Utf8_Model.ustrridx_loop].
  destruct (exists_last Hne) as (t1 & b & ->).
  assert (HA : Forall (fun b => b < 256) ((t1 ++ [b]) ++ [0])).
  { apply Forall_app. split; [eapply Forall_impl; [|exact Ht]; unfold good; cbv beta; intros; lia|]. apply Forall_cons; [lia|apply Forall_nil]. }
  apply Forall_app in Ht. destruct Ht as [_ Hb]. apply Forall_inv in Hb.
  rewrite last_last. rewrite app_length. cbn [length]. rewrite Nat.add_1_r.
  destruct (Verif.Utf8_Strings.u8_prev_total ((t1 ++ [b]) ++ [0]) (S (length t1))) as (z & j & E & Hj); [rewrite !app_length; cbn [length]; lia|].
  rewrite E. cbn [obind fst snd]. replace (0 <=? 0)%nat with true by reflexivity. exists j.
  assert (R : Utf8_Model.rd ((t1 ++ [b]) ++ [0]) (length t1) = Ok b) by (unfold Utf8_Model.rd; rewrite <- app_assoc; cbn [app]; now rewrite nth_here).
  unfold Utf8_Model.u8_prev in E. rewrite R in E. cbn [obind] in E. destruct (b <? 128) eqn:E1.
  - injection E as _ <-. exists b. unfold good in Hb. repeat split; auto; lia.
  - assert (Hbl : blank b = false) by (apply blank_high; lia). destruct (Utf8_Model.is_trail b).
    + apply prev_loop_lead in E. destruct E as [->|(b' & E & Hb')].
      * exists b. unfold good in Hb. repeat split; auto; lia.
      * exists b'. split; [reflexivity|]. unfold Utf8_Model.rd. rewrite E. split; [reflexivity|].
        rewrite Forall_forall in HA. pose proof (HA b' (nth_error_In _ _ E)) as Hlt. rewrite (blank_high b' Hb'). auto.
    + injection E as _ <-. exists b. unfold good in Hb. repeat split; auto; lia.
Qed.

(** Appending text, on the contents of an element: [conv] turns the children that are not
    affected into items. *)
Definition text_good (els : list child) : Prop := Forall (fun c => match c with CText t => Forall good t | CElement _ => True end) els.
Definition add_child_byte (kept : bool) (k : list child) (b : N) : list child :=
  match rev k with
  | CText t :: r => rev r ++ [CText (add_to kept t b)]
  | _ => match add_to kept [] b with [] => k | t => k ++ [CText t] end
  end.
Definition add_child_unit (k : list child) (u : bytes) : list child :=
  match u with [] => k | b :: r => if blank b then add_child_byte false k b else fold_left (add_child_byte true) r (add_child_byte true k b) end.
Lemma fold_text : forall r k t, fold_left (add_child_byte true) r (k ++ [CText t]) = k ++ [CText (t ++ r)].
Proof.
  induction r as [|b r IH]; intros k t; cbn [fold_left]; [now rewrite app_nil_r|].
  unfold add_child_byte at 2. rewrite rev_app_distr. cbn [rev app]. rewrite rev_involutive. unfold add_to. rewrite andb_false_r, IH, <- app_assoc. reflexivity.
Qed.
Lemma append_ok : forall isspace els u tail, spacelike isspace -> text_good els -> Forall good u -> u <> [] ->
  append_text isspace els (u ++ 0 :: tail) = Ok (add_child_unit els u) /\ text_good (add_child_unit els u).
Proof.
  intros isspace els u tail Hsp Hg Hu Hne. destruct u as [|b r]; [congruence|]. inversion Hu as [|? ? Hb Hr]; subst.
  unfold append_text. cbn [app Utf8_Model.rd nth_error obind]. unfold Utf8_Model.rd. cbn [nth_error obind].
  rewrite Hsp by (unfold good in Hb; lia). cbn [obind]. unfold add_child_unit.
  assert (Hc : cstring (b :: r ++ 0 :: tail) = Ok (b :: r)) by exact (cstring_ok (b :: r) tail Hu).
  destruct (rev els) as [|c cs] eqn:Er.
  - assert (els = []) by (rewrite <- (rev_involutive els), Er; reflexivity). subst els.
    destruct (blank b) eqn:Ebl.
    + unfold add_child_byte. cbn [rev]. unfold add_to. rewrite Ebl. cbn [andb negb last]. change (blank 32) with true. cbv iota. auto.
    + cbn [app]. unfold Utf8_Model.ustrridx. cbn [Utf8_Model.strlen obind negb]. rewrite Hc. cbn [obind].
      unfold add_child_byte at 2 4. cbn [rev]. unfold add_to. rewrite andb_false_r. cbn [app].
      change [CText [b]] with ([] ++ [CText [b]]). rewrite fold_text. split; [reflexivity|]. apply Forall_cons; [exact Hu|apply Forall_nil].
  - assert (Ee : els = rev cs ++ [c]) by (rewrite <- (rev_involutive els), Er; reflexivity). subst els.
    rewrite removelast_last. apply Forall_app in Hg. destruct Hg as [Hg1 Hg2]. apply Forall_inv in Hg2. destruct c as [t|e].
    + replace (if blank b then add_child_byte false (rev cs ++ [CText t]) b else fold_left (add_child_byte true) r (add_child_byte true (rev cs ++ [CText t]) b))
        with (rev cs ++ [CText (if blank b then (if blank (last t 32) then t else t ++ [32]) else t ++ b :: r)]).
      2: { unfold add_child_byte at 1 3. rewrite rev_app_distr. cbn [rev app]. rewrite rev_involutive. unfold add_to. destruct (blank b); [reflexivity|].
           cbn [andb]. rewrite fold_text, <- app_assoc. reflexivity. }
      assert (G : text_good (rev cs ++ [CText (if blank b then (if blank (last t 32) then t else t ++ [32]) else t ++ b :: r)])).
      { apply Forall_app. split; [assumption|]. apply Forall_cons; [|apply Forall_nil]. destruct (blank b); [destruct (blank (last t 32)); [assumption|]|].
        - apply Forall_app. split; [assumption|]. apply Forall_cons; [unfold good; lia|apply Forall_nil].
        - apply Forall_app. split; assumption. }
      split; [|exact G]. clear G. destruct t as [|t0 t].
      * cbn [app]. unfold Utf8_Model.ustrridx. cbn [Utf8_Model.strlen obind]. change (0 =? 0) with true. cbn [obind Utf8_Model.ustrridx_loop].
        destruct (blank b) eqn:Ebl; cbn [negb last].
        -- change (blank 32) with true. reflexivity.
        -- rewrite Hc. reflexivity.
      * destruct (last_char (t0 :: t) Hg2 ltac:(discriminate)) as (i & b' & E1 & E2 & E3 & E4). cbn [app] in E1, E2. cbn [app].
        rewrite E1. cbn [obind]. destruct (blank b) eqn:Ebl; cbn [negb].
        -- unfold Utf8_Model.rd in E2. rewrite E2. cbn [obind]. rewrite Hsp by assumption. cbn [obind]. rewrite E4. reflexivity.
        -- rewrite Hc. reflexivity.
    + assert (G : text_good (rev cs ++ [CElement e])) by (apply Forall_app; split; [assumption|repeat constructor]).
      destruct (blank b) eqn:Ebl.
      * unfold add_child_byte. rewrite rev_app_distr. cbn [rev app]. unfold add_to. rewrite Ebl. cbn [andb negb last]. change (blank 32) with true. cbv iota. auto.
      * cbn [app]. unfold Utf8_Model.ustrridx. cbn [Utf8_Model.strlen obind negb]. rewrite Hc. cbn [obind].
        unfold add_child_byte at 2 4. rewrite rev_app_distr. cbn [rev app]. unfold add_to. rewrite andb_false_r. cbn [app].
        rewrite fold_text. split; [reflexivity|]. apply Forall_app. split; [assumption|]. apply Forall_cons; [exact Hu|apply Forall_nil].
Qed.
