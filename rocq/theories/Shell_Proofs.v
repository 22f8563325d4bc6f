(** Proofs about shell segments. *)
Require Import Coq.ZArith.ZArith Coq.NArith.NArith Coq.Lists.List Coq.Bool.Bool Coq.micromega.Lia.
Require Import Verif.Base Verif.Utf8_Model Verif.Utf8_Spec Verif.Utf8_Proofs Verif.Utf8_Strings Verif.String_Model Verif.String_Proofs Verif.StrObj_Proofs
  Verif.Strtonum_Model Verif.Strtonum_Spec Verif.Strtonum_Proofs Verif.Stream_Model Verif.Stream_Spec Verif.Stream_Proofs Verif.Shell_Model Verif.Shell_Spec.
Import ListNotations.
Local Open Scope N_scope.

Lemma str_length_c : forall s, cstring s -> exists n, str_length s = Ok n /\ ((n =? 0)%nat = true <-> s = []).
Proof.
  intros s H. destruct (scans_total (length s) s (le_n _) H) as (zs & Hz & _).
  exists (length zs). unfold str_length. rewrite sto_term. rewrite (ustrlen_ok _ _ _ Hz). split; auto.
  rewrite Nat.eqb_eq. inversion Hz; subst; cbn; split; intros; try discriminate; auto. congruence.
Qed.
Lemma starts_iff : forall p s, starts s p = true <-> exists r, s = p ++ r.
Proof.
  induction p as [|x p IH]; intros s; cbn [starts]; [split; [intros _; exists s; reflexivity|reflexivity]|].
  destruct s as [|y s]; [split; [discriminate|intros [r H]; discriminate]|].
  rewrite andb_true_iff, N.eqb_eq, IH. split; [intros [-> [r ->]]; exists r; auto|intros [r H]; injection H as -> ->; eauto].
Qed.
Lemma header_value_here : forall b s, b < 128 -> ~ white b -> header_value (b :: s) = Ok (b :: s).
Proof.
  intros b s H W. cbn [header_value]. unfold schar. replace (b <? 128) with true by (symmetry; apply N.ltb_lt; auto). unfold isspace.
  replace ((-1 <=? Z.of_N b) && (Z.of_N b <=? 255))%Z with true by (symmetry; apply andb_true_iff; split; apply Z.leb_le; lia). cbn [obind].
  replace ((9 <=? Z.of_N b) && (Z.of_N b <=? 13) || (Z.of_N b =? 32))%Z with false; auto.
  symmetry. apply orb_false_iff. split; [apply andb_false_iff; destruct (Z.leb_spec 9 (Z.of_N b)); auto; right; apply Z.leb_gt; unfold white in W; lia|].
  apply Z.eqb_neq. unfold white in W. lia.
Qed.
Lemma header_value_skip : forall s, header_value (32 :: s) = header_value s.
Proof. auto. Qed.

(** *** The decimal length *)
Lemma ul_digits_app : forall ds acc s, Forall digit ds -> (match s with [] => True | b :: _ => ~ digit b end) ->
  Z.of_N (ul_digits acc (ds ++ s)) = fold_left (fun v b => (10 * v + (Z.of_N b - 48))%Z) ds (Z.of_N acc).
Proof.
  induction ds as [|d ds IH]; intros acc s H Hs; cbn [app fold_left].
  - destruct s as [|b s]; auto. cbn [ul_digits]. replace (isdigit b) with false; auto. symmetry. unfold isdigit, digit in *.
    apply andb_false_iff. destruct (N.leb_spec 48 b); auto. right. apply N.leb_gt. lia.
  - inversion H as [|? ? Hd H']; subst. unfold digit in Hd. cbn [ul_digits]. replace (isdigit d) with true.
    2:{ symmetry. unfold isdigit. apply andb_true_iff. split; apply N.leb_le; lia. }
    rewrite IH by auto. f_equal. lia.
Qed.
Lemma value_bound : forall ds, Forall digit ds -> (0 <= value ds < 10 ^ Z.of_nat (length ds))%Z.
Proof.
  intros ds. induction ds as [|d ds IH] using rev_ind; intros H; [cbn; lia|]. apply Forall_app in H. destruct H as [H1 H2]. inversion H2 as [|? ? Hd _]; subst.
  specialize (IH H1). rewrite value_app, app_length. cbn [length]. rewrite Nat.add_1_r. replace (10 ^ Z.of_nat (S (length ds)))%Z with (10 * 10 ^ Z.of_nat (length ds))%Z by (rewrite Nat2Z.inj_succ, Z.pow_succ_r by lia; auto). change (value [d]) with (10 * 0 + (Z.of_N d - 48))%Z.
  unfold digit in Hd. change (10 ^ Z.of_nat 1)%Z with 10%Z. lia.
Qed.
Lemma strtoul_plain : forall ds s, Forall digit ds -> ds <> [] -> (value ds < 2^64)%Z -> (match s with [] => True | b :: _ => ~ digit b end) ->
  strtoul (ds ++ s) = Z.to_N (value ds).
Proof.
  intros ds s H Hne Hv Hs. pose proof (value_bound _ H) as B. unfold strtoul.
  assert (E : ul_space (ds ++ s) = ds ++ s /\ match ds ++ s with b :: s' => if b =? 45 then (true, s') else if b =? 43 then (false, s') else (false, ds ++ s) | [] => (false, []) end = (false, ds ++ s)).
  { destruct ds as [|d ds]; [congruence|]. inversion H as [|? ? Hd _]; subst. unfold digit in Hd. cbn [app ul_space]. split.
    - replace ((9 <=? d) && (d <=? 13) || (d =? 32)) with false; auto. symmetry. apply orb_false_iff. split; [apply andb_false_iff; right; apply N.leb_gt; lia|apply N.eqb_neq; lia].
    - rewrite (eqb_no d 45), (eqb_no d 43) by lia. auto. }
  destruct E as [-> ->]. pose proof (ul_digits_app ds 0 s H Hs) as U. change (fold_left (fun v b => 10 * v + (Z.of_N b - 48))%Z ds (Z.of_N 0)) with (value ds) in U.
  replace (2^64 <=? ul_digits 0 (ds ++ s)) with false by (symmetry; apply N.leb_gt; lia). lia.
Qed.
Lemma decimal_short : forall ds z, decimal ds z -> (z < 2^64)%Z -> (length ds < 120)%nat /\ ds <> [] /\ Forall digit ds.
Proof.
  intros ds z (H & <- & Hd) Hz. split; [|split; [destruct Hd as [->|(d & ds' & -> & _)]; discriminate|auto]].
  destruct Hd as [->|(d & ds' & -> & Hd)]; [cbn; lia|]. inversion H as [|? ? Hdig H']; subst. unfold digit in Hdig.
  change (d :: ds') with ([d] ++ ds') in Hz. rewrite value_app in Hz. pose proof (value_bound _ H') as B.
  change (value [d]) with (10 * 0 + (Z.of_N d - 48))%Z in Hz. cbn [length].
  destruct (Nat.lt_ge_cases (length ds') 20) as [L|L]; [lia|].
  assert (10 ^ 20 <= 10 ^ Z.of_nat (length ds'))%Z by (apply Z.pow_le_mono_r; lia).
  set (p := (10 ^ Z.of_nat (length ds'))%Z) in *. assert (1 * p <= (10 * 0 + (Z.of_N d - 48)) * p)%Z by (apply Z.mul_le_mono_nonneg_r; lia).
  change (10 ^ 20)%Z with 100000000000000000000%Z in *. lia.
Qed.

(** *** Writing *)
Section Write.
Variable cprintf : list N -> arg -> list N.
Hypothesis Hcp : prints_decimal cprintf.

Lemma sprintf_line : forall s, ~ In 0 s -> sprintf cprintf [37; 115; 10] [AStr (Some s)] = Ok (s ++ [10]).
Proof.
  intros s H. unfold sprintf. destruct (print_text cprintf [Str; Literal [10]] [AStr (Some s)] (s ++ [10] ++ []) []) as (cs & r & E).
  { apply (prs_piece _ _ _ _ [_] _ _ _ [] []); [constructor; auto|]. apply (prs_piece _ _ _ _ [] _ _ _ [] []); [constructor; repeat constructor; lia|constructor]. }
  change (render [Str; Literal [10]]) with [37; 115; 10] in E. rewrite E. reflexivity.
Qed.
Lemma sprintf_type : forall s, ~ In 0 s -> sprintf cprintf (type_name ++ [32; 37; 115; 10]) [AStr (Some s)] = Ok (type_name ++ 32 :: s ++ [10]).
Proof.
  intros s H. unfold sprintf. destruct (print_text cprintf [Literal (type_name ++ [32]); Str; Literal [10]] [AStr (Some s)] ((type_name ++ [32]) ++ s ++ [10] ++ []) []) as (cs & r & E).
  { apply (prs_piece _ _ _ _ [] _ _ _ [] []); [constructor; cbn; repeat constructor; lia|].
    apply (prs_piece _ _ _ _ [_] _ _ _ [] []); [constructor; auto|]. apply (prs_piece _ _ _ _ [] _ _ _ [] []); [constructor; repeat constructor; lia|constructor]. }
  change (render [Literal (type_name ++ [32]); Str; Literal [10]]) with (type_name ++ [32; 37; 115; 10]) in E. rewrite E. reflexivity.
Qed.
Lemma sprintf_length : forall z, (0 <= z < 2^64)%Z ->
  sprintf cprintf (length_name ++ [32; 37; 122; 117; 10]) [ALong z] = Ok (length_name ++ 32 :: cprintf [37; 122; 117] (ALong z) ++ [10]).
Proof.
  intros z H. unfold sprintf. destruct (decimal_short _ _ (Hcp z H)) as (L & _ & _); [lia|].
  destruct (print_text cprintf [Literal (length_name ++ [32]); Integer [122] 117; Literal [10]] [ALong z] ((length_name ++ [32]) ++ cprintf [37; 122; 117] (ALong z) ++ [10] ++ []) []) as (cs & r & E).
  { apply (prs_piece _ _ _ _ [] _ _ _ [] []); [constructor; cbn; repeat constructor; lia|].
    apply (prs_piece _ _ _ _ [_] _ _ _ [] []).
    { apply pr_long; [split; [cbn; lia|repeat constructor; cbn; intuition lia]|cbn; tauto|exists [], 122; cbn; tauto|auto]. }
    apply (prs_piece _ _ _ _ [] _ _ _ [] []); [constructor; repeat constructor; lia|constructor]. }
  change (render [Literal (length_name ++ [32]); Integer [122] 117; Literal [10]]) with (length_name ++ [32; 37; 122; 117; 10]) in E. rewrite E. reflexivity.
Qed.

(** The bytes of a segment. *)
Definition seg_bytes (ct ann data : list N) : list N :=
  (version ++ [10]) ++ (type_name ++ 32 :: ct ++ [10]) ++ (length_name ++ 32 :: cprintf [37; 122; 117] (ALong (Z.of_nat (length data))) ++ [10]) ++ [10] ++ ann ++ [10; 10] ++ data.
Lemma delivers_buffer : forall reg auto ct o data o', delivers reg auto ct o data o' ->
  buffer (if auto then match reg ct with Some c => enc c o | None => o end else o) = Some data.
Proof. intros reg auto ct o data o' [o0 d0 o1 [->|Hr] Hb _|c o0 d0 raw -> Hr Hb _ _]; auto. - rewrite Hr. destruct auto; auto. - rewrite Hr. auto. Qed.
Lemma delivers_received : forall reg auto ct o data o', delivers reg auto ct o data o' ->
  (if auto then match reg ct with Some c => dec c (if starts ct [116; 101; 120; 116] then Text data else Binary data)
                | None => Some (if starts ct [116; 101; 120; 116] then Text data else Binary data) end
   else Some (if starts ct [116; 101; 120; 116] then Text data else Binary data)) = Some o'.
Proof.
  assert (T : forall ct data o, of_type ct data o -> (if starts ct [116; 101; 120; 116] then Text data else Binary data) = o).
  { intros ct data o [[H ->]|[H ->]].
    - apply starts_iff in H. rewrite H. auto.
    - destruct (starts ct [116; 101; 120; 116]) eqn:E; auto. exfalso. apply H. apply starts_iff. auto. }
  intros reg auto ct o data o' [o0 d0 o1 Hr Hb Ht|c o0 d0 raw -> Hr Hb Ht Hd].
  - rewrite (T _ _ _ Ht). destruct Hr as [->|Hr]; auto. rewrite Hr. destruct auto; auto.
  - rewrite (T _ _ _ Ht), Hr. auto.
Qed.
Lemma write_seg : forall reg auto ct ann o data o', cstring ct -> note_ok ann -> delivers reg auto ct o data o' -> N.of_nat (length data) < 2^63 ->
  shell_write cprintf reg auto o ct ann = Ok (seg_bytes ct ann data, true).
Proof.
  intros reg auto ct ann o data o' [_ Hct] ((Hb & H0) & H10 & H13 & Hne) Hd Hl. unfold shell_write. rewrite until_nul_all by auto.
  replace (existsb (fun b => (b =? 13) || (b =? 10)) ann) with false.
  2:{ symmetry. apply not_true_is_false. intros X. apply existsb_exists in X. destruct X as (b & Hin & E). apply orb_true_iff in E. rewrite !N.eqb_eq in E. destruct E as [E|E]; subst b; auto. }
  rewrite (delivers_buffer _ _ _ _ _ _ Hd).
  rewrite sprintf_line by (cbn; intuition lia). rewrite sprintf_type by auto. rewrite sprintf_length by lia. cbn [obind].
  destruct ann as [|a0 an]; [congruence|]. set (ann := a0 :: an) in *. rewrite sprintf_line by auto. cbn [obind].
  unfold seg_bytes, putc. change [Z.to_N (10 mod 256)] with [10]. replace (Z.of_N (N.of_nat (length data))) with (Z.of_nat (length data)) by lia.
  do 2 f_equal. repeat (rewrite <- !app_assoc; cbn [app]). reflexivity.
Qed.

(** *** Reading *)
Lemma read_type : forall fuel ct s c0 n, type_ok ct ->
  read_headers (S fuel) ((type_name ++ 32 :: ct ++ [10]) ++ s) c0 n = read_headers fuel s (Some ct) n.
Proof.
  intros fuel ct s c0 n ((Hb & H0) & H10 & Hf). cbn [read_headers].
  replace ((type_name ++ 32 :: ct ++ [10]) ++ s) with ((type_name ++ 32 :: ct) ++ 10 :: s) by (rewrite <- !app_assoc; cbn; rewrite <- app_assoc; auto).
  rewrite gets_line.
  2:{ split; rewrite in_app_iff; intros [X|[X|X]]; try (cbn in X; intuition lia); auto. }
  replace (starts (type_name ++ 32 :: ct) type_name) with true by (symmetry; apply starts_iff; eauto).
  change (skipn 13 (type_name ++ 32 :: ct)) with (32 :: ct). rewrite header_value_skip.
  assert (V : header_value ct = Ok ct) by (destruct ct; [auto|destruct Hf; apply header_value_here; auto]). rewrite V. reflexivity.
Qed.
Lemma read_length : forall fuel ds s c0 n, Forall digit ds -> ds <> [] -> (value ds < 2^64)%Z ->
  read_headers (S fuel) ((length_name ++ 32 :: ds ++ [10]) ++ s) c0 n = read_headers fuel s c0 (Z.to_N (value ds)).
Proof.
  intros fuel ds s c0 n Hd Hne Hv. cbn [read_headers].
  assert (D : forall b, In b ds -> 48 <= b <= 57) by (apply Forall_forall; auto).
  replace ((length_name ++ 32 :: ds ++ [10]) ++ s) with ((length_name ++ 32 :: ds) ++ 10 :: s) by (rewrite <- !app_assoc; cbn; rewrite <- app_assoc; auto).
  rewrite gets_line.
  2:{ split; rewrite in_app_iff; intros [X|[X|X]]; try (cbn in X; intuition lia); try discriminate; apply D in X; lia. }
  replace (starts (length_name ++ 32 :: ds) type_name) with false by reflexivity.
  replace (starts (length_name ++ 32 :: ds) length_name) with true by (symmetry; apply starts_iff; eauto).
  change (skipn 15 (length_name ++ 32 :: ds)) with (32 :: ds). rewrite header_value_skip.
  assert (V : header_value ds = Ok ds).
  { destruct ds as [|d ds]; [congruence|]. assert (48 <= d <= 57) by (apply D; left; auto). apply header_value_here; [lia|unfold white; lia]. }
  rewrite V. cbn [obind]. pose proof (strtoul_plain ds [] Hd Hne Hv Logic.I) as U. rewrite app_nil_r in U. rewrite U. reflexivity.
Qed.
Lemma version_c : cstring version.
Proof. split; [repeat constructor|cbn; intuition lia]. Qed.

Theorem read_seg : forall reg auto ct ann o data o' rest, type_ok ct -> note_ok ann -> delivers reg auto ct o data o' -> data <> [] -> N.of_nat (length data) < 2^63 ->
  shell_read reg auto (seg_bytes ct ann data ++ rest) = Ok (mkR true (Some o') (Some ct) (Some ann), rest).
Proof.
  intros reg auto ct ann o data o' rest Hct Hann Hd Hne Hl.
  destruct (Hcp (Z.of_nat (length data)) ltac:(lia)) as (D1 & D2 & D3).
  destruct (decimal_short _ _ (Hcp (Z.of_nat (length data)) ltac:(lia)) ltac:(lia)) as (_ & D4 & _).
  unfold seg_bytes. set (ds := cprintf [37; 122; 117] (ALong (Z.of_nat (length data)))) in *.
  unfold shell_read. rewrite <- !(app_assoc _ _ rest). rewrite <- (app_assoc version [10]). cbn [app]. change (version ++ 10 :: ?x) with (version ++ 10 :: x).
  rewrite gets_line by (split; cbn; intuition lia).
  destruct (str_length_c version version_c) as (n & -> & Hn). cbn [obind].
  replace (n =? 0)%nat with false by (symmetry; apply not_true_is_false; intros X; apply Hn in X; discriminate).
  replace (bytes_eqb version version) with true by reflexivity. cbn [negb].
  match goal with |- context [read_headers (S (length ?l)) _] =>
    assert (K : (2 <= length l)%nat) by (rewrite app_length; cbn [type_name app length]; lia); destruct (length l) as [|[|k]]; [lia|lia|] end.
  rewrite read_type by auto. rewrite read_length by (auto; rewrite D2; lia). cbn [read_headers app].
  change (gets (10 :: ?x)) with (@nil N, x). cbn [obind]. rewrite D2.
  destruct Hann as ((Ab & A0) & A10 & A13 & Ane).
  rewrite gets_line by (split; auto).
  destruct (str_length_c ann (conj Ab A0)) as (m & -> & Hm). cbn [obind].
  assert (M : (0 <? m)%nat = true).
  { apply Nat.ltb_lt. destruct m; [|lia]. exfalso. apply Ane. apply Hm. auto. }
  rewrite M. cbn [getc]. change (negb (schar 10 =? 10)%Z) with false. cbn iota.
  replace (Z.to_N (Z.of_nat (length data))) with (N.of_nat (length data)) by lia.
  replace (N.of_nat (length data) =? 0) with false by (symmetry; apply N.eqb_neq; destruct data; [congruence|cbn; lia]).
  replace (2^63 <=? N.of_nat (length data)) with false by (symmetry; apply N.leb_gt; auto).
  rewrite Nat2N.id. rewrite firstn_app, Nat.sub_diag, firstn_all, skipn_app, Nat.sub_diag, skipn_all. cbn [firstn skipn app]. rewrite app_nil_r.
  rewrite N.ltb_irrefl. rewrite (delivers_received _ _ _ _ _ _ Hd). auto.
Qed.

Theorem round_trip : forall reg auto g, segment_ok reg auto g ->
  exists w, shell_write cprintf reg auto (sobj g) (stype g) (snote g) = Ok (w, true) /\
    forall rest, shell_read reg auto (w ++ rest) = Ok (expected g, rest).
Proof.
  intros reg auto g (H1 & H2 & H3 & H4 & H5). exists (seg_bytes (stype g) (snote g) (sdata g)). split.
  - eapply write_seg; eauto. apply H1.
  - intros rest. eapply read_seg; eauto.
Qed.
Theorem sequences : forall reg auto gs, Forall (segment_ok reg auto) gs ->
  exists w, writes_all cprintf reg auto gs w /\ reads_all reg auto w (map expected gs).
Proof.
  intros reg auto gs H. induction H as [|g gs Hg Hgs (ws & W & R)].
  - exists []. split; constructor; auto.
  - destruct (round_trip reg auto g Hg) as (w & E & Rd). exists (w ++ ws). split; [constructor; auto|].
    cbn [map]. eapply ra_next; [apply Rd|auto|auto].
Qed.
End Write.

(** *** Reading other streams *)
Definition ascii (s : list N) : Prop := Forall (fun b => 0 < b < 128) s.
Lemma gets_ascii : forall s, ascii s -> exists h r, gets s = (h, r) /\ ~ In 10 h /\ ascii h /\ ascii r /\ (s = h ++ 10 :: r \/ (s = h /\ r = [])).
Proof.
  intros s H. destruct (gets_consumes s) as (l & H1 & H2 & H3). destruct (gets s) as [h r]. cbn [fst snd] in *.
  assert (L : ascii l) by (destruct H3 as [->|[-> _]]; [apply Forall_app in H; tauto|auto]).
  assert (E : h = l).
  { rewrite H1. clear -L. induction L as [|b l Hb L IH]; auto. cbn [filter]. rewrite (eqb_no b 0) by lia. cbn [negb]. f_equal. auto. }
  clear H1. subst h. exists l, r. split; auto. split; auto. split; auto. split; [|auto].
  destruct H3 as [->|[_ ->]]; [|constructor]. apply Forall_app in H. destruct H as [_ H]. inversion H; auto.
Qed.
Lemma ascii_c : forall s, ascii s -> cstring s.
Proof. intros s H. apply (cstring_of (fun _ _ => [])). eapply Forall_impl; [|exact H]. cbn. intros; lia. Qed.
Lemma header_value_ascii : forall s, ascii s -> exists v, header_value s = Ok v.
Proof.
  induction 1 as [|b s Hb H (v & IH)]; [exists []; auto|]. cbn [header_value].
  unfold schar. replace (b <? 128) with true by (symmetry; apply N.ltb_lt; lia). unfold isspace.
  replace ((-1 <=? Z.of_N b) && (Z.of_N b <=? 255))%Z with true by (symmetry; apply andb_true_iff; split; apply Z.leb_le; lia). cbn [obind].
  destruct (((9 <=? Z.of_N b) && (Z.of_N b <=? 13)) || (Z.of_N b =? 32))%Z; eauto.
Qed.
Lemma header_value_blanks : forall ws s, Forall (fun x => x = 32 \/ x = 9) ws -> header_value (ws ++ s) = header_value s.
Proof. induction 1 as [|b ws [->| ->] H IH]; auto. Qed.
Lemma split_at : forall (a a' b b' : list N), ~ In 10 a -> ~ In 10 a' -> a ++ 10 :: b = a' ++ 10 :: b' -> a = a'.
Proof.
  induction a as [|x a IH]; intros [|y a'] b b' H H' E; auto.
  - injection E as <- _. exfalso. apply H'. left. auto.
  - injection E as -> _. exfalso. apply H. left. auto.
  - injection E as <- E. f_equal. eapply IH; eauto; intros X; [apply H|apply H']; right; auto.
Qed.
Lemma plain_length : forall ws ds, Forall (fun x => x = 32 \/ x = 9) ws -> Forall digit ds -> (length ds <= 18)%nat ->
  exists v, header_value (ws ++ ds) = Ok v /\ strtoul v < 2^63.
Proof.
  intros ws ds Hw Hd Hl. rewrite header_value_blanks by auto. destruct ds as [|d ds]; [exists []; split; [auto|reflexivity]|].
  inversion Hd as [|? ? Hd1 _]; subst. unfold digit in Hd1. exists (d :: ds). split; [apply header_value_here; [lia|unfold white; lia]|].
  pose proof (value_bound _ Hd) as B. assert (10 ^ Z.of_nat (length (d :: ds)) <= 10 ^ 18)%Z by (apply Z.pow_le_mono_r; lia).
  change (10 ^ 18)%Z with 1000000000000000000%Z in *.
  pose proof (strtoul_plain (d :: ds) [] Hd ltac:(discriminate) ltac:(lia) Logic.I) as U. rewrite app_nil_r in U. rewrite U. lia.
Qed.
Lemma plain_tail : forall h r, lengths_plain (h ++ 10 :: r) -> lengths_plain r.
Proof. intros h r H a b E. apply (H (h ++ 10 :: a) b). rewrite E. rewrite <- app_assoc. auto. Qed.
Lemma plain_header : forall v s r, ~ In 10 v -> lengths_plain s -> (s = (length_name ++ v) ++ 10 :: r \/ s = length_name ++ v) ->
  exists ws ds, v = ws ++ ds /\ Forall (fun x => x = 32 \/ x = 9) ws /\ Forall digit ds /\ (length ds <= 18)%nat.
Proof.
  intros v s r Hv Hp E.
  assert (X : forall ws ds, Forall (fun x => x = 32 \/ x = 9) ws -> Forall digit ds -> ~ In 10 (ws ++ ds)).
  { intros ws ds H1 H2 Hin. apply in_app_iff in Hin. rewrite Forall_forall in H1, H2. destruct Hin as [Hin|Hin]; [apply H1 in Hin; lia|apply H2 in Hin; unfold digit in Hin; lia]. }
  destruct E as [->| ->].
  - destruct (Hp [] (v ++ 10 :: r)) as (ws & ds & c & E & Hw & Hd & Hl & Hc); [rewrite <- app_assoc; auto|].
    exists ws, ds. split; [|auto]. rewrite app_assoc in E. destruct Hc as [->|[c' ->]].
    + exfalso. apply (X ws ds Hw Hd). rewrite app_nil_r in E. rewrite <- E. apply in_app_iff. right. left. auto.
    + eapply split_at; [exact Hv|apply (X ws ds Hw Hd)|exact E].
  - destruct (Hp [] v eq_refl) as (ws & ds & c & E & Hw & Hd & Hl & Hc). exists ws, ds. split; [|auto].
    destruct Hc as [->|[c' ->]]; [rewrite app_nil_r in E; auto|]. exfalso. apply Hv. rewrite E. rewrite !in_app_iff. right. right. left. auto.
Qed.
Lemma read_headers_total : forall fuel s ct len, ascii s -> lengths_plain s -> len < 2^63 -> (length s < fuel)%nat ->
  exists ct' len' r, read_headers fuel s ct len = Ok (ct', len', r) /\ len' < 2^63 /\ ascii r.
Proof.
  induction fuel as [|fuel IH]; intros s ct len Ha Hp Hlen Hf; [lia|]. cbn [read_headers].
  destruct (gets_ascii s Ha) as (h & r & E & Hn & Hh & Hr & Hs). rewrite E.
  destruct h as [|b h']; [exists ct, len, r; auto|]. set (h := b :: h') in *.
  assert (Hpr : lengths_plain r).
  { destruct Hs as [->|[_ ->]]; [eapply plain_tail; eauto|]. intros a b0 X. symmetry in X. apply app_eq_nil in X. destruct X as [_ X]. discriminate. }
  assert (Hfr : (length r < fuel)%nat).
  { destruct Hs as [->|[-> ->]]; [rewrite app_length in Hf; unfold h in Hf; cbn [length] in Hf; lia|unfold h in Hf; cbn [length] in *; lia]. }
  destruct (starts h type_name).
  { destruct (header_value_ascii (skipn 13 h)) as [v ->]; [rewrite <- (firstn_skipn 13 h) in Hh; apply Forall_app in Hh; tauto|]. cbn [obind]. apply IH; auto. }
  destruct (starts h length_name) eqn:Sl.
  { apply starts_iff in Sl. destruct Sl as [v Ev]. assert (Hnv : ~ In 10 v) by (intros X; apply Hn; rewrite Ev; apply in_app_iff; auto).
    destruct (plain_header v s r Hnv Hp) as (ws & ds & Ew & Hw & Hd & Hl); [rewrite <- Ev; tauto|].
    destruct (plain_length ws ds Hw Hd Hl) as (u & Eu & Hu).
    replace (skipn 15 h) with v by (rewrite Ev; reflexivity). rewrite Ew, Eu. cbn [obind]. apply IH; auto. }
  apply IH; auto.
Qed.
Theorem read_total : forall reg auto s, ascii s -> lengths_plain s -> exists r rest, shell_read reg auto s = Ok (r, rest).
Proof.
  intros reg auto s Ha Hp. unfold shell_read. destruct (gets_ascii s Ha) as (h & r & E & Hn & Hh & Hr & Hs). rewrite E.
  destruct (str_length_c h (ascii_c _ Hh)) as (n & -> & _). cbn [obind].
  destruct (n =? 0)%nat; [eauto|]. destruct (negb (bytes_eqb h version)); [eauto|].
  assert (Hpr : lengths_plain r).
  { destruct Hs as [->|[_ ->]]; [eapply plain_tail; eauto|]. intros a b0 X. symmetry in X. apply app_eq_nil in X. destruct X as [_ X]. discriminate. }
  destruct (read_headers_total (S (length r)) r None 0 Hr Hpr ltac:(lia) ltac:(lia)) as (ct & len & r' & -> & Hlen & Hr'). cbn [obind].
  destruct (gets_ascii r' Hr') as (a & r2 & E2 & _ & Ha2 & _). rewrite E2.
  destruct (str_length_c a (ascii_c _ Ha2)) as (m & -> & _). cbn [obind].
  match goal with |- context [let '(bad, r) := ?x in _] => destruct x as [bad r3] end.
  destruct bad; [eauto|]. destruct (len =? 0); [eauto|]. replace (2^63 <=? len) with false by (symmetry; apply N.leb_gt; auto).
  match goal with |- context [if ?x <? len then _ else _] => destruct (x <? len) end; eauto.
Qed.

(** A C library that prints decimals. *)
Definition decimal_printf (f : list N) (a : arg) : list N := match a with ALong z => print_int z | _ => [] end.
Lemma decimal_printf_ok : prints_decimal decimal_printf.
Proof.
  intros z Hz. unfold decimal_printf, print_int. replace (z <? 0)%Z with false by (symmetry; apply Z.ltb_ge; lia).
  destruct (print_ok 20 (Z.to_N z) []) as (ds & E & D & V & F); [change (N.of_nat 20) with 20; change (10 ^ 20) with 100000000000000000000; lia|lia|].
  rewrite E, app_nil_r. split; [auto|]. split; [lia|auto].
Qed.
