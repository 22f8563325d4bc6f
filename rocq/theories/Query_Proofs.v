(** Proofs about query parameters and CSS styles. *)
Require Import Coq.ZArith.ZArith Coq.NArith.NArith Coq.Lists.List Coq.Bool.Bool Coq.Arith.Arith Coq.micromega.Lia.
Require Import Coq.micromega.ZifyN Coq.micromega.ZifyNat.
Require Import Verif.Base Verif.Utf8_Model Verif.Utf8_Spec Verif.Utf8_Proofs Verif.Utf8_Strings Verif.String_Model Verif.String_Spec Verif.String_Proofs Verif.String_Lists Verif.String_Escape.
Require Import Verif.Query_Model Verif.Query_Spec.
Import ListNotations.
Local Open Scope N_scope.
Local Opaque early late url_patterns.

(** ** Splitting at a character *)
Lemma split_chars : forall ch comps, 0 < ch < 128 -> Forall ascii comps -> Forall (fun c => c <> [] /\ ~ In ch c) comps -> split (join [ch] comps) [ch] = Ok comps.
Proof.
  intros ch comps Hc Ha Hs. assert (A : ascii [ch]) by (constructor; [exact Hc|constructor]).
  assert (Em : map encode comps = comps) by (clear Hs; induction Ha as [|c l H _ IH]; [reflexivity|cbn [map]; now rewrite ascii_encode, IH]).
  pose proof (split_join [ch] comps) as X. rewrite combine_join, ascii_encode, Em in X by exact A. apply X; [now apply ascii_text|discriminate| |].
  - eapply Forall_impl; [|exact Ha]. intros c. apply ascii_text.
  - eapply Forall_impl; [|exact Hs]. intros c [H1 H2]. now apply separable_char.
Qed.
Lemma split_text : forall ch comps, 0 < ch < 128 -> Forall text comps -> Forall (fun c => c <> [] /\ ~ In ch c) comps -> split (encode (join [ch] comps)) [ch] = Ok (map encode comps).
Proof.
  intros ch comps Hc Ha Hs. assert (A : ascii [ch]) by (constructor; [exact Hc|constructor]).
  pose proof (split_join [ch] comps) as X. rewrite combine_join, <- encode_join, (ascii_encode [ch]) in X by exact A. apply X; auto; [now apply ascii_text|discriminate|].
  eapply Forall_impl; [|exact Hs]. intros c [H1 H2]. now apply separable_char.
Qed.
Lemma split_after : forall ch comps l, Forall (fun c => c <> [] /\ ~ In ch c) comps -> split_into [ch] (flat_map (fun c => c ++ [ch]) comps) l -> l = comps.
Proof.
  intros ch. induction comps as [|c comps IH]; intros l Hs H.
  - cbn [flat_map] in H. inversion H; try reflexivity; try congruence; try discriminate; match goal with E : _ ++ _ = [] |- _ => apply app_eq_nil in E; destruct E as [_ E]; discriminate E end.
  - inversion Hs as [|? ? [H1 H2] H3]; subst. cbn [flat_map] in H. rewrite <- app_assoc in H. remember (c ++ [ch] ++ flat_map (fun c => c ++ [ch]) comps) as J eqn:EJ.
    destruct H as [|cs A B|post|pre post l' A B C].
    + destruct c; [congruence|discriminate].
    + exfalso. apply (B (length c)). rewrite EJ. exists c. eauto.
    + exfalso. destruct c as [|x c]; [congruence|]. injection EJ as -> _. apply H2. now left.
    + destruct B as (_ & _ & B).
      assert (Q : ~ In ch pre). { intros F. apply in_split in F. destruct F as (p1 & p2 & ->). apply (B (length p1)); [rewrite app_length; cbn; lia|]. exists p1. eexists. split; [|reflexivity]. rewrite <- app_assoc. reflexivity. }
      assert (E : length pre = length c).
      { destruct (lt_eq_lt_dec (length pre) (length c)) as [[L|L]|L]; [|exact L|]; exfalso.
        - apply H2. assert (F : nth_error c (length pre) = Some ch). { rewrite <- (nth_error_app1 c ([ch] ++ flat_map (fun c => c ++ [ch]) comps)) by exact L. rewrite <- EJ, nth_error_app2, Nat.sub_diag by lia. reflexivity. } eapply nth_error_In; eauto.
        - apply Q. assert (F : nth_error pre (length c) = Some ch). { rewrite <- (nth_error_app1 pre ([ch] ++ post)) by exact L. rewrite EJ, nth_error_app2, Nat.sub_diag by lia. reflexivity. } eapply nth_error_In; eauto. }
      apply app_same_length in EJ; auto. destruct EJ as [-> E']. injection E' as ->. f_equal. now apply IH.
Qed.
Lemma split_trailing : forall ch comps, 0 < ch < 128 -> Forall text comps -> Forall (fun c => c <> [] /\ ~ In ch c) comps -> split (encode (flat_map (fun c => c ++ [ch]) comps)) [ch] = Ok (map encode comps).
Proof.
  intros ch comps Hc Ha Hs. assert (A : ascii [ch]) by (constructor; [exact Hc|constructor]).
  assert (T : text (flat_map (fun c => c ++ [ch]) comps)). { clear Hs. induction Ha as [|c l H _ IH]; [constructor|]. cbn [flat_map]. apply text_app. split; [apply text_app; split; [exact H|now apply ascii_text]|exact IH]. }
  destruct (split_ok _ [ch] T (ascii_text _ A)) as (l & E & S); [discriminate|]. rewrite (ascii_encode [ch] A) in E. rewrite E. f_equal. f_equal. now apply (split_after ch).
Qed.

(** ** Escapes *)
Lemma early_shape : forall p, In p early -> exists k x y, p = (encode [k], [37; x; y]) /\ text [k] /\ ascii [37; x; y].
Proof.
  intros p Hp. pose proof early_all_ok as E. rewrite Forall_forall in E. destruct (E p Hp) as [(k & x & y & -> & _ & Hk & Hx & Hy)|(k & x & y & -> & -> & Hx & Hy)].
  - exists k, x, y. split; [rewrite ascii_encode; [reflexivity|constructor; [exact Hk|constructor]]|]. split; [apply ascii_text; constructor; [exact Hk|constructor]|]. unfold hex in *. repeat constructor; lia.
  - exists 8220, x, y. split; [reflexivity|]. split; [constructor; [unfold char_ok, scalar; lia|constructor]|]. unfold hex in *. repeat constructor; lia.
Qed.
Lemma late_shape : forall p, In p late -> exists k x y, p = (encode [k], [37; x; y]) /\ text [k] /\ ascii [37; x; y].
Proof.
  intros p Hp. pose proof late_all_ok as E. rewrite Forall_forall in E. destruct (E p Hp) as [(k & x & y & -> & Hk & _ & _ & Hx & Hy)| ->].
  - exists k, x, y. split; [rewrite ascii_encode; [reflexivity|constructor; [exact Hk|constructor]]|]. split; [apply ascii_text; constructor; [exact Hk|constructor]|]. unfold hex in *. repeat constructor; lia.
  - exists 8216, 50, 55. split; [reflexivity|]. split; [constructor; [unfold char_ok, scalar; lia|constructor]|]. repeat constructor; lia.
Qed.
(** Without a percent sign nothing is removed. *)
Lemma remove_plain : forall fuel s, (0 < fuel)%nat -> ascii s -> ~ In 37 s -> fits (length s) -> remove_escapes fuel s = Ok s.
Proof.
  intros fuel s Hf Ha Hn Hs. unfold remove_escapes. apply unescape_noop; auto. apply Forall_forall. intros p Hp.
  assert (X : exists k x y, p = (encode [k], [37; x; y]) /\ text [k] /\ ascii [37; x; y]) by (rewrite patterns_split in Hp; apply in_app_or in Hp; destruct Hp as [H|H]; [exact (early_shape p H)|exact (late_shape p H)]).
  destruct X as (k & x & y & -> & Tk & Ay). exists [37; x; y], [k]. cbn [fst snd]. split; [now rewrite ascii_encode|]. split; [reflexivity|]. split; [now apply ascii_text|]. split; [exact Tk|]. split; [discriminate|].
  intros i (pre & post & E & _). apply Hn. rewrite E. apply in_app_iff. right. now left.
Qed.
Definition clean (l : bytes) : bool := forallb (fun b => (0 <? b) && (b <? 128) && negb (b =? 38) && negb (b =? 61)) l && match l with [] => false | _ => true end.
Lemma char_clean : forall c, plainly c -> clean (out (fold_left estep late (plain c))) = true.
Proof.
  intros c Hc. pose proof (plainly_not c Hc) as Q. destruct Hc as [H _]. assert (A : forallb (fun c => (c =? 0) || excluded c || clean (out (fold_left estep late (plain c)))) (map N.of_nat (seq 0 128)) = true) by (vm_compute; reflexivity).
  rewrite forallb_forall in A. specialize (A c). rewrite Q, orb_false_r in A. assert (E : (c =? 0) = false) by (apply N.eqb_neq; lia). rewrite E in A. apply A. apply in_map_iff. exists (N.to_nat c). split; [lia|]. apply in_seq. lia.
Qed.
Lemma escape_shape : forall cs, Forall plainly cs -> fits (length cs * 12) ->
  exists esc, (forall fuel, (3 * length cs < fuel)%nat -> add_escapes fuel cs = Ok esc) /\
    (forall fuel, (3 * length cs < fuel)%nat -> remove_escapes fuel esc = Ok cs) /\ ascii esc /\ ~ In 38 esc /\ ~ In 61 esc /\ (cs <> [] -> esc <> []).
Proof.
  intros cs H Hf. destruct (percent_round_trip cs H Hf) as (esc & A & B). exists esc. split; [exact A|]. split; [exact B|].
  assert (E : esc = flat (map (fun i => fold_left estep late i) (map plain cs))).
  { assert (Hio : Forall item_ok (map plain cs)). { apply Forall_map. eapply Forall_impl; [|exact H]. intros c Hc. pose proof (plainly_not c Hc) as Q. destruct Hc as [Hc _]. split; auto. intros ->. discriminate. }
    assert (Hhx : Forall hexed (map plain cs)) by (apply Forall_map; apply Forall_forall; cbn; auto).
    assert (Ha : ascii cs) by (eapply Forall_impl; [|exact H]; intros c [Hc _]; auto).
    specialize (A (S (3 * length cs)) ltac:(lia)). unfold add_escapes in A. rewrite patterns_split, escape_app in A. rewrite (escape_noop _ cs early Ha) in A; [cbn [obind] in A|unfold fits in *; lia|lia|].
    - pose proof (escape_late (S (3 * length cs)) late late_all_ok (map plain cs) Hio Hhx) as X. rewrite map_length, flat_plain in X. destruct X as [X _]; [exact Hf|lia|]. rewrite X in A. now injection A.
    - eapply Forall_impl; [|exact early_all_ok]. intros p [(k & x & y & -> & Ek & Hk & Hx & Hy)|(k & x & y & -> & -> & Hx & Hy)]; cbn [fst snd].
      + exists [k], [37; x; y]. assert (A1 : ascii [k]) by (constructor; [auto|constructor]). assert (A2 : ascii [37; x; y]) by (unfold hex in *; repeat constructor; lia).
        rewrite !ascii_encode by auto. repeat split; auto using ascii_text; [congruence|]. apply absent_char. intros F. rewrite Forall_forall in H. apply H in F. apply plainly_not in F. congruence.
      + exists [8220], [37; x; y]. assert (A2 : ascii [37; x; y]) by (unfold hex in *; repeat constructor; lia).
        rewrite (ascii_encode [37; x; y]) by auto. split; auto. split; auto. split; [constructor; [unfold char_ok, scalar; lia|constructor]|]. split; [apply ascii_text; auto|]. split; [congruence|].
        apply absent_wide; auto. lia. }
  assert (C : forall b, In b esc -> 0 < b < 128 /\ b <> 38 /\ b <> 61).
  { intros b Hb. rewrite E in Hb. unfold flat in Hb. rewrite in_flat_map in Hb. destruct Hb as (i & Hi & Hb). rewrite map_map in Hi. apply in_map_iff in Hi. destruct Hi as (c & <- & Hc). rewrite Forall_forall in H. pose proof (char_clean c (H c Hc)) as X. unfold clean in X. apply andb_true_iff in X. destruct X as [X _]. rewrite forallb_forall in X. apply X in Hb. rewrite !andb_true_iff, !negb_true_iff, !N.eqb_neq, !N.ltb_lt in Hb. tauto. }
  split; [apply Forall_forall; intros b Hb; apply C; exact Hb|]. split; [intros F; apply C in F; tauto|]. split; [intros F; apply C in F; tauto|].
  destruct cs as [|c cs]; [congruence|]. intros _ F. rewrite E in F. unfold flat in F. cbn [map flat_map] in F. apply app_eq_nil in F. destruct F as [F _]. inversion H; subst. pose proof (char_clean c H2) as X. rewrite F in X. discriminate X.
Qed.

(** ** Queries *)
Local Opaque remove_escapes add_escapes.
Lemma pair_ok : forall fuel e e', (forall s, In s (strings e') -> ascii s /\ s <> [] /\ ~ In 61 s) ->
  remove_escapes fuel (fst e') = Ok (fst e) -> match snd e', snd e with None, None => True | Some a, Some b => remove_escapes fuel a = Ok b | _, _ => False end -> query_pair fuel (parameter e') = Ok e.
Proof.
  intros fuel [k v] [k' v'] Hs Hk Hv. unfold query_pair, parameter. cbn [fst snd] in *. destruct v' as [v'|], v as [v|]; try contradiction.
  - change (k' ++ [61] ++ v') with (join [61] [k'; v']). rewrite split_chars; [|lia| |].
    + cbn [obind]. rewrite Hk. cbn [obind]. rewrite Hv. cbn [obind]. reflexivity.
    + apply Forall_forall. intros s Hi. apply Hs. cbn in *. tauto.
    + apply Forall_forall. intros s Hi. apply Hs. cbn in *. tauto.
  - change k' with (join [61] [k']) at 1. rewrite split_chars; [|lia| |].
    + cbn [obind]. rewrite Hk. cbn [obind]. reflexivity.
    + apply Forall_forall. intros s Hi. apply Hs. cbn in *. tauto.
    + apply Forall_forall. intros s Hi. apply Hs. cbn in *. tauto.
Qed.
Definition reads (fuel : nat) (e' e : bytes * option bytes) : Prop :=
  (forall s, In s (strings e') -> ascii s /\ s <> [] /\ ~ In 61 s /\ ~ In 38 s) /\
  remove_escapes fuel (fst e') = Ok (fst e) /\ match snd e', snd e with None, None => True | Some a, Some b => remove_escapes fuel a = Ok b | _, _ => False end.
Lemma parameter_ok : forall fuel e' e, reads fuel e' e -> ascii (parameter e') /\ parameter e' <> [] /\ ~ In 38 (parameter e').
Proof.
  intros fuel [k' v'] e (Hs & _). unfold parameter. cbn [fst snd] in *. destruct (Hs k') as (A1 & A2 & A3 & A4); [now left|]. destruct v' as [v'|]; [|auto]. destruct (Hs v') as (B1 & B2 & B3 & B4); [right; now left|].
  split; [apply ascii_app; split; [exact A1|]; constructor; [lia|exact B1]|]. split; [destruct k'; [congruence|discriminate]|]. rewrite in_app_iff. cbn. intros [X|[X|X]]; [tauto|lia|tauto].
Qed.
Lemma split_ok_query : forall fuel es' es, es <> [] -> Forall2 (reads fuel) es' es -> split_query fuel (query es') = Ok (Some es).
Proof.
  intros fuel es' es Hn H. assert (Hq : query es' <> []). { destruct H as [|e' e es' es R H]; [congruence|]. destruct (parameter_ok _ _ _ R) as (_ & X & _). unfold query. cbn [map]. destruct (map parameter es') as [|y l]; [exact X|]. rewrite join_cons by discriminate. intros F. apply app_eq_nil in F. tauto. }
  unfold split_query. destruct (query es') as [|b q] eqn:Eq; [congruence|]. rewrite <- Eq. clear Hq Hn b q Eq. unfold query. rewrite split_chars; [|lia| |].
  - cbn [obind]. assert (E : query_pairs fuel (map parameter es') = Ok es); [|now rewrite E]. induction H as [|e' e es' es R H IH]; [reflexivity|]. cbn [map query_pairs]. destruct R as (R1 & R2 & R3). rewrite (pair_ok fuel e e'); auto; [cbn [obind]; now rewrite IH|]. intros s Hs. destruct (R1 s Hs) as (? & ? & ? & ?). auto.
  - apply Forall_map. clear -H. induction H as [|e' e es' es R H IH]; constructor; auto. exact (proj1 (parameter_ok _ _ _ R)).
  - apply Forall_map. clear -H. induction H as [|e' e es' es R H IH]; constructor; auto. exact (proj2 (parameter_ok _ _ _ R)).
Qed.
Theorem read_query : forall fuel es, (0 < fuel)%nat -> es <> [] -> Forall (fun e => Forall (fun s => simple s /\ fits (length s)) (strings e)) es -> split_query fuel (query es) = Ok (Some es).
Proof.
  intros fuel es Hf Hn H. apply split_ok_query; [exact Hn|]. clear Hn. induction H as [|[k v] es He _ IH]; constructor; [|exact IH]. rewrite Forall_forall in He.
  assert (R : forall s, In s (strings (k, v)) -> remove_escapes fuel s = Ok s) by (intros s Hs; destruct (He s Hs) as ((A & B & C & _) & D); now apply remove_plain).
  split; [intros s Hs; destruct (He s Hs) as ((A & B & C & D & E) & _); auto|]. split; [apply R; now left|]. cbn [fst snd]. destruct v; [|exact I]. apply R. right. now left.
Qed.
Lemma combine_loop_ok : forall fuel es es', Forall2 (fun e e' => add_escapes fuel (fst e) = Ok (fst e') /\ fst e' <> [] /\ match snd e, snd e' with None, None => True | Some a, Some b => add_escapes fuel a = Ok b | _, _ => False end) es es' ->
  forall str, combine_query_loop fuel es str = Ok (match str, es' with [], _ => query es' | _, [] => str | _, _ => str ++ [38] ++ query es' end).
Proof.
  intros fuel es es' H. induction H as [|[k v] [k' v'] es es' (Hk & Hn & Hv) H IH]; intros str; [destruct str; reflexivity|]. cbn [combine_query_loop fst snd] in *. rewrite Hk. cbn [obind].
  assert (Q : query ((k', v') :: es') = match es' with [] => parameter (k', v') | _ => parameter (k', v') ++ [38] ++ query es' end) by (unfold query; cbn [map]; destruct es'; reflexivity).
  destruct v as [v|], v' as [v'|]; try contradiction; [rewrite Hv; cbn [obind]|]; rewrite IH, Q; unfold parameter; cbn [fst snd]; (destruct str as [|c str]; [destruct k' as [|c k']; [congruence|]|]); destruct es'; cbn [app]; rewrite <- ?app_assoc; cbn [app]; rewrite <- ?app_assoc; reflexivity.
Qed.
Theorem round_trip : forall es B, es <> [] -> fits (B * 12) -> Forall (fun e => Forall (fun s => escapable s /\ (length s <= B)%nat) (strings e)) es ->
  exists s, forall fuel, (3 * B < fuel)%nat -> combine_query fuel (Some es) = Ok s /\ split_query fuel s = Ok (Some es).
Proof.
  intros es B Hn HB H.
  assert (X : exists es', forall fuel, (3 * B < fuel)%nat ->
    Forall2 (fun e e' => add_escapes fuel (fst e) = Ok (fst e') /\ fst e' <> [] /\ match snd e, snd e' with None, None => True | Some a, Some b => add_escapes fuel a = Ok b | _, _ => False end) es es' /\ Forall2 (reads fuel) es' es).
  { clear Hn. induction H as [|[k v] es He _ (es' & IH)]; [exists []; intros; split; constructor|]. rewrite Forall_forall in He.
    assert (P : forall s, In s (strings (k, v)) -> exists esc, (forall fuel, (3 * B < fuel)%nat -> add_escapes fuel s = Ok esc /\ remove_escapes fuel esc = Ok s) /\ ascii esc /\ esc <> [] /\ ~ In 61 esc /\ ~ In 38 esc).
    { intros s Hs. destruct (He s Hs) as ((A1 & A2) & A3). destruct (escape_shape s A2) as (esc & E1 & E2 & E3 & E4 & E5 & E6); [unfold fits in *; lia|]. exists esc. split; [intros fuel Hf; split; [apply E1|apply E2]; lia|]. auto. }
    destruct (P k) as (k' & K1 & K2 & K3 & K4 & K5); [now left|]. destruct v as [v|].
    - destruct (P v) as (v' & V1 & V2 & V3 & V4 & V5); [right; now left|]. exists ((k', Some v') :: es'). intros fuel Hf. destruct (IH fuel Hf) as [I1 I2]. destruct (K1 fuel Hf), (V1 fuel Hf). split; constructor; [cbn [fst snd]; auto|exact I1| |exact I2].
      split; [intros s [<-|[<-|[]]]; auto|cbn [fst snd]; auto].
    - exists ((k', None) :: es'). intros fuel Hf. destruct (IH fuel Hf) as [I1 I2]. destruct (K1 fuel Hf). split; constructor; [cbn [fst snd]; auto|exact I1| |exact I2]. split; [intros s [<-|[]]; auto|cbn [fst snd]; auto]. }
  destruct X as (es' & X). exists (query es'). intros fuel Hf. destruct (X fuel Hf) as [X1 X2]. split; [|now apply split_ok_query]. cbn [combine_query]. rewrite (combine_loop_ok _ _ _ X1). reflexivity.
Qed.

(** ** Styles *)
Section Styles.
Variable isspace : Z -> outcome bool.
Variable space : N -> bool.
Lemma piece_text : forall p, piece_ok p -> text (written p) /\ written p <> [] /\ ~ In 59 (written p).
Proof.
  intros [k v|c]; cbn; [|tauto]. intros (A & B & C & D & E & F & G & H). split; [|split].
  - apply text_app. split; [exact A|]. constructor; [unfold char_ok, scalar; lia|exact B].
  - intros X. apply app_eq_nil in X. tauto.
  - rewrite in_app_iff. cbn. intros [X|[X|X]]; [tauto|lia|tauto].
Qed.
Lemma pairs_ok : forall ps, Forall piece_ok ps -> (forall p c, In p ps -> In c (written p) -> isspace (Z.of_N c) = Ok (space c)) ->
  exists es, style_pairs isspace (map encode (map written ps)) = Ok (map (fun e => (encode (fst e), encode (snd e))) es) /\ declared space ps es.
Proof.
  intros ps H. induction H as [|p ps Hp _ IH]; intros Ha; [exists []; split; [reflexivity|constructor]|]. destruct IH as (es & E & D); [intros q c Hq; apply Ha; now right|]. cbn [map style_pairs].
  assert (Hw : forall c, In c (written p) -> isspace (Z.of_N c) = Ok (space c)) by (intros c; apply Ha; now left). unfold style_pair. destruct p as [k v|c]; cbn [written piece_ok] in *.
  - destruct Hp as (Tk & Tv & Nk & Nv & Ck & Cv & _). change (k ++ [58] ++ v) with (join [58] [k; v]). rewrite split_text; [|lia|repeat constructor; auto|repeat constructor; auto]. cbn [obind map].
    destruct (trim_ok isspace space k Tk) as (k' & Ek & Rk); [intros c Hc; apply Hw; apply in_app_iff; auto|]. destruct (trim_ok isspace space v Tv) as (v' & Ev & Rv); [intros c Hc; apply Hw; apply in_app_iff; right; now right|].
    rewrite Ek. cbn [obind]. rewrite Ev. cbn [obind]. rewrite E. cbn [obind]. exists ((k', v') :: es). split; [reflexivity|now constructor].
  - destruct Hp as (Tc & Nc & Cc & _). change c with (join [58] [c]) at 1. rewrite split_text; [|lia|repeat constructor; auto|repeat constructor; auto]. cbn [obind map]. rewrite E. cbn [obind]. exists es. split; [reflexivity|now constructor].
Qed.
Theorem read_styles : forall ps s, ps <> [] -> Forall piece_ok ps -> style_text ps s -> (forall c, In c s -> isspace (Z.of_N c) = Ok (space c)) ->
  exists es, split_styles isspace (encode s) = Ok (Some (map (fun e => (encode (fst e), encode (snd e))) es)) /\ declared space ps es.
Proof.
  intros ps s Hn H S Ha.
  assert (Tx : Forall text (map written ps)) by (apply Forall_map; eapply Forall_impl; [|exact H]; intros p Hp; apply (piece_text p Hp)).
  assert (Sp : Forall (fun c => c <> [] /\ ~ In 59 c) (map written ps)) by (apply Forall_map; eapply Forall_impl; [|exact H]; intros p Hp; split; apply (piece_text p Hp)).
  assert (X : split (encode s) [59] = Ok (map encode (map written ps))).
  { destruct S; [apply split_text; auto; lia|]. rewrite <- split_trailing with (ch := 59); auto; [|lia]. f_equal. f_equal. clear. induction ps as [|p ps IH]; [reflexivity|]. cbn [flat_map map]. now rewrite IH. }
  assert (I : forall p c, In p ps -> In c (written p) -> In c s).
  { intros p c Hp Hc. destruct S.
    - clear -Hp Hc. induction ps as [|q ps IH]; [destruct Hp|]. cbn [map]. destruct ps as [|q' ps]; [destruct Hp as [->|[]]; exact Hc|]. cbn [map]. rewrite join_cons by discriminate. apply in_app_iff. destruct Hp as [->|Hp]; [now left|]. right. right. now apply IH.
    - apply in_flat_map. exists p. split; [exact Hp|]. apply in_app_iff. now left. }
  destruct (pairs_ok ps H) as (es & E & D); [intros p c Hp Hc; apply Ha; now apply (I p)|]. exists es. split; [|exact D].
  assert (Ns : encode s <> []). { destruct ps as [|p ps]; [congruence|]. inversion H; subst. destruct (piece_text p) as (_ & Np & _); [assumption|]. destruct (written p) as [|c w] eqn:Ew; [congruence|]. assert (Is : In c s) by (apply (I p); [now left|rewrite Ew; now left]). destruct s as [|b s]; [destruct Is|]. rewrite encode_cons. pose proof (encode_length [b]) as L. rewrite encode_cons in L. intros F. apply app_eq_nil in F. destruct F as [F _]. rewrite F in L. cbn in L. lia. }
  unfold split_styles. destruct (encode s) as [|b q] eqn:Es; [congruence|]. rewrite X. cbn [obind]. now rewrite E.
Qed.
End Styles.

(** ** Cases *)
Local Transparent remove_escapes add_escapes early late url_patterns.
Lemma quotes : exists v, split_query 20 [113; 61; 37; 50; 50; 120; 37; 50; 50] = Ok (Some [([113], Some v)]) /\ forall cs, text cs -> v <> encode cs.
Proof.
  exists [226; 128; 226; 128; 156; 50; 50]. split; [vm_compute; reflexivity|]. intros cs' H F. pose proof (scans_encode cs' H) as Q. rewrite <- F in Q.
  assert (E : u8_next ([226; 128; 226; 128; 156; 50; 50] ++ 0 :: [0]) = Ok ((-1)%Z, 2%nat)) by (vm_compute; reflexivity).
  inversion Q as [G|s z n zs Hc Hne E' Hn Hs E1 E2]. subst s. specialize (E' [0]). rewrite E in E'. inversion E' as [[E3 E4]].
  destruct cs' as [|c cs']; [discriminate|]. cbn [map] in E2. inversion E2. lia.
Qed.
Lemma query_case : Forall (fun e => Forall (fun s => escapable s /\ (length s <= 5)%nat) (strings e)) [([107], Some [97; 38; 98; 47; 99]); ([108], None)].
Proof.
  assert (K : forall s, forallb (fun c => (0 <? c) && (c <? 128) && negb (existsb (N.eqb c) [61; 62; 63; 64; 125; 123; 124; 126; 91; 92; 32; 93; 94; 35; 36; 37])) s = true -> s <> [] -> escapable s).
  { intros s H Hn. split; [exact Hn|]. apply Forall_forall. intros c Hc. rewrite forallb_forall in H. apply H in Hc. rewrite !andb_true_iff, negb_true_iff, !N.ltb_lt in Hc. destruct Hc as [Hc Hx]. split; [exact Hc|]. intros Hi. assert (X : existsb (N.eqb c) [61; 62; 63; 64; 125; 123; 124; 126; 91; 92; 32; 93; 94; 35; 36; 37] = true) by (apply existsb_exists; exists c; split; [exact Hi|apply N.eqb_refl]). congruence. }
  repeat constructor; try (apply K; [reflexivity|discriminate]); cbn; lia.
Qed.
Lemma styles_case : Forall piece_ok [Declaration [32; 97; 32] [32; 98]; Declaration [32; 99] [100]].
Proof.
  assert (K : forall l, ascii l -> text l) by apply ascii_text.
  repeat apply Forall_cons; [| |constructor]; (split; [apply K; repeat constructor|]; split; [apply K; repeat constructor|]; split; [discriminate|]; split; [discriminate|]; repeat split; cbn; intuition discriminate).
Qed.
