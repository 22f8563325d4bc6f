(** Replacement on text outside ASCII, and URL percent escapes. *)
Require Import Coq.ZArith.ZArith Coq.NArith.NArith Coq.Lists.List Coq.Bool.Bool Coq.Arith.Arith Coq.micromega.Lia.
Require Import Coq.micromega.ZifyN Coq.micromega.ZifyNat.
Require Import Verif.Base Verif.Array_Model Verif.Utf8_Model Verif.Utf8_Spec Verif.Utf8_Proofs Verif.Utf8_Strings Verif.String_Model Verif.String_Spec Verif.String_Proofs Verif.String_Lists.
Import ListNotations.
Local Open Scope N_scope.

(** ** Replacing "a" by "é" in "éa": the text after [k] rounds. *)
Definition grown (k : nat) : bytes := repeat 195 k ++ [195; 169; 97].
Lemma grown_S : forall k, grown (S k) = 195 :: grown k.
Proof. auto. Qed.
Lemma grown_cons : forall k, exists b t, grown k = 195 :: b :: t /\ (b = 169 \/ b = 195).
Proof. intros [|[|k]]; cbn; eauto. Qed.
Lemma scan_grown : forall k r, ustrscan (grown (S k) ++ r) = Ok ((-1)%Z, 1%nat).
Proof.
  intros k r. rewrite grown_S. destruct k as [|k].
  - reflexivity.
  - rewrite grown_S. destruct (grown_cons k) as (b & t & -> & _). reflexivity.
Qed.
Lemma index_grown : forall k off r, ustridx_loop (S k) (grown k ++ r) off = Ok (Some (off + k + 2)%nat).
Proof.
  induction k as [|k IH]; intros off r.
  - cbn. f_equal. f_equal. lia.
  - change (ustridx_loop (S (S k)) (grown (S k) ++ r) off) with
      (do x <- ustrscan (grown (S k) ++ r); if (fst x =? 0)%Z then Ok None else ustridx_loop (S k) (skipn (snd x) (grown (S k) ++ r)) (off + snd x)).
    rewrite scan_grown. cbn [obind fst snd]. change (-1 =? 0)%Z with false. cbv iota. rewrite grown_S. cbn [app skipn]. rewrite IH. f_equal. f_equal. lia.
Qed.
Lemma grown_length : forall k, length (grown k) = (k + 3)%nat.
Proof. intros. unfold grown. rewrite app_length, repeat_length. auto. Qed.
Lemma repeat_snoc : forall A (x : A) k, repeat x k ++ [x] = x :: repeat x k.
Proof. induction k; cbn; congruence. Qed.
Lemma replace_diverges : forall fuel k start, (Z.of_nat (k + fuel) < 2^62)%Z -> (start = Z.of_nat (S k) \/ (start = 0 /\ k = 0%nat)%Z) ->
  replace_loop fuel (grown k) [97] [195; 169] 1 start = NoFuel.
Proof.
  induction fuel as [|fuel IH]; intros k start Hf Hs; auto. cbn [replace_loop].
  assert (R : range_of_string (grown k) [97] start = Ok (Some (Z.of_nat (S k), 1%nat))).
  { destruct Hs as [->|[-> ->]]; [|vm_compute; reflexivity]. unfold range_of_string. rewrite grown_length. replace (k + 3 =? 0)%nat with false by (symmetry; apply Nat.eqb_neq; lia).
    replace (0 <? Z.of_nat (S k))%Z with true by (symmetry; apply Z.ltb_lt; lia). rewrite idx_nat by (unfold fits, INT64_MAX; lia).
    unfold ustridx, sto at 1. rewrite index_grown. cbn [obind]. change (rd (sto [97]) 0) with (Ok 97). cbn [obind]. change (97 =? 0) with false. cbv iota.
    replace (skipn (0 + k + 2) (sto (grown k))) with (sto [97]).
    - change (ustrstr_range (sto [97]) (sto [97])) with (Ok (Some (0%nat, 1%nat))). cbn [obind option_map fst snd]. f_equal.
    - unfold sto, grown. replace (0 + k + 2)%nat with (length (repeat 195 k ++ [195; 169])) by (rewrite app_length, repeat_length; auto).
      replace ((repeat 195 k ++ [195; 169; 97]) ++ [0; 0; 0; 0]) with ((repeat 195 k ++ [195; 169]) ++ [97; 0; 0; 0; 0]) by (rewrite <- !app_assoc; auto).
      rewrite skipn_len_app. auto. }
  rewrite R. cbn [obind]. unfold replace_substring. rewrite check_fits by (rewrite ?grown_length; unfold fits, INT64_MAX; lia). cbn [obind].
  assert (Q : replace_bytes (grown k) (S k) 1 [195; 169] = Ok (grown (S k))).
  { unfold grown at 1. replace (repeat 195 k ++ [195; 169; 97]) with ((repeat 195 k ++ [195]) ++ [169] ++ [97]) by (rewrite <- app_assoc; auto).
    replace (S k) with (length (repeat 195 k ++ [195])) at 1 by (rewrite app_length, repeat_length; cbn; lia).
    change 1%nat with (length [169]). rewrite replace_app. f_equal. unfold grown. rewrite repeat_snoc. auto. }
  rewrite Q. cbn [obind]. apply IH; [lia|]. left. lia.
Qed.
Lemma replace_nonterminating : forall fuel, (Z.of_nat fuel < 2^62)%Z ->
  replace_occurrences fuel (encode [233; 97]) (encode [97]) (encode [233]) = NoFuel.
Proof.
  intros fuel H. unfold replace_occurrences.
  assert (E : str_length (encode [233]) = Ok 1%nat) by (vm_compute; reflexivity). rewrite E. cbn [obind].
  change (encode [233; 97]) with (grown 0). change (encode [97]) with [97]. change (encode [233]) with [195; 169].
  apply replace_diverges; auto.
Qed.
Lemma small_text : forall l, Forall (fun c => 0 < c < 256) l -> text l.
Proof. intros l H. eapply Forall_impl; [|exact H]. intros c Hc. cbv beta in Hc. unfold char_ok, scalar. lia. Qed.
Lemma replace_misses : exists cs pat rep, text cs /\ text pat /\ text rep /\ pat <> [] /\ (exists i, occurs_at pat cs i) /\ pat <> rep /\
  replace_occurrences 10 (encode cs) (encode pat) (encode rep) = Ok (encode cs).
Proof.
  exists [233; 98; 97; 120], [97], [98].
  split; [apply small_text; repeat constructor|]. split; [apply small_text; repeat constructor|]. split; [apply small_text; repeat constructor|]. split; [congruence|].
  split; [exists 2%nat, [233; 98], [120]; auto|]. split; [congruence|]. vm_compute. reflexivity.
Qed.
Lemma replace_damages : exists cs pat rep out, text cs /\ text pat /\ text rep /\ pat <> [] /\
  replace_occurrences 10 (encode cs) (encode pat) (encode rep) = Ok out /\ forall cs', text cs' -> out <> encode cs'.
Proof.
  exists [233; 97; 120], [97], [98], [195; 98; 98; 120].
  split; [apply small_text; repeat constructor|]. split; [apply small_text; repeat constructor|]. split; [apply small_text; repeat constructor|]. split; [congruence|].
  split; [vm_compute; reflexivity|]. intros cs' H F. pose proof (scans_encode cs' H) as Q. rewrite <- F in Q.
  assert (E : u8_next ([195; 98; 98; 120] ++ 0 :: [0]) = Ok ((-1)%Z, 1%nat)) by (vm_compute; reflexivity).
  inversion Q as [G|s z n zs Hc Hne E' Hn Hs E1 E2]. subst s. specialize (E' [0]). rewrite E in E'. inversion E' as [[E3 E4]].
  destruct cs' as [|c cs']; [discriminate|]. cbn [map] in E2. inversion E2. lia.
Qed.

(** ** Percent escapes *)
Inductive item : Type := plain (c : N) | tok (x y : N).
Definition out (i : item) : bytes := match i with plain c => [c] | tok x y => [37; x; y] end.
Definition flat (l : list item) : bytes := flat_map out l.
Definition item_ok (i : item) : Prop :=
  match i with plain c => 0 < c < 128 /\ c <> 37 | tok x y => 0 < x < 128 /\ 0 < y < 128 /\ x <> 37 /\ y <> 37 end.
Lemma flat_ascii : forall l, Forall item_ok l -> ascii (flat l).
Proof.
  induction 1 as [|[c|x y] l H _ IH]; [constructor| |]; unfold flat; cbn [flat_map]; apply ascii_app; (split; [|exact IH]); cbn [out].
  - constructor; [apply H|constructor].
  - destruct H as (? & ? & _). repeat constructor; lia.
Qed.
Lemma flat_length : forall l, (length l <= length (flat l) <= 3 * length l)%nat.
Proof. induction l as [|[c|x y] l IH]; unfold flat in *; cbn [flat_map length out app]; lia. Qed.
Lemma flat_app : forall a b, flat (a ++ b) = flat a ++ flat b.
Proof. intros. apply flat_map_app. Qed.

(** Occurrences of a key or of an escape among items. *)
Lemma occurs_cons : forall pat c l j, occurs_at pat (c :: l) (S j) -> occurs_at pat l j.
Proof. intros pat c l j (pre & post & E & Hl). destruct pre as [|d pre]; [discriminate|]. inversion E. exists pre, post. split; auto; cbn in Hl; lia. Qed.
Lemma occurs_head : forall x pat c l, occurs_at (x :: pat) (c :: l) 0 -> c = x.
Proof. intros x pat c l (pre & post & E & Hl). destruct pre; [|discriminate]. cbn in E. inversion E. auto. Qed.
Lemma occurs_tok : forall x y a rest j, Forall item_ok a -> occurs_at [37; x; y] (flat a ++ rest) j -> (j < length (flat a))%nat -> In (tok x y) a.
Proof.
  induction a as [|i a IH]; intros rest j Ha Ho Hj; [exfalso; cbn in Hj; lia|]. inversion Ha as [|? ? Hi Ha']; subst. unfold flat in *. cbn [flat_map] in *. rewrite <- app_assoc in Ho.
  destruct i as [c|x' y']; cbn [out app length] in *.
  - destruct j as [|j]; [exfalso; apply occurs_head in Ho; destruct Hi; congruence|]. right. apply occurs_cons in Ho. apply IH with rest j; auto. lia.
  - destruct Hi as (_ & _ & Hx & Hy). destruct j as [|[|[|j]]].
    + destruct Ho as (pre & post & E & Hl). destruct pre; [|discriminate]. cbn in E. inversion E. left. auto.
    + apply occurs_cons, occurs_head in Ho. congruence.
    + apply occurs_cons, occurs_cons, occurs_head in Ho. congruence.
    + apply occurs_cons, occurs_cons, occurs_cons in Ho. right. apply IH with rest j; auto. lia.
Qed.
Definition keyless (k : N) (i : item) : Prop := match i with plain _ => True | tok x y => x <> k /\ y <> k end.
Lemma occurs_key : forall k a rest j, Forall (keyless k) a -> k <> 37 -> occurs_at [k] (flat a ++ rest) j -> (j < length (flat a))%nat -> In (plain k) a.
Proof.
  induction a as [|i a IH]; intros rest j Ha Hk Ho Hj; [cbn in Hj; lia|]. inversion Ha as [|? ? Hi Ha']; subst. unfold flat in *. cbn [flat_map] in *. rewrite <- app_assoc in Ho.
  destruct i as [c|x y]; cbn [out app length] in *.
  - destruct j as [|j]; [apply occurs_head in Ho; left; congruence|]. right. apply occurs_cons in Ho. apply IH with rest j; auto. lia.
  - destruct Hi as (Hx & Hy). destruct j as [|[|[|j]]].
    + apply occurs_head in Ho. congruence.
    + apply occurs_cons, occurs_head in Ho. congruence.
    + apply occurs_cons, occurs_cons, occurs_head in Ho. congruence.
    + apply occurs_cons, occurs_cons, occurs_cons in Ho. right. apply IH with rest j; auto. lia.
Qed.
Definition item_eqb (i j : item) : bool :=
  match i, j with plain a, plain b => a =? b | tok x y, tok x' y' => (x =? x') && (y =? y') | _, _ => false end.
Lemma item_eqb_eq : forall i j, item_eqb i j = true <-> i = j.
Proof.
  intros [a|x y] [b|x' y']; cbn; try (split; discriminate).
  - rewrite N.eqb_eq. split; congruence.
  - rewrite andb_true_iff, !N.eqb_eq. split; [intros [-> ->]; auto|intros E; inversion E; auto].
Qed.
Definition swap (i j : item) (l : list item) : list item := map (fun k => if item_eqb k i then j else k) l.
Lemma swap_absent : forall i j l, ~ In i l -> swap i j l = l.
Proof.
  unfold swap. induction l as [|x l IH]; intros H; auto. cbn [map]. rewrite IH by (intros F; apply H; right; auto).
  destruct (item_eqb x i) eqn:E; auto. exfalso. apply H. left. apply item_eqb_eq. auto.
Qed.
Lemma first_item : forall (i : item) l, In i l -> exists a b, l = a ++ i :: b /\ ~ In i a.
Proof.
  induction l as [|x l IH]; intros H; [destruct H|]. destruct (item_eqb x i) eqn:E.
  - apply item_eqb_eq in E. subst. exists [], l. auto.
  - assert (Hx : x <> i) by (intros F; apply item_eqb_eq in F; congruence). destruct H as [H|H]; [congruence|]. destruct (IH H) as (a & b & -> & Ha). exists (x :: a), b. split; auto. intros [F|F]; auto.
Qed.
(** Replacing an item everywhere, when its bytes occur nowhere else. *)
Lemma replaced_swap : forall i j (P : item -> Prop), out i <> [] ->
  (forall a rest p, Forall P a -> occurs_at (out i) (flat a ++ rest) p -> (p < length (flat a))%nat -> In i a) ->
  forall n l, (length l <= n)%nat -> Forall P l -> replaced (out i) (out j) (flat l) (flat (swap i j l)).
Proof.
  intros i j P Hne Hocc. induction n as [|n IH]; intros l Hl Hp.
  - destruct l; [|cbn in Hl; lia]. apply rep_none. intros p Ho. pose proof (occurs_bound _ _ _ Ho). cbn in H. destruct (out i); [congruence|cbn in H; lia].
  - destruct (in_dec (fun a b => match bool_dec (item_eqb a b) true with left e => left (proj1 (item_eqb_eq a b) e) | right e => right (fun q => e (proj2 (item_eqb_eq a b) q)) end) i l) as [Hin|Hin].
    + destruct (first_item i l Hin) as (a & b & -> & Ha). apply Forall_app in Hp. destruct Hp as [Pa Pb]. inversion Pb as [|? ? Pi Pb']; subst.
      unfold swap. rewrite map_app. cbn [map]. replace (item_eqb i i) with true by (symmetry; apply item_eqb_eq; auto). fold (swap i j a). fold (swap i j b). rewrite (swap_absent i j a) by auto.
      rewrite !flat_app. change (flat (i :: b)) with (out i ++ flat b). change (flat (j :: swap i j b)) with (out j ++ flat (swap i j b)).
      apply rep_first.
      * split; [lia|]. split; [exists (flat a), (flat b); auto|]. intros p Hp Ho. apply Ha. eapply Hocc; eauto. lia.
      * apply IH; auto. rewrite app_length in Hl. cbn in Hl. lia.
    + rewrite swap_absent by auto. apply rep_none. intros p Ho. apply Hin. pose proof (occurs_bound _ _ _ Ho). rewrite <- (app_nil_r (flat l)) in Ho. eapply Hocc; eauto.
      destruct (out i); [congruence|]. cbn in H. lia.
Qed.
Lemma replace_items : forall i j l fuel, item_ok i -> item_ok j -> Forall item_ok l -> fits (length l * 12) -> (3 * length l < fuel)%nat ->
  match i with plain k => Forall (keyless k) l | _ => True end ->
  replace_occurrences fuel (flat l) (out i) (out j) = Ok (flat (swap i j l)).
Proof.
  intros i j l fuel Hi Hj Hl Hf Hfu Hk. pose proof (flat_length l) as L.
  assert (Hlj : (length (out j) <= 3)%nat) by (destruct j; cbn; lia).
  assert (Ai : forall x, item_ok x -> ascii (out x)).
  { intros x Hx. pose proof (flat_ascii [x]) as Q. unfold flat in Q. cbn [flat_map] in Q. rewrite app_nil_r in Q. auto. }
  destruct (replace_ok (flat l) (out i) (out j)) as (o & E & Ho); auto using flat_ascii.
  - destruct i; discriminate.
  - unfold fits in *. nia.
  - rewrite E by lia. f_equal. eapply replaced_fun; [exact Ho|].
    destruct i as [k|x y].
    + apply replaced_swap with (P := keyless k) (n := length l); auto; [discriminate|]. intros a rest p Ha Hoc Hp. cbn [out] in Hoc. eapply occurs_key; eauto. destruct Hi. auto.
    + apply replaced_swap with (P := item_ok) (n := length l); auto; [discriminate|]. intros a rest p Ha Hoc Hp. eapply occurs_tok; eauto.
Qed.
(** Patterns that do not occur. *)
Lemma replace_none : forall cs pat rep fuel, ascii cs -> text pat -> text rep -> pat <> [] -> fits (length cs) -> absent pat cs -> (0 < fuel)%nat ->
  replace_occurrences fuel cs (encode pat) (encode rep) = Ok cs.
Proof.
  intros cs pat rep fuel H1 H2 H3 H4 H5 H6 H7. unfold replace_occurrences. rewrite length_ok by auto. cbn [obind]. destruct fuel as [|fuel]; [lia|]. cbn [replace_loop].
  destruct (range_ok cs pat 0 (ascii_text _ H1) H2 H4) as (o & E & Ho); [rewrite ascii_encode; auto|lia|].
  rewrite ascii_encode in E by auto. cbn in E. rewrite E. cbn [obind]. destruct o as [[loc len]|]; auto. exfalso.
  destruct Ho as (i & _ & _ & _ & Ho & _). eapply H6. eauto.
Qed.

Definition early := firstn 17 url_patterns.
Definition late := skipn 17 url_patterns.
Lemma escape_app : forall fuel a b s, escape fuel s (a ++ b) = (do s' <- escape fuel s a; escape fuel s' b).
Proof. induction a as [|[k o] a IH]; intros b s; auto. cbn [app escape]. destruct (replace_occurrences fuel s k o); cbn [obind]; auto. Qed.
Lemma unescape_app : forall fuel a b s, unescape fuel s (a ++ b) = (do s' <- unescape fuel s a; unescape fuel s' b).
Proof. induction a as [|[k o] a IH]; intros b s; auto. cbn [app unescape]. destruct (replace_occurrences fuel s o k); cbn [obind]; auto. Qed.
(** Characters replaced once '%' has been dealt with, or never. *)
Definition plainly (c : N) : Prop := 0 < c < 128 /\ ~ In c [61; 62; 63; 64; 125; 123; 124; 126; 91; 92; 32; 93; 94; 35; 36; 37].

Definition noop (s : bytes) (k o : bytes) : Prop :=
  exists pat rep, k = encode pat /\ o = encode rep /\ text pat /\ text rep /\ pat <> [] /\ absent pat s.
Lemma escape_noop : forall fuel s pats, ascii s -> fits (length s) -> (0 < fuel)%nat -> Forall (fun p => noop s (fst p) (snd p)) pats -> escape fuel s pats = Ok s.
Proof.
  intros fuel s pats H1 H2 H3. induction 1 as [|[k o] pats (pat & rep & A & B & C & D & E & F) _ IH]; auto. cbn [escape fst snd] in *. subst. rewrite replace_none by auto. cbn [obind]. auto.
Qed.
Lemma unescape_noop : forall fuel s pats, ascii s -> fits (length s) -> (0 < fuel)%nat -> Forall (fun p => noop s (snd p) (fst p)) pats -> unescape fuel s pats = Ok s.
Proof.
  intros fuel s pats H1 H2 H3. induction 1 as [|[k o] pats (pat & rep & A & B & C & D & E & F) _ IH]; auto. cbn [unescape fst snd] in *. subst. rewrite replace_none by auto. cbn [obind]. auto.
Qed.
Lemma absent_char : forall c s, ~ In c s -> absent [c] s.
Proof. intros c s H i (pre & post & E & _). apply H. rewrite E. apply in_app_iff. right. left. auto. Qed.
Lemma absent_wide : forall c s, ascii s -> 128 <= c -> absent [c] s.
Proof. intros c s H Hc. apply absent_char. intros F. unfold ascii in H. rewrite Forall_forall in H. specialize (H _ F). cbv beta in H. lia. Qed.
Lemma absent_tok : forall x y l, Forall item_ok l -> ~ In (tok x y) l -> absent [37; x; y] (flat l).
Proof.
  intros x y l H Hn i Ho. apply Hn. pose proof (occurs_bound _ _ _ Ho) as B. cbn in B. rewrite <- (app_nil_r (flat l)) in Ho. eapply occurs_tok; eauto. lia.
Qed.
Definition hex (x : N) : Prop := 48 <= x <= 57 \/ 65 <= x <= 70.
Definition hexed (i : item) : Prop := match i with plain _ => True | tok x y => hex x /\ hex y end.
Definition estep (i : item) (p : bytes * bytes) : item :=
  match p with ([k], [_; x; y]) => if item_eqb i (plain k) then tok x y else i | _ => i end.
Definition ustep (i : item) (p : bytes * bytes) : item :=
  match p with ([k], [_; x; y]) => if item_eqb i (tok x y) then plain k else i | _ => i end.
Definition late_ok (p : bytes * bytes) : Prop :=
  (exists k x y, p = ([k], [37; x; y]) /\ 0 < k < 128 /\ k <> 37 /\ ~ hex k /\ hex x /\ hex y) \/ p = (encode [8216], [37; 50; 55]).
Lemma late_all_ok : Forall late_ok late.
Proof.
  assert (E : late = [([38], [37; 50; 54]); ([96], [37; 54; 48]); ([43], [37; 50; 66]); ([44], [37; 50; 67]); ([47], [37; 50; 70]);
     (encode [8216], [37; 50; 55]); ([58], [37; 51; 65]); ([59], [37; 51; 66]); ([60], [37; 51; 67])]) by (vm_compute; reflexivity).
  rewrite E. repeat (constructor; [first [right; reflexivity|left; do 3 eexists; split; [reflexivity|]; unfold hex; lia]|]). constructor.
Qed.
Lemma hex_ok : forall x y, hex x -> hex y -> item_ok (tok x y).
Proof. unfold hex. cbn. intros. lia. Qed.
Lemma escape_late : forall fuel pats, Forall late_ok pats -> forall l, Forall item_ok l -> Forall hexed l -> fits (length l * 12) -> (3 * length l < fuel)%nat ->
  escape fuel (flat l) pats = Ok (flat (map (fun i => fold_left estep pats i) l)) /\
  Forall item_ok (map (fun i => fold_left estep pats i) l).
Proof.
  intros fuel pats. induction 1 as [|p pats H _ IH]; intros l Hl Hh Hf Hfu.
  - cbn [fold_left]. rewrite map_id. auto.
  - assert (E : map (fun i => fold_left estep (p :: pats) i) l = map (fun i => fold_left estep pats i) (map (fun i => estep i p) l)) by (rewrite map_map; auto). rewrite E. clear E.
    destruct H as [(k & x & y & -> & Hk & Hk37 & Hkh & Hx & Hy)| ->].
    + assert (E : map (fun i => estep i ([k], [37; x; y])) l = swap (plain k) (tok x y) l) by reflexivity. rewrite E. clear E. cbn [escape].
      change [k] with (out (plain k)). change [37; x; y] with (out (tok x y)). rewrite replace_items; auto; [cbn [obind]|cbn; auto|apply hex_ok; auto|].
      * apply IH; unfold swap; rewrite ?map_length; auto.
        -- apply Forall_map. eapply Forall_impl; [|exact Hl]. intros i Hi. destruct (item_eqb i (plain k)); auto. apply hex_ok; auto.
        -- apply Forall_map. eapply Forall_impl; [|exact Hh]. intros i Hi. destruct (item_eqb i (plain k)); auto. cbn. auto.
      * eapply Forall_impl; [|exact Hh]. intros [c|a b] Hi; cbn in *; auto. split; intros ->; tauto.
    + cbn [escape]. change [37; 50; 55] with (encode [37; 50; 55]). rewrite replace_none; auto using flat_ascii.
      * cbn [obind]. assert (E : map (fun i => estep i (encode [8216], [37; 50; 55])) l = l) by (rewrite <- map_id; apply map_ext; reflexivity). change (encode [37; 50; 55]) with [37; 50; 55]. rewrite E. apply IH; auto.
      * constructor; [|constructor]. unfold char_ok, scalar. lia.
      * repeat constructor; unfold scalar; lia.
      * congruence.
      * pose proof (flat_length l). unfold fits in *. lia.
      * apply absent_wide; [apply flat_ascii; auto|lia].
      * lia.
Qed.
Lemma unescape_late : forall fuel pats, Forall late_ok pats -> forall l, Forall item_ok l -> ~ In (tok 50 55) l -> fits (length l * 12) -> (3 * length l < fuel)%nat ->
  unescape fuel (flat l) pats = Ok (flat (map (fun i => fold_left ustep pats i) l)).
Proof.
  intros fuel pats. induction 1 as [|p pats H _ IH]; intros l Hl Hh Hf Hfu.
  - cbn [fold_left]. rewrite map_id. auto.
  - assert (E : map (fun i => fold_left ustep (p :: pats) i) l = map (fun i => fold_left ustep pats i) (map (fun i => ustep i p) l)) by (rewrite map_map; auto). rewrite E. clear E.
    destruct H as [(k & x & y & -> & Hk & Hk37 & Hkh & Hx & Hy)| ->].
    + assert (E : map (fun i => ustep i ([k], [37; x; y])) l = swap (tok x y) (plain k) l) by reflexivity. rewrite E. clear E. cbn [unescape].
      change [k] with (out (plain k)). change [37; x; y] with (out (tok x y)). rewrite replace_items; auto; [cbn [obind]|apply hex_ok; auto|cbn; auto].
      apply IH; unfold swap; rewrite ?map_length; auto.
      * apply Forall_map. eapply Forall_impl; [|exact Hl]. intros i Hi. destruct (item_eqb i (tok x y)); auto. cbn. auto.
      * rewrite in_map_iff. intros (i & F & G). destruct (item_eqb i (tok x y)); [discriminate|]. subst. auto.
    + cbn [unescape]. change [37; 50; 55] with (encode [37; 50; 55]). rewrite replace_none; auto using flat_ascii.
      * cbn [obind]. assert (E : map (fun i => ustep i (encode [8216], [37; 50; 55])) l = l) by (rewrite <- map_id; apply map_ext; reflexivity). change (encode [37; 50; 55]) with [37; 50; 55]. rewrite E. apply IH; auto.
      * repeat constructor; unfold scalar; lia.
      * constructor; [|constructor]. unfold char_ok, scalar. lia.
      * congruence.
      * pose proof (flat_length l). unfold fits in *. lia.
      * apply absent_tok; auto.
      * lia.
Qed.
Definition excluded (c : N) : bool := existsb (N.eqb c) [61; 62; 63; 64; 125; 123; 124; 126; 91; 92; 32; 93; 94; 35; 36; 37].
Definition char_check (c : N) : bool :=
  excluded c ||
  let i := fold_left estep late (plain c) in
  negb (item_eqb i (tok 50 55)) && item_eqb (fold_left ustep late i) (plain c) &&
  forallb (fun p => match snd p with [_; x; y] => negb (item_eqb i (tok x y)) | _ => false end) early.
Lemma char_checked : forall c, plainly c -> char_check c = true.
Proof.
  intros c [H _]. assert (A : forallb char_check (map N.of_nat (seq 0 128)) = true) by (vm_compute; reflexivity).
  rewrite forallb_forall in A. apply A. apply in_map_iff. exists (N.to_nat c). split; [lia|]. apply in_seq. lia.
Qed.
Lemma plainly_not : forall c, plainly c -> excluded c = false.
Proof.
  intros c [_ H]. unfold excluded. destruct (existsb (N.eqb c) _) eqn:E; auto. apply existsb_exists in E. destruct E as (x & Hx & Ex). apply N.eqb_eq in Ex. subst. tauto.
Qed.
Lemma flat_plain : forall cs, flat (map plain cs) = cs.
Proof. induction cs as [|c cs IH]; auto. unfold flat in *. cbn [map flat_map out app]. rewrite IH. auto. Qed.
Definition early_ok (p : bytes * bytes) : Prop :=
  (exists k x y, p = ([k], [37; x; y]) /\ excluded k = true /\ 0 < k < 128 /\ hex x /\ hex y) \/ (exists k x y, p = (encode [k], [37; x; y]) /\ k = 8220 /\ hex x /\ hex y).
Lemma early_all_ok : Forall early_ok early.
Proof.
  assert (E : early = [([61], [37; 51; 68]); ([62], [37; 51; 69]); ([63], [37; 51; 70]); ([64], [37; 52; 48]);
        ([125], [37; 55; 68]); ([123], [37; 55; 66]); ([124], [37; 55; 67]); ([126], [37; 55; 69]); (encode [8220], [37; 50; 50]);
        ([91], [37; 53; 66]); ([92], [37; 53; 67]); ([32], [37; 50; 48]); ([93], [37; 53; 68]); ([94], [37; 53; 69]); ([35], [37; 50; 51]);
        ([36], [37; 50; 52]); ([37], [37; 50; 53])]) by (vm_compute; reflexivity).
  rewrite E. repeat (constructor; [first [right; exists 8220; do 2 eexists; split; [reflexivity|]; unfold hex; lia|left; do 3 eexists; split; [reflexivity|]; split; [reflexivity|]; unfold hex; lia]|]). constructor.
Qed.
Lemma patterns_split : url_patterns = early ++ late.
Proof. symmetry. apply firstn_skipn. Qed.
Local Opaque early late url_patterns.
Theorem percent_round_trip : forall cs, Forall plainly cs -> fits (length cs * 12) ->
  exists esc, (forall fuel, (3 * length cs < fuel)%nat -> add_escapes fuel cs = Ok esc) /\
    (forall fuel, (3 * length cs < fuel)%nat -> remove_escapes fuel esc = Ok cs).
Proof.
  intros cs H Hf. set (its := map (fun i => fold_left estep late i) (map plain cs)).
  assert (Hio : Forall item_ok (map plain cs)).
  { apply Forall_map. eapply Forall_impl; [|exact H]. intros c Hc. pose proof (plainly_not c Hc) as Q. destruct Hc as [Hc _]. split; auto. intros ->. discriminate. }
  assert (Hhx : Forall hexed (map plain cs)) by (apply Forall_map; apply Forall_forall; cbn; auto).
  assert (Hits : Forall item_ok its /\ forall fuel, (3 * length cs < fuel)%nat -> escape fuel cs late = Ok (flat its)).
  { split.
    - apply (escape_late (S (3 * length cs)) late late_all_ok (map plain cs) Hio Hhx); rewrite map_length; auto.
    - intros fuel Hfu. rewrite <- (flat_plain cs) at 1. apply escape_late; auto using late_all_ok; rewrite map_length; auto. }
  destruct Hits as [Hits Hesc].
  assert (Ha : ascii cs) by (eapply Forall_impl; [|exact H]; intros c [Hc _]; auto).
  pose proof patterns_split as U.
  assert (Hin : forall c, In c cs -> char_check c = true /\ excluded c = false).
  { intros c Hc. rewrite Forall_forall in H. split; [apply char_checked|apply plainly_not]; auto. }
  exists (flat its). split; intros fuel Hfu.
  - unfold add_escapes. rewrite U, escape_app. rewrite (escape_noop fuel cs early Ha); [cbn [obind]; auto|unfold fits in *; lia|lia|].
    eapply Forall_impl; [|exact early_all_ok]. intros p [(k & x & y & -> & Ek & Hk & Hx & Hy)|(k & x & y & -> & -> & Hx & Hy)]; cbn [fst snd].
    + exists [k], [37; x; y]. assert (A1 : ascii [k]) by (constructor; [auto|constructor]). assert (A2 : ascii [37; x; y]) by (unfold hex in *; repeat constructor; lia).
      rewrite !ascii_encode by auto. repeat split; auto using ascii_text; [congruence|]. apply absent_char. intros F. apply Hin in F. destruct F. congruence.
    + exists [8220], [37; x; y]. assert (A2 : ascii [37; x; y]) by (unfold hex in *; repeat constructor; lia).
      rewrite (ascii_encode [37; x; y]) by auto. split; auto. split; auto. split; [constructor; [unfold char_ok, scalar; lia|constructor]|]. split; [apply ascii_text; auto|]. split; [congruence|].
      apply absent_wide; auto. lia.
  - unfold remove_escapes. rewrite U, unescape_app. clear U.
    assert (Lits : length its = length cs) by (unfold its; rewrite !map_length; auto). pose proof (flat_length its) as FL.
    rewrite unescape_noop; auto using flat_ascii; [cbn [obind]|unfold fits in *; rewrite Lits in FL; clear -FL Hf; lia|clear -Hfu; lia|].
    + rewrite unescape_late; auto using late_all_ok; [|intros F|rewrite Lits; auto|lia].
      * f_equal. unfold its. rewrite !map_map. rewrite <- (flat_plain cs) at 2. f_equal. apply map_ext_in. intros c Hc. destruct (Hin c Hc) as [Q1 Q2].
        unfold char_check in Q1. rewrite Q2 in Q1. cbn [orb] in Q1. apply andb_true_iff in Q1. destruct Q1 as [Q1 _]. apply andb_true_iff in Q1. destruct Q1 as [_ Q1]. apply item_eqb_eq in Q1. auto.
      * unfold its in F. rewrite map_map in F. apply in_map_iff in F. destruct F as (c & F & Hc). destruct (Hin c Hc) as [Q1 Q2].
        unfold char_check in Q1. rewrite Q2 in Q1. cbn [orb] in Q1. rewrite F in Q1. discriminate Q1.
    + assert (Hck : forall p, In p early -> forall i, In i its -> match snd p with [_; x; y] => item_eqb i (tok x y) = false | _ => False end).
      { intros p Hp i Hi. unfold its in Hi. rewrite map_map in Hi. apply in_map_iff in Hi. destruct Hi as (c & <- & Hc). destruct (Hin c Hc) as [Q1 Q2].
        unfold char_check in Q1. rewrite Q2 in Q1. cbn [orb] in Q1. apply andb_true_iff in Q1. destruct Q1 as [_ Q1]. rewrite forallb_forall in Q1. specialize (Q1 p Hp).
        revert Q1. generalize (fold_left estep late (plain c)). intros i Q1. destruct (snd p) as [|? [|? [|? [|? ?]]]]; try discriminate Q1. apply negb_true_iff in Q1. auto. }
      pose proof early_all_ok as EO. rewrite Forall_forall in *. intros p Hp. specialize (EO p Hp). specialize (Hck p Hp).
      destruct EO as [(k & x & y & -> & Ek & Hk & Hx & Hy)|(k & x & y & -> & -> & Hx & Hy)]; cbn [fst snd] in *.
      * exists [37; x; y], [k]. assert (A1 : ascii [k]) by (constructor; [auto|constructor]). assert (A2 : ascii [37; x; y]) by (unfold hex in *; repeat constructor; lia).
        rewrite !ascii_encode by auto. repeat split; auto using ascii_text; [congruence|]. apply absent_tok; [apply Forall_forall; auto|].
        intros F. apply Hck in F. cbn in F. rewrite !N.eqb_refl in F. discriminate F.
      * exists [37; x; y], [8220]. assert (A2 : ascii [37; x; y]) by (unfold hex in *; repeat constructor; lia).
        rewrite (ascii_encode [37; x; y]) by auto. split; auto. split; auto. split; [apply ascii_text; auto|]. split; [constructor; [unfold char_ok, scalar; lia|constructor]|]. split; [congruence|].
        apply absent_tok; [apply Forall_forall; auto|]. intros F. apply Hck in F. cbn in F. rewrite !N.eqb_refl in F. discriminate F.
Qed.
Local Transparent early late url_patterns.
Theorem percent_refuted : (forall fuel, (10 <= fuel)%nat -> exists esc, add_escapes fuel [64] = Ok esc /\ remove_escapes fuel esc = Ok [37; 52; 48]).
Proof.
  assert (M : forall fuel s pat rep n st o, (exists k, (k <= fuel)%nat /\ replace_loop k s pat rep n st = Ok o) -> replace_loop fuel s pat rep n st = Ok o).
  { induction fuel as [|fuel IH]; intros s pat rep n st o (k & Hk & E); [replace k with 0%nat in E by lia; auto|]. destruct k as [|k]; [discriminate|]. cbn [replace_loop] in *.
    destruct (range_of_string s pat st) as [[[loc len]|]| | |]; cbn [obind] in *; auto. destruct (replace_substring s loc (Z.of_nat len) rep); cbn [obind] in *; auto.
    apply IH. exists k. split; [lia|auto]. }
  assert (M2 : forall fuel s pats o, (10 <= fuel)%nat -> escape 10 s pats = Ok o -> escape fuel s pats = Ok o).
  { intros fuel s pats o Hf. revert s. induction pats as [|[k r] pats IH]; intros s E; auto. cbn [escape] in *. apply obind_ok in E. destruct E as (s' & E1 & E2).
    unfold replace_occurrences in *. destruct (str_length r); cbn [obind] in *; try discriminate. rewrite (M fuel s k r _ _ s') by (exists 10%nat; auto). cbn [obind]. auto. }
  assert (M3 : forall fuel s pats o, (10 <= fuel)%nat -> unescape 10 s pats = Ok o -> unescape fuel s pats = Ok o).
  { intros fuel s pats o Hf. revert s. induction pats as [|[k r] pats IH]; intros s E; auto. cbn [unescape] in *. apply obind_ok in E. destruct E as (s' & E1 & E2).
    unfold replace_occurrences in *. destruct (str_length k); cbn [obind] in *; try discriminate. rewrite (M fuel s r k _ _ s') by (exists 10%nat; auto). cbn [obind]. auto. }
  intros fuel Hf. exists [37; 50; 53; 52; 48]. split; [apply M2|apply M3]; first [exact Hf|vm_compute; reflexivity].
Qed.
