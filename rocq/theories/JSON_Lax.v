(** Proofs about JSON: what is accepted is a text of the lenient grammar. *)
Require Import Coq.ZArith.ZArith Coq.NArith.NArith Coq.Lists.List Coq.Bool.Bool Coq.Arith.Arith Coq.micromega.Lia.
Require Import Verif.Base Verif.Utf8_Model Verif.Utf8_Spec Verif.Utf8_Proofs Verif.Utf8_Strings Verif.Strtonum_Model Verif.Strtonum_Spec Verif.Strtonum_Proofs Verif.JSON_Model Verif.JSON_Spec Verif.JSON_Proofs Verif.JSON_Parse Verif.JSON_Lax_Spec.
Import ListNotations.
Local Open Scope N_scope.

Lemma ascii_app a b : ascii (a ++ b) <-> ascii a /\ ascii b. Proof. apply Forall_app. Qed.
Lemma ascii_cons b s : ascii (b :: s) <-> 0 < b < 128 /\ ascii s. Proof. split; [intros H; inversion H; auto|intros [A B]; constructor; auto]. Qed.
Lemma white_dec b : white b \/ ~ white b. Proof. unfold white. lia. Qed.
Lemma special_dec b : 0 < b < 128 -> (special (Z.of_N b) = true /\ In b specials) \/ (special (Z.of_N b) = false /\ ~ In b specials).
Proof.
  intros R. destruct (in_dec N.eq_dec b specials) as [I|I]; [left; split; [now apply special_yes|auto]|right; split; [|auto]].
  unfold special. rewrite Z.mod_small by lia. cbn in I. rewrite !orb_false_iff, !Z.eqb_neq. repeat split; try lia; intros E; apply I; lia.
Qed.
Ltac assoc := cbn [app]; repeat (rewrite <- app_assoc; cbn [app]); reflexivity.
(** ** White space *)
Lemma space_inv s : ascii s -> forall fuel ch n s1, skip_space fuel (s ++ [0]) = Ok (ch, n, s1) ->
  exists w t, s = w ++ t /\ Forall white w /\ s1 = t ++ [0] /\ ((t = [] /\ n = 0%nat) \/ (exists b r, t = b :: r /\ ch = Z.of_N b /\ n = 1%nat /\ ~ white b)).
Proof.
  induction s as [|b s IH]; intros A [|fuel] ch n s1 H; try discriminate H; cbn [app skip_space] in H.
  - rewrite scan_nul in H. cbn in H. injection H as <- <- <-. exists [], []. repeat split; auto.
  - apply ascii_cons in A. destruct A as [R A]. rewrite scan_ascii in H by lia. cbn [obind Nat.eqb] in H. destruct (white_dec b) as [W|W].
    + rewrite isspace_white in H by auto. cbn [obind skipn] in H. destruct (IH A fuel ch n s1 H) as (w & t & -> & Fw & -> & C). exists (b :: w), t. repeat split; auto.
    + rewrite isspace_other in H by (auto; lia). cbn [obind] in H. injection H as <- <- <-. exists [], (b :: s). repeat split; auto. right. exists b, s. auto.
Qed.
(** ** Words *)
Lemma word_inv fuel : forall pre t len', ascii t -> scan_word fuel ((pre ++ t) ++ [0]) (length pre) = Ok len' ->
  exists wd r, t = wd ++ r /\ Forall wordbyte wd /\ delim (r ++ [0]) /\ len' = (length pre + length wd)%nat.
Proof.
  induction fuel as [|fuel IH]; intros pre t len' A H; [discriminate H|]. cbn [scan_word] in H. rewrite <- app_assoc, skipn_pre0 in H. destruct t as [|b t]; cbn [app] in H.
  - rewrite scan_nul in H. cbn in H. injection H as <-. exists [], []. repeat split; cbn; auto.
  - apply ascii_cons in A. destruct A as [R A]. rewrite scan_ascii in H by lia. cbn [obind Nat.eqb] in H. destruct (white_dec b) as [W|W].
    + rewrite isspace_white in H by auto. cbn [obind orb] in H. injection H as <-. exists [], (b :: t). cbn. repeat split; auto.
    + rewrite isspace_other in H by (auto; lia). cbn [obind orb] in H. destruct (special_dec b R) as [[E I]|[E I]]; rewrite E in H.
      * injection H as <-. exists [], (b :: t). cbn in I |- *. repeat split; auto.
      * specialize (IH (pre ++ [b]) t len' A). rewrite <- !app_assoc, app_length in IH. cbn [app length] in IH. destruct (IH H) as (wd & r & -> & F & D & ->). exists (b :: wd), r. repeat split; auto; [constructor; [split; auto|auto]|cbn [length]; lia].
Qed.
(** ** Strings *)
Lemma unended_plain b s : b <> 34 -> b <> 92 -> unended s -> unended (b :: s).
Proof. intros A B [Q|(q & -> & Q)]; [left; now constructor|right]. exists (b :: q). split; [reflexivity|now constructor]. Qed.
Lemma unended_escape e s : e <> 117 -> unended s -> unended (92 :: e :: s).
Proof. intros A [Q|(q & -> & Q)]; [left; now constructor|right]. exists (92 :: e :: q). split; [reflexivity|now constructor]. Qed.
Lemma unended_unicode a b c d s : unended s -> unended (92 :: 117 :: a :: b :: c :: d :: s).
Proof. intros [Q|(q & -> & Q)]; [left; now constructor|right]. exists (92 :: 117 :: a :: b :: c :: d :: q). split; [reflexivity|now constructor]. Qed.
Lemma scan_empty : ustrscan [] = UB. Proof. reflexivity. Qed.
Lemma unicode_inv want s x : scan_unicode want s = Ok x -> exists a b c d r, s = a :: b :: c :: d :: r.
Proof.
  unfold scan_unicode. intros H. destruct s as [|a s]; [discriminate H|]. destruct s as [|b s]; [discriminate H|]. destruct s as [|c s]; [discriminate H|]. destruct s as [|d s]; [discriminate H|]. eauto 6.
Qed.
Lemma string_inv want fuel : forall pre t buf len' buf', ascii t -> scan_string fuel want ((pre ++ t) ++ [0]) (length pre) buf = Ok (len', buf') ->
  (exists q r, t = q ++ 34 :: r /\ quoted q /\ len' = (length pre + length q + 1)%nat) \/ (unended t /\ len' = length (pre ++ t)).
Proof.
  induction fuel as [|fuel IH]; intros pre t buf len' buf' A H; [discriminate H|]. cbn [scan_string] in H. rewrite <- app_assoc, skipn_pre0 in H. destruct t as [|b t]; cbn [app] in H.
  - rewrite scan_nul in H. cbn in H. injection H as <- _. right. rewrite app_nil_r. split; [left; constructor|reflexivity].
  - apply ascii_cons in A. destruct A as [R A]. rewrite scan_ascii in H by lia. cbn [obind Nat.eqb] in H. destruct (Z.eqb_spec (Z.of_N b) 92) as [E|N92].
    + assert (b = 92) by lia. subst b. clear E R. rewrite skipn_pre in H. cbn [skipn] in H. destruct t as [|e t]; cbn [app] in H.
      * rewrite scan_nul in H. cbn [obind] in H. change (0 =? 117)%Z with false in H. cbv iota in H. rewrite Nat.add_0_r in H.
        specialize (IH (pre ++ [92]) [] (buf ++ []) len' buf' A). rewrite app_nil_r, <- !app_assoc, app_length in IH. cbn [app length] in IH. destruct (IH H) as [(q & r & E & _)|[_ ->]]; [destruct q; discriminate E|].
        right. split; [right; exists []; split; [reflexivity|constructor]|]. rewrite !app_length. reflexivity.
      * apply ascii_cons in A. destruct A as [R A]. rewrite scan_ascii in H by lia. cbn [obind] in H. destruct (Z.eqb_spec (Z.of_N e) 117) as [E|N117].
        -- assert (e = 117) by lia. subst e. clear E R. rewrite <- Nat.add_assoc, skipn_pre in H. cbn [skipn Nat.add] in H. destruct (scan_unicode want (t ++ [0])) as [x| | |] eqn:U; try discriminate H. cbn [obind] in H. apply unicode_inv in U. destruct U as (a & b & c & d & r & U).
           assert (T : (exists r', t = a :: b :: c :: d :: r') \/ (t = [a; b; c])).
           { destruct t as [|t1 [|t2 [|t3 [|t4 t]]]]; cbn in U; try discriminate U; [right|left]; injection U as -> -> ->; auto. intros; subst. eauto. }
           destruct T as [(r' & ->)| ->].
           ++ do 4 (apply ascii_cons in A; destruct A as [_ A]). specialize (IH (pre ++ [92; 117; a; b; c; d]) r' (buf ++ x) len' buf' A). rewrite <- !app_assoc, app_length in IH. cbn [app length] in IH. replace (length pre + 1 + (4 + 1))%nat with (length pre + 6)%nat in H by lia.
              replace (length pre + 1 + 4 + 1)%nat with (length pre + 6)%nat in H by lia. destruct (IH H) as [(q & r0 & -> & Q & ->)|[Q ->]].
              ** left. exists (92 :: 117 :: a :: b :: c :: d :: q), r0. split; [reflexivity|]. split; [now constructor|]. cbn [length]. lia.
              ** right. split; [now apply unended_unicode|]. rewrite !app_length. cbn [length]. lia.
           ++ exfalso. destruct fuel as [|fuel]; [discriminate H|]. cbn [scan_string] in H. rewrite skipn_all2 in H by (rewrite app_length; cbn; lia). rewrite scan_empty in H. discriminate H.
        -- match type of H with scan_string _ _ _ _ ?x = _ => specialize (IH (pre ++ [92; e]) t x len' buf' A) end. rewrite <- !app_assoc, app_length in IH. cbn [app length] in IH. replace (length pre + 1 + 1)%nat with (length pre + 2)%nat in H by lia.
           destruct (IH H) as [(q & r0 & -> & Q & ->)|[Q ->]].
           ++ left. exists (92 :: e :: q), r0. split; [reflexivity|]. split; [constructor; auto; lia|]. cbn [length]. lia.
           ++ right. split; [apply unended_escape; auto; lia|]. rewrite !app_length. cbn [length]. lia.
    + destruct (Z.eqb_spec (Z.of_N b) 34) as [E|N34].
      * assert (b = 34) by lia. subst b. injection H as <- _. left. exists [], t. split; [reflexivity|]. split; [constructor|]. cbn. lia.
      * match type of H with scan_string _ _ _ _ ?x = _ => specialize (IH (pre ++ [b]) t x len' buf' A) end. rewrite <- !app_assoc, app_length in IH. cbn [app length] in IH. destruct (IH H) as [(q & r0 & -> & Q & ->)|[Q ->]].
        -- left. exists (b :: q), r0. split; [reflexivity|]. split; [constructor; auto; lia|]. cbn [length]. lia.
        -- right. split; [apply unended_plain; auto; lia|]. rewrite !app_length. cbn [length]. lia.
Qed.
(** ** Tokens *)
Lemma wordbyte_in b : wordbyte b <-> in_word b. Proof. reflexivity. Qed.
Lemma number_of wd r x : Forall wordbyte wd -> delim (r ++ [0]) -> (exists b, (b = 45 \/ digit b) /\ begins [b] wd) -> strtonum (wd ++ r ++ [0]) = Ok x -> lax_number (fst x) wd.
Proof.
  intros F D (b & Hb & B) H. split; [exists b; split; [auto|split; auto]|]. intros m M. rewrite (number_read m wd (r ++ [0]) M D) in H. now injection H as <-.
Qed.
Inductive tk (vec want : bool) : list N -> list N -> option json -> list N -> Prop :=
| tk_end : forall w, Forall white w -> tk vec want w [0] None [0]
| tk_str : forall w q r k, Forall white w -> lax_string k q -> tk vec want (w ++ (34 :: q ++ [34]) ++ r) ((34 :: q ++ [34]) ++ r ++ [0]) (if want then Some (JStr k) else None) (r ++ [0])
| tk_open : forall w q k, Forall white w -> unended q -> tk vec want (w ++ 34 :: q) (34 :: q ++ [0]) (if want then Some (JStr k) else None) [0]
| tk_special : forall w b r, Forall white w -> In b specials -> tk vec want (w ++ b :: r) (b :: r ++ [0]) None (r ++ [0])
| tk_word : forall w b wd r, Forall white w -> Forall wordbyte (b :: wd) -> b <> 34 -> delim (r ++ [0]) -> tk vec want (w ++ (b :: wd) ++ r) ((b :: wd) ++ r ++ [0]) None (r ++ [0])
| tk_vector : forall w l s r v, Forall white w -> vec = true -> want = true -> lax_numbers l s -> v = new_vector (existsb is_real l) l -> tk vec want (w ++ (35 :: 91 :: s ++ [93]) ++ r) ((35 :: 91 :: s ++ [93]) ++ r ++ [0]) (Some v) (r ++ [0])
| tk_hash : forall s t cur, tk vec want s (35 :: t) None cur.
Lemma word_not_special b : wordbyte b -> ~ In b specials. Proof. intros (_ & _ & H). exact H. Qed.
Lemma string_token want w q r len buf fuel : Forall white w -> quoted q -> (length q < fuel)%nat -> scan_string fuel want ((34 :: q ++ [34]) ++ r ++ [0]) 1 [] = Ok (len, buf) -> lax_string buf q.
Proof.
  intros W Q L H. split; [exact Q|]. intros cs I. pose proof (scan_string_ok cs q I fuel want [34] (r ++ [0]) [] L) as X. cbn [app length] in X, H. rewrite <- app_assoc in H. cbn [app] in H. rewrite X in H. now injection H as _ <-.
Qed.
Lemma token_inv vec : forall fuel,
  (forall want s t obj cur, ascii s -> scan_token fuel vec want (s ++ [0]) = Ok (t, obj, cur) -> tk vec want s (tstr t) obj cur) /\
  (forall want s dbl buf v cur, ascii s -> scan_vector fuel vec want (s ++ [0]) dbl buf = Ok (Some v, cur) -> want = true /\ exists l t r, s = t ++ 93 :: r /\ cur = r ++ [0] /\ lax_numbers l t /\ v = new_vector (dbl || existsb is_real l) (buf ++ l)).
Proof.
  induction fuel as [|fuel (IHt & IHv)]; [split; intros; discriminate|]. split.
  - intros want s t obj cur A H. cbn [scan_token] in H. destruct (skip_space (S (length (s ++ [0]))) (s ++ [0])) as [[[ch n] s1]| | |] eqn:E; try discriminate H. cbn [obind] in H.
    apply (space_inv s A) in E. destruct E as (w & u & -> & W & -> & [(-> & ->)|(b & r & -> & -> & -> & Nw)]).
    { cbn in H. injection H as <- <- <-. rewrite app_nil_r. now constructor. }
    cbn [Nat.eqb] in H. apply ascii_app in A. destruct A as [_ A]. pose proof A as A'. apply ascii_cons in A. destruct A as [R A].
    destruct (Z.eqb_spec (Z.of_N b) 34) as [E|N34].
    { assert (b = 34) by lia. subst b. clear E R Nw. destruct (scan_string (S (length ((34 :: r) ++ [0]))) want ((34 :: r) ++ [0]) 1 []) as [[len buf]| | |] eqn:E; try discriminate H. cbn [obind] in H. injection H as <- <- <-. cbn [tstr].
      pose proof (string_inv want _ [34] r [] len buf A E) as [(q & r0 & -> & Q & ->)|[Q ->]].
      - replace (w ++ 34 :: q ++ 34 :: r0) with (w ++ (34 :: q ++ [34]) ++ r0) by (cbn [app]; rewrite <- app_assoc; reflexivity). 
        replace (length [34%N] + length q + 1)%nat with (length (34 :: q ++ [34])) by (cbn; rewrite app_length; cbn; lia). replace (34 :: (q ++ 34 :: r0) ++ [0]) with ((34 :: q ++ [34]) ++ r0 ++ [0]) by (cbn [app]; rewrite <- !app_assoc; reflexivity). rewrite skipn_pre0. apply tk_str; [exact W|]. apply (string_token want w q r0 (length [34%N] + length q + 1) buf (S (length ((34 :: q ++ 34 :: r0) ++ [0])))); [auto|auto|rewrite app_length; cbn; rewrite app_length; cbn; lia|].
        rewrite <- E. f_equal. cbn [app]. rewrite <- !app_assoc. reflexivity.
      - cbn [app]. change (34 :: r ++ [0]) with ((34 :: r) ++ [0]) at 2. rewrite skipn_pre0. now apply tk_open. }
    destruct ((Z.of_N b =? 35)%Z && vec) eqn:EV.
    { apply andb_true_iff in EV. destruct EV as [E ->]. apply Z.eqb_eq in E. assert (b = 35) by lia. subst b. clear E. cbn [app skipn] in H. destruct r as [|c r].
      - cbn [app] in H. rewrite scan_nul in H. cbn [obind fst] in H. change (0 =? 91)%Z with false in H. cbv iota in H. injection H as <- <- <-. cbn [tstr]. apply tk_hash.
      - apply ascii_cons in A. destruct A as [Rc A]. cbn [app] in H. rewrite scan_ascii in H by lia. cbn [obind fst snd] in H. destruct (Z.eqb_spec (Z.of_N c) 91) as [E|_]; [|injection H as <- <- <-; cbn [tstr]; apply tk_hash].
        assert (c = 91) by lia. subst c. cbn [Nat.add skipn] in H. destruct (scan_vector fuel true want (r ++ [0]) false []) as [[o c']| | |] eqn:EV; try discriminate H. cbn [obind] in H. injection H as <- <- <-. cbn [tstr].
        destruct o as [v|]; [|apply tk_hash]. destruct (IHv want r false [] v c' A EV) as (-> & l & u & r' & -> & -> & L & ->). cbn [orb app] in *.
        replace (w ++ 35 :: 91 :: u ++ 93 :: r') with (w ++ (35 :: 91 :: u ++ [93]) ++ r') by (cbn [app]; rewrite <- app_assoc; reflexivity). replace (35 :: 91 :: (u ++ 93 :: r') ++ [0]) with ((35 :: 91 :: u ++ [93]) ++ r' ++ [0]) by (cbn [app]; rewrite <- !app_assoc; reflexivity). now apply (tk_vector _ _ w l). }
    change (rd ((b :: r) ++ [0]) 0) with (Ok b) in H. cbn [obind] in H. destruct (special_dec b R) as [[E I]|[E I]]; rewrite E in H.
    + injection H as <- <- <-. cbn [tstr app skipn]. now apply tk_special.
    + destruct (scan_word (S (length ((b :: r) ++ [0]))) ((b :: r) ++ [0]) 1) as [len| | |] eqn:EW; try discriminate H. cbn [obind] in H. injection H as <- <- <-. cbn [tstr]. pose proof (word_inv _ [b] r len A EW) as (wd & r' & -> & F & D & ->).
      cbn [app]; replace (b :: (wd ++ r') ++ [0]) with ((b :: wd) ++ r' ++ [0]) by (cbn [app]; rewrite <- app_assoc; reflexivity). change (length [b] + length wd)%nat with (length (b :: wd)). rewrite skipn_pre0. change (w ++ b :: wd ++ r') with (w ++ (b :: wd) ++ r').
      apply tk_word; auto; [constructor; auto; split; auto|lia].
  - intros want s dbl buf v cur A H. cbn [scan_vector] in H. destruct (scan_token fuel vec false (s ++ [0])) as [[[t o] c1]| | |] eqn:E1; try discriminate H. cbn [obind] in H. apply (IHt false s t o c1 A) in E1.
    destruct (rd (tstr t) 0) as [b| | |] eqn:Eb; try discriminate H. cbn [obind] in H. destruct (if b =? 45 then Ok true else is_digit b) as [g| | |] eqn:Eg; try discriminate H. cbn [obind] in H. destruct g; [|discriminate H].
    assert (Hb : b = 45 \/ digit b). { destruct (N.eqb_spec b 45); [auto|right]. unfold is_digit in Eg. destruct ((b <? 128) || (b =? 255)); [|discriminate Eg]. injection Eg as Eg. unfold isdigit in Eg. apply andb_true_iff in Eg. rewrite !N.leb_le in Eg. exact Eg. }
    destruct (strtonum (tstr t)) as [x| | |] eqn:Ex; try discriminate H. cbn [obind] in H.
    inversion E1 as [w W E2 E3|w q r k W Q E2 E3|w q k W Q E2 E3|w b' r W I E2 E3|w b' wd r W F N D E2 E3|w l u r v' W V1 V2 L Ev E2 E3|s' t' c' E2 E3]; subst; rewrite <- E3 in Eb; cbn in Eb; injection Eb as <-; try (exfalso; unfold digit in Hb; cbn in *; lia).
    rewrite <- E3 in Ex. assert (NX : lax_number (fst x) (b' :: wd)) by (apply (number_of _ r); auto; exists b'; split; [auto|exists wd; reflexivity]).
    apply ascii_app in A. destruct A as [_ A]. apply ascii_app in A. destruct A as [_ A].
    destruct (scan_token fuel vec false (r ++ [0])) as [[[t2 o2] c2]| | |] eqn:E4; try discriminate H. cbn [obind] in H. apply (IHt false r t2 o2 c2 A) in E4.
    destruct (rd (tstr t2) 0) as [b2| | |] eqn:Eb2; try discriminate H. cbn [obind] in H.
    assert (C : (b2 = 44 \/ b2 = 93) -> exists w2 r2, r = w2 ++ b2 :: r2 /\ Forall white w2 /\ c2 = r2 ++ [0]).
    { intros Hc. inversion E4 as [w2 W2 E5 E6|w2 q r2 k W2 Q E5 E6|w2 q k W2 Q E5 E6|w2 b3 r2 W2 I E5 E6|w2 b3 wd2 r2 W2 F2 N2 D2 E5 E6|w2 l u r2 v' W2 V1 V2 L Ev E5 E6|s' t' c' E5 E6]; subst; rewrite <- E6 in Eb2; cbn in Eb2; injection Eb2 as <-; try (exfalso; lia).
      - exists w2, r2. auto.
      - exfalso. inversion F2 as [|? ? F3 _]; subst. apply word_not_special in F3. apply F3. cbn. lia. }
    destruct (N.eqb_spec b2 44) as [->|N44].
    + destruct (C (or_introl eq_refl)) as (w2 & r2 & -> & W2 & ->). apply ascii_app in A. destruct A as [_ A]. apply ascii_cons in A. destruct A as [_ A]. destruct (IHv want r2 _ _ v cur A H) as (-> & l & u & r3 & -> & -> & L & ->). split; [reflexivity|]. exists (fst x :: l), (w ++ (b' :: wd) ++ w2 ++ 44 :: u), r3.
      split; [assoc|]. split; [reflexivity|]. split; [now constructor|]. cbn [existsb]. rewrite <- app_assoc. cbn [app]. f_equal. destruct dbl; cbn [orb]; [reflexivity|]. unfold is_real. destruct (fst x); reflexivity.
    + destruct (N.eqb_spec b2 93) as [->|N93]; [|discriminate H]. destruct (C (or_intror eq_refl)) as (w2 & r2 & -> & W2 & ->). destruct want; [|discriminate H]. injection H as <- <-. split; [reflexivity|]. exists [fst x], (w ++ (b' :: wd) ++ w2), r2.
      split; [assoc|]. split; [reflexivity|]. split; [now constructor|]. cbn [existsb]. rewrite orb_false_r. reflexivity.
Qed.
Lemma new_vector_of l : vector_of l (new_vector (existsb is_real l) l).
Proof.
  unfold new_vector. exists (firstn (N.to_nat (N.of_nat (length l) mod 2 ^ 24)) l). split; [eexists; symmetry; apply firstn_skipn|]. split.
  - intros H. rewrite N.mod_small, Nnat.Nat2N.id, firstn_all by exact H. reflexivity.
  - destruct (firstn _ l) as [|a [|b c]]; reflexivity.
Qed.
Lemma starts_inv lit : Forall wordbyte lit -> forall wd r, delim r -> starts (wd ++ r) lit = Ok true -> begins lit wd.
Proof.
  induction 1 as [|b lit Hb _ IH]; intros wd r D H; [exists wd; reflexivity|]. cbn [starts] in H. destruct wd as [|c wd].
  - exfalso. destruct r as [|c r]; [destruct D|]. cbn [app] in H. rewrite rd_head in H. cbn [obind] in H. destruct (N.eqb_spec c b) as [->|]; [|discriminate H]. destruct Hb as (R & W & S). destruct D as [D|[D|D]]; [tauto|tauto|lia].
  - cbn [app] in H. rewrite rd_head in H. cbn [obind] in H. destruct (N.eqb_spec c b) as [->|]; [|discriminate H]. cbn [tl] in H. destruct (IH wd r D H) as (x & ->). exists x. reflexivity.
Qed.
Lemma lit_words : Forall wordbyte [116; 114; 117; 101] /\ Forall wordbyte [102; 97; 108; 115; 101] /\ Forall wordbyte [110; 117; 108; 108].
Proof. repeat split; repeat constructor; unfold white; cbn; lia. Qed.
Lemma scan_inv vec want s t obj cur fuel : ascii s -> scan_token fuel vec want (s ++ [0]) = Ok (t, obj, cur) -> tk vec want s (tstr t) obj cur.
Proof. intros A H. exact (proj1 (token_inv vec fuel) want s t obj cur A H). Qed.
(** The next token is one of the special characters. *)
Lemma special_inv vec want s ts obj cur b : tk vec want s ts obj cur -> rd ts 0 = Ok b -> In b specials -> exists w r, s = w ++ b :: r /\ Forall white w /\ cur = r ++ [0] /\ obj = None.
Proof.
  intros T Eb Ib. inversion T as [w W E2 E3|w q r k W Q E2 E3|w q k W Q E2 E3|w b' r W I E2 E3|w b' wd r W F N D E2 E3|w l u r v' W V1 V2 L Ev E2 E3|s' t' c' E2 E3]; subst; cbn in Eb; injection Eb as <-; try (exfalso; cbn in Ib; lia).
  - exists w, r. auto.
  - exfalso. inversion F as [|? ? F3 _]; subst. now apply word_not_special in F3.
Qed.
(** What was read: a value, or to the end of a string that is not closed. *)
Definition got (vec : bool) (s : list N) (v : json) (cur : list N) : Prop :=
  exists w b r, s = w ++ b ++ r /\ Forall white w /\ cur = r ++ [0] /\ (lax vec v b \/ (r = [] /\ exists k q, v = JStr k /\ b = 34 :: q /\ unended q)).
Lemma ascii_got vec s v cur : ascii s -> got vec s v cur -> exists r, cur = r ++ [0] /\ ascii r.
Proof. intros A (w & b & r & -> & _ & -> & _). exists r. split; [reflexivity|]. rewrite !ascii_app in A. tauto. Qed.
(** A value before a special character has ended. *)
Lemma got_closed vec s v r c fuel want t obj : got vec s v (r ++ [0]) -> scan_token fuel vec want (r ++ [0]) = Ok (t, obj, c) -> ascii r -> forall b, rd (tstr t) 0 = Ok b -> In b specials ->
  exists w u w' r', s = w ++ u ++ w' ++ b :: r' /\ Forall white w /\ lax vec v u /\ Forall white w' /\ c = r' ++ [0] /\ ascii r'.
Proof.
  intros (w & u & r0 & -> & W & E & X) H A b Eb Ib. apply app_inv_tail in E. subst r0. apply (scan_inv vec want r t obj c fuel A) in H. destruct (special_inv _ _ _ _ _ _ b H Eb Ib) as (w' & r' & -> & W' & -> & _).
  destruct X as [X|(E & _)]; [|destruct w'; discriminate E]. exists w, u, w', r'. rewrite ascii_app, ascii_cons in A. repeat split; auto; tauto.
Qed.
Lemma no_close_array vec : forall fuel c l b cur, array_loop fuel vec c l <> Ok (PClose b, cur).
Proof.
  induction fuel as [|fuel IH]; intros s l b cur H; [discriminate H|]. cbn [array_loop] in H. destruct (parse_object fuel vec s) as [[[x|b'|] c]| | |]; try discriminate H; cbn [obind] in H; [|destruct (b' =? 93); discriminate H].
  destruct (scan_token (S (length c)) vec false c) as [[[t o] c2]| | |]; try discriminate H. cbn [obind] in H. destruct (rd (tstr t) 0) as [e| | |]; try discriminate H. cbn [obind] in H. destruct (e =? 93); [discriminate H|]. destruct (e =? 44); [|discriminate H]. now apply IH in H.
Qed.
Lemma no_close_object vec : forall fuel c l b cur, object_loop fuel vec c l <> Ok (PClose b, cur).
Proof.
  induction fuel as [|fuel IH]; intros s l b cur H; [discriminate H|]. cbn [object_loop] in H. destruct (parse_object fuel vec s) as [[[x|b'|] c]| | |]; try discriminate H; cbn [obind] in H; [|destruct (b' =? 125); discriminate H]. destruct x; try discriminate H.
  destruct (scan_token (S (length c)) vec false c) as [[[t o] c2]| | |]; try discriminate H. cbn [obind] in H. destruct (rd (tstr t) 0) as [e| | |]; try discriminate H. cbn [obind] in H. destruct (e =? 58); [|discriminate H].
  destruct (parse_object fuel vec c2) as [[[x|b'|] c3]| | |]; try discriminate H. cbn [obind] in H. destruct (scan_token (S (length c3)) vec false c3) as [[[t2 o2] c4]| | |]; try discriminate H. cbn [obind] in H. destruct (rd (tstr t2) 0) as [f| | |]; try discriminate H. cbn [obind] in H.
  destruct (f =? 125); [discriminate H|]. destruct (f =? 44); [|discriminate H]. now apply IH in H.
Qed.
Theorem lax_inv vec : forall fuel,
  (forall s p cur, ascii s -> parse_object fuel vec (s ++ [0]) = Ok (p, cur) -> match p with PVal v => got vec s v cur | PClose b => exists w r, s = w ++ b :: r /\ Forall white w /\ cur = r ++ [0] | PFail => True end) /\
  (forall s l v cur, ascii s -> array_loop fuel vec (s ++ [0]) l = Ok (PVal v, cur) -> exists l' t r, s = t ++ 93 :: r /\ lax_elements vec l' t /\ v = JArr (l ++ l') /\ cur = r ++ [0]) /\
  (forall s l v cur, ascii s -> object_loop fuel vec (s ++ [0]) l = Ok (PVal v, cur) -> exists m t r, s = t ++ 125 :: r /\ lax_members vec m t /\ v = JObj (sets m l) /\ cur = r ++ [0]).
Proof.
  induction fuel as [|fuel (IHp & IHa & IHo)]; [repeat split; intros; discriminate|]. repeat split.
  - intros s p cur A H. cbn [parse_object] in H. destruct (scan_token (S (length (s ++ [0]))) vec true (s ++ [0])) as [[[t o] c]| | |] eqn:E; try discriminate H. cbn [obind] in H. apply scan_inv in E; [|exact A].
    destruct (tlen t =? 0)%Z; [injection H as <- _; exact I|]. destruct (rd (tstr t) 0) as [b| | |] eqn:Eb; try discriminate H. cbn [obind] in H.
    inversion E as [w W E2 E3|w q r k W Q E2 E3|w q k W Q E2 E3|w b' r W Hi E2 E3|w b' wd r W F N D E2 E3|w l u r v' W V1 V2 L Ev E2 E3|s' t' c' E2 E3]; subst; rewrite <- E3 in *; cbn in Eb; injection Eb as <-.
    + cbn in H. injection H as <- _. exact I.
    + injection H as <- <-. exists w, (34 :: q ++ [34]), r. repeat split; auto. left. now constructor.
    + injection H as <- <-. exists w, (34 :: q), []. rewrite app_nil_r. repeat split; auto. right. split; [auto|]. exists k, q. auto.
    + apply ascii_app in A. destruct A as [_ A]. apply ascii_cons in A. destruct A as [_ A]. destruct (N.eqb_spec b' 91) as [->|N91].
      * destruct p as [v|b|]; [|now apply no_close_array in H|exact I]. destruct (IHa r [] v cur A H) as (l & u & r' & -> & L & -> & ->). exists w, (91 :: u ++ [93]), r'. split; [assoc|]. repeat split; auto. left. now constructor.
      * destruct (N.eqb_spec b' 93) as [->|N93]; [injection H as <- <-; exists w, r; auto|]. destruct (N.eqb_spec b' 123) as [->|N123].
        -- destruct p as [v|b|]; [|now apply no_close_object in H|exact I]. destruct (IHo r [] v cur A H) as (m & u & r' & -> & L & -> & ->). exists w, (123 :: u ++ [125]), r'. split; [assoc|]. repeat split; auto. left. apply (x_obj vec m); [exact L|]. destruct (sets_ok m) as (S1 & _ & S2). split; auto.
        -- destruct (N.eqb_spec b' 125) as [->|N125]; [injection H as <- <-; exists w, r; auto|]. assert (b' = 44 \/ b' = 58) as [-> | ->] by (cbn in Hi; lia); cbn in H; injection H as <- _; exact I.
    + assert (Sp : ~ In b' specials) by (inversion F; subst; now apply word_not_special). replace (b' =? 91) with false in H by (symmetry; apply N.eqb_neq; intros ->; apply Sp; cbn; auto 10). replace (b' =? 93) with false in H by (symmetry; apply N.eqb_neq; intros ->; apply Sp; cbn; auto 10).
      replace (b' =? 123) with false in H by (symmetry; apply N.eqb_neq; intros ->; apply Sp; cbn; auto 10). replace (b' =? 125) with false in H by (symmetry; apply N.eqb_neq; intros ->; apply Sp; cbn; auto 10).
      assert (G : forall v, lax vec v (b' :: wd) -> got vec (w ++ (b' :: wd) ++ r) v (r ++ [0])) by (intros v Lv; exists w, (b' :: wd), r; auto).
      change (b' :: wd ++ r ++ [0]) with ((b' :: wd) ++ r ++ [0]) in H. destruct (if b' =? 45 then Ok true else is_digit b') as [g| | |] eqn:Eg; try discriminate H. cbn [obind] in H. destruct g.
      * assert (Hb : b' = 45 \/ digit b'). { destruct (N.eqb_spec b' 45); [auto|right]. unfold is_digit in Eg. destruct ((b' <? 128) || (b' =? 255)); [|discriminate Eg]. injection Eg as Eg. unfold isdigit in Eg. apply andb_true_iff in Eg. rewrite !N.leb_le in Eg. exact Eg. }
        destruct (strtonum ((b' :: wd) ++ r ++ [0])) as [x| | |] eqn:Ex; try discriminate H. cbn [obind] in H. injection H as <- <-. apply G. constructor. apply (number_of _ r); auto. exists b'. split; [auto|exists wd; reflexivity].
      * destruct lit_words as (L1 & L2 & L3). assert (K : forall lit, Forall wordbyte lit -> starts ((b' :: wd) ++ r ++ [0]) lit = Ok true -> lax_word lit (b' :: wd)) by (intros lit Fl Hl; split; [exact F|exact (starts_inv lit Fl _ _ D Hl)]).
        destruct (starts ((b' :: wd) ++ r ++ [0]) [116; 114; 117; 101]) as [[|]| | |] eqn:S1; try discriminate H; cbn [obind] in H; [injection H as <- <-; apply G; constructor; auto|].
        destruct (starts ((b' :: wd) ++ r ++ [0]) [102; 97; 108; 115; 101]) as [[|]| | |] eqn:S2; try discriminate H; cbn [obind] in H; [injection H as <- <-; apply G; constructor; auto|].
        destruct (starts ((b' :: wd) ++ r ++ [0]) [110; 117; 108; 108]) as [[|]| | |] eqn:S3; try discriminate H; cbn [obind] in H; [injection H as <- <-; apply G; constructor; auto|]. injection H as <- _. exact I.
    + injection H as <- <-. exists w, (35 :: 91 :: u ++ [93]), r. repeat split; auto. left. apply (x_vec _ _ l); auto using new_vector_of.
    + change (35 =? 91) with false in H. change (35 =? 93) with false in H. change (35 =? 123) with false in H. change (35 =? 125) with false in H. cbn in H. injection H as <- _. exact I.
  - intros s l v cur A H. cbn [array_loop] in H. destruct (parse_object fuel vec (s ++ [0])) as [[p c]| | |] eqn:E; try discriminate H. cbn [obind] in H. apply (IHp s p c A) in E. destruct p as [x|b|].
    + destruct (ascii_got vec s x c A E) as (r & -> & Ar). destruct (scan_token (S (length (r ++ [0]))) vec false (r ++ [0])) as [[[t o] c2]| | |] eqn:E2; try discriminate H. cbn [obind] in H. destruct (rd (tstr t) 0) as [b| | |] eqn:Eb; try discriminate H. cbn [obind] in H.
      destruct (N.eqb_spec b 93) as [->|N93].
      * injection H as <- <-. destruct (got_closed vec s x r c2 _ _ t o E E2 Ar 93 Eb) as (w & u & w' & r' & -> & W & X & W' & -> & _); [cbn; auto 10|]. exists [x], (w ++ u ++ w'), r'. split; [assoc|]. split; [now constructor|auto].
      * destruct (N.eqb_spec b 44) as [->|N44]; [|discriminate H]. destruct (got_closed vec s x r c2 _ _ t o E E2 Ar 44 Eb) as (w & u & w' & r' & -> & W & X & W' & -> & Ar'); [cbn; auto 10|].
        destruct (IHa r' (l ++ [x]) v cur Ar' H) as (l' & u' & r2 & -> & L & -> & ->). exists (x :: l'), (w ++ u ++ w' ++ 44 :: u'), r2. split; [assoc|]. split; [now constructor|]. rewrite <- app_assoc. auto.
    + destruct (N.eqb_spec b 93) as [->|]; [|discriminate H]. injection H as <- <-. destruct E as (w & r & -> & W & ->). exists [], w, r. rewrite app_nil_r. repeat split; auto. now constructor.
    + discriminate H.
  - intros s l v cur A H. cbn [object_loop] in H. destruct (parse_object fuel vec (s ++ [0])) as [[p c]| | |] eqn:E; try discriminate H. cbn [obind] in H. apply (IHp s p c A) in E. destruct p as [x|b|].
    + destruct x as [| | | |k| |]; try discriminate H. destruct (ascii_got vec s _ c A E) as (r & -> & Ar). destruct (scan_token (S (length (r ++ [0]))) vec false (r ++ [0])) as [[[t o] c2]| | |] eqn:E2; try discriminate H. cbn [obind] in H. destruct (rd (tstr t) 0) as [b| | |] eqn:Eb; try discriminate H. cbn [obind] in H.
      destruct (N.eqb_spec b 58) as [->|]; [|discriminate H]. destruct (got_closed vec s _ r c2 _ _ t o E E2 Ar 58 Eb) as (w & u & w' & r' & -> & W & X & W' & -> & Ar'); [cbn; auto 10|].
      assert (Q : exists q, u = 34 :: q ++ [34] /\ lax_string k q).
      { inversion X as [| | | |v0 l0 s0 V L0 Ev E3 E4|k0 q Q E3 E4| |]; subst; [|eauto]. destruct Ev as (l' & _ & _ & Ev). destruct l' as [|n [|]]; discriminate Ev. }
      destruct Q as (q & -> & Q). clear X E E2 Eb. destruct (parse_object fuel vec (r' ++ [0])) as [[p2 c3]| | |] eqn:E; try discriminate H. cbn [obind] in H. destruct p2 as [x| |]; try discriminate H. apply (IHp r' _ c3 Ar') in E.
      destruct (ascii_got vec r' x c3 Ar' E) as (r2 & -> & Ar2). destruct (scan_token (S (length (r2 ++ [0]))) vec false (r2 ++ [0])) as [[[t2 o2] c4]| | |] eqn:E2; try discriminate H. cbn [obind] in H. destruct (rd (tstr t2) 0) as [b| | |] eqn:Eb; try discriminate H. cbn [obind] in H.
      destruct (N.eqb_spec b 125) as [->|N125].
      * injection H as <- <-. destruct (got_closed vec r' x r2 c4 _ _ t2 o2 E E2 Ar2 125 Eb) as (w2 & u & w3 & r3 & -> & W2 & X & W3 & -> & _); [cbn; auto 10|]. exists [(k, x)], (w ++ (34 :: q ++ [34]) ++ w' ++ 58 :: w2 ++ u ++ w3), r3. split; [assoc|]. split; [now apply xm_one|auto].
      * destruct (N.eqb_spec b 44) as [->|N44]; [|discriminate H]. destruct (got_closed vec r' x r2 c4 _ _ t2 o2 E E2 Ar2 44 Eb) as (w2 & u & w3 & r3 & -> & W2 & X & W3 & -> & Ar3); [cbn; auto 10|].
        destruct (IHo r3 (dict_set l k x) v cur Ar3 H) as (m & u' & r4 & -> & L & -> & ->). exists ((k, x) :: m), (w ++ (34 :: q ++ [34]) ++ w' ++ 58 :: w2 ++ u ++ w3 ++ 44 :: u'), r4. split; [assoc|]. split; [now apply xm_cons|]. auto.
    + destruct (N.eqb_spec b 125) as [->|]; [|discriminate H]. injection H as <- <-. destruct E as (w & r & -> & W & ->). exists [], w, r. repeat split; auto. now constructor.
    + discriminate H.
Qed.

Theorem parse_lax : forall vec s v, ascii s -> json_parse vec s = Ok v -> v <> JNull ->
  exists w b r, s = w ++ b ++ r /\ Forall white w /\ (lax vec v b \/ (r = [] /\ exists k q, v = JStr k /\ b = 34 :: q /\ unended q)).
Proof.
  intros vec s v A H N. unfold json_parse in H. destruct (parse_object (2 * length s + 3) vec (s ++ [0])) as [[p c]| | |] eqn:E; try discriminate H. cbn [obind fst] in H. injection H as H. apply (proj1 (lax_inv vec _)) in E; [|exact A]. destruct p as [x|b|]; try congruence. subst x.
  destruct E as (w & b & r & -> & W & _ & X). exists w, b, r. auto.
Qed.
(** ** Texts that are rejected *)
Lemma lax_first vec v b : lax vec v b -> exists c r, b = c :: r /\ ~ white c /\ ~ In c [44; 58; 93; 125] /\ (c = 91 -> In 93 r) /\ (c = 123 -> In 125 r).
Proof.
  assert (Wd : forall first s, first <> [] -> lax_word first s -> exists c r, s = c :: r /\ ~ white c /\ ~ In c [44; 58; 93; 125] /\ (c = 91 -> In 93 r) /\ (c = 123 -> In 125 r)).
  { intros first s Hf [F (r & ->)]. destruct first as [|c first]; [congruence|]. cbn [app] in F. inversion F as [|? ? (_ & W & S) _]; subst. exists c, (first ++ r). split; [reflexivity|]. cbn in S |- *. repeat split; [auto|intros X; apply S; lia|intros X; exfalso; apply S; lia|intros X; exfalso; apply S; lia]. }
  assert (En : forall a (s : list N), In a (s ++ [a])) by (intros; apply in_or_app; right; now left).
  intros H. inversion H as [s X|s X|s X|n s ((c & _ & X) & _)|v0 l s V L E|k s Q|l s L|m d s M O]; subst; try (apply (Wd _ b) in X; [exact X|discriminate]);
    (eexists; eexists; split; [reflexivity|]; unfold white; cbn [In]; repeat split; try lia; intros Ec; try lia; auto).
Qed.
Lemma same_space w w' c r c' r' : Forall white w -> Forall white w' -> ~ white c -> ~ white c' -> w ++ c :: r = w' ++ c' :: r' -> c = c' /\ r = r'.
Proof.
  intros W. revert w'. induction W as [|a w Ha W IH]; intros w' W' Hc Hc' E; destruct W' as [|a' w' Ha' W']; cbn in E; injection E; intros; subst; auto; try contradiction. eapply IH; eauto.
Qed.
Theorem rejected : forall vec w c r v, ascii (w ++ c :: r) -> Forall white w -> In c [44; 58; 93; 125] \/ (c = 91 /\ ~ In 93 r) \/ (c = 123 /\ ~ In 125 r) -> json_parse vec (w ++ c :: r) = Ok v -> v = JNull.
Proof.
  intros vec w c r v A W Hc H. assert (D : v = JNull \/ v <> JNull) by (destruct v; [left; reflexivity|right; discriminate..]). destruct D as [D|D]; [exact D|]. exfalso. destruct (parse_lax vec _ v A H D) as (w' & b & r' & E & W' & X).
  assert (Nc : ~ white c) by (unfold white; cbn in Hc; lia). destruct X as [X|(-> & k & q & _ & -> & _)].
  - destruct (lax_first vec v b X) as (c' & b' & -> & Nw & N1 & N2 & N3). cbn [app] in E. destruct (same_space w w' c r c' (b' ++ r') W W' Nc Nw E) as [-> ->]. destruct Hc as [Hc|[[-> Hc]|[-> Hc]]]; [tauto|apply Hc, in_or_app; left; now apply N2|apply Hc, in_or_app; left; now apply N3].
  - cbn [app] in E. destruct (same_space w w' c r 34 (q ++ []) W W' Nc) as [-> _]; [unfold white; lia|exact E|]. cbn in Hc. lia.
Qed.
