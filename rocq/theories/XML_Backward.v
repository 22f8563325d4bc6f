(** What the machine accepts is a document: markup inside tags. *)
Require Import Coq.ZArith.ZArith Coq.NArith.NArith Coq.Lists.List Coq.Bool.Bool Coq.micromega.Lia Coq.micromega.ZifyBool Coq.micromega.ZifyN.
Require Import Verif.Base Verif.XML_Model Verif.XML_Spec Verif.XML_Machine Verif.XML_Forward Verif.XML_Forward2.
Import ListNotations.
Local Open Scope N_scope.

Definition ok (s : bytes) : Prop := Forall (fun b => b < 256) s.
Lemma ok_app : forall a b, ok (a ++ b) -> ok a /\ ok b.
Proof. intros a b. apply Forall_app. Qed.
Lemma ok_cons : forall b s, ok (b :: s) -> b < 256 /\ ok s.
Proof. intros b s H. now inversion H. Qed.

Ltac lits_in H := repeat match type of H with
  | context [N.eqb (Npos ?a) (Npos ?b)] =>
    let r := eval vm_compute in (N.eqb (Npos a) (Npos b)) in
    match r with true => change (N.eqb (Npos a) (Npos b)) with true in H | false => change (N.eqb (Npos a) (Npos b)) with false in H end
  | context [N.eqb (Npos ?a) 0] => change (N.eqb (Npos a) 0) with false in H
  | context [N.eqb 0 0] => change (N.eqb 0 0) with true in H
  end.
Ltac red_in H := cbv beta iota zeta delta [aprepare aperform t_go t_next t_quote t_str t_act c_st c_next c_quote c_str
  c_frames c_name c_val c_ref c_root with_state with_str with_frames with_name with_val with_ref with_root] in H; lits_in H; cbv beta iota in H.
(** The cases of the next byte. *)
Ltac next_at H :=
  rewrite arun_cons in H; unfold astep in H; cbv beta iota delta [table c_st c_quote] in H;
  repeat match type of H with context [if ?c then T _ _ _ _ _ else _] => destruct c eqn:? end; red_in H; try discriminate H;
  repeat match goal with E : (?a =? ?b) = true |- _ => apply N.eqb_eq in E; first [subst a|subst b|idtac] end.
Ltac next H b s := destruct s as [|b s]; [discriminate H|]; next_at H.
(** A literal follows. *)
Ltac lit H := let b := fresh "b" in let s' := fresh "s" in
  match type of H with arun _ ?s = _ => destruct s as [|b s']; [discriminate H|]; rewrite arun_cons in H; unfold astep in H;
    cbv beta iota delta [table c_st c_quote] in H; red_in H;
    match type of H with context [if b =? ?k then _ else _] => let E := fresh "E" in destruct (b =? k) eqn:E; [|discriminate H]; apply N.eqb_eq in E; subst b; red_in H end end.

Lemma stay_back : forall (P : N -> Prop) c s t, (forall b, P b \/ ~ P b) -> (forall b, P b -> astep c b = Some c) -> arun c s = Some t ->
  exists w s', s = w ++ s' /\ Forall P w /\ arun c s' = Some t /\ match s' with [] => True | b :: _ => ~ P b end.
Proof.
  intros P c s t Hd Hc. induction s as [|b s IH]; intros H.
  - exists [], []. repeat split; auto.
  - destruct (Hd b) as [Hb|Hb].
    + rewrite arun_cons, (Hc b Hb) in H. destruct (IH H) as (w & s' & -> & Hw & H' & Hn). exists (b :: w), s'. repeat split; auto.
    + exists [], (b :: s). repeat split; auto.
Qed.
Lemma space_dec : forall b, space b \/ ~ space b.
Proof. intros b. unfold space. lia. Qed.
(** Leave the spaces behind: names the spaces [w], their property [Hw]. *)
Ltac spaces H w Hw s' := let E := fresh "E" in let H' := fresh "H" in let Hn := fresh "Hn" in
  match type of H with arun ?c ?s = _ =>
    destruct (stay_back space c s _ space_dec ltac:(let b := fresh "b" in let Hb := fresh "Hb" in intros b Hb; look; reflexivity) H) as (w & s' & E & Hw & H' & Hn);
    subst s; clear H; rename H' into H end.

Lemma sp_space : forall b, is_sp b = true -> space b.
Proof. intros b H. cls_unfold. lia. Qed.
Lemma sp_not : forall b, ~ space b -> is_sp b = false.
Proof. intros b H. cls_unfold. lia. Qed.
Lemma start_name : forall b, is_namestart b = true -> name_start b.
Proof. intros b H. cls_unfold. lia. Qed.
Lemma char_name : forall b, is_name b = true -> name_char b.
Proof. intros b H. cls_unfold. lia. Qed.

(** Comments. *)
Lemma comment_nil : comment_text [].
Proof. intros [|x [|y a]] b; discriminate. Qed.
Lemma comment_cons : forall b c, b <> 45 -> comment_text c -> comment_text (b :: c).
Proof. intros b c Hb H [|x a] d E; cbn [app] in E; injection E as E1 E2; [congruence|]. exact (H a d E2). Qed.
Lemma comment_pair : forall b c, b <> 45 -> comment_text c -> comment_text (45 :: b :: c).
Proof.
  intros b c Hb H [|x [|y a]] d E; cbn [app] in E; injection E as E1 E2; try congruence. exact (H a d H0).
Qed.
Lemma comment_back : forall nx q sr fs nm v rf rt t s, arun (mkC S_comment2 nx q sr fs nm v rf rt) s = Some t ->
  exists c s', s = c ++ [45; 45; 62] ++ s' /\ comment_text c /\ arun (mkC nx nx q sr fs nm v rf rt) s' = Some t.
Proof.
  intros nx q sr fs nm v rf rt t s. remember (length s) as m eqn:Em. assert (Hm : (length s <= m)%nat) by lia. clear Em.
  revert s Hm. induction m as [|m IH]; intros s Hm H; [destruct s; [discriminate H|cbn in Hm; lia]|].
  next H b s; cbn [length] in Hm.
  - next H b s; cbn [length] in Hm.
    + next H b s. exists [], s. split; [reflexivity|]. split; [apply comment_nil|exact H].
    + destruct (IH s ltac:(lia) H) as (c & s' & -> & Hc & H'). exists (45 :: b :: c), s'. split; [reflexivity|].
      split; [apply comment_pair; [lia|assumption]|assumption].
  - destruct (IH s ltac:(lia) H) as (c & s' & -> & Hc & H'). exists (b :: c), s'. split; [reflexivity|].
    split; [apply comment_cons; [lia|assumption]|assumption].
Qed.

(** Processing instructions. *)
Lemma instruction_text_back : forall nx q sr fs nm v rf rt t s, arun (mkC S_pi2 nx q sr fs nm v rf rt) s = Some t ->
  exists c s', s = c ++ [63; 62] ++ s' /\ instruction_text c /\ arun (mkC nx nx q sr fs [] v rf rt) s' = Some t.
Proof.
  intros nx q sr fs nm v rf rt t s. remember (length s) as m eqn:Em. assert (Hm : (length s <= m)%nat) by lia. clear Em.
  revert s Hm. induction m as [|m IH]; intros s Hm H; [destruct s; [discriminate H|cbn in Hm; lia]|].
  next H b s; cbn [length] in Hm.
  - next H b s; cbn [length] in Hm.
    + exists [], s. split; [reflexivity|]. split; [constructor|exact H].
    + destruct (IH s ltac:(lia) H) as (c & s' & -> & Hc & H'). exists (63 :: b :: c), s'. split; [reflexivity|].
      split; [apply ins_pair; [lia|assumption]|assumption].
  - destruct (IH s ltac:(lia) H) as (c & s' & -> & Hc & H'). exists (b :: c), s'. split; [reflexivity|].
    split; [apply ins_char; [lia|assumption]|assumption].
Qed.
Lemma after_back : forall nx q sr fs v rf rt t s nm, arun (mkC S_pi1 nx q sr fs nm v rf rt) s = Some t ->
  exists r e s', s = r ++ e ++ s' /\ Forall name_char r /\ after_target e /\ xml_name (nm ++ r) = false /\
    arun (mkC nx nx q sr fs [] v rf rt) s' = Some t.
Proof.
  intros nx q sr fs v rf rt t s. induction s as [|b0 s0 IH]; intros nm H; [discriminate H|].
  next_at H.
  - destruct (IH _ H) as (r & e & s' & -> & Hr & He & Hx & H'). exists (b0 :: r), e, s'. split; [reflexivity|].
    split; [constructor; [now apply char_name|assumption]|]. rewrite <- app_assoc in Hx. auto.
  - destruct (xml_name nm) eqn:Hx; [discriminate H|]. next H b s0. exists [], [63; 62], s0. split; [reflexivity|]. rewrite app_nil_r.
    repeat split; auto. constructor.
  - destruct (xml_name nm) eqn:Hx; [discriminate H|]. destruct (instruction_text_back _ _ _ _ _ _ _ _ _ _ H) as (c & s' & -> & Hc & H').
    exists [], ([b0] ++ c ++ [63; 62]), s'. split; [cbn [app]; now rewrite <- app_assoc|]. rewrite app_nil_r.
    split; [constructor|]. split; [constructor; [now apply sp_space|assumption]|]. auto.
Qed.
Lemma is_target : forall n, is_a_name n -> xml_name n = false -> target n.
Proof.
  intros n Hn Hx. split; [assumption|]. intros (x & m & l & -> & H1 & H2 & H3). revert Hx.
  destruct H1 as [->| ->], H2 as [->| ->], H3 as [->| ->]; discriminate.
Qed.
Lemma after_instruction : forall n e, target n -> after_target e -> instruction ([60; 63] ++ n ++ e).
Proof. intros n e Hn He. destruct He; [now apply ins_short|now apply ins_long]. Qed.
Lemma instruction_back : forall nx q sr fs v rf rt t s, arun (mkC S_pi0 nx q sr fs [] v rf rt) s = Some t ->
  exists p s', s = p ++ s' /\ instruction ([60; 63] ++ p) /\ arun (mkC nx nx q sr fs [] v rf rt) s' = Some t.
Proof.
  intros nx q sr fs v rf rt t s H. next H b s. destruct (after_back _ _ _ _ _ _ _ _ _ _ H) as (r & e & s' & -> & Hr & He & Hx & H').
  exists ((b :: r) ++ e), s'. split; [now rewrite <- app_assoc|]. split; [|assumption]. apply after_instruction; [|assumption].
  apply is_target; [split; [now apply start_name|assumption]|assumption].
Qed.

(** References. *)
Lemma lor_shift : forall a b k, b < 2 ^ k -> N.lor (N.shiftl a k) b = a * 2 ^ k + b.
Proof.
  intros a b k H. rewrite <- N.shiftl_mul_pow2.
  assert (Z : N.land (N.shiftl a k) b = 0).
  { apply N.bits_inj. intros i. rewrite N.land_spec, N.bits_0. destruct (N.lt_ge_cases i k) as [Hi|Hi].
    - now rewrite N.shiftl_spec_low.
    - destruct (N.eq_dec b 0) as [->|Hb]; [now rewrite N.bits_0, andb_false_r|].
      rewrite (N.bits_above_log2 b i), andb_false_r; [reflexivity|].
      apply N.log2_lt_pow2 in H; lia. }
  rewrite N.add_nocarry_lxor by assumption. symmetry. now apply N.lxor_lor.
Qed.
Lemma int5_value : forall a b c d e, b < 256 -> c < 256 -> d < 256 -> e < 256 ->
  int5 a b c d e = a * 2^32 + b * 2^24 + c * 2^16 + d * 2^8 + e.
Proof.
  intros a b c d e Hb Hc Hd He. unfold int5.
  assert (E : forall x y k, x < 256 -> N.shiftl x k + y = x * 2 ^ k + y) by (intros; now rewrite N.shiftl_mul_pow2).
  replace (N.lor (N.shiftl a 32) (N.shiftl b 24)) with (N.shiftl (a * 2^8 + b) 24).
  2: { rewrite <- lor_shift by (cbn; lia). rewrite N.shiftl_lor, N.shiftl_shiftl. reflexivity. }
  replace (N.lor (N.shiftl (a * 2^8 + b) 24) (N.shiftl c 16)) with (N.shiftl ((a * 2^8 + b) * 2^8 + c) 16).
  2: { rewrite <- (lor_shift _ c) by (cbn; lia). rewrite N.shiftl_lor, N.shiftl_shiftl. reflexivity. }
  replace (N.lor (N.shiftl ((a * 2^8 + b) * 2^8 + c) 16) (N.shiftl d 8)) with (N.shiftl (((a * 2^8 + b) * 2^8 + c) * 2^8 + d) 8).
  2: { rewrite <- (lor_shift _ d) by (cbn; lia). rewrite N.shiftl_lor, N.shiftl_shiftl. reflexivity. }
  rewrite lor_shift by (cbn; lia). lia.
Qed.
Lemma dec_back : forall ds n z c, ok ds -> Forall (fun b => b <> 0) ds -> dec_loop (ds ++ 0 :: z) n = Ok (c, 0) -> Forall digit ds.
Proof.
  induction ds as [|d ds IH]; intros n z c Ho Hz H; [constructor|].
  apply ok_cons in Ho. destruct Ho as [Hd Ho]. inversion Hz as [|? ? Hz1 Hz2]; subst. cbn [app dec_loop] in H.
  rewrite num_form in H by assumption. destruct (num_test d) eqn:E; [|injection H as _ ->; congruence].
  constructor; [cls_unfold; lia|]. eapply IH; eassumption.
Qed.
Lemma hex_back : forall ds n z c, ok ds -> Forall (fun b => b <> 0) ds -> hex_loop (ds ++ 0 :: z) n = Ok (c, 0) -> Forall hexdigit ds.
Proof.
  induction ds as [|d ds IH]; intros n z c Ho Hz H; [constructor|].
  apply ok_cons in Ho. destruct Ho as [Hd Ho]. inversion Hz as [|? ? Hz1 Hz2]; subst. cbn [app hex_loop] in H.
  destruct (is_hex d) eqn:E; [|injection H as _ ->; congruence].
  constructor; [|eapply IH; eassumption].
  assert (G : implb (is_hex d) (num_test d || ((65 <=? d) && (d <=? 70)) || ((97 <=? d) && (d <=? 102))) = true).
  { apply (below_256 (fun d => implb (is_hex d) (num_test d || ((65 <=? d) && (d <=? 70)) || ((97 <=? d) && (d <=? 102))))); [vm_compute; reflexivity|assumption]. }
  rewrite E in G. cbn [implb] in G. cls_unfold. lia.
Qed.
Lemma dec_total : forall ds n z, exists c b, dec_loop (ds ++ 0 :: z) n = Ok (c, b).
Proof. induction ds as [|d ds IH]; intros n z; cbn [app dec_loop]; [eexists; eexists; reflexivity|]. destruct (is_num d); [apply IH|]. eauto. Qed.
Lemma hex_total : forall ds n z, exists c b, hex_loop (ds ++ 0 :: z) n = Ok (c, b).
Proof. induction ds as [|d ds IH]; intros n z; cbn [app hex_loop]; [eexists; eexists; reflexivity|]. destruct (is_hex d); [apply IH|]. eauto. Qed.

Lemma value_reference : forall r c, ok r -> Forall (fun b => is_ref b = true) r -> (length r <= 7)%nat -> ref_value r = Some c -> reference r c.
Proof.
  intros r c Ho Hr Hl H. unfold ref_value in H.
  destruct (ref_char (r ++ repeat 0 (8 - length r))) as [ch| | |] eqn:E; try discriminate.
  destruct (bad_char ch) eqn:Eb; [discriminate|]. injection H as ->. apply bad_char_spec in Eb.
  assert (Hnz : Forall (fun b => b <> 0) r).
  { eapply Forall_impl; [|exact Hr]. intros b Hb ->. discriminate. }
  split; [|split; assumption]. rewrite padded in E by assumption. unfold ref_char in E.
  destruct r as [|r0 r]; [cbn in E; injection E as <-; destruct Eb as [Eb _]; lia|].
  apply ok_cons in Ho. destruct Ho as [H0 Ho]. inversion Hnz as [|? ? Hz0 Hnz']; subst. cbn [app] in E.
  unfold Utf8_Model.rd in E. cbn [nth_error obind] in E.
  destruct (N.eqb_spec r0 35) as [->|H35].
  - destruct r as [|r1 r]; [cbn in E; injection E as <-; destruct Eb as [Eb _]; lia|].
    cbn [app nth_error obind] in E. apply ok_cons in Ho. destruct Ho as [H1 Ho]. inversion Hnz' as [|? ? Hz1 Hnz'']; subst.
    destruct (N.eqb_spec r1 120) as [->|H120].
    + cbn [skipn] in E. destruct (hex_total r 0 (repeat 0 (7 - length (35 :: 120 :: r)))) as (x & y & Ex). rewrite Ex in E. cbn [obind fst snd] in E.
      destruct (y =? 0) eqn:Ey; [apply N.eqb_eq in Ey; subst y|injection E as <-; destruct Eb as [Eb _]; lia]. injection E as ->.
      pose proof (hex_back _ _ _ _ Ho Hnz'' Ex) as Hh. rewrite hex_digits in Ex; [|assumption|].
      * injection Ex as <-. apply ref_hex; [|assumption]. intros ->. cbn in Eb. destruct Eb as [Eb _]; lia.
      * assert (16 ^ N.of_nat (length r) <= 16 ^ 5) by (apply N.pow_le_mono_r; cbn [length] in *; lia). lia.
    + cbn [skipn] in E. change (r1 :: r ++ 0 :: ?z) with ((r1 :: r) ++ 0 :: z) in E.
      destruct (dec_total (r1 :: r) 0 (repeat 0 (7 - length (35 :: r1 :: r)))) as (x & y & Ex). rewrite Ex in E. cbn [obind fst snd] in E.
      destruct (y =? 0) eqn:Ey; [apply N.eqb_eq in Ey; subst y|injection E as <-; destruct Eb as [Eb _]; lia]. injection E as ->.
      pose proof (dec_back (r1 :: r) _ _ _ ltac:(now constructor) ltac:(now constructor) Ex) as Hh. rewrite dec_digits in Ex; [|assumption|].
      * injection Ex as <-. apply ref_dec; [discriminate|assumption].
      * assert (10 ^ N.of_nat (length (r1 :: r)) <= 10 ^ 6) by (apply N.pow_le_mono_r; cbn [length] in *; lia). lia.
  - assert (Hn : forall l i, ok l -> nth i l 0 < 256).
    { intros l i Hlo. destruct (nth_in_or_default i l 0) as [Hin|Hd]; [|rewrite Hd; lia]. unfold ok in Hlo. rewrite Forall_forall in Hlo. now apply Hlo. }
    assert (Ho' : ok (r0 :: r)) by now constructor.
    (* the five bytes *)
    assert (Ez : exists r1 r2 r3 r4 rest, r ++ 0 :: repeat 0 (7 - length (r0 :: r)) = r1 :: r2 :: r3 :: r4 :: rest /\
       r1 < 256 /\ r2 < 256 /\ r3 < 256 /\ r4 < 256 /\
       (r1 = 0 -> r = []) /\ (r1 <> 0 -> r2 = 0 -> r = [r1]) /\ (r1 <> 0 -> r2 <> 0 -> r3 = 0 -> r = [r1; r2]) /\ (r1 <> 0 -> r2 <> 0 -> r3 <> 0 -> r4 = 0 -> r = [r1; r2; r3])).
    { clear E H35. cbn [length] in Hl.
      destruct r as [|a1 r]; [exists 0, 0, 0, 0, (repeat 0 3); split; [reflexivity|]; cbv beta in *; repeat (split; [assumption || lia|]); repeat split; intros; subst; (reflexivity || congruence)|].
      apply ok_cons in Ho. destruct Ho as [A1 Ho]. inversion Hnz' as [|? ? B1 C1]; subst.
      destruct r as [|a2 r]; [exists a1, 0, 0, 0, (repeat 0 3); split; [reflexivity|]; cbv beta in *; repeat (split; [assumption || lia|]); repeat split; intros; subst; (reflexivity || congruence)|].
      apply ok_cons in Ho. destruct Ho as [A2 Ho]. inversion C1 as [|? ? B2 C2]; subst.
      destruct r as [|a3 r]; [exists a1, a2, 0, 0, (repeat 0 3); split; [reflexivity|]; cbv beta in *; repeat (split; [assumption || lia|]); repeat split; intros; subst; (reflexivity || congruence)|].
      apply ok_cons in Ho. destruct Ho as [A3 Ho]. inversion C2 as [|? ? B3 C3]; subst.
      destruct r as [|a4 r]; [exists a1, a2, a3, 0, (repeat 0 3); split; [reflexivity|]; cbv beta in *; repeat (split; [assumption || lia|]); repeat split; intros; subst; (reflexivity || congruence)|].
      apply ok_cons in Ho. destruct Ho as [A4 Ho]. inversion C3 as [|? ? B4 C4]; subst.
      exists a1, a2, a3, a4. eexists. split; [cbn [app]; reflexivity|]. cbv beta in *; repeat (split; [assumption|]); repeat split; intros; subst; congruence. }
    destruct Ez as (r1 & r2 & r3 & r4 & rest & Ez & A1 & A2 & A3 & A4 & F1 & F2 & F3 & F4). rewrite Ez in E. cbn [nth_error obind] in E.
    rewrite !int5_value in E by lia.
    repeat match type of E with context [if ?x =? ?y then _ else _] => destruct (N.eqb_spec x y) end; injection E as <-;
      [..|destruct Eb as [Eb _]; lia].
    + assert (r0 = 108 /\ r1 = 116 /\ r2 = 0 /\ r3 = 0 /\ r4 = 0) as (-> & -> & -> & -> & ->) by lia. rewrite F2 by lia. constructor.
    + assert (r0 = 103 /\ r1 = 116 /\ r2 = 0 /\ r3 = 0 /\ r4 = 0) as (-> & -> & -> & -> & ->) by lia. rewrite F2 by lia. constructor.
    + assert (r0 = 97 /\ r1 = 109 /\ r2 = 112 /\ r3 = 0 /\ r4 = 0) as (-> & -> & -> & -> & ->) by lia. rewrite F3 by lia. constructor.
    + assert (r0 = 97 /\ r1 = 112 /\ r2 = 111 /\ r3 = 115 /\ r4 = 0) as (-> & -> & -> & -> & ->) by lia. rewrite F4 by lia. constructor.
    + assert (r0 = 113 /\ r1 = 117 /\ r2 = 111 /\ r3 = 116 /\ r4 = 0) as (-> & -> & -> & -> & ->) by lia. rewrite F4 by lia. constructor.
Qed.

Lemma reference_back_attr : forall nx q sr fs nm v rt t s rf, ok rf -> Forall (fun b => is_ref b = true) rf -> (length rf <= 7)%nat -> ok s ->
  arun (mkC S_attr4 nx q sr fs nm v rf rt) s = Some t ->
  exists r c s', s = r ++ [59] ++ s' /\ reference (rf ++ r) c /\ arun (mkC S_attr3 nx q sr fs nm (v ++ utf8 c) (rf ++ r) rt) s' = Some t.
Proof.
  intros nx q sr fs nm v rt t s. induction s as [|b0 s0 IH]; intros rf Hrf Hir Hl Hs H; [discriminate H|].
  apply ok_cons in Hs. destruct Hs as [Hb0 Hs0]. next_at H.
  - destruct (7 <=? length rf)%nat eqn:E7; [discriminate H|]. apply Nat.leb_gt in E7.
    destruct (IH (rf ++ [b0])) as (r & c & s' & -> & Hr & H').
    + apply Forall_app. split; [assumption|repeat constructor; assumption].
    + apply Forall_app. split; [assumption|repeat constructor; assumption].
    + rewrite app_length. cbn [length]. lia.
    + assumption.
    + exact H.
    + rewrite <- app_assoc in *. exists (b0 :: r), c, s'. auto.
  - destruct (ref_value rf) as [c|] eqn:Ev; [|discriminate H]. exists [], c, s0. rewrite app_nil_r. split; [reflexivity|].
    split; [now apply value_reference|exact H].
Qed.
Lemma reference_back_text : forall nx q sr fs nm v rt t s rf, ok rf -> Forall (fun b => is_ref b = true) rf -> (length rf <= 7)%nat -> ok s ->
  arun (mkC S_misc2a nx q sr fs nm v rf rt) s = Some t ->
  exists r c s', s = r ++ [59] ++ s' /\ reference (rf ++ r) c /\ arun (mkC S_misc2 nx q sr (add_top fs (utf8 c)) nm v (rf ++ r) rt) s' = Some t.
Proof.
  intros nx q sr fs nm v rt t s. induction s as [|b0 s0 IH]; intros rf Hrf Hir Hl Hs H; [discriminate H|].
  apply ok_cons in Hs. destruct Hs as [Hb0 Hs0]. next_at H.
  - destruct (7 <=? length rf)%nat eqn:E7; [discriminate H|]. apply Nat.leb_gt in E7.
    destruct (IH (rf ++ [b0])) as (r & c & s' & -> & Hr & H').
    + apply Forall_app. split; [assumption|repeat constructor; assumption].
    + apply Forall_app. split; [assumption|repeat constructor; assumption].
    + rewrite app_length. cbn [length]. lia.
    + assumption.
    + exact H.
    + rewrite <- app_assoc in *. exists (b0 :: r), c, s'. auto.
  - destruct (ref_value rf) as [c|] eqn:Ev; [|discriminate H]. exists [], c, s0. rewrite app_nil_r. split; [reflexivity|].
    split; [now apply value_reference|exact H].
Qed.

(** Attributes. *)
Lemma value_back : forall nx q sr n a k fs nm rt t m s, (length s <= m)%nat -> ok s -> forall v0 rf,
  arun (mkC S_attr3 nx q sr ((n, a, k) :: fs) nm v0 rf rt) s = Some t ->
  exists u v rf' s', s = u ++ [q] ++ s' /\ value q u v /\
    arun (mkC S_elem2 nx q sr ((n, assign a nm (v0 ++ v), k) :: fs) [] (v0 ++ v) rf' rt) s' = Some t.
Proof.
  intros nx q sr n a k fs nm rt t m. induction m as [|m IH]; intros s Hm Hs v0 rf H; [destruct s; [discriminate H|cbn in Hm; lia]|].
  next H b s; cbn [length] in Hm; apply ok_cons in Hs; destruct Hs as [Hb Hs].
  - destruct (IH s ltac:(lia) Hs _ _ H) as (u & v & rf' & s' & -> & Hv & H').
    exists (b :: u), (as_space b :: v), rf', s'. rewrite <- app_assoc in H'. split; [reflexivity|]. split; [|assumption].
    apply val_char; [lia|lia|lia|assumption].
  - destruct (reference_back_attr _ _ _ _ _ _ _ _ _ _ (Forall_nil _) (Forall_nil _) ltac:(cbn; lia) Hs H) as (r & c & s1 & -> & Hr & H1).
    cbn [app] in Hr, H1. apply ok_app in Hs. destruct Hs as [_ Hs]. apply ok_cons in Hs. destruct Hs as [_ Hs].
    rewrite !app_length in Hm. cbn [length] in Hm.
    destruct (IH s1 ltac:(lia) Hs _ _ H1) as (u & v & rf' & s' & -> & Hv & H').
    exists (38 :: r ++ 59 :: u), (utf8 c ++ v), rf', s'. rewrite <- app_assoc in H'. split; [cbn [app]; now rewrite <- app_assoc|]. split; [|assumption].
    now apply val_ref.
  - exists [], [], rf, s. rewrite app_nil_r. split; [reflexivity|]. split; [constructor|exact H].
Qed.
Lemma attribute_back2 : forall nx q sr n a k fs nm v rf rt t s, ok s ->
  arun (mkC S_attr2 nx q sr ((n, a, k) :: fs) nm v rf rt) s = Some t -> v = [] ->
  exists w2 q' u v' J s', s = w2 ++ [q'] ++ u ++ [q'] ++ s' /\ white w2 /\ quote_mark q' /\ value q' u v' /\
    arun (at_ S_elem2 J ((n, assign a nm v', k) :: fs) [] rt) s' = Some t.
Proof.
  intros nx q sr n a k fs nm v rf rt t s Hs H ->. spaces H w Hw s0. apply ok_app in Hs. destruct Hs as [_ Hs].
  next H b s0; [cbn in Hn; exfalso; apply Hn; now apply sp_space|].
  apply ok_cons in Hs. destruct Hs as [_ Hs].
  destruct (value_back _ _ _ _ _ _ _ _ _ _ _ s0 (le_n _) Hs _ _ H) as (u & v & rf' & s' & -> & Hv & H').
  exists w, b, u, v, (mkJ nx b sr v rf'), s'. split; [reflexivity|]. split; [assumption|]. split; [unfold quote_mark; lia|]. split; assumption.
Qed.
Lemma attribute_back : forall nx q sr n a k fs v rf rt t s nm, ok s ->
  arun (mkC S_attr0 nx q sr ((n, a, k) :: fs) nm v rf rt) s = Some t ->
  exists r w1 w2 q' u v' J s', s = r ++ w1 ++ [61] ++ w2 ++ [q'] ++ u ++ [q'] ++ s' /\ Forall name_char r /\ white w1 /\ white w2 /\
    quote_mark q' /\ value q' u v' /\ arun (at_ S_elem2 J ((n, assign a (nm ++ r) v', k) :: fs) [] rt) s' = Some t.
Proof.
  intros nx q sr n a k fs v rf rt t s. induction s as [|b0 s0 IH]; intros nm Hs H; [discriminate H|].
  apply ok_cons in Hs. destruct Hs as [Hb0 Hs0]. next_at H.
  - destruct (IH _ Hs0 H) as (r & w1 & w2 & q' & u & v' & J & s' & -> & Hr & H1 & H2 & Hq & Hv & H'). rewrite <- app_assoc in H'.
    exists (b0 :: r), w1, w2, q', u, v', J, s'. repeat split; auto. constructor; [now apply char_name|assumption].
  - match goal with E : is_sp _ = true |- _ => apply sp_space in E end. spaces H w Hw s. apply ok_app in Hs0. destruct Hs0 as [_ Hs0].
    next H b s; [cbn in Hn; exfalso; apply Hn; now apply sp_space|]. apply ok_cons in Hs0. destruct Hs0 as [_ Hs0].
    destruct (attribute_back2 _ _ _ _ _ _ _ _ _ _ _ _ _ Hs0 H eq_refl) as (w2 & q' & u & v' & J & s' & -> & H2 & Hq & Hv & H').
    exists [], (b0 :: w), w2, q', u, v', J, s'. rewrite app_nil_r. repeat split; auto. now constructor.
  - destruct (attribute_back2 _ _ _ _ _ _ _ _ _ _ _ _ _ Hs0 H eq_refl) as (w2 & q' & u & v' & J & s' & -> & H2 & Hq & Hv & H').
    exists [], [], w2, q', u, v', J, s'. rewrite app_nil_r. repeat split; auto; constructor.
Qed.
Lemma tag_back : forall n k fs rt t m s, (length s <= m)%nat -> ok s -> forall J a w0, white w0 -> w0 <> [] ->
  arun (at_ S_elem1 J ((n, a, k) :: fs) [] rt) s = Some t ->
  exists as_ a' w c J' s', w0 ++ s = as_ ++ w ++ [c] ++ s' /\ attributes a as_ a' /\ white w /\ (c = 62 \/ c = 47) /\ (length s' < length s)%nat /\
    arun (at_ (tag_end c) J' ((n, a', k) :: fs) [] rt) s' = Some t.
Proof.
  intros n k fs rt t m. induction m as [|m IH]; intros s Hm Hs J a w0 Hw0 Hne H; [destruct s; [discriminate H|cbn in Hm; lia]|].
  destruct J as [nx q sr v rf]. unfold at_ in H. cbn [j_nx j_q j_sr j_v j_rf] in H.
  next H b s; cbn [length] in Hm; apply ok_cons in Hs; destruct Hs as [Hb Hs].
  - destruct (IH s ltac:(lia) Hs (mkJ nx q sr v rf) a (w0 ++ [b])) as (as_ & a' & w & c & J' & s' & E & Ha & Hw & Hc & Hl & H').
    + apply Forall_app. split; [assumption|]. apply Forall_cons; [now apply sp_space|apply Forall_nil].
    + destruct w0; discriminate.
    + exact H.
    + rewrite <- app_assoc in E. exists as_, a', w, c, J', s'. repeat split; auto. cbn [length]. lia.
  - exists [], a, w0, 47, (mkJ nx q sr v rf), s. repeat split; auto. constructor.
  - exists [], a, w0, 62, (mkJ nx q sr v rf), s. repeat split; auto. constructor.
  - destruct (attribute_back _ _ _ _ _ _ _ _ _ _ _ _ _ Hs H) as (r & w1 & w2 & q' & u & v' & J1 & s1 & -> & Hr & H1 & H2 & Hq & Hv & H').
    assert (Hattr : attribute ((b :: r) ++ w1 ++ [61] ++ w2 ++ [q'] ++ u ++ [q']) (b :: r) v').
    { constructor; auto. split; [now apply start_name|assumption]. }
    assert (Hs1 : ok s1). { repeat (apply ok_app in Hs; destruct Hs as [_ Hs]). exact Hs. }
    rewrite !app_length in Hm. cbn [length] in Hm. cbn [app] in H'.
    assert (Hl1 : (length s1 < length (b :: r ++ w1 ++ [61%N] ++ w2 ++ [q'] ++ u ++ [q'] ++ s1))%nat) by (cbn [length]; rewrite !app_length; cbn [length]; lia).
    destruct J1 as [nx1 q1 sr1 v1 rf1]. unfold at_ in H'. cbn [j_nx j_q j_sr j_v j_rf] in H'.
    destruct s1 as [|b1 s1]; [discriminate H'|]. cbn [length] in Hm.
    assert (G : exists as_ a' w c J' s', b1 :: s1 = as_ ++ w ++ [c] ++ s' /\ attributes (assign a (b :: r) v') as_ a' /\ white w /\ (c = 62 \/ c = 47) /\ (length s' < S (length s1))%nat /\
      arun (at_ (tag_end c) J' ((n, a', k) :: fs) [] rt) s' = Some t).
    { next_at H'.
      - apply ok_cons in Hs1. destruct Hs1 as [Hb1 Hs1].
        destruct (IH s1 ltac:(lia) Hs1 (mkJ nx1 q1 sr1 v1 rf1) (assign a (b :: r) v') [b1]) as (as_ & a' & w & c & J' & s' & E & Ha & Hw & Hc & Hl & H2').
        + apply Forall_cons; [now apply sp_space|apply Forall_nil].
        + discriminate.
        + exact H'.
        + exists as_, a', w, c, J', s'. repeat split; auto.
      - exists [], (assign a (b :: r) v'), [], 47, (mkJ nx1 q1 sr1 v1 rf1), s1. repeat split; auto; [constructor|constructor].
      - exists [], (assign a (b :: r) v'), [], 62, (mkJ nx1 q1 sr1 v1 rf1), s1. repeat split; auto; [constructor|constructor]. }
    destruct G as (as_ & a' & w & c & J' & s' & E & Ha & Hw & Hc & Hl & H2').
    exists (w0 ++ ((b :: r) ++ w1 ++ [61] ++ w2 ++ [q'] ++ u ++ [q']) ++ as_), a', w, c, J', s'.
    split. { repeat (rewrite <- !app_assoc; cbn [app]). rewrite E. reflexivity. }
    split; [eapply atts_cons; eassumption|]. repeat split; auto. cbn [length] in *. lia.
Qed.
Lemma start_tag_back : forall fs rt t s, ok s -> forall J nm, arun (at_ S_elem0 J fs nm rt) s = Some t ->
  exists r as_ a w c J' s', s = r ++ as_ ++ w ++ [c] ++ s' /\ Forall name_char r /\ attributes [] as_ a /\ white w /\ (c = 62 \/ c = 47) /\ (length s' < length s)%nat /\
    arun (at_ (tag_end c) J' ((nm ++ r, a, []) :: fs) [] rt) s' = Some t.
Proof.
  intros fs rt t s. induction s as [|b0 s0 IH]; intros Hs J nm H; [destruct J; discriminate H|].
  apply ok_cons in Hs. destruct Hs as [Hb0 Hs0]. destruct J as [nx q sr v rf]. unfold at_ in H. cbn [j_nx j_q j_sr j_v j_rf] in H.
  next_at H.
  - destruct (IH Hs0 (mkJ nx q sr v rf) _ H) as (r & as_ & a & w & c & J' & s' & -> & Hr & Ha & Hw & Hc & Hl & H'). rewrite <- app_assoc in H'.
    exists (b0 :: r), as_, a, w, c, J', s'. repeat split; auto; [constructor; [now apply char_name|assumption]|cbn [length] in *; lia].
  - match goal with E : is_sp _ = true |- _ => apply sp_space in E end.
    destruct (tag_back nm [] fs rt t (length s0) s0 ltac:(lia) Hs0 (mkJ nx q sr v rf) [] [b0]) as (as_ & a' & w & c & J' & s' & E & Ha & Hw & Hc & Hl & H').
    + apply Forall_cons; [assumption|apply Forall_nil].
    + discriminate.
    + exact H.
    + exists [], as_, a', w, c, J', s'. rewrite app_nil_r. cbn [app] in *. split; [exact E|]. split; [constructor|]. split; [exact Ha|]. split; [exact Hw|]. split; [exact Hc|]. split; [cbn [length]; lia|exact H'].
  - exists [], [], [], [], 47, (mkJ nx q sr v rf), s0. rewrite app_nil_r. repeat split; auto; constructor.
  - exists [], [], [], [], 62, (mkJ nx q sr v rf), s0. rewrite app_nil_r. repeat split; auto; constructor.
Qed.
