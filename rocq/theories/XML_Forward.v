(** Every document is accepted by the machine and gives the tree it denotes. *)
Require Import Coq.ZArith.ZArith Coq.NArith.NArith Coq.Lists.List Coq.Bool.Bool Coq.micromega.Lia Coq.micromega.ZifyBool Coq.micromega.ZifyN.
Require Import Verif.Base Verif.XML_Model Verif.XML_Spec Verif.XML_Machine.
Import ListNotations.
Local Open Scope N_scope.

(** Classes of bytes. *)
Lemma below_256 : forall (P : N -> bool), forallb (fun n => P (N.of_nat n)) (seq 0 256) = true -> forall b, b < 256 -> P b = true.
Proof.
  intros P H b Hb. rewrite forallb_forall in H. rewrite <- (N2Nat.id b). apply H. apply in_seq. lia.
Qed.
Definition alpha_test (b : N) : bool := ((65 <=? b) && (b <=? 90)) || ((97 <=? b) && (b <=? 122)).
Definition num_test (b : N) : bool := (48 <=? b) && (b <=? 57).
Lemma alpha_form : forall b, b < 256 -> is_alpha b = alpha_test b.
Proof.
  intros b Hb. apply eqb_prop. revert b Hb. apply (below_256 (fun b => eqb (is_alpha b) (alpha_test b))). vm_compute. reflexivity.
Qed.
Lemma num_form : forall b, b < 256 -> is_num b = num_test b.
Proof.
  intros b Hb. apply eqb_prop. revert b Hb. apply (below_256 (fun b => eqb (is_num b) (num_test b))). vm_compute. reflexivity.
Qed.
Definition start_test (b : N) : bool := alpha_test b || (b =? 58) || (b =? 95) || (128 <=? b).
Lemma start_form : forall b, is_namestart b = start_test b.
Proof.
  intros b. unfold is_namestart, start_test. destruct (N.leb_spec 128 b).
  - now rewrite !orb_true_r.
  - rewrite alpha_form by lia. reflexivity.
Qed.
Definition name_test (b : N) : bool := start_test b || num_test b || (b =? 45) || (b =? 46).
Lemma name_form : forall b, is_name b = name_test b.
Proof.
  intros b. unfold is_name, name_test. rewrite start_form. destruct (N.leb_spec 128 b) as [H|H].
  - unfold start_test. rewrite (proj2 (N.leb_le _ _) H), !orb_true_r. reflexivity.
  - rewrite num_form by lia. reflexivity.
Qed.
Ltac cls_unfold :=
  rewrite ?start_form, ?name_form in *;
  unfold is_sp, name_test, start_test, alpha_test, num_test, is_encname, is_ref, white, space, quote_mark, name_char, name_start, encoding_char, hexdigit in *;
  unfold letter, digit in *.
Ltac cls := solve [repeat match goal with H : _ = Some _ |- _ => clear H | H : arun _ _ = _ |- _ => clear H | H : Forall _ _ |- _ => clear H end;
  cls_unfold; lia].

Lemma arun_cons : forall c b s, arun c (b :: s) = match astep c b with Some c' => arun c' s | None => None end.
Proof. reflexivity. Qed.

Ltac lits := repeat match goal with
  | |- context [N.eqb (Npos ?a) (Npos ?b)] =>
    let r := eval vm_compute in (N.eqb (Npos a) (Npos b)) in
    match r with true => change (N.eqb (Npos a) (Npos b)) with true | false => change (N.eqb (Npos a) (Npos b)) with false end
  | |- context [N.eqb (Npos ?a) 0] => change (N.eqb (Npos a) 0) with false
  | |- context [N.eqb 0 0] => change (N.eqb 0 0) with true
  | |- context [?f (Npos ?a)] =>
    match type of (f (Npos a)) with bool => idtac end;
    let r := eval vm_compute in (f (Npos a)) in
    match r with true => change (f (Npos a)) with true | false => change (f (Npos a)) with false end
  end.
Ltac bytes_red := cbv beta iota zeta delta [astep table aprepare aperform t_go t_next t_quote t_str t_act c_st c_next c_quote c_str
  c_frames c_name c_val c_ref c_root with_state with_str with_frames with_name with_val with_ref with_root].
Ltac dec_if := match goal with
  | |- context [if ?c then _ else _] => first [replace c with true by (symmetry; cls) | replace c with false by (symmetry; cls)]
  end.
Ltac look := unfold astep; cbv beta iota delta [table c_st c_quote]; lits; cbn [negb andb orb]; cbv iota; repeat (dec_if; cbv iota);
  bytes_red; lits; cbn [negb andb orb]; cbv iota.
Ltac one := rewrite arun_cons; look.
Ltac ones := cbn [app]; repeat one.

(** Loops. *)
Lemma stay_run : forall (P : N -> Prop) c w s, Forall P w -> (forall b, P b -> astep c b = Some c) -> arun c (w ++ s) = arun c s.
Proof.
  intros P c w s Hw Hc. induction Hw as [|b w Hb Hw IH]; [reflexivity|].
  cbn [app]. rewrite arun_cons, (Hc b Hb). exact IH.
Qed.
Ltac stay := match goal with |- arun ?c (?w ++ ?s) = _ => etransitivity; [apply (stay_run space c w s); [assumption|
  let b := fresh "b" in let Hb := fresh "Hb" in intros b Hb; look; reflexivity]|] end.

Lemma comment_run : forall nx q sr fs nm v rf rt c s, comment_text c ->
  arun (mkC S_comment2 nx q sr fs nm v rf rt) (c ++ [45; 45; 62] ++ s) = arun (mkC nx nx q sr fs nm v rf rt) s.
Proof.
  intros nx q sr fs nm v rf rt c s.
  assert (G : forall n c, (length c <= n)%nat -> comment_text c ->
    arun (mkC S_comment2 nx q sr fs nm v rf rt) (c ++ [45; 45; 62] ++ s) = arun (mkC nx nx q sr fs nm v rf rt) s).
  2: { apply (G (length c)). lia. }
  clear c. intros n. induction n as [|n IH]; intros c Hl Hc.
  - destruct c; [|cbn in Hl; lia]. ones. reflexivity.
  - destruct c as [|b c]; [ones; reflexivity|]. cbn [app length] in *.
    destruct (N.eq_dec b 45) as [->|Hb].
    + destruct c as [|b' c].
      * exfalso. apply (Hc [] []). reflexivity.
      * assert (b' <> 45) by (intros ->; apply (Hc [] (c ++ [45])); reflexivity).
        cbn [app length] in *. one. one. apply IH; [lia|].
        intros a d E. apply (Hc (45 :: b' :: a) d). cbn [app] in *. now rewrite E.
    + one. apply IH; [lia|]. intros a d E. apply (Hc (b :: a) d). cbn [app] in *. now rewrite E.
Qed.

Lemma instruction_text_run : forall nx q sr fs nm v rf rt c s, instruction_text c ->
  arun (mkC S_pi2 nx q sr fs nm v rf rt) (c ++ [63; 62] ++ s) = arun (mkC nx nx q sr fs [] v rf rt) s.
Proof.
  intros nx q sr fs nm v rf rt c s Hc. induction Hc as [|b c Hb Hc IH|b c Hb Hc IH].
  - ones. reflexivity.
  - cbn [app]. one. exact IH.
  - cbn [app]. one. one. exact IH.
Qed.
Lemma xml_name_spec : forall n, Forall (fun b => b < 256) n -> xml_name n = true <-> named_xml n.
Proof.
  intros n H. unfold named_xml. split.
  - destruct n as [|x [|m [|l [|]]]]; try discriminate. cbn [xml_name]. intros E.
    apply andb_prop in E. destruct E as [E El]. apply andb_prop in E. destruct E as [Ex Em].
    exists x, m, l. split; [reflexivity|].
    inversion H as [|? ? Hx H1]; subst. inversion H1 as [|? ? Hm H2]; subst. inversion H2 as [|? ? Hl H3]; subst.
    assert (G : forall k, (k = 120 \/ k = 109 \/ k = 108) -> forall b, b < 256 ->
      implb (N.lor b 32 =? k) ((b =? k) || (b =? k - 32)) = true).
    { intros k Hk. apply below_256. destruct Hk as [->|[->| ->]]; vm_compute; reflexivity. }
    pose proof (G 120 ltac:(auto) x Hx) as Gx. pose proof (G 109 ltac:(auto) m Hm) as Gm. pose proof (G 108 ltac:(auto) l Hl) as Gl.
    rewrite Ex in Gx. rewrite Em in Gm. rewrite El in Gl. cbn [implb] in *. lia.
  - intros (x & m & l & -> & Hx & Hm & Hl).
    destruct Hx as [->| ->], Hm as [->| ->], Hl as [->| ->]; reflexivity.
Qed.
Lemma xml_name_only : forall n, xml_name n = true -> named_xml n.
Proof.
  intros n E. apply xml_name_spec; [|exact E].
  destruct n as [|x [|m [|l [|]]]]; try discriminate. cbn [xml_name] in E.
  apply andb_prop in E. destruct E as [E El]. apply andb_prop in E. destruct E as [Ex Em].
  apply N.eqb_eq in Ex, Em, El.
  assert (G : forall b k, N.lor b 32 = k -> k < 256 -> b < 256).
  { intros b k <- Hk. assert (b <= N.lor b 32); [|lia].
    rewrite <- (N.ldiff_le b (N.lor b 32)); [lia|]. apply N.bits_inj. intros i. rewrite N.ldiff_spec, N.lor_spec, N.bits_0.
    now destruct (N.testbit b i). }
  repeat constructor; (eapply G; [eassumption|reflexivity]).
Qed.
Lemma target_not_xml : forall n, target n -> xml_name n = false.
Proof.
  intros n [_ H]. destruct (xml_name n) eqn:E; [|reflexivity]. exfalso. apply H. now apply xml_name_only.
Qed.

Lemma name_run_pi : forall nx q sr fs v rf rt r nm s, Forall name_char r ->
  arun (mkC S_pi1 nx q sr fs nm v rf rt) (r ++ s) = arun (mkC S_pi1 nx q sr fs (nm ++ r) v rf rt) s.
Proof.
  intros nx q sr fs v rf rt r. induction r as [|b r IH]; intros nm s H; [now rewrite app_nil_r|].
  inversion H as [|? ? Hb Hr]; subst. cbn [app]. one. rewrite IH by assumption. now rewrite <- app_assoc.
Qed.
(** From the end of the target. *)
Inductive after_target : bytes -> Prop :=
| after_short : after_target [63; 62]
| after_long b s : space b -> instruction_text s -> after_target ([b] ++ s ++ [63; 62]).
Lemma instruction_split : forall p, instruction p -> exists b n e, p = [60; 63; b] ++ n ++ e /\ target (b :: n) /\ after_target e.
Proof.
  intros p H. destruct H as [n H|n b s H Hb Hs]; destruct n as [|c n]; try solve [destruct H as [[] _]].
  - exists c, n, [63; 62]. split; [reflexivity|]. split; [exact H|constructor].
  - exists c, n, ([b] ++ s ++ [63; 62]). split; [reflexivity|]. split; [exact H|now constructor].
Qed.
Lemma after_run : forall nx q sr fs v rf rt nm e s, xml_name nm = false -> after_target e ->
  arun (mkC S_pi1 nx q sr fs nm v rf rt) (e ++ s) = arun (mkC nx nx q sr fs [] v rf rt) s.
Proof.
  intros nx q sr fs v rf rt nm e s Hx H. destruct H as [|b t Hb Ht].
  - cbn [app]. rewrite arun_cons. look. rewrite Hx. cbv iota. one. reflexivity.
  - rewrite <- !app_assoc. cbn [app]. rewrite arun_cons. look. rewrite Hx. cbv iota.
    apply (instruction_text_run nx q sr fs nm v rf rt t s Ht).
Qed.
Lemma instruction_run : forall nx q sr fs v rf rt b n e s, target (b :: n) -> after_target e ->
  arun (mkC S_pi0 nx q sr fs [] v rf rt) ([b] ++ n ++ e ++ s) = arun (mkC nx nx q sr fs [] v rf rt) s.
Proof.
  intros nx q sr fs v rf rt b n e s H He. pose proof (target_not_xml _ H) as Hx. destruct H as [[Hb Hn] _]. cbn [app].
  one. rewrite name_run_pi by assumption. now apply after_run.
Qed.

(** In a declaration with an [x] first. *)
Lemma instruction_run_x : forall nx q sr fs v rf rt b n e s, target (b :: n) -> after_target e ->
  arun (mkC S_leq0 nx q sr fs [] v rf rt) ([b] ++ n ++ e ++ s) = arun (mkC S_misc1 S_misc1 q sr fs [] v rf rt) s.
Proof.
  intros nx q sr fs v rf rt b n e s H He. pose proof (target_not_xml _ H) as Hx. destruct H as [[Hb Hn] Hnx]. cbn [app].
  destruct (N.eq_dec b 120) as [->|Hb120].
  2: { one. rewrite name_run_pi by assumption. now apply after_run. }
  assert (Hend : forall st' nm, (st' = S_xmldecl0 \/ st' = S_xmldecl1) -> xml_name nm = false ->
    arun (mkC st' S_misc1 q sr fs nm v rf rt) (e ++ s) = arun (mkC S_misc1 S_misc1 q sr fs [] v rf rt) s).
  { intros st' nm Hst Hnm. destruct He as [|c t Hc Ht].
    - cbn [app]. destruct Hst as [->| ->]; rewrite arun_cons; look; rewrite Hnm; cbv iota; one; reflexivity.
    - rewrite <- !app_assoc. cbn [app].
      destruct Hst as [->| ->]; rewrite arun_cons; look; rewrite Hnm; cbv iota;
        exact (instruction_text_run S_misc1 q sr fs nm v rf rt t s Ht). }
  one. destruct n as [|m n]; [cbn [app]; apply Hend; auto|]. inversion Hn as [|? ? Hm Hn']; subst. cbn [app].
  destruct (N.eq_dec m 109) as [->|Hm109].
  2: { one. rewrite name_run_pi by assumption. apply after_run; assumption. }
  one. destruct n as [|l n]; [cbn [app]; apply Hend; auto|]. inversion Hn' as [|? ? Hl Hn'']; subst. cbn [app].
  destruct (N.eq_dec l 108) as [->|Hl108].
  2: { one. rewrite name_run_pi by assumption. apply after_run; assumption. }
  one. destruct n as [|k n].
  - exfalso. apply Hnx. exists 120, 109, 108. auto.
  - inversion Hn'' as [|? ? Hk Hn3]; subst. cbn [app]. one. rewrite name_run_pi by assumption. apply after_run; assumption.
Qed.

(** References. *)
Lemma digit_num : forall b, digit b -> is_num b = true.
Proof. intros b H. rewrite num_form; cls_unfold; lia. Qed.
Lemma dec_digits : forall ds n z, Forall digit ds -> (n + 1) * 10 ^ N.of_nat (length ds) <= 2^32 ->
  dec_loop (ds ++ 0 :: z) n = Ok (fold_left (fun n d => 10 * n + digit_value d) ds n, 0).
Proof.
  induction ds as [|d ds IH]; intros n z H Hn; [reflexivity|].
  inversion H as [|? ? Hd Hds]; subst. cbn [app dec_loop fold_left]. rewrite digit_num by assumption.
  cbn [length] in Hn. rewrite Nat2N.inj_succ, N.pow_succ_r' in Hn.
  assert (Hp : 1 <= 10 ^ N.of_nat (length ds)) by (pose proof (N.pow_nonzero 10 (N.of_nat (length ds))); lia).
  assert (Hb : (n + 1) * 10 <= 2^32) by nia.
  assert (Hv : digit_value d = d - 48) by (unfold digit_value; destruct (N.leb_spec d 57); cls_unfold; lia).
  assert (E : (n * 10 mod 2 ^ 32 + (d - 48)) mod 2 ^ 32 = 10 * n + digit_value d).
  { rewrite Hv. unfold digit in Hd. rewrite (N.mod_small (n * 10)) by lia. rewrite N.mod_small by lia. lia. }
  rewrite E. apply IH; [assumption|]. rewrite Hv. unfold digit in Hd. nia.
Qed.
Definition hex_value (b : N) : N := if b <=? 57 then b - 48 else N.lor b 32 - 97 + 10.
Lemma hex_facts : forall b, hexdigit b -> is_hex b = true /\ hex_value b = digit_value b /\ digit_value b < 16.
Proof.
  intros b H.
  assert (G : (negb (num_test b || ((65 <=? b) && (b <=? 70)) || ((97 <=? b) && (b <=? 102)))
               || (is_hex b && (hex_value b =? digit_value b) && (digit_value b <? 16))) = true).
  { assert (b < 256) by (cls_unfold; lia). clear H. revert b H0.
    apply (below_256 (fun b => negb (num_test b || ((65 <=? b) && (b <=? 70)) || ((97 <=? b) && (b <=? 102)))
               || (is_hex b && (hex_value b =? digit_value b) && (digit_value b <? 16)))). vm_compute. reflexivity. }
  assert (E : num_test b || ((65 <=? b) && (b <=? 70)) || ((97 <=? b) && (b <=? 102)) = true) by (cls_unfold; lia).
  rewrite E in G. cbn [negb orb] in G. apply andb_prop in G. destruct G as [G G3]. apply andb_prop in G. destruct G as [G1 G2].
  split; [exact G1|]. split; [now apply N.eqb_eq|now apply N.ltb_lt].
Qed.
Lemma hex_digits : forall ds n z, Forall hexdigit ds -> (n + 1) * 16 ^ N.of_nat (length ds) <= 2^32 ->
  hex_loop (ds ++ 0 :: z) n = Ok (fold_left (fun n d => 16 * n + digit_value d) ds n, 0).
Proof.
  induction ds as [|d ds IH]; intros n z H Hn; [reflexivity|].
  inversion H as [|? ? Hd Hds]; subst. cbn [app hex_loop fold_left]. destruct (hex_facts d Hd) as (H1 & H2 & H3). rewrite H1.
  cbn [length] in Hn. rewrite Nat2N.inj_succ, N.pow_succ_r' in Hn.
  assert (Hp : 1 <= 16 ^ N.of_nat (length ds)) by (pose proof (N.pow_nonzero 16 (N.of_nat (length ds))); lia).
  assert (Hb : (n + 1) * 16 <= 2^32) by nia.
  assert (E : (N.shiftl n 4 mod 2 ^ 32 + hex_value d) mod 2 ^ 32 = 16 * n + digit_value d).
  { rewrite H2, N.shiftl_mul_pow2. change (2 ^ 4) with 16. rewrite (N.mod_small (n * 16)) by lia. rewrite N.mod_small by lia. lia. }
  unfold hex_value in E. rewrite E. apply IH; [assumption|]. nia.
Qed.
Lemma bad_char_spec : forall c, bad_char c = false <-> accepted_char c.
Proof.
  intros c. unfold bad_char, accepted_char, sub32.
  assert (E : (c <= 0x10FFFF) -> ((c + 2^32 - 0xDFFF) mod 2^32 <? 0x7FF) = ((0xDFFF <=? c) && (c <=? 0xE7FD))).
  { intros Hc. destruct (N.leb_spec 0xDFFF c).
    - replace (c + 2^32 - 0xDFFF) with ((c - 0xDFFF) + 1 * 2^32) by lia.
      rewrite N.mod_add by lia. rewrite N.mod_small by lia. lia.
    - rewrite N.mod_small by lia. lia. }
  split.
  - intros H. assert (c <= 0x10FFFF) by (destruct (N.leb_spec c 0x10FFFF); [assumption|];
      destruct (c =? 0), (0x10FFFF <? c) eqn:?; cbn [orb] in H; try discriminate; lia).
    rewrite E in H by assumption. lia.
  - intros H. rewrite E by lia. lia.
Qed.
Lemma padded : forall (r : bytes), (length r <= 7)%nat -> r ++ repeat 0 (8 - length r) = r ++ 0 :: repeat 0 (7 - length r).
Proof. intros r H. f_equal. replace (8 - length r)%nat with (S (7 - length r)) by lia. reflexivity. Qed.
Lemma reference_value : forall r c, reference r c -> ref_value r = Some c /\ Forall (fun b => is_ref b = true) r.
Proof.
  intros r c (H & Hl & Hc). apply bad_char_spec in Hc. unfold ref_value.
  destruct H as [| | | | |ds Hne H|ds Hne H]; try (split; [reflexivity|repeat constructor]).
  - rewrite padded by assumption. destruct ds as [|d ds]; [congruence|].
    assert (Hd : digit d) by now inversion H.
    assert (E : ref_char ((35 :: d :: ds) ++ 0 :: repeat 0 (7 - length (35 :: d :: ds))) = Ok (number 10 (d :: ds))).
    { unfold ref_char. cbn [app Utf8_Model.rd nth_error obind]. lits. cbv iota.
      replace (d =? 120) with false by (symmetry; cls). cbv iota.
      cbn [skipn]. change (d :: ds ++ 0 :: ?z) with ((d :: ds) ++ 0 :: z).
      rewrite dec_digits; [reflexivity|assumption|].
      assert (10 ^ N.of_nat (length (d :: ds)) <= 10 ^ 6) by (apply N.pow_le_mono_r; cbn [length] in *; lia). lia. }
    rewrite E, Hc. split; [reflexivity|]. constructor; [reflexivity|].
    eapply Forall_impl; [|exact H]. intros b Hb. unfold is_ref. now rewrite digit_num.
  - rewrite padded by assumption.
    assert (E : ref_char ((35 :: 120 :: ds) ++ 0 :: repeat 0 (7 - length (35 :: 120 :: ds))) = Ok (number 16 ds)).
    { unfold ref_char. cbn [app Utf8_Model.rd nth_error obind]. lits. cbv iota.
      cbn [skipn]. rewrite hex_digits; [reflexivity|assumption|].
      assert (16 ^ N.of_nat (length ds) <= 16 ^ 6) by (apply N.pow_le_mono_r; cbn [length] in *; lia). lia. }
    rewrite E, Hc. split; [reflexivity|]. constructor; [reflexivity|]. constructor; [reflexivity|].
    eapply Forall_impl; [|exact H]. intros b Hb. unfold is_ref.
    assert (Hlt : b < 256) by (cls_unfold; lia). rewrite num_form, alpha_form by assumption. cls.
Qed.

(** What does not matter between the parts of a document. *)
Record junk : Type := mkJ { j_nx : ystate; j_q : N; j_sr : bytes; j_v : bytes; j_rf : bytes }.
Definition at_ (s : ystate) (j : junk) (fs : list frame) (nm : bytes) (rt : option tree) : cfg :=
  mkC s (j_nx j) (j_q j) (j_sr j) fs nm (j_v j) (j_rf j) rt.
Ltac junk_in j := destruct j as [?nx ?q ?sr ?v ?rf]; unfold at_; cbn [j_nx j_q j_sr j_v j_rf].
Ltac same_junk := match goal with |- arun (mkC ?s ?nx ?q ?sr ?fs ?nm ?v ?rf ?rt) _ = arun (mkC ?s _ _ _ _ _ _ _ _) _ => reflexivity end.
Ltac give := match goal with |- exists J, forall s, arun (mkC ?st ?nx ?q ?sr ?fs ?nm ?v ?rf ?rt) s = _ => exists (mkJ nx q sr v rf); intros; reflexivity end.

Lemma ref_run_attr : forall nx q sr fs nm v rt r rf s, Forall (fun b => is_ref b = true) r -> (length rf + length r <= 7)%nat ->
  arun (mkC S_attr4 nx q sr fs nm v rf rt) (r ++ s) = arun (mkC S_attr4 nx q sr fs nm v (rf ++ r) rt) s.
Proof.
  intros nx q sr fs nm v rt r. induction r as [|b r IH]; intros rf s H Hl; [now rewrite app_nil_r|].
  inversion H as [|? ? Hb Hr]; subst. cbn [app length] in *. rewrite arun_cons. unfold astep. cbv beta iota delta [table c_st c_quote].
  rewrite Hb. bytes_red. replace (7 <=? length rf)%nat with false by (symmetry; apply Nat.leb_gt; lia). cbv iota.
  rewrite IH; [|assumption|rewrite app_length; cbn; lia]. now rewrite <- app_assoc.
Qed.
Lemma ref_run_text : forall nx q sr fs nm v rt r rf s, Forall (fun b => is_ref b = true) r -> (length rf + length r <= 7)%nat ->
  arun (mkC S_misc2a nx q sr fs nm v rf rt) (r ++ s) = arun (mkC S_misc2a nx q sr fs nm v (rf ++ r) rt) s.
Proof.
  intros nx q sr fs nm v rt r. induction r as [|b r IH]; intros rf s H Hl; [now rewrite app_nil_r|].
  inversion H as [|? ? Hb Hr]; subst. cbn [app length] in *. rewrite arun_cons. unfold astep. cbv beta iota delta [table c_st c_quote].
  rewrite Hb. bytes_red. replace (7 <=? length rf)%nat with false by (symmetry; apply Nat.leb_gt; lia). cbv iota.
  rewrite IH; [|assumption|rewrite app_length; cbn; lia]. now rewrite <- app_assoc.
Qed.

(** Attributes. *)
Lemma value_run : forall q s v, quote_mark q -> value q s v -> forall nx sr fs nm v0 rf rt, exists rf', forall s',
  arun (mkC S_attr3 nx q sr fs nm v0 rf rt) (s ++ s') = arun (mkC S_attr3 nx q sr fs nm (v0 ++ v) rf' rt) s'.
Proof.
  intros q s v Hq H. induction H as [|b s v H1 H2 H3 H IH|r c s v Hr H IH]; intros nx sr fs nm v0 rf rt.
  - exists rf. intros s'. now rewrite app_nil_r.
  - destruct (IH nx sr fs nm (v0 ++ [as_space b]) rf rt) as (rf' & E). exists rf'. intros s'. cbn [app]. one.
    rewrite E. now rewrite <- app_assoc.
  - destruct (reference_value r c Hr) as (Ev & Hb). destruct Hr as (_ & Hl & _).
    destruct (IH nx sr fs nm (v0 ++ utf8 c) r rt) as (rf' & E). exists rf'. intros s'. cbn [app].
    one. rewrite <- app_assoc. rewrite ref_run_attr by (assumption || (cbn; lia)). cbn [app]. one. rewrite Ev. rewrite E. now rewrite <- app_assoc.
Qed.
Lemma name_run_attr : forall nx q sr fs v rf rt r nm s, Forall name_char r ->
  arun (mkC S_attr0 nx q sr fs nm v rf rt) (r ++ s) = arun (mkC S_attr0 nx q sr fs (nm ++ r) v rf rt) s.
Proof.
  intros nx q sr fs v rf rt r. induction r as [|b r IH]; intros nm s H; [now rewrite app_nil_r|].
  inversion H as [|? ? Hb Hr]; subst. cbn [app]. one. rewrite IH by assumption. now rewrite <- app_assoc.
Qed.
Lemma name_run_elem : forall nx q sr fs v rf rt r nm s, Forall name_char r ->
  arun (mkC S_elem0 nx q sr fs nm v rf rt) (r ++ s) = arun (mkC S_elem0 nx q sr fs (nm ++ r) v rf rt) s.
Proof.
  intros nx q sr fs v rf rt r. induction r as [|b r IH]; intros nm s H; [now rewrite app_nil_r|].
  inversion H as [|? ? Hb Hr]; subst. cbn [app]. one. rewrite IH by assumption. now rewrite <- app_assoc.
Qed.
Lemma attribute_run : forall s n v, attribute s n v -> forall J n0 a k fs rt, exists J', forall s',
  arun (at_ S_elem1 J ((n0, a, k) :: fs) [] rt) (s ++ s') = arun (at_ S_elem2 J' ((n0, assign a n v, k) :: fs) [] rt) s'.
Proof.
  intros s n v H J n0 a k fs rt. destruct H as [n w1 w2 q s v Hn H1 H2 Hq Hv]. junk_in J.
  destruct (value_run q s v Hq Hv nx sr ((n0, a, k) :: fs) n [] rf rt) as (rf' & E).
  exists (mkJ nx q sr v rf'). intros s'. destruct n as [|b n]; [destruct Hn|]. destruct Hn as [Hb Hn].
  rewrite <- !app_assoc. cbn [app]. one. rewrite name_run_attr by assumption. cbn [app].
  assert (E' : arun (mkC S_attr2 nx q0 sr ((n0, a, k) :: fs) (b :: n) [] rf rt) (w2 ++ q :: s ++ q :: s') =
    arun (mkC S_elem2 nx q sr ((n0, assign a (b :: n) v, k) :: fs) [] v rf' rt) s').
  { stay. one. rewrite E. cbn [app]. one. reflexivity. }
  destruct H1 as [|c w1 Hc H1].
  - cbn [app]. one. exact E'.
  - cbn [app]. one. stay. one. exact E'.
Qed.
Lemma attributes_run : forall a s a', attributes a s a' -> (s = [] /\ a' = a) \/ exists b s0, s = b :: s0 /\ space b /\
  forall J n k fs rt, exists J', forall s',
    arun (at_ S_elem1 J ((n, a, k) :: fs) [] rt) (s0 ++ s') = arun (at_ S_elem2 J' ((n, a', k) :: fs) [] rt) s'.
Proof.
  intros a s a' H. induction H as [a|a w s n v s' a' Hw Hne Ha H IH]; [now left|]. right.
  destruct w as [|b w]; [congruence|]. inversion Hw as [|? ? Hb Hw']; subst. exists b, (w ++ s ++ s'). split; [reflexivity|]. split; [assumption|].
  intros J n0 k fs rt. destruct (attribute_run s n v Ha J n0 a k fs rt) as (J1 & E1).
  assert (G : exists J', forall s2, arun (at_ S_elem2 J1 ((n0, assign a n v, k) :: fs) [] rt) (s' ++ s2) = arun (at_ S_elem2 J' ((n0, a', k) :: fs) [] rt) s2).
  { destruct IH as [[-> ->]|(b' & s0 & -> & Hb' & E2)].
    - exists J1. reflexivity.
    - destruct (E2 J1 n0 k fs rt) as (J2 & E3). exists J2. intros s2. rewrite <- E3. destruct J1. unfold at_. cbn [app j_nx j_q j_sr j_v j_rf]. one. reflexivity. }
  destruct G as (J2 & E2). exists J2. intros s2. rewrite <- E2, <- E1, <- !app_assoc.
  destruct J. unfold at_. cbn [j_nx j_q j_sr j_v j_rf]. stay. reflexivity.
Qed.
Definition tag_end (c : N) : ystate := if c =? 62 then S_misc2 else S_elem3.
Lemma start_run : forall as_ a w c, attributes [] as_ a -> white w -> c = 62 \/ c = 47 -> forall J n fs rt, exists J', forall s',
  arun (at_ S_elem0 J fs n rt) (as_ ++ w ++ [c] ++ s') = arun (at_ (tag_end c) J' ((n, a, []) :: fs) [] rt) s'.
Proof.
  intros as_ a w c Ha Hw Hc J n fs rt.
  assert (G1 : forall J, exists J', forall s', arun (at_ S_elem1 J ((n, a, []) :: fs) [] rt) (w ++ [c] ++ s') = arun (at_ (tag_end c) J' ((n, a, []) :: fs) [] rt) s').
  { intros J0. exists J0. intros s'. destruct J0. unfold at_. cbn [j_nx j_q j_sr j_v j_rf]. stay. destruct Hc as [->| ->]; cbn [app]; one; reflexivity. }
  destruct (attributes_run [] as_ a Ha) as [[-> ->]|(b & s0 & -> & Hb & E)].
  - destruct Hw as [|b w Hb Hw].
    + exists J. intros s'. destruct J. unfold at_. cbn [app j_nx j_q j_sr j_v j_rf]. destruct Hc as [->| ->]; one; reflexivity.
    + destruct (G1 J) as (J' & E1). exists J'. intros s'. rewrite <- E1. clear E1 G1. destruct J. unfold at_. cbn [app j_nx j_q j_sr j_v j_rf].
      one. stay. symmetry. change (b :: w ++ c :: s') with ((b :: w) ++ c :: s'). assert (Forall space (b :: w)) by now constructor. stay. reflexivity.
  - destruct (E J n [] fs rt) as (J1 & E1).
    assert (G2 : exists J', forall s', arun (at_ S_elem2 J1 ((n, a, []) :: fs) [] rt) (w ++ [c] ++ s') = arun (at_ (tag_end c) J' ((n, a, []) :: fs) [] rt) s').
    { destruct Hw as [|b' w Hb' Hw].
      - exists J1. intros s'. destruct J1. unfold at_. cbn [app j_nx j_q j_sr j_v j_rf]. destruct Hc as [->| ->]; one; reflexivity.
      - destruct (G1 J1) as (J2 & E2). exists J2. intros s'. rewrite <- E2. destruct J1. unfold at_. cbn [app j_nx j_q j_sr j_v j_rf].
        one. stay. symmetry. change (b' :: w ++ c :: s') with ((b' :: w) ++ c :: s'). assert (Forall space (b' :: w)) by now constructor. stay. reflexivity. }
    destruct G2 as (J2 & E2). exists J2. intros s'. rewrite <- E2, <- E1. destruct J. unfold at_. cbn [app j_nx j_q j_sr j_v j_rf]. one. reflexivity.
Qed.
