(** Proofs about properties: reading and writing are defined and keep the references accounted for. *)
Require Import Coq.NArith.NArith Coq.ZArith.ZArith Coq.Lists.List Coq.Arith.Arith Coq.Bool.Bool Coq.micromega.Lia.
Require Import Verif.Base Verif.Number_Model Verif.Number_Spec Verif.Number_Proofs Verif.Property_Model Verif.Property_Spec Verif.Property_Proofs.
Import ListNotations.
Local Open Scope nat_scope.

Definition keeps (P : program) (w : world) (f : nat -> nat) (k : nat * nat) (w' : world) : Prop :=
  inv P w' f /\ grows w w' /\ pool w' = pool w /\ elsewhere k w w' /\ (forall i, refs_of w i = refs_of w' i -> True).
Lemma silent_inv P w w' f : silent w w' -> inv P w f -> inv P w' f.
Proof.
  intros S [A B C]. constructor.
  - intros x. rewrite (silent_refs w w' x S), A. destruct S as (_ & M & Po). rewrite M, Po. reflexivity.
  - apply (typed_same P w); auto; [apply S|intros; apply silent_vw; auto].
  - apply (body_same w); auto. intros; apply silent_vw; auto.
Qed.
Lemma silent_grows w w' : silent w w' -> grows w w'.
Proof. intros S. apply grows_same. intros; apply silent_vw; auto. Qed.
Lemma note_silent w e : silent w (note w e). Proof. repeat split. Qed.
Lemma silent_keeps P w f k w' : silent w w' -> inv P w f -> keeps P w f k w'.
Proof. intros S I. split; [eapply silent_inv; eauto|]. split; [apply silent_grows; auto|]. split; [apply S|]. split; auto. apply elsewhere_refl. apply S. Qed.
Lemma keeps_trans P w f k w1 w2 : keeps P w f k w1 -> keeps P w1 f k w2 -> keeps P w f k w2.
Proof.
  intros (A1 & A2 & A3 & A4 & _) (B1 & B2 & B3 & B4 & _). split; auto. split; [eapply grows_trans; eauto|]. split; [congruence|]. split; auto. eapply elsewhere_trans; eauto.
Qed.
Lemma keeps_silent P w f k w1 w2 : keeps P w f k w1 -> silent w1 w2 -> keeps P w f k w2.
Proof. intros K S. eapply keeps_trans; [exact K|]. apply silent_keeps; auto. apply K. Qed.
Lemma silent_pre P w f k w1 w2 : inv P w f -> silent w w1 -> keeps P w1 f k w2 -> keeps P w f k w2.
Proof. intros I S K. eapply keeps_trans; [apply silent_keeps; eauto|exact K]. Qed.

Lemma convert_in_ok P w f o p c b n : sensible P -> inv P w f -> vw w o = Some (c, b) -> In p (props P c) -> well_sized n ->
  exists w' ok, convert_in w o p (ty n) (sh n) (mem n) = Ok (w', ok) /\ keeps P w f (o, offset p) w'.
Proof.
  intros SP I V Ip W. unfold convert_in. destruct (enc p) as [|td sd|k] eqn:E.
  - exists w, false. split; auto. apply silent_keeps; auto. repeat split.
  - destruct (proj1 SP c p Ip) as (_ & _ & _ & Pl). rewrite E in Pl. destruct Pl as [It Ms].
    destruct (load_bytes_ok P w f o p c b I V Ip) as (dst & L & Ld & Od); [rewrite E; discriminate|]. rewrite E in L, Ld. cbn [esize] in L, Ld. rewrite L. cbn [obind].
    destruct (convert_ok (ty n) (sh n) (mem n) td sd dst) as (bs & C & Lb & Ob); auto.
    rewrite C. cbn [obind fst snd]. eexists. eexists. split; [reflexivity|].
    split; [apply (save_bytes P w f o p c b SP I V Ip bs); [rewrite E; discriminate|rewrite E; exact Lb|exact Ob]|].
    split; [apply grows_same; reflexivity|]. split; [reflexivity|]. split; [apply elsewhere_save|auto].
  - exists w, false. split; auto. apply silent_keeps; auto. repeat split.
Qed.
Lemma struct_in_ok P w f o p c b sem bs : sensible P -> inv P w f -> vw w o = Some (c, b) -> In p (props P c) -> octets bs -> enc p <> EObj ->
  keeps P w f (o, offset p) (fst (struct_in w o p sem bs)).
Proof.
  intros SP I V Ip O E. unfold struct_in. destruct (Nat.eqb_spec (esize (enc p)) (length bs)) as [L|L].
  - destruct (opt_text_eqb sem (semantic p)); cbn [fst].
    + split; [apply (save_bytes P w f o p c b SP I V Ip bs); auto|]. split; [apply grows_same; reflexivity|]. split; [reflexivity|]. split; [apply elsewhere_save|auto].
    + apply silent_keeps; auto. apply note_silent.
  - apply silent_keeps; auto. apply note_silent.
Qed.
Lemma body_ok P w f x v : inv P w f -> body_of w x = Some v -> value_ok v.
Proof.
  intros I E. unfold body_of in E. destruct x as [i|]; [|discriminate]. rewrite view_vw in E. destruct (vw w i) as [[c b]|] eqn:V; [|discriminate]. injection E as <-. eapply i_body; eauto.
Qed.
Lemma enum_number z : well_sized (mkNum int32 (Vec 1) (le 4 z)).
Proof. split; [cbn; auto|]. split; [cbn [mem ty sh size]; rewrite le_length; reflexivity|]. cbn [mem]. apply le_bytes. Qed.
Lemma write_ok P w f o p x c b : sensible P -> inv P w f -> vw w o = Some (c, b) -> In p (props P c) -> match x with Some i => 0 < refs_of w i | None => True end ->
  exists w', write_object P w o p x = Ok w' /\ keeps P w f (o, offset p) w'.
Proof.
  intros SP I V Ip A. destruct (proj1 SP c p Ip) as (_ & Se & _ & _). unfold write_object. rewrite Se.
  assert (Vw: forall w', silent w w' -> vw w' o = Some (c, b)) by (intros w' S; rewrite (silent_vw w w' o S); auto).
  destruct (enc_dec (enc p)) as [E|E].
  - rewrite E. cbn [is_obj]. match goal with |- context [if ?q then _ else _] => destruct q end.
    + eexists. split; [reflexivity|]. apply silent_keeps; auto. apply note_silent.
    + pose proof (will_write_silent w o p) as S1. destruct (store_ok P (will_write w o p) f o p x c b) as (w1 & s & E1 & I1 & G1 & Po1 & _ & M1 & _); auto.
      { apply (silent_inv P w); auto. }
      { destruct x as [i|]; auto. rewrite (silent_refs w _ i S1). auto. }
      rewrite E1. cbn [obind]. eexists. split; [reflexivity|]. eapply keeps_silent; [|apply did_write_silent]. eapply silent_pre; [auto|exact S1|].
      split; auto. split; auto. split; auto. split; auto. intros k' N. rewrite M1. apply find_put_other; auto.
  - assert (NO: is_obj (enc p) = false) by (destruct (enc p); auto; congruence). rewrite NO.
    assert (T1: exists w1 ok, write_enum w o p x = Ok (w1, ok) /\ keeps P w f (o, offset p) w1 /\ (w1 = w \/ exists t, body_of w x = Some (CText t))).
    { unfold write_enum. destruct (enumt p) as [e|]; [|exists w, false; split; auto; split; auto; apply silent_keeps; auto; repeat split].
      destruct (body_of w x) as [[t|n|sm bs|]|] eqn:B; try solve [exists w, false; split; auto; split; auto; apply silent_keeps; auto; repeat split].
      destruct (convert_in_ok P (will_write w o p) f o p c b (mkNum int32 (Vec 1) (le 4 (enum_value e t)))) as (w1 & ok & E1 & K1); auto using will_write_silent, enum_number.
      { apply (silent_inv P w); auto using will_write_silent. }
      cbn [ty sh mem] in E1. rewrite E1. cbn [obind]. eexists. eexists. split; [reflexivity|]. split; [|eauto].
      eapply keeps_silent; [|apply did_write_silent]. eapply silent_pre; [auto|apply will_write_silent|exact K1]. }
    destruct T1 as (w1 & ok1 & E1 & K1 & D1). rewrite E1. cbn [obind]. destruct ok1; [exists w1; auto|].
    assert (I1: inv P w1 f) by apply K1. assert (V1: vw w1 o = Some (c, b)) by (apply K1; auto).
    assert (T2: exists w2 ok, write_number w1 o p x = Ok (w2, ok) /\ keeps P w1 f (o, offset p) w2).
    { unfold write_number. destruct (body_of w1 x) as [[t|n|sm bs|]|] eqn:B; try solve [exists w1, false; split; auto; apply silent_keeps; auto; repeat split].
      pose proof (will_write_silent w1 o p) as S. destruct (convert_in_ok P (will_write w1 o p) f o p c b n) as (w2 & ok & E2 & K2); auto.
      { apply (silent_inv P w1); auto. } { rewrite (silent_vw w1 _ o S). auto. } { exact (body_ok P w1 f x (CNum n) I1 B). }
      rewrite E2. cbn [obind]. eexists. eexists. split; [reflexivity|]. eapply keeps_silent; [|apply did_write_silent]. eapply silent_pre; [auto|exact S|exact K2]. }
    destruct T2 as (w2 & ok2 & E2 & K2). rewrite E2. cbn [obind]. assert (K12: keeps P w f (o, offset p) w2) by (eapply keeps_trans; eauto). destruct ok2; [exists w2; auto|].
    assert (I2: inv P w2 f) by apply K2. assert (V2: vw w2 o = Some (c, b)) by (apply K2; auto).
    assert (K3: keeps P w2 f (o, offset p) (fst (write_struct w2 o p x))).
    { unfold write_struct. destruct (body_of w2 x) as [[t|n|sm bs|]|] eqn:B; try solve [apply silent_keeps; auto; repeat split].
      pose proof (will_write_silent w2 o p) as S. pose proof (struct_in_ok P (will_write w2 o p) f o p c b sm bs) as K3.
      destruct (struct_in (will_write w2 o p) o p sm bs) as [w3 ok3]. cbn [fst] in *. eapply keeps_silent; [|apply did_write_silent]. eapply silent_pre; [auto|exact S|].
      apply K3; auto. { apply (silent_inv P w2); auto. } { rewrite (silent_vw w2 _ o S). auto. } exact (body_ok P w2 f x (CStruct sm bs) I2 B). }
    destruct (write_struct w2 o p x) as [w3 ok3]. cbn [fst] in K3. assert (K13: keeps P w f (o, offset p) w3) by (eapply keeps_trans; eauto).
    destruct ok3; eexists; (split; [reflexivity|]); auto. eapply keeps_silent; [exact K13|apply note_silent].
Qed.

(** Reading changes no property; what it gives is alive. *)
Definition reads (P : program) (w : world) (f : nat -> nat) (w' : world) : Prop :=
  inv P w' f /\ grows w w' /\ memory w' = memory w.
Lemma silent_reads P w f w' : silent w w' -> inv P w f -> reads P w f w'.
Proof. intros S I. split; [eapply silent_inv; eauto|]. split; [apply silent_grows; auto|]. apply S. Qed.
Lemma reads_trans P w f w1 w2 : reads P w f w1 -> reads P w1 f w2 -> reads P w f w2.
Proof. intros (A1 & A2 & A3) (B1 & B2 & B3). split; auto. split; [eapply grows_trans; eauto|congruence]. Qed.
Lemma reads_silent P w f w1 w2 : reads P w f w1 -> silent w1 w2 -> reads P w f w2.
Proof. intros K S. eapply reads_trans; [exact K|]. apply silent_reads; auto. apply K. Qed.
Lemma make_reads P w f c b : inv P w f -> value_ok b -> forall w', silent (fst (alloc w c b)) w' ->
  reads P w f (autorelease w' (Some (length (heap w)))) /\ 0 < refs_of (autorelease w' (Some (length (heap w)))) (length (heap w)) /\ vw (autorelease w' (Some (length (heap w)))) (length (heap w)) = Some (c, b).
Proof.
  intros I V w' S. pose proof (alloc_inv P w f c b I V) as J. split; [|split].
  - split; [apply auto_inv; apply (silent_inv P (fst (alloc w c b))); auto|]. split.
    + intros i v E. change (vw w' i = Some v). rewrite (silent_vw _ _ i S). apply vw_alloc_old. auto.
    + cbn [autorelease with_pool memory]. destruct S as (_ & M & _). rewrite M. reflexivity.
  - change (0 < refs_of w' (length (heap w))). rewrite (silent_refs _ _ _ S), refs_alloc. cbn. rewrite Nat.eqb_refl. lia.
  - change (vw w' (length (heap w)) = Some (c, b)). rewrite (silent_vw _ _ _ S), vw_alloc, Nat.eqb_refl. reflexivity.
Qed.
Definition junk_ok (j : list Z) : Prop := length j = 4 /\ octets j.
Definition got_alive (w : world) (g : got) : Prop := match g with GObj i => 0 < refs_of w i | _ => True end.
Lemma load_int32 bs : length bs = 4 -> exists v, load int32 bs 0 = Ok v.
Proof. intros L. unfold load. cbn [width int32]. rewrite L. cbn. eauto. Qed.
Lemma read_enum_ok P w f o p c b j : sensible P -> inv P w f -> vw w o = Some (c, b) -> In p (props P c) -> junk_ok j -> enc p <> EObj ->
  exists w' g, read_enum w o p j = Ok (w', g) /\ silent w w' /\ match g with Some (GObj _) => False | _ => True end.
Proof.
  intros SP I V Ip [Lj Oj] E. unfold read_enum. destruct (enumt p) as [e|]; [|exists w, None; repeat split].
  assert (S: silent w (did_read (will_read w o p) o p)).
  { destruct (will_read_silent w o p) as (A1 & A2 & A3), (did_read_silent (will_read w o p) o p) as (B1 & B2 & B3). repeat split; congruence. }
  destruct (enc p) as [|t s|k] eqn:En; [congruence| |eexists; exists None; split; [reflexivity|]; auto].
  pose proof (will_read_silent w o p) as S1. destruct (load_bytes_ok P (will_read w o p) f o p c b) as (src & L & Ls & Os); auto.
  { apply (silent_inv P w); auto. } { rewrite (silent_vw w _ o S1). auto. } { rewrite En. discriminate. }
  rewrite En in L, Ls. cbn [esize] in L, Ls. rewrite L. cbn [obind].
  destruct (proj1 SP c p Ip) as (_ & _ & _ & Pl). rewrite En in Pl. destruct Pl as [It Ms].
  destruct (convert_ok t s src int32 (Vec 1) j) as (bs & C & Lb & Ob); auto. { split; auto. } { cbn; auto. }
  rewrite C. cbn [obind fst snd]. destruct (Nat.min (count s) (count (Vec 1)) =? 0).
  - eexists. eexists. split; [reflexivity|]. auto.
  - destruct (load_int32 bs Lb) as (v & Ev). rewrite Ev. cbn [obind]. eexists. eexists. split; [reflexivity|]. split; auto. destruct (enum_string e v); exact Logic.I.
Qed.
Lemma read_ok P w f o p c b j : sensible P -> inv P w f -> vw w o = Some (c, b) -> In p (props P c) -> junk_ok j ->
  exists w' g, read_object w o p j = Ok (w', g) /\ reads P w f w' /\ got_alive w' g.
Proof.
  intros SP I V Ip J. destruct (proj1 SP c p Ip) as (Ge & _ & CW & _). unfold read_object. rewrite Ge.
  destruct (enc_dec (enc p)) as [E|E].
  - rewrite E. pose proof (will_read_silent w o p) as S1. assert (I1: inv P (will_read w o p) f) by (apply (silent_inv P w); auto).
    assert (V1: vw (will_read w o p) o = Some (c, b)) by (rewrite (silent_vw w _ o S1); auto).
    assert (T: exists w1 x, (if weak p then do r <- load_weak (will_read w o p) o (offset p); resolve (will_read w o p) r
                             else do r <- load_ref (will_read w o p) o (offset p); do w <- retain (will_read w o p) r; Ok (w, r)) = Ok (w1, x) /\
              inv P w1 (fun y => f y + one x y) /\ grows w w1 /\ memory w1 = memory w /\ match x with Some i => 0 < refs_of w1 i | None => True end).
    { destruct (weak p) eqn:W.
      - destruct (load_weak_ok P _ f o p c b I1 V1 Ip E W) as (r & L & B). rewrite L. cbn [obind]. destruct r as [i|]; cbn [resolve].
        + unfold get_obj. destruct (nth_error (heap (will_read w o p)) i) as [ob|] eqn:N; [|apply nth_error_None in N; lia].
          destruct (Nat.eqb_spec (refs ob) 0) as [Z|Z].
          * exists (will_read w o p), None. split; auto. split; [eapply inv_ext; [|exact I1]; intros; cbn; lia|]. split; [apply silent_grows; auto|]. split; auto. apply S1.
          * assert (A: 0 < refs_of (will_read w o p) i) by (unfold refs_of; rewrite N; lia).
            destruct (retain_inv P _ f (Some i) I1 A) as (w1 & R & (M & Po & Lg & Vw) & J1). rewrite R. cbn [obind]. exists w1, (Some i). split; auto. split; auto.
            split; [intros k v X; rewrite Vw, (silent_vw w _ k S1); auto|]. split; [rewrite M; apply S1|]. rewrite (i_refs P w1 _ J1). cbn. rewrite Nat.eqb_refl. lia.
        + exists (will_read w o p), None. split; auto. split; [eapply inv_ext; [|exact I1]; intros; cbn; lia|]. split; [apply silent_grows; auto|]. split; auto. apply S1.
      - destruct (load_ref_ok P _ f o p c b I1 V1 Ip E W) as (r & L). rewrite L. cbn [obind].
        assert (A: match r with Some i => 0 < refs_of (will_read w o p) i | None => True end).
        { destruct r as [i|]; auto. rewrite (i_refs P _ f I1). pose proof (find_le (memory (will_read w o p)) (o, offset p) i) as F.
          unfold load_ref in L. destruct (find_slot (memory (will_read w o p)) (o, offset p)) as [[r|r|r]|]; try discriminate. injection L as ->. cbn in F. rewrite Nat.eqb_refl in F. lia. }
        destruct (retain_inv P _ f r I1 A) as (w1 & R & (M & Po & Lg & Vw) & J1). rewrite R. cbn [obind]. exists w1, r. split; auto. split; auto.
        split; [intros k v X; rewrite Vw, (silent_vw w _ k S1); auto|]. split; [rewrite M; apply S1|]. destruct r as [i|]; auto. rewrite (i_refs P w1 _ J1). cbn. rewrite Nat.eqb_refl. lia. }
    destruct T as (w1 & x & E1 & J1 & G1 & M1 & A1). rewrite E1. cbn [obind]. eexists. eexists. split; [reflexivity|].
    pose proof (did_read_silent (autorelease w1 x) o p) as S2. split.
    + eapply reads_silent; [|exact S2]. split; [apply auto_inv; auto|]. split.
      * intros k v X. assert (Q: vw (autorelease w1 x) k = vw w1 k) by (destruct x; reflexivity). rewrite Q. auto.
      * destruct x; exact M1.
    + destruct x as [i|]; cbn [got_of got_alive]; auto. rewrite (silent_refs _ _ i S2). exact A1.
  - destruct (read_enum_ok P w f o p c b j SP I V Ip J E) as (w1 & g & E1 & S1 & G1). rewrite E1. cbn [obind].
    assert (I1: inv P w1 f) by (apply (silent_inv P w); auto).
    assert (R1: reads P w f w1) by (apply silent_reads; auto).
    assert (T: exists w' g', match enc p with
      | ENum t s => let w := will_read w1 o p in do b <- load_bytes w o (offset p) (size t s);
          let '(w, i) := alloc w number_class (CNum (mkNum t s b)) in Ok (autorelease (did_read w o p) (Some i), GObj i)
      | e => match semantic p with
          | Some _ => let w := will_read w1 o p in do b <- load_bytes w o (offset p) (esize e);
             let '(w, i) := alloc w struct_class (CStruct (semantic p) b) in Ok (autorelease (did_read w o p) (Some i), GObj i)
          | None => Ok (note w1 Warning, GNull) end end = Ok (w', g') /\ reads P w f w' /\ got_alive w' g').
    { pose proof (will_read_silent w1 o p) as S2. assert (I2: inv P (will_read w1 o p) f) by (apply (silent_inv P w1); auto).
      assert (V2: vw (will_read w1 o p) o = Some (c, b)) by (rewrite (silent_vw w1 _ o S2), (silent_vw w _ o S1); auto).
      destruct (load_bytes_ok P _ f o p c b I2 V2 Ip E) as (bs & L & Lb & Ob).
      assert (R2: reads P w f (will_read w1 o p)) by (eapply reads_silent; eauto).
      destruct (enc p) as [|t s|k] eqn:En; [congruence| |].
      - cbn [esize] in L, Lb. cbv zeta. rewrite L. cbn [obind]. unfold alloc at 1. eexists. eexists. split; [reflexivity|].
        destruct (proj1 SP c p Ip) as (_ & _ & _ & Pl). rewrite En in Pl. destruct Pl as [It Ms].
        destruct (make_reads P (will_read w1 o p) f number_class (CNum (mkNum t s bs)) I2) with (w' := did_read (fst (alloc (will_read w1 o p) number_class (CNum (mkNum t s bs)))) o p) as (Q1 & Q2 & _).
        { split; [exact It|]. split; auto. } { apply did_read_silent. }
        split; [eapply reads_trans; [exact R2|exact Q1]|exact Q2].
      - destruct (semantic p) as [sm|] eqn:Sm.
        + cbv zeta. rewrite L. cbn [obind]. unfold alloc at 1. eexists. eexists. split; [reflexivity|].
          destruct (make_reads P (will_read w1 o p) f struct_class (CStruct (Some sm) bs) I2) with (w' := did_read (fst (alloc (will_read w1 o p) struct_class (CStruct (Some sm) bs))) o p) as (Q1 & Q2 & _).
          { exact Ob. } { apply did_read_silent. }
          split; [eapply reads_trans; [exact R2|exact Q1]|exact Q2].
        + eexists. eexists. split; [reflexivity|]. split; [|exact Logic.I]. eapply reads_silent; [exact R1|apply note_silent]. }
    destruct g as [g|].
    + exists w1, g. split; [destruct (enc p); auto; congruence|]. split; auto. destruct g; cbn; auto; contradiction.
    + destruct (enc p) as [|t s|k] eqn:En; [congruence| |]; destruct T as (w' & g' & ET & RT & AT); exists w', g'; split; auto.
Qed.
