(** Proofs about properties: whatever a client does, and what it reads afterwards. *)
Require Import Coq.NArith.NArith Coq.ZArith.ZArith Coq.Lists.List Coq.Arith.Arith Coq.Bool.Bool Coq.micromega.Lia.
Require Import Verif.Base Verif.Number_Model Verif.Number_Spec Verif.Number_Proofs Verif.Property_Model Verif.Property_Spec Verif.Property_Proofs Verif.Property_Access.
Import ListNotations.
Local Open Scope nat_scope.

Lemma text_eqb_eq a b : text_eqb a b = true <-> a = b.
Proof. unfold text_eqb. destruct (list_eq_dec N.eq_dec a b); split; congruence. Qed.
Lemma text_eqb_refl a : text_eqb a a = true. Proof. apply text_eqb_eq. reflexivity. Qed.
Lemma definition_ok P w o n : 0 < refs_of w o -> exists c b, vw w o = Some (c, b) /\ definition P w o n = Ok (find_property (props P c) n).
Proof.
  intros A. unfold refs_of in A. unfold vw, definition, get_obj. destruct (nth_error (heap w) o) as [ob|]; [|lia]. exists (cls ob), (body ob). split; auto.
  destruct (Nat.eqb_spec (refs ob) 0); [lia|auto].
Qed.
Lemma find_in l n p : find_property l n = Some p -> In p l /\ pname p = n.
Proof. intros E. apply find_some in E. destruct E as [I E]. apply text_eqb_eq in E. auto. Qed.
Lemma find_named P c p : sensible P -> In p (props P c) -> find_property (props P c) (pname p) = Some p.
Proof.
  intros (_ & _ & U) Ip. unfold find_property. destruct (find (fun q => text_eqb (pname q) (pname p)) (props P c)) as [q|] eqn:E.
  - apply find_in in E. destruct E as [Iq Nq]. f_equal. apply (U c); auto.
  - exfalso. apply (find_none _ _ E) in Ip. rewrite text_eqb_refl in Ip. discriminate.
Qed.
(** What an operation does to the memory: it can write the property named. *)
Definition target_of (a : op) : option (nat * text) :=
  match a with Set_ (GObj i) m _ | SetNum (GObj i) m _ | SetStruct (GObj i) m _ _ => Some (i, m) | _ => None end.
Definition untouched (P : program) (w w' : world) (a : op) : Prop :=
  forall o off, (forall i n c b p, target_of a = Some (i, n) -> vw w i = Some (c, b) -> In p (props P c) -> pname p = n -> (o, off) <> (i, offset p)) ->
    find_slot (memory w') (o, off) = find_slot (memory w) (o, off).
Definition moves (P : program) (w : world) (f : nat -> nat) (a : op) (w' : world) : Prop := inv P w' f /\ grows w w' /\ untouched P w w' a.
Lemma silent_moves P w f a w' : inv P w f -> silent w w' -> moves P w f a w'.
Proof. intros I S. split; [eapply silent_inv; eauto|]. split; [apply silent_grows; auto|]. intros o off _. destruct S as (_ & M & _). rewrite M. auto. Qed.
Lemma keeps_moves P w f a w' i n c b p : keeps P w f (i, offset p) w' -> target_of a = Some (i, n) -> vw w i = Some (c, b) -> In p (props P c) -> pname p = n -> moves P w f a w'.
Proof. intros (A & B & C & D & _) T V Ip N. split; auto. split; auto. intros o off H. apply D. apply (H i n c b p); auto. Qed.
Lemma reads_moves P w f a w' : reads P w f w' -> moves P w f a w'.
Proof. intros (A & B & C). split; auto. split; auto. intros o off _. rewrite C. auto. Qed.

Lemma set_ok P w f g n x : sensible P -> inv P w f -> got_alive w g -> match x with Some i => 0 < refs_of w i | None => True end ->
  exists w', set_property P w g n x = Ok w' /\ moves P w f (Set_ g n x) w'.
Proof.
  intros SP I A B. destruct g as [|o|t]; cbn [set_property].
  - eexists. split; [reflexivity|]. apply silent_moves; auto. repeat split.
  - destruct (definition_ok P w o n A) as (c & b & V & D). rewrite D. cbn [obind]. destruct (find_property (props P c) n) as [p|] eqn:F.
    + apply find_in in F. destruct F as [Ip Np]. destruct (readonly p).
      * eexists. split; [reflexivity|]. apply silent_moves; auto using note_silent.
      * destruct (write_ok P w f o p x c b SP I V Ip B) as (w' & E & K). exists w'. split; auto. eapply keeps_moves; eauto. reflexivity.
    + eexists. split; [reflexivity|]. apply silent_moves; auto using note_silent.
  - eexists. split; [reflexivity|]. apply silent_moves; auto using note_silent.
Qed.
Lemma get_ok P w f g n j : sensible P -> inv P w f -> got_alive w g -> junk_ok j ->
  exists w' r, get_property P w g n j = Ok (w', r) /\ reads P w f w' /\ got_alive w' r.
Proof.
  intros SP I A J. destruct g as [|o|t]; cbn [get_property].
  - eexists. eexists. split; [reflexivity|]. split; [apply silent_reads; auto; repeat split|exact Logic.I].
  - destruct (definition_ok P w o n A) as (c & b & V & D). rewrite D. cbn [obind]. destruct (find_property (props P c) n) as [p|] eqn:F.
    + apply find_in in F. destruct F as [Ip Np]. apply (read_ok P w f o p c b j); auto.
    + eexists. eexists. split; [reflexivity|]. split; [apply silent_reads; auto using note_silent|exact Logic.I].
  - eexists. eexists. split; [reflexivity|]. split; [apply silent_reads; auto using note_silent|exact Logic.I].
Qed.
Lemma no_accessors P c p : sensible P -> In p (props P c) -> getter p = None /\ setter p = None.
Proof. intros SP Ip. destruct (proj1 SP c p Ip) as (A & B & _). auto. Qed.
(** A value made for the occasion, written and released. *)
Lemma through_object P w f o p c b k v : sensible P -> inv P w f -> vw w o = Some (c, b) -> In p (props P c) -> value_ok v ->
  exists w1, write_object P (fst (alloc w k v)) o p (Some (length (heap w))) = Ok w1 /\
  exists w2, release w1 (Some (length (heap w))) = Ok w2 /\ inv P w2 f /\ grows w w2 /\ elsewhere (o, offset p) w w2.
Proof.
  intros SP I V Ip Vk. pose proof (alloc_inv P w f k v I Vk) as I1.
  destruct (write_ok P (fst (alloc w k v)) _ o p (Some (length (heap w))) c b SP I1) as (w1 & E1 & (I2 & G2 & _ & El & _)); auto.
  { apply vw_alloc_old; auto. } { rewrite refs_alloc. cbn. rewrite Nat.eqb_refl. lia. }
  exists w1. split; auto. destruct (release_inv P w1 _ (Some (length (heap w))) I2) as (w2 & E2 & (M & Po & L & Vw) & I3).
  { intros y. cbv beta. lia. }
  exists w2. split; auto. split; [eapply inv_ext; [|exact I3]; intros y; cbv beta; lia|]. split.
  - intros i u X. rewrite Vw. apply G2. apply vw_alloc_old. auto.
  - intros k' N. rewrite M. rewrite El by auto. reflexivity.
Qed.
Lemma set_number_ok P w f g n v : sensible P -> inv P w f -> got_alive w g -> well_sized v ->
  exists w', set_number P w g n v = Ok w' /\ moves P w f (SetNum g n v) w'.
Proof.
  intros SP I A W. destruct g as [|o|t]; cbn [set_number].
  - eexists. split; [reflexivity|]. apply silent_moves; auto. repeat split.
  - destruct (definition_ok P w o n A) as (c & b & V & D). rewrite D. cbn [obind]. destruct (find_property (props P c) n) as [p|] eqn:F.
    + apply find_in in F. destruct F as [Ip Np]. destruct (no_accessors P c p SP Ip) as [_ Se]. rewrite Se. cbn [orb]. destruct (readonly p).
      * eexists. split; [reflexivity|]. apply silent_moves; auto using note_silent.
      * destruct (enc_dec (enc p)) as [E|E].
        -- rewrite E. cbn [is_obj]. destruct (through_object P w f o p c b number_class (CNum v) SP I V Ip W) as (w1 & E1 & w2 & E2 & I2 & G2 & El).
           unfold alloc at 1. unfold alloc in E1. cbn [fst] in E1. rewrite E1. cbn [obind]. exists w2. split; auto. split; auto. split; auto. intros o' off H. apply El. apply (H o n c b p); auto.
        -- assert (NO: is_obj (enc p) = false) by (destruct (enc p); auto; congruence). rewrite NO.
           pose proof (will_write_silent w o p) as S1. destruct (convert_in_ok P (will_write w o p) f o p c b v) as (w1 & ok & E1 & K1); auto.
           { apply (silent_inv P w); auto. } { rewrite (silent_vw w _ o S1); auto. }
           rewrite E1. cbn [obind]. assert (K2: keeps P w f (o, offset p) (did_write w1 o p)).
           { eapply keeps_silent; [|apply did_write_silent]. eapply silent_pre; eauto. }
           destruct ok; eexists; (split; [reflexivity|]).
           ++ eapply keeps_moves; eauto. reflexivity.
           ++ eapply keeps_moves; [eapply keeps_silent; [exact K2|apply note_silent]| | | |]; eauto. reflexivity.
    + eexists. split; [reflexivity|]. apply silent_moves; auto using note_silent.
  - eexists. split; [reflexivity|]. apply silent_moves; auto using note_silent.
Qed.
Lemma set_struct_ok P w f g n sem bs : sensible P -> inv P w f -> got_alive w g -> octets bs ->
  exists w', set_struct P w g n sem bs = Ok w' /\ moves P w f (SetStruct g n sem bs) w'.
Proof.
  intros SP I A W. destruct g as [|o|t]; cbn [set_struct].
  - eexists. split; [reflexivity|]. apply silent_moves; auto. repeat split.
  - destruct (definition_ok P w o n A) as (c & b & V & D). rewrite D. cbn [obind]. destruct (find_property (props P c) n) as [p|] eqn:F.
    + apply find_in in F. destruct F as [Ip Np]. destruct (no_accessors P c p SP Ip) as [_ Se]. rewrite Se. cbn [orb]. destruct (readonly p).
      * eexists. split; [reflexivity|]. apply silent_moves; auto using note_silent.
      * destruct (semantic_fails p sem). { eexists. split; [reflexivity|]. apply silent_moves; auto using note_silent. }
        destruct (enc p) as [|t s|k] eqn:E; cbn [is_obj].
        -- destruct (through_object P w f o p c b struct_class (CStruct sem bs) SP I V Ip W) as (w1 & E1 & w2 & E2 & I2 & G2 & El).
           unfold alloc at 1. unfold alloc in E1. cbn [fst] in E1. rewrite E1. cbn [obind]. exists w2. split; auto. split; auto. split; auto. intros o' off H. apply El. apply (H o n c b p); auto.
        -- eexists. split; [reflexivity|]. apply silent_moves; auto using note_silent.
        -- destruct (Nat.eqb_spec k (length bs)) as [L|L]; eexists; (split; [reflexivity|]); [|apply silent_moves; auto using note_silent].
           cbv zeta. apply (keeps_moves P w f _ _ o n c b p); auto. eapply keeps_silent; [|apply did_write_silent].
           pose proof (will_write_silent w o p) as S1. eapply silent_pre; [exact I|exact S1|].
           split; [apply (save_bytes P (will_write w o p) f o p c b SP); auto; try (rewrite E; first [discriminate|cbn; auto]);
                   [apply (silent_inv P w); auto|rewrite (silent_vw w _ o S1); auto]|].
           split; [apply grows_same; reflexivity|]. split; [reflexivity|]. split; [apply elsewhere_save|auto].
    + eexists. split; [reflexivity|]. apply silent_moves; auto using note_silent.
  - eexists. split; [reflexivity|]. apply silent_moves; auto using note_silent.
Qed.
Lemma unpack_ok P w f g t s dst : inv P w f -> integer_type t -> is_mat s = false -> length dst = size t s -> octets dst ->
  exists r, unpack_number w g t s dst = Ok r.
Proof.
  intros I It M L O. destruct g as [|i|]; cbn [unpack_number]; [eauto| |eauto]. destruct (body_of w (Some i)) as [[tx|v|sm bs|]|] eqn:B; eauto.
  pose proof (body_ok P w f (Some i) (CNum v) I B) as W. destruct v as [tv sv mv]. destruct (convert_ok tv sv mv t s dst W It M L O) as (bs & C & _). cbn [ty sh mem]. rewrite C. eauto.
Qed.
Lemma get_number_ok P w f g n t s dst j : sensible P -> inv P w f -> got_alive w g -> integer_type t -> is_mat s = false -> length dst = size t s -> octets dst -> junk_ok j ->
  exists w' r d, get_number P w g n t s dst j = Ok (w', r, d) /\ reads P w f w'.
Proof.
  intros SP I A It M L O J. destruct g as [|o|tx]; cbn [get_number].
  - do 3 eexists. split; [reflexivity|]. apply silent_reads; auto. repeat split.
  - destruct (definition_ok P w o n A) as (c & b & V & D). rewrite D. cbn [obind]. destruct (find_property (props P c) n) as [p|] eqn:F.
    + apply find_in in F. destruct F as [Ip Np]. destruct (no_accessors P c p SP Ip) as [Ge _]. rewrite Ge. cbn [orb].
      destruct (enc_dec (enc p)) as [E|E].
      * rewrite E. cbn [is_obj]. destruct (read_ok P w f o p c b j SP I V Ip J) as (w1 & g & E1 & R1 & _). rewrite E1. cbn [obind].
        destruct (unpack_ok P w1 f g t s dst (proj1 R1) It M L O) as ([r d] & Eu). rewrite Eu. cbn [obind fst snd]. destruct (r =? 0); do 3 eexists; (split; [reflexivity|]); auto.
        eapply reads_silent; [exact R1|apply note_silent].
      * assert (NO: is_obj (enc p) = false) by (destruct (enc p); auto; congruence). rewrite NO. cbv zeta.
        pose proof (will_read_silent w o p) as S1. assert (I1: inv P (will_read w o p) f) by (apply (silent_inv P w); auto).
        assert (R1: reads P w f (did_read (will_read w o p) o p)) by (eapply reads_silent; [apply silent_reads; eauto|apply did_read_silent]).
        assert (T: exists r, (match enc p with ENum ts ss => do src <- load_bytes (will_read w o p) o (offset p) (size ts ss); convert ts ss src t s dst | _ => Ok (0, dst) end) = Ok r).
        { destruct (enc p) as [|ts ss|k] eqn:En; [congruence| |eauto]. destruct (load_bytes_ok P (will_read w o p) f o p c b) as (src & Ls & Lb & Ob); auto.
          { rewrite (silent_vw w _ o S1); auto. } { rewrite En; discriminate. }
          rewrite En in Ls, Lb. cbn [esize] in Ls, Lb. rewrite Ls. cbn [obind]. destruct (proj1 SP c p Ip) as (_ & _ & _ & Pl). rewrite En in Pl. destruct Pl as [Its Mss].
          destruct (convert_ok ts ss src t s dst) as (bs & C & _); auto. { split; auto. } rewrite C. eauto. }
        destruct T as ([r d] & ET). rewrite ET. cbn [obind fst snd]. destruct (r =? 0); do 3 eexists; (split; [reflexivity|]); auto. eapply reads_silent; [exact R1|apply note_silent].
    + do 3 eexists. split; [reflexivity|]. apply silent_reads; auto using note_silent.
  - do 3 eexists. split; [reflexivity|]. apply silent_reads; auto using note_silent.
Qed.
Lemma unpack_struct_silent w g sem dst : silent w (fst (fst (unpack_struct w g sem dst))).
Proof.
  destruct g as [|i|]; cbn [unpack_struct fst]; try solve [repeat split]. destruct (body_of w (Some i)) as [[tx|v|sm bs|]|]; try solve [repeat split].
  destruct (length dst =? length bs); [destruct (opt_text_eqb sm sem)|]; repeat split.
Qed.
Lemma get_struct_ok P w f g n sem dst j : sensible P -> inv P w f -> got_alive w g -> junk_ok j ->
  exists w' r d, get_struct P w g n sem dst j = Ok (w', r, d) /\ reads P w f w'.
Proof.
  intros SP I A J. destruct g as [|o|tx]; cbn [get_struct].
  - do 3 eexists. split; [reflexivity|]. apply silent_reads; auto. repeat split.
  - destruct (definition_ok P w o n A) as (c & b & V & D). rewrite D. cbn [obind]. destruct (find_property (props P c) n) as [p|] eqn:F.
    + apply find_in in F. destruct F as [Ip Np]. destruct (no_accessors P c p SP Ip) as [Ge _]. rewrite Ge. cbn [orb].
      destruct (semantic_fails p sem). { do 3 eexists. split; [reflexivity|]. apply silent_reads; auto using note_silent. }
      destruct (enc p) as [|ts ss|k] eqn:En; cbn [is_obj].
      * destruct (read_ok P w f o p c b j SP I V Ip J) as (w1 & g & E1 & R1 & _). rewrite E1. cbn [obind].
        pose proof (unpack_struct_silent w1 g sem dst) as S2. destruct (unpack_struct w1 g sem dst) as [[w2 r] d]. cbn [fst obind] in *.
        destruct (negb (r =? 0)); do 3 eexists; (split; [reflexivity|]); [eapply reads_silent; eauto|]. eapply reads_silent; [eapply reads_silent; eauto|apply note_silent].
      * cbn [obind negb]. do 3 eexists. split; [reflexivity|]. apply silent_reads; auto using note_silent.
      * cbn [obind negb]. cbn [Nat.eqb negb]. destruct (k =? length dst); [|do 3 eexists; split; [reflexivity|]; apply silent_reads; auto using note_silent].
        cbv zeta. pose proof (will_read_silent w o p) as S1. destruct (load_bytes_ok P (will_read w o p) f o p c b) as (src & Ls & Lb & Ob); auto.
        { apply (silent_inv P w); auto. } { rewrite (silent_vw w _ o S1); auto. } { rewrite En; discriminate. }
        rewrite En in Ls. cbn [esize] in Ls. rewrite Ls. cbn [obind]. do 3 eexists. split; [reflexivity|]. eapply reads_silent; [apply silent_reads; eauto|apply did_read_silent].
    + do 3 eexists. split; [reflexivity|]. apply silent_reads; auto using note_silent.
  - do 3 eexists. split; [reflexivity|]. apply silent_reads; auto using note_silent.
Qed.

(** * Steps *)
Lemma times_without l x y : In x l -> times (without l x) y = times l y - one (Some x) y.
Proof.
  unfold times. cbn [one]. induction l as [|z l IH]; [contradiction|]. intros H. cbn [without count_occ]. destruct (Nat.eqb_spec z x) as [->|N].
  - destruct (Nat.eq_dec x y) as [->|M]; [rewrite Nat.eqb_refl; lia|]. rewrite (proj2 (Nat.eqb_neq x y) M). lia.
  - destruct H as [H|H]; [congruence|]. specialize (IH H). cbn [count_occ]. destruct (Nat.eq_dec z y) as [->|M]; [|auto].
    rewrite IH. destruct (Nat.eqb_spec x y) as [->|K]; [congruence|]. lia.
Qed.
Lemma times_in l x : In x l -> 1 <= times l x.
Proof. intros H. apply (count_occ_In Nat.eq_dec) in H. unfold times. lia. Qed.
Lemma release_all_ok P l : forall w f, inv P w (fun y => f y + times l y) -> exists w', release_all w l = Ok w' /\ same w w' /\ inv P w' f.
Proof.
  induction l as [|i l IH]; intros w f I; cbn [release_all].
  - exists w. split; auto. split; [apply same_refl|]. eapply inv_ext; [|exact I]. intros x. cbv beta. unfold times. cbn. lia.
  - destruct (release_inv P w _ (Some i) I) as (w1 & E1 & S1 & I1).
    { intros y. cbv beta. unfold times. cbn [count_occ one]. destruct (Nat.eq_dec i y) as [->|N]; [rewrite Nat.eqb_refl|rewrite (proj2 (Nat.eqb_neq i y) N)]; lia. }
    rewrite E1. cbn [obind]. destruct (IH w1 f) as (w2 & E2 & S2 & I2).
    { eapply inv_ext; [|exact I1]. intros y. cbv beta. unfold times. cbn [count_occ one]. destruct (Nat.eq_dec i y) as [->|N]; [rewrite Nat.eqb_refl|rewrite (proj2 (Nat.eqb_neq i y) N)]; lia. }
    exists w2. split; auto. split; auto. eapply same_trans; eauto.
Qed.
Lemma receiver_alive w g : receiver_ok w g -> got_alive w g.
Proof. destruct g; cbn; auto. apply alive_refs. Qed.
Lemma opt_alive w x : alive_opt w x -> match x with Some i => 0 < refs_of w i | None => True end.
Proof. destruct x; cbn; auto. apply alive_refs. Qed.
Lemma zeros_ok : junk_ok zeros4. Proof. split; [reflexivity|]. repeat constructor; lia. Qed.
(** Classes never change; values change by [Mutate] only. *)
Definition classes_kept (w w' : world) (a : op) : Prop :=
  forall i c b, vw w i = Some (c, b) -> exists b', vw w' i = Some (c, b') /\ (~ mutates a i -> b' = b).
Lemma grows_kept w w' a : grows w w' -> classes_kept w w' a.
Proof. intros G i c b E. exists b. split; auto. Qed.
Lemma step_ok P w c a : sensible P -> inv P w (times c) -> permitted P w c a ->
  exists w', step P w a = Ok w' /\ inv P w' (times (owns w c a)) /\ classes_kept w w' a /\ untouched P w w' a.
Proof.
  intros SP I Pm. destruct a as [k v|x v|x|x|g n x|g n|g n v|g n t s dst|g n sm bs|g n sm dst|]; cbn [step permitted owns] in *.
  - eexists. split; [reflexivity|]. split; [|split].
    + eapply inv_ext; [|exact (alloc_inv P w _ k v I Pm)]. intros y. cbv beta. unfold times. cbn [count_occ one].
      destruct (Nat.eq_dec (length (heap w)) y) as [E|E]; [rewrite (proj2 (Nat.eqb_eq _ _) E)|rewrite (proj2 (Nat.eqb_neq _ _) E)]; lia.
    + apply grows_kept. intros i u X. apply vw_alloc_old; auto.
    + intros o off _. reflexivity.
  - destruct Pm as [(ob & E & A) V]. unfold get_obj. rewrite E. destruct (Nat.eqb_spec (refs ob) 0); [congruence|]. eexists. split; [reflexivity|].
    set (w' := with_heap w (upd (heap w) x (mkObj (cls ob) v (refs ob)))). assert (Lx: x < length (heap w)) by (apply nth_error_Some; congruence).
    assert (R: forall y, refs_of w' y = refs_of w y).
    { intros y. unfold refs_of, w'. cbn [heap with_heap]. destruct (Nat.eq_dec x y) as [->|N]; [rewrite nth_error_upd_eq, E by auto; reflexivity|rewrite nth_error_upd_neq by auto; reflexivity]. }
    assert (Vx: forall y, vw w' y = if x =? y then Some (cls ob, v) else vw w y).
    { intros y. unfold vw, w'. cbn [heap with_heap]. destruct (Nat.eqb_spec x y) as [->|N]; [rewrite nth_error_upd_eq by auto; reflexivity|rewrite nth_error_upd_neq by auto; reflexivity]. }
    assert (Ox: vw w x = Some (cls ob, body ob)) by (unfold vw; rewrite E; auto).
    assert (K: classes_kept w w' (Mutate x v)).
    { intros i cl b X. rewrite Vx. destruct (Nat.eqb_spec x i) as [->|N]; [|eauto]. rewrite Ox in X. injection X as <- <-. exists v. split; auto. intros M. exfalso. apply M. reflexivity. }
    split; [|split; [exact K|intros o off _; reflexivity]]. destruct I as [I1 I2 I3]. constructor.
    + intros y. rewrite R. apply I1.
    + intros o off s F. destruct (I2 o off s F) as (cl & b & X & H). destruct (K o cl b X) as (b' & X' & _). exists cl, b'. split; auto. intros p Ip Op. apply (fits_same w); auto. unfold w'. cbn. rewrite upd_length. auto.
    + intros y cl b X. rewrite Vx in X. destruct (x =? y); [injection X as <- <-; auto|eauto].
  - destruct (retain_inv P w _ (Some x) I) as (w' & E & (M & Po & L & Vw) & I'). { apply alive_refs in Pm. auto. }
    exists w'. split; auto. split; [|split; [apply grows_kept; apply grows_same; auto|intros o off _; rewrite M; auto]].
    eapply inv_ext; [|exact I']. intros y. cbv beta. unfold times. cbn [count_occ one]. destruct (Nat.eq_dec x y) as [->|N]; [rewrite Nat.eqb_refl|rewrite (proj2 (Nat.eqb_neq x y) N)]; lia.
  - destruct (release_inv P w _ (Some x) I) as (w' & E & (M & Po & L & Vw) & I'). { intros y. cbn [one]. destruct (Nat.eqb_spec x y) as [->|N]; [apply times_in; auto|lia]. }
    exists w'. split; auto. split; [|split; [apply grows_kept; apply grows_same; auto|intros o off _; rewrite M; auto]].
    eapply inv_ext; [|exact I']. intros y. cbv beta. rewrite times_without by auto. reflexivity.
  - destruct Pm as [A B]. destruct (set_ok P w _ g n x SP I (receiver_alive _ _ A) (opt_alive _ _ B)) as (w' & E & I' & G & U). exists w'. split; auto. split; auto. split; auto. apply grows_kept; auto.
  - destruct (get_ok P w _ g n zeros4 SP I (receiver_alive _ _ Pm) zeros_ok) as (w' & r & E & R & _). rewrite E. cbn [obind fst]. exists w'. split; auto.
    destruct (reads_moves P w _ (Get_ g n) w' R) as (I' & G & U). split; auto. split; auto. apply grows_kept; auto.
  - destruct Pm as [A B]. destruct (set_number_ok P w _ g n v SP I (receiver_alive _ _ A) B) as (w' & E & I' & G & U). exists w'. split; auto. split; auto. split; auto. apply grows_kept; auto.
  - destruct Pm as (A & It & M & L & O). destruct (get_number_ok P w _ g n t s dst zeros4 SP I (receiver_alive _ _ A) It M L O zeros_ok) as (w' & r & d & E & R). rewrite E. cbn [obind fst]. exists w'. split; auto.
    destruct (reads_moves P w _ (GetNum g n t s dst) w' R) as (I' & G & U). split; auto. split; auto. apply grows_kept; auto.
  - destruct Pm as [A B]. destruct (set_struct_ok P w _ g n sm bs SP I (receiver_alive _ _ A) B) as (w' & E & I' & G & U). exists w'. split; auto. split; auto. split; auto. apply grows_kept; auto.
  - destruct (get_struct_ok P w _ g n sm dst zeros4 SP I (receiver_alive _ _ Pm) zeros_ok) as (w' & r & d & E & R). rewrite E. cbn [obind fst]. exists w'. split; auto.
    destruct (reads_moves P w _ (GetStruct g n sm dst) w' R) as (I' & G & U). split; auto. split; auto. apply grows_kept; auto.
  - destruct (release_all_ok P (pool w) (with_pool w []) (times c)) as (w' & E & (M & Po & L & Vw) & I').
    { destruct I as [I1 I2 I3]. constructor; auto. intros y. cbn [with_pool pool memory]. change (refs_of (with_pool w []) y) with (refs_of w y). rewrite I1. unfold times. cbn. lia. }
    exists w'. split; auto. split; auto. split; [apply grows_kept; apply grows_same; auto|intros o off _; rewrite M; auto].
Qed.
Lemma start_inv P : inv P start (times []).
Proof. constructor; intros; [destruct x; reflexivity| |]; unfold start in *; [intros o off s E; discriminate|destruct x; discriminate]. Qed.
Lemma reaches_inv P w c w' c' l : sensible P -> reaches P w c w' c' l -> inv P w (times c) -> inv P w' (times c').
Proof.
  intros SP R. induction R as [|w c a w1 l v d Pm E R IH]; auto. intros I. apply IH. destruct (step_ok P w c a SP I Pm) as (w2 & E2 & I2 & _). rewrite E in E2. injection E2 as <-. auto.
Qed.
Lemma reachable_inv P w c : sensible P -> reachable P w c -> inv P w (times c).
Proof. intros SP [l R]. eapply reaches_inv; eauto. apply start_inv. Qed.
Lemma inv_accounted P w c : inv P w (times c) -> accounted w c.
Proof. intros [A _ _] x. specialize (A x). unfold refs_of in A. destruct (nth_error (heap w) x); lia. Qed.
Lemma ownership P w c a : sensible P -> reachable P w c -> accounted w c /\ (permitted P w c a -> exists w', step P w a = Ok w' /\ reachable P w' (owns w c a)).
Proof.
  intros SP R. pose proof (reachable_inv P w c SP R) as I. split; [eapply inv_accounted; eauto|]. intros Pm.
  destruct (step_ok P w c a SP I Pm) as (w' & E & _). exists w'. split; auto. destruct R as [l R]. exists (l ++ [a]).
  revert R Pm E. generalize start. generalize (@nil nat). intros c0 w0 R. induction R as [|w0 c0 a0 w1 l v d Pm0 E0 R0 IH]; intros Pm E.
  - cbn. econstructor; eauto. constructor.
  - cbn. econstructor; eauto.
Qed.
