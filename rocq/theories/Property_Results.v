(** Proofs about properties: what is read after what was written. *)
Require Import Coq.NArith.NArith Coq.ZArith.ZArith Coq.Lists.List Coq.Arith.Arith Coq.Bool.Bool Coq.micromega.Lia.
Require Import Verif.Base Verif.Number_Model Verif.Number_Spec Verif.Number_Proofs Verif.Property_Model Verif.Property_Spec Verif.Property_Proofs Verif.Property_Access Verif.Property_Steps.
Import ListNotations.
Local Open Scope nat_scope.

Lemma target_writes a i n : target_of a = Some (i, n) -> writes a i n.
Proof. destruct a as [| | | |[| |]| |[| |]| |[| |]| |]; cbn; try discriminate; intros E; injection E as <- <-; auto. Qed.
Lemma is_a_vw w x c b : is_a w x c b <-> vw w x = Some (c, b).
Proof.
  unfold is_a, vw. split.
  - intros [n E]. rewrite E. reflexivity.
  - destruct (nth_error (heap w) x) as [[c' b' n]|]; [|discriminate]. intros E. injection E as -> ->. eauto.
Qed.
Lemma has_vw P w o p : has_property P w o p -> exists c b, vw w o = Some (c, b) /\ In p (props P c).
Proof. intros (ob & E & Ip). exists (cls ob), (body ob). unfold vw. rewrite E. auto. Qed.
Lemma frame P w c w' c' l : sensible P -> reaches P w c w' c' l -> inv P w (times c) -> forall o cl p b, vw w o = Some (cl, b) -> In p (props P cl) -> Forall (fun a => ~ writes a o (pname p)) l ->
  find_slot (memory w') (o, offset p) = find_slot (memory w) (o, offset p).
Proof.
  intros SP R. induction R as [|w c a w1 l v d Pm E R IH]; auto. intros I o cl p b V Ip F. inversion F as [|? ? F1 F2]; subst.
  destruct (step_ok P w c a SP I Pm) as (w2 & E2 & I2 & K & U). rewrite E in E2. injection E2 as <-. destruct (K o cl b V) as (b' & V' & _).
  rewrite (IH I2 o cl p b' V' Ip F2). apply U. intros i n ci bi q T Vi Iq Nq X. injection X as -> X.
  apply F1. rewrite V in Vi. injection Vi as <- <-. destruct SP as (_ & Inj & _). rewrite (Inj cl p q Ip Iq X), Nq. apply target_writes. auto.
Qed.
Lemma class_frame P w c w' c' l : sensible P -> reaches P w c w' c' l -> inv P w (times c) -> forall o cl b, vw w o = Some (cl, b) -> exists b', vw w' o = Some (cl, b') /\ (Forall (fun a => ~ mutates a o) l -> b' = b).
Proof.
  intros SP R. induction R as [|w c a w1 l v d Pm E R IH]; [eauto|]. intros I o cl b V.
  destruct (step_ok P w c a SP I Pm) as (w2 & E2 & I2 & K & U). rewrite E in E2. injection E2 as <-. destruct (K o cl b V) as (b' & V' & N1).
  destruct (IH I2 o cl b' V') as (b'' & V'' & N2). exists b''. split; auto. intros F. inversion F as [|? ? F1 F2]; subst. rewrite N2, N1; auto.
Qed.

Lemma read_slot_strong w o p j x : getter p = None -> enc p = EObj -> weak p = false -> find_slot (memory w) (o, offset p) = Some (SRef x) ->
  match x with Some i => 0 < refs_of w i | None => True end -> exists w', read_object w o p j = Ok (w', got_of x).
Proof.
  intros Ge E W F A. unfold read_object. rewrite Ge, E, W. pose proof (will_read_silent w o p) as S. unfold load_ref. destruct S as (H & M & Po).
  rewrite M, F. cbn [obind]. destruct (retain_spec (will_read w o p) x) as (w1 & R & _).
  { destruct x as [i|]; auto. unfold refs_of. rewrite H. exact A. }
  rewrite R. cbn [obind]. eauto.
Qed.
Lemma read_slot_weak w o p j x : getter p = None -> enc p = EObj -> weak p = true -> find_slot (memory w) (o, offset p) = Some (SWeak x) ->
  match x with Some i => i < length (heap w) | None => True end ->
  exists w', read_object w o p j = Ok (w', match x with Some i => if refs_of w i =? 0 then GNull else GObj i | None => GNull end).
Proof.
  intros Ge E W F A. unfold read_object. rewrite Ge, E, W. pose proof (will_read_silent w o p) as S. unfold load_weak. destruct S as (H & M & Po).
  rewrite M, F. cbn [obind]. destruct x as [i|]; cbn [resolve]; [|eexists; reflexivity]. unfold get_obj, refs_of. rewrite H. destruct (nth_error (heap w) i) as [ob|] eqn:N; [|apply nth_error_None in N; lia].
  destruct (Nat.eqb_spec (refs ob) 0) as [Z|Z]; [eexists; reflexivity|]. destruct (retain_spec (will_read w o p) (Some i)) as (w1 & R & _).
  { unfold refs_of. rewrite H, N. lia. }
  rewrite R. cbn [obind]. eexists. reflexivity.
Qed.
Lemma accepts_pred p w x : (match x with Some i => 0 < refs_of w i | None => True end) -> accepts p w x -> (match pred p with Some f => negb (f (view w x)) | None => false end) = false.
Proof.
  unfold accepts. intros _. destruct (pred p) as [g|]; auto. destruct x as [i|].
  - intros (c & b & A & E). rewrite view_vw. rewrite is_a_vw in A. rewrite A, E. reflexivity.
  - intros E. cbn [view]. rewrite E. reflexivity.
Qed.
Lemma set_stored P w c o p x w1 : sensible P -> inv P w (times c) -> has_property P w o p -> enc p = EObj -> readonly p = false -> accepts p w x ->
  permitted P w c (Set_ (GObj o) (pname p) x) -> step P w (Set_ (GObj o) (pname p) x) = Ok w1 ->
  inv P w1 (times c) /\ exists s wi w', find_slot (memory w1) (o, offset p) = Some s /\ silent w wi /\ silent w' w1 /\ stored P wi w' p x s.
Proof.
  intros SP I H E Ro Ac Pm St. split.
  { destruct (step_ok P w c _ SP I Pm) as (w2 & E2 & I2 & _). rewrite St in E2. injection E2 as <-. exact I2. }
  destruct (has_vw P w o p H) as (cl & b & V & Ip). destruct Pm as [A B]. apply receiver_alive in A. apply opt_alive in B. cbn [step set_property] in St.
  destruct (definition_ok P w o (pname p) A) as (cl' & b' & V' & D). rewrite V in V'. injection V' as <- <-. rewrite D in St. cbn [obind] in St. rewrite (find_named P cl p SP Ip), Ro in St.
  unfold write_object in St. destruct (no_accessors P cl p SP Ip) as [_ Se]. rewrite Se, E in St. cbn [is_obj] in St. rewrite (accepts_pred p w x B Ac) in St.
  pose proof (will_write_silent w o p) as S1. destruct (store_ok P (will_write w o p) (times c) o p x cl b SP) as (w2 & s & E2 & I2 & G2 & _ & _ & M2 & T2); auto.
  { apply (silent_inv P w); auto. } { rewrite (silent_vw w _ o S1); auto. } { destruct x as [i|]; auto. rewrite (silent_refs w _ i S1). auto. }
  rewrite E2 in St. cbn [obind] in St. injection St as <-. exists s, (will_write w o p), w2. pose proof (did_write_silent w2 o p) as S2. split; [|split; auto].
  destruct S2 as (_ & M3 & _). rewrite M3, M2. apply find_put_same.
Qed.
Lemma refs_slot P w f k x : inv P w f -> find_slot (memory w) k = Some (SRef (Some x)) -> 0 < refs_of w x.
Proof. intros I F. rewrite (i_refs P w f I). pose proof (find_le (memory w) k x) as L. rewrite F in L. cbn in L. rewrite Nat.eqb_refl in L. lia. Qed.
Lemma get_named P w o p j : sensible P -> has_property P w o p -> alive w o -> get_property P w (GObj o) (pname p) j = read_object w o p j.
Proof.
  intros SP H A. destruct (has_vw P w o p H) as (cl & b & V & Ip). apply alive_refs in A. cbn [get_property].
  destruct (definition_ok P w o (pname p) A) as (cl' & b' & V' & D). rewrite V in V'. injection V' as <- <-. rewrite D. cbn [obind]. rewrite (find_named P cl p SP Ip). reflexivity.
Qed.
Lemma has_class P w o p cl b : vw w o = Some (cl, b) -> In p (props P cl) -> has_property P w o p.
Proof. unfold vw, has_property. destruct (nth_error (heap w) o) as [ob|]; [|discriminate]. intros E Ip. injection E as <- <-. eauto. Qed.

Lemma after_facts P w c o p x w1 l w2 c2 : sensible P -> after_set P w c o p x w1 l w2 c2 ->
  inv P w1 (times c) /\ inv P w2 (times c2) /\ has_property P w2 o p /\ getter p = None /\
  exists s wi w', find_slot (memory w1) (o, offset p) = Some s /\ find_slot (memory w2) (o, offset p) = Some s /\ silent w wi /\ silent w' w1 /\ stored P wi w' p x s.
Proof.
  intros SP A. pose proof (reachable_inv P w c SP (a_reach _ _ _ _ _ _ _ _ _ _ A)) as I.
  destruct (set_stored P w c o p x w1 SP I) as (I1 & s & wi & w' & F & S1 & S2 & St); try apply A.
  pose proof (reaches_inv P w1 c w2 c2 l SP (a_then _ _ _ _ _ _ _ _ _ _ A) I1) as I2.
  destruct (has_vw P w o p (a_has _ _ _ _ _ _ _ _ _ _ A)) as (cl & b & V & Ip).
  destruct (step_ok P w c _ SP I (a_permitted _ _ _ _ _ _ _ _ _ _ A)) as (w1' & E1 & _ & K & _). rewrite (a_step _ _ _ _ _ _ _ _ _ _ A) in E1. injection E1 as <-.
  destruct (K o cl b V) as (b1 & V1 & _). destruct (class_frame P w1 c w2 c2 l SP (a_then _ _ _ _ _ _ _ _ _ _ A) I1 o cl b1 V1) as (b2 & V2 & _).
  split; auto. split; auto. split; [eapply has_class; eauto|]. split; [apply (no_accessors P cl p SP Ip)|]. exists s, wi, w'. split; auto. split; auto.
  rewrite (frame P w1 c w2 c2 l SP (a_then _ _ _ _ _ _ _ _ _ _ A) I1 o cl p b1 V1 Ip (a_others _ _ _ _ _ _ _ _ _ _ A)). exact F.
Qed.
Lemma strong_result P w c o p x w1 l w2 c2 j : sensible P -> after_set P w c o p x w1 l w2 c2 -> copied p = false -> weak p = false ->
  exists w3, get_property P w2 (GObj o) (pname p) j = Ok (w3, got_of x).
Proof.
  intros SP A C W. destruct (after_facts P w c o p x w1 l w2 c2 SP A) as (I1 & I2 & H2 & Ge & s & wi & w' & F1 & F2 & _ & _ & St).
  rewrite (get_named P w2 o p j SP H2 (a_alive _ _ _ _ _ _ _ _ _ _ A)). unfold stored in St. rewrite C, W in St. subst s.
  apply read_slot_strong; auto; [apply A|]. destruct x as [i|]; auto. eapply refs_slot; eauto.
Qed.
Lemma weak_result P w c o p x w1 l w2 c2 j : sensible P -> after_set P w c o p x w1 l w2 c2 -> copied p = false -> weak p = true ->
  (alive_opt w2 x -> exists w3, get_property P w2 (GObj o) (pname p) j = Ok (w3, got_of x)) /\
  (~ alive_opt w2 x -> exists w3, get_property P w2 (GObj o) (pname p) j = Ok (w3, GNull)).
Proof.
  intros SP A C W. destruct (after_facts P w c o p x w1 l w2 c2 SP A) as (I1 & I2 & H2 & Ge & s & wi & w' & F1 & F2 & _ & _ & St).
  rewrite (get_named P w2 o p j SP H2 (a_alive _ _ _ _ _ _ _ _ _ _ A)). unfold stored in St. rewrite C, W in St. subst s.
  assert (B: match x with Some i => i < length (heap w2) | None => True end).
  { destruct (has_vw P w2 o p H2) as (cl & b & V & Ip). pose proof (slot_fits P w2 _ o p cl b I2 V Ip _ F2) as Fi. unfold fits in Fi. rewrite (a_obj _ _ _ _ _ _ _ _ _ _ A), W in Fi. destruct x; auto. }
  destruct (read_slot_weak w2 o p j x Ge (a_obj _ _ _ _ _ _ _ _ _ _ A) W F2 B) as (w3 & R). destruct x as [i|]; cbn [alive_opt got_of] in *.
  - split; intros X; exists w3; rewrite R.
    + apply alive_refs in X. destruct (Nat.eqb_spec (refs_of w2 i) 0); [lia|reflexivity].
    + destruct (Nat.eqb_spec (refs_of w2 i) 0) as [Z|Z]; [reflexivity|]. exfalso. apply X. apply alive_refs. lia.
  - split; [eauto|]. intros X. exfalso. apply X. exact Logic.I.
Qed.
Lemma copy_result P w c o p x w1 l w2 c2 j : sensible P -> length j = 4 -> octets j -> after_set P w c o p x w1 l w2 c2 -> copied p = true ->
  match x with
  | None => exists w3, get_property P w2 (GObj o) (pname p) j = Ok (w3, GNull)
  | Some i => exists cl b, is_a w i cl b /\
      match copies P cl with
      | None => exists w3, get_property P w2 (GObj o) (pname p) j = Ok (w3, GObj i)
      | Some cl' => exists k w3, nth_error (heap w) k = None /\ get_property P w2 (GObj o) (pname p) j = Ok (w3, GObj k) /\ (Forall (fun a => ~ mutates a k) l -> is_a w3 k cl' b)
      end
  end.
Proof.
  intros SP Lj Oj A C. destruct (after_facts P w c o p x w1 l w2 c2 SP A) as (I1 & I2 & H2 & Ge & s & wi & w' & F1 & F2 & S1 & S2 & St).
  rewrite (get_named P w2 o p j SP H2 (a_alive _ _ _ _ _ _ _ _ _ _ A)). unfold stored in St. rewrite C in St. destruct St as (y & -> & St).
  destruct (has_vw P w2 o p H2) as (cl2 & b2 & V2 & Ip). assert (W: weak p = false).
  { destruct (proj1 SP cl2 p Ip) as (_ & _ & CW & _). destruct (weak p); auto. exfalso. apply CW; auto. }
  destruct (read_slot_strong w2 o p j y Ge (a_obj _ _ _ _ _ _ _ _ _ _ A) W F2) as (w3 & R). { destruct y as [i|]; auto. eapply refs_slot; eauto. }
  rewrite R. destruct x as [i|]; [|subst y; eauto]. destruct St as (cl & b & X & St). rewrite (silent_vw w wi i S1) in X. exists cl, b. split; [apply is_a_vw; auto|]. destruct (copies P cl) as [cl'|].
  - destruct St as (k & -> & N & Vk). exists k, w3. split; [|split; auto].
    + rewrite (silent_vw w wi k S1) in N. unfold vw in N. destruct (nth_error (heap w) k); congruence.
    + intros Fm. apply is_a_vw. rewrite <- (silent_vw w' w1 k S2) in Vk. destruct (class_frame P w1 c w2 c2 l SP (a_then _ _ _ _ _ _ _ _ _ _ A) I1 k cl' b Vk) as (b' & Vb & E). rewrite <- (E Fm).
      destruct (read_ok P w2 (times c2) o p cl2 b2 j SP I2 V2 Ip) as (w4 & g & R4 & (_ & G & _) & _); [split; auto|]. rewrite R in R4. injection R4 as <- <-. apply G. exact Vb.
  - subst y. eauto.
Qed.
