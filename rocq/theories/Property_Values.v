(** Proofs about properties: numbers, structures and enumerations; what is refused. *)
Require Import Coq.NArith.NArith Coq.ZArith.ZArith Coq.Lists.List Coq.Arith.Arith Coq.Bool.Bool Coq.micromega.Lia.
Require Import Verif.Base Verif.Number_Model Verif.Number_Spec Verif.Number_Proofs Verif.Property_Model Verif.Property_Spec Verif.Property_Proofs Verif.Property_Access Verif.Property_Steps Verif.Property_Results.
Import ListNotations.
Local Open Scope nat_scope.

Lemma represents_self t vs ws : integer_type t -> Forall (holds t) vs -> Forall2 (represents t) vs ws -> ws = vs.
Proof.
  intros It F R. induction R as [|v w vs ws [H [k E]] R IH]; auto. inversion F as [|? ? F1 F2]; subst. f_equal; auto.
  apply (holds_unique t _ _ k); auto.
Qed.
Lemma convert_same tv k vs m t dst : is_number (mkNum tv (Vec k) m) tv (Vec k) vs -> Forall (holds t) vs -> integer_type t -> length dst = size t (Vec k) -> octets dst ->
  convert tv (Vec k) m t (Vec k) dst = Ok (k, flat_map (le (width t)) vs).
Proof.
  intros N H It L O. destruct (every_number (mkNum t (Vec k) dst)) as (old & No). { split; [exact It|]. split; [exact L|exact O]. }
  cbn [ty sh] in No. destruct (convert_vector _ _ _ _ _ _ _ _ N No) as (b' & ws & E & R & (Ib & Fb & Lb & Eb)). { right. reflexivity. }
  cbn [count] in *. rewrite Nat.min_id in *. assert (Lv: length vs = k) by (destruct N as (_ & _ & Lv & _); exact Lv).
  rewrite firstn_all2 in R by lia. apply (represents_self t vs ws It H) in R. subst ws.
  assert (Lo: length old = k) by (destruct No as (_ & _ & Lo & _); exact Lo). rewrite skipn_all2, app_nil_r in * by lia.
  unfold cast_value in E. cbn [ty sh mem] in E. destruct (convert tv (Vec k) m t (Vec k) dst) as [[q bs]| | |]; cbn [obind fst snd] in E; try discriminate.
  injection E as -> E2. subst b'. injection Eb as ->. reflexivity.
Qed.
Lemma is_number_mem t k vs : integer_type t -> Forall (holds t) vs -> length vs = k -> is_number (mkNum t (Vec k) (flat_map (le (width t)) vs)) t (Vec k) vs.
Proof. intros It F L. split; auto. Qed.
Lemma found P w o p c : sensible P -> has_property P w o p -> got_alive w (GObj o) -> inv P w (times c) -> exists cl b, vw w o = Some (cl, b) /\ In p (props P cl) /\ definition P w o (pname p) = Ok (Some p) /\ getter p = None /\ setter p = None.
Proof.
  intros SP H A I. destruct (has_vw P w o p H) as (cl & b & V & Ip). destruct (definition_ok P w o (pname p) A) as (cl' & b' & V' & D). rewrite V in V'. injection V' as <- <-.
  rewrite (find_named P cl p SP Ip) in D. destruct (no_accessors P cl p SP Ip). exists cl, b. auto.
Qed.
Lemma later P w c a o p w1 l w2 c2 : sensible P -> inv P w (times c) -> has_property P w o p -> permitted P w c a -> step P w a = Ok w1 -> owns w c a = c -> reaches P w1 c w2 c2 l -> Forall (fun a => ~ writes a o (pname p)) l ->
  inv P w2 (times c2) /\ has_property P w2 o p /\ find_slot (memory w2) (o, offset p) = find_slot (memory w1) (o, offset p).
Proof.
  intros SP I H Pm St Ow R F. destruct (has_vw P w o p H) as (cl & b & V & Ip). destruct (step_ok P w c a SP I Pm) as (w1' & E1 & I1 & K & _). rewrite St in E1. injection E1 as <-. rewrite Ow in I1.
  destruct (K o cl b V) as (b1 & V1 & _). destruct (class_frame P w1 c w2 c2 l SP R I1 o cl b1 V1) as (b2 & V2 & _).
  split; [eapply reaches_inv; eauto|]. split; [eapply has_class; eauto|]. eapply frame; eauto.
Qed.
Lemma silent_slot w w' k : silent w w' -> find_slot (memory w') k = find_slot (memory w) k.
Proof. intros (_ & M & _). rewrite M. reflexivity. Qed.
Lemma number_slot P w c o p tv k vs m t w1 : sensible P -> inv P w (times c) -> has_property P w o p -> enc p = ENum t (Vec k) -> readonly p = false -> 0 < k ->
  is_number (mkNum tv (Vec k) m) tv (Vec k) vs -> Forall (holds t) vs -> alive w o -> set_number P w (GObj o) (pname p) (mkNum tv (Vec k) m) = Ok w1 ->
  find_slot (memory w1) (o, offset p) = Some (SBytes (flat_map (le (width t)) vs)).
Proof.
  intros SP I H E Ro K N F A St. apply alive_refs in A. destruct (found P w o p c SP H A I) as (cl & b & V & Ip & D & _ & Se). cbn [set_number] in St. rewrite D in St. cbn [obind] in St. rewrite Ro, Se, E in St. cbn [is_obj orb] in St.
  destruct (proj1 SP cl p Ip) as (_ & _ & _ & Pl). rewrite E in Pl. destruct Pl as [It Ms]. unfold convert_in in St. rewrite E in St.
  pose proof (will_write_silent w o p) as S1. destruct (load_bytes_ok P (will_write w o p) (times c) o p cl b) as (dst & L & Ld & Od); auto.
  { apply (silent_inv P w); auto. } { rewrite (silent_vw w _ o S1); auto. } { rewrite E; discriminate. }
  rewrite E in L, Ld. cbn [esize] in L, Ld. rewrite L in St. cbn [obind ty sh mem] in St. rewrite (convert_same tv k vs m t dst N F It Ld Od) in St. cbn [obind fst snd] in St.
  destruct (Nat.eqb_spec k 0); [lia|]. cbn [negb] in St. injection St as <-. rewrite (silent_slot _ _ _ (did_write_silent _ o p)). cbn [save memory with_memory]. apply find_put_same.
Qed.
Lemma number_get P w c o p t k vs t' dst j : sensible P -> inv P w (times c) -> has_property P w o p -> enc p = ENum t (Vec k) -> 0 < k -> alive w o ->
  find_slot (memory w) (o, offset p) = Some (SBytes (flat_map (le (width t)) vs)) -> Forall (holds t) vs -> length vs = k -> Forall (holds t') vs -> integer_type t' -> length dst = size t' (Vec k) -> octets dst ->
  exists w', get_number P w (GObj o) (pname p) t' (Vec k) dst j = Ok (w', k, flat_map (le (width t')) vs).
Proof.
  intros SP I H E K A F Hv Lv Hv' It' Ld Od. apply alive_refs in A. destruct (found P w o p c SP H A I) as (cl & b & V & Ip & D & Ge & _). cbn [get_number]. rewrite D. cbn [obind]. rewrite Ge, E. cbn [is_obj orb]. cbv zeta.
  destruct (proj1 SP cl p Ip) as (_ & _ & _ & Pl). rewrite E in Pl. destruct Pl as [It Ms].
  unfold load_bytes. rewrite (silent_slot _ _ _ (will_read_silent w o p)), F, flat_length, Lv. unfold size. cbn [count]. rewrite Nat.eqb_refl. cbn [obind].
  rewrite (convert_same t k vs _ t' dst (is_number_mem t k vs It Hv Lv) Hv' It' Ld Od). cbn [obind fst snd]. destruct (Nat.eqb_spec k 0); [lia|]. eauto.
Qed.
Lemma number_result P w c o p tv k vs m t t' w1 l w2 c2 dst j : sensible P -> reachable P w c -> has_property P w o p -> enc p = ENum t (Vec k) -> readonly p = false -> 0 < k ->
  is_number (mkNum tv (Vec k) m) tv (Vec k) vs -> Forall (holds t) vs -> permitted P w c (SetNum (GObj o) (pname p) (mkNum tv (Vec k) m)) -> step P w (SetNum (GObj o) (pname p) (mkNum tv (Vec k) m)) = Ok w1 ->
  reaches P w1 c w2 c2 l -> Forall (fun a => ~ writes a o (pname p)) l -> alive w2 o -> integer_type t' -> Forall (holds t') vs -> length dst = size t' (Vec k) -> octets dst ->
  exists w3, get_number P w2 (GObj o) (pname p) t' (Vec k) dst j = Ok (w3, k, flat_map (le (width t')) vs).
Proof.
  intros SP Re H E Ro K N F Pm St R Fo A It' Hv' Ld Od. pose proof (reachable_inv P w c SP Re) as I.
  destruct (later P w c _ o p w1 l w2 c2 SP I H Pm St eq_refl R Fo) as (I2 & H2 & Sl).
  assert (Lv: length vs = k) by (destruct N as (_ & _ & Lv & _); exact Lv).
  apply (number_get P w2 c2 o p t k vs t' dst j); auto. rewrite Sl. destruct Pm as [Al _]. cbn [step] in St. apply (number_slot P w c o p tv k vs m t w1); auto.
Qed.
Lemma int_number z : (- 2 ^ 63 <= z < 2 ^ 63)%Z -> is_number (mkNum int64 (Vec 1) (le 8 z)) int64 (Vec 1) [z].
Proof. intros B. split; [cbn; tauto|]. split; [constructor; [exact B|constructor]|]. split; [reflexivity|]. cbn [flat_map]. rewrite app_nil_r. reflexivity. Qed.
Lemma integer_result P w c o p z t w1 l w2 c2 j j' : sensible P -> reachable P w c -> has_property P w o p -> enc p = ENum t (Vec 1) -> readonly p = false ->
  (- 2 ^ 63 <= z < 2 ^ 63)%Z -> holds t z -> alive w o -> set_integer P w (GObj o) (pname p) z = Ok w1 ->
  reaches P w1 c w2 c2 l -> Forall (fun a => ~ writes a o (pname p)) l -> alive w2 o -> length j = 8 -> octets j ->
  exists w3, get_integer P w2 (GObj o) (pname p) j j' = Ok (w3, z).
Proof.
  intros SP Re H E Ro B Hz A St R Fo A2 Lj Oj. pose proof (int_number z B) as N.
  destruct (number_result P w c o p int64 1 [z] (le 8 z) t int64 w1 l w2 c2 j j' SP Re H E Ro) as (w3 & G); auto.
  - split; [exact A|]. split; [cbn; tauto|]. split; [cbn [mem sh ty size]; rewrite le_length; reflexivity|apply le_bytes].
  - cbn; tauto.
  - exists w3. unfold get_integer. rewrite G. cbn [obind Nat.eqb]. cbn [flat_map]. pose proof (load_mid int64 [] z []) as L. cbn [app length] in L. rewrite L. cbn [obind].
    rewrite cast_id; auto. cbn; tauto.
Qed.

(** * Structures *)
Lemma opt_text_refl a : opt_text_eqb a a = true. Proof. destruct a; cbn; auto using text_eqb_refl. Qed.
Lemma opt_text_eq a b : opt_text_eqb a b = true <-> a = b.
Proof. destruct a, b; cbn; split; try congruence; [rewrite text_eqb_eq; congruence|intros E; injection E as ->; apply text_eqb_refl]. Qed.
Definition semantic_ok (p : property) (sem : option text) : Prop := semantic p = None \/ semantic p = sem.
Lemma semantic_pass p sem : semantic p = None \/ semantic p = sem -> semantic_fails p sem = false.
Proof. unfold semantic_fails. intros [-> | ->]; auto. destruct sem as [s|]; auto. rewrite opt_text_refl. reflexivity. Qed.
Lemma struct_result P w c o p sem bs w1 l w2 c2 sem' dst j : sensible P -> reachable P w c -> has_property P w o p -> enc p = EBin (length bs) -> readonly p = false ->
  semantic p = None \/ semantic p = sem -> semantic p = None \/ semantic p = sem' -> permitted P w c (SetStruct (GObj o) (pname p) sem bs) -> step P w (SetStruct (GObj o) (pname p) sem bs) = Ok w1 ->
  reaches P w1 c w2 c2 l -> Forall (fun a => ~ writes a o (pname p)) l -> alive w2 o -> length dst = length bs ->
  exists w3, get_struct P w2 (GObj o) (pname p) sem' dst j = Ok (w3, length bs, bs).
Proof.
  intros SP Re H E Ro S1 S2 Pm St R Fo A Ld. pose proof (reachable_inv P w c SP Re) as I.
  destruct (later P w c _ o p w1 l w2 c2 SP I H Pm St eq_refl R Fo) as (I2 & H2 & Sl). apply alive_refs in A.
  assert (F1: find_slot (memory w1) (o, offset p) = Some (SBytes bs)).
  { destruct Pm as [Al _]. apply receiver_alive in Al. destruct (found P w o p c SP H Al I) as (cl & b & V & Ip & D & _ & Se). cbn [step set_struct] in St. rewrite D in St. cbn [obind] in St.
    rewrite Ro, (semantic_pass p sem S1), Se, E in St. cbn [is_obj orb] in St. rewrite Nat.eqb_refl in St. injection St as <-. rewrite (silent_slot _ _ _ (did_write_silent _ o p)). cbn [save memory with_memory]. apply find_put_same. }
  destruct (found P w2 o p c2 SP H2 A I2) as (cl & b & V & Ip & D & Ge & _). cbn [get_struct]. rewrite D. cbn [obind]. rewrite (semantic_pass p sem' S2), Ge, E. cbn [is_obj orb obind Nat.eqb negb].
  rewrite Ld, Nat.eqb_refl. cbv zeta. unfold load_bytes. rewrite (silent_slot _ _ _ (will_read_silent w2 o p)), Sl, F1, Nat.eqb_refl. cbn [obind]. eauto.
Qed.

(** * Enumerations *)
Lemma enum_value_in e s v : NoDup (map fst e) -> In (s, v) e -> enum_value e s = v.
Proof.
  induction e as [|[t x] e IH]; [contradiction|]. cbn [map fst enum_value]. intros N H. inversion N as [|? ? N1 N2]; subst. destruct H as [E|H].
  - injection E as -> ->. rewrite text_eqb_refl. reflexivity.
  - destruct (text_eqb t s) eqn:Q; [|auto]. apply text_eqb_eq in Q. subst t. exfalso. apply N1. apply in_map_iff. exists (s, v). auto.
Qed.
Lemma enum_string_in e s v : NoDup (map snd e) -> In (s, v) e -> enum_string e v = Some s.
Proof.
  induction e as [|[t x] e IH]; [contradiction|]. cbn [map snd enum_string]. intros N H. inversion N as [|? ? N1 N2]; subst. destruct H as [E|H].
  - injection E as -> ->. rewrite Z.eqb_refl. reflexivity.
  - destruct (Z.eqb_spec x v) as [->|Q]; [|auto]. exfalso. apply N1. apply in_map_iff. exists (s, v). auto.
Qed.
Lemma int32_number z : holds int32 z -> is_number (mkNum int32 (Vec 1) (le 4 z)) int32 (Vec 1) [z].
Proof. intros B. split; [cbn; tauto|]. split; [constructor; [exact B|constructor]|]. split; [reflexivity|]. cbn [flat_map]. rewrite app_nil_r. reflexivity. Qed.
Lemma enum_result P w c o p t e x cl s v w1 l w2 c2 j : sensible P -> reachable P w c -> has_property P w o p -> enc p = ENum t (Vec 1) -> readonly p = false -> enumt p = Some e ->
  NoDup (map fst e) -> NoDup (map snd e) -> In (s, v) e -> holds t v -> holds int32 v -> is_a w x cl (CText s) ->
  permitted P w c (Set_ (GObj o) (pname p) (Some x)) -> step P w (Set_ (GObj o) (pname p) (Some x)) = Ok w1 ->
  reaches P w1 c w2 c2 l -> Forall (fun a => ~ writes a o (pname p)) l -> alive w2 o -> length j = 4 -> octets j ->
  exists w3, get_property P w2 (GObj o) (pname p) j = Ok (w3, GText s).
Proof.
  intros SP Re H E Ro Ee N1 N2 In_ Ht Hi Ax Pm St R Fo A Lj Oj. pose proof (reachable_inv P w c SP Re) as I.
  destruct (later P w c _ o p w1 l w2 c2 SP I H Pm St eq_refl R Fo) as (I2 & H2 & Sl).
  assert (F1: integer_type t /\ find_slot (memory w1) (o, offset p) = Some (SBytes (flat_map (le (width t)) [v]))).
  { destruct Pm as [Al _]. apply receiver_alive in Al. destruct (found P w o p c SP H Al I) as (k & b & V & Ip & D & _ & Se). cbn [step set_property] in St. rewrite D in St. cbn [obind] in St. rewrite Ro in St.
    unfold write_object in St. rewrite Se, E in St. cbn [is_obj] in St. destruct (proj1 SP k p Ip) as (_ & _ & _ & Pl). rewrite E in Pl. destruct Pl as [It Ms]. split; auto.
    unfold write_enum in St. rewrite Ee in St. unfold body_of in St. rewrite view_vw in St. rewrite is_a_vw in Ax. rewrite Ax, (enum_value_in e s v N1 In_) in St. unfold convert_in in St. rewrite E in St.
    pose proof (will_write_silent w o p) as S1. destruct (load_bytes_ok P (will_write w o p) (times c) o p k b) as (dst & L & Ld & Od); auto.
    { apply (silent_inv P w); auto. } { rewrite (silent_vw w _ o S1); auto. } { rewrite E; discriminate. }
    rewrite E in L, Ld. cbn [esize] in L, Ld. rewrite L in St. cbn [obind] in St. rewrite (convert_same int32 1 [v] _ t dst (int32_number v Hi)) in St; auto. cbn [obind fst snd Nat.eqb negb] in St.
    injection St as <-. rewrite (silent_slot _ _ _ (did_write_silent _ o p)). cbn [save memory with_memory]. apply find_put_same. }
  destruct F1 as [It F1]. rewrite (get_named P w2 o p j SP H2 A). destruct (has_vw P w2 o p H2) as (k & b & V & Ip). destruct (no_accessors P k p SP Ip) as [Ge _]. unfold read_object. rewrite Ge, E.
  unfold read_enum. rewrite Ee, E. cbv zeta. unfold load_bytes. rewrite (silent_slot _ _ _ (will_read_silent w2 o p)), Sl, F1, flat_length. unfold size. cbn [count length]. rewrite Nat.eqb_refl. cbn [obind].
  rewrite (convert_same t 1 [v] _ int32 j (is_number_mem t 1 [v] It (Forall_cons v Ht (Forall_nil _)) eq_refl)); auto; [|cbn; tauto]. cbn [obind fst snd Nat.eqb flat_map].
  pose proof (load_mid int32 [] v []) as Lm. cbn [app length] in Lm. rewrite Lm. cbn [obind]. rewrite cast_id by (auto; cbn; tauto). rewrite (enum_string_in e s v N2 In_). eauto.
Qed.

(** * Refused *)
Lemma refused P w c o n a : sensible P -> reachable P w c -> alive w o ->
  (forall cl b p, is_a w o cl b -> In p (props P cl) -> pname p = n -> readonly p = true) ->
  forall x v sem bs, a = Set_ (GObj o) n x \/ a = SetNum (GObj o) n v \/ a = SetStruct (GObj o) n sem bs -> step P w a = Ok (note w Warning).
Proof.
  intros SP Re A Ro x v sem bs Ha. apply alive_refs in A. destruct (definition_ok P w o n A) as (cl & b & V & D).
  assert (T: match find_property (props P cl) n with Some p => readonly p = true | None => True end).
  { destruct (find_property (props P cl) n) as [p|] eqn:F; auto. apply find_in in F. destruct F as [Ip Np]. apply (Ro cl b p); auto. apply is_a_vw; auto. }
  destruct Ha as [-> |[-> | ->]]; cbn [step set_property set_number set_struct]; rewrite D; cbn [obind]; destruct (find_property (props P cl) n) as [p|]; auto; rewrite T; reflexivity.
Qed.
Lemma refused_semantic P w c o p sem bs : sensible P -> reachable P w c -> alive w o -> has_property P w o p -> readonly p = false -> semantic p <> None -> semantic p <> sem ->
  step P w (SetStruct (GObj o) (pname p) sem bs) = Ok (note w Warning).
Proof.
  intros SP Re A H Ro S1 S2. pose proof (reachable_inv P w c SP Re) as I. apply alive_refs in A. destruct (found P w o p c SP H A I) as (cl & b & V & Ip & D & _ & _).
  cbn [step set_struct]. rewrite D. cbn [obind]. rewrite Ro. assert (X: semantic_fails p sem = true).
  { unfold semantic_fails. destruct (semantic p) as [s|]; [|congruence]. destruct (opt_text_eqb sem (Some s)) eqn:Q; auto. apply opt_text_eq in Q. congruence. }
  rewrite X. reflexivity.
Qed.
