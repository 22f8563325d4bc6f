(** Proofs of C180 and C181. *)
Require Import Coq.NArith.NArith Coq.ZArith.ZArith Coq.Lists.List Coq.Arith.Arith Coq.Bool.Bool Coq.micromega.Lia.
Require Import Verif.Base Verif.Number_Model Verif.Number_Spec Verif.Number_Proofs Verif.Property_Model Verif.Property_Spec Verif.Property_Proofs Verif.Property_Access Verif.Property_Steps Verif.Property_Results Verif.Property_Values Verif.Truth_Model Verif.Truth_Spec.
Require Verif.Scalar_Model.
Import ListNotations.
Local Open Scope nat_scope.

Definition digit (b : bool) : Z := if b then 1%Z else 0%Z.
Lemma truth_number b : is_number (mkNum bool_type (Vec 1) [digit b]) bool_type (Vec 1) [digit b].
Proof. split; [cbn; tauto|]. split; [constructor; [destruct b; cbn; lia|constructor]|]. split; [reflexivity|]. destruct b; reflexivity. Qed.
Lemma truth_holds t b : integer_type t -> holds t (digit b).
Proof.
  unfold integer_type, holds, bits. destruct t as [sg wd]. cbn [width signed In]. intros H.
  destruct H as [H|[H|[H|[H|H]]]]; try contradiction; subst wd; destruct sg, b; vm_compute; split; congruence.
Qed.
Lemma stored_truth P w c o p yes no b w1 l w2 c2 : told P w c o p yes no b w1 l w2 c2 -> enc p = EObj -> accepts p w (Some (truth yes no b)) ->
  after_set P w c o p (Some (truth yes no b)) w1 l w2 c2.
Proof.
  intros T E Ac. destruct T as [Re H Ro A Tr St R Fo A2 Ay An]. constructor; auto. destruct Tr as (_ & cl & _ & _ & _ & B1 & B2). split; [exact A|]. destruct b; assumption.
Qed.
Lemma read_truth P w o n yes no b w' junk junk' : yes <> no -> get_property P w o n junk' = Ok (w', GObj (truth yes no b)) -> get_bool P w o n yes no junk junk' = Ok (w', b).
Proof.
  intros D E. unfold get_bool. rewrite E. cbn [obind]. destruct b; cbn [truth].
  - destruct (Nat.eqb_spec yes no); [contradiction|]. rewrite Nat.eqb_refl. reflexivity.
  - rewrite Nat.eqb_refl. reflexivity.
Qed.
Lemma object_truth P w c o p yes no b w1 l w2 c2 junk junk' : sensible P -> told P w c o p yes no b w1 l w2 c2 -> enc p = EObj -> accepts p w (Some (truth yes no b)) ->
  length junk' = 4 -> octets junk' -> exists w3, get_bool P w2 (GObj o) (pname p) yes no junk junk' = Ok (w3, b).
Proof.
  intros SP T E Ac Lj Oj. pose proof (stored_truth _ _ _ _ _ _ _ _ _ _ _ _ T E Ac) as A. destruct (t_truths _ _ _ _ _ _ _ _ _ _ _ _ T) as (D & cl & Cp & Y & N & _ & _).
  assert (G: exists w3, get_property P w2 (GObj o) (pname p) junk' = Ok (w3, GObj (truth yes no b))).
  { destruct (copied p) eqn:Ec.
    - pose proof (copy_result P w c o p _ w1 l w2 c2 junk' SP Lj Oj A Ec) as R. cbn beta iota in R. destruct R as (cl' & b' & Is & R).
      assert (cl' = cl). { destruct Is as [n1 Is]. destruct Y as [n2 Y], N as [n3 N]. destruct b; cbn [truth] in Is; congruence. } subst cl'. rewrite Cp in R. exact R.
    - destruct (weak p) eqn:Ew.
      + apply (weak_result P w c o p _ w1 l w2 c2 junk' SP A Ec Ew). destruct T. destruct b; assumption.
      + exact (strong_result P w c o p _ w1 l w2 c2 junk' SP A Ec Ew). }
  destruct G as (w3 & G). exists w3. apply read_truth; auto.
Qed.
(** A property that is a number. *)
Lemma read_alive_fresh : forall w x, alive w x -> x < length (heap w).
Proof. intros w x (o & E & _). apply nth_error_Some. congruence. Qed.
Lemma number_truth P w c o p t yes no b w1 l w2 c2 junk junk' : sensible P -> told P w c o p yes no b w1 l w2 c2 -> enc p = ENum t (Vec 1) -> enumt p = None ->
  length junk = 4 -> octets junk -> exists w3, get_bool P w2 (GObj o) (pname p) yes no junk junk' = Ok (w3, b).
Proof.
  intros SP T E En Lj Oj. destruct T as [Re H Ro A Tr St R Fo A2 Ay An]. destruct Tr as (D & kl & Cp & Y & N & Yl & Nl). pose proof (reachable_inv P w c SP Re) as I.
  assert (Pm: permitted P w c (Set_ (GObj o) (pname p) (Some (truth yes no b)))). { split; [exact A|]. destruct b; assumption. }
  destruct (later P w c _ o p w1 l w2 c2 SP I H Pm St eq_refl R Fo) as (I2 & H2 & Sl).
  assert (F1: integer_type t /\ find_slot (memory w1) (o, offset p) = Some (SBytes (flat_map (le (width t)) [digit b]))).
  { apply alive_refs in A. destruct (found P w o p c SP H A I) as (k & b' & V & Ip & De & _ & Se). unfold set_bool in St. cbn [set_property] in St. rewrite De in St. cbn [obind] in St. rewrite Ro in St.
    unfold write_object in St. rewrite Se, E in St. cbn [is_obj] in St. destruct (proj1 SP k p Ip) as (_ & _ & _ & Pl). rewrite E in Pl. destruct Pl as [It Ms]. split; auto.
    unfold write_enum in St. rewrite En in St. cbn [obind] in St.
    assert (Bo: body_of w (Some (truth yes no b)) = Some (boolean b)).
    { unfold body_of. rewrite view_vw. rewrite is_a_vw in Y, N. destruct b; cbn [truth]; [rewrite Y|rewrite N]; reflexivity. }
    unfold write_number in St. rewrite Bo in St. unfold boolean in St. cbn [ty sh mem] in St. change ([if b then 1 else 0]%Z) with [digit b] in St. unfold convert_in in St. rewrite E in St.
    pose proof (will_write_silent w o p) as S1. destruct (load_bytes_ok P (will_write w o p) (times c) o p k b') as (dst & L & Ld & Od); auto.
    { apply (silent_inv P w); auto. } { rewrite (silent_vw w _ o S1); auto. } { rewrite E; discriminate. }
    rewrite E in L, Ld. cbn [esize] in L, Ld. rewrite L in St. cbn [obind] in St.
    rewrite (convert_same bool_type 1 [digit b] _ t dst (truth_number b)) in St; auto; [|constructor; [apply truth_holds; auto|constructor]]. cbn [obind fst snd Nat.eqb negb] in St.
    injection St as <-. rewrite (silent_slot _ _ _ (did_write_silent _ o p)). cbn [save memory with_memory]. apply find_put_same. }
  destruct F1 as [It F1]. unfold get_bool. rewrite (get_named P w2 o p junk' SP H2 A2). destruct (has_vw P w2 o p H2) as (k & b' & V & Ip). destruct (no_accessors P k p SP Ip) as [Ge _]. unfold read_object. rewrite Ge, E.
  unfold read_enum. rewrite En. cbn [obind]. cbv zeta. unfold load_bytes. rewrite (silent_slot _ _ _ (will_read_silent w2 o p)), Sl, F1, flat_length. unfold size. cbn [count length]. rewrite Nat.eqb_refl. cbn [obind].
  set (bs := flat_map (le (width t)) [digit b]). unfold alloc.
  assert (Hh: heap (will_read w2 o p) = heap w2). { destruct (will_read_silent w2 o p) as (Hh & _). exact Hh. }
  set (i := length (heap (will_read w2 o p))).
  assert (Iy: (i =? yes) = false). { apply Nat.eqb_neq. apply read_alive_fresh in Ay. unfold i. rewrite Hh. lia. }
  assert (Ino: (i =? no) = false). { apply Nat.eqb_neq. apply read_alive_fresh in An. unfold i. rewrite Hh. lia. }
  cbn [obind]. rewrite Iy, Ino.
  set (w' := with_heap (will_read w2 o p) (heap (will_read w2 o p) ++ [mkObj number_class (CNum (mkNum t (Vec 1) bs)) 1])).
  assert (Bo: body_of (autorelease (did_read w' o p) (Some i)) (Some i) = Some (CNum (mkNum t (Vec 1) bs))).
  { unfold body_of, view, get_obj. cbn [autorelease with_pool heap]. destruct (did_read_silent w' o p) as (Hd & _). rewrite Hd. unfold w'. cbn [with_heap heap]. rewrite nth_error_app2 by (unfold i; lia). unfold i. rewrite Nat.sub_diag. reflexivity. }
  rewrite Bo. cbn [as_bool]. pose proof (truth_holds t b It) as Ht.
  destruct (get_bool_ok junk (mkNum t (Vec 1) bs) t (Vec 1) (digit b) [] Lj Oj (is_number_mem t 1 [digit b] It (Forall_cons _ Ht (Forall_nil _)) eq_refl)) as (r & Er & Iff).
  { destruct b; cbn [digit]; lia. }
  rewrite Er. cbn [obind]. exists (autorelease (did_read w' o p) (Some i)). destruct r, b; auto; exfalso; cbn [digit] in Iff; destruct Iff as [F G]; [apply F; auto|]. assert (false = true) by (apply G; lia). discriminate.
Qed.

(** * Enumerations *)
Lemma enum_number P w c o p z t w1 l w2 c2 : sensible P -> reachable P w c -> has_property P w o p -> enc p = ENum t (Vec 1) -> readonly p = false ->
  holds int32 z -> holds t z -> alive w o -> set_enum P w (GObj o) (pname p) z = Ok w1 -> reaches P w1 c w2 c2 l -> Forall (fun a => ~ writes a o (pname p)) l ->
  inv P w2 (times c2) /\ has_property P w2 o p /\ find_slot (memory w2) (o, offset p) = Some (SBytes (flat_map (le (width t)) [z])).
Proof.
  intros SP Re H E Ro Hi Ht A St R Fo. pose proof (reachable_inv P w c SP Re) as I. pose proof (int32_number z Hi) as N.
  assert (Pm: permitted P w c (SetNum (GObj o) (pname p) (mkNum int32 (Vec 1) (le 4 z)))).
  { split; [exact A|]. split; [cbn; tauto|]. split; [cbn [mem sh ty size]; rewrite le_length; reflexivity|apply le_bytes]. }
  destruct (later P w c _ o p w1 l w2 c2 SP I H Pm St eq_refl R Fo) as (I2 & H2 & Sl). split; [exact I2|]. split; [exact H2|]. rewrite Sl.
  apply (number_slot P w c o p int32 1 [z] (le 4 z) t w1); auto.
Qed.
Lemma slot_name P w o p t e s v j : sensible P -> has_property P w o p -> alive w o -> enc p = ENum t (Vec 1) -> enumt p = Some e -> NoDup (map snd e) -> In (s, v) e -> holds t v -> holds int32 v -> length j = 4 -> octets j ->
  find_slot (memory w) (o, offset p) = Some (SBytes (flat_map (le (width t)) [v])) -> exists w3, get_property P w (GObj o) (pname p) j = Ok (w3, GText s).
Proof.
  intros SP H A E Ee N2 In_ Ht Hi Lj Oj F1. rewrite (get_named P w o p j SP H A). destruct (has_vw P w o p H) as (k & b & V & Ip). destruct (no_accessors P k p SP Ip) as [Ge _].
  destruct (proj1 SP k p Ip) as (_ & _ & _ & Pl). rewrite E in Pl. destruct Pl as [It Ms]. unfold read_object. rewrite Ge, E.
  unfold read_enum. rewrite Ee, E. cbv zeta. unfold load_bytes. rewrite (silent_slot _ _ _ (will_read_silent w o p)), F1, flat_length. unfold size. cbn [count length]. rewrite Nat.eqb_refl. cbn [obind].
  rewrite (convert_same t 1 [v] _ int32 j (is_number_mem t 1 [v] It (Forall_cons v Ht (Forall_nil _)) eq_refl)); auto; [|cbn; tauto]. cbn [obind fst snd Nat.eqb flat_map].
  pose proof (load_mid int32 [] v []) as Lm. cbn [app length] in Lm. rewrite Lm. cbn [obind]. rewrite cast_id by (auto; cbn; tauto). rewrite (enum_string_in e s v N2 In_). eauto.
Qed.
Lemma slot_value P w c o p t z j j' : sensible P -> inv P w (times c) -> has_property P w o p -> alive w o -> enc p = ENum t (Vec 1) -> holds t z -> holds int32 z -> length j = 4 -> octets j ->
  find_slot (memory w) (o, offset p) = Some (SBytes (flat_map (le (width t)) [z])) -> exists w3, get_enum P w (GObj o) (pname p) j j' = Ok (w3, z).
Proof.
  intros SP I H A E Ht Hi Lj Oj F. destruct (number_get P w c o p t 1 [z] int32 j j') as (w3 & G); auto; [cbn; tauto|].
  exists w3. unfold get_enum. rewrite G. cbn [obind Nat.eqb flat_map]. pose proof (load_mid int32 [] z []) as L. cbn [app length] in L. rewrite L. cbn [obind].
  rewrite cast_id; auto. cbn; tauto.
Qed.
Lemma number_then_name P w c o p e s z t w1 l w2 c2 j : sensible P -> reachable P w c -> has_property P w o p -> enc p = ENum t (Vec 1) -> readonly p = false -> enumt p = Some e -> proper e -> In (s, z) e ->
  holds int32 z -> holds t z -> alive w o -> set_enum P w (GObj o) (pname p) z = Ok w1 -> reaches P w1 c w2 c2 l -> Forall (fun a => ~ writes a o (pname p)) l -> alive w2 o -> length j = 4 -> octets j ->
  exists w3, get_property P w2 (GObj o) (pname p) j = Ok (w3, GText s).
Proof.
  intros SP Re H E Ro Ee [N1 N2] In_ Hi Ht A St R Fo A2 Lj Oj. destruct (enum_number P w c o p z t w1 l w2 c2) as (I2 & H2 & F); auto. eapply slot_name; eauto.
Qed.
Lemma number_then_number P w c o p z t w1 l w2 c2 j j' : sensible P -> reachable P w c -> has_property P w o p -> enc p = ENum t (Vec 1) -> readonly p = false ->
  holds int32 z -> holds t z -> alive w o -> set_enum P w (GObj o) (pname p) z = Ok w1 -> reaches P w1 c w2 c2 l -> Forall (fun a => ~ writes a o (pname p)) l -> alive w2 o -> length j = 4 -> octets j ->
  exists w3, get_enum P w2 (GObj o) (pname p) j j' = Ok (w3, z).
Proof.
  intros SP Re H E Ro Hi Ht A St R Fo A2 Lj Oj. destruct (enum_number P w c o p z t w1 l w2 c2) as (I2 & H2 & F); auto. eapply slot_value; eauto.
Qed.
Lemma name_then_number P w c o p t e x cl s v w1 l w2 c2 j j' : sensible P -> reachable P w c -> has_property P w o p -> enc p = ENum t (Vec 1) -> readonly p = false -> enumt p = Some e -> proper e -> In (s, v) e ->
  holds t v -> holds int32 v -> alive w o -> alive w x -> is_a w x cl (CText s) -> set_property P w (GObj o) (pname p) (Some x) = Ok w1 ->
  reaches P w1 c w2 c2 l -> Forall (fun a => ~ writes a o (pname p)) l -> alive w2 o -> length j = 4 -> octets j ->
  exists w3, get_enum P w2 (GObj o) (pname p) j j' = Ok (w3, v).
Proof.
  intros SP Re H E Ro Ee [N1 N2] In_ Ht Hi Al Alx Ax St R Fo A Lj Oj. pose proof (reachable_inv P w c SP Re) as I.
  assert (Pm: permitted P w c (Set_ (GObj o) (pname p) (Some x))) by (split; assumption).
  destruct (later P w c _ o p w1 l w2 c2 SP I H Pm St eq_refl R Fo) as (I2 & H2 & Sl).
  assert (F1: find_slot (memory w1) (o, offset p) = Some (SBytes (flat_map (le (width t)) [v]))).
  { apply alive_refs in Al. destruct (found P w o p c SP H Al I) as (k & b & V & Ip & D & _ & Se). cbn [set_property] in St. rewrite D in St. cbn [obind] in St. rewrite Ro in St.
    unfold write_object in St. rewrite Se, E in St. cbn [is_obj] in St. destruct (proj1 SP k p Ip) as (_ & _ & _ & Pl). rewrite E in Pl. destruct Pl as [It Ms].
    unfold write_enum in St. rewrite Ee in St. unfold body_of in St. rewrite view_vw in St. rewrite is_a_vw in Ax. rewrite Ax, (enum_value_in e s v N1 In_) in St. unfold convert_in in St. rewrite E in St.
    pose proof (will_write_silent w o p) as S1. destruct (load_bytes_ok P (will_write w o p) (times c) o p k b) as (dst & L & Ld & Od); auto.
    { apply (silent_inv P w); auto. } { rewrite (silent_vw w _ o S1); auto. } { rewrite E; discriminate. }
    rewrite E in L, Ld. cbn [esize] in L, Ld. rewrite L in St. cbn [obind] in St. rewrite (convert_same int32 1 [v] _ t dst (int32_number v Hi)) in St; auto. cbn [obind fst snd Nat.eqb negb] in St.
    injection St as <-. rewrite (silent_slot _ _ _ (did_write_silent _ o p)). cbn [save memory with_memory]. apply find_put_same. }
  eapply slot_value; eauto. rewrite Sl. exact F1.
Qed.
