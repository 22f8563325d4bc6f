(** Proofs about equality, comparison and hashing of objects. *)
Require Import Coq.ZArith.ZArith Coq.NArith.NArith Coq.Lists.List Coq.Bool.Bool Coq.Arith.Arith Coq.micromega.Lia.
Require Import Verif.Base Verif.String_Model Verif.Utf8_Model Verif.Utf8_Spec Verif.Bytes_Model Verif.Bytes_Spec Verif.Number_Model Verif.Number_Spec.
Require Import Verif.StrObj_Spec Verif.Compare_Model Verif.Compare_Spec.
Require Verif.StrObj_Proofs Verif.Utf8_Strings Verif.Bytes_Proofs Verif.Number_Proofs.
Import ListNotations.
Local Open Scope N_scope.

Section Induction.
Variable P : obj -> Prop.
Hypothesis Hs : forall a s, P (OString a s).
Hypothesis Hd : forall a s, P (OData a s).
Hypothesis Hn : forall a n, P (ONumber a n).
Hypothesis Ht : forall a x s, P (OStruct a x s).
Hypothesis Hp : forall a x y, (forall o, x = Some o -> P o) -> (forall o, y = Some o -> P o) -> P (OPair a x y).
Hypothesis Hl : forall a k l, (forall o, In (Some o) l -> P o) -> P (OList a k l).
Hypothesis He : forall a es, (forall k v, In (k, v) es -> P v) -> P (ODict a es).
Hypothesis Ho : forall a, P (OOther a).
Fixpoint obj_ind2 (o : obj) : P o.
Proof.
  destruct o.
  - apply Hs.
  - apply Hd.
  - apply Hn.
  - apply Ht.
  - apply Hp.
    + intros o E. destruct x as [x0|]; [|discriminate]. injection E as <-. apply obj_ind2.
    + intros o E. destruct y as [y0|]; [|discriminate]. injection E as <-. apply obj_ind2.
  - apply Hl. induction l as [|r l IH]; intros o E; [destruct E|]. destruct E as [E|E].
    + destruct r as [r0|]; [|discriminate]. injection E as <-. apply obj_ind2.
    + exact (IH o E).
  - apply He. induction es as [|[k0 v0] es IH]; intros k v E; [destruct E|]. destruct E as [E|E].
    + injection E as <- <-. apply obj_ind2.
    + exact (IH k v E).
  - apply Ho.
Qed.
End Induction.

(** ** Strings *)
Lemma string_hash_ok : forall s, string_hash s = Ok (poly (cut s)).
Proof. intros s. unfold string_hash. destruct s; [reflexivity|]. cbn [length Nat.ltb Nat.leb]. apply StrObj_Proofs.strhash_ok. Qed.
Lemma cut_cstring : forall s, cstring s -> cut s = s.
Proof. intros s [_ H]. apply StrObj_Proofs.cut_plain. exact H. Qed.
Lemma string_equal_ok : forall s t, cstring s -> cstring t -> exists e, string_equal s t = Ok e /\ (e = true <-> s = t).
Proof.
  intros s t Hs Ht. unfold string_equal. rewrite !string_hash_ok. cbn [obind]. rewrite (cut_cstring s Hs), (cut_cstring t Ht).
  destruct (poly s =? poly t) eqn:E; cbn [negb].
  - rewrite StrObj_Proofs.strcmp_ok, (cut_cstring s Hs), (cut_cstring t Ht). exists (bytes_eqb s t). split; [reflexivity|]. apply StrObj_Proofs.bytes_eqb_eq.
  - exists false. split; [reflexivity|]. split; [discriminate|]. intros ->. rewrite N.eqb_refl in E. discriminate.
Qed.

(** ** Numbers of one type *)
Lemma number_same : forall a b m n, well_sized m -> well_sized n -> ty m = ty n ->
  exists x y, Number_Model.compare m n = Ok x /\ Number_Model.compare n m = Ok y /\ (x = 0 <-> y = 0)%Z /\ (0 < x <-> y < 0)%Z /\
    ((x = 0)%Z <-> same (ONumber a m) (ONumber b n)) /\ (x = 0%Z -> exists h, Number_Model.hash m = Ok h /\ Number_Model.hash n = Ok h).
Proof.
  intros a b m n Hm Hn E. destruct (Number_Proofs.every_number m Hm) as [vs Vm]. destruct (Number_Proofs.every_number n Hn) as [ws Vn].
  rewrite <- E in Vn.
  destruct (Number_Proofs.same_type_laws _ _ _ _ _ _ _ _ _ _ Vm Vn Vn) as (x & y & z & w & E1 & E2 & E3 & E4 & L1 & L2 & L3 & L4 & L5 & L6).
  exists x, y. repeat split; auto; try tauto.
  - intros H. apply L1 in H. subst ws. econstructor; eauto.
  - intros H. inversion H as [| |? ? ? ? t sm sn us U1 U2| | | | | |]; subst. apply L1.
    assert (F : vs = us).
    { destruct Vm as (I1 & I2 & I3 & I4), U1 as (J1 & J2 & J3 & J4). 
      destruct (Number_Proofs.same_type_laws (ty m) m (sh m) vs m sm us m sm us) as (x' & _ & _ & _ & E1' & _ & _ & _ & L1' & _).
      - repeat split; auto.
      - assert (ty m = t) by (rewrite J4; reflexivity). subst t. repeat split; auto.
      - assert (ty m = t) by (rewrite J4; reflexivity). subst t. repeat split; auto.
      - apply L1'. destruct (Number_Proofs.same_type_laws (ty m) m (sh m) vs m (sh m) vs m (sh m) vs) as (x'' & _ & _ & _ & E1'' & _ & _ & _ & L1'' & _); [repeat split; auto..|].
        rewrite E1' in E1''. injection E1'' as ->. apply L1''. reflexivity. }
    assert (G : ws = us).
    { destruct Vn as (I1 & I2 & I3 & I4), U2 as (J1 & J2 & J3 & J4). 
      assert (ty n = t) by (rewrite J4; reflexivity). rewrite <- E in *. 
      destruct (Number_Proofs.same_type_laws (ty m) n (sh n) ws n sn us n sn us) as (x' & _ & _ & _ & E1' & _ & _ & _ & L1' & _).
      - repeat split; auto.
      - subst t. repeat split; auto.
      - subst t. repeat split; auto.
      - apply L1'. destruct (Number_Proofs.same_type_laws (ty m) n (sh n) ws n (sh n) ws n (sh n) ws) as (x'' & _ & _ & _ & E1'' & _ & _ & _ & L1'' & _); [repeat split; auto..|].
        rewrite E1' in E1''. injection E1'' as ->. apply L1''. reflexivity. }
    congruence.
  - intros H. destruct (L6 H) as [A [h B]]. exists h. split; [exact B|]. congruence.
Qed.

(** ** Memory *)
Lemma inside_trans : forall x y z, inside x y -> inside y z -> inside x z.
Proof. intros x y z H1 H2. revert x H1. induction H2; intros u Hu; auto; [eapply in_first|eapply in_second|eapply in_list|eapply in_dict]; eauto. Qed.
Lemma memory_sub : forall os qs, one_memory os -> (forall q, In q qs -> exists o, In o os /\ inside q o) -> one_memory qs.
Proof.
  intros os qs H Hq a b x y Ia Ib Ix Iy E. destruct (Hq a Ia) as [a' [A1 A2]], (Hq b Ib) as [b' [B1 B2]].
  eapply H; [exact A1|exact B1| | |exact E]; eapply inside_trans; eauto.
Qed.
Lemma memory_pair : forall a b x y, one_memory [a; b] -> inside x a -> inside y b -> one_memory [x; y].
Proof.
  intros a b x y H Hx Hy. eapply memory_sub; [exact H|]. intros q [<-|[<-|[]]]; [exists a|exists b]; cbn; auto.
Qed.
Lemma memory_swap : forall a b, one_memory [a; b] -> one_memory [b; a].
Proof. intros a b H. eapply memory_sub; [exact H|]. intros q [<-|[<-|[]]]; eexists; (split; [|constructor]); cbn; auto. Qed.
Lemma memory_same : forall a b, one_memory [a; b] -> addr a = addr b -> a = b.
Proof. intros a b H E. apply (H a b a b); cbn; auto; constructor. Qed.
Lemma proper_sub : forall t x o, proper t o -> inside x o -> proper t x.
Proof. intros t x o H Hx y Hy. apply H. eapply inside_trans; eauto. Qed.
Lemma proper_self : forall t o, proper t o -> proper1 t o.
Proof. intros t o H. apply H. constructor. Qed.

(** ** Entries *)
Lemma get_in : forall es k v, NoDup (map fst es) -> (get es k = Some v <-> In (k, v) es).
Proof.
  induction es as [|[k' v'] es IH]; intros k v Hd; cbn [get]; [split; [discriminate|intros []]|].
  cbn [map fst] in Hd. apply NoDup_cons_iff in Hd. destruct Hd as [Hk Hd].
  destruct (bytes_eqb k' k) eqn:E.
  - apply StrObj_Proofs.bytes_eqb_eq in E. subst k'. split.
    + intros F. injection F as ->. left. reflexivity.
    + intros [F|F]; [injection F as ->; reflexivity|]. exfalso. apply Hk. apply (in_map fst) in F. exact F.
  - rewrite IH by assumption. split; [right; assumption|]. intros [F|F]; [|assumption]. injection F as -> ->.
    rewrite (proj2 (StrObj_Proofs.bytes_eqb_eq k k) eq_refl) in E. discriminate.
Qed.
Lemma keys_back : forall (es fs : list (list N * obj)), NoDup (map fst es) -> length es = length fs ->
  (forall k, In k (map fst es) -> In k (map fst fs)) -> forall k, In k (map fst fs) -> In k (map fst es).
Proof.
  intros es fs Hd Hl H. apply (NoDup_length_incl (l := map fst es) (l' := map fst fs)); [assumption|rewrite !map_length; lia|exact H].
Qed.

(** ** Equality *)
Lemma Forall2_len : forall A B (R : A -> B -> Prop) l m, Forall2 R l m -> length l = length m.
Proof. induction 1; cbn; auto. Qed.
Lemma same_refl : forall t a, proper t a -> same a a.
Proof.
  intros t a. induction a as [p s|p s|p n|p x s|p x y IHx IHy|p k l IH|p es IH|p] using obj_ind2; intros Hp; pose proof (proper_self _ _ Hp) as H1; cbn in H1.
  - constructor.
  - constructor.
  - destruct H1 as [_ H1]. destruct (Number_Proofs.every_number n H1) as [vs V]. econstructor; eauto.
  - destruct H1 as [_ [u [-> _]]]. constructor.
  - constructor; [destruct x as [x|]|destruct y as [y|]]; constructor; [apply IHx|apply IHy]; auto; eapply proper_sub; eauto; [apply in_first|apply in_second]; constructor.
  - constructor. assert (G : forall m, (forall r, In r m -> In r l) -> Forall2 (both same) m m).
    { induction m as [|r m IHm]; intros Hm; constructor.
      - destruct r as [r|]; constructor. apply IH; [apply Hm; left; reflexivity|]. eapply proper_sub; [exact Hp|]. eapply in_list; [apply Hm; left; reflexivity|constructor].
      - apply IHm. intros q Hq. apply Hm. right. exact Hq. }
    apply G. auto.
  - constructor; intros k v Hv; exists v; (split; [exact Hv|]); eapply IH; eauto; eapply proper_sub; eauto; eapply in_dict; eauto; constructor.
  - constructor.
Qed.

Fixpoint equal_list (l m : list (option obj)) : outcome bool :=
  match l, m with
  | x :: l', x' :: m' => do e <- dk_equal x x'; if e then equal_list l' m' else Ok false
  | _, _ => Ok true
  end.
Fixpoint equal_entries (fs es : list (list N * obj)) : outcome bool :=
  match es with
  | [] => Ok true
  | (k, v) :: es' => do e <- match get fs k with Some w => equal v w | None => Ok false end; if e then equal_entries fs es' else Ok false
  end.
Lemma equal_pair_eq : forall p q x y x' y', equal (OPair p x y) (OPair q x' y') =
  if p =? q then Ok true else do e <- dk_equal x x'; if e then dk_equal y y' else Ok false.
Proof. reflexivity. Qed.
Lemma equal_list_eq : forall p q k k' l m, equal (OList p k l) (OList q k' m) =
  if p =? q then Ok true else if (length l =? length m)%nat then equal_list l m else Ok false.
Proof. reflexivity. Qed.
Lemma equal_dict_eq : forall p q es fs, equal (ODict p es) (ODict q fs) =
  if p =? q then Ok true else if (length es =? length fs)%nat then equal_entries fs es else Ok false.
Proof.
  intros. cbn [equal addr]. destruct (p =? q); [reflexivity|]. destruct (length es =? length fs)%nat; [|reflexivity].
  induction es as [|[k v] es IH]; [reflexivity|]. cbn [equal_entries]. destruct (get fs k) as [w|]; [|reflexivity].
  destruct (equal v w) as [[|]| | |]; cbn [obind]; auto.
Qed.

Lemma dk_equal_ok : forall x y, (forall o o', x = Some o -> y = Some o' -> exists e, equal o o' = Ok e /\ (e = true <-> same o o')) ->
  exists e, dk_equal x y = Ok e /\ (e = true <-> both same x y).
Proof.
  intros [o|] [o'|] H; cbn [dk_equal].
  - destruct (H o o' eq_refl eq_refl) as [e [E1 E2]]. exists e. split; [exact E1|]. rewrite E2. split; [constructor; assumption|]. intros F. inversion F; assumption.
  - exists false. split; [reflexivity|]. split; [discriminate|]. intros F. inversion F.
  - exists false. split; [reflexivity|]. split; [discriminate|]. intros F. inversion F.
  - exists true. split; [reflexivity|]. split; [constructor|reflexivity].
Qed.
Lemma equal_list_ok : forall l m, length l = length m ->
  (forall o o', In (Some o) l -> In (Some o') m -> exists e, equal o o' = Ok e /\ (e = true <-> same o o')) ->
  exists e, equal_list l m = Ok e /\ (e = true <-> Forall2 (both same) l m).
Proof.
  induction l as [|x l IH]; intros [|y m] Hl H; try discriminate; cbn [equal_list].
  - exists true. split; [reflexivity|]. split; [constructor|reflexivity].
  - destruct (dk_equal_ok x y) as [e [E1 E2]]. { intros o o' -> ->. apply H; left; reflexivity. }
    rewrite E1. cbn [obind]. destruct e.
    + destruct (IH m) as [e [F1 F2]]; [cbn in Hl; lia|intros; apply H; right; assumption|]. exists e. split; [exact F1|]. rewrite F2. split.
      * intros G. constructor; [apply E2; reflexivity|assumption].
      * intros G. inversion G; assumption.
    + exists false. split; [reflexivity|]. split; [discriminate|]. intros G. inversion G; subst. apply E2. assumption.
Qed.
Lemma equal_entries_ok : forall fs es, NoDup (map fst fs) ->
  (forall k v w, In (k, v) es -> In (k, w) fs -> exists e, equal v w = Ok e /\ (e = true <-> same v w)) ->
  exists e, equal_entries fs es = Ok e /\ (e = true <-> forall k v, In (k, v) es -> exists w, In (k, w) fs /\ same v w).
Proof.
  intros fs es Hd. induction es as [|[k v] es IH]; intros H; cbn [equal_entries].
  - exists true. split; [reflexivity|]. split; [intros _ k v []|reflexivity].
  - destruct IH as [e' [F1 F2]]. { intros. eapply H; [right; eassumption|eassumption]. }
    destruct (get fs k) as [w|] eqn:G.
    + apply get_in in G; [|assumption]. destruct (H k v w (or_introl eq_refl) G) as [e [E1 E2]]. rewrite E1. cbn [obind]. destruct e.
      * exists e'. split; [exact F1|]. rewrite F2. split.
        -- intros A k0 v0 [B|B]; [injection B as <- <-; exists w; split; [assumption|apply E2; reflexivity]|apply A; assumption].
        -- intros A k0 v0 B. apply A. right. assumption.
      * exists false. split; [reflexivity|]. split; [discriminate|]. intros A. destruct (A k v (or_introl eq_refl)) as [w' [B1 B2]].
        apply (proj2 (get_in fs k w' Hd)) in B1. apply (proj2 (get_in fs k w Hd)) in G. rewrite G in B1. injection B1 as <-. apply E2. assumption.
    + cbn [obind]. exists false. split; [reflexivity|]. split; [discriminate|]. intros A. destruct (A k v (or_introl eq_refl)) as [w' [B1 _]].
      apply (proj2 (get_in fs k w' Hd)) in B1. congruence.
Qed.

Ltac differ := eexists; split; [reflexivity|]; split; [discriminate|let H := fresh in intros H; inversion H].
Theorem equal_same : forall t a b, proper t a -> proper t b -> one_memory [a; b] -> exists e, equal a b = Ok e /\ (e = true <-> same a b).
Proof.
  intros t a. induction a as [p s|p s|p n|p x s|p x y IHx IHy|p k l IH|p es IH|p] using obj_ind2; intros b Hp Hq Hm;
    pose proof (proper_self _ _ Hp) as H1; pose proof (proper_self _ _ Hq) as H2;
    (destruct (addr b =? p) eqn:E0;
     [apply N.eqb_eq in E0; symmetry in E0; change p with (addr ltac:(match type of Hm with one_memory [?a; _] => exact a end)) in E0;
      pose proof (memory_same _ _ Hm E0); subst b; exists true; split; [cbn; rewrite N.eqb_refl; reflexivity|split; [intros _; eapply same_refl; exact Hp|reflexivity]]|]).
  - destruct b; cbn [addr] in E0; cbn [equal addr]; rewrite N.eqb_sym, E0; try differ.
    destruct (string_equal_ok s s0 H1 H2) as [e [F1 F2]]. exists e. split; [exact F1|]. rewrite F2. split; [intros ->; constructor|]. intros G; inversion G; reflexivity.
  - destruct b; cbn [addr] in E0; cbn [equal addr]; rewrite N.eqb_sym, E0;
      try (exists false; split; [|split; [discriminate|intros G; inversion G]]; unfold pointer_compare; apply N.eqb_neq in E0; do 2 f_equal;
           destruct (N.ltb_spec p a); [reflexivity|destruct (N.ltb_spec a p); [reflexivity|lia]]).
    eexists. split; [reflexivity|]. rewrite Z.eqb_eq. destruct (Bytes_Proofs.data_compare_spec s s0) as (_ & _ & D & _). rewrite D. split; [intros ->; constructor|]. intros G; inversion G; reflexivity.
  - destruct b; cbn [addr] in E0; cbn [equal addr]; rewrite N.eqb_sym, E0; try differ.
    cbn in H1, H2. destruct H1 as [T1 W1], H2 as [T2 W2]. destruct (number_same p a n n0 W1 W2) as (u & _ & U1 & _ & _ & _ & U2 & _); [congruence|].
    unfold Number_Model.equal. rewrite U1. cbn [obind]. exists (u =? 0)%Z. split; [reflexivity|]. rewrite Z.eqb_eq. exact U2.
  - destruct b; cbn [addr] in E0; cbn [equal addr]; rewrite N.eqb_sym, E0; try differ.
    cbn in H1, H2. destruct H1 as [B1 [u [-> C1]]], H2 as [B2 [v [-> C2]]]. cbn [semantic_equal].
    destruct (string_equal_ok u v C1 C2) as [e [F1 F2]]. rewrite F1. cbn [obind]. destruct e; cbn [andb].
    + destruct (length s =? length s0)%nat eqn:El.
      * apply Nat.eqb_eq in El. rewrite (Bytes_Proofs.memcmp_same _ _ El). eexists. split; [reflexivity|]. rewrite Z.eqb_eq. destruct (Bytes_Proofs.data_compare_spec s s0) as (_ & _ & D & _). rewrite D.
        rewrite (proj1 F2 eq_refl). split; [intros ->; constructor|]. intros G; inversion G; reflexivity.
      * apply Nat.eqb_neq in El. exists false. split; [reflexivity|]. split; [discriminate|]. intros G. inversion G. congruence.
    + exists false. split; [reflexivity|]. split; [discriminate|]. intros G. inversion G. subst. apply F2. reflexivity.
  - destruct b; cbn [addr] in E0; try (cbn [equal addr]; rewrite N.eqb_sym, E0; differ).
    rewrite equal_pair_eq, N.eqb_sym, E0.
    destruct (dk_equal_ok x x0) as [e [F1 F2]].
    { intros o o' -> ->. apply IHx; [reflexivity| | |]; [eapply proper_sub; [exact Hp|]|eapply proper_sub; [exact Hq|]|eapply memory_pair; [exact Hm| |]]; apply in_first; constructor. }
    destruct (dk_equal_ok y y0) as [e' [F1' F2']].
    { intros o o' -> ->. apply IHy; [reflexivity| | |]; [eapply proper_sub; [exact Hp|]|eapply proper_sub; [exact Hq|]|eapply memory_pair; [exact Hm| |]]; apply in_second; constructor. }
    rewrite F1. cbn [obind]. destruct e.
    + exists e'. split; [exact F1'|]. rewrite F2'. split; [intros G; constructor; [apply F2; reflexivity|assumption]|]. intros G; inversion G; assumption.
    + exists false. split; [reflexivity|]. split; [discriminate|]. intros G. inversion G. subst. apply F2. assumption.
  - destruct b; cbn [addr] in E0; try (cbn [equal addr]; rewrite N.eqb_sym, E0; differ).
    rewrite equal_list_eq, N.eqb_sym, E0. destruct (length l =? length l0)%nat eqn:El.
    + apply Nat.eqb_eq in El. destruct (equal_list_ok l l0 El) as [e [F1 F2]].
      { intros o o' I1 I2. apply IH; [exact I1| | |]; [eapply proper_sub; [exact Hp|]|eapply proper_sub; [exact Hq|]|eapply memory_pair; [exact Hm| |]]; eapply in_list; eauto; constructor. }
      exists e. split; [exact F1|]. rewrite F2. split; [constructor; assumption|]. intros G; inversion G; assumption.
    + apply Nat.eqb_neq in El. exists false. split; [reflexivity|]. split; [discriminate|]. intros G. inversion G. subst. exfalso. apply El. eapply Forall2_len; eauto.
  - destruct b; cbn [addr] in E0; try (cbn [equal addr]; rewrite N.eqb_sym, E0; differ).
    rewrite equal_dict_eq, N.eqb_sym, E0. cbn in H1, H2. destruct (length es =? length es0)%nat eqn:El.
    + apply Nat.eqb_eq in El. destruct (equal_entries_ok es0 es H2) as [e [F1 F2]].
      { intros k v w I1 I2. eapply IH; [exact I1| | |]; [eapply proper_sub; [exact Hp|]|eapply proper_sub; [exact Hq|]|eapply memory_pair; [exact Hm| |]]; eapply in_dict; eauto; constructor. }
      exists e. split; [exact F1|]. rewrite F2. split; [|intros G; inversion G; assumption].
      intros A. constructor; [exact A|]. intros k w Iw.
      assert (K : In k (map fst es)).
      { apply (keys_back es es0 H1 El); [|apply (in_map fst) in Iw; exact Iw]. intros k0 I0. apply in_map_iff in I0. destruct I0 as [[k1 v1] [<- I1]].
        destruct (A k1 v1 I1) as [w1 [W1 _]]. apply (in_map fst) in W1. exact W1. }
      apply in_map_iff in K. destruct K as [[k1 v1] [<- I1]]. destruct (A k1 v1 I1) as [w1 [W1 W2]]. cbn [fst] in *.
      exists v1. split; [exact I1|]. apply (proj2 (get_in es0 k1 w1 H2)) in W1. apply (proj2 (get_in es0 k1 w H2)) in Iw. congruence.
    + apply Nat.eqb_neq in El. exists false. split; [reflexivity|]. split; [discriminate|]. intros G. inversion G as [| | | | | | |? ? ? ? A B|]; subst. exfalso. apply El.
      assert (L1 : (length es <= length es0)%nat).
      { rewrite <- (map_length fst es), <- (map_length fst es0). apply NoDup_incl_length; [assumption|]. intros k0 I0. apply in_map_iff in I0. destruct I0 as [[k1 v1] [<- I1]].
        destruct (A k1 v1 I1) as [w1 [W1 _]]. apply (in_map fst) in W1. exact W1. }
      assert (L2 : (length es0 <= length es)%nat).
      { rewrite <- (map_length fst es), <- (map_length fst es0). apply NoDup_incl_length; [assumption|]. intros k0 I0. apply in_map_iff in I0. destruct I0 as [[k1 v1] [<- I1]].
        destruct (B k1 v1 I1) as [w1 [W1 _]]. apply (in_map fst) in W1. exact W1. }
      lia.
  - destruct b; cbn [addr] in E0; cbn [equal addr]; rewrite N.eqb_sym, E0; try differ.
    apply N.eqb_neq in E0. congruence.
Qed.

Lemma both_sym : forall (R : obj -> obj -> Prop) x y, (forall o o', x = Some o -> y = Some o' -> R o o' -> R o' o) -> both R x y -> both R y x.
Proof. intros R x y H B. inversion B; subst; constructor. auto. Qed.
Lemma same_sym : forall a b, same a b -> same b a.
Proof.
  intros a. induction a as [p s|p s|p n|p x s|p x y IHx IHy|p k l IH|p es IH|p] using obj_ind2; intros b Hs; inversion Hs; subst; try (econstructor; eassumption).
  - constructor; eapply both_sym; eauto; intros; subst; eauto.
  - constructor. match goal with H : Forall2 _ l ?m |- _ => revert H; clear - IH; revert m end.
    induction l as [|r l IHl]; intros m F; inversion F; subst; constructor.
    + eapply both_sym; eauto. intros; subst. apply IH; [left; reflexivity|assumption].
    + apply IHl; [|assumption]. intros; apply IH; [right; assumption|assumption].
  - constructor; intros k v I.
    + match goal with H : forall k w, In (k, w) fs -> _ |- _ => destruct (H k v I) as [u [U1 U2]] end. eauto.
    + match goal with H : forall k v, In (k, v) es -> _ |- _ => destruct (H k v I) as [u [U1 U2]] end. eauto.
Qed.

(** ** Hashing *)
Theorem hash_same : forall t a b, proper t a -> proper t b -> no_collection a -> same a b -> exists h, hash a = Ok h /\ hash b = Ok h.
Proof.
  intros t a. induction a as [p s|p s|p n|p x s|p x y IHx IHy|p k l IH|p es IH|p] using obj_ind2; intros b Hp Hq Hn Hs; pose proof (proper_self _ _ Hp) as H1; pose proof (proper_self _ _ Hq) as H2.
  - inversion Hs; subst. cbn [hash]. rewrite string_hash_ok. eauto.
  - inversion Hs; subst. cbn [hash]. destruct (0 <? length s)%nat; eauto.
  - pose proof Hs as Hs'. inversion Hs'; subst. cbn in H1, H2. destruct H1 as [T1 W1], H2 as [T2 W2].
    match goal with H : same (ONumber p n) (ONumber ?b ?m) |- _ => destruct (number_same p b n m W1 W2) as (u & _ & U1 & _ & _ & _ & U2 & U3); [congruence|] end.
    destruct (U3 (proj2 U2 Hs)) as [h [E1 E2]]. cbn [hash]. rewrite E1, E2. cbn [obind]. eauto.
  - inversion Hs; subst; cbn [hash]; eauto.
  - inversion Hs as [| | | | |? ? ? ? x' y' Bx By| | |]; subst.
    assert (Gx : exists h, dk_hash x = Ok h /\ dk_hash x' = Ok h).
    { inversion Bx; subst; cbn [dk_hash]; [eauto|]. eapply IHx; eauto.
      - eapply proper_sub; [exact Hp|]. apply in_first. constructor.
      - eapply proper_sub; [exact Hq|]. apply in_first. constructor.
      - intros z Z. apply Hn. apply in_first. exact Z. }
    assert (Gy : exists h, dk_hash y = Ok h /\ dk_hash y' = Ok h).
    { inversion By; subst; cbn [dk_hash]; [eauto|]. eapply IHy; eauto.
      - eapply proper_sub; [exact Hp|]. apply in_second. constructor.
      - eapply proper_sub; [exact Hq|]. apply in_second. constructor.
      - intros z Z. apply Hn. apply in_second. exact Z. }
    destruct Gx as [h [E1 E2]], Gy as [g [F1 F2]]. exists (N.lxor h g).
    change (hash (OPair p x y)) with (do h <- dk_hash x; do k <- dk_hash y; Ok (N.lxor h k)).
    change (hash (OPair b0 x' y')) with (do h <- dk_hash x'; do k <- dk_hash y'; Ok (N.lxor h k)).
    rewrite E1, E2, F1, F2. cbn [obind]. auto.
  - exfalso. apply (Hn (OList p k l)). constructor.
  - exfalso. apply (Hn (ODict p es)). constructor.
  - inversion Hs; subst; cbn [hash]; eauto.
Qed.

Lemma both_trans : forall x y z, (forall o o' o'', x = Some o -> same o o' -> same o' o'' -> same o o'') -> both same x y -> both same y z -> both same x z.
Proof. intros x y z H B1 B2. inversion B1; subst; inversion B2; subst; constructor. eauto. Qed.
Lemma values_unique : forall n t s vs t' s' vs', is_number n t s vs -> is_number n t' s' vs' -> t = t' /\ s = s' /\ vs = vs'.
Proof.
  intros n t s vs t' s' vs' A B. assert (E : t = t' /\ s = s'). { destruct A as (_ & _ & _ & ->), B as (_ & _ & _ & E). injection E as -> -> _. auto. }
  destruct E as [-> ->]. repeat split.
  destruct (Number_Proofs.same_type_laws t' n s' vs n s' vs' n s' vs' A B B) as (x & _ & _ & _ & E1 & _ & _ & _ & L1 & _).
  destruct (Number_Proofs.same_type_laws t' n s' vs n s' vs n s' vs A A A) as (y & _ & _ & _ & F1 & _ & _ & _ & M1 & _).
  apply L1. rewrite E1 in F1. injection F1 as ->. apply M1. reflexivity.
Qed.
Lemma same_trans : forall a b c, same a b -> same b c -> same a c.
Proof.
  intros a. induction a as [p s|p s|p n|p x s|p x y IHx IHy|p k l IH|p es IH|p] using obj_ind2; intros b c H1 H2; inversion H1; subst; inversion H2; subst; try (econstructor; eassumption).
  - match goal with A : is_number ?n ?t _ ?vs, B : is_number ?n ?t' _ ?vs' |- _ => destruct (values_unique _ _ _ _ _ _ _ A B) as (-> & -> & ->) end. econstructor; eassumption.
  - constructor; eapply both_trans; eauto.
  - constructor. match goal with A : Forall2 _ l ?m, B : Forall2 _ ?m ?q |- _ => revert A B; clear - IH; revert m q end.
    induction l as [|r l IHl]; intros m q A B; inversion A; subst; inversion B; subst; constructor.
    + eapply both_trans; eauto. intros; subst. eapply IH; [left; reflexivity|eassumption|eassumption].
    + eapply IHl; [|eassumption|eassumption]. intros; eapply IH; [right; eassumption|eassumption|eassumption].
  - match goal with A : forall k v, In (k, v) es -> _, B : forall k v, In (k, v) ?fs -> exists w, In (k, w) ?gs /\ _, C : forall k w, In (k, w) ?fs -> exists v, In (k, v) es /\ _, D : forall k w, In (k, w) ?gs -> _ |- _ =>
      constructor; [intros k v I; destruct (A k v I) as [w [W1 W2]]; destruct (B k w W1) as [u [U1 U2]]; exists u; split; [exact U1|eapply IH; eassumption]
                   |intros k u I; destruct (D k u I) as [w [W1 W2]]; destruct (C k w W1) as [v [V1 V2]]; exists v; split; [exact V1|eapply IH; eassumption]] end.
Qed.

(** ** Order *)
Section Order.
Variable os : list obj.
Hypothesis Hos : one_memory os.
Definition here (o : obj) : Prop := exists p, In p os /\ inside o p.
Lemma here_same : forall a b, here a -> here b -> addr a = addr b -> a = b.
Proof. intros a b [p [P1 P2]] [q [Q1 Q2]] E. apply (Hos p q a b); assumption. Qed.
Lemma here_sub : forall a b, here b -> inside a b -> here a.
Proof. intros a b [p [P1 P2]] H. exists p. split; [exact P1|]. eapply inside_trans; eauto. Qed.

Definition laws (P : obj -> Prop) : Prop :=
  (forall a b, P a -> P b -> here a -> here b -> exists u v, compare a b = Ok u /\ compare b a = Ok v /\ (Z.sgn v = - Z.sgn u)%Z /\ (u = 0%Z <-> same a b)) /\
  (forall a b c u w s, P a -> P b -> P c -> here a -> here b -> here c ->
     compare a b = Ok u -> compare b c = Ok w -> compare a c = Ok s -> (0 <= u -> 0 <= w -> 0 <= s)%Z).
Definition ref_here (r : option obj) : Prop := forall o, r = Some o -> here o.
Definition ref_laws (P : obj -> Prop) : Prop :=
  (forall a b, (forall o, a = Some o -> P o) -> (forall o, b = Some o -> P o) -> ref_here a -> ref_here b ->
     exists u v, dk_compare a b = Ok u /\ dk_compare b a = Ok v /\ (Z.sgn v = - Z.sgn u)%Z /\ (u = 0%Z <-> both same a b)) /\
  (forall a b c u w s, (forall o, a = Some o -> P o) -> (forall o, b = Some o -> P o) -> (forall o, c = Some o -> P o) -> ref_here a -> ref_here b -> ref_here c ->
     dk_compare a b = Ok u -> dk_compare b c = Ok w -> dk_compare a c = Ok s -> (0 <= u -> 0 <= w -> 0 <= s)%Z).
Lemma laws_ref : forall P, laws P -> ref_laws P.
Proof.
  intros P [L1 L2]. split.
  - intros [a|] [b|] Ha Hb Ia Ib; cbn [dk_compare].
    + destruct (L1 a b) as (u & v & A & B & C & D); auto. exists u, v. repeat split; auto; [constructor; tauto|]. intros E. inversion E; subst. tauto.
    + exists 1%Z, (-1)%Z. repeat split; auto; [discriminate|]. intros E; inversion E.
    + exists (-1)%Z, 1%Z. repeat split; auto; [discriminate|]. intros E; inversion E.
    + exists 0%Z, 0%Z. repeat split; auto. constructor.
  - intros [a|] [b|] [c|] u w s Ha Hb Hc Ia Ib Ic; cbn [dk_compare]; intros E F G; try (injection E as <-); try (injection F as <-); try (injection G as <-); try lia.
    eapply L2; [| | | | | |exact E|exact F|exact G]; auto.
Qed.

Lemma sgn_opp : forall u v, (Z.sgn v = - Z.sgn u -> (0 <= v <-> u <= 0))%Z.
Proof. intros u v H. destruct (Z.sgn_spec u) as [?|[?|?]], (Z.sgn_spec v) as [?|[?|?]]; lia. Qed.

Lemma string_laws : laws (of_kind KString).
Proof.
  assert (Q : forall p cs q ds, Forall char_ok cs -> Forall char_ok ds -> here (OString p (encode cs)) -> here (OString q (encode ds)) ->
    compare (OString p (encode cs)) (OString q (encode ds)) = string_compare (encode cs) (encode ds)).
  { intros p cs q ds Hc Hd I J. cbn [compare addr]. destruct (p =? q) eqn:E; [|reflexivity]. apply N.eqb_eq in E. subst q.
    pose proof (here_same _ _ I J eq_refl) as F. injection F as F. rewrite F. symmetry.
    pose proof (Utf8_Proofs.encode_cstring _ Hd) as Sd. destruct (Utf8_Strings.compare_laws _ _ _ Sd Sd Sd [0; 0; 0] [0; 0; 0] [0; 0; 0]) as [R _]. exact R. }
  split.
  - intros a b Ha Hb Ia Ib. inversion Ha as [p cs Hc| | | |]; subst. inversion Hb as [q ds Hd| | | |]; subst. rewrite !Q by assumption.
    unfold string_compare, sto.
    destruct (Utf8_Strings.compare_wellformed cs ds [0; 0; 0] [0; 0; 0] Hc Hd) as (u & U1 & U2 & U3 & U4).
    pose proof (Utf8_Proofs.encode_cstring _ Hc) as Sc. pose proof (Utf8_Proofs.encode_cstring _ Hd) as Sd.
    destruct (Utf8_Strings.compare_laws _ _ _ Sc Sd Sd [0; 0; 0] [0; 0; 0] [0; 0; 0]) as (R0 & (x & X1 & X2) & _).
    rewrite U1 in X1. injection X1 as <-. exists u, (- u)%Z. split; [exact U1|]. split; [exact X2|]. split; [apply Z.sgn_opp|]. rewrite U4. split; [intros ->; constructor|].
    intros S. assert (E : encode cs = encode ds) by (inversion S; congruence). apply U4. rewrite <- E in U1. rewrite R0 in U1. injection U1 as <-. reflexivity.
  - intros a b c u w s Ha Hb Hc Ia Ib Ic. inversion Ha as [p cs Hcs| | | |]; subst. inversion Hb as [q ds Hds| | | |]; subst. inversion Hc as [r fs Hfs| | | |]; subst. rewrite !Q by assumption.
    unfold string_compare, sto. intros E F G.
    destruct (Utf8_Strings.compare_laws _ _ _ (Utf8_Proofs.encode_cstring _ Hcs) (Utf8_Proofs.encode_cstring _ Hds) (Utf8_Proofs.encode_cstring _ Hfs) [0; 0; 0] [0; 0; 0] [0; 0; 0]) as (_ & _ & (x & y & z & X & Y & Z0 & L)).
    rewrite X in E. rewrite Y in F. rewrite Z0 in G. injection E as <-. injection F as <-. injection G as <-. exact L.
Qed.
Lemma data_laws : laws (of_kind KData).
Proof.
  destruct Bytes_Proofs.data_compare_three_way as (T1 & T2 & T3).
  assert (Q : forall p s q t, here (OData p s) -> here (OData q t) -> compare (OData p s) (OData q t) = Ok (data_compare s t)).
  { intros p s q t I J. cbn [compare addr]. destruct (p =? q) eqn:E; [|reflexivity]. apply N.eqb_eq in E. subst q.
    pose proof (here_same _ _ I J eq_refl) as F. injection F as ->. f_equal. symmetry. apply T2. reflexivity. }
  split.
  - intros a b Ha Hb Ia Ib. inversion Ha as [|p s| | |]; subst. inversion Hb as [|q t| | |]; subst. rewrite !Q by assumption.
    exists (data_compare s t), (data_compare t s). repeat split; auto.
    + intros E. apply T2 in E. subst. constructor.
    + intros E. inversion E; subst. apply T2. reflexivity.
  - intros a b c u w z Ha Hb Hc Ia Ib Ic. inversion Ha as [|p s| | |]; subst. inversion Hb as [|q t| | |]; subst. inversion Hc as [|r v| | |]; subst. rewrite !Q by assumption.
    intros E F G. injection E as <-. injection F as <-. injection G as <-. intros A B.
    destruct (Z.eq_dec (data_compare s t) 0) as [E|E]; [apply T2 in E; subst; exact B|].
    destruct (Z.eq_dec (data_compare t v) 0) as [F|F]; [apply T2 in F; subst; exact A|].
    specialize (T3 s t v). lia.
Qed.
Lemma number_laws : forall t, laws (of_kind (KNumber t)).
Proof.
  intros t.
  assert (Q : forall p m q n, well_sized m -> here (ONumber p m) -> here (ONumber q n) -> compare (ONumber p m) (ONumber q n) = Number_Model.compare m n).
  { intros p m q n Hm I J. cbn [compare addr]. destruct (p =? q) eqn:E; [|reflexivity]. apply N.eqb_eq in E. subst q.
    pose proof (here_same _ _ I J eq_refl) as F. injection F as <-. destruct (number_same p p m m Hm Hm eq_refl) as (x & _ & X & _ & _ & _ & S & _). rewrite X. f_equal. symmetry. apply S.
    destruct (Number_Proofs.every_number m Hm) as [vs V]. econstructor; eauto. }
  split.
  - intros a b Ha Hb Ia Ib. inversion Ha as [| |p m t0 T W| |]; subst. inversion Hb as [| |q n t0 T W'| |]; subst. rewrite !Q by assumption.
    destruct (number_same p q m n W W' (eq_sym T)) as (x & y & X & Y & L1 & L2 & S & _). exists x, y. split; [exact X|]. split; [exact Y|]. split; [|exact S].
    destruct (Z.sgn_spec x) as [?|[?|?]], (Z.sgn_spec y) as [?|[?|?]]; lia.
  - intros a b c u w z Ha Hb Hc Ia Ib Ic. inversion Ha as [| |p m t0 T W| |]; subst. inversion Hb as [| |q n t0 T W'| |]; subst. inversion Hc as [| |r o t0 T' W''| |]; subst. rewrite !Q by assumption.
    intros E F G.
    destruct (Number_Proofs.every_number m W) as [vs V1]. destruct (Number_Proofs.every_number n W') as [ws V2]. destruct (Number_Proofs.every_number o W'') as [us V3].
    rewrite T in V2. rewrite T' in V3.
    destruct (Number_Proofs.same_type_laws _ _ _ _ _ _ _ _ _ _ V1 V2 V3) as (x1 & x2 & x3 & x4 & E1 & E2 & E3 & E4 & L1 & L2 & L3 & L4 & L5 & _).
    destruct (Number_Proofs.same_type_laws _ _ _ _ _ _ _ _ _ _ V2 V3 V3) as (y1 & y2 & y3 & y4 & F1 & F2 & F3 & F4 & M1 & M2 & M3 & M4 & M5 & _).
    destruct (Number_Proofs.same_type_laws _ _ _ _ _ _ _ _ _ _ V1 V3 V3) as (z1 & z2 & z3 & z4 & G1 & G2 & G3 & G4 & N1 & N2 & N3 & N4 & N5 & _).
    rewrite E1 in E. rewrite F1 in F. rewrite G1 in G. rewrite F1 in E3. rewrite G1 in E4. injection E as <-. injection F as <-. injection G as <-. injection E3 as <-. injection E4 as <-.
    intros A B. destruct (Z.eq_dec x1 0) as [Z1|Z1].
    + apply L1 in Z1. subst ws. destruct (Z.eq_dec y1 0) as [Z2|Z2]; [apply M1 in Z2; subst us; assert (z1 = 0)%Z by (apply N1; reflexivity); lia|].
      assert (0 < z1)%Z; [|lia]. apply N2. apply M2. lia.
    + destruct (Z.eq_dec y1 0) as [Z2|Z2]; [apply M1 in Z2; subst us; assert (0 < z1)%Z; [apply N2; apply L2; lia|lia]|]. lia.
Qed.
Lemma other_laws : laws (of_kind KOther).
Proof.
  assert (Q : forall p q, compare (OOther p) (OOther q) = Ok (pointer_compare p q)).
  { intros p q. cbn [compare addr]. destruct (p =? q) eqn:E; [|reflexivity]. apply N.eqb_eq in E. subst q. unfold pointer_compare. rewrite N.ltb_irrefl. reflexivity. }
  split.
  - intros a b Ha Hb Ia Ib. inversion Ha as [| | |p|]; subst. inversion Hb as [| | |q|]; subst. rewrite !Q. eexists. eexists. split; [reflexivity|]. split; [reflexivity|].
    unfold pointer_compare. destruct (N.ltb_spec p q), (N.ltb_spec q p); cbn; try lia; (split; [reflexivity|]); split; try discriminate; try (intros E; inversion E; lia).
    intros _. assert (p = q) by lia. subst. constructor.
  - intros a b c u w z Ha Hb Hc Ia Ib Ic. inversion Ha as [| | |p|]; subst. inversion Hb as [| | |q|]; subst. inversion Hc as [| | |r|]; subst. rewrite !Q.
    intros E F G. injection E as <-. injection F as <-. injection G as <-. unfold pointer_compare.
    destruct (N.ltb_spec p q), (N.ltb_spec q p), (N.ltb_spec q r), (N.ltb_spec r q), (N.ltb_spec p r), (N.ltb_spec r p); lia.
Qed.
Lemma pair_laws : forall k1 k2, laws (of_kind k1) -> laws (of_kind k2) -> laws (of_kind (KPair k1 k2)).
Proof.
  intros k1 k2 L1 L2. apply laws_ref in L1. apply laws_ref in L2. destruct L1 as [A1 A2], L2 as [B1 B2].
  assert (Hf : forall p x y, here (OPair p x y) -> ref_here x). { intros p x y I o ->. eapply here_sub; [exact I|]. apply in_first. constructor. }
  assert (Hg : forall p x y, here (OPair p x y) -> ref_here y). { intros p x y I o ->. eapply here_sub; [exact I|]. apply in_second. constructor. }
  assert (Q : forall p x y q x' y', of_kind (KPair k1 k2) (OPair p x y) -> here (OPair p x y) -> here (OPair q x' y') -> compare (OPair p x y) (OPair q x' y') =
    do c <- dk_compare x x'; if (c =? 0)%Z then dk_compare y y' else Ok c).
  { intros p x y q x' y' K I J. change (compare (OPair p x y) (OPair q x' y')) with (if p =? q then Ok 0%Z else do c <- dk_compare x x'; if (c =? 0)%Z then dk_compare y y' else Ok c).
    destruct (p =? q) eqn:E; [|reflexivity]. apply N.eqb_eq in E. subst q. pose proof (here_same _ _ I J eq_refl) as F. injection F as <- <-.
    inversion K as [| | | |? ? ? ? ? K1 K2]; subst.
    destruct (A1 x x K1 K1 (Hf _ _ _ I) (Hf _ _ _ I)) as (u & v & U & V & S & _). rewrite U in V. injection V as <-. assert (u = 0)%Z by lia. subst u.
    destruct (B1 y y K2 K2 (Hg _ _ _ I) (Hg _ _ _ I)) as (u & v & U' & V & S' & _). rewrite U' in V. injection V as <-. assert (u = 0)%Z by lia. subst u.
    rewrite U. cbn [obind Z.eqb]. rewrite U'. reflexivity. }
  split.
  - intros a b Ha Hb Ia Ib. pose proof Ha as Ka. pose proof Hb as Kb. inversion Ha as [| | | |? ? p x y K1 K2]; subst. inversion Hb as [| | | |? ? q x' y' K1' K2']; subst. rewrite !Q by assumption.
    destruct (A1 x x' K1 K1' (Hf _ _ _ Ia) (Hf _ _ _ Ib)) as (u & v & U & V & S & E). rewrite U, V. cbn [obind].
    destruct (B1 y y' K2 K2' (Hg _ _ _ Ia) (Hg _ _ _ Ib)) as (u' & v' & U' & V' & S' & E').
    destruct (Z.eqb_spec u 0) as [Zu|Zu].
    + assert (v = 0)%Z by lia. subst v. cbn [Z.eqb]. exists u', v'. split; [exact U'|]. split; [exact V'|]. split; [exact S'|]. rewrite E'. split; [intros F; constructor; tauto|]. intros F. inversion F; subst. assumption.
    + destruct (Z.eqb_spec v 0) as [Zv|Zv]; [lia|]. exists u, v. repeat split; auto; [intros; lia|]. intros F. inversion F; subst. tauto.
  - intros a b c u w z Ha Hb Hc Ia Ib Ic. pose proof Ha as Ka. pose proof Hb as Kb. inversion Ha as [| | | |? ? p x y K1 K2]; subst. inversion Hb as [| | | |? ? q x' y' K1' K2']; subst. inversion Hc as [| | | |? ? r x'' y'' K1'' K2'']; subst. rewrite !Q by assumption.
    destruct (A1 x x' K1 K1' (Hf _ _ _ Ia) (Hf _ _ _ Ib)) as (u1 & v1 & U1 & V1 & S1 & _).
    destruct (A1 x' x'' K1' K1'' (Hf _ _ _ Ib) (Hf _ _ _ Ic)) as (u2 & v2 & U2 & V2 & S2 & _).
    destruct (A1 x x'' K1 K1'' (Hf _ _ _ Ia) (Hf _ _ _ Ic)) as (u3 & v3 & U3 & V3 & S3 & _).
    pose proof (A2 x x' x'' _ _ _ K1 K1' K1'' (Hf _ _ _ Ia) (Hf _ _ _ Ib) (Hf _ _ _ Ic) U1 U2 U3) as T1.
    pose proof (A2 x' x'' x _ _ _ K1' K1'' K1 (Hf _ _ _ Ib) (Hf _ _ _ Ic) (Hf _ _ _ Ia) U2 V3 V1) as T2.
    pose proof (A2 x'' x x' _ _ _ K1'' K1 K1' (Hf _ _ _ Ic) (Hf _ _ _ Ia) (Hf _ _ _ Ib) V3 U1 V2) as T3.
    rewrite U1, U2, U3. cbn [obind]. intros E F G.
    destruct (Z.eqb_spec u1 0) as [Z1|Z1], (Z.eqb_spec u2 0) as [Z2|Z2], (Z.eqb_spec u3 0) as [Z3|Z3];
      try (injection E as <-); try (injection F as <-); try (injection G as <-); intros P1 P2; try lia.
    eapply B2; [exact K2|exact K2'|exact K2''|eapply Hg; exact Ia|eapply Hg; exact Ib|eapply Hg; exact Ic|exact E|exact F|exact G|exact P1|exact P2].
Qed.
Lemma kind_laws : forall k, laws (of_kind k).
Proof. induction k; [apply string_laws|apply data_laws|apply number_laws|apply other_laws|apply pair_laws; assumption]. Qed.
End Order.

Theorem order : forall k a b c, ref_of_kind k a -> ref_of_kind k b -> ref_of_kind k c -> one_memory (objects [a; b; c]) ->
  exists x y z w, dk_compare a b = Ok x /\ dk_compare b a = Ok y /\ dk_compare b c = Ok z /\ dk_compare a c = Ok w /\
    (0 < x <-> y < 0)%Z /\ (x = 0 <-> y = 0)%Z /\ (0 <= x -> 0 <= z -> 0 <= w)%Z /\ (x = 0%Z <-> both same a b).
Proof.
  intros k a b c Ka Kb Kc Hm. destruct (laws_ref _ _ (kind_laws _ Hm k)) as [L1 L2].
  assert (Ha : ref_here (objects [a; b; c]) a). { intros o ->. exists o. split; [|constructor]. cbn. auto. }
  assert (Hb : ref_here (objects [a; b; c]) b). { intros o ->. exists o. split; [|constructor]. unfold objects. cbn. destruct a; cbn; auto. }
  assert (Hc : ref_here (objects [a; b; c]) c). { intros o ->. exists o. split; [|constructor]. unfold objects. cbn. destruct a, b; cbn; auto. }
  destruct (L1 a b Ka Kb Ha Hb) as (x & y & X & Y & S & E). destruct (L1 b c Kb Kc Hb Hc) as (z & _ & Z0 & _). destruct (L1 a c Ka Kc Ha Hc) as (w & _ & W & _).
  exists x, y, z, w. pose proof (L2 a b c x z w Ka Kb Kc Ha Hb Hc X Z0 W) as T. repeat split; auto; try tauto;
    destruct (Z.sgn_spec x) as [?|[?|?]], (Z.sgn_spec y) as [?|[?|?]]; lia.
Qed.

(** ** References *)
Lemma objects_in : forall rs o, In (Some o) rs -> In o (objects rs).
Proof. intros rs o H. unfold objects. apply in_flat_map. exists (Some o). split; [exact H|left; reflexivity]. Qed.
Lemma equality : forall t a b, (forall o, In o (objects [a; b]) -> proper t o) -> one_memory (objects [a; b]) ->
  exists e, dk_equal a b = Ok e /\ (e = true <-> both same a b).
Proof.
  intros t a b Hp Hm. apply dk_equal_ok. intros o o' -> ->. apply (equal_same t); [apply Hp; cbn; auto|apply Hp; cbn; auto|exact Hm].
Qed.
Lemma equality_laws : forall t a b c, (forall o, In o (objects [a; b; c]) -> proper t o) -> one_memory (objects [a; b; c]) ->
  dk_equal a a = Ok true /\ dk_equal a b = dk_equal b a /\ (dk_equal a b = Ok true -> dk_equal b c = Ok true -> dk_equal a c = Ok true).
Proof.
  intros t a b c Hp Hm.
  assert (Q : forall x y, In x [a; b; c] -> In y [a; b; c] -> exists e, dk_equal x y = Ok e /\ (e = true <-> both same x y)).
  { intros x y Ix Iy. assert (S : forall q, In q (objects [x; y]) -> In q (objects [a; b; c])).
    { intros q Hq. unfold objects in Hq |- *. apply in_flat_map in Hq. destruct Hq as [r [R1 R2]]. apply in_flat_map. exists r. split; [|exact R2]. destruct R1 as [<-|[<-|[]]]; assumption. }
    apply (equality t); [intros; apply Hp, S; assumption|]. eapply memory_sub; [exact Hm|]. intros q Hq. exists q. split; [apply S; exact Hq|constructor]. }
  destruct (Q a a) as [e1 [E1 F1]]; [cbn; auto..|]. destruct (Q a b) as [e2 [E2 F2]]; [cbn; auto..|]. destruct (Q b a) as [e3 [E3 F3]]; [cbn; auto..|].
  destruct (Q b c) as [e4 [E4 F4]]; [cbn; auto..|]. destruct (Q a c) as [e5 [E5 F5]]; [cbn; auto..|].
  rewrite E1, E2, E3, E4, E5. repeat split.
  - f_equal. apply F1. destruct a as [a|]; constructor. apply (same_refl t). apply Hp. cbn. auto.
  - f_equal. apply eq_true_iff_eq. rewrite F2, F3. split; intros B; (eapply both_sym; [|exact B]); intros; apply same_sym; assumption.
  - intros A B. injection A as ->. injection B as ->. f_equal. apply F5. eapply both_trans; [|apply F2; reflexivity|apply F4; reflexivity]. intros; eapply same_trans; eauto.
Qed.
Lemma hashing : forall t a b, (forall o, In o (objects [a; b]) -> proper t o) -> (forall o, In o (objects [a]) -> no_collection o) -> one_memory (objects [a; b]) ->
  dk_equal a b = Ok true -> exists h, dk_hash a = Ok h /\ dk_hash b = Ok h.
Proof.
  intros t a b Hp Hn Hm E. destruct (equality t a b Hp Hm) as [e [E1 E2]]. rewrite E in E1. injection E1 as <-. destruct (proj1 E2 eq_refl) as [|x y S]; cbn [dk_hash]; [eauto|].
  eapply (hash_same t); [apply Hp; cbn; auto|apply Hp; cbn; auto|apply Hn; cbn; auto|exact S].
Qed.

(** ** Parts, for examples *)
Fixpoint parts (o : obj) : list obj :=
  o :: match o with
       | OPair _ x y => match x with Some o => parts o | None => [] end ++ match y with Some o => parts o | None => [] end
       | OList _ _ l => flat_map (fun r => match r with Some o => parts o | None => [] end) l
       | ODict _ es => flat_map (fun e => parts (snd e)) es
       | _ => []
       end.
Lemma inside_parts : forall x o, inside x o -> In x (parts o).
Proof.
  intros x o H. induction H; cbn [parts].
  - destruct x; left; reflexivity.
  - right. apply in_or_app. left. exact IHinside.
  - right. apply in_or_app. right. exact IHinside.
  - right. apply in_flat_map. exists (Some x0). auto.
  - right. apply in_flat_map. exists (k, v). auto.
Qed.
Lemma memory_parts : forall os, (forall x y, In x (flat_map parts os) -> In y (flat_map parts os) -> addr x = addr y -> x = y) -> one_memory os.
Proof.
  intros os H a b x y Ia Ib Hx Hy E. apply H; auto; apply in_flat_map; [exists a|exists b]; (split; [assumption|apply inside_parts; assumption]).
Qed.
