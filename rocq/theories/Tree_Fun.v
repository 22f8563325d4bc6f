(** Balanced trees as values: rotations, the level invariant and the sequence of
    pairs.  Used by Tree_Proofs, which relates memory to these trees. *)
Require Import Coq.ZArith.ZArith Coq.Lists.List Coq.Bool.Bool Coq.Arith.Arith Coq.micromega.Lia Coq.Sorting.Sorted.
Require Import Verif.Base Verif.HashTable_Model Verif.Tree_Spec.
Import ListNotations.
Local Open Scope Z_scope.

Section Fun.
  Variables K V : Type.
  Variable cmp : K -> K -> Z.
  (** Nodes carry their address. *)
  Inductive tr : Type := E | T (p : nat) (lv : Z) (l : tr) (x : K * V) (r : tr).
  Definition lev (t : tr) : Z := match t with E => 0 | T _ lv _ _ _ => lv end.
  Definition rt (t : tr) : tr := match t with E => E | T _ _ _ _ r => r end.
  Fixpoint ents (t : tr) : list (nat * (K * V)) := match t with E => [] | T p _ l x r => ents l ++ (p, x) :: ents r end.
  Fixpoint size (t : tr) : nat := match t with E => 0 | T _ _ l _ r => (size l + S (size r))%nat end.
  Fixpoint height (t : tr) : nat := match t with E => 0 | T _ _ l _ r => S (Nat.max (height l) (height r)) end.

  Definition skew_f (t : tr) : tr :=
    match t with
    | T p lv (T q lq a y b) x c => if lq =? lv then T q lq a y (T p lv b x c) else t
    | _ => t
    end.
  Definition split_f (t : tr) : tr :=
    match t with
    | T p lv a x (T q lq b y (T s ls c z d)) => if ls =? lv then T q (lq + 1) (T p lv a x b) y (T s ls c z d) else t
    | _ => t
    end.
  Definition onright (f : tr -> tr) (t : tr) : tr := match t with E => E | T p lv l x r => T p lv l x (f r) end.
  Definition withlev (t : tr) (z : Z) : tr := match t with E => E | T p _ l x r => T p z l x r end.
  Fixpoint insert_f (a : nat) (t : tr) (k : K) (v : V) (pol : insert_policy) : tr :=
    match t with
    | E => match pol with InsertIfFound => E | _ => T a 1 E (k, v) E end
    | T p lv l x r =>
      if cmp (fst x) k <? 0 then split_f (skew_f (T p lv (insert_f a l k v pol) x r))
      else if 0 <? cmp (fst x) k then split_f (skew_f (T p lv l x (insert_f a r k v pol)))
      else match pol with InsertIfNotFound => t | _ => T p lv l (fst x, v) r end
    end.
  Definition triggers (t : tr) : bool :=
    match t with E => false | T _ lv l _ r => (lev l <? lv - 1) || (lev r <? lv - 1) end.
  Definition lowered (t : tr) : tr :=
    match t with E => E | T p lv l x r => T p (lv - 1) l x (if lv - 1 <? lev r then withlev r (lv - 1) else r) end.
  Definition fix_f (t : tr) : tr :=
    if triggers t then onright split_f (split_f (onright (onright skew_f) (onright skew_f (skew_f (lowered t))))) else t.
  (** Search paths, for removal. *)
  Fixpoint unlink (t : tr) (k : K) : tr :=
    match t with
    | E => E
    | T p lv l x r =>
      if cmp (fst x) k <? 0 then match l with E => r | _ => fix_f (T p lv (unlink l k) x r) end
      else match r with E => r | _ => fix_f (T p lv l x (unlink r k)) end
    end.
  Fixpoint cand (t : tr) (k : K) (e : nat) : nat :=
    match t with E => e | T p _ l x r => if cmp (fst x) k <? 0 then cand l k e else cand r k p end.
  Fixpoint bottom (t : tr) (k : K) : option (nat * (K * V)) :=
    match t with
    | E => None
    | T p _ l x r =>
      if cmp (fst x) k <? 0 then match l with E => Some (p, x) | _ => bottom l k end
      else match r with E => Some (p, x) | _ => bottom r k end
    end.
  Fixpoint setkv (e : nat) (y : K * V) (t : tr) : tr :=
    match t with E => E | T p lv l x r => T p lv (setkv e y l) (if (p =? e)%nat then y else x) (setkv e y r) end.

  (** ** Levels *)
  Fixpoint aa (t : tr) : Prop :=
    match t with
    | E => True
    | T _ lv l _ r => 1 <= lv /\ aa l /\ aa r /\ lev l = lv - 1 /\ (lev r = lv \/ lev r = lv - 1) /\ lev (rt r) < lv
    end.
  Lemma aa_lev : forall t, aa t -> 0 <= lev t.
  Proof. intros [|p lv l x r]; cbn; lia. Qed.
  Lemma aa_zero : forall t, aa t -> lev t = 0 -> t = E.
  Proof. intros [|p lv l x r] H; cbn in *; auto; lia. Qed.
  Lemma aa_rt : forall t, aa t -> lev (rt t) <= lev t.
  Proof. intros [|p lv l x r] H; cbn [lev rt aa] in *; lia. Qed.
  Ltac case1 t := let p := fresh "p" in let lv := fresh "lv" in let l := fresh "l" in let x := fresh "x" in let r := fresh "r" in destruct t as [|p lv l x r].
  Ltac sol := repeat match goal with H : _ /\ _ |- _ => destruct H end; repeat match goal with H : aa ?t |- _ => lazymatch goal with G : lev (rt t) <= lev t |- _ => fail | _ => pose proof (aa_rt t H); pose proof (aa_lev t H) end end;
    repeat match goal with |- _ /\ _ => split end; first [assumption | exact I | lia].
  Lemma insert_aa : forall a t k v pol, aa t ->
    aa (insert_f a t k v pol) /\
    (lev (insert_f a t k v pol) = lev t \/
     lev (insert_f a t k v pol) = lev t + 1 /\ lev (rt t) = lev t /\ lev (rt (insert_f a t k v pol)) = lev t).
  Proof.
    intros a t k v pol. induction t as [|p lv l IHl x r IHr]; intros H.
    - cbn. destruct pol; cbn; split; try lia; auto.
    - cbn [aa] in H. destruct H as (H1 & Hl & Hr & H2 & H3 & H4). specialize (IHl Hl). specialize (IHr Hr). cbn [insert_f].
      destruct (cmp (fst x) k <? 0); [|destruct (0 <? cmp (fst x) k)].
      + clear IHr. destruct IHl as [A B]. revert A B. generalize (insert_f a l k v pol). intros l' A B.
        destruct l' as [|q lq la y lb]; cbn [skew_f].
        * cbn [lev] in B. assert (lev l = 0) by (pose proof (aa_lev l Hl); lia).
          destruct r as [|s ls b z [|u lu c w d]]; cbn [split_f rt lev aa] in *; try (sol).
        * cbn [lev rt aa] in *. destruct (lq =? lv) eqn:E1; cbn [split_f].
          -- destruct r as [|s ls b z c]; cbn [split_f rt lev aa] in *; try (sol).
             destruct (ls =? lq) eqn:E2; cbn [rt lev aa] in *; sol.
          -- destruct r as [|s ls b z [|u lu c w d]]; cbn [split_f rt lev aa] in *; try (sol).
             destruct (lu =? lv) eqn:E2; cbn [rt lev aa] in *; sol.
      + clear IHl. destruct IHr as [A B]. revert A B. generalize (insert_f a r k v pol). intros r' A B.
        assert (Es : skew_f (T p lv l x r') = T p lv l x r').
        { destruct l as [|q lq la y lb]; cbn [skew_f]; auto. cbn [lev] in H2. replace (lq =? lv) with false by (symmetry; apply Z.eqb_neq; lia). auto. }
        rewrite Es. clear Es. destruct r' as [|s ls b z [|u lu c w d]]; cbn [split_f rt lev aa] in *.
        * pose proof (aa_lev r Hr). sol.
        * sol.
        * assert (lev (rt b) <= lev b) by (apply aa_rt; tauto). destruct (lu =? lv) eqn:E2; cbn [rt lev aa] in *; sol.
      + destruct pol; cbn [aa lev rt]; sol.
  Qed.

  (** Removal. *)
  Definition good (t t' : tr) : Prop :=
    aa t' /\ (lev t' = lev t /\ (lev (rt t') = lev t -> lev (rt t) = lev t) \/ lev t' = lev t - 1).
  (** A node one of whose subtrees lost at most a level. *)
  Definition damaged (p : nat) (lv : Z) (l : tr) (x : K * V) (r l' r' : tr) : Prop :=
    aa (T p lv l x r) /\ 1 < lv /\ (good l l' /\ r' = r \/ good r r' /\ l' = l).
  Lemma fix_left : forall p lv l x r l', aa (T p lv l x r) -> good l l' -> good (T p lv l x r) (fix_f (T p lv l' x r)) /\
     (triggers (T p lv l' x r) = true -> 2 <= lv /\ rt (split_f (onright (onright skew_f) (onright skew_f (skew_f (lowered (T p lv l' x r)))))) <> E).
  Proof.
    intros p lv l x r l' H [A B]. cbn [aa] in H. destruct H as (H1 & Hl & Hr & H2 & H3 & H4). pose proof (aa_lev _ A) as A0.
    unfold fix_f, triggers. destruct (lev l' <? lv - 1) eqn:Et; cbn [orb].
    2:{ replace (lev r <? lv - 1) with false by (symmetry; apply Z.ltb_ge; lia). split; [|discriminate]. unfold good. cbn [aa lev rt]. sol. }
    apply Z.ltb_lt in Et. assert (El : lev l' = lv - 2) by lia. cbn [lowered].
    assert (Sk : forall c, skew_f (T p (lv - 1) l' x c) = T p (lv - 1) l' x c).
    { intros c. destruct l' as [|q lq la y lb]; cbn [skew_f]; auto. cbn [lev] in El. replace (lq =? lv - 1) with false by (symmetry; apply Z.eqb_neq; lia). auto. }
    destruct r as [|s ls b z c]; [cbn [lev] in *; lia|]. cbn [lev rt aa] in H3, H4, Hr. cbn [lev]. destruct Hr as (R1 & Hb & Hc & R2 & R3 & R4).
    destruct (lv - 1 <? ls) eqn:Er; [apply Z.ltb_lt in Er|apply Z.ltb_ge in Er]; cbn [withlev]; rewrite Sk; cbn [onright].
    - (* the right child was on the same level *)
      assert (ls = lv) by lia. subst ls. destruct b as [|u lu ba w bb]; [cbn [lev] in *; lia|]. cbn [lev aa] in R2, Hb. destruct Hb as (B1 & Hba & Hbb & B2 & B3 & B4).
      cbn [skew_f]. replace (lu =? lv - 1) with true by (symmetry; apply Z.eqb_eq; lia). cbn [onright].
      destruct c as [|cp clv cl cx cr]; [cbn [lev] in *; lia|]. cbn [lev aa rt] in *. destruct Hc as (C1 & Hcl & Hcr & C2 & C3 & C4).
      destruct bb as [|bp blv bl bx br]; cbn [skew_f].
      + cbn [split_f]. rewrite Z.eqb_refl. cbn [onright split_f]. destruct cr as [|dp dlv dl dx dr]; cbn [lev rt aa] in *.
        * split; [unfold good; cbn [aa lev rt]; sol|]. intros _. split; [lia|]. cbn. discriminate.
        * destruct (dlv =? lv - 1) eqn:Ed; cbn [lev rt aa] in *; (split; [unfold good; cbn [aa lev rt]; sol|]); intros _; (split; [lia|]); cbn; discriminate.
      + cbn [lev rt aa] in *. destruct (blv =? lv - 1) eqn:Eb.
        * cbn [split_f]. replace (blv =? lv - 1) with true. cbn [onright split_f]. 
          replace (clv =? blv) with true by (symmetry; apply Z.eqb_eq; lia). cbn [lev rt aa]. split; [unfold good; cbn [aa lev rt]; sol|]. intros _. split; [lia|]. discriminate.
        * cbn [split_f]. rewrite Z.eqb_refl. cbn [onright split_f]. destruct cr as [|dp dlv dl dx dr]; cbn [lev rt aa] in *.
          -- split; [unfold good; cbn [aa lev rt]; sol|]. intros _. split; [lia|]. cbn. discriminate.
          -- destruct (dlv =? lv - 1) eqn:Ed; cbn [lev rt aa] in *; (split; [unfold good; cbn [aa lev rt]; sol|]); intros _; (split; [lia|]); cbn; discriminate.
    - assert (ls = lv - 1) by lia. subst ls.
      assert (Sb : skew_f (T s (lv - 1) b z c) = T s (lv - 1) b z c).
      { destruct b as [|u lu ba w bb]; cbn [skew_f]; auto. cbn [lev] in R2. replace (lu =? lv - 1) with false by (symmetry; apply Z.eqb_neq; lia). auto. }
      rewrite Sb. cbn [onright].
      assert (Sc : skew_f c = c).
      { destruct c as [|cp clv [|u lu ba w bb] cx cr]; cbn [skew_f]; auto. cbn [aa lev] in Hc. replace (lu =? clv) with false by (symmetry; apply Z.eqb_neq; lia). auto. }
      rewrite Sc. destruct c as [|cp clv cl cx cr]; cbn [split_f onright].
      + split; [unfold good; cbn [aa lev rt] in *; sol|]. intros _. split; [lia|]. cbn. discriminate.
      + cbn [aa lev rt] in *. destruct (clv =? lv - 1) eqn:Ec; cbn [onright split_f].
        * destruct cr as [|dp dlv dl dx [|ep elv el ex er]]; cbn [aa lev rt] in *.
          -- split; [unfold good; cbn [aa lev rt] in *; sol|]. intros _. split; [lia|]. cbn. discriminate.
          -- split; [unfold good; cbn [aa lev rt] in *; sol|]. intros _. split; [lia|]. cbn. discriminate.
          -- replace (elv =? clv) with false by (symmetry; apply Z.eqb_neq; lia). split; [unfold good; cbn [aa lev rt] in *; sol|]. intros _. split; [lia|]. cbn. discriminate.
        * destruct cr as [|dp dlv dl dx dr]; cbn [aa lev rt] in *.
          -- split; [unfold good; cbn [aa lev rt] in *; sol|]. intros _. split; [lia|]. cbn. discriminate.
          -- replace (dlv =? lv - 1) with false by (symmetry; apply Z.eqb_neq; lia). split; [unfold good; cbn [aa lev rt] in *; sol|]. intros _. split; [lia|]. cbn. discriminate.
  Qed.
  Lemma fix_right : forall p lv l x r r', aa (T p lv l x r) -> good r r' -> good (T p lv l x r) (fix_f (T p lv l x r')) /\
     (triggers (T p lv l x r') = true -> 2 <= lv /\ rt (split_f (onright (onright skew_f) (onright skew_f (skew_f (lowered (T p lv l x r')))))) <> E).
  Proof.
    intros p lv l x r r' H [A B]. cbn [aa] in H. destruct H as (H1 & Hl & Hr & H2 & H3 & H4). pose proof (aa_lev _ A) as A0.
    unfold fix_f, triggers. replace (lev l <? lv - 1) with false by (symmetry; apply Z.ltb_ge; lia). cbn [orb].
    destruct (lev r' <? lv - 1) eqn:Et.
    2:{ apply Z.ltb_ge in Et. split; [|discriminate]. unfold good. cbn [aa lev rt]. split; [|lia]. repeat (split; try lia; auto).
        destruct r' as [|q lq b y c]; [cbn; lia|]. cbn [aa lev rt] in *. lia. }
    apply Z.ltb_lt in Et. assert (Er : lev r = lv - 1 /\ lev r' = lv - 2) by lia. cbn [lowered]. replace (lv - 1 <? lev r') with false by (symmetry; apply Z.ltb_ge; lia).
    destruct l as [|q lq la y lb]; [cbn [lev] in *; lia|]. cbn [lev aa] in H2, Hl. destruct Hl as (L1 & Hla & Hlb & L2 & L3 & L4). subst lq.
    cbn [skew_f]. rewrite Z.eqb_refl. cbn [onright].
    assert (Sr : skew_f r' = r').
    { destruct r' as [|cp clv [|u lu ba w bb] cx cr]; cbn [skew_f]; auto. cbn [aa lev] in A. replace (lu =? clv) with false by (symmetry; apply Z.eqb_neq; lia). auto. }
    assert (Ns : forall c, split_f (T p (lv - 1) c x r') = T p (lv - 1) c x r').
    { intros c. destruct r' as [|cp clv cl cx [|dp dlv dl dx dr]]; cbn [split_f]; auto. cbn [aa lev rt] in *. replace (dlv =? lv - 1) with false by (symmetry; apply Z.eqb_neq; lia). auto. }
    destruct lb as [|bp blv bl bx br]; cbn [skew_f onright].
    - rewrite Sr. destruct r' as [|cp clv cl cx cr]; [cbn [split_f onright]; split; [unfold good; cbn [aa lev rt] in *; sol|]; intros _; (split; [cbn [lev rt aa] in *; lia|]); cbn; discriminate|].
      change (split_f (T q (lv - 1) la y (T p (lv - 1) E x (T cp clv cl cx cr)))) with (if clv =? lv - 1 then T p (lv - 1 + 1) (T q (lv - 1) la y E) x (T cp clv cl cx cr) else T q (lv - 1) la y (T p (lv - 1) E x (T cp clv cl cx cr))).
      cbn [lev] in Er. replace (clv =? lv - 1) with false by (symmetry; apply Z.eqb_neq; lia). cbn [onright]. rewrite Ns.
      split; [unfold good; cbn [aa lev rt] in *; sol|]. intros _. split; [lia|]. cbn. discriminate.
    - cbn [aa lev rt] in *. destruct (blv =? lv - 1) eqn:Eb; cbn [onright].
      + assert (Sx : skew_f (T p (lv - 1) br x r') = T p (lv - 1) br x r').
        { destruct br as [|u lu ba w bb]; cbn [skew_f]; auto. cbn [lev] in L4. replace (lu =? lv - 1) with false by (symmetry; apply Z.eqb_neq; lia). auto. }
        rewrite Sx. change (split_f (T q (lv - 1) la y (T bp blv bl bx (T p (lv - 1) br x r')))) with (if lv - 1 =? lv - 1 then T bp (blv + 1) (T q (lv - 1) la y bl) bx (T p (lv - 1) br x r') else T q (lv - 1) la y (T bp blv bl bx (T p (lv - 1) br x r'))).
        rewrite Z.eqb_refl. cbn [onright]. rewrite Ns. cbn [rt]. split; [|intros _; split; [lia|discriminate]].
        unfold good. cbn [aa lev rt]. assert (R0 : lev (rt r') < lv - 1) by (destruct r' as [|cp clv cl cx cr]; cbn [aa lev rt] in *; lia). sol.
      + rewrite Sr. assert (Ns2 : split_f (T q (lv - 1) la y (T p (lv - 1) (T bp blv bl bx br) x r')) = T q (lv - 1) la y (T p (lv - 1) (T bp blv bl bx br) x r')).
        { destruct r' as [|cp clv cl cx cr]; [reflexivity|]. cbn [split_f]. cbn [lev] in Er. replace (clv =? lv - 1) with false by (symmetry; apply Z.eqb_neq; lia). auto. }
        rewrite Ns2. cbn [onright rt]. rewrite Ns. split; [|intros _; split; [lia|discriminate]].
        unfold good. cbn [aa lev rt]. assert (R0 : lev (rt r') < lv - 1) by (destruct r' as [|cp clv cl cx cr]; cbn [aa lev rt] in *; lia). sol.
  Qed.
  Lemma unlink_good : forall t k, aa t -> t <> E -> good t (unlink t k).
  Proof.
    induction t as [|p lv l IHl x r IHr]; intros k H Hn; [congruence|]. cbn [unlink]. pose proof H as H'. cbn [aa] in H'. destruct H' as (H1 & Hl & Hr & H2 & H3 & H4).
    destruct (cmp (fst x) k <? 0).
    - destruct l as [|q lq la y lb] eqn:El.
      + unfold good. cbn [lev rt] in *. split; auto. destruct r as [|s ls b z c]; cbn [aa lev rt] in *; lia.
      + apply fix_left; auto. apply IHl; auto. discriminate.
    - destruct r as [|q lq la y lb] eqn:El.
      + unfold good. cbn [lev rt aa] in *. split; auto. lia.
      + apply fix_right; auto. apply IHr; auto. discriminate.
  Qed.
  Lemma bottom_some : forall t k, t <> E -> exists e, bottom t k = Some e.
  Proof.
    induction t as [|p lv l IHl x r IHr]; intros k H; [congruence|]. cbn [bottom]. destruct (cmp (fst x) k <? 0).
    - destruct l; [eauto|]. apply IHl. discriminate.
    - destruct r; [eauto|]. apply IHr. discriminate.
  Qed.

  (** ** Pairs *)
  Lemma skew_ents : forall t, ents (skew_f t) = ents t.
  Proof.
    intros [|p lv [|q lq a y b] x c]; auto. cbn [skew_f]. destruct (lq =? lv); auto. cbn [ents]. rewrite <- app_assoc. auto.
  Qed.
  Lemma split_ents : forall t, ents (split_f t) = ents t.
  Proof.
    intros [|p lv a x [|q lq b y [|s ls c z d]]]; auto. cbn [split_f]. destruct (ls =? lv); auto. cbn [ents]. rewrite <- app_assoc. auto.
  Qed.
  Lemma onright_ents : forall f t, (forall u, ents (f u) = ents u) -> ents (onright f t) = ents t.
  Proof. intros f [|p lv l x r] H; auto. cbn [onright ents]. rewrite H. auto. Qed.
  Lemma lowered_ents : forall t, ents (lowered t) = ents t.
  Proof. intros [|p lv l x r]; auto. cbn [lowered ents]. destruct (lv - 1 <? lev r); auto. destruct r; auto. Qed.
  Lemma fix_ents : forall t, ents (fix_f t) = ents t.
  Proof.
    intros t. unfold fix_f. destruct (triggers t); auto. repeat first [rewrite onright_ents by (intros; first [apply split_ents|apply skew_ents|apply onright_ents; apply skew_ents])|rewrite split_ents|rewrite skew_ents]. apply lowered_ents.
  Qed.
  Definition pairs (t : tr) : list (K * V) := map snd (ents t).
  Lemma pairs_T : forall p lv l x r, pairs (T p lv l x r) = pairs l ++ x :: pairs r.
  Proof. intros. unfold pairs. cbn [ents]. rewrite map_app. auto. Qed.
  Lemma size_ents : forall t, size t = length (ents t).
  Proof. induction t as [|p lv l IHl x r IHr]; cbn; auto. rewrite app_length. cbn. lia. Qed.

  Hypothesis Hord : ordering K cmp.
  Let crefl : forall a, cmp a a = 0 := proj1 Hord.
  Let cflip : forall a b, cmp a b > 0 <-> cmp b a < 0 := proj1 (proj2 Hord).
  Let cge : forall a b c, cmp a b >= 0 -> cmp b c >= 0 -> cmp a c >= 0 := proj1 (proj2 (proj2 Hord)).
  Let cgt1 : forall a b c, cmp a b > 0 -> cmp b c >= 0 -> cmp a c > 0 := proj1 (proj2 (proj2 (proj2 Hord))).
  Let cgt2 : forall a b c, cmp a b >= 0 -> cmp b c > 0 -> cmp a c > 0 := proj2 (proj2 (proj2 (proj2 Hord))).
  Notation ord := (ordered K V cmp).
  Lemma ord_app : forall a x b, ord (a ++ x :: b) <-> ord a /\ ord b /\ Forall (fun y => cmp (fst y) (fst x) > 0) a /\ Forall (fun y => cmp (fst x) (fst y) > 0) b.
  Proof.
    unfold ordered. induction a as [|y a IH]; intros x b; cbn [app].
    - split.
      + intros H. inversion H; subst. repeat split; auto. constructor.
      + intros (_ & H & _ & G). constructor; auto.
    - split.
      + intros H. inversion H; subst. apply IH in H2. destruct H2 as (A & B & C & D). apply Forall_app in H3. destruct H3 as [F G]. inversion G; subst.
        repeat split; auto; constructor; auto.
      + intros (A & B & C & D). inversion A; inversion C; subst. constructor; [apply IH; auto|]. apply Forall_app. split; auto. constructor; auto.
        eapply Forall_impl; [|exact D]. cbv beta. intros z Hz. apply cgt1 with (fst x); auto. lia.
  Qed.
  Lemma put_app_before : forall a b k v pol, Forall (fun y => cmp (fst y) k > 0) a -> put K V cmp (a ++ b) k v pol = a ++ put K V cmp b k v pol.
  Proof.
    induction a as [|[k' v'] a IH]; intros b k v pol H; auto. inversion H; subst. cbn [app put fst] in *.
    replace (cmp k' k <? 0) with false by (symmetry; apply Z.ltb_ge; lia). replace (cmp k' k =? 0) with false by (symmetry; apply Z.eqb_neq; lia). rewrite IH; auto.
  Qed.
  Lemma put_app_after : forall a b k v pol, b <> [] -> Forall (fun y => cmp (fst y) k < 0) b -> put K V cmp (a ++ b) k v pol = put K V cmp a k v pol ++ b.
  Proof.
    induction a as [|[k' v'] a IH]; intros b k v pol Hn H; cbn [app put].
    - destruct b as [|[k' v'] b]; [congruence|]. inversion H; subst. cbn [put fst] in *. replace (cmp k' k <? 0) with true by (symmetry; apply Z.ltb_lt; lia). destruct pol; auto.
    - destruct (cmp k' k <? 0); [destruct pol; auto|]. destruct (cmp k' k =? 0); [destruct pol; auto|]. rewrite IH; auto.
  Qed.
  Lemma insert_pairs : forall a t k v pol, ord (pairs t) -> pairs (insert_f a t k v pol) = put K V cmp (pairs t) k v pol.
  Proof.
    intros a t k v pol. assert (Q : forall t, pairs (split_f (skew_f t)) = pairs t) by (intros u; unfold pairs; rewrite split_ents, skew_ents; auto).
    induction t as [|p lv l IHl x r IHr]; intros H.
    - cbn. destruct pol; auto.
    - cbn [insert_f]. rewrite pairs_T in *. apply ord_app in H. destruct H as (A & B & C & D). destruct (cmp (fst x) k <? 0) eqn:E1; [|destruct (0 <? cmp (fst x) k) eqn:E2].
      + apply Z.ltb_lt in E1. rewrite Q, pairs_T, IHl by auto. rewrite put_app_after; auto; [discriminate|]. constructor; auto.
        eapply Forall_impl; [|exact D]. cbv beta. intros y Hy. apply cflip. apply cgt1 with (fst x); [apply cflip; auto|lia].
      + apply Z.ltb_lt in E2. rewrite Q, pairs_T, IHr by auto.
        change (pairs l ++ x :: pairs r) with (pairs l ++ [x] ++ pairs r). rewrite app_assoc, put_app_before.
        * rewrite <- app_assoc. auto.
        * apply Forall_app. split; [|constructor; [lia|constructor]]. eapply Forall_impl; [|exact C]. cbv beta. intros y Hy. apply cgt1 with (fst x); lia.
      + apply Z.ltb_ge in E1, E2. assert (Ex : cmp (fst x) k = 0) by lia. rewrite put_app_before.
        * destruct x as [kx vx]. cbn [put fst] in *. rewrite Ex. cbn. destruct pol; rewrite pairs_T; auto.
        * eapply Forall_impl; [|exact C]. cbv beta. intros y Hy. apply cgt1 with (fst x); lia.
  Qed.
  Lemma put_ordered : forall m k v pol, ord m -> ord (put K V cmp m k v pol) /\ (forall z, Forall (fun y => cmp z (fst y) > 0) m -> cmp z k > 0 -> Forall (fun y => cmp z (fst y) > 0) (put K V cmp m k v pol)).
  Proof.
    induction m as [|[k' v'] m IH]; intros k v pol H; cbn [put].
    - destruct pol; split; repeat constructor; auto.
    - inversion H; subst. destruct (IH k v pol H2) as [A B]. destruct (cmp k' k <? 0) eqn:E1; [|destruct (cmp k' k =? 0) eqn:E2].
      + apply Z.ltb_lt in E1. assert (C : ord ((k, v) :: (k', v') :: m)).
        { constructor; auto. constructor; [apply cflip; auto|]. eapply Forall_impl; [|exact H3]. cbv beta. cbn. intros y Hy. apply cgt1 with k'; [apply cflip; auto|lia]. }
        destruct pol; split; auto.
      + assert (C : ord ((k', v) :: m)) by (constructor; auto).
        destruct pol; split; auto; intros z Hz Hk; inversion Hz; constructor; auto.
      + split.
        * constructor; auto. cbn in *. apply B; [auto|]. apply Z.ltb_ge in E1. apply Z.eqb_neq in E2. lia.
        * intros z Hz Hk. inversion Hz; subst. constructor; auto.
  Qed.

  (** Removal: the bottom of the search path is unlinked. *)
  Lemma unlink_ents : forall t k, aa t -> forall e, bottom t k = Some e -> exists L R, ents t = L ++ e :: R /\ ents (unlink t k) = L ++ R /\
    (Forall (fun y => cmp (fst y) k < 0) (pairs t) -> L = []).
  Proof.
    induction t as [|p lv l IHl x r IHr]; intros k H e Hb; [discriminate|]. cbn [aa] in H. destruct H as (H1 & Hl & Hr & H2 & H3 & H4). cbn [bottom unlink] in *.
    destruct (cmp (fst x) k <? 0) eqn:Ec.
    - destruct l as [|q lq la y lb] eqn:El.
      + inversion Hb; subst. exists [], (ents r). cbn. auto.
      + rewrite <- El in *. destruct (IHl k Hl e Hb) as (L & R & E1 & E2 & E3). exists L, (R ++ (p, x) :: ents r). cbn [ents]. rewrite fix_ents. cbn [ents]. rewrite E1, E2, <- !app_assoc. cbn [app]. split; auto. split; auto.
        intros F. rewrite pairs_T in F. apply Forall_app in F. apply E3. tauto.
    - destruct r as [|q lq la y lb] eqn:El.
      + inversion Hb; subst. cbn [lev] in H3. assert (l = E) by (apply aa_zero; auto; lia). subst l. exists [], []. auto.
      + rewrite <- El in *. destruct (IHr k Hr e Hb) as (L & R & E1 & E2 & E3). exists (ents l ++ (p, x) :: L), R. cbn [ents]. rewrite fix_ents. cbn [ents]. rewrite E1, E2, <- !app_assoc. cbn [app]. split; auto. split; auto.
        intros F. rewrite pairs_T in F. apply Forall_app in F. destruct F as [_ F]. inversion F; subst. apply Z.ltb_ge in Ec. lia.
  Qed.
  (** The candidate is the last pair not after the key, and the bottom is that
      pair or the one after it. *)
  Lemma cand_split : forall t k d, ord (pairs t) -> exists A B, ents t = A ++ B /\
    Forall (fun e => cmp (fst (snd e)) k >= 0) A /\ Forall (fun e => cmp (fst (snd e)) k < 0) B /\
    cand t k d = last (map fst A) d.
  Proof.
    induction t as [|p lv l IHl x r IHr]; intros k d H.
    - exists [], []. repeat split; constructor.
    - rewrite pairs_T in H. apply ord_app in H. destruct H as (Ol & Or & C & D). cbn [cand ents]. destruct (cmp (fst x) k <? 0) eqn:Ec.
      + apply Z.ltb_lt in Ec. destruct (IHl k d Ol) as (A & B & E1 & E2 & E3 & E4). exists A, (B ++ (p, x) :: ents r). rewrite E1, <- app_assoc. split; auto. split; auto. split; auto.
        apply Forall_app. split; auto. constructor; auto. apply Forall_map in D. eapply Forall_impl; [|exact D]. cbv beta. intros y Hy. apply cflip. apply cgt1 with (fst x); [apply cflip; auto|lia].
      + apply Z.ltb_ge in Ec. destruct (IHr k p Or) as (A & B & E1 & E2 & E3 & E4). exists (ents l ++ (p, x) :: A), B. rewrite E1, <- app_assoc. split; auto. split.
        * apply Forall_app. split; [|constructor; auto; cbn; lia]. apply Forall_map in C. eapply Forall_impl; [|exact C]. cbv beta. intros y Hy. apply Z.le_ge. apply Z.lt_le_incl, Z.gt_lt. apply cgt1 with (fst x); auto. lia.
        * split; auto. rewrite map_app. cbn [map fst]. rewrite E4. clear. generalize (map fst (ents l)). intros u. destruct A as [|a A]; cbn [map].
          -- cbn. rewrite last_last. auto.
          -- set (w := map fst A). assert (G : forall (m : list nat) a0 dd, last (m ++ p :: a0 :: w) dd = last (a0 :: w) p).
             { induction m as [|y m IHm]; intros a0 dd; cbn [app].
               - transitivity (last (a0 :: w) dd); [reflexivity|]. generalize a0. induction w as [|b w IHw]; intros c; [reflexivity|]. cbn [last] in *. apply (IHw b).
               - destruct m; cbn [app] in *; apply (IHm a0 dd). }
             symmetry. apply G.
  Qed.
  Lemma unlink_before : forall t k, aa t -> forall e, bottom t k = Some e -> ord (pairs t) -> cmp (fst (snd e)) k < 0 ->
    exists L R, ents t = L ++ e :: R /\ ents (unlink t k) = L ++ R /\ Forall (fun e => cmp (fst (snd e)) k >= 0) L.
  Proof.
    induction t as [|p lv l IHl x r IHr]; intros k H e Hb Ho Hc; [discriminate|]. cbn [aa] in H. destruct H as (H1 & Hl & Hr & H2 & H3 & H4). cbn [bottom unlink] in *. rewrite pairs_T in Ho. apply ord_app in Ho. destruct Ho as (Ol & Or & C & D).
    destruct (cmp (fst x) k <? 0) eqn:Ec.
    - destruct l as [|q lq la y lb] eqn:El.
      + inversion Hb; subst. exists [], (ents r). cbn. auto.
      + rewrite <- El in *. destruct (IHl k Hl e Hb Ol Hc) as (L & R & E1 & E2 & E3). exists L, (R ++ (p, x) :: ents r). cbn [ents]. rewrite fix_ents. cbn [ents]. rewrite E1, E2, <- !app_assoc. cbn [app]. auto.
    - apply Z.ltb_ge in Ec. destruct r as [|q lq la y lb] eqn:El.
      + inversion Hb; subst. cbn [snd] in Hc. lia.
      + rewrite <- El in *. destruct (IHr k Hr e Hb Or Hc) as (L & R & E1 & E2 & E3). exists (ents l ++ (p, x) :: L), R. cbn [ents]. rewrite fix_ents. cbn [ents]. rewrite E1, E2, <- !app_assoc. cbn [app]. split; auto. split; auto.
        apply Forall_app. split; [|constructor; auto; cbn; lia]. apply Forall_map in C. eapply Forall_impl; [|exact C]. cbv beta. intros y' Hy. apply Z.le_ge. apply Z.lt_le_incl, Z.gt_lt. apply cgt1 with (fst x); auto. lia.
  Qed.
  Lemma bottom_after : forall t k, aa t -> forall d e, bottom t k = Some e -> ord (pairs t) -> cmp (fst (snd e)) k >= 0 -> cand t k d = fst e.
  Proof.
    induction t as [|p lv l IHl x r IHr]; intros k H d e Hb Ho Hc; [discriminate|]. cbn [aa] in H. destruct H as (H1 & Hl & Hr & H2 & H3 & H4). cbn [bottom cand] in *. rewrite pairs_T in Ho. apply ord_app in Ho. destruct Ho as (Ol & Or & C & D).
    destruct (cmp (fst x) k <? 0) eqn:Ec.
    - destruct l as [|q lq la y lb] eqn:El.
      + inversion Hb; subst. cbn [snd] in Hc. apply Z.ltb_lt in Ec. lia.
      + rewrite <- El in *. apply IHl; auto.
    - destruct r as [|q lq la y lb] eqn:El.
      + inversion Hb; subst. auto.
      + rewrite <- El in *. apply IHr; auto.
  Qed.

  Lemma setkv_ents : forall e y t, ents (setkv e y t) = map (fun q => if (fst q =? e)%nat then (fst q, y) else q) (ents t).
  Proof. intros e y. induction t as [|p lv l IHl x r IHr]; auto. cbn [setkv ents]. rewrite IHl, IHr, map_app. cbn [map fst]. destruct (p =? e)%nat; auto. Qed.
  Definition addrs (t : tr) : list nat := map fst (ents t).
  Lemma map_off : forall e (y : K * V) (m : list (nat * (K * V))), ~ In e (map fst m) -> map (fun q => if (fst q =? e)%nat then (fst q, y) else q) m = m.
  Proof.
    intros e y. induction m as [|[a b] m IH]; intros H; auto. cbn [map fst] in *. rewrite IH by (intros G; apply H; right; auto).
    replace (a =? e)%nat with false; auto. symmetry. apply Nat.eqb_neq. intros ->. apply H. left. auto.
  Qed.
  Lemma without_keep : forall m k, Forall (fun e => cmp (fst e) k <> 0) m -> without K V cmp m k = m.
  Proof.
    unfold without. induction m as [|e m IH]; intros k H; auto. inversion H; subst. cbn [filter]. replace (cmp (fst e) k =? 0) with false by (symmetry; apply Z.eqb_neq; auto). cbn. rewrite IH; auto.
  Qed.
  Lemma prefix_unique : forall (P : nat * (K * V) -> Prop) A B L R, Forall P A -> Forall (fun e => ~ P e) B -> Forall P L -> Forall (fun e => ~ P e) R -> A ++ B = L ++ R -> A = L /\ B = R.
  Proof.
    induction A as [|a A IH]; intros B [|b L] R HA HB HL HR H; cbn in H; auto.
    - subst. inversion HB; inversion HL; subst. contradiction.
    - subst. inversion HR; inversion HA; subst. contradiction.
    - injection H as -> H. inversion HA; inversion HL; subst. assert (Q : A = L /\ B = R) by (apply IH; auto). destruct Q as [-> ->]. auto.
  Qed.
  (** Removal of the pair with key [k]. *)
  Definition found (t : tr) (k : K) : Prop := exists x, In (cand t k 1%nat, x) (ents t) /\ cmp (fst x) k = 0.
  Lemma remove_missing : forall t k, ord (pairs t) -> NoDup (addrs t) -> ~ In 1%nat (addrs t) -> ~ found t k -> without K V cmp (pairs t) k = pairs t.
  Proof.
    intros t k Ho Hn H1 Hf. apply without_keep. destruct (cand_split t k 1%nat Ho) as (A & B & E1 & E2 & E3 & E4). unfold found in Hf. unfold pairs in *.
    apply Forall_map. rewrite E1. apply Forall_app. split.
    - destruct (rev A) as [|[e x] A'] eqn:Er.
      { apply (f_equal (@rev _)) in Er. rewrite rev_involutive in Er. cbn in Er. subst A. constructor. }
      apply (f_equal (@rev _)) in Er. rewrite rev_involutive in Er. cbn in Er. rewrite Er in *. rewrite map_app in E4. cbn [map fst] in E4. rewrite last_last in E4.
      assert (Hx : cmp (fst x) k <> 0).
      { intros G. apply Hf. exists x. rewrite E4, E1. split; auto. apply in_or_app. left. apply in_or_app. right. left. auto. }
      rewrite E1, !map_app, <- app_assoc in Ho. cbn [map snd app] in Ho. apply ord_app in Ho. destruct Ho as (_ & _ & C & _). apply Forall_app in E2. destruct E2 as [_ E2]. inversion E2; subst. cbn [snd] in *.
      apply Forall_app. split; [|constructor; auto]. apply Forall_map in C. eapply Forall_impl; [|exact C]. cbv beta. intros y Hy. assert (cmp (fst (snd y)) k > 0); [|lia]. apply cgt1 with (fst x); auto.
    - eapply Forall_impl; [|exact E3]. cbv beta. intros y Hy. lia.
  Qed.
  Lemma remove_found : forall t k b y, aa t -> ord (pairs t) -> NoDup (addrs t) -> ~ In 1%nat (addrs t) -> found t k -> bottom t k = Some (b, y) ->
    pairs (setkv (cand t k 1%nat) y (unlink t k)) = without K V cmp (pairs t) k.
  Proof.
    intros t k b y Ha Ho Hn H1 (x & Hx & Hc) Hb. destruct (cand_split t k 1%nat Ho) as (A & B & E1 & E2 & E3 & E4).
    destruct (rev A) as [|[e x'] A'] eqn:Er.
    { apply (f_equal (@rev _)) in Er. rewrite rev_involutive in Er. cbn in Er. subst A. cbn in E4. exfalso. apply H1. unfold addrs. rewrite <- E4. apply in_map_iff. exists (cand t k 1%nat, x). auto. }
    apply (f_equal (@rev _)) in Er. rewrite rev_involutive in Er. cbn in Er. rewrite Er in *. clear Er A. revert E1 E2 E4. generalize (rev A'). clear A'. intros A E1 E2 E4. rewrite map_app in E4. cbn [map fst] in E4. rewrite last_last in E4. rewrite E4 in *. 
    assert (x' = x).
    { unfold addrs in Hn. rewrite E1 in Hx, Hn. assert (In (e, x') ((A ++ [(e, x')]) ++ B)) by (apply in_or_app; left; apply in_or_app; right; left; auto).
      revert Hn Hx H. generalize ((A ++ [(e, x')]) ++ B). clear. induction l as [|[q w] l IH]; intros Hn Hx H; [destruct Hx|]. cbn [map fst] in Hn. inversion Hn; subst. destruct Hx as [Hx|Hx], H as [H|H]; try congruence; auto.
      - exfalso. apply H2. replace q with e by congruence. apply in_map_iff. exists (e, x'). auto.
      - exfalso. apply H2. replace q with e by congruence. apply in_map_iff. exists (e, x). auto. }
    subst x'.
    assert (W : without K V cmp (pairs t) k = map snd (A ++ B)).
    { unfold pairs in *. rewrite E1 in *. rewrite <- app_assoc, !map_app in *. cbn [map snd app] in *. apply ord_app in Ho. destruct Ho as (_ & _ & C & _). unfold without. rewrite filter_app. cbn [filter]. rewrite Hc. cbn.
      f_equal; apply without_keep.
      - eapply Forall_impl; [|exact C]. cbv beta. intros z Hz. assert (cmp (fst z) k > 0); [|lia]. apply cgt1 with (fst x); auto. lia.
      - apply Forall_map. eapply Forall_impl; [|exact E3]. cbv beta. intros z Hz. lia. }
    rewrite W. clear W. unfold pairs. rewrite setkv_ents. destruct (Z_lt_ge_dec (cmp (fst y) k) 0) as [G|G].
    - destruct (unlink_before t k Ha (b, y) Hb Ho G) as (L & R & F1 & F2 & F3).
      assert (F4 : A ++ [(e, x)] = L /\ B = (b, y) :: R).
      { assert (FR : Forall (fun q => ~ cmp (fst (snd q)) k >= 0) ((b, y) :: R)).
        { assert (Q : Forall (fun q => cmp (fst y) (fst (snd q)) > 0) R). { unfold pairs in Ho. rewrite F1, map_app in Ho. cbn [map snd] in Ho. apply ord_app in Ho. destruct Ho as (_ & _ & _ & D). apply Forall_map in D. exact D. }
          constructor; [cbn; lia|]. eapply Forall_impl; [|exact Q]. cbv beta. intros q Hq. assert (cmp (fst (snd q)) k < 0); [|lia]. apply cflip. apply cgt1 with (fst y); [apply cflip; auto|lia]. }
        apply prefix_unique with (P := fun q => cmp (fst (snd q)) k >= 0); auto.
        - eapply Forall_impl; [|exact E3]. cbv beta. intros; lia.
        - rewrite <- E1. exact F1. }
      destruct F4 as [<- ->]. rewrite F2. rewrite <- app_assoc, map_app. cbn [map app fst]. rewrite Nat.eqb_refl.
      unfold addrs in Hn. rewrite E1, <- app_assoc, map_app in Hn. cbn [app map fst] in Hn.
      assert (N1 : ~ In e (map fst A ++ (map fst ((b, y) :: R)))) by (apply NoDup_remove_2; auto).
      rewrite !map_off. 
      + rewrite !map_app. cbn. auto.
      + intros Q. apply N1. apply in_or_app. right. right. auto.
      + intros Q. apply N1. apply in_or_app. left. auto.
    - pose proof (bottom_after t k Ha 1%nat (b, y) Hb Ho G) as Hcb. cbn [fst] in Hcb. rewrite E4 in Hcb. subst b.
      destruct (unlink_ents t k Ha (e, y) Hb) as (L & R & F1 & F2 & _). rewrite F2. 
      unfold addrs in Hn. assert (F4 : L = A /\ R = B).
      { rewrite E1, <- app_assoc in F1. cbn [app] in F1. rewrite E1, <- app_assoc in Hn. cbn [app] in Hn. revert Hn F1. clear. revert L. induction A as [|a A IH]; intros [|c L] Hn F; cbn in F.
        - injection F as _ ->. auto.
        - injection F as <- F. cbn in Hn. inversion Hn; subst. exfalso. apply H1. rewrite map_app. apply in_or_app. right. left. auto.
        - injection F as -> F. cbn in Hn. inversion Hn; subst. exfalso. apply H1. rewrite map_app. apply in_or_app. right. left. auto.
        - injection F as -> F. cbn in Hn. inversion Hn; subst. destruct (IH L H2 F) as [-> ->]. auto. }
      destruct F4 as [-> ->]. rewrite map_off; auto. rewrite E1, <- app_assoc, map_app in Hn. cbn [app map fst] in Hn. rewrite map_app. apply NoDup_remove_2; auto.
  Qed.
  Lemma without_ordered : forall m k, ord m -> ord (without K V cmp m k).
  Proof.
    unfold ordered, without. induction m as [|x m IH]; intros k H; cbn [filter]; auto. inversion H; subst. destruct (negb _); auto. constructor; auto.
    apply Forall_forall. intros y Hy. apply filter_In in Hy. rewrite Forall_forall in H3. apply H3. tauto.
  Qed.

  (** Addresses. *)
  Lemma insert_ents : forall a t k v pol, map fst (ents (insert_f a t k v pol)) = addrs t \/ exists L R, addrs t = L ++ R /\ map fst (ents (insert_f a t k v pol)) = L ++ a :: R.
  Proof.
    intros a t k v pol. assert (Q : forall t, ents (split_f (skew_f t)) = ents t) by (intros u; rewrite split_ents, skew_ents; auto).
    unfold addrs. induction t as [|p lv l IHl x r IHr].
    - cbn. destruct pol; auto; right; exists [], []; auto.
    - cbn [insert_f]. destruct (cmp (fst x) k <? 0); [|destruct (0 <? cmp (fst x) k)].
      + rewrite Q. cbn [ents]. rewrite !map_app. cbn [map fst]. destruct IHl as [->|(L & R & -> & ->)]; auto. right. exists L, (R ++ p :: map fst (ents r)). rewrite <- !app_assoc. auto.
      + rewrite Q. cbn [ents]. rewrite !map_app. cbn [map fst]. destruct IHr as [->|(L & R & -> & ->)]; auto. right. exists (map fst (ents l) ++ p :: L), R. rewrite <- !app_assoc. auto.
      + destruct pol; cbn [ents]; rewrite ?map_app; auto.
  Qed.

  (** Heights. *)
  Lemma aa_height : forall t, aa t -> Z.of_nat (height t) <= 2 * lev t /\ (t <> E -> lev (rt t) < lev t -> Z.of_nat (height t) <= 2 * lev t - 1).
  Proof.
    induction t as [|p lv l IHl x r IHr]; intros H; [cbn; split; [lia|congruence]|]. cbn [aa] in H. destruct H as (H1 & Hl & Hr & H2 & H3 & H4). destruct (IHl Hl) as [A _], (IHr Hr) as [B C]. cbn [height lev rt].
    destruct r as [|s ls b z c]; [cbn [lev height] in *; lia|]. specialize (C ltac:(discriminate)). cbn [lev rt] in *. lia.
  Qed.
  Lemma aa_size : forall t, aa t -> 2 ^ lev t <= Z.of_nat (size t) + 1.
  Proof.
    induction t as [|p lv l IHl x r IHr]; intros H; [cbn; lia|]. cbn [aa] in H. destruct H as (H1 & Hl & Hr & H2 & H3 & H4). specialize (IHl Hl). specialize (IHr Hr). cbn [size lev].
    assert (2 ^ (lv - 1) <= 2 ^ lev r) by (apply Z.pow_le_mono_r; lia). rewrite H2 in IHl. replace lv with (Z.succ (lv - 1)) at 1 by lia. rewrite Z.pow_succ_r by lia. lia.
  Qed.
  Lemma aa_log : forall t, aa t -> Z.of_nat (height t) <= 2 * Z.log2 (Z.of_nat (size t) + 1).
  Proof.
    intros t H. pose proof (aa_height t H) as [A _]. pose proof (aa_size t H) as B. pose proof (aa_lev t H). apply Z.log2_le_mono in B. rewrite Z.log2_pow2 in B by lia. lia.
  Qed.
  Lemma height_size : forall t, (height t <= size t)%nat.
  Proof. induction t as [|p lv l IHl x r IHr]; cbn; lia. Qed.
End Fun.
