(** Proofs about the references graphs hold: no two vertices share a list of edges. *)
Require Import Coq.Lists.List Coq.Bool.Bool Coq.Arith.Arith Coq.micromega.Lia.
Require Import Verif.Base Verif.Own_Model Verif.Own_Spec Verif.Own_Proofs Verif.Own_Calls Verif.Own_Ends Verif.Own_May Verif.Parsed_Model Verif.Parsed_Proofs Verif.Parsed_Steps Verif.Parsed_Shape Verif.Parsed_Ends Verif.Elem_Proofs Verif.Arcs_Model Verif.Arcs_Spec Verif.Arcs_Proofs Verif.Arcs_Steps Verif.Arcs_Ends.
Require Verif.HashTable_Model.
Import ListNotations.

Definition U (s : state) : Prop :=
  (forall d es, has s d (Hash es) -> NoDup (map snd es)) /\
  (forall d1 d2 es1 es2 v, d1 <> d2 -> has s d1 (Hash es1) -> has s d2 (Hash es2) -> In v (map snd es1) -> In v (map snd es2) -> False).
Definition back (d : nat) (s s' : state) : Prop := forall y es, y <> d -> has s' y (Hash es) -> has s y (Hash es).
Lemma U_all s s' : U s -> (forall y es, has s' y (Hash es) -> has s y (Hash es)) -> U s'.
Proof. intros (A & B) H. split; [intros d es Q; exact (A d es (H _ _ Q))|]. intros d1 d2 es1 es2 v D Q1 Q2. exact (B d1 d2 es1 es2 v D (H _ _ Q1) (H _ _ Q2)). Qed.
Lemma U_table s s' d es es' : U s -> back d s s' -> has s d (Hash es) -> has s' d (Hash es') -> NoDup (map snd es') ->
  (forall v, In v (map snd es') -> In v (map snd es) \/ forall y e0, has s y (Hash e0) -> In v (map snd e0) -> False) -> U s'.
Proof.
  intros (A & B) K H H' ND V. split.
  - intros y e0 Q. destruct (Nat.eq_dec y d) as [->|D]; [pose proof (has_fun' _ _ _ _ Q H') as X; injection X as ->; exact ND|exact (A y e0 (K y e0 D Q))].
  - intros d1 d2 es1 es2 v D Q1 Q2 I1 I2. destruct (Nat.eq_dec d1 d) as [->|D1].
    + pose proof (has_fun' _ _ _ _ Q1 H') as X. injection X as ->. assert (D2: d2 <> d) by congruence. destruct (V v I1) as [Iv|Iv]; [exact (B d d2 es es2 v D H (K _ _ D2 Q2) Iv I2)|exact (Iv d2 es2 (K _ _ D2 Q2) I2)].
    + destruct (Nat.eq_dec d2 d) as [->|D2]; [|exact (B d1 d2 es1 es2 v D (K _ _ D1 Q1) (K _ _ D2 Q2) I1 I2)].
      pose proof (has_fun' _ _ _ _ Q2 H') as X. injection X as ->. destruct (V v I2) as [Iv|Iv]; [exact (B d1 d es1 es v D (K _ _ D1 Q1) H I1 Iv)|exact (Iv d1 es1 (K _ _ D1 Q1) I1)].
Qed.
Lemma every_back s s' : Parsed_Shape.keeps every s s' -> forall y es, has s' y (Hash es) -> has s y (Hash es).
Proof. intros K y es. exact (keeps_has _ _ _ _ _ K Logic.I). Qed.
Lemma list_back s s' l rs : Parsed_Shape.keeps (other l) s s' -> (forall c, has s' l c -> c = Arr rs) -> forall y es, has s' y (Hash es) -> has s y (Hash es).
Proof. intros K C y es H. apply (keeps_has _ _ _ _ _ K); [|exact H]. intros ->. discriminate (C _ H). Qed.
Lemma nodup_end {A} (x : A) l : NoDup l -> ~ In x l -> NoDup (l ++ [x]).
Proof. intros N0 I. rewrite <- (rev_involutive (l ++ [x])). apply NoDup_rev. rewrite rev_app_distr. cbn [rev app]. constructor; [rewrite <- in_rev; exact I|apply NoDup_rev, N0]. Qed.
Section Graph.
  Variable keq : nat -> nat -> bool.
  Local Notation W := (Arcs_Proofs.W keq).
  Lemma edge_back s l rs from to s' : W s -> has s l (Arr rs) -> live s from -> live s to -> (forall e x, In (Some e) rs -> has s e (Pair x (Some to)) -> False) -> new_edge s l from to = Ok s' -> forall y es, has s' y (Hash es) -> has s y (Hash es).
  Proof.
    intros Ws Hl Lf Lt No E y es H. destruct (new_edge_ok s l rs from to Ws Hl Lf Lt No) as (s0 & E0 & _ & _ & _ & B & _). rewrite E in E0. injection E0 as <-. assert (D: y <> l) by (intros ->; pose proof (has_fun' _ _ _ _ H B); discriminate).
    unfold new_edge in E. apply bind_ok in E. destruct E as (s1 & E1 & E). apply bind_ok in E. destruct E as (s2 & E2 & E). cbv zeta in E. apply bind_ok in E. destruct E as (s3 & E3 & E4).
    destruct (has_make s2 (Pair (Some from) (Some to)) l _ (retain_fwd _ _ _ E2 _ _ (retain_fwd _ _ _ E1 _ _ Hl))) as (n & Q). pose proof (keeps_has _ _ _ _ _ (proj1 (append_cells _ _ _ _ _ _ Q E3)) D (keeps_has _ _ _ _ _ (give_keeps _ _ _ E4) Logic.I H)) as H2.
    destruct (make_has keq _ _ _ _ H2) as [H3|(_ & X)]; [|discriminate]. exact (keeps_has _ _ _ _ _ (retain_keeps _ _ _ E1) Logic.I (keeps_has _ _ _ _ _ (retain_keeps _ _ _ E2) Logic.I H3)).
  Qed.
  Lemma table_back s d es from s' l : W s -> In d (hands s) -> has s d (Hash es) -> find_key keq es from = None -> live s from -> new_list keq s d from = Ok (s', l) -> back d s s'.
  Proof.
    intros Ws Hd Hes Fk Lf E y es0 D H. unfold new_list in E. cbv zeta in E. apply bind_ok in E. destruct E as (s1 & E1 & E). apply bind_ok in E. destruct E as (s2 & E2 & E). injection E as <- _.
    destruct (has_make s (Arr []) d _ Hes) as (n & Q). assert (K: Parsed_Shape.keeps (other d) (make s (Arr [])) s1).
    { unfold put, body_of in E1. rewrite Q in E1. cbn [obind] in E1. unfold hash_put in E1. apply bind_ok in E1. destruct E1 as (t1 & R1 & E1). rewrite Fk in E1. apply bind_ok in E1. destruct E1 as (t2 & R2 & E1). apply bind_ok in R2. destruct R2 as (t3 & R3 & R2). apply bind_ok in R2. destruct R2 as (t4 & R4 & R5).
      apply (Parsed_Shape.keeps_trans _ _ t1); [exact (other_every _ _ _ (retain_keeps _ _ _ R1))|]. apply (Parsed_Shape.keeps_trans _ _ t3); [exact (other_every _ _ _ (retain_keeps _ _ _ R3))|]. apply (Parsed_Shape.keeps_trans _ _ t4); [exact (other_every _ _ _ (retain_keeps _ _ _ R4))|]. apply (Parsed_Shape.keeps_trans _ _ t2); [exact (proj1 (body_keeps _ _ _ _ R5))|exact (other_every _ _ _ (release_keeps _ _ _ E1))]. }
    destruct (make_has keq _ _ _ _ (keeps_has _ _ _ _ _ K D (keeps_has _ _ _ _ _ (give_keeps _ _ _ E2) Logic.I H))) as [H3|(_ & X)]; [exact H3|discriminate].
  Qed.
  Lemma value_list s y es v : W s -> has s y (Hash es) -> In v (map snd es) -> exists l rs, v = Some l /\ has s l (Arr rs).
  Proof. intros (_ & Ts) H I. destruct (Ts y _ H) as (F & _). rewrite Forall_forall in F. apply in_map_iff in I. destruct I as (e & <- & I). exact (F e I). Qed.
  Lemma add_U s d es from to s' : W s -> U s -> In d (hands s) -> has s d (Hash es) -> live s from -> live s to -> add_one keq s d from to = Ok s' -> U s'.
  Proof.
    intros Ws Us Hd Hes Lf Lt E. unfold add_one in E. destruct (edges_ok keq s d es from Ws Hes Lf) as [(Fk & Ed)|(k & l & rs & Fk & Ed & Hl & Ty)]; rewrite Ed in E; cbn [obind] in E.
    - destruct (new_list_ok keq s d es from Ws Hd Hes Fk Lf) as (s1 & E1 & W1 & H1 & F1 & B1 & A1). rewrite E1 in E. cbn [obind fst snd] in E. pose proof (table_grown _ _ _ _ _ Hes F1 B1) as G1.
      apply (U_all s1 s'); [|exact (edge_back s1 (next s) [] from to s' W1 A1 (grown_live _ _ _ G1 Lf) (grown_live _ _ _ G1 Lt) (fun _ _ (H : In _ []) _ => H) E)].
      assert (New: forall y e0, has s y (Hash e0) -> In (Some (next s)) (map snd e0) -> False). { intros y e0 H I. destruct (value_list s y e0 _ Ws H I) as (l & rs & X & Hl). injection X as <-. pose proof (has_below _ _ _ Hl). lia. }
      apply (U_table s s1 d es (es ++ [(from, Some (next s))]) Us (table_back s d es from s1 _ Ws Hd Hes Fk Lf E1) Hes B1).
      + rewrite map_app. cbn [map snd]. apply nodup_end; [exact (proj1 Us d es Hes)|exact (New d es Hes)].
      + intros v I. rewrite map_app in I. apply in_app_or in I. destruct I as [I|[<-|[]]]; [left; exact I|right; exact New].
    - rewrite (list_ok s l rs) in E by (exists (Arr rs); split; [left; reflexivity|exact Hl]). cbn [obind] in E. destruct (find_ok keq s to rs 0 Ty) as (f & Ef & Bf). rewrite Ef in E. cbn [obind] in E. destruct f as [(j, e)|]; [injection E as <-; exact Us|]. cbn [obind fst snd] in E.
      apply (U_all s s' Us). exact (edge_back s l rs from to s' Ws Hl Lf Lt Bf E).
  Qed.
  Lemma set_release s d es es' xs s' : has s d (Hash es) -> (do s1 <- set_body s d (Hash es'); release s1 xs) = Ok s' -> Parsed_Shape.keeps (other d) s s'.
  Proof. intros H E. apply bind_ok in E. destruct E as (s1 & E1 & E2). apply (Parsed_Shape.keeps_trans _ s s1 s'); [exact (proj1 (body_keeps _ _ _ _ E1))|exact (other_every _ _ _ (release_keeps _ _ _ E2))]. Qed.
  Lemma other_back s s' d : Parsed_Shape.keeps (other d) s s' -> back d s s'.
  Proof. intros K y es D. exact (keeps_has _ _ _ _ _ K D). Qed.
  Lemma remove_nodup es k : NoDup (map snd es) -> NoDup (map snd (remove_key keq es k)).
  Proof. induction es as [|e es IH]; intros N0; [constructor|]. inversion N0 as [|? ? A B]; subst. cbn [remove_key]. destruct (keq (fst e) k); [exact B|]. cbn [map]. constructor; [|exact (IH B)]. intros I. apply A. apply in_map_iff in I. destruct I as (e' & <- & I). apply in_map. exact (remove_keys keq es k e' I). Qed.
  (** What removing an edge does: nothing, or it removes the entry with the list, or it cuts the list. *)
  Lemma remove_ways s d es from to s' : W s -> In d (hands s) -> has s d (Hash es) -> live s from -> remove_one keq s d from to = Ok s' ->
    s' = s \/ (W s' /\ hands s' = hands s /\ has s' d (Hash (remove_key keq es from)) /\ Parsed_Shape.keeps (other d) s s' /\ exists k l e x, find_key keq es from = Some (k, Some l) /\ has s l (Arr [Some e]) /\ has s e (Pair x (Some to))) \/
    exists k l rs j e x, find_key keq es from = Some (k, Some l) /\ has s l (Arr rs) /\ nth_error rs j = Some (Some e) /\ has s e (Pair x (Some to)) /\ W s' /\ hands s' = hands s /\ (forall c, has s' l c -> c = Arr (firstn j rs ++ skipn (j + 1) rs)) /\ Parsed_Shape.keeps (other l) s s'.
  Proof.
    intros Ws Hd Hes Lf E. unfold remove_one in E. destruct (edges_ok keq s d es from Ws Hes Lf) as [(Fk & Ed)|(k & l & rs & Fk & Ed & Hl & Ty)]; rewrite Ed in E; cbn [obind] in E; [injection E as <-; left; reflexivity|].
    rewrite (list_ok s l rs) in E by (exists (Arr rs); split; [left; reflexivity|exact Hl]). cbn [obind] in E. destruct (find_ok keq s to rs 0 Ty) as (f & Ef & Bf). rewrite Ef in E. cbn [obind] in E. destruct f as [(j, e)|]; [|injection E as <-; left; reflexivity].
    right. destruct Bf as (Bj & Nj & (x & He)). rewrite Nat.sub_0_r in Nj. destruct (Nat.eqb_spec (length rs) 1) as [L1|_]; [left|right].
    - unfold remove in E. rewrite (body_ok _ _ _ Hes) in E. cbn [obind] in E. destruct (live_has _ _ Lf) as (c & Hc). rewrite (body_ok _ _ _ Hc) in E. cbn [obind] in E. rewrite Fk in E.
      destruct (cut_keys keq s d es (remove_key keq es from) (k :: somes [Some l]) Ws Hd Hes) as (s1 & E1 & W1 & H1 & B1); [apply remove_keys|apply remove_ord|intros y; exact (cnt_remove keq es from k (Some l) y Fk)|]. pose proof (eq_trans (eq_sym E1) E) as X. injection X as <-. split; [exact W1|]. split; [exact H1|]. split; [exact B1|]. split; [exact (set_release _ _ _ _ _ _ Hes E1)|]. exists k, l, e, x. split; [exact Fk|]. split; [|exact He]. destruct rs as [|r0 [|r1 rs]]; try discriminate. destruct j as [|j]; [|destruct j; discriminate]. injection Nj as ->. exact Hl.
    - destruct (cut_list keq s l rs j Ws Hl) as (s1 & E1 & W1 & H1 & C1 & K1); [lia|]. rewrite E1 in E. injection E as <-. exists k, l, rs, j, e, x. auto 15.
  Qed.
  Lemma remove_U s d es from to s' : W s -> U s -> In d (hands s) -> has s d (Hash es) -> live s from -> remove_one keq s d from to = Ok s' -> U s'.
  Proof.
    intros Ws Us Hd Hes Lf E. destruct (remove_ways s d es from to s' Ws Hd Hes Lf E) as [->|[(W1 & H1 & B1 & K1 & _)|(k & l & rs & j & e & x & Fk & Hl & _ & _ & W1 & H1 & C1 & K1)]]; [exact Us| |exact (U_all s s' Us (list_back _ _ _ _ K1 C1))].
    apply (U_table s s' d es _ Us (other_back _ _ _ K1) Hes B1); [exact (remove_nodup es from (proj1 Us d es Hes))|]. intros v I. left. apply in_map_iff in I. destruct I as (e' & <- & I). apply in_map. exact (remove_keys keq es from e' I).
  Qed.
  Lemma gstep_U s o s' : W s -> U s -> also_held s o -> gstep keq s o = Ok s' -> U s'.
  Proof.
    intros Ws Us (A & B) E. pose proof Ws as (I & Ts). destruct o as [| |x|x|d a b both|d a b both|d]; cbn [gstep exists_only] in *.
    - injection E as <-. apply (U_all s _ Us). intros y es H. destruct (make_has keq s Leaf _ _ H) as [H'|(_ & X)]; [exact H'|discriminate].
    - injection E as <-. pose proof (has_make s (Hash [])) as Fw. destruct Us as (U1 & U2). split.
      + intros y es H. destruct (make_has keq s (Hash []) _ _ H) as [H'|(_ & X)]; [exact (U1 _ _ H')|injection X as ->; constructor].
      + intros d1 d2 es1 es2 v D Q1 Q2 I1 I2. destruct (make_has keq s (Hash []) _ _ Q1) as [H1|(_ & X)]; [|injection X as ->; destruct I1]. destruct (make_has keq s (Hash []) _ _ Q2) as [H2|(_ & X)]; [|injection X as ->; destruct I2]. exact (U2 d1 d2 es1 es2 v D H1 H2 I1 I2).
    - cbn [step] in E. apply bind_ok in E. destruct E as (s1 & E1 & E). injection E as <-. apply (U_all s _ Us). exact (every_back s s1 (retain_keeps _ _ _ E1)).
    - apply (U_all s _ Us). exact (every_back s s' (give_keeps s (Some x) s' E)).
    - destruct A as (Hd & (n & es & Q) & La & Lb). destruct (add_one_ok keq s d es a b Ws Hd (ex_intro _ n Q) La Lb) as (s1 & E1 & W1 & H1 & L1 & (es1 & Hes1)). pose proof (add_U s d es a b s1 Ws Us Hd (ex_intro _ n Q) La Lb E1) as U1. rewrite E1 in E. cbn [obind] in E. destruct both; [|injection E as <-; exact U1].
      apply (add_U s1 d es1 b a s' W1 U1); [rewrite H1; exact Hd|exact Hes1|exact (L1 _ Lb)|exact (L1 _ La)|exact E].
    - destruct A as (Hd & (n & es & Q) & La & Lb). destruct (remove_one_ok keq s d es a b Ws Hd (ex_intro _ n Q) La) as (s1 & E1 & W1 & H1 & (es1 & Hes1)). pose proof (remove_U s d es a b s1 Ws Us Hd (ex_intro _ n Q) La E1) as U1. rewrite E1 in E. cbn [obind] in E. destruct both; [|injection E as <-; exact U1].
      apply (remove_U s1 d es1 b a s' W1 U1); [rewrite H1; exact Hd|exact Hes1| |exact E]. destruct (inv_owned s1 [] b (proj1 W1)) as (c & Hc); [rewrite H1; exact B|]. exact (has_live _ _ _ Hc).
    - destruct A as (Hd & (n & es & Q)). unfold remove_all in E. rewrite (body_ok s d (Hash es)) in E by (exists n; exact Q). cbn [obind] in E. destruct (cut_keys keq s d es [] (of_entries es) Ws Hd (ex_intro _ n Q)) as (s1 & E1 & W1 & H1 & B1); [intros e []|intros _; constructor|intros x; reflexivity|]. pose proof (eq_trans (eq_sym E1) E) as X. injection X as <-.
      apply (U_table s s1 d es [] Us (other_back _ _ _ (set_release _ _ _ _ _ _ (ex_intro _ n Q) E1)) (ex_intro _ n Q) B1); [constructor|intros v []].
  Qed.
  Lemma grun_U : forall os s, W s -> U s -> follows also_held keq s os -> exists s', grun keq s os = Ok s' /\ W s' /\ U s'.
  Proof. induction os as [|o os IH]; intros s Ws Us F; [exists s; auto|]. destruct F as (A & F). destruct (gstep_ok keq s o Ws A) as (s1 & E & W1). cbn [grun]. rewrite E. cbn [obind]. exact (IH s1 W1 (gstep_U s o s1 Ws Us A E) (F s1 E)). Qed.
  Lemma start_U : U init.
  Proof. split; [intros d es (n & Q); destruct d; discriminate|intros d1 d2 es1 es2 v _ (n & Q); destruct d1; discriminate]. Qed.
  Lemma stay s s' z d es a b k l rs i e x : W s' -> Parsed_Shape.keeps (other z) s s' -> has s' d (Hash es) -> live s' a -> find_key keq es a = Some (k, Some l) -> has s l (Arr rs) -> l <> z -> e <> z -> nth_error rs i = Some (Some e) -> has s e (Pair x (Some b)) ->
    exists i' e', get_edge keq s' d a b = Ok (Some (i', e')).
  Proof.
    intros W1 K H La Fk Hl Dl De Ni He. destruct (edges_ok keq s' d es a W1 H La) as [(Fk1 & _)|(k1 & l1 & rs1 & Fk1 & Ed1 & Hl1 & Ty1)]; rewrite Fk in Fk1; [discriminate|]. injection Fk1 as <- <-. pose proof (has_fun' _ _ _ _ (keeps_has _ _ _ _ _ K Dl Hl1) Hl) as X. injection X as ->.
    destruct (member_lives keq s' [] l _ e (proj1 W1) Hl1 (in_somes _ _ (nth_error_In _ _ Ni))) as (c & Hc). pose proof (has_fun' _ _ _ _ (keeps_has _ _ _ _ _ K De Hc) He) as X. subst c.
    unfold get_edge. rewrite Ed1. cbn [obind]. rewrite (list_ok s' l _) by (eexists; split; [left; reflexivity|exact Hl1]). cbn [obind]. destruct (find_ok keq s' b _ 0 Ty1) as (f1 & Ef1 & Bf1). rewrite Ef1. destruct f1 as [(j1, e1)|]; [eauto|exfalso]. exact (Bf1 e x (nth_error_In _ _ Ni) Hc).
  Qed.
  Lemma find_in es k k' (v : Own_Model.ref) : find_key keq es k = Some (k', v) -> In (k', v) es /\ keq k' k = true.
  Proof. induction es as [|e es IH]; cbn [find_key]; [discriminate|]. destruct (keq (fst e) k) eqn:Ek; intros E; [injection E as ->; split; [left; reflexivity|exact Ek]|]. destruct (IH E) as (A & B). split; [right; exact A|exact B]. Qed.
  Lemma nodup_snd (es : list (nat * Own_Model.ref)) k k' v : NoDup (map snd es) -> In (k, v) es -> In (k', v) es -> k = k'.
  Proof.
    induction es as [|e es IH]; intros N0 A B; [destruct A|]. inversion N0 as [|? ? C D]; subst. destruct A as [->|A], B as [B|B]; [congruence| | |exact (IH D A B)]; exfalso; apply C; [apply (in_map snd _ _ B)|subst e; apply (in_map snd _ _ A)].
  Qed.
  Lemma find_other es a from : (forall x, keq x a = true -> keq x from = true -> False) -> find_key keq (remove_key keq es from) a = find_key keq es a.
  Proof.
    intros D. induction es as [|e es IH]; [reflexivity|]. cbn [remove_key find_key]. destruct (keq (fst e) from) eqn:Ef; [destruct (keq (fst e) a) eqn:Ea; [destruct (D _ Ea Ef)|reflexivity]|]. cbn [find_key]. destruct (keq (fst e) a); [reflexivity|exact IH].
  Qed.
  Lemma has_stays s s' z d es : W s' -> hands s' = hands s -> In d (hands s) -> has s d (Hash es) -> d <> z -> Parsed_Shape.keeps (other z) s s' -> has s' d (Hash es).
  Proof. intros W1 H1 Hd H D K. destruct (inv_owned s' [] d (proj1 W1)) as (b & B); [rewrite H1; exact Hd|]. pose proof (has_fun' _ _ _ _ (keeps_has _ _ _ _ _ K D B) H) as X. subst b. exact B. Qed.
  (** Removing all edges of a graph. *)
  Lemma cleared_after os s d s' : follows also_held keq init os -> grun keq init os = Ok s -> exists_only s (RemoveAll d) -> gstep keq s (RemoveAll d) = Ok s' ->
    (forall a b, live s' a -> get_edge keq s' d a b = Ok None) /\
    forall d' a b i e, In d' (hands s) -> is_graph s d' -> d' <> d -> live s a -> live s' a -> get_edge keq s d' a b = Ok (Some (i, e)) -> exists i' e', get_edge keq s' d' a b = Ok (Some (i', e')).
  Proof.
    intros F E (Hd & (n & es & Q)) G. destruct (grun_ok keq os init (start keq) F) as (s0 & E' & Ws). rewrite E in E'. injection E' as <-. cbn [gstep] in G. unfold remove_all in G. assert (Hes: has s d (Hash es)) by (exists n; exact Q). rewrite (body_ok s d (Hash es) Hes) in G. cbn [obind] in G.
    destruct (cut_keys keq s d es [] (of_entries es) Ws Hd Hes) as (s1 & E1 & W1 & H1 & B1); [intros e []|intros _; constructor|intros x; reflexivity|]. pose proof (eq_trans (eq_sym E1) G) as X. injection X as <-. pose proof (set_release _ _ _ _ _ _ Hes E1) as K1. split.
    - intros a b La. unfold get_edge, edges_of. rewrite (body_ok _ _ _ B1). cbn [obind]. destruct (live_has _ _ La) as (c & Hc). rewrite (body_ok _ _ _ Hc). reflexivity.
    - intros d' a b i e Hd' (n' & es' & Q') D La La' Ge. assert (Hes': has s d' (Hash es')) by (exists n'; exact Q'). destruct (get_found keq s d' es' a b i e Ws Hes' La Ge) as (k & l & rs & x & Fk & Ed & Hl & Ni & He).
      apply (stay s s1 d d' es' a b k l rs i e x W1 K1 (has_stays s s1 d d' es' W1 H1 Hd' Hes' D K1) La' Fk Hl); [intros ->; pose proof (has_fun' _ _ _ _ Hl Hes); discriminate|intros ->; pose proof (has_fun' _ _ _ _ He Hes); discriminate|exact Ni|exact He].
  Qed.
  Hypothesis Sym : forall x y, keq x y = true -> keq y x = true.
  Hypothesis Trans : forall x y z, keq x y = true -> keq y z = true -> keq x z = true.
  Lemma find_equal (es : list (nat * Own_Model.ref)) a from : keq a from = true -> find_key keq es a = find_key keq es from.
  Proof.
    intros E. induction es as [|e es IH]; [reflexivity|]. cbn [find_key]. destruct (keq (fst e) a) eqn:A, (keq (fst e) from) eqn:B; [reflexivity| | |exact IH]; [rewrite (Trans _ _ _ A E) in B|rewrite (Trans _ _ _ B (Sym _ _ E)) in A]; discriminate.
  Qed.
  Lemma frame s d es from to s' d' es' a b i e : W s -> U s -> In d (hands s) -> has s d (Hash es) -> live s from -> remove_one keq s d from to = Ok s' ->
    In d' (hands s) -> has s d' (Hash es') -> live s a -> live s' a -> d' <> d \/ keq a from = false \/ b <> to -> get_edge keq s d' a b = Ok (Some (i, e)) -> exists i' e', get_edge keq s' d' a b = Ok (Some (i', e')).
  Proof.
    intros Ws Us Hd Hes Lf E Hd' Hes' La La' C G. destruct (remove_ways s d es from to s' Ws Hd Hes Lf E) as [->|[(W1 & H1 & B1 & K1 & k0 & l0 & e0 & x0 & Fk0 & Hl0 & He0)|(k0 & l0 & rs0 & j & e0 & x0 & Fk0 & Hl0 & Nj & He0 & W1 & H1 & C1 & K1)]]; [eauto| |];
      destruct (get_found keq s d' es' a b i e Ws Hes' La G) as (k & l & rs & x & Fk & Ed & Hl & Ni & He).
    - assert (Dl: l <> d) by (intros ->; pose proof (has_fun' _ _ _ _ Hl Hes); discriminate). assert (De: e <> d) by (intros ->; pose proof (has_fun' _ _ _ _ He Hes); discriminate). destruct (Nat.eq_dec d' d) as [->|D].
      + pose proof (has_fun' _ _ _ _ Hes Hes') as X. injection X as <-. destruct (keq a from) eqn:Eq.
        * exfalso. rewrite (find_equal es a from Eq), Fk0 in Fk. injection Fk as <- <-. pose proof (has_fun' _ _ _ _ Hl0 Hl) as X. injection X as <-. destruct i as [|i]; [|destruct i; discriminate]. injection Ni as <-. pose proof (has_fun' _ _ _ _ He0 He) as X. injection X as _ <-. destruct C as [C|[C|C]]; congruence.
        * apply (stay s s' d d (remove_key keq es from) a b k l rs i e x W1 K1 B1 La'); try assumption. rewrite find_other; [exact Fk|]. intros y A B. rewrite (Trans _ _ _ (Sym _ _ A) B) in Eq. discriminate.
      + exact (stay s s' d d' es' a b k l rs i e x W1 K1 (has_stays s s' d d' es' W1 H1 Hd' Hes' D K1) La' Fk Hl Dl De Ni He).
    - assert (Dd: d' <> l0) by (intros ->; pose proof (has_fun' _ _ _ _ Hl0 Hes'); discriminate). assert (De: e <> l0) by (intros ->; pose proof (has_fun' _ _ _ _ He Hl0); discriminate). pose proof (has_stays s s' l0 d' es' W1 H1 Hd' Hes' Dd K1) as Hs.
      destruct (Nat.eq_dec l l0) as [->|Dl]; [|exact (stay s s' l0 d' es' a b k l rs i e x W1 K1 Hs La' Fk Hl Dl De Ni He)].
      pose proof (has_fun' _ _ _ _ Hl0 Hl) as X. injection X as <-. destruct (find_in _ _ _ _ Fk) as (I1 & Q1). destruct (find_in _ _ _ _ Fk0) as (I0 & Q0).
      destruct (Nat.eq_dec d' d) as [->|D]; [|destruct (proj2 Us d' d es' es (Some l0) D Hes' Hes (in_map snd _ _ I1) (in_map snd _ _ I0))]. pose proof (has_fun' _ _ _ _ Hes Hes') as X. injection X as <-. pose proof (nodup_snd es k k0 _ (proj1 Us d es Hes) I1 I0) as X. subst k0.
      assert (Db: b <> to) by (destruct C as [C|[C|C]]; [congruence| |exact C]; rewrite (Trans _ _ _ (Sym _ _ Q1) Q0) in C; discriminate).
      assert (Dij: i <> j) by (intros ->; rewrite Ni in Nj; injection Nj as <-; pose proof (has_fun' _ _ _ _ He He0); congruence). pose proof (keep_cut rs0 i j _ Ni Dij) as Ic.
      destruct (edges_ok keq s' d es a W1 Hs La') as [(Fk1 & _)|(k1 & l1 & rs1 & Fk1 & Ed1 & Hl1 & Ty1)]; rewrite Fk in Fk1; [discriminate|]. injection Fk1 as <- <-. pose proof (C1 _ Hl1) as X. injection X as ->.
      destruct (member_lives keq s' [] l0 _ e (proj1 W1) Hl1 (in_somes _ _ Ic)) as (c & Hc). pose proof (has_fun' _ _ _ _ (keeps_has _ _ _ _ _ K1 De Hc) He) as X. subst c.
      unfold get_edge. rewrite Ed1. cbn [obind]. rewrite (list_ok s' l0 _) by (eexists; split; [left; reflexivity|exact Hl1]). cbn [obind]. destruct (find_ok keq s' b _ 0 Ty1) as (f1 & Ef1 & Bf1). rewrite Ef1. destruct f1 as [(j1, e1)|]; [eauto|exfalso]. exact (Bf1 e x Ic Hc).
  Qed.
  Lemma frame_after os s d from to s' d' a b i e : follows also_held keq init os -> grun keq init os = Ok s -> exists_only s (RemoveEdge d from to false) -> gstep keq s (RemoveEdge d from to false) = Ok s' ->
    In d' (hands s) -> is_graph s d' -> live s a -> live s' a -> d' <> d \/ keq a from = false \/ b <> to -> get_edge keq s d' a b = Ok (Some (i, e)) -> exists i' e', get_edge keq s' d' a b = Ok (Some (i', e')).
  Proof.
    intros F E (Hd & (n & es & Q) & La & Lb) G Hd' (n' & es' & Q'). destruct (grun_U os init (start keq) start_U F) as (s0 & E' & Ws & Us). rewrite E in E'. injection E' as <-. cbn [gstep] in G. apply bind_ok in G. destruct G as (s1 & G & X). injection X as ->. exact (frame s d es from to s' d' es' a b i e Ws Us Hd (ex_intro _ n Q) La G Hd' (ex_intro _ n' Q')).
  Qed.
  (** Removing an edge makes none. *)
  Lemma frame_back s d es from to s' a b i e : W s -> In d (hands s) -> has s d (Hash es) -> live s from -> remove_one keq s d from to = Ok s' -> live s a -> live s' a -> get_edge keq s' d a b = Ok (Some (i, e)) -> exists i' e', get_edge keq s d a b = Ok (Some (i', e')).
  Proof.
    intros Ws Hd Hes Lf E La La' G.
    assert (K: forall k l rs x, find_key keq es a = Some (k, Some l) -> has s l (Arr rs) -> In (Some e) rs -> has s e (Pair x (Some b)) -> exists i' e', get_edge keq s d a b = Ok (Some (i', e'))).
    { intros k l rs x Fk Hl I He. destruct (edges_ok keq s d es a Ws Hes La) as [(Fk1 & _)|(k1 & l1 & rs1 & Fk1 & Ed1 & Hl1 & Ty1)]; rewrite Fk in Fk1; [discriminate|]. injection Fk1 as <- <-. pose proof (has_fun' _ _ _ _ Hl1 Hl) as X. injection X as ->.
      unfold get_edge. rewrite Ed1. cbn [obind]. rewrite (list_ok s l _) by (eexists; split; [left; reflexivity|exact Hl]). cbn [obind]. destruct (find_ok keq s b _ 0 Ty1) as (f1 & Ef1 & Bf1). rewrite Ef1. destruct f1 as [(j1, e1)|]; [eauto|exfalso]. exact (Bf1 e x I He). }
    destruct (remove_ways s d es from to s' Ws Hd Hes Lf E) as [->|[(W1 & H1 & B1 & K1 & _)|(k0 & l0 & rs0 & j & e0 & x0 & Fk0 & Hl0 & Nj & He0 & W1 & H1 & C1 & K1)]]; [eauto| |].
    - destruct (get_found keq s' d _ a b i e W1 B1 La' G) as (k & l & rs & x & Fk & Ed & Hl & Ni & He). assert (Dl: l <> d) by (intros ->; pose proof (has_fun' _ _ _ _ Hl B1); discriminate). assert (De: e <> d) by (intros ->; pose proof (has_fun' _ _ _ _ He B1); discriminate).
      destruct (keq a from) eqn:Eq; [rewrite (find_equal _ a from Eq), (find_removed keq Sym Trans es from (proj2 (proj2 Ws d _ Hes))) in Fk; discriminate|]. rewrite find_other in Fk by (intros y A B; rewrite (Trans _ _ _ (Sym _ _ A) B) in Eq; discriminate).
      exact (K k l rs x Fk (keeps_has _ _ _ _ _ K1 Dl Hl) (nth_error_In _ _ Ni) (keeps_has _ _ _ _ _ K1 De He)).
    - assert (Dd: d <> l0) by (intros ->; pose proof (has_fun' _ _ _ _ Hl0 Hes); discriminate). pose proof (has_stays s s' l0 d es W1 H1 Hd Hes Dd K1) as Hs. destruct (get_found keq s' d _ a b i e W1 Hs La' G) as (k & l & rs & x & Fk & Ed & Hl & Ni & He).
      assert (De: e <> l0) by (intros ->; pose proof (C1 _ He); discriminate). apply nth_error_In in Ni. destruct (Nat.eq_dec l l0) as [->|Dl]; [|exact (K k l rs x Fk (keeps_has _ _ _ _ _ K1 Dl Hl) Ni (keeps_has _ _ _ _ _ K1 De He))].
      pose proof (C1 _ Hl) as X. injection X as ->. apply (K k l0 rs0 x Fk Hl0); [|exact (keeps_has _ _ _ _ _ K1 De He)]. apply in_app_or in Ni. destruct Ni as [Ni|Ni]; [rewrite <- (firstn_skipn j rs0)|rewrite <- (firstn_skipn (j + 1) rs0)]; apply in_or_app; auto.
  Qed.
  Lemma found_here s d es a b k l rs e x : W s -> has s d (Hash es) -> live s a -> find_key keq es a = Some (k, Some l) -> has s l (Arr rs) -> In (Some e) rs -> has s e (Pair x (Some b)) -> exists i' e', get_edge keq s d a b = Ok (Some (i', e')).
  Proof.
    intros Ws Hes La Fk Hl I He. destruct (edges_ok keq s d es a Ws Hes La) as [(Fk1 & _)|(k1 & l1 & rs1 & Fk1 & Ed1 & Hl1 & Ty1)]; rewrite Fk in Fk1; [discriminate|]. injection Fk1 as <- <-. pose proof (has_fun' _ _ _ _ Hl1 Hl) as X. injection X as ->.
    unfold get_edge. rewrite Ed1. cbn [obind]. rewrite (list_ok s l _) by (eexists; split; [left; reflexivity|exact Hl]). cbn [obind]. destruct (find_ok keq s b _ 0 Ty1) as (f1 & Ef1 & Bf1). rewrite Ef1. destruct f1 as [(j1, e1)|]; [eauto|exfalso]. exact (Bf1 e x I He).
  Qed.
  (** What was there before, of a list that was not changed. *)
  Lemma same_found s s' d es a b k l e x rs : W s -> has s d (Hash es) -> live s a -> find_key keq es a = Some (k, Some l) -> (forall rs0, has s l (Arr rs0) -> has s' l (Arr rs0)) -> (forall p q, has s e (Pair p q) -> has s' e (Pair p q)) -> has s' l (Arr rs) -> In (Some e) rs -> has s' e (Pair x (Some b)) ->
    exists i' e', get_edge keq s d a b = Ok (Some (i', e')).
  Proof.
    intros Ws Hes La Fk Fl Fe Hl I He. destruct (value_list s d es (Some l) Ws Hes (in_map snd _ _ (proj1 (find_in _ _ _ _ Fk)))) as (l0 & rs0 & X & Hl0). injection X as <-. pose proof (has_fun' _ _ _ _ (Fl _ Hl0) Hl) as X. injection X as ->.
    destruct (proj2 Ws l _ Hl0) as (Ty & _). rewrite Forall_forall in Ty. destruct (Ty _ I) as (z & p & q & Z & Hz). injection Z as <-. pose proof (has_fun' _ _ _ _ (Fe _ _ Hz) He) as X. injection X as -> ->. exact (found_here s d es a b k l rs e x Ws Hes La Fk Hl0 I Hz).
  Qed.
  Lemma add_back s d es from to s' d' es' a b i e : W s -> U s -> In d (hands s) -> has s d (Hash es) -> live s from -> live s to -> add_one keq s d from to = Ok s' ->
    has s d' (Hash es') -> live s a -> d' <> d \/ keq a from = false \/ b <> to -> get_edge keq s' d' a b = Ok (Some (i, e)) -> exists i' e', get_edge keq s d' a b = Ok (Some (i', e')).
  Proof.
    intros Ws Us Hd Hes Lf Lt E Hes' La C G. destruct (add_one_ok keq s d es from to Ws Hd Hes Lf Lt) as (s0 & E0 & W' & _). rewrite E in E0. injection E0 as <-. pose proof (grown_live _ _ _ (add_grown keq s d es from to s' Ws Hd Hes Lf Lt E) La) as La'.
    unfold add_one in E. destruct (edges_ok keq s d es from Ws Hes Lf) as [(Fk0 & Ed)|(k0 & l0 & rs0 & Fk0 & Ed & Hl0 & Ty)]; rewrite Ed in E; cbn [obind] in E.
    - destruct (new_list_ok keq s d es from Ws Hd Hes Fk0 Lf) as (s1 & E1 & W1 & H1 & F1 & B1 & A1). rewrite E1 in E. cbn [obind fst snd] in E. pose proof (table_grown _ _ _ _ _ Hes F1 B1) as G1.
      destruct (new_edge_ok s1 (next s) [] from to W1 A1 (grown_live _ _ _ G1 Lf) (grown_live _ _ _ G1 Lt) (fun _ _ (H : In _ []) _ => H)) as (s2 & E2 & W2 & H2 & F2 & B2 & A2). rewrite E2 in E. injection E as <-.
      assert (Fw: forall y c, y <> d -> has s y c -> has s2 y c) by (intros y c D H; apply F2; [pose proof (has_below _ _ _ H); lia|exact (F1 y c D H)]).
      assert (Fl: forall y rs, has s y (Arr rs) -> has s2 y (Arr rs)) by (intros y rs H; apply Fw; [intros ->; pose proof (has_fun' _ _ _ _ H Hes); discriminate|exact H]). assert (Fe: forall y p q, has s y (Pair p q) -> has s2 y (Pair p q)) by (intros y p q H; apply Fw; [intros ->; pose proof (has_fun' _ _ _ _ H Hes); discriminate|exact H]).
      destruct (Nat.eq_dec d' d) as [->|D].
      + pose proof (has_fun' _ _ _ _ Hes Hes') as X. injection X as <-. assert (B3: has s2 d (Hash (es ++ [(from, Some (next s))]))) by (apply F2; [pose proof (has_below _ _ _ Hes); lia|exact B1]). destruct (get_found keq s2 d _ a b i e W2 B3 La' G) as (k & l & rs & x & Fk & _ & Hl & Ni & He).
        destruct (find_key keq es a) as [(k1, v1)|] eqn:Fa; [rewrite (find_front keq es _ a _ Fa) in Fk; injection Fk as -> ->; exact (same_found s s2 d es a b k l e x rs Ws Hes La Fa (Fl l) (Fe e) Hl (nth_error_In _ _ Ni) He)|exfalso].
        destruct (find_in _ _ _ _ Fk) as (I & Qa). apply in_app_or in I. destruct I as [I|[I|[]]].
        * clear - Fa I Qa. induction es as [|e0 es IH]; [exact I|]. cbn [find_key] in Fa. destruct (keq (fst e0) a) eqn:E0; [discriminate|]. destruct I as [->|I]; [cbn [fst] in E0; congruence|exact (IH Fa I)].
        * injection I as <- <-. pose proof (has_fun' _ _ _ _ B2 Hl) as X. injection X as <-. destruct i as [|i]; [|destruct i; discriminate]. injection Ni as <-. pose proof (has_fun' _ _ _ _ A2 He) as X. injection X as _ <-. pose proof (Sym _ _ Qa). destruct C as [C|[C|C]]; congruence.
      + destruct (get_found keq s2 d' es' a b i e W2 (Fw _ _ D Hes') La' G) as (k & l & rs & x & Fk & _ & Hl & Ni & He). exact (same_found s s2 d' es' a b k l e x rs Ws Hes' La Fk (Fl l) (Fe e) Hl (nth_error_In _ _ Ni) He).
    - rewrite (list_ok s l0 rs0) in E by (exists (Arr rs0); split; [left; reflexivity|exact Hl0]). cbn [obind] in E. destruct (find_ok keq s to rs0 0 Ty) as (f & Ef & Bf). rewrite Ef in E. cbn [obind] in E. destruct f as [(j, e0)|]; [injection E as <-; eauto|]. cbn [obind fst snd] in E.
      destruct (new_edge_ok s l0 rs0 from to Ws Hl0 Lf Lt Bf) as (s2 & E2 & W2 & H2 & F2 & B2 & A2). rewrite E2 in E. injection E as <-.
      assert (Dd: d' <> l0) by (intros ->; pose proof (has_fun' _ _ _ _ Hl0 Hes'); discriminate). assert (Fe: forall y p q, has s y (Pair p q) -> has s2 y (Pair p q)) by (intros y p q H; apply F2; [intros ->; pose proof (has_fun' _ _ _ _ H Hl0); discriminate|exact H]).
      destruct (get_found keq s2 d' es' a b i e W2 (F2 _ _ Dd Hes') La' G) as (k & l & rs & x & Fk & _ & Hl & Ni & He). destruct (Nat.eq_dec l l0) as [->|Dl]; [|exact (same_found s s2 d' es' a b k l e x rs Ws Hes' La Fk (fun rs1 H => F2 _ _ Dl H) (Fe e) Hl (nth_error_In _ _ Ni) He)].
      pose proof (has_fun' _ _ _ _ B2 Hl) as X. injection X as <-. apply nth_error_In in Ni. apply in_app_or in Ni. destruct Ni as [Ni|[Ni|[]]].
      + destruct Ty as (Ty & _). rewrite Forall_forall in Ty. destruct (Ty _ Ni) as (z & p & q & Z & Hz). injection Z as <-. pose proof (has_fun' _ _ _ _ (Fe _ _ _ Hz) He) as X. injection X as -> ->. exact (found_here s d' es' a b k l0 rs0 e x Ws Hes' La Fk Hl0 Ni Hz).
      + exfalso. injection Ni as <-. pose proof (has_fun' _ _ _ _ A2 He) as X. injection X as _ <-. destruct (find_in _ _ _ _ Fk) as (I1 & Q1). destruct (find_in _ _ _ _ Fk0) as (I0 & Q0).
        destruct (Nat.eq_dec d' d) as [->|D]; [|destruct (proj2 Us d' d es' es (Some l0) D Hes' Hes (in_map snd _ _ I1) (in_map snd _ _ I0))]. pose proof (has_fun' _ _ _ _ Hes Hes') as X. injection X as <-. pose proof (nodup_snd es k k0 _ (proj1 Us d es Hes) I1 I0) as X. subst k0. pose proof (Trans _ _ _ (Sym _ _ Q1) Q0). destruct C as [C|[C|C]]; congruence.
  Qed.
  Lemma add_back_after os s d from to s' d' a b i e : follows also_held keq init os -> grun keq init os = Ok s -> exists_only s (AddEdge d from to false) -> gstep keq s (AddEdge d from to false) = Ok s' ->
    is_graph s d' -> live s a -> d' <> d \/ keq a from = false \/ b <> to -> get_edge keq s' d' a b = Ok (Some (i, e)) -> exists i' e', get_edge keq s d' a b = Ok (Some (i', e')).
  Proof.
    intros F E (Hd & (n & es & Q) & La & Lb) G (n' & es' & Q'). destruct (grun_U os init (start keq) start_U F) as (s0 & E' & Ws & Us). rewrite E in E'. injection E' as <-. cbn [gstep] in G. apply bind_ok in G. destruct G as (s1 & G & X). injection X as ->. exact (add_back s d es from to s' d' es' a b i e Ws Us Hd (ex_intro _ n Q) La Lb G (ex_intro _ n' Q')).
  Qed.
  Lemma remove_back s d es from to s' d' es' a b i e : W s -> In d (hands s) -> has s d (Hash es) -> live s from -> remove_one keq s d from to = Ok s' -> In d' (hands s) -> has s d' (Hash es') -> live s a -> live s' a -> get_edge keq s' d' a b = Ok (Some (i, e)) -> exists i' e', get_edge keq s d' a b = Ok (Some (i', e')).
  Proof.
    intros Ws Hd Hes Lf E Hd' Hes' La La' G. destruct (Nat.eq_dec d' d) as [->|D]; [exact (frame_back s d es from to s' a b i e Ws Hd Hes Lf E La La' G)|].
    destruct (remove_ways s d es from to s' Ws Hd Hes Lf E) as [->|[(W1 & H1 & B1 & K1 & _)|(k0 & l0 & rs0 & j & e0 & x0 & Fk0 & Hl0 & Nj & He0 & W1 & H1 & C1 & K1)]]; [eauto| |].
    - destruct (get_found keq s' d' es' a b i e W1 (has_stays s s' d d' es' W1 H1 Hd' Hes' D K1) La' G) as (k & l & rs & x & Fk & Ed & Hl & Ni & He). assert (Dl: l <> d) by (intros ->; pose proof (has_fun' _ _ _ _ Hl B1); discriminate). assert (De: e <> d) by (intros ->; pose proof (has_fun' _ _ _ _ He B1); discriminate).
      exact (found_here s d' es' a b k l rs e x Ws Hes' La Fk (keeps_has _ _ _ _ _ K1 Dl Hl) (nth_error_In _ _ Ni) (keeps_has _ _ _ _ _ K1 De He)).
    - assert (Dd: d' <> l0) by (intros ->; pose proof (has_fun' _ _ _ _ Hl0 Hes'); discriminate). destruct (get_found keq s' d' es' a b i e W1 (has_stays s s' l0 d' es' W1 H1 Hd' Hes' Dd K1) La' G) as (k & l & rs & x & Fk & Ed & Hl & Ni & He).
      assert (De: e <> l0) by (intros ->; pose proof (C1 _ He); discriminate). apply nth_error_In in Ni. destruct (Nat.eq_dec l l0) as [->|Dl]; [|exact (found_here s d' es' a b k l rs e x Ws Hes' La Fk (keeps_has _ _ _ _ _ K1 Dl Hl) Ni (keeps_has _ _ _ _ _ K1 De He))].
      pose proof (C1 _ Hl) as X. injection X as ->. apply (found_here s d' es' a b k l0 rs0 e x Ws Hes' La Fk Hl0); [|exact (keeps_has _ _ _ _ _ K1 De He)]. apply in_app_or in Ni. destruct Ni as [Ni|Ni]; [rewrite <- (firstn_skipn j rs0)|rewrite <- (firstn_skipn (j + 1) rs0)]; apply in_or_app; auto.
  Qed.
  Lemma remove_back_after os s d from to s' d' a b i e : follows also_held keq init os -> grun keq init os = Ok s -> exists_only s (RemoveEdge d from to false) -> gstep keq s (RemoveEdge d from to false) = Ok s' ->
    In d' (hands s) -> is_graph s d' -> live s a -> live s' a -> get_edge keq s' d' a b = Ok (Some (i, e)) -> exists i' e', get_edge keq s d' a b = Ok (Some (i', e')).
  Proof.
    intros F E (Hd & (n & es & Q) & La & Lb) G Hd' (n' & es' & Q'). destruct (grun_ok keq os init (start keq) F) as (s0 & E' & Ws). rewrite E in E'. injection E' as <-. cbn [gstep] in G. apply bind_ok in G. destruct G as (s1 & G & X). injection X as ->. exact (remove_back s d es from to s' d' es' a b i e Ws Hd (ex_intro _ n Q) La G Hd' (ex_intro _ n' Q')).
  Qed.
  Hypothesis Refl : forall x, keq x x = true.
  Lemma both_after os s d from to s' : follows also_held keq init os -> grun keq init os = Ok s -> exists_only s (AddEdge d from to true) -> gstep keq s (AddEdge d from to true) = Ok s' ->
    (exists i e, get_edge keq s' d from to = Ok (Some (i, e))) /\ exists i e, get_edge keq s' d to from = Ok (Some (i, e)).
  Proof.
    intros F E (Hd & (n & es & Q) & La & Lb) G. destruct (grun_ok keq os init (start keq) F) as (s0 & E' & Ws). rewrite E in E'. injection E' as <-. cbn [gstep] in G. assert (Hes: has s d (Hash es)) by (exists n; exact Q).
    destruct (add_one_ok keq s d es from to Ws Hd Hes La Lb) as (s1 & E1 & W1 & H1 & L1 & (es1 & Hes1)). rewrite E1 in G. cbn [obind] in G. assert (Hd1: In d (hands s1)) by (rewrite H1; exact Hd). destruct (add_one_ok keq s1 d es1 to from W1 Hd1 Hes1 (L1 _ Lb) (L1 _ La)) as (s2 & E2 & W2 & _). rewrite E2 in G. injection G as <-.
    split; [|exact (added keq Refl s1 d es1 to from s2 W1 Hd1 Hes1 (L1 _ Lb) (L1 _ La) E2)]. destruct (added keq Refl s d es from to s1 Ws Hd Hes La Lb E1) as (i & e & Ge). exact (kept keq s1 s2 d es1 from to i e W1 W2 (add_grown keq s1 d es1 to from s2 W1 Hd1 Hes1 (L1 _ Lb) (L1 _ La) E2) Hes1 (L1 _ La) Ge).
  Qed.
  Lemma back_live s d es from to s' x : W s -> In d (hands s) -> has s d (Hash es) -> live s from -> remove_one keq s d from to = Ok s' -> live s' x -> live s x.
  Proof.
    intros Ws Hd Hes Lf E Lx. destruct (live_has _ _ Lx) as (c & Hc). destruct (remove_ways s d es from to s' Ws Hd Hes Lf E) as [->|[(_ & _ & _ & K1 & _)|(k0 & l0 & rs0 & j & e0 & x0 & _ & Hl0 & _ & _ & _ & _ & _ & K1)]]; [exact Lx| |].
    - destruct (Nat.eq_dec x d) as [->|D]; [exact (has_live _ _ _ Hes)|exact (has_live _ _ _ (keeps_has _ _ _ _ _ K1 D Hc))].
    - destruct (Nat.eq_dec x l0) as [->|D]; [exact (has_live _ _ _ Hl0)|exact (has_live _ _ _ (keeps_has _ _ _ _ _ K1 D Hc))].
  Qed.
  Lemma neither_after os s d from to s' : follows also_held keq init os -> grun keq init os = Ok s -> also_held s (RemoveEdge d from to true) -> gstep keq s (RemoveEdge d from to true) = Ok s' ->
    (live s' from -> get_edge keq s' d from to = Ok None) /\ get_edge keq s' d to from = Ok None.
  Proof.
    intros F E ((Hd & (n & es & Q) & La & Lb) & Ht) G. destruct (grun_ok keq os init (start keq) F) as (s0 & E' & Ws). rewrite E in E'. injection E' as <-. cbn [gstep] in G. assert (Hes: has s d (Hash es)) by (exists n; exact Q).
    destruct (remove_one_ok keq s d es from to Ws Hd Hes La) as (s1 & E1 & W1 & H1 & (es1 & Hes1)). rewrite E1 in G. cbn [obind] in G. assert (Hd1: In d (hands s1)) by (rewrite H1; exact Hd). assert (Lt1: live s1 to) by (destruct (inv_owned s1 [] to (proj1 W1)) as (c & Hc); [rewrite H1; exact Ht|exact (has_live _ _ _ Hc)]).
    destruct (remove_one_ok keq s1 d es1 to from W1 Hd1 Hes1 Lt1) as (s2 & E2 & W2 & H2 & (es2 & Hes2)). rewrite E2 in G. injection G as <-. assert (Lt2: live s2 to) by (destruct (inv_owned s2 [] to (proj1 W2)) as (c & Hc); [rewrite H2, H1; exact Ht|exact (has_live _ _ _ Hc)]).
    split; [|exact (removed keq Refl Sym Trans s1 d es1 to from s2 W1 Hd1 Hes1 Lt1 E2 Lt2)]. intros Lf2. pose proof (back_live s1 d es1 to from s2 from W1 Hd1 Hes1 Lt1 E2 Lf2) as Lf1. pose proof (removed keq Refl Sym Trans s d es from to s1 Ws Hd Hes La E1 Lf1) as R1.
    destruct (edges_ok keq s2 d es2 from W2 Hes2 Lf2) as [(_ & Ed)|(k & l & rs & _ & Ed & Hl & Ty)]; unfold get_edge; rewrite Ed; cbn [obind]; [reflexivity|]. rewrite (list_ok s2 l rs) by (exists (Arr rs); split; [left; reflexivity|exact Hl]). cbn [obind]. destruct (find_ok keq s2 to rs 0 Ty) as (f & Ef & _). rewrite Ef. destruct f as [(j, e)|]; [exfalso|reflexivity].
    destruct (frame_back s1 d es1 to from s2 from to j e W1 Hd1 Hes1 Lt1 E2 Lf1 Lf2) as (i' & e' & R2); [unfold get_edge; rewrite Ed; cbn [obind]; rewrite (list_ok s2 l rs) by (exists (Arr rs); split; [left; reflexivity|exact Hl]); exact Ef|congruence].
  Qed.
End Graph.
