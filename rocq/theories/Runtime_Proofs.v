(** Proofs about classes and interfaces. *)
Require Import Coq.Lists.List Coq.Arith.Arith Coq.Bool.Bool Coq.micromega.Lia.
Require Import Verif.Base Verif.Runtime_Model Verif.Runtime_Spec.
Import ListNotations.

(** ** Tables are maps *)
Definition tab_ok (ls : list nat) (is : list iface) (t : table) : Prop :=
  length (cache t) = 32 /\ Forall (fun i => i < length is) (rows t) /\
  forall l i, nth_error (cache t) l = Some (Some i) -> exists s, sel_of is i = Some s /\ nth_error ls s = Some l /\ row_find is (rows t) s = Some i.
Definition tab_map (is : list iface) (t : table) (m : nat -> option nat) : Prop := forall s, row_find is (rows t) s = m s.

Lemma sel_eq_spec is s i : sel_eq is s i = true <-> sel_of is i = Some s.
Proof.
  unfold sel_eq. destruct (sel_of is i); split; intros H; try discriminate.
  - apply Nat.eqb_eq in H. congruence.
  - inversion H. apply Nat.eqb_refl.
Qed.
Lemma row_find_sel is rs s i : row_find is rs s = Some i -> sel_of is i = Some s.
Proof. intros H. apply find_some in H. now apply sel_eq_spec. Qed.
Lemma row_find_in is rs s i : row_find is rs s = Some i -> In i rs.
Proof. intros H. apply find_some in H. tauto. Qed.
Lemma find_map_same is s i rs : sel_of is i = Some s -> find (sel_eq is s) rs <> None ->
  find (sel_eq is s) (map (fun r => if sel_eq is s r then i else r) rs) = Some i.
Proof.
  intros E. induction rs as [|r rs IH]; intros H; [now elim H|]. cbn [find map] in *.
  destruct (sel_eq is s r) eqn:R.
  - apply sel_eq_spec in E. now rewrite E.
  - rewrite R. apply IH, H.
Qed.
Lemma find_map_other is s i s' rs : sel_of is i = Some s -> s' <> s ->
  find (sel_eq is s') (map (fun r => if sel_eq is s r then i else r) rs) = find (sel_eq is s') rs.
Proof.
  intros E N. induction rs as [|r rs IH]; auto. cbn [find map].
  destruct (sel_eq is s r) eqn:R.
  - assert (A: sel_eq is s' i = false) by (unfold sel_eq; rewrite E; now apply Nat.eqb_neq).
    assert (B: sel_eq is s' r = false) by (apply sel_eq_spec in R; unfold sel_eq; rewrite R; now apply Nat.eqb_neq).
    rewrite A, B. exact IH.
  - destruct (sel_eq is s' r); auto.
Qed.
Lemma find_app_last {A} (f : A -> bool) l x : find f (l ++ [x]) = match find f l with Some y => Some y | None => if f x then Some x else None end.
Proof. induction l; cbn; auto. destruct (f a); auto. Qed.
Lemma row_insert_find is rs s i : sel_of is i = Some s -> forall s', row_find is (row_insert is rs s i) s' = if s' =? s then Some i else row_find is rs s'.
Proof.
  intros E s'. unfold row_insert, row_find. destruct (find (sel_eq is s) rs) eqn:F.
  - destruct (Nat.eqb_spec s' s) as [->|N].
    + apply find_map_same; auto. congruence.
    + now apply find_map_other.
  - rewrite find_app_last. destruct (Nat.eqb_spec s' s) as [->|N].
    + rewrite F. apply sel_eq_spec in E. now rewrite E.
    + destruct (find (sel_eq is s') rs); auto. unfold sel_eq. rewrite E. apply Nat.eqb_neq in N. now rewrite N.
Qed.
Lemma sel_of_lt is i s : sel_of is i = Some s -> i < length is.
Proof. unfold sel_of. destruct (nth_error is i) eqn:E; intros H; [|discriminate]. apply nth_error_Some. congruence. Qed.
Lemma row_insert_lt is rs s i : i < length is -> Forall (fun j => j < length is) rs -> Forall (fun j => j < length is) (row_insert is rs s i).
Proof.
  intros L F. unfold row_insert. destruct (row_find is rs s).
  - apply Forall_forall. intros x X. apply in_map_iff in X. destruct X as (y & <- & Y). rewrite Forall_forall in F. destruct (sel_eq is s y); auto.
  - apply Forall_app. split; auto.
Qed.
Lemma nth_upd_cases {A} (l : list A) n a m x : nth_error (upd l n a) m = Some x -> (m = n /\ x = a) \/ (m <> n /\ nth_error l m = Some x).
Proof.
  intros H. destruct (Nat.eq_dec m n) as [->|N].
  - destruct (lt_dec n (length l)) as [L|L].
    + rewrite nth_error_upd_eq in H by exact L. inversion H. auto.
    + assert (n < length (upd l n a)) by (apply nth_error_Some; congruence). rewrite upd_length in *. lia.
  - rewrite nth_error_upd_neq in H by congruence. auto.
Qed.

(** ** Changing the interfaces *)
Definition same_sels (is is' : list iface) : Prop := forall i, i < length is -> sel_of is' i = sel_of is i.
Lemma same_row_find is is' rs s : same_sels is is' -> Forall (fun i => i < length is) rs -> row_find is' rs s = row_find is rs s.
Proof.
  intros S. induction rs as [|r rs IH]; intros F; auto. inversion_clear F. unfold row_find in *. cbn [find].
  assert (E: sel_eq is' s r = sel_eq is s r) by (unfold sel_eq; now rewrite S). rewrite E. destruct (sel_eq is s r); auto.
Qed.
Lemma same_tab ls is is' t : same_sels is is' -> length is <= length is' -> tab_ok ls is t -> tab_ok ls is' t.
Proof.
  intros S L (A & B & C). split; [exact A|]. split.
  - eapply Forall_impl; [|exact B]. cbn. lia.
  - intros l i H. destruct (C l i H) as (s & E & G & F). exists s. rewrite (same_row_find _ _ _ _ S B).
    split; [|auto]. rewrite S; auto. eapply sel_of_lt; eauto.
Qed.
Lemma same_map is is' t m : same_sels is is' -> Forall (fun i => i < length is) (rows t) -> tab_map is t m -> tab_map is' t m.
Proof. intros S F M s. rewrite (same_row_find _ _ _ _ S F). apply M. Qed.

(** ** The relation between the code and the specification *)
Definition class_rel (ls : list nat) (is : list iface) (k : class) (a : sclass) : Prop :=
  super k = s_super a /\ preventSub k = s_prevent a /\ tab_ok ls is (instT k) /\ tab_ok ls is (classT k) /\
  tab_map is (instT k) (s_inst a) /\ tab_map is (classT k) (s_class a).
Definition rel (r : rt) (a : srt) : Prop :=
  length (lines r) = s_sels a /\ ifaces r = s_ifaces a /\ Forall (fun l => l < 32) (lines r) /\
  Forall (fun f => sel f < length (lines r)) (ifaces r) /\ Forall2 (class_rel (lines r) (ifaces r)) (classes r) (s_classes a).

Lemma Forall2_nth {A B} (R : A -> B -> Prop) l l' n : Forall2 R l l' ->
  match nth_error l n, nth_error l' n with Some x, Some y => R x y | None, None => True | _, _ => False end.
Proof. intros F. revert n. induction F as [|x y l l' H F IH]; intros [|n]; cbn; auto. apply IH. Qed.
Lemma Forall2_upd {A B} (R : A -> B -> Prop) l l' n x y : Forall2 R l l' -> R x y -> Forall2 R (upd l n x) (upd l' n y).
Proof. intros F H. revert n. induction F as [|a b l l' H0 F IH]; intros [|n]; cbn; auto. Qed.
Lemma Forall2_upd_l {A B} (R : A -> B -> Prop) l l' n x y : Forall2 R l l' -> nth_error l' n = Some y -> R x y -> Forall2 R (upd l n x) l'.
Proof. intros F. revert n. induction F as [|a b l l' H0 F IH]; intros [|n] E H; cbn in *; try discriminate.
  - inversion E. subst. auto.
  - constructor; eauto.
Qed.
Lemma Forall2_mono {A B} (R R' : A -> B -> Prop) l l' : (forall x y, R x y -> R' x y) -> Forall2 R l l' -> Forall2 R' l l'.
Proof. intros H F. induction F; auto. Qed.

Lemma class_rel_get ls is k a inst : class_rel ls is k a -> tab_ok ls is (get_table k inst) /\ tab_map is (get_table k inst) (s_get a inst).
Proof. intros (A & B & C & D & E & F). destruct inst; cbn; auto. Qed.
Lemma class_rel_set ls is k a inst t : class_rel ls is k a -> tab_ok ls is t -> tab_map is t (s_get a inst) -> class_rel ls is (set_table k inst t) a.
Proof. intros (A & B & C & D & E & F) T M. destruct inst; unfold class_rel; cbn in *; repeat (split; [assumption|]); assumption. Qed.

Lemma table_find_ok r t s m : tab_ok (lines r) (ifaces r) t -> Forall (fun l => l < 32) (lines r) -> tab_map (ifaces r) t m ->
  if s <? length (lines r) then exists t', table_find r t s = Ok (t', m s) /\ rows t' = rows t /\ tab_ok (lines r) (ifaces r) t' else table_find r t s = UB.
Proof.
  intros (A & B & C) L M. unfold table_find. destruct (Nat.ltb_spec s (length (lines r))) as [H|H].
  2:{ apply nth_error_None in H. now rewrite H. }
  destruct (nth_error (lines r) s) as [l|] eqn:E; [|apply nth_error_None in E; lia].
  assert (L32: l < 32) by (rewrite Forall_forall in L; apply L; eapply nth_error_In; eauto).
  destruct (nth_error (cache t) l) as [c|] eqn:Ec; [|apply nth_error_None in Ec; lia].
  assert (Slow: exists t' : table,
     (match row_find (ifaces r) (rows t) s with
      | Some i => Ok (mkTab (upd (cache t) l (Some i)) (rows t), Some i)
      | None => Ok (t, None)
      end) = Ok (t', m s) /\ rows t' = rows t /\ tab_ok (lines r) (ifaces r) t').
  { destruct (row_find (ifaces r) (rows t) s) as [i|] eqn:F.
    - eexists. rewrite <- (M s), F. split; [reflexivity|]. split; [reflexivity|]. split; [cbn; now rewrite upd_length|]. split; [exact B|].
      cbn. intros l' j Hj. apply nth_upd_cases in Hj. destruct Hj as [[-> X]|[N X]]; [|eauto]. inversion X. subst j. exists s. split; auto. eapply row_find_sel; eauto.
    - exists t. rewrite <- (M s), F. split; auto. split; auto. split; auto. }
  destruct c as [i|]; [|exact Slow]. destruct (sel_eq (ifaces r) s i) eqn:Q; [|exact Slow].
  apply sel_eq_spec in Q. destruct (C l i Ec) as (s' & S1 & _ & S2). assert (s' = s) by congruence. subst s'.
  exists t. rewrite <- (M s), S2. split; auto. split; auto. split; auto.
Qed.

Lemma lookup_rel r a c inst s : rel r a ->
  match s_lookup a c inst s with
  | Ok x => exists r', lookup r c inst s = Ok (r', x) /\ rel r' a /\ ifaces r' = ifaces r /\ lines r' = lines r
  | UB => lookup r c inst s = UB
  | _ => False
  end.
Proof.
  intros (A & B & C & D & E). unfold s_lookup, lookup. pose proof (Forall2_nth _ _ _ c E) as N.
  destruct (nth_error (classes r) c) as [k|] eqn:Ek; destruct (nth_error (s_classes a) c) as [ak|] eqn:Ea; try contradiction; auto.
  destruct (class_rel_get _ _ _ _ inst N) as [T M]. pose proof (table_find_ok r (get_table k inst) s _ T C M) as F.
  rewrite A in F. destruct (s <? s_sels a) eqn:Q.
  - destruct F as (t' & F & R & T'). rewrite F. eexists. split; [reflexivity|]. split; [|split; reflexivity].
    cbn [fst]. repeat (split; [assumption|]). cbn. eapply Forall2_upd_l; eauto. apply class_rel_set; auto.
    intros s'. rewrite R. apply M.
  - now rewrite F.
Qed.

Lemma tab_insert_ok r t i f m : tab_ok (lines r) (ifaces r) t -> Forall (fun l => l < 32) (lines r) -> Forall (fun f => sel f < length (lines r)) (ifaces r) ->
  tab_map (ifaces r) t m -> nth_error (ifaces r) i = Some f ->
  exists t', table_insert r t i = Ok t' /\ tab_ok (lines r) (ifaces r) t' /\ tab_map (ifaces r) t' (s_bind m (sel f) i).
Proof.
  intros (A & B & C) L D M E. unfold table_insert. rewrite E.
  assert (Hs: sel f < length (lines r)) by (rewrite Forall_forall in D; apply D; eapply nth_error_In; eauto).
  assert (Ei: sel_of (ifaces r) i = Some (sel f)) by (unfold sel_of; now rewrite E).
  destruct (nth_error (lines r) (sel f)) as [l|] eqn:El; [|apply nth_error_None in El; lia].
  assert (L32: l < 32) by (rewrite Forall_forall in L; apply L; eapply nth_error_In; eauto).
  destruct (Nat.ltb_spec l (length (cache t))); [|lia]. eexists. split; [reflexivity|].
  assert (M': tab_map (ifaces r) (mkTab (upd (cache t) l (Some i)) (row_insert (ifaces r) (rows t) (sel f) i)) (s_bind m (sel f) i)).
  { intros s'. cbn [rows]. rewrite (row_insert_find _ _ _ _ Ei s'). unfold s_bind. destruct (s' =? sel f); auto. }
  split; [|exact M']. split; [cbn; now rewrite upd_length|]. split; [cbn; apply row_insert_lt; auto; eapply sel_of_lt; eauto|].
  cbn [cache rows]. intros l' j Hj. apply nth_upd_cases in Hj. destruct Hj as [[-> X]|[N X]].
  - inversion X. subst j. exists (sel f). split; auto. split; auto. rewrite (row_insert_find _ _ _ _ Ei). now rewrite Nat.eqb_refl.
  - destruct (C l' j X) as (s & S1 & S0 & S2). exists s. split; auto. split; auto. rewrite (row_insert_find _ _ _ _ Ei).
    destruct (Nat.eqb_spec s (sel f)) as [->|]; auto. congruence.
Qed.

Lemma class_rel_put ls is k a inst t s i : class_rel ls is k a -> tab_ok ls is t -> tab_map is t (s_bind (s_get a inst) s i) -> class_rel ls is (set_table k inst t) (s_put a inst s i).
Proof. intros (A & B & C & D & E & F) T M. destruct inst; unfold class_rel; cbn in *; repeat (split; [assumption|]); assumption. Qed.
Lemma insert_rel r a c inst i : rel r a ->
  match s_insert a c inst i with
  | Ok a' => exists r', insert r c inst i = Ok r' /\ rel r' a'
  | UB => insert r c inst i = UB
  | _ => False
  end.
Proof.
  intros (A & B & C & D & E). unfold s_insert, insert. pose proof (Forall2_nth _ _ _ c E) as N.
  destruct (nth_error (classes r) c) as [k|] eqn:Ek; destruct (nth_error (s_classes a) c) as [ak|] eqn:Ea; try contradiction; auto.
  rewrite <- B. destruct (class_rel_get _ _ _ _ inst N) as [T M].
  destruct (nth_error (ifaces r) i) as [f|] eqn:Ef.
  - destruct (tab_insert_ok r (get_table k inst) i f _ T C D M Ef) as (t' & F & T' & M'). rewrite F. eexists. split; [reflexivity|].
    repeat (split; [cbn; assumption || reflexivity|]). cbn. apply Forall2_upd; auto. now apply class_rel_put.
  - unfold table_insert. now rewrite Ef.
Qed.

Lemma same_upd is i f ms : nth_error is i = Some f -> same_sels is (upd is i (mkI (sel f) ms)).
Proof.
  intros E j L. unfold sel_of. destruct (Nat.eq_dec i j) as [<-|N].
  - rewrite nth_error_upd_eq by exact L. now rewrite E.
  - now rewrite nth_error_upd_neq by exact N.
Qed.
Lemma same_app is is' : same_sels is (is ++ is').
Proof. intros j L. unfold sel_of. now rewrite nth_error_app1. Qed.
Lemma tab_more ls ls' is t : tab_ok ls is t -> tab_ok (ls ++ ls') is t.
Proof.
  intros (A & B & C). split; auto. split; auto. intros l i H. destruct (C l i H) as (s & E & F & G). exists s. split; auto. split; auto.
  rewrite nth_error_app1; auto. apply nth_error_Some. congruence.
Qed.
Lemma class_rel_sels ls is is' k a : same_sels is is' -> length is <= length is' -> class_rel ls is k a -> class_rel ls is' k a.
Proof.
  intros S L (A & B & C & D & E & F). split; [exact A|]. split; [exact B|].
  split; [now apply same_tab with is|]. split; [now apply same_tab with is|].
  split; eapply same_map; eauto. - apply C. - apply D.
Qed.
Lemma class_rel_more ls ls' is k a : class_rel ls is k a -> class_rel (ls ++ ls') is k a.
Proof.
  intros (A & B & C & D & E & F). split; [exact A|]. split; [exact B|].
  split; [now apply tab_more|]. split; [now apply tab_more|]. split; assumption.
Qed.
Lemma Forall_upd {A} (P : A -> Prop) l n x : Forall P l -> P x -> Forall P (upd l n x).
Proof. intros F H. revert n. induction F; intros [|n]; cbn; auto. Qed.
Lemma nth_Forall {A} (P : A -> Prop) l n x : Forall P l -> nth_error l n = Some x -> P x.
Proof. intros F E. rewrite Forall_forall in F. apply F. eapply nth_error_In; eauto. Qed.

Lemma inherit_rel r a i c : rel r a ->
  match s_inherit a i c with
  | Ok a' => exists r', inherit r i c = Ok r' /\ rel r' a'
  | UB => inherit r i c = UB
  | Fatal => inherit r i c = Fatal
  | NoFuel => False
  end.
Proof.
  intros R. pose proof R as (A & B & C & D & E). unfold s_inherit, inherit. destruct c as [c|]; auto. rewrite <- B.
  destruct (nth_error (ifaces r) i) as [f|] eqn:Ef; auto.
  pose proof (lookup_rel r a c true (sel f) R) as L. destruct (s_lookup a c true (sel f)) as [x| | |]; try contradiction.
  2:{ now rewrite L. }
  destruct L as (r' & L & R' & I & Ls). rewrite L. cbn [obind fst snd]. destruct x as [j|]; [|exists r'; auto].
  destruct (nth_error (ifaces r) j) as [g|] eqn:Eg; auto.
  destruct (length (methods f) =? length (methods g)); auto.
  destruct R' as (A' & B' & C' & D' & E'). eexists. split; [reflexivity|].
  rewrite I, Ls in *. split; [exact A'|]. split; [reflexivity|]. split; [exact C'|].
  cbn [ifaces lines classes s_classes].
  split; [apply Forall_upd; auto; cbn; eapply (nth_Forall (fun f => sel f < length (lines r))); eauto|].
  eapply Forall2_mono; [|exact E']. intros k ak. apply class_rel_sels; [now apply same_upd|now rewrite upd_length].
Qed.

Lemma find_msg_rel r a c inst s dyn resp answer : rel r a ->
  match s_find_msg a c inst s dyn resp answer with
  | Ok x => exists r', find_msg r c inst s dyn resp answer = Ok (r', x) /\ rel r' a
  | UB => find_msg r c inst s dyn resp answer = UB
  | _ => False
  end.
Proof.
  intros R. unfold s_find_msg, find_msg. pose proof (lookup_rel r a c inst s R) as L.
  destruct (s_lookup a c inst s) as [x| | |]; try contradiction; [|now rewrite L].
  destruct L as (r1 & L & R1 & _). rewrite L. cbn [obind fst snd]. destruct x as [i|]; [eauto|].
  pose proof (lookup_rel r1 a c inst resp R1) as L1.
  destruct (s_lookup a c inst resp) as [x| | |]; try contradiction; [|now rewrite L1].
  destruct L1 as (r2 & L1 & R2 & _). rewrite L1. cbn [obind fst snd]. destruct x as [h|]; [|eauto].
  destruct (answer h); [|eauto].
  pose proof (lookup_rel r2 a c inst dyn R2) as L2. destruct (s_lookup a c inst dyn) as [x| | |]; try contradiction; [|exact L2].
  destruct L2 as (r3 & L2 & R3 & _). eauto.
Qed.

(** The tables of a root class. *)
Lemma root_rows is l rs m : Forall (fun i => i < length is) l -> Forall (fun i => i < length is) rs -> (forall s, row_find is rs s = m s) ->
  let rs' := fold_left (add_row is) l rs in
  Forall (fun i => i < length is) rs' /\ forall s, row_find is rs' s = fold_left (fun m i => match nth_error is i with Some f => s_bind m (sel f) i | None => m end) l m s.
Proof.
  revert rs m. induction l as [|i l IH]; intros rs m Fl Fr M; cbn; auto. inversion_clear Fl.
  destruct (nth_error is i) as [f|] eqn:E; [|apply nth_error_None in E; lia].
  assert (S: sel_of is i = Some (sel f)) by (unfold sel_of; now rewrite E).
  apply IH; auto; unfold add_row; rewrite S.
  - now apply row_insert_lt.
  - intros s. rewrite row_insert_find by exact S. unfold s_bind. destruct (s =? sel f); auto.
Qed.
Lemma repeat_none l n i : nth_error (repeat (@None nat) n) l = Some (Some i) -> False.
Proof. intros H. apply nth_error_In, repeat_spec in H. discriminate. Qed.
Lemma init_tab ls is t : tab_ok ls is t -> tab_ok ls is (table_init (Some t)).
Proof.
  intros (A & B & C). split; [|split; [exact B|]].
  - cbn [table_init cache]. rewrite app_length, firstn_length, repeat_length, A. reflexivity.
  - cbn [table_init cache rows]. intros l i H. apply C. destruct (lt_dec l 16) as [L|L].
    + rewrite nth_error_app1 in H by (rewrite firstn_length; lia).
      rewrite <- (firstn_skipn 16 (cache t)). rewrite nth_error_app1 by (rewrite firstn_length; lia). exact H.
    + rewrite nth_error_app2 in H by (rewrite firstn_length; lia). now apply repeat_none in H.
Qed.

Lemma exec_rel r a o : rel r a ->
  match s_exec a o with
  | Ok (a', x) => exists r', exec r o = Ok (r', x) /\ rel r' a'
  | UB => exec r o = UB
  | Fatal => exec r o = Fatal
  | NoFuel => False
  end.
Proof.
  intros R. pose proof R as (A & B & C & D & E). destruct o; cbn [s_exec exec].
  - eexists. split; [reflexivity|]. split; [cbn; rewrite app_length; cbn; lia|]. split; [exact B|].
    cbn [lines ifaces classes s_classes]. split; [apply Forall_app; split; auto; constructor; auto; pose proof (Nat.mod_upper_bound (next_line r) 16); lia|].
    split; [eapply Forall_impl; [|exact D]; cbn; intros; rewrite app_length; lia|].
    eapply Forall2_mono; [|exact E]. intros; now apply class_rel_more.
  - destruct (Nat.ltb_spec line 16); auto. eexists. split; [reflexivity|]. split; [cbn; rewrite app_length; cbn; lia|]. split; [exact B|].
    cbn [lines ifaces classes s_classes]. split; [apply Forall_app; split; auto; constructor; auto; lia|].
    split; [eapply Forall_impl; [|exact D]; cbn; intros; rewrite app_length; lia|].
    eapply Forall2_mono; [|exact E]. intros; now apply class_rel_more.
  - rewrite A. destruct (s <? s_sels a) eqn:Q; auto. apply Nat.ltb_lt in Q. eexists. split; [reflexivity|].
    split; [exact A|]. split; [cbn; now rewrite B|]. split; [exact C|]. cbn [lines ifaces classes s_classes].
    split; [apply Forall_app; split; auto; constructor; auto; cbn; lia|].
    eapply Forall2_mono; [|exact E]. intros k ak. apply class_rel_sels; [apply same_app|rewrite app_length; lia].
  - unfold valid_iface. rewrite <- B. destruct (forallb (fun i => i <? length (ifaces r)) (ci ++ ii)) eqn:Q; auto.
    eexists. split; [reflexivity|]. split; [exact A|]. split; [cbn; reflexivity|]. split; [exact C|]. split; [exact D|].
    cbn [lines ifaces classes s_classes]. apply Forall2_app; auto. constructor; auto.
    rewrite forallb_forall in Q.
    assert (Fi: Forall (fun i => i < length (ifaces r)) ii) by (apply Forall_forall; intros; apply Nat.ltb_lt, Q, in_or_app; auto).
    assert (Fc: Forall (fun i => i < length (ifaces r)) ci) by (apply Forall_forall; intros; apply Nat.ltb_lt, Q, in_or_app; auto).
    destruct (root_rows (ifaces r) ii [] (fun _ => None) Fi (Forall_nil _) (fun s => eq_refl)) as [G1 G2].
    destruct (root_rows (ifaces r) ci [] (fun _ => None) Fc (Forall_nil _) (fun s => eq_refl)) as [H1 H2].
    split; [reflexivity|]. split; [reflexivity|].
    split; [split; [reflexivity|]; split; [exact G1|]; intros l i X; now apply (repeat_none l 32) in X|].
    split; [split; [reflexivity|]; split; [exact H1|]; intros l i X; now apply (repeat_none l 32) in X|].
    split; [exact G2|exact H2].
  - pose proof (Forall2_nth _ _ _ sup E) as N.
    destruct (nth_error (classes r) sup) as [k|] eqn:Ek; destruct (nth_error (s_classes a) sup) as [ak|] eqn:Ea; try contradiction; auto.
    pose proof N as (N1 & N2 & N3 & N4 & N5 & N6). rewrite N2. destruct (s_prevent ak); auto.
    eexists. split; [reflexivity|]. split; [exact A|]. split; [exact B|]. split; [exact C|]. split; [exact D|].
    cbn [lines ifaces classes s_classes]. apply Forall2_app; auto. constructor; auto.
    split; [reflexivity|]. split; [reflexivity|]. split; [now apply init_tab|]. split; [now apply init_tab|]. split; [exact N5|exact N6].
  - pose proof (Forall2_nth _ _ _ c E) as N.
    destruct (nth_error (classes r) c) as [k|] eqn:Ek; destruct (nth_error (s_classes a) c) as [ak|] eqn:Ea; try contradiction; auto.
    destruct N as (N1 & _). rewrite N1. pose proof (inherit_rel r a i (s_super ak) R) as I.
    destruct (s_inherit a i (s_super ak)) as [a1| | |]; cbn [obind]; try contradiction; try (now rewrite I).
    destruct I as (r1 & I & R1). rewrite I. cbn [obind]. pose proof (insert_rel r1 a1 c true i R1) as J.
    destruct (s_insert a1 c true i); cbn [obind]; try contradiction; try (now rewrite J).
    destruct J as (r2 & J & R2). rewrite J. cbn [obind]. eauto.
  - pose proof (insert_rel r a c false i R) as J.
    destruct (s_insert a c false i); cbn [obind]; try contradiction; try (now rewrite J).
    destruct J as (r2 & J & R2). rewrite J. cbn [obind]. eauto.
  - rewrite A, <- B. destruct (s <? s_sels a) eqn:Q; auto. apply Nat.ltb_lt in Q.
    assert (R': rel (mkR (lines r) (next_line r) (ifaces r ++ [mkI s [Some m]]) (classes r)) (mkS (s_sels a) (ifaces r ++ [mkI s [Some m]]) (s_classes a))).
    { split; [exact A|]. split; [reflexivity|]. split; [exact C|]. cbn [lines ifaces classes s_classes].
      split; [apply Forall_app; split; auto; constructor; auto; cbn; lia|].
      eapply Forall2_mono; [|exact E]. intros k ak. apply class_rel_sels; [apply same_app|rewrite app_length; lia]. }
    pose proof (insert_rel _ _ c inst (length (ifaces r)) R') as J.
    destruct (s_insert _ c inst (length (ifaces r))); cbn [obind]; try contradiction; try (now rewrite J).
    destruct J as (r2 & J & R2). rewrite J. cbn [obind]. eauto.
  - pose proof (lookup_rel r a c inst s R) as L. destruct (s_lookup a c inst s) as [x| | |]; cbn [obind]; try contradiction; [|now rewrite L].
    destruct L as (r' & L & R' & _). rewrite L. cbn [obind fst snd]. destruct x; eauto.
  - pose proof (lookup_rel r a c inst s R) as L. destruct (s_lookup a c inst s) as [x| | |]; cbn [obind]; try contradiction; [|now rewrite L].
    destruct L as (r' & L & R' & _). rewrite L. cbn [obind fst snd]. eauto.
  - pose proof (find_msg_rel r a c inst s dyn resp answer R) as L. destruct (s_find_msg a c inst s dyn resp answer) as [x| | |]; cbn [obind]; try contradiction; [|now rewrite L].
    destruct L as (r' & L & R'). rewrite L. cbn [obind fst snd]. eauto.
  - pose proof (find_msg_rel r a c inst s dyn resp answer R) as L. destruct (s_find_msg a c inst s dyn resp answer) as [x| | |]; cbn [obind]; try contradiction; [|now rewrite L].
    destruct L as (r' & L & R'). rewrite L. cbn [obind fst snd]. eauto.
  - rewrite <- B. destruct (nth_error (ifaces r) i); eauto.
Qed.
Lemma execs_rel os : forall r a, rel r a -> visible (execs r os) = visible (s_execs a os).
Proof.
  induction os as [|o os IH]; intros r a R; auto. cbn [execs s_execs]. pose proof (exec_rel r a o R) as X.
  destruct (s_exec a o) as [[a' x]| | |]; cbn [obind]; try contradiction; try (now rewrite X).
  destruct X as (r' & X & R'). rewrite X. cbn [obind fst snd]. specialize (IH r' a' R'). unfold visible in *.
  destruct (execs r' os) as [[? ?]| | |], (s_execs a' os) as [[? ?]| | |]; cbn in *; congruence.
Qed.
Lemma rel_start : rel start s_start.
Proof. split; [reflexivity|]. split; [reflexivity|]. split; [constructor|]. split; constructor. Qed.
Lemma refines os : visible (execs start os) = visible (s_execs s_start os).
Proof. apply execs_rel, rel_start. Qed.

(** ** Directly: what a lookup finds after any history *)
Lemma execs_reach os : forall r a r' xs, rel r a -> execs r os = Ok (r', xs) -> exists a', s_execs a os = Ok (a', xs) /\ rel r' a'.
Proof.
  induction os as [|o os IH]; intros r a r' xs R H; cbn [execs s_execs] in *.
  - inversion H. subst. eauto.
  - pose proof (exec_rel r a o R) as X. destruct (s_exec a o) as [[a1 x]| | |]; cbn [obind] in *; try contradiction; try (rewrite X in H; discriminate).
    destruct X as (r1 & X & R1). rewrite X in H. cbn [obind fst snd] in *.
    destruct (execs r1 os) as [[r2 ys]| | |] eqn:Y; cbn in H; try discriminate. inversion H. subst.
    destruct (IH _ _ _ _ R1 Y) as (a2 & Z & R2). rewrite Z. cbn. eauto.
Qed.

(** ** Initialisation and finalization *)
Definition grounded (ks : list class) : Prop := forall c k c', nth_error ks c = Some k -> super k = Some c' -> c' < c.
Lemma upd_super ks n k k' c x : nth_error ks n = Some k -> super k' = super k -> nth_error (upd ks n k') c = Some x -> exists y, nth_error ks c = Some y /\ super x = super y.
Proof. intros E S H. apply nth_upd_cases in H. destruct H as [[-> ->]|[N H]]; eauto. Qed.
Lemma set_super k inst t : super (set_table k inst t) = super k.
Proof. now destruct inst. Qed.
Lemma lookup_grounded r c inst s r' x : grounded (classes r) -> lookup r c inst s = Ok (r', x) -> grounded (classes r').
Proof.
  intros G H. unfold lookup in H. destruct (nth_error (classes r) c) as [k|] eqn:E; [|discriminate].
  destruct (table_find r (get_table k inst) s); cbn in H; try discriminate. inversion H. subst. cbn.
  intros d y d' Y Sy. destruct (upd_super _ _ _ _ _ _ E (set_super _ _ _) Y) as (z & Z & Sz). eapply G; eauto. congruence.
Qed.
Lemma insert_grounded r c inst i r' : grounded (classes r) -> insert r c inst i = Ok r' -> grounded (classes r').
Proof.
  intros G H. unfold insert in H. destruct (nth_error (classes r) c) as [k|] eqn:E; [|discriminate].
  destruct (table_insert r (get_table k inst) i); cbn in H; try discriminate. inversion H. subst. cbn.
  intros d y d' Y Sy. destruct (upd_super _ _ _ _ _ _ E (set_super _ _ _) Y) as (z & Z & Sz). eapply G; eauto. congruence.
Qed.
Lemma grounded_app ks k : grounded ks -> (forall c', super k = Some c' -> c' < length ks) -> grounded (ks ++ [k]).
Proof.
  intros G H c x c' X S. destruct (lt_dec c (length ks)) as [L|L].
  - rewrite nth_error_app1 in X by exact L. eauto.
  - rewrite nth_error_app2 in X by lia. destruct (c - length ks) as [|n] eqn:Q; cbn in X; [|destruct n; discriminate]. inversion X. subst. apply H in S. lia.
Qed.
Lemma find_msg_grounded r c inst s dyn resp answer r' x : grounded (classes r) -> find_msg r c inst s dyn resp answer = Ok (r', x) -> grounded (classes r').
Proof.
  intros G H. unfold find_msg in H. destruct (lookup r c inst s) as [[r1 [i|]]| | |] eqn:L1; cbn in H; try discriminate.
  - inversion H. subst. eapply lookup_grounded; eauto.
  - apply lookup_grounded in L1; auto. destruct (lookup r1 c inst resp) as [[r2 [h|]]| | |] eqn:L2; cbn in H; try discriminate; apply lookup_grounded in L2; auto.
    + destruct (answer h); [eapply lookup_grounded; eauto|]. inversion H. now subst.
    + inversion H. now subst.
Qed.
Lemma exec_grounded r o r' x : grounded (classes r) -> exec r o = Ok (r', x) -> grounded (classes r').
Proof.
  intros G H. destruct o; cbn [exec] in H.
  - inversion H. now subst.
  - destruct (line <? 16); inversion H. now subst.
  - destruct (s <? length (lines r)); inversion H. now subst.
  - destruct (forallb (valid_iface r) (ci ++ ii)); inversion H. subst. cbn. apply grounded_app; auto. discriminate.
  - destruct (nth_error (classes r) sup) as [k|] eqn:E; [|discriminate]. destruct (preventSub k); [discriminate|]. inversion H. subst. cbn.
    apply grounded_app; auto. cbn. intros c' X. inversion X. subst. apply nth_error_Some. congruence.
  - destruct (nth_error (classes r) c) as [k|] eqn:E; [|discriminate].
    destruct (inherit r i (super k)) as [r1| | |] eqn:I; cbn in H; try discriminate.
    destruct (insert r1 c true i) as [r2| | |] eqn:J; cbn in H; try discriminate. inversion H. subst. refine (insert_grounded _ _ _ _ _ _ J).
    unfold inherit in I. destruct (super k) as [d|]; [|discriminate]. destruct (nth_error (ifaces r) i); [|discriminate].
    destruct (lookup r d true (sel i0)) as [[r3 [j|]]| | |] eqn:L; cbn in I; try discriminate; apply lookup_grounded in L; auto.
    + destruct (nth_error (ifaces r) j); [|discriminate]. destruct (_ =? _); [|discriminate]. injection I as <-. exact L.
    + inversion I. now subst.
  - destruct (insert r c false i) as [r2| | |] eqn:J; cbn in H; try discriminate. inversion H. subst. eapply insert_grounded; eauto.
  - destruct (s <? length (lines r)); [|discriminate].
    match type of H with obind ?y _ = _ => destruct y as [r2| | |] eqn:J end; cbn in H; try discriminate. inversion H. subst.
    apply insert_grounded in J; auto.
  - destruct (lookup r c inst s) as [[r1 [i|]]| | |] eqn:L; cbn in H; try discriminate. inversion H. subst. eapply lookup_grounded; eauto.
  - destruct (lookup r c inst s) as [[r1 y]| | |] eqn:L; cbn in H; try discriminate. inversion H. subst. eapply lookup_grounded; eauto.
  - destruct (find_msg r c inst s dyn resp answer) as [[r1 y]| | |] eqn:L; cbn in H; try discriminate. inversion H. subst. eapply find_msg_grounded; eauto.
  - destruct (find_msg r c inst s dyn resp answer) as [[r1 y]| | |] eqn:L; cbn in H; try discriminate. inversion H. subst. eapply find_msg_grounded; eauto.
  - destruct (nth_error (ifaces r) i); inversion H. now subst.
Qed.
Lemma execs_grounded os : forall r r' xs, grounded (classes r) -> execs r os = Ok (r', xs) -> grounded (classes r').
Proof.
  induction os as [|o os IH]; intros r r' xs G H; cbn [execs] in H.
  - inversion H. now subst.
  - destruct (exec r o) as [[r1 x]| | |] eqn:E; cbn in H; try discriminate.
    destruct (execs r1 os) as [[r2 ys]| | |] eqn:F; cbn in H; try discriminate. inversion H. subst. refine (IH _ _ _ _ F). refine (exec_grounded _ _ _ _ G E).
Qed.
Lemma reach_grounded os r xs : execs start os = Ok (r, xs) -> grounded (classes r).
Proof. apply execs_grounded. intros c k c' H. destruct c; discriminate. Qed.
Lemma line_exists ks : grounded ks -> forall c, c < length ks -> exists l, line ks c l.
Proof.
  intros G c. induction c as [c IH] using lt_wf_ind. intros L.
  destruct (nth_error ks c) as [k|] eqn:E; [|apply nth_error_None in E; lia].
  destruct (super k) as [c'|] eqn:S.
  - pose proof (G _ _ _ E S). destruct (IH c' H) as (l & Hl); [lia|]. exists (c :: l). eapply line_sub; eauto.
  - exists [c]. eapply line_root; eauto.
Qed.
Lemma line_length ks : grounded ks -> forall c l, line ks c l -> length l <= S c.
Proof. intros G c l H. induction H; cbn; [lia|]. pose proof (G _ _ _ H H0). lia. Qed.

Lemma finalize_line ks c l : line ks c l -> forall fuel log, length l <= fuel -> finalize_from fuel ks (Some c) log = Ok (log ++ map Finalized (filter (finalizer ks) l)).
Proof.
  induction 1 as [c k E S|c k c' l E S H IH]; intros [|fuel] log L; cbn [length] in L; try lia; cbn [finalize_from]; rewrite E, S.
  - cbn [filter]. assert (W1: finalizer ks c = has_finalize k) by (unfold finalizer; now rewrite E). rewrite W1. destruct fuel; cbn [finalize_from]; destruct (has_finalize k); cbn; auto; now rewrite app_nil_r.
  - rewrite IH by lia. cbn [filter]. assert (W1: finalizer ks c = has_finalize k) by (unfold finalizer; now rewrite E). rewrite W1. destruct (has_finalize k); auto. cbn [map]. now rewrite <- app_assoc.
Qed.
Lemma until_app ok l1 c : until_failure ok (l1 ++ [c]) = if forallb ok l1 then until_failure ok l1 ++ [c] else until_failure ok l1.
Proof.
  induction l1 as [|d l1 IH]; cbn; [now destruct (ok c)|]. destruct (ok d); cbn; auto. rewrite IH. now destruct (forallb ok l1).
Qed.
Lemma init_line ks ok c l : line ks c l -> forall fuel log, length l <= fuel ->
  init_from fuel ks ok (Some c) log =
  if existsb (forbidden ks) l then Fatal
  else Ok (log ++ map Inited (until_failure ok (rev (filter (initialiser ks) l))), forallb ok (filter (initialiser ks) l)).
Proof.
  induction 1 as [c k E S|c k c' l E S H IH]; intros [|fuel] log L; cbn [length] in L; try lia; cbn [init_from]; rewrite E, S;
    assert (W1: initialiser ks c = has_init k) by (unfold initialiser; now rewrite E);
    assert (W2: forbidden ks c = negb (has_init k) && noImplicit k) by (unfold forbidden; now rewrite E);
    cbn [existsb filter]; rewrite W1, W2; clear W1 W2.
  - assert (Z: init_from fuel ks ok None log = Ok (log, true)) by (destruct fuel; reflexivity). rewrite Z.
    destruct (has_init k); cbn.
    + destruct (ok c); reflexivity.
    + destruct (noImplicit k); cbn; auto. now rewrite app_nil_r.
  - rewrite IH by lia. destruct (has_init k) eqn:Hi; cbn [negb andb orb].
    + destruct (existsb (forbidden ks) l); cbn [obind fst snd]; auto. cbn [rev forallb]. rewrite until_app.
      assert (Q: forallb ok (rev (filter (initialiser ks) l)) = forallb ok (filter (initialiser ks) l)).
      { apply eq_true_iff_eq. rewrite !forallb_forall. split; intros X x Hx; apply X; [now apply in_rev in Hx|]. now apply in_rev. }
      rewrite Q. destruct (forallb ok (filter (initialiser ks) l)) eqn:W; cbn [fst snd].
      * rewrite map_app, app_assoc, andb_true_r. reflexivity.
      * now rewrite andb_false_r.
    + destruct (noImplicit k); cbn [orb]; auto.
Qed.
Lemma line_le ks c l : grounded ks -> line ks c l -> c < length ks -> length l <= length ks.
Proof. intros G H L. pose proof (line_length ks G c l H). lia. Qed.
Lemma line_lt ks c l : line ks c l -> c < length ks.
Proof. intros H. inversion H; subst; apply nth_error_Some; congruence. Qed.
Lemma line_bound ks : grounded ks -> forall c l, line ks c l -> forall x, In x l -> x <= c.
Proof.
  intros G c l H. induction H as [c k E S|c k c' l E S H IH]; intros x X; cbn in X; destruct X as [->|X]; try contradiction; auto.
  apply IH in X. pose proof (G _ _ _ E S). lia.
Qed.
Lemma line_NoDup ks : grounded ks -> forall c l, line ks c l -> NoDup l.
Proof.
  intros G c l H. induction H as [c k E S|c k c' l E S H IH].
  - constructor; [intros []|constructor].
  - constructor; auto. intros X. pose proof (line_bound ks G _ _ H _ X). pose proof (G _ _ _ E S). lia.
Qed.
Lemma init_order os r xs ok c : execs start os = Ok (r, xs) -> c < length (classes r) ->
  exists l, line (classes r) c l /\ NoDup l /\
  init_object r ok c = if existsb (forbidden (classes r)) l then Fatal
                       else Ok (map Inited (until_failure ok (rev (filter (initialiser (classes r)) l))), forallb ok (filter (initialiser (classes r)) l)).
Proof.
  intros H L. pose proof (reach_grounded _ _ _ H) as G. destruct (line_exists _ G c L) as (l & Hl). exists l. split; auto.
  split.
  - eapply line_NoDup; eauto.
  - unfold init_object. rewrite (init_line _ ok c l Hl) by (eapply line_le; eauto). reflexivity.
Qed.
Lemma line_fun ks c l l' : line ks c l -> line ks c l' -> l = l'.
Proof.
  intros H. revert l'. induction H; intros l' H'; inversion H'; subst; try congruence.
  assert (c'0 = c') by congruence. subst. f_equal. auto.
Qed.
Lemma finalize_order os r xs c : execs start os = Ok (r, xs) -> c < length (classes r) ->
  exists l, line (classes r) c l /\ NoDup l /\ finalize_object r c = Ok (map Finalized (filter (finalizer (classes r)) l)).
Proof.
  intros H L. destruct (init_order _ _ _ (fun _ => true) c H L) as (l & Hl & N & _). exists l. split; auto. split; auto.
  unfold finalize_object. rewrite (finalize_line _ c l Hl); auto. eapply line_le; eauto. eapply reach_grounded; eauto.
Qed.

(** ** Classes without superclass, and the fast lookup *)
Definition install_root : list op := [NewFastSelector 1; NewInterface 0 [Some 7]; NewRootClass 16 false false [] []; Install 0 0].
Lemma root_refuted : execs start install_root = UB.
Proof. reflexivity. Qed.
(** The comparison interface of DKObject is found, but not by the fast lookup. *)
Definition fast_miss : list op := [NewFastSelector 1; NewInterface 0 [Some 7]; NewRootClass 16 false false [] [0]; NewClass 0 0 false false false false; Query 1 true 0].
Lemma fast_refuted : exists os r xs, execs start os = Ok (r, xs) /\ (exists r', lookup r 1 true 0 = Ok (r', Some 0)) /\ fast r 1 1 = Ok None.
Proof. exists (firstn 4 fast_miss). eexists. eexists. split; [reflexivity|]. split; [eexists; reflexivity|reflexivity]. Qed.
(** What the fast lookup finds is right, provided that no other selector has the line. *)
Lemma fast_sound os r xs c s l i : execs start os = Ok (r, xs) -> nth_error (lines r) s = Some l -> (forall s', nth_error (lines r) s' = Some l -> s' = s) ->
  fast r c l = Ok (Some i) -> exists r', lookup r c true s = Ok (r', Some i).
Proof.
  intros H Hl U F. destruct (execs_reach os _ _ _ _ rel_start H) as (a & _ & R). pose proof R as (A & B & C & D & E).
  unfold fast in F. pose proof (Forall2_nth _ _ _ c E) as N. destruct (nth_error (classes r) c) as [k|] eqn:Ek; [|discriminate].
  destruct (nth_error (s_classes a) c) as [ak|] eqn:Ea; [|contradiction]. destruct N as (_ & _ & (T1 & T2 & T3) & _ & M & _).
  destruct (nth_error (cache (instT k)) l) as [x|] eqn:X; [|discriminate]. injection F as ->.
  destruct (T3 _ _ X) as (s' & S1 & S2 & S3). apply U in S2. subst s'.
  pose proof (lookup_rel r a c true s R) as L. unfold s_lookup in L. rewrite Ea in L.
  destruct (Nat.ltb_spec s (s_sels a)) as [Q|Q]; [|apply nth_error_Some in Hl || (exfalso; rewrite <- A in Q; apply nth_error_None in Q; congruence)].
  - destruct L as (r' & L & _). exists r'. rewrite L. cbn [s_get]. now rewrite <- (M s), S3.
Qed.
Lemma install_works os r xs c k i f : execs start os = Ok (r, xs) -> nth_error (classes r) c = Some k -> super k <> None ->
  nth_error (ifaces r) i = Some f -> (forall j g, nth_error (ifaces r) j = Some g -> sel g = sel f -> length (methods g) = length (methods f)) ->
  exists r', exec r (Install c i) = Ok (r', Nothing) /\ exists r'', lookup r' c true (sel f) = Ok (r'', Some i).
Proof.
  intros H Ek Sk Ei Len. destruct (execs_reach os _ _ _ _ rel_start H) as (a & _ & R). pose proof R as (A & B & C & D & E).
  pose proof (Forall2_nth _ _ _ c E) as N. rewrite Ek in N. destruct (nth_error (s_classes a) c) as [ak|] eqn:Ea; [|contradiction].
  destruct N as (N1 & _). destruct (super k) as [d|] eqn:Sd; [|congruence].
  pose proof (reach_grounded _ _ _ H c k d Ek Sd) as Ld. pose proof (exec_rel r a (Install c i) R) as X. cbn [s_exec] in X. rewrite Ea, <- N1 in X.
  unfold s_inherit in X. rewrite <- B, Ei in X. unfold s_lookup in X.
  assert (Lc: c < length (classes r)) by (apply nth_error_Some; congruence).
  pose proof (Forall2_nth _ _ _ d E) as Nd. destruct (nth_error (classes r) d) as [kd|] eqn:Ed; [|apply nth_error_None in Ed; lia].
  destruct (nth_error (s_classes a) d) as [ad|] eqn:Ead; [|contradiction].
  assert (Ls: sel f < s_sels a) by (rewrite <- A; eapply (nth_Forall (fun f => sel f < length (lines r))); eauto).
  destruct (Nat.ltb_spec (sel f) (s_sels a)) as [_|]; [|lia]. cbn [obind] in X.
  destruct Nd as (_ & _ & (_ & F & _) & _ & M & _).
  assert (K: forall a1 : srt, s_sels a1 = s_sels a -> s_classes a1 = s_classes a -> (exists f', nth_error (s_ifaces a1) i = Some f' /\ sel f' = sel f) ->
     (match (do r1 <- s_insert a1 c true i; Ok (r1, Nothing)) with
      | Ok (a', x) => exists r', exec r (Install c i) = Ok (r', x) /\ rel r' a'
      | UB => exec r (Install c i) = UB | Fatal => exec r (Install c i) = Fatal | NoFuel => False end) ->
     exists r', exec r (Install c i) = Ok (r', Nothing) /\ exists r'', lookup r' c true (sel f) = Ok (r'', Some i)).
  { intros a1 S1 S2 (f' & F1 & F2) Y. unfold s_insert in Y. rewrite S2, Ea, F1 in Y. cbn [obind] in Y. destruct Y as (r' & Y & R'). exists r'. split; [exact Y|].
    pose proof (lookup_rel r' _ c true (sel f) R') as Z. unfold s_lookup in Z. cbn [s_classes s_sels] in Z.
    rewrite nth_error_upd_eq in Z by (apply nth_error_Some; congruence). rewrite S1 in Z.
    destruct (Nat.ltb_spec (sel f) (s_sels a)) as [_|]; [|lia]. destruct Z as (r'' & Z & _). exists r''. rewrite Z. cbn. unfold s_bind. now rewrite F2, Nat.eqb_refl. }
  cbn [s_get] in X. destruct (s_inst ad (sel f)) as [j|] eqn:J.
  - rewrite <- (M (sel f)) in J. pose proof (row_find_sel _ _ _ _ J) as Sj. unfold sel_of in Sj.
    destruct (nth_error (ifaces r) j) as [g|] eqn:Eg; [|discriminate]. cbn in Sj. injection Sj as Sj.
    rewrite (Len j g Eg Sj), Nat.eqb_refl in X. cbn [obind] in X. refine (K _ _ _ _ X); auto.
    cbn. eexists. rewrite nth_error_upd_eq by (apply nth_error_Some; congruence). split; [reflexivity|]. reflexivity.
  - cbn [obind] in X. refine (K _ _ _ _ X); auto. exists f. rewrite <- B. auto.
Qed.
