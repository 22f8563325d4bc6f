Require Import Coq.Lists.List Coq.Bool.Bool Coq.Arith.Arith Coq.micromega.Lia.
Require Import Verif.Base Verif.Own_Model Verif.Own_Spec Verif.Own_Proofs Verif.Own_Calls Verif.Own_Ends Verif.Gone_Model Verif.Gone_Spec.
Import ListNotations.

Lemma lists_elements s a l : lists s a l <-> elements s a l.
Proof.
  split.
  - intros (b & [->| ->] & n & E); exists n; auto.
  - intros (n & [E|E]); [exists (Arr l)|exists (Lnk l)]; (split; [|exists n; exact E]); [left|right]; reflexivity.
Qed.
Lemma skip_nth {A} (d : A) : forall i l, i < length l -> skipn i l = nth i l d :: skipn (S i) l.
Proof. induction i as [|i IH]; intros [|x l] H; cbn [length] in H; try lia; [reflexivity|]. cbn [skipn nth]. rewrite (IH l) by lia. reflexivity. Qed.
(** One element is taken out. *)
Lemma cut_one s a l i : Inv s [] -> In a (hands s) -> lists s a l -> i < length l ->
  exists s', splice s a i 1 [] = Ok s' /\ Inv s' [] /\ keeps a s s' /\ lists s' a (firstn i l ++ skipn (S i) l).
Proof.
  intros I A L R. replace (S i) with (i + 1) by lia. pose proof L as (b & [->| ->] & B).
  - unfold splice. rewrite (body_ok _ _ _ B). cbn [obind]. destruct (Nat.ltb_spec (length l) (i + 1)) as [Q|_]; [lia|].
    unfold array_splice. cbv zeta. cbn [length Nat.min firstn]. rewrite overwrite_none. cbn [obind]. rewrite (list_ok _ _ _ L). cbn [obind Nat.ltb Nat.leb].
    rewrite Nat.add_0_r. destruct (cut_ok s [] a l i 1 I A L) as (s1 & s2 & E1 & E2 & I2 & K2 & L2). rewrite E1. cbn [obind]. exists s2. split; [exact E2|]. auto.
  - unfold splice. rewrite (body_ok _ _ _ B). cbn [obind]. destruct (Nat.ltb_spec (length l) (i + 1)) as [Q|_]; [lia|].
    destruct (remove_ok s [] a l i 1 I A L) as (s2 & E2 & I2 & K2 & L2). rewrite E2. cbn [obind list_insert]. exists s2. auto.
Qed.
Lemma member_live s a l y : Inv s [] -> lists s a l -> In (Some y) l -> exists b, has s y b.
Proof.
  intros I (b & B & H) Y. assert (M : In y (members b)) by (destruct B as [->| ->]; exact (in_somes _ _ Y)).
  destruct (inv_live s [] y I (member_counted s [] a b y H M)) as (n & b' & E). exists b', (S n). exact E.
Qed.
Lemma equal_ok keq s a l r r' : Inv s [] -> lists s a l -> ref_in (live s) r -> In r' l -> equal keq s r r' = Ok (alike keq r r').
Proof.
  intros I L R M. destruct r as [x|], r' as [y|]; cbn [equal alike]; try reflexivity. destruct (x =? y); [reflexivity|].
  destruct R as (n & b & R). destruct (member_live s a l y I L M) as (b' & Y). rewrite (body_ok s x b) by (exists n; exact R). cbn [obind]. rewrite (body_ok _ _ _ Y). reflexivity.
Qed.
Lemma kept_keeps s s' a x : keeps a s s' -> kept s a x -> kept s' a x.
Proof.
  intros (H & K) [X|(y & N & Y & n & b & E & M)]; [left; congruence|right]. exists y. split; [exact N|]. split; [congruence|].
  destruct (K y N Y b) as (n' & E'); [exists n; exact E|]. exists n', b. auto.
Qed.
Lemma kept_live s a x : Inv s [] -> kept s a x -> live s x.
Proof. intros I K. apply (proj1 (inv_sound s I)). destruct K as [X|(y & _ & _ & H)]; [left; exact X|right; exists y; exact H]. Qed.
Definition differs keq r (r' : ref) : bool := negb (alike keq r r').
Lemma filter_all {A} (p : A -> bool) l : (forall x, In x l -> p x = true) -> filter p l = l.
Proof. induction l as [|x l IH]; intros H; cbn [filter]; [reflexivity|]. rewrite (H x (or_introl eq_refl)), IH; [reflexivity|]. intros y Y. apply H. right. exact Y. Qed.
(** The loop, when the object is alive as long as it is needed. *)
Lemma loop_ok keq a r : forall n s l i, Inv s [] -> In a (hands s) -> lists s a l -> i + n = length l -> filter (differs keq r) (firstn i l) = firstn i l ->
  (n <> 0 -> ref_in (live s) r) -> (ref_in (kept s a) r \/ Forall (fun r' => alike keq r r' = false) (removelast (skipn i l))) ->
  exists s', remove_loop keq n s a r i = Ok s' /\ Inv s' [] /\ keeps a s s' /\ lists s' a (filter (differs keq r) l).
Proof.
  induction n as [|n IH]; intros s l i I A L E F R K.
  - exists s. split; [reflexivity|]. split; [exact I|]. split; [apply keeps_refl|]. rewrite firstn_all2 in F by lia. rewrite F. exact L.
  - cbn [remove_loop]. rewrite (list_ok _ _ _ L). cbn [obind].
    assert (M : In (nth i l None) l) by (apply nth_In; lia). assert (Rr : ref_in (live s) r) by (apply R; discriminate).
    rewrite (equal_ok keq s a l r _ I L Rr M). cbn [obind].
    pose proof (skip_nth (None : ref) i l ltac:(lia)) as SK. set (y := nth i l None) in *.
    destruct (alike keq r y) eqn:Q.
    + destruct (cut_one s a l i I A L) as (s1 & E1 & I1 & K1 & L1); [lia|]. rewrite E1. cbn [obind].
      set (l1 := firstn i l ++ skipn (S i) l) in *.
      assert (FL : filter (differs keq r) l = filter (differs keq r) l1).
      { unfold l1. rewrite <- (firstn_skipn i l) at 1. rewrite SK, !filter_app. f_equal. cbn [filter]. unfold differs at 1. rewrite Q. reflexivity. }
      assert (LF : length (firstn i l) = i) by (rewrite firstn_length; lia).
      assert (F1 : firstn i l1 = firstn i l) by (unfold l1; rewrite firstn_app, LF, Nat.sub_diag; cbn [firstn]; rewrite app_nil_r, firstn_firstn, Nat.min_id; reflexivity).
      assert (S1 : skipn i l1 = skipn (S i) l) by (unfold l1; rewrite skipn_app, LF, Nat.sub_diag; rewrite (skipn_all2 (firstn i l)) by lia; reflexivity).
      assert (N1 : i + n = length l1) by (unfold l1; rewrite app_length, LF, skipn_length; lia).
      assert (KK : ref_in (kept s1 a) r \/ n = 0).
      { destruct K as [K|K].
        - left. destruct r as [x|]; [|exact Logic.I]. exact (kept_keeps s s1 a x K1 K).
        - right. rewrite SK in K. destruct n as [|n]; [reflexivity|exfalso]. destruct (skipn (S i) l) as [|z zs] eqn:Z; [apply (f_equal (@length _)) in Z; rewrite skipn_length in Z; cbn [length] in Z; lia|].
          cbn [removelast] in K. inversion K; congruence. }
      destruct (IH s1 l1 i I1) as (s2 & E2 & I2 & K2 & L2); [rewrite (proj1 K1); exact A|exact L1|exact N1|rewrite F1; exact F| | |].
      * intros Nn. destruct KK as [KK|KK]; [|lia]. destruct r as [x|]; [|exact Logic.I]. exact (kept_live s1 a x I1 KK).
      * destruct KK as [KK|KK]; [left; exact KK|right]. rewrite S1. rewrite (skipn_all2 l) by lia. constructor.
      * exists s2. split; [exact E2|]. split; [exact I2|]. split; [exact (keeps_trans _ _ _ _ K1 K2)|]. rewrite FL. exact L2.
    + destruct (IH s l (S i) I A L) as (s2 & H2); [lia| |intros _; exact Rr| |exists s2; exact H2].
      * assert (FS : firstn (S i) l = firstn i l ++ [y]).
        { rewrite <- (firstn_skipn i l) at 1. rewrite SK, firstn_app, firstn_firstn, firstn_length. replace (Nat.min (S i) i) with i by lia. replace (S i - Nat.min i (length l)) with 1 by lia. reflexivity. }
        rewrite FS, filter_app, F. f_equal. cbn [filter]. unfold differs. rewrite Q. reflexivity.
      * destruct K as [K|K]; [left; exact K|right]. rewrite SK in K. destruct (skipn (S i) l) as [|z zs]; [constructor|]. change (removelast (y :: z :: zs)) with (y :: removelast (z :: zs)) in K. inversion K; assumption.
Qed.
Lemma remove_object_ok keq s a l r : Inv s [] -> In a (hands s) -> lists s a l -> ref_in (live s) r -> (ref_in (kept s a) r \/ only_last keq l r) ->
  exists s', remove_object keq s a r = Ok s' /\ Inv s' [] /\ keeps a s s' /\ lists s' a (filter (differs keq r) l).
Proof.
  intros I A L R K. unfold remove_object. rewrite (list_ok _ _ _ L). cbn [obind]. apply (loop_ok keq a r (length l) s l 0); auto.
Qed.
Lemma call_ok keq s c : Inv s [] -> careful_call keq s c -> do_call keq s c = Fatal \/ exists s', do_call keq s c = Ok s' /\ Inv s' [].
Proof.
  intros I C. destruct c as [o|a r]; cbn [do_call careful_call] in *; [exact (step_ok keq s o I C)|]. destruct C as (A & R & K).
  destruct (inv_owned s [] a I A) as (b & B). assert (D : (exists l, lists s a l) \/ remove_object keq s a r = Fatal).
  { unfold remove_object, list_of. rewrite (body_ok _ _ _ B). cbn [obind]. destruct b as [|l|l|es|es|x y]; auto; left; exists l; (eexists; split; [|exact B]); [left|right]; reflexivity. }
  destruct D as [(l & L)|D]; [right|left; exact D]. destruct (remove_object_ok keq s a l r I A L R) as (s' & E & I' & _); [|exists s'; auto].
  destruct K as [K|(l' & L' & K)]; [left; exact K|right]. apply lists_elements in L'. pose proof (list_ok _ _ _ L) as Q. rewrite (list_ok _ _ _ L') in Q. injection Q as Q. rewrite <- Q. exact K.
Qed.
Lemma calls_ok keq : forall cs s, Inv s [] -> follows (careful_call keq) keq s cs -> calls keq s cs = Fatal \/ exists s', calls keq s cs = Ok s' /\ Inv s' [].
Proof.
  induction cs as [|c cs IH]; intros s I F; cbn [calls follows] in *; [right; exists s; auto|]. destruct F as (C & F).
  destruct (call_ok keq s c I C) as [E|(s' & E & I')]; rewrite E; cbn [obind]; [left; reflexivity|]. exact (IH s' I' (F s' E)).
Qed.
(** After any such program. *)
Lemma program_ok keq cs : follows (careful_call keq) keq init cs -> calls keq init cs = Fatal \/ exists s, calls keq init cs = Ok s /\ sound s.
Proof. intros F. destruct (calls_ok keq cs init init_inv F) as [E|(s & E & I)]; [left; exact E|right]. exists s. split; [exact E|apply inv_sound, I]. Qed.
Lemma removed keq cs s a l r : follows (careful_call keq) keq init cs -> calls keq init cs = Ok s -> In a (hands s) -> elements s a l -> ref_in (live s) r ->
  (ref_in (kept s a) r \/ only_last keq l r) ->
  exists s', remove_object keq s a r = Ok s' /\ sound s' /\ elements s' a (filter (fun r' => negb (alike keq r r')) l) /\
    forall y n b, y <> a -> In y (hands s) -> nth_error (cells s) y = Some (Live n b) -> exists n', nth_error (cells s') y = Some (Live n' b).
Proof.
  intros F E A L R K. destruct (calls_ok keq cs init init_inv F) as [E'|(s0 & E' & I)]; [congruence|]. assert (s0 = s) by congruence. subst s0.
  apply lists_elements in L. destruct (remove_object_ok keq s a l r I A L R K) as (s' & E1 & I1 & K1 & L1). exists s'. split; [exact E1|]. split; [apply inv_sound, I1|].
  split; [apply lists_elements, L1|]. intros y n b N Y B. destruct (proj2 K1 y N Y b) as (n' & B'); [exists n; exact B|]. exists n'. exact B'.
Qed.
(** Deciding. *)
Definition may_call_b (s : state) (c : call) : bool :=
  match c with Other o => allowed_b s o | RemoveObject a r => own_b s a && ref_b (live_b s) r end.
Fixpoint follows_b (P : state -> call -> bool) keq (s : state) (cs : list call) : bool :=
  match cs with [] => true | c :: cs' => P s c && match do_call keq s c with Ok s' => follows_b P keq s' cs' | _ => true end end.
Lemma follows_t (P : state -> call -> bool) (Q : state -> call -> Prop) keq : (forall s c, P s c = true -> Q s c) -> forall cs s, follows_b P keq s cs = true -> follows Q keq s cs.
Proof.
  intros H. induction cs as [|c cs IH]; intros s B; cbn [follows follows_b] in *; [exact I|]. apply andb_true_iff in B. destruct B as (B & C). split; [apply H, B|].
  intros s' E. rewrite E in C. apply IH, C.
Qed.
Lemma may_run keq cs s : follows_b may_call_b keq s cs = true -> follows may_call keq s cs.
Proof.
  apply follows_t. intros t [o|a r]; cbn [may_call may_call_b]; [apply allowed_t|]. intros H. apply andb_true_iff in H. destruct H as (A & B). split; [exact (own_t t a A)|exact (ref_t _ _ _ (live_t t) B)].
Qed.
Definition careful_b (s : state) (c : call) : bool :=
  match c with Other o => allowed_b s o && owned_b s o | RemoveObject a r => own_b s a && ref_b (live_b s) r && ref_b (own_b s) r end.
Lemma careful_calls keq cs s : follows_b careful_b keq s cs = true -> follows (careful_call keq) keq s cs.
Proof.
  apply follows_t. intros t [o|a r] H; cbn [careful_call careful_b] in *.
  - apply andb_true_iff in H. destruct H as (A & B). split; [apply allowed_t, A|intros _; apply owned_t, B].
  - apply andb_true_iff in H. destruct H as (H & C). apply andb_true_iff in H. destruct H as (A & B). split; [exact (own_t t a A)|]. split; [exact (ref_t _ _ _ (live_t t) B)|].
    left. destruct r as [x|]; [|exact Logic.I]. left. exact (own_t t x C).
Qed.
