(** Proofs about what keeps objects alive: programs that pass whatever exists, as long as nothing goes wrong. *)
Require Import Coq.Lists.List Coq.Bool.Bool Coq.Arith.Arith Coq.micromega.Lia.
Require Import Verif.Base Verif.Own_Model Verif.Own_Spec Verif.Own_Proofs Verif.Own_Calls Verif.Own_Ends.
Require Verif.HashTable_Model.
Import ListNotations.

Definition may {A} (r : outcome A) (Q : A -> Prop) : Prop := match r with Ok a => Q a | UB | Fatal => True | NoFuel => False end.
Lemma may_bind {A B} (x : outcome A) (f : A -> outcome B) (P : A -> Prop) (Q : B -> Prop) : may x P -> (forall a, P a -> may (f a) Q) -> may (obind x f) Q.
Proof. destruct x; cbn; auto. Qed.
Lemma may_ok {A} (r : outcome A) a (Q : A -> Prop) : r = Ok a -> Q a -> may r Q.
Proof. intros -> H. exact H. Qed.
Definition good (a : nat) (e : list nat) (s s' : state) : Prop := Inv s' e /\ keeps a s s'.
Lemma good_refl a e s : Inv s e -> good a e s s.
Proof. intros I. split; [exact I|apply keeps_refl]. Qed.
Lemma good_trans a e s s' : keeps a s s' -> forall r : outcome state, may r (good a e s') -> may r (good a e s).
Proof. intros K [s''| | |]; cbn; auto. intros (I & K'). split; [exact I|exact (keeps_trans _ _ _ _ K K')]. Qed.

Lemma may_retain s e r : Inv s e -> may (retain s r) (fun s' => Inv s' (somes [r] ++ e) /\ frame (fun _ => True) s s').
Proof.
  intros I. destruct (retain s r) as [s'| | |] eqn:E; try exact Logic.I.
  - assert (C : ref_in (counted s e) r).
    { destruct r as [x|]; [|exact Logic.I]. cbn [retain] in E. cbn. apply (live_counted s e x I). destruct (nth_error (cells s) x) as [[n b|]|] eqn:X; try discriminate. exists n, b. exact X. }
    destruct (retain_ref s e r I C) as (s'' & E' & I' & F). assert (s'' = s') by congruence. subst s''. split; assumption.
  - destruct r as [x|]; cbn [retain] in E; [|discriminate]. destruct (nth_error (cells s) x) as [[[|n] b|]|]; discriminate.
Qed.
Lemma may_retain_all : forall xs s e, Inv s e -> may (retain_all s xs) (fun s' => Inv s' (somes xs ++ e) /\ frame (fun _ => True) s s').
Proof.
  induction xs as [|x xs IH]; intros s e I; cbn [retain_all]; [split; [exact I|apply frame_refl]|].
  apply (may_bind _ _ _ _ (may_retain s e x I)). intros s1 (I1 & F1). specialize (IH s1 _ I1). destruct (retain_all s1 xs); cbn [may] in *; auto. destruct IH as (I2 & F2). split; [|exact (frame_trans _ _ _ _ F1 F2)].
  apply (inv_perm a _ _) with (2 := I2). intros y. rewrite (somes_cons x xs), !cnt_app. lia.
Qed.
Lemma may_overwrite : forall xs s e a l i, Inv s e -> In a (hands s) -> lists s a l -> i + length xs <= length l ->
  may (overwrite s a i xs) (fun s' => good a e s s' /\ exists l', lists s' a l' /\ length l' = length l).
Proof.
  induction xs as [|x xs IH]; intros s e a l i I A L B; cbn [overwrite]; [split; [apply good_refl, I|eauto]|].
  apply (may_bind _ _ _ _ (may_retain s e x I)). intros s0 (I0 & F0).
  pose proof (frame_lists _ _ _ _ _ F0 Logic.I L) as L0. rewrite (list_ok _ _ _ L0). cbn [obind]. cbv zeta.
  assert (A0 : In a (hands s0)) by (rewrite (proj1 F0); exact A). cbn [length] in B.
  destruct (slot_ok s0 e a l i x I0 A0 L0 ltac:(lia)) as (s1 & s2 & s3 & E1 & E2 & E3 & I3 & K3 & L3). rewrite E1. cbn [obind]. rewrite E2. cbn [obind]. rewrite E3. cbn [obind].
  assert (K : keeps a s s3) by (apply (keeps_trans a s s0 s3); [apply (frame_keeps _ a s s0) with (2 := F0); auto|exact K3]).
  assert (A3 : In a (hands s3)) by (rewrite (proj1 K); exact A).
  specialize (IH s3 e a (upd l i x) (S i) I3 A3 L3). rewrite upd_length in IH. specialize (IH ltac:(lia)).
  destruct (overwrite s3 a (S i) xs); cbn [may] in *; auto. destruct IH as ((I4 & K4) & H). split; [|exact H]. split; [exact I4|exact (keeps_trans _ _ _ _ K K4)].
Qed.
Lemma may_insert : forall xs s e a l i, Inv s e -> In a (hands s) -> lists s a l -> may (list_insert s a i xs) (good a e s).
Proof.
  induction xs as [|x xs IH]; intros s e a l i I A L; cbn [list_insert]; [apply good_refl, I|].
  apply (may_bind _ _ _ _ (may_retain s e x I)). intros s0 (I0 & F0).
  pose proof (frame_lists _ _ _ _ _ F0 Logic.I L) as L0. rewrite (list_ok _ _ _ L0). cbn [obind].
  destruct (set_list_ok s0 _ e a l (firstn i l ++ x :: skipn i l) I0 L0) as (s1 & E1 & I1 & K1 & L1).
  { intros y. rewrite somes_app, (somes_cons x), !cnt_app. pose proof (cnt_split l i y). lia. }
  rewrite E1. cbn [obind].
  assert (K : keeps a s s1) by (apply (keeps_trans a s s0 s1); [apply (frame_keeps _ a s s0) with (2 := F0); auto|exact K1]).
  apply (good_trans a e s s1 K). apply (IH s1 e a (firstn i l ++ x :: skipn i l)); [exact I1|rewrite (proj1 K); exact A|exact L1].
Qed.
Lemma may_splice s e a i n xs : Inv s e -> In a (hands s) -> may (splice s a i n xs) (good a e s).
Proof.
  intros I A. destruct (inv_owned s e a I A) as (b & B). unfold splice. rewrite (body_ok _ _ _ B). cbn [obind].
  destruct b as [|l|l|es|es|x y]; try exact Logic.I.
  - assert (L : lists s a l) by (exists (Arr l); split; [left; reflexivity|exact B]).
    destruct (Nat.ltb_spec (length l) (i + n)) as [R|R]; [apply good_refl, I|]. unfold array_splice. cbv zeta. set (ov := Nat.min n (length xs)).
    assert (Hov : ov <= n) by (unfold ov; lia).
    apply (may_bind _ _ _ _ (may_overwrite (firstn ov xs) s e a l i I A L ltac:(rewrite firstn_length; lia))). intros s1 ((I1 & K1) & l1 & L1 & N1).
    rewrite (list_ok _ _ _ L1). cbn [obind]. assert (A1 : In a (hands s1)) by (rewrite (proj1 K1); exact A). apply (good_trans a e s s1 K1).
    destruct (n <? length xs).
    + apply (may_bind _ _ _ _ (may_retain_all (skipn ov xs) s1 e I1)). intros s2 (I2 & F2). pose proof (frame_lists _ _ _ _ _ F2 Logic.I L1) as L2.
      destruct (set_list_ok s2 _ e a l1 (firstn (i + ov) l1 ++ skipn ov xs ++ skipn (i + ov) l1) I2 L2) as (s3 & E3 & I3 & K3 & L3).
      { intros x. rewrite !somes_app, !cnt_app. pose proof (cnt_split l1 (i + ov) x). lia. }
      apply (may_ok _ s3 _ E3). split; [exact I3|]. apply (keeps_trans a s1 s2 s3); [|exact K3]. apply (frame_keeps _ a s1 s2) with (2 := F2). auto.
    + destruct (cut_ok s1 e a l1 (i + ov) (n - ov) I1 A1 L1) as (s2 & s3 & E2 & E3 & I3 & K3 & _).
      replace (i + ov + (n - ov)) with (i + n) in E2 by lia. rewrite E2. cbn [obind]. apply (may_ok _ s3 _ E3). split; assumption.
  - assert (L : lists s a l) by (exists (Lnk l); split; [right; reflexivity|exact B]).
    destruct (Nat.ltb_spec (length l) (i + n)) as [R|R]; [apply good_refl, I|].
    destruct (remove_ok s e a l i n I A L) as (s1 & E1 & I1 & K1 & L1). rewrite E1. cbn [obind].
    apply (good_trans a e s s1 K1). apply (may_insert xs s1 e a _ i I1) with (2 := L1). rewrite (proj1 K1). exact A.
Qed.
Lemma may_objects s c : may (objects_of s c) (fun _ => True).
Proof. unfold objects_of, body_of. destruct (nth_error (cells s) c) as [[n [|l|l|es|es|x y]|]|]; exact Logic.I. Qed.
Lemma may_splice_all s e a i n c : Inv s e -> In a (hands s) -> may (splice_all s a i n c) (good a e s).
Proof.
  intros I A. destruct (inv_owned s e a I A) as (b & B). unfold splice_all. rewrite (body_ok _ _ _ B). cbn [obind].
  assert (X : forall l, lists s a l -> may (if length l <? i + n then Ok s else do s0 <- list_remove s a i n; do xs <- objects_of s0 c; list_insert s0 a i xs) (good a e s)).
  { intros l L. destruct (length l <? i + n); [apply good_refl, I|]. destruct (remove_ok s e a l i n I A L) as (s1 & E1 & I1 & K1 & L1). rewrite E1. cbn [obind].
    apply (good_trans a e s s1 K1). apply (may_bind _ _ _ _ (may_objects s1 c)). intros xs _. apply (may_insert xs s1 e a _ i I1) with (2 := L1). rewrite (proj1 K1). exact A. }
  destruct b as [|l|l|es|es|x y]; try exact Logic.I; apply X; eexists; (split; [|exact B]); [left|right]; reflexivity.
Qed.
Section Keys.
  Variable keq : nat -> nat -> bool.
  Lemma may_enter (T : list (nat * ref) -> body) s e d es k v : (forall es, members (T es) = of_entries es) -> Inv s e -> has s d (T es) ->
    may (do s1 <- retain s (Some k); do s2 <- retain s1 v; set_body s2 d (T (es ++ [(k, v)]))) (good d e s).
  Proof.
    intros MT I B. apply (may_bind _ _ _ _ (may_retain s e (Some k) I)). intros s1 (I1 & F1). apply (may_bind _ _ _ _ (may_retain s1 _ v I1)). intros s2 (I2 & F2).
    pose proof (frame_trans _ _ _ _ F1 F2) as F. pose proof (frame_has _ _ _ _ _ F Logic.I B) as B2.
    destruct (set_body_ok s2 _ e d _ (T (es ++ [(k, v)])) I2 B2) as (s3 & E3 & I3 & K3 & B3).
    { intros x. rewrite !MT, of_entries_app, !cnt_app. rewrite (entry_cons (k, v) []), cnt_app. cbn [fst snd]. rewrite (cnt_cons k (somes [v])). change (somes [Some k]) with [k]. change (of_entries []) with (@nil nat). cbn [count_occ]. lia. }
    apply (may_ok _ s3 _ E3). split; [exact I3|]. apply (keeps_trans d s s2 s3); [|exact K3]. apply (frame_keeps _ d s s2) with (2 := F). auto.
  Qed.
  Lemma may_around s e d k (f : state -> outcome state) : Inv s e -> In d (hands s) -> (forall s0, Inv s0 (k :: e) -> frame (fun _ => True) s s0 -> In d (hands s0) -> may (f s0) (good d (k :: e) s0)) ->
    may (do s <- retain s (Some k); do s <- f s; release s [k]) (good d e s).
  Proof.
    intros I D H. apply (may_bind _ _ _ _ (may_retain s e (Some k) I)). intros s0 (I0 & F0). assert (D0 : In d (hands s0)) by (rewrite (proj1 F0); exact D).
    apply (may_bind _ _ _ _ (H s0 I0 F0 D0)). intros s1 (I1 & K1). assert (D1 : In d (hands s1)) by (rewrite (proj1 K1); exact D0).
    destruct (release_key s1 e d k I1 D1) as (s2 & E2 & I2 & K2). apply (may_ok _ s2 _ E2). split; [exact I2|].
    apply (keeps_trans d s s0 s2); [apply (frame_keeps _ d s s0) with (2 := F0); auto|exact (keeps_trans _ _ _ _ K1 K2)].
  Qed.
  Lemma may_hash_put s e d es k v p : Inv s e -> In d (hands s) -> has s d (Hash es) -> may (hash_put keq s d es k v p) (good d e s).
  Proof.
    intros I D B. unfold hash_put. revert I D. intros I D.
    apply (may_around s e d k (fun s => match find_key keq es k, p with
            | Some (_, old), HashTable_Model.InsertIfNotFound => Ok s
            | Some (_, old), _ => if same old v then Ok s else do s <- set_body s d (Hash (set_key keq es k None)); do s <- release_ref s old; do s <- retain s v; set_body s d (Hash (set_key keq es k v))
            | None, HashTable_Model.InsertIfFound => Ok s
            | None, _ => do s <- retain s (Some k); do s <- retain s v; set_body s d (Hash (es ++ [(k, v)])) end) I D).
    intros s0 I0 F0 D0. pose proof (frame_has _ _ _ _ _ F0 Logic.I B) as B0. pose proof (good_refl d _ _ I0) as Same.
    destruct (find_key keq es k) as [(k', old)|] eqn:Q.
    - assert (Upd : may (if same old v then Ok s0 else do s1 <- set_body s0 d (Hash (set_key keq es k None)); do s2 <- release_ref s1 old; do s3 <- retain s2 v; set_body s3 d (Hash (set_key keq es k v))) (good d (k :: e) s0)).
      { destruct (same old v); [exact Same|].
        destruct (set_body_ok s0 _ (somes [old] ++ k :: e) d _ (Hash (set_key keq es k None)) I0 B0) as (s1 & E1 & I1 & K1 & B1).
        { intros x. cbn [members]. pose proof (cnt_set keq es k None k' old x Q) as C. change (somes [None]) with (@nil nat) in C. rewrite cnt_app. cbn [count_occ] in *. lia. }
        rewrite E1. cbn [obind]. destruct (release_ok _ _ _ I1) as (s2 & E2 & I2 & F2). unfold release_ref. rewrite E2. cbn [obind].
        assert (D1 : In d (hands s1)) by (rewrite (proj1 K1); exact D0).
        apply (may_bind _ _ _ _ (may_retain s2 _ v I2)). intros s3 (I3 & F3).
        assert (B3 : has s3 d (Hash (set_key keq es k None))) by (apply (frame_has _ _ _ _ _ F3 Logic.I); apply (frame_has _ _ _ _ _ F2); [left; exact D1|exact B1]).
        destruct (set_body_ok s3 _ (k :: e) d _ (Hash (set_key keq es k v)) I3 B3) as (s4 & E4 & I4 & K4 & B4).
        { intros x. cbn [members]. pose proof (cnt_set keq es k None k' old x Q) as C. pose proof (cnt_set keq es k v k' old x Q) as C'. change (somes [None]) with (@nil nat) in C. rewrite cnt_app. cbn [count_occ] in C. lia. }
        apply (may_ok _ s4 _ E4). split; [exact I4|]. apply (keeps_trans d s0 s1 s4 K1). apply (keeps_trans d s1 s2 s4); [apply (frame_keeps _ d s1 s2) with (2 := F2); auto|].
        apply (keeps_trans d s2 s3 s4); [apply (frame_keeps _ d s2 s3) with (2 := F3); auto|exact K4]. }
      destruct p; [exact Upd|exact Upd|exact Same].
    - pose proof (may_enter Hash s0 (k :: e) d es k v (fun _ => eq_refl) I0 B0) as Ent. destruct p; [exact Ent|exact Same|exact Ent].
  Qed.
  Lemma may_tree_put s e d es k v p : Inv s e -> In d (hands s) -> has s d (Tree es) -> may (tree_put keq s d es k v p) (good d e s).
  Proof.
    intros I D B. unfold tree_put.
    apply (may_around s e d k (fun s => match find_key keq es k, p with
            | Some (_, old), HashTable_Model.InsertIfNotFound => Ok s
            | Some (_, old), _ => do s <- retain s v; do s <- set_body s d (Tree (set_key keq es k None)); do s <- release_ref s old; set_body s d (Tree (set_key keq es k v))
            | None, HashTable_Model.InsertIfFound => Ok s
            | None, _ => do s <- retain s (Some k); do s <- retain s v; set_body s d (Tree (es ++ [(k, v)])) end) I D).
    intros s0 I0 F0 D0. pose proof (frame_has _ _ _ _ _ F0 Logic.I B) as B0. pose proof (good_refl d _ _ I0) as Same.
    destruct (find_key keq es k) as [(k', old)|] eqn:Q.
    - assert (Upd : may (do s1 <- retain s0 v; do s2 <- set_body s1 d (Tree (set_key keq es k None)); do s3 <- release_ref s2 old; set_body s3 d (Tree (set_key keq es k v))) (good d (k :: e) s0)).
      { apply (may_bind _ _ _ _ (may_retain s0 _ v I0)). intros s1 (I1 & F1). pose proof (frame_has _ _ _ _ _ F1 Logic.I B0) as B1.
        destruct (set_body_ok s1 _ (somes [old] ++ somes [v] ++ k :: e) d _ (Tree (set_key keq es k None)) I1 B1) as (s2 & E2 & I2 & K2 & B2).
        { intros x. cbn [members]. pose proof (cnt_set keq es k None k' old x Q) as C. change (somes [None]) with (@nil nat) in C. rewrite !cnt_app. cbn [count_occ] in *. lia. }
        rewrite E2. cbn [obind]. destruct (release_ok _ _ _ I2) as (s3 & E3 & I3 & F3). unfold release_ref. rewrite E3. cbn [obind].
        assert (D2 : In d (hands s2)) by (rewrite (proj1 K2), (proj1 F1); exact D0).
        assert (B3 : has s3 d (Tree (set_key keq es k None))) by (apply (frame_has _ _ _ _ _ F3); [left; exact D2|exact B2]).
        destruct (set_body_ok s3 _ (k :: e) d _ (Tree (set_key keq es k v)) I3 B3) as (s4 & E4 & I4 & K4 & B4).
        { intros x. cbn [members]. pose proof (cnt_set keq es k None k' old x Q) as C. pose proof (cnt_set keq es k v k' old x Q) as C'. change (somes [None]) with (@nil nat) in C. rewrite cnt_app. cbn [count_occ] in C. lia. }
        apply (may_ok _ s4 _ E4). split; [exact I4|]. apply (keeps_trans d s0 s1 s4); [apply (frame_keeps _ d s0 s1) with (2 := F1); auto|]. apply (keeps_trans d s1 s2 s4 K2).
        apply (keeps_trans d s2 s3 s4); [apply (frame_keeps _ d s2 s3) with (2 := F3); auto|exact K4]. }
      destruct p; [exact Upd|exact Upd|exact Same].
    - pose proof (may_enter Tree s0 (k :: e) d es k v (fun _ => eq_refl) I0 B0) as Ent. destruct p; [exact Ent|exact Same|exact Ent].
  Qed.
  Lemma may_step s o : Inv s [] -> allowed s o -> may (step keq s o) (fun s' => Inv s' []).
  Proof.
    intros I A. assert (W : forall r a, may r (good a [] s) -> may r (fun s' => Inv s' [])) by (intros [s'| | |] a; cbn; auto; intros (I' & _); exact I').
    assert (W' : forall r a, (r = Fatal \/ exists s', r = Ok s' /\ Inv s' [] /\ keeps a s s') -> may r (fun s' => Inv s' [])) by (intros r a [->|(s' & -> & I' & _)]; [exact Logic.I|exact I']).
    assert (Z : forall r : outcome state, (r = Fatal \/ exists s', r = Ok s' /\ Inv s' []) -> may r (fun s' => Inv s' [])) by (intros r [->|(s' & -> & I')]; [exact Logic.I|exact I']).
    destruct o as [b|a b|x|x|a i n xs|a i n c|d k v p|d k|d]; cbn [allowed] in A.
    1-4: apply Z; apply step_ok; [exact I|]; split; [exact A|intros []].
    - apply (W _ a). apply may_splice; [exact I|apply A].
    - apply (W _ a). apply may_splice_all; [exact I|apply A].
    - apply (W _ d). cbn [step]. unfold put. destruct A as (D & _). destruct (inv_owned s [] d I D) as (b & B). rewrite (body_ok _ _ _ B). cbn [obind].
      destruct b as [|l|l|es|es|x y]; try exact Logic.I; [apply may_hash_put|apply may_tree_put]; assumption.
    - apply Z; apply step_ok; [exact I|]; split; [exact A|intros []].
    - apply Z; apply step_ok; [exact I|]; split; [exact A|intros []].
  Qed.
  Lemma may_run : forall os s, Inv s [] -> obeys allowed keq s os -> may (run keq s os) (fun s' => Inv s' []).
  Proof.
    induction os as [|o os IH]; intros s I O; cbn [run]; [exact I|]. destruct O as (A & O). pose proof (may_step s o I A) as M. destruct (step keq s o) as [s'| | |] eqn:E; cbn [obind may] in *; auto.
  Qed.
End Keys.
Lemma may_sound keq os s : obeys allowed keq init os -> run keq init os = Ok s -> sound s.
Proof. intros O E. pose proof (may_run keq os init init_inv O) as M. rewrite E in M. apply inv_sound, M. Qed.
Lemma freed_iff keq os s : obeys allowed keq init os -> run keq init os = Ok s -> forall x, x < length (cells s) -> (freed s x <-> ~ held s x).
Proof.
  intros O E x L. destruct (may_sound keq os s O E) as (H & _). rewrite <- (H x). unfold freed, live. destruct (nth_error (cells s) x) as [[n b|]|] eqn:X.
  - split; [discriminate|]. intros N. exfalso. apply N. eauto.
  - split; [|reflexivity]. intros _ (n & b & Y). discriminate Y.
  - apply nth_error_None in X. lia.
Qed.
Lemma all_freed keq os s : obeys allowed keq init os -> run keq init os = Ok s -> hands s = [] -> (forall x, ~ chain s x x) -> forall x, x < length (cells s) -> freed s x.
Proof.
  intros O E H N x L. pose proof (may_sound keq os s O E) as S'. destruct (nth_error (cells s) x) as [[n b|]|] eqn:X; [exfalso|exact X|apply nth_error_None in X; lia].
  assert (V : live s x) by (exists n, b; exact X). apply (live_iff s x S') in V. destruct V as (w & [R|R] & _); [rewrite H in R; destruct R|exact (N w R)].
Qed.
