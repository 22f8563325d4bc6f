(** Proofs about read-write locks. *)
Require Import Coq.Lists.List Coq.Arith.Arith Coq.Bool.Bool Lia.
Require Import Verif.Base Verif.Lock_Model Verif.Lock_Spec.
Import ListNotations.

Fixpoint total (f : pc -> nat) (l : list pc) : nat := match l with [] => 0 | a :: l' => f a + total f l' end.
Lemma total_app : forall f l l', total f (l ++ l') = total f l + total f l'.
Proof. intros f; induction l as [|a l IH]; intros l'; cbn; [reflexivity|rewrite IH; lia]. Qed.
Lemma total_upd : forall f b l i a, nth_error l i = Some a -> total f (upd l i b) + f a = total f l + f b.
Proof.
  intros f b; induction l as [|c l IH]; intros [|i] a H; cbn in H; try discriminate.
  - injection H as ->. cbn. lia.
  - specialize (IH i a H). cbn. lia.
Qed.
Lemma total_one : forall f l i a, nth_error l i = Some a -> f a <= total f l.
Proof. intros f; induction l as [|c l IH]; intros [|i] a H; cbn in H; try discriminate; cbn; [injection H as ->; lia|specialize (IH i a H); lia]. Qed.
Lemma total_two : forall f l i j a b, i <> j -> nth_error l i = Some a -> nth_error l j = Some b -> f a + f b <= total f l.
Proof.
  intros f; induction l as [|c l IH]; intros [|i] [|j] a b Hij Ha Hb; cbn in Ha, Hb; try discriminate; try lia; cbn.
  - injection Ha as ->. pose proof (total_one f l j b Hb). lia.
  - injection Hb as ->. pose proof (total_one f l i a Ha). lia.
  - assert (i <> j) by lia. specialize (IH i j a b H Ha Hb). lia.
Qed.
Lemma total_none : forall f l, (forall i a, nth_error l i = Some a -> f a = 0) -> total f l = 0.
Proof.
  intros f; induction l as [|c l IH]; intros H; cbn; [reflexivity|].
  rewrite (H 0 c eq_refl). apply IH. intros i a Ha. exact (H (S i) a Ha).
Qed.
Lemma nth_upd : forall (l : list pc) i a b, nth_error l i = Some a -> nth_error (upd l i b) i = Some b.
Proof. induction l as [|c l IH]; intros [|i] a b H; cbn in *; try discriminate; eauto. Qed.

Definition kx (c : pc) : nat := match c with Got | In true | Leaving true | Clearing | Release_x => 1 | _ => 0 end.
Definition kr (c : pc) : nat := match c with In false | Leaving false | Release_s => 1 | _ => 0 end.
Definition kf (c : pc) : nat := match c with In true | Leaving true | Clearing => 1 | _ => 0 end.
Definition kw (c : pc) : nat := match c with Got | Clearing | Release_x | Release_s => 1 | _ => 0 end.
Definition bit (b : bool) : nat := if b then 1 else 0.
Definition inv (p : platform) (s : state) : Prop :=
  bit (excl s) = total kx (sessions s) /\ shared s = total kr (sessions s) /\
  (excl s = true -> shared s = 0) /\
  match p with Posix => total kw (sessions s) = 0 | Windows => bit (flag s) = total kf (sessions s) end.

Lemma inv_init : forall p, inv p init.
Proof. intros p. unfold inv. cbn. repeat split; try discriminate. destruct p; reflexivity. Qed.

(** The claim about one step: change of session [i] from [a] to [b]. *)
Lemma inv_set : forall p x n g s i a b, nth_error (sessions s) i = Some a -> inv p s ->
  bit x + kx a = bit (excl s) + kx b -> n + kr a = shared s + kr b -> (x = true -> n = 0) ->
  match p with Posix => kw b <= kw a | Windows => bit g + kf a = bit (flag s) + kf b end ->
  inv p (mkL x n g (upd (sessions s) i b)).
Proof.
  intros p x n g s i a b Hi [H1 [H2 [H3 H4]]] Hx Hn Hxn Hp. unfold inv. cbn [excl shared flag sessions].
  pose proof (total_upd kx b _ _ _ Hi). pose proof (total_upd kr b _ _ _ Hi).
  pose proof (total_upd kf b _ _ _ Hi). pose proof (total_upd kw b _ _ _ Hi).
  pose proof (total_one kw _ _ _ Hi).
  split; [lia|]. split; [lia|]. split; [exact Hxn|]. destruct p; lia.
Qed.

Lemma step_ok : forall p s l, inv p s ->
  (p = Windows -> forall i lucky, l = TryLock i true lucky -> nth_error (sessions s) i = Some Out -> free s && lucky = true) ->
  exists s', step p s l = Ok s' /\ inv p s'.
Proof.
  intros p s l HI HT. pose proof HI as [H1 [H2 [H3 H4]]].
  assert (Keep : exists s', Ok s = Ok s' /\ inv p s') by (exists s; split; [reflexivity|exact HI]).
  assert (Hfree : free s = true -> excl s = false /\ shared s = 0).
  { unfold free. intros H. apply andb_true_iff in H. destruct H as [Ha Hb]. apply negb_true_iff in Ha. apply Nat.eqb_eq in Hb. auto. }
  destruct l as [|i w|i w lucky|i|i]; cbn [step].
  - eexists. split; [reflexivity|]. unfold inv. cbn [excl shared flag sessions]. rewrite !total_app. cbn [total kx kr kf kw].
    split; [lia|]. split; [lia|]. split; [exact H3|]. destruct p; rewrite ?total_app; cbn [total kx kr kf kw]; lia.
  - destruct (nth_error (sessions s) i) as [[]|] eqn:Ei; try exact Keep.
    eexists. split; [reflexivity|]. apply (inv_set p _ _ _ s i Out); auto; destruct w, p; cbn; lia.
  - destruct (nth_error (sessions s) i) as [[]|] eqn:Ei; try exact Keep.
    eexists. split; [reflexivity|]. unfold try_lock. destruct w.
    + destruct (free s && lucky) eqn:Ef.
      * apply andb_true_iff in Ef. destruct Ef as [Ef _]. destruct (Hfree Ef) as [Hx Hs].
        apply (inv_set p _ _ _ s i Out); auto; rewrite ?Hx, ?Hs; destruct p; cbn; lia.
      * destruct p; [exact HI|]. rewrite (HT eq_refl i lucky eq_refl Ei) in Ef. discriminate.
    + destruct (excl s) eqn:Ex; cbn [orb]; [exact HI|]. destruct lucky; cbn [negb]; [|exact HI].
      apply (inv_set p _ _ _ s i Out); auto; rewrite ?Ex; destruct p; cbn; try lia; discriminate.
  - destruct (nth_error (sessions s) i) as [[]|] eqn:Ei; try exact Keep.
    eexists. split; [reflexivity|]. apply (inv_set p _ _ _ s i (In w)); auto; destruct w, p; cbn; lia.
  - destruct (nth_error (sessions s) i) as [c|] eqn:Ei; [|exact Keep].
    pose proof (total_one kx _ _ _ Ei) as Tx. pose proof (total_one kr _ _ _ Ei) as Tr.
    pose proof (total_one kf _ _ _ Ei) as Tf. pose proof (total_one kw _ _ _ Ei) as Tw.
    destruct c as [|w| |w|w| | |]; try exact Keep.
    + (* waiting *) eexists. split; [reflexivity|]. unfold step_waiting. destruct w.
      * destruct (free s) eqn:Ef; [|exact HI]. destruct (Hfree eq_refl) as [Hx Hs].
        apply (inv_set p _ _ _ s i (Waiting true)); auto; rewrite ?Hx, ?Hs; destruct p; cbn; lia.
      * destruct (excl s) eqn:Ex; [exact HI|].
        apply (inv_set p _ _ _ s i (Waiting false)); auto; rewrite ?Ex; destruct p; cbn; try lia; discriminate.
    + (* acquired *) eexists. split; [reflexivity|]. destruct p; [cbn in Tw; lia|].
      assert (Hx : excl s = true) by (destruct (excl s); [reflexivity|cbn in H1, Tx; lia]).
      assert (Hf : flag s = false).
      { destruct (flag s) eqn:Ef; [|reflexivity]. cbn in H4, H1. exfalso.
        assert (Hle : forall l, total kf l <= total kx l) by (induction l as [|[| [] | | [] | [] | | |] l IH]; cbn; lia).
        assert (Hlt : forall l j, nth_error l j = Some Got -> total kf l < total kx l).
        { induction l as [|q l IH]; intros [|j] Hj; cbn in Hj; try discriminate.
          - injection Hj as ->. cbn. pose proof (Hle l). lia.
          - pose proof (IH j Hj). destruct q as [| [] | | [] | [] | | |]; cbn; lia. }
        pose proof (Hlt _ _ Ei). rewrite Hx in H1. cbn in H1. lia. }
      apply (inv_set Windows _ _ _ s i Got); auto; try rewrite Hf; cbn; lia.
    + (* leaving *) unfold step_leaving. destruct p.
      * destruct w; cbn in Tx, Tr.
        -- assert (Hx : excl s = true) by (destruct (excl s); [reflexivity|cbn in H1; lia]).
           rewrite Hx. unfold release_exclusive. rewrite Hx. eexists. split; [reflexivity|].
           apply (inv_set Posix _ _ _ s i (Leaving true)); auto; try rewrite Hx; cbn; try lia; discriminate.
        -- assert (Hx : excl s = false) by (destruct (excl s); [specialize (H3 eq_refl); lia|reflexivity]).
           rewrite Hx. unfold release_shared. destruct (shared s) as [|n] eqn:En; [lia|]. eexists. split; [reflexivity|].
           apply (inv_set Posix _ _ _ s i (Leaving false)); auto; rewrite ?Hx, ?En; cbn; try lia; discriminate.
      * eexists. split; [reflexivity|]. destruct w; cbn in Tx, Tr, Tf.
        -- assert (Hf : flag s = true) by (destruct (flag s); [reflexivity|cbn in H4; lia]).
           rewrite Hf. apply (inv_set Windows _ _ _ s i (Leaving true)); auto; cbn; lia.
        -- assert (Hx : excl s = false) by (destruct (excl s); [specialize (H3 eq_refl); lia|reflexivity]).
           assert (Hf : flag s = false).
           { destruct (flag s) eqn:Ef; [|reflexivity]. exfalso. rewrite Hx in H1. cbn in H1, H4.
             assert (Hle : forall l, total kf l <= total kx l) by (induction l as [|[| [] | | [] | [] | | |] l IH]; cbn; lia).
             pose proof (Hle (sessions s)). lia. }
           rewrite Hf. apply (inv_set Windows _ _ _ s i (Leaving false)); auto; cbn; lia.
    + (* clearing *) destruct p; [cbn in Tw; lia|]. eexists. split; [reflexivity|]. cbn in Tf.
      assert (Hf : flag s = true) by (destruct (flag s); [reflexivity|cbn in H4; lia]).
      apply (inv_set Windows _ _ _ s i Clearing); auto; try rewrite Hf; cbn; lia.
    + destruct p; [cbn in Tw; lia|]. cbn in Tx.
      assert (Hx : excl s = true) by (destruct (excl s); [reflexivity|cbn in H1; lia]).
      unfold release_exclusive. rewrite Hx. eexists. split; [reflexivity|].
      apply (inv_set Windows _ _ _ s i Release_x); auto; try rewrite Hx; cbn; try lia; discriminate.
    + destruct p; [cbn in Tw; lia|]. cbn in Tr.
      assert (Hx : excl s = false) by (destruct (excl s); [specialize (H3 eq_refl); lia|reflexivity]).
      unfold release_shared. destruct (shared s) as [|n] eqn:En; [lia|]. eexists. split; [reflexivity|].
      apply (inv_set Windows _ _ _ s i Release_s); auto; rewrite ?Hx, ?En; cbn; try lia; discriminate.
Qed.

Lemma run_ok : forall p ls s, inv p s -> (p = Windows -> no_failure p s ls) -> exists s', run p s ls = Ok s' /\ inv p s'.
Proof.
  intros p; induction ls as [|l ls IH]; intros s HI HN; cbn [run]; [exists s; auto|].
  destruct (step_ok p s l HI) as [s1 [E1 HI1]].
  { intros Hp i lucky Hl Hi. destruct (HN Hp) as [HN1 _]. exact (HN1 i lucky Hl Hi). }
  rewrite E1. cbn [obind]. apply IH; [exact HI1|]. intros Hp. destruct (HN Hp) as [_ HN2]. exact (HN2 s1 E1).
Qed.

Section Reached.
Variables (p : platform) (ls : list label) (s : state).
Hypothesis Hno : p = Windows -> no_failure p init ls.
Hypothesis Hrun : run p init ls = Ok s.
Lemma reached : inv p s.
Proof. destruct (run_ok p ls init (inv_init p) Hno) as [s' [E HI]]. rewrite Hrun in E. injection E as ->. exact HI. Qed.
Lemma excludes : exclusion s.
Proof.
  intros i j w Hi Hj. destruct (Nat.eq_dec i j) as [E|E]; [exact E|]. exfalso. destruct reached as [H1 [H2 [H3 _]]]. unfold holds in *.
  pose proof (total_two kx _ _ _ _ _ E Hi Hj) as T. pose proof (total_one kx _ _ _ Hi) as T1. pose proof (total_one kr _ _ _ Hj) as T2. cbn in T, T1, T2.
  destruct (excl s) eqn:Ex; cbn in H1; [|lia]. specialize (H3 eq_refl). destruct w; lia.
Qed.
Lemma no_race : ~ race s.
Proof.
  intros [i [j [Hij [Hw Ho]]]]. destruct reached as [H1 [H2 [H3 H4]]]. unfold writes, reads in *.
  assert (T : exists a, nth_error (sessions s) i = Some a /\ kx a = 1) by (destruct Hw as [H|H]; eexists; (split; [exact H|reflexivity])).
  destruct T as [a [Ha Ka]]. pose proof (total_one kx _ _ _ Ha) as Ta.
  assert (T : exists b, nth_error (sessions s) j = Some b /\ (kx b = 1 \/ kr b = 1)).
  { destruct Ho as [[H|H]|[w H]]; eexists; (split; [exact H|]); cbn; auto. destruct w; cbn; auto. }
  destruct T as [b [Hb Kb]]. pose proof (total_two kx _ _ _ _ _ Hij Ha Hb) as T2. pose proof (total_one kr _ _ _ Hb) as Tb.
  destruct (excl s) eqn:Ex; cbn in H1; [|lia]. specialize (H3 eq_refl). destruct Kb; lia.
Qed.
Lemma nobody : (forall j, ~ inside s j) -> excl s = false /\ shared s = 0.
Proof.
  intros HN. destruct reached as [H1 [H2 _]].
  assert (HZ : forall j a, nth_error (sessions s) j = Some a -> a = Out \/ exists w, a = Waiting w).
  { intros j a Ha. destruct a as [|w| |w|w| | |]; eauto; exfalso; apply (HN j); eexists; (split; [exact Ha|]); (split; [discriminate|]); intros; discriminate. }
  rewrite (total_none kx) in H1 by (intros j a Ha; destruct (HZ j a Ha) as [-> |[w ->]]; reflexivity).
  rewrite (total_none kr) in H2 by (intros j a Ha; destruct (HZ j a Ha) as [-> |[w ->]]; reflexivity).
  split; [destruct (excl s); [discriminate|reflexivity]|exact H2].
Qed.
Lemma enters : forall i w, nth_error (sessions s) i = Some (Waiting w) -> (forall j, ~ inside s j) ->
  exists s', run p s [Step i; Step i] = Ok s' /\ holds s' i w.
Proof.
  intros i w Hi HN. destruct (nobody HN) as [Hx Hs]. cbn [run step]. rewrite Hi. cbn [obind]. unfold step_waiting, free. rewrite Hx, Hs. cbn [negb andb Nat.eqb].
  destruct w; cbn [sessions set set_lock].
  - rewrite (nth_upd _ _ _ _ Hi). destruct p; cbn [acquired obind].
    + eexists. split; [reflexivity|]. unfold holds. cbn. exact (nth_upd _ _ _ _ Hi).
    + eexists. split; [reflexivity|]. unfold holds. cbn. exact (nth_upd _ _ _ _ (nth_upd _ _ _ _ Hi)).
  - rewrite (nth_upd _ _ _ _ Hi). cbn [obind]. eexists. split; [reflexivity|]. unfold holds. cbn. exact (nth_upd _ _ _ _ Hi).
Qed.
(** Readers come in while only readers are inside. *)
Lemma reader_enters : forall i, nth_error (sessions s) i = Some (Waiting false) ->
  (forall j c, nth_error (sessions s) j = Some c -> kx c = 0) ->
  exists s', step p s (Step i) = Ok s' /\ holds s' i false.
Proof.
  intros i Hi HN. destruct reached as [H1 _]. rewrite (total_none kx _ HN) in H1. cbn [step]. rewrite Hi. unfold step_waiting.
  destruct (excl s); [discriminate|]. eexists. split; [reflexivity|]. unfold holds. cbn. exact (nth_upd _ _ _ _ Hi).
Qed.
Lemma tries : forall i w lucky, nth_error (sessions s) i = Some Out ->
  (p = Windows -> w = true -> free s && lucky = true) ->
  let (s', b) := try_lock p s i w lucky in
  step p s (TryLock i w lucky) = Ok s' /\
  (if b then exists s'', step p s' (Step i) = Ok s'' /\ holds s'' i w else s' = s) /\
  (b = false -> lucky = true -> exists j, inside s j).
Proof.
  intros i w lucky Hi Hp. cbn [step]. rewrite Hi. destruct (try_lock p s i w lucky) as [s' b] eqn:E. split; [reflexivity|].
  assert (Hsome : free s = false -> exists j, inside s j).
  { intros Hf. assert (Hs : exists j a, nth_error (sessions s) j = Some a /\ (kx a <> 0 \/ kr a <> 0)).
    { destruct reached as [H1 [H2 _]]. unfold free in Hf.
      assert (HE : forall f l, total f l <> 0 -> exists j a, nth_error l j = Some a /\ f a <> 0).
      { intros f; induction l as [|c l IH]; cbn; [lia|]. intros H. destruct (Nat.eq_dec (f c) 0) as [E0|E0].
        - destruct IH as [j [a [Ha Hn]]]; [lia|]. exists (S j), a. auto.
        - exists 0, c. auto. }
      destruct (excl s); cbn in Hf, H1.
      - destruct (HE kx (sessions s)) as [j [a [Ha Hn]]]; [lia|]. exists j, a. auto.
      - apply Nat.eqb_neq in Hf. destruct (HE kr (sessions s)) as [j [a [Ha Hn]]]; [lia|]. exists j, a. auto. }
    destruct Hs as [j [a [Ha Hk]]]. exists j, a. split; [exact Ha|]. destruct a; cbn in Hk; split; try discriminate; intros; try discriminate; destruct Hk; congruence. }
  unfold try_lock in E. destruct w.
  - destruct (free s && lucky) eqn:Ef.
    + injection E as <- <-. split; [|discriminate]. cbn [step sessions set set_lock]. rewrite (nth_upd _ _ _ _ Hi). destruct p; cbn [acquired].
      * eexists. split; [reflexivity|]. unfold holds. cbn. exact (nth_upd _ _ _ _ Hi).
      * eexists. split; [reflexivity|]. unfold holds. cbn. exact (nth_upd _ _ _ _ (nth_upd _ _ _ _ Hi)).
    + destruct p.
      * injection E as <- <-. split; [reflexivity|]. intros _ ->. apply Hsome. rewrite andb_true_r in Ef. exact Ef.
      * discriminate (Hp eq_refl eq_refl).
  - destruct (excl s) eqn:Ex; cbn [orb] in E.
    + injection E as <- <-. split; [reflexivity|]. intros _ _. apply Hsome. unfold free. rewrite Ex. reflexivity.
    + destruct lucky; cbn [negb] in E; injection E as <- <-; [|split; [reflexivity|discriminate]].
      split; [|discriminate]. cbn [step sessions set set_lock]. rewrite (nth_upd _ _ _ _ Hi). eexists. split; [reflexivity|]. unfold holds. cbn. exact (nth_upd _ _ _ _ Hi).
Qed.
End Reached.
Lemma safe : forall p ls, (p = Windows -> no_failure p init ls) -> exists s, run p init ls = Ok s.
Proof. intros p ls HN. destruct (run_ok p ls init (inv_init p) HN) as [s [E _]]. eauto. Qed.
Fixpoint reading (n : nat) : list label := match n with O => [] | S m => reading m ++ [New; TryLock m false true] end.
Lemma run_app : forall p l1 l2 s s1, run p s l1 = Ok s1 -> run p s (l1 ++ l2) = run p s1 l2.
Proof.
  intros p; induction l1 as [|l l1 IH]; intros l2 s s1 H; cbn [run app] in *; [injection H as ->; reflexivity|].
  destruct (step p s l) as [s2| | |]; try discriminate. cbn [obind] in *. exact (IH l2 s2 s1 H).
Qed.
Lemma no_failure_app : forall p l1 l2 s, no_failure p s l1 -> (forall s1, run p s l1 = Ok s1 -> no_failure p s1 l2) -> no_failure p s (l1 ++ l2).
Proof.
  intros p; induction l1 as [|l l1 IH]; intros l2 s H1 H2; cbn [no_failure app] in *; [apply H2; reflexivity|].
  destruct H1 as [Ha Hb]. split; [exact Ha|]. intros s' E. apply IH; [exact (Hb s' E)|]. intros s1 E1. apply H2. cbn [run]. rewrite E. exact E1.
Qed.
Lemma reading_run : forall p n, run p init (reading n) = Ok (mkL false n false (repeat (In false) n)) /\ no_failure p init (reading n).
Proof.
  intros p; induction n as [|n [IH1 IH2]]; [split; [reflexivity|exact I]|]. cbn [reading]. split.
  - rewrite (run_app _ _ _ _ _ IH1). cbn [run step obind sessions excl shared flag].
    rewrite nth_error_app2 by (rewrite repeat_length; lia). rewrite repeat_length, Nat.sub_diag. cbn [nth_error try_lock excl orb negb fst].
    cbn [obind set set_lock excl shared flag sessions].
    assert (E : forall (l : list pc) a b, upd (l ++ [a]) (length l) b = l ++ [b]) by (induction l as [|c l IH]; intros; cbn; [reflexivity|rewrite IH; reflexivity]).
    pose proof (E (repeat (In false) n) Out (In false)) as E2. rewrite repeat_length in E2. unfold set, set_lock. cbn [excl shared flag sessions]. rewrite E2.
    pose proof (repeat_cons n (In false)) as E3. rewrite <- E3. reflexivity.
  - apply no_failure_app; [exact IH2|]. intros s1 _. cbn [no_failure]. split; [intros; discriminate|]. intros s' _. split; [intros; discriminate|]. intros; exact I.
Qed.
Lemma readers : forall p n, exists ls s, run p init ls = Ok s /\ no_failure p init ls /\ forall i, i < n -> holds s i false.
Proof.
  intros p n. destruct (reading_run p n) as [H1 H2]. eexists; eexists. split; [exact H1|]. split; [exact H2|].
  intros i Hi. unfold holds. cbn [sessions]. clear -Hi. revert i Hi. induction n as [|n IH]; intros [|i] Hi; cbn; [lia|lia|reflexivity|apply IH; lia].
Qed.
