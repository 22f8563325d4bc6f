(** Consequences of the invariant for whole runs. *)
Require Import Coq.ZArith.ZArith Coq.Lists.List Coq.Bool.Bool Coq.Arith.Arith Coq.micromega.Lia.
Require Import Verif.Base Verif.RefCount_Model Verif.RefCount_Spec Verif.RefCount_Proofs Verif.RefCount_Steps.
Import ListNotations.
Local Open Scope Z_scope.

Lemma quiet_totals : forall l, Forall (fun t => at_pc t = Idle) l ->
  total refs_of l = total owned l /\ total wD l = 0 /\ total wF l = 0 /\ total wX l = 0 /\ total wE l = 0 /\ total wN l = 0 /\ total wO l = 0 /\ total wU l = 0.
Proof.
  intros l H. induction H as [|t l Ht Hl IH]; [repeat split; reflexivity|].
  destruct IH as (A1 & A2 & A3 & A4 & A5 & A6 & A7 & A8). destruct t as [p o w]. cbn [at_pc] in Ht. subst p. cbn [total fold_right].
  fold (total refs_of l) (total owned l) (total wD l) (total wF l) (total wX l) (total wE l) (total wN l) (total wO l) (total wU l).
  unfold refs_of at 1, wD at 1, wF at 1, wX at 1, wE at 1, wN at 1, wO at 1, wU at 1. cbn [at_pc owned inflight]. repeat split; lia.
Qed.

Lemma inv_results : forall s, inv s ->
  (finals s <= 1)%nat /\ (0 < refs s -> alive s = Alive /\ finals s = 0%nat) /\
  (quiet s -> held s = 0 -> alive s = Freed /\ finals s = 1%nat) /\ (quiet s -> 0 < held s -> count_of (rc s) = held s) /\
  Forall good (log s) /\
  (quiet s -> held s = 0 -> entry s = false /\ forall m, meta s = Some m -> target m = false /\ (mfreed m = true <-> weakly_held s = 0)) /\
  (forall m, meta s = Some m -> 0 < weakly_held s -> mfreed m = false).
Proof.
  intros s I. destruct (proj1 (inv_numbers s) I) as (L & G & Nm). cbv zeta in Nm. pose proof (totals _ L) as T.
  unfold refs, held, weakly_held, quiet. unfold numbers in Nm. destruct Nm as (Nf & Nr & Na & Nmt).
  split; [destruct (alive s); lia|]. split; [destruct (alive s); intros; try lia; split; [reflexivity|tauto]|].
  split; [|split; [|split; [exact G|split]]].
  - intros Q Z. destruct (quiet_totals _ Q) as (A1 & A2 & A3 & A4 & A5 & A6 & A7 & A8).
    destruct (alive s); [|lia|split; [reflexivity|tauto]]. destruct Na as (_ & _ & Na). rewrite A1, Z, A2 in Na. discriminate Na.
  - intros Q Z. destruct (quiet_totals _ Q) as (A1 & _). rewrite Nr, <- A1. destruct (meta s).
    + exact (count_word (total refs_of (threads s)) true ltac:(lia)).
    + exact (count_word (total refs_of (threads s)) false ltac:(lia)).
  - intros Q Z. destruct (quiet_totals _ Q) as (A1 & A2 & A3 & A4 & A5 & A6 & A7 & A8). rewrite A1, Z in Nmt.
    destruct (meta s) as [m|]; [|split; [tauto|intros m Hm; discriminate Hm]].
    destruct Nmt as (N1 & N2 & N3 & N4 & N5 & N6 & N7). change (pos 0) with false in *. cbn [b2z] in *.
    split; [destruct (entry s); [cbn in N5; lia|reflexivity]|].
    intros m' Hm. injection Hm as <-. split; [destruct (target m); [cbn in N4; lia|reflexivity]|].
    rewrite N7. rewrite Z.eqb_eq. lia.
  - intros m Hm Hw. rewrite Hm in Nmt. destruct Nmt as (N1 & N2 & N3 & N4 & N5 & N6 & N7). rewrite N7. apply Z.eqb_neq.
    unfold b2z, pos in *. destruct (0 <? total refs_of (threads s)); lia.
Qed.

(** Without weak references every run is calm. *)
Definition no_w (t : thread) : Prop := at_pc t <> WFind /\ at_pc t <> WIns.
Lemma Forall_upd_w : forall l i y, Forall no_w l -> no_w y -> Forall no_w (upd l i y).
Proof. induction l as [|a l IH]; intros [|i] y H L; simpl; auto; inversion H as [|? ? Ha Hl]; subst; constructor; auto. Qed.
Lemma step_no_w : forall s l s', Forall no_w (threads s) -> snd l <> CWeak -> step s l = Ok s' -> Forall no_w (threads s').
Proof.
  intros s [i c] s' H Hc E. unfold step in E. cbn [fst snd] in *. destruct (nth_error (threads s) i) as [[p o w]|] eqn:Hp; [|injection E as <-; exact H].
  pose proof (proj1 (Forall_forall _ _) H _ (nth_error_In _ _ Hp)) as [N1 N2]. cbn [at_pc] in N1, N2.
  unfold step_thread, find_meta, insert_meta, lock_meta, unlock_meta, release_meta in E. unfold touch, touchm, goto in E. unfold put_t, put_rc, put_meta, put_entry, put_log in E.
  cbn [at_pc owned weak] in E.
  destruct p; try congruence;
    repeat first
      [ match type of E with context [match ?x with _ => _ end] =>
          lazymatch x with context [match _ with _ => _ end] => fail | _ => destruct x eqn:? end end
      | progress cbn [obind] in E ];
    try discriminate E; try congruence; injection E as <-; cbn [threads]; try exact H;
    repeat (apply Forall_upd_w; [|split; cbn [at_pc]; congruence]); try exact H.
  all: apply Forall_upd_w; [apply Forall_upd_w; [exact H|split; discriminate]|].
  all: match goal with Hu : nth_error (threads _) _ = Some ?u |- no_w (mkT (at_pc ?u) _ _) => exact (proj1 (Forall_forall _ _) H _ (nth_error_In _ _ Hu)) end.
Qed.
Lemma no_weak_admissible : forall ls s, Forall no_w (threads s) -> no_weak ls -> counted s ls -> admissible s ls.
Proof.
  induction ls as [|l ls IH]; intros s H N C; [exact I|]. inversion N as [|? ? Nl Ns]; subst. split.
  - intros t Ht Hw. pose proof (proj1 (Forall_forall _ _) H _ (nth_error_In _ _ Ht)) as [_ N2]. contradiction.
  - intros s' E. destruct (C s' E) as [F C']. split; [exact F|]. apply IH; [exact (step_no_w s l s' H Nl E)|exact Ns|exact C'].
Qed.
Lemma init_no_w : forall n, Forall no_w (threads (init n)).
Proof.
  intros n. constructor; [split; discriminate|]. apply Forall_forall. intros t Ht. apply repeat_spec in Ht. subst t. split; discriminate.
Qed.

(** From every state there is a way for all calls to return. *)
Definition rank (t : thread) : Z :=
  match at_pc t with
  | Idle => 0
  | Rel => 11 | RelDec => 5 | RelFind => 10 | RelIns => 9 | RelLock => 8 | RelDecM => 7 | RelNull => 6 | RelUnlock _ => 5
  | Remove => 4 | MRel => 3 | Fin => 2 | Free => 1
  | Try => 12 | TryCas _ => 5 | TryFind => 11 | TryIns => 10 | TryLock => 9 | TryRead => 8 | TryCasM _ => 7 | TryNull => 6 | TryUnlock _ => 5
  | WFind => 3 | WIns => 2 | WRet => 1
  | SLock => 4 | SRead => 3 | SInc => 2 | SUnlock _ => 1
  end.
Definition wS (t : thread) : Z := match at_pc t with SLock | SRead | SInc => 1 | _ => 0 end.
Definition room (t : thread) : Z := refs_of t + wS t.
Definition waits (t : thread) : bool := match at_pc t with RelLock | TryLock | SLock => true | _ => false end.
Lemma step_rank : forall s i c t s', nth_error (threads s) i = Some t -> at_pc t <> Idle -> (waits t = true -> forall m, meta s = Some m -> locked m = false) ->
  step s (i, c) = Ok s' -> total rank (threads s') < total rank (threads s) /\ total room (threads s') <= total room (threads s) /\ length (threads s') = length (threads s).
Proof.
  intros s i c [p o w] s' Hp Hb Hw E. unfold step in E. cbn [fst snd] in E. rewrite Hp in E. cbn [at_pc] in Hb.
  unfold step_thread, find_meta, insert_meta, lock_meta, unlock_meta, release_meta in E. unfold touch, touchm, goto in E. unfold put_t, put_rc, put_meta, put_entry, put_log in E.
  cbn [at_pc owned weak] in E. unfold waits in Hw. cbn [at_pc] in Hw.
  destruct p; try congruence;
    repeat first
      [ match type of E with context [match ?x with _ => _ end] =>
          lazymatch x with context [match _ with _ => _ end] => fail | _ => destruct x eqn:? end end
      | progress cbn [obind] in E ];
    try discriminate E; try (exfalso; specialize (Hw eq_refl _ eq_refl); congruence); injection E as <-; cbn [threads];
    rewrite !(fun f y => total_upd f _ _ _ y Hp); unfold room, rank, refs_of, inflight, wS; cbn [at_pc owned weak]; rewrite upd_length; (split; [lia|split; [lia|reflexivity]]).
Qed.
Lemma exists_weight : forall f l, (forall t, In t l -> 0 <= f t) -> 0 < total f l -> exists t, In t l /\ 0 < f t.
Proof.
  intros f l H. induction l as [|x l IH]; simpl; intros P; [lia|]. pose proof (H x (or_introl eq_refl)) as Hx.
  destruct (Z.eq_dec (f x) 0) as [E|E]; [|exists x; split; [left; reflexivity|lia]].
  destruct IH as (t & It & Pt); [intros t Ht; apply H; right; exact Ht|lia|exists t; split; [right; exact It|exact Pt]].
Qed.
Lemma rank_nonneg : forall t, 0 <= rank t.
Proof. intros t. unfold rank. destruct (at_pc t); lia. Qed.
Lemma refs_le_room : forall l, total refs_of l <= total room l.
Proof. intros l. apply total_le. intros t _. unfold room, wS. destruct (at_pc t); lia. Qed.
Lemma progress : forall s, inv s -> ~ quiet s -> exists i t, nth_error (threads s) i = Some t /\ at_pc t <> Idle /\ calm s (i, CRetain) /\
  (waits t = true -> forall m, meta s = Some m -> locked m = false).
Proof.
  intros s I Q. destruct (proj1 (inv_numbers s) I) as (L & G & Nm). cbv zeta in Nm. pose proof (totals _ L) as T.
  destruct (Z.eq_dec (total wP (threads s)) 0) as [P0|P0].
  - assert (forall i c, calm s (i, c)) as C.
    { intros i c t _ _ _ u Hu Eu. assert (wP u = 0) as Z; [|unfold wP in Z; rewrite Eu in Z; discriminate Z].
      apply (total_zero wP (threads s)); [|exact P0|exact Hu]. intros x _. unfold wP. destruct (at_pc x); lia. }
    destruct (meta s) as [m|] eqn:Em.
    + destruct (locked m) eqn:El.
      * assert (exists t, In t (threads s) /\ 0 < wO t + wU t + wN t) as (t & Ht & Wt).
        { apply (exists_weight (fun t => wO t + wU t + wN t)).
          - intros t _. unfold wO, wU, wN. destruct (at_pc t) as [| | | | | | | |[|]| | | | | | | | | | | | |[|]| | | | | | |[|]]; lia.
          - rewrite (total_add (fun t => wO t + wU t + wN t) (fun t => wO t + wU t) wN) by reflexivity.
            rewrite (total_add (fun t => wO t + wU t) wO wU) by reflexivity.
            unfold numbers in Nm. destruct Nm as (_ & _ & _ & _ & N2 & _). rewrite El in N2. cbn [b2z] in N2. lia. }
        destruct (In_nth_error _ _ Ht) as (i & Hi). exists i, t. split; [exact Hi|]. split; [|split; [apply C|]].
        -- intros Ei. unfold wO, wU, wN in Wt. rewrite Ei in Wt. lia.
        -- intros Wa. exfalso. unfold wO, wU, wN in Wt. unfold waits in Wa. destruct (at_pc t); try discriminate Wa; lia.
      * assert (exists t, In t (threads s) /\ at_pc t <> Idle) as (t & Ht & Bt).
        { clear - Q. unfold quiet in Q. induction (threads s) as [|x l IH]; [exfalso; apply Q; constructor|].
          destruct (at_pc x) eqn:Ex; try (exists x; split; [left; reflexivity|congruence]).
          destruct IH as (t & Ht & Bt); [intros Q'; apply Q; constructor; assumption|exists t; split; [right; exact Ht|exact Bt]]. }
        destruct (In_nth_error _ _ Ht) as (i & Hi). exists i, t. split; [exact Hi|]. split; [exact Bt|]. split; [apply C|].
        intros _ m' Hm'. injection Hm' as <-. exact El.
    + assert (exists t, In t (threads s) /\ at_pc t <> Idle) as (t & Ht & Bt).
      { clear - Q. unfold quiet in Q. induction (threads s) as [|x l IH]; [exfalso; apply Q; constructor|].
        destruct (at_pc x) eqn:Ex; try (exists x; split; [left; reflexivity|congruence]).
        destruct IH as (t & Ht & Bt); [intros Q'; apply Q; constructor; assumption|exists t; split; [right; exact Ht|exact Bt]]. }
      destruct (In_nth_error _ _ Ht) as (i & Hi). exists i, t. split; [exact Hi|]. split; [exact Bt|]. split; [apply C|].
      intros _ m' Hm'. discriminate Hm'.
  - assert (exists t, In t (threads s) /\ 0 < wP t) as (t & Ht & Wt).
    { apply exists_weight; [intros t _; unfold wP; destruct (at_pc t); lia|lia]. }
    assert (at_pc t = RelDec) as Et by (unfold wP in Wt; destruct (at_pc t); try lia; reflexivity).
    destruct (In_nth_error _ _ Ht) as (i & Hi). exists i, t. split; [exact Hi|]. split; [congruence|]. split.
    + intros t' Ht' Ew. cbn [fst] in Ht'. rewrite Hi in Ht'. injection Ht' as <-. congruence.
    + intros Wa. unfold waits in Wa. rewrite Et in Wa. discriminate Wa.
Qed.
Lemma quiet_dec : forall s, quiet s \/ ~ quiet s.
Proof.
  intros s. unfold quiet. induction (threads s) as [|x l IH]; [left; constructor|].
  destruct IH as [Q|Q]; [|right; intros H; inversion H; contradiction].
  destruct (at_pc x) eqn:E; try (right; intros H; inversion H; congruence). left. constructor; assumption.
Qed.
Lemma can_finish : forall k s, inv s -> total room (threads s) < 268435456 -> total rank (threads s) < Z.of_nat k ->
  exists ls s', admissible s ls /\ only_busy s ls /\ run s ls = Ok s' /\ quiet s' /\ inv s' /\ length (threads s') = length (threads s).
Proof.
  induction k as [|k IH]; intros s I Hr Hk.
  - pose proof (total_nonneg rank (threads s) (fun t _ => rank_nonneg t)). lia.
  - destruct (quiet_dec s) as [Q|Q]; [exists [], s; split; [exact Logic.I|]; split; [exact Logic.I|]; split; [reflexivity|]; split; [exact Q|]; split; [exact I|reflexivity]|].
    destruct (progress s I Q) as (i & t & Hi & Bt & C & Wt). destruct (step_fine s (i, CRetain) I C) as (s1 & E & F).
    destruct (step_rank s i CRetain t s1 Hi Bt Wt E) as (R1 & R2 & R3).
    assert (fits s1) as F1 by (unfold fits, refs; pose proof (refs_le_room (threads s1)); lia).
    destruct (IH s1 (F F1) ltac:(lia) ltac:(lia)) as (ls & s' & A & B & Rn & Q' & I' & Le).
    exists ((i, CRetain) :: ls), s'. cbn [admissible only_busy run fst]. rewrite E. cbn [obind].
    split; [split; [exact C|intros x Hx; injection Hx as <-; split; assumption]|].
    split; [split; [exists t; split; assumption|intros x Hx; injection Hx as <-; exact B]|].
    split; [exact Rn|]. split; [exact Q'|]. split; [exact I'|congruence].
Qed.
Lemma room_bound : forall l, total room l <= total refs_of l + Z.of_nat (length l).
Proof.
  induction l as [|x l IH]; simpl; [lia|]. fold (total room l) (total refs_of l). unfold room at 1, wS. destruct (at_pc x); lia.
Qed.
Lemma finishes : forall s, inv s -> refs s + Z.of_nat (length (threads s)) < 268435456 ->
  exists ls s', admissible s ls /\ only_busy s ls /\ run s ls = Ok s' /\ quiet s'.
Proof.
  intros s I H. pose proof (total_nonneg rank (threads s) (fun t _ => rank_nonneg t)) as Rn.
  destruct (can_finish (S (Z.to_nat (total rank (threads s)))) s I) as (ls & s' & A & B & C & D & _).
  - pose proof (room_bound (threads s)). unfold refs in H. lia.
  - lia.
  - exists ls, s'. auto.
Qed.

Lemma counting : forall n ls, no_weak ls -> counted (init n) ls -> exists s, run (init n) ls = Ok s /\
  (finals s <= 1)%nat /\ (0 < refs s -> alive s = Alive /\ finals s = 0%nat) /\
  (quiet s -> held s = 0 -> alive s = Freed /\ finals s = 1%nat) /\ (quiet s -> 0 < held s -> count_of (rc s) = held s).
Proof.
  intros n ls N C. destruct (run_inv ls (init n) (init_inv n) (no_weak_admissible ls (init n) (init_no_w n) N C)) as (s & E & I).
  exists s. split; [exact E|]. destruct (inv_results s I) as (A & B & D & F & _). auto.
Qed.
Lemma counting_weak : forall n ls, admissible (init n) ls -> exists s, run (init n) ls = Ok s /\
  (finals s <= 1)%nat /\ (0 < refs s -> alive s = Alive /\ finals s = 0%nat) /\
  (quiet s -> held s = 0 -> alive s = Freed /\ finals s = 1%nat) /\ (quiet s -> 0 < held s -> count_of (rc s) = held s).
Proof.
  intros n ls Ad. destruct (run_inv ls (init n) (init_inv n) Ad) as (s & E & I).
  exists s. split; [exact E|]. destruct (inv_results s I) as (A & B & D & F & _). auto.
Qed.
Lemma weak_sound : forall n ls, admissible (init n) ls -> exists s, run (init n) ls = Ok s /\
  (forall k, In (ToNull k) (log s) -> k = 0) /\ (forall l, In (ToObject l) (log s) -> l = Alive) /\
  (quiet s -> held s = 0 -> entry s = false /\ forall m, meta s = Some m -> target m = false /\ (mfreed m = true <-> weakly_held s = 0)) /\
  (forall m, meta s = Some m -> 0 < weakly_held s -> mfreed m = false).
Proof.
  intros n ls Ad. destruct (run_inv ls (init n) (init_inv n) Ad) as (s & E & I).
  exists s. split; [exact E|]. destruct (inv_results s I) as (_ & _ & _ & _ & G & H1 & H2). rewrite Forall_forall in G.
  split; [intros k Hk; exact (G _ Hk)|]. split; [intros l Hl; exact (G _ Hl)|]. split; assumption.
Qed.
Lemma returns : forall n ls s, admissible (init n) ls -> run (init n) ls = Ok s -> refs s + Z.of_nat (length (threads s)) < 268435456 ->
  exists ls' s', admissible s ls' /\ only_busy s ls' /\ run s ls' = Ok s' /\ quiet s'.
Proof.
  intros n ls s Ad E H. destruct (run_inv ls (init n) (init_inv n) Ad) as (s1 & E1 & I). rewrite E in E1. injection E1 as <-. exact (finishes s I H).
Qed.
(** Deciding the hypotheses for the examples. *)
Definition calmb (s : state) (l : nat * call) : bool :=
  match nth_error (threads s) (fst l) with
  | Some t => match at_pc t with WIns => entry s || forallb (fun u => match at_pc u with RelDec => false | _ => true end) (threads s) | _ => true end
  | None => true
  end.
Fixpoint admissibleb (s : state) (ls : list (nat * call)) : bool :=
  match ls with
  | [] => true
  | l :: ls' => calmb s l && match step s l with Ok s' => (refs s' <? 268435456) && admissibleb s' ls' | _ => true end
  end.
Lemma admissibleb_ok : forall ls s, admissibleb s ls = true -> admissible s ls.
Proof.
  induction ls as [|l ls IH]; intros s H; [exact Logic.I|]. cbn [admissibleb] in H. apply andb_true_iff in H. destruct H as [C H]. split.
  - intros t Ht Ew En u Hu Eu. unfold calmb in C. rewrite Ht, Ew, En in C. cbn [orb] in C. rewrite forallb_forall in C. specialize (C u Hu). rewrite Eu in C. discriminate C.
  - intros s' E. rewrite E in H. apply andb_true_iff in H. destruct H as [F H]. split; [apply Z.ltb_lt; exact F|apply IH; exact H].
Qed.
Lemma admissible_counted : forall ls s, admissible s ls -> counted s ls.
Proof. induction ls as [|l ls IH]; intros s H; [exact Logic.I|]. destruct H as [_ H]. intros s' E. destruct (H s' E) as [F A]. split; [exact F|apply IH; exact A]. Qed.
(** [k] steps of thread [i]. *)
Definition steps (i k : nat) : list (nat * call) := repeat (i, CRetain) k.
