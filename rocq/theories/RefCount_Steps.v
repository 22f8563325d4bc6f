(** Every step keeps the invariant and touches only live memory. *)
Require Import Coq.ZArith.ZArith Coq.Lists.List Coq.Bool.Bool Coq.Arith.Arith Coq.micromega.Lia.
Require Import Verif.Base Verif.RefCount_Model Verif.RefCount_Spec Verif.RefCount_Proofs.
Import ListNotations.
Local Open Scope Z_scope.

(** The step is defined, and its result satisfies the invariant if the references
    can still be counted. *)
Definition fine (o : outcome state) : Prop := exists s', o = Ok s' /\ (fits s' -> inv s').

Lemma fine_same : forall s, inv s -> fine (Ok s).
Proof. intros s H. exists s. split; [reflexivity|]. intros _. exact H. Qed.
Lemma fine_put : forall s i t t' rc' al fi en me lg, inv s -> nth_error (threads s) i = Some t -> local t' -> Forall good lg ->
  (total refs_of (threads s) - refs_of t + refs_of t' < 268435456 ->
  numbers rc' al fi en me
    (total refs_of (threads s) - refs_of t + refs_of t') (total wD (threads s) - wD t + wD t') (total wF (threads s) - wF t + wF t')
    (total wN (threads s) - wN t + wN t') (total wU (threads s) - wU t + wU t') (total wO (threads s) - wO t + wO t')
    (total wX (threads s) - wX t + wX t') (total wE (threads s) - wE t + wE t') (total wP (threads s) - wP t + wP t')
    (total wM (threads s) - wM t + wM t') (total weak (threads s) - weak t + weak t')) ->
  fine (Ok (mkS rc' al fi en me (upd (threads s) i t') lg)).
Proof.
  intros s i t t' rc' al fi en me lg I E L G Hn. eexists. split; [reflexivity|]. intros Hf.
  apply (inv_put s i t t'); try assumption; [apply I|]. apply Hn.
  unfold fits, refs in Hf. cbn [threads] in Hf. rewrite (total_upd refs_of _ _ _ _ E) in Hf. exact Hf.
Qed.

Ltac bools := unfold b2z, pos in *;
  repeat match goal with
  | |- context [0 <? ?x] => destruct (Z.ltb_spec 0 x)
  | H : context [0 <? ?x] |- _ => destruct (Z.ltb_spec 0 x)
  | |- context [?x =? 0] => destruct (Z.eqb_spec x 0)
  | H : context [?x =? 0] |- _ => destruct (Z.eqb_spec x 0)
  end; cbn [negb] in *.
Ltac dj := repeat match goal with H : _ /\ _ |- _ => destruct H end.
Ltac weights := unfold refs_of, inflight, wD, wF, wN, wU, wO, wX, wE, wP, wM in *; cbn [at_pc owned weak target locked mrc mfreed negb b2z] in *.

Section Step.
Variables (s : state) (i : nat) (o w : Z).
Hypothesis I : inv s.

Lemma facts : forall p, nth_error (threads s) i = Some (mkT p o w) ->
  exists R D F N U O X E P M W,
    (R = total refs_of (threads s) /\ D = total wD (threads s) /\ F = total wF (threads s) /\ N = total wN (threads s) /\
    U = total wU (threads s) /\ O = total wO (threads s) /\ X = total wX (threads s) /\ E = total wE (threads s) /\
    P = total wP (threads s) /\ M = total wM (threads s) /\ W = total weak (threads s)) /\
    local (mkT p o w) /\
    (0 <= R /\ 0 <= W /\ 0 <= D /\ 0 <= F /\ 0 <= P /\ 0 <= E <= X /\ X <= D /\ X <= M /\ 0 <= N <= E /\ 0 <= O <= M /\ 0 <= U <= M) /\
    (o + inflight p <= R /\ w <= W /\ wD (mkT p o w) <= D /\ wF (mkT p o w) <= F /\ wP (mkT p o w) <= P /\
    wE (mkT p o w) <= E /\ wX (mkT p o w) <= X /\ wM (mkT p o w) <= M /\ wN (mkT p o w) <= N /\ wO (mkT p o w) <= O /\ wU (mkT p o w) <= U) /\
    numbers (rc s) (alive s) (finals s) (entry s) (meta s) R D F N U O X E P M W /\ Forall good (log s).
Proof.
  intros p Hp. destruct (proj1 (inv_numbers s) I) as (L & G & Nm). cbv zeta in Nm.
  pose proof (totals _ L) as T. pose proof (nth_error_In _ _ Hp) as Hin. pose proof (totals_in _ _ L Hin) as B.
  pose proof (local_all _ L _ Hin) as Lt.
  do 11 eexists. split; [repeat split; reflexivity|]. split; [exact Lt|]. split; [|split; [|split; [exact Nm|exact G]]].
  - repeat split; apply T.
  - unfold refs_of in B. cbn [owned at_pc weak] in B. repeat split; apply B.
Qed.
End Step.

Ltac start p :=
  match goal with
  | I : inv ?s, Hp : nth_error (threads ?s) ?i = Some (mkT _ ?o ?w) |- _ =>
    let R := fresh "R" in
    destruct (facts s i o w I _ Hp) as (R & D & F & N & U & O & X & E & P & M & W & (ER & ED & EF & EN & EU & EO & EX & EE & EP & EM & EW) & L & T & B & Nm & G)
  end.
Ltac finish :=
  match goal with
  | I : inv ?s, Hp : nth_error (threads ?s) ?i = Some ?t |- fine (Ok (mkS _ _ _ _ _ (upd (threads ?s) ?i ?t') _)) =>
    apply (fine_put s i t t'); [exact I|exact Hp| | | ]
  end.
(** The invariant on numbers in each of the two times three cases. *)
Ltac known :=
  match goal with Nm : numbers _ (alive ?s) _ _ (meta ?s) _ _ _ _ _ _ _ _ _ _ _ |- _ =>
    unfold numbers in Nm; destruct (alive s) eqn:?; destruct (meta s) as [[tg lk mr fd]|] eqn:? end;
  unfold local in *; weights; dj; try (exfalso; bools; lia).

Ltac open := unfold step_thread, find_meta, insert_meta, lock_meta, unlock_meta, release_meta; unfold touch, touchm, goto; unfold put_t, put_rc, put_meta, put_entry, put_log;
  cbn [at_pc owned weak obind].
Ltac see :=
  repeat match goal with
  | H : alive _ = _ |- _ => rewrite !H
  | H : meta _ = _ |- _ => rewrite !H
  end; cbn [rc alive finals entry meta threads log target locked mrc mfreed at_pc owned weak obind].
Ltac loc := unfold local; cbn [at_pc owned weak]; repeat split; try exact Logic.I; try lia.
Ltac num := intros; subst; unfold numbers, refs_of, inflight, wD, wF, wN, wU, wO, wX, wE, wP, wM in *; cbn [at_pc owned weak target locked mrc mfreed] in *; bools; repeat split; try assumption; try reflexivity; try lia.

Lemma word_none : forall R, 0 <= R < 268435456 -> count_of R = R /\ has_metadata R = false.
Proof. intros R H. rewrite <- (Z.add_0_r R) at 1 3. split; [exact (count_word R false H)|exact (bit_word R false H)]. Qed.
Lemma word_some : forall R, 0 <= R < 268435456 -> count_of (R + METADATA_BIT) = R /\ has_metadata (R + METADATA_BIT) = true.
Proof. intros R H. split; [exact (count_word R true H)|exact (bit_word R true H)]. Qed.
(** Reading the count, and the count after it was decremented. *)
Ltac reads :=
  match goal with H : rc ?s = ?R + _ |- _ => let C1 := fresh "C" in let C2 := fresh "C" in
    first [ assert (count_of (rc s) = R /\ has_metadata (rc s) = true) as [C1 C2] by (rewrite H; apply word_some; lia)
          | assert (count_of (rc s) = R /\ has_metadata (rc s) = false) as [C1 C2] by (rewrite H, Z.add_0_r; apply word_none; lia) ];
    rewrite ?C1, ?C2
  end.
Ltac reads1 :=
  match goal with H : rc ?s = ?R + _ |- _ => let C1 := fresh "C" in let C2 := fresh "C" in
    first [ assert (count_of (rc s - 1) = R - 1 /\ has_metadata (rc s - 1) = true) as [C1 C2] by (rewrite H; replace (R + METADATA_BIT - 1) with (R - 1 + METADATA_BIT) by lia; apply word_some; lia)
          | assert (count_of (rc s - 1) = R - 1 /\ has_metadata (rc s - 1) = false) as [C1 C2] by (rewrite H, Z.add_0_r; apply word_none; lia) ];
    rewrite ?C1, ?C2
  end.
Ltac fin := finish; [loc|assumption|num].

Section Cases.
Variables (s : state) (i : nat) (o w : Z) (c : call).
Hypothesis I : inv s.

Lemma step_Rel : nth_error (threads s) i = Some (mkT Rel o w) -> fine (step_thread s i (mkT Rel o w) c).
Proof. intros Hp. start Rel. known; open; see; reads; fin. Qed.
Lemma step_RelDec : nth_error (threads s) i = Some (mkT RelDec o w) -> fine (step_thread s i (mkT RelDec o w) c).
Proof. intros Hp. start Rel. known; open; see; reads1; destruct (Z.eqb_spec (R - 1) 0); fin. Qed.
Lemma step_RelFind : nth_error (threads s) i = Some (mkT RelFind o w) -> fine (step_thread s i (mkT RelFind o w) c).
Proof. intros Hp. start Rel. known; open; see; destruct (entry s) eqn:?; fin. Qed.
Lemma step_RelIns : nth_error (threads s) i = Some (mkT RelIns o w) -> fine (step_thread s i (mkT RelIns o w) c).
Proof. intros Hp. start Rel. known; open; see; destruct (entry s) eqn:?; [fin|exfalso; bools; lia]. Qed.
Lemma step_RelLock : nth_error (threads s) i = Some (mkT RelLock o w) -> fine (step_thread s i (mkT RelLock o w) c).
Proof. intros Hp. start Rel. known; open; see. destruct fd; [exfalso; bools; congruence || lia|]. destruct lk; [apply fine_same; exact I|fin]. Qed.
Lemma step_RelDecM : nth_error (threads s) i = Some (mkT RelDecM o w) -> fine (step_thread s i (mkT RelDecM o w) c).
Proof. intros Hp. start Rel. known; open; see; reads1; destruct lk; [|exfalso; bools; lia]; destruct (Z.eqb_spec (R - 1) 0); fin. Qed.
Lemma step_RelNull : nth_error (threads s) i = Some (mkT RelNull o w) -> fine (step_thread s i (mkT RelNull o w) c).
Proof. intros Hp. start Rel. known; open; see. destruct fd; [exfalso; bools; congruence || lia|]. destruct lk, tg; try (exfalso; bools; lia); fin. Qed.
Lemma step_RelUnlock : forall b, nth_error (threads s) i = Some (mkT (RelUnlock b) o w) -> fine (step_thread s i (mkT (RelUnlock b) o w) c).
Proof. intros b Hp. start Rel. destruct b; known; open; see; (destruct fd; [exfalso; bools; congruence || lia|]); (destruct lk; [|exfalso; bools; lia]); fin. Qed.
Lemma step_Remove : nth_error (threads s) i = Some (mkT Remove o w) -> fine (step_thread s i (mkT Remove o w) c).
Proof. intros Hp. start Rel. known; open; see. destruct fd; [exfalso; bools; congruence || lia|]. destruct lk, tg; try (exfalso; bools; lia); fin. Qed.
Lemma step_MRel : nth_error (threads s) i = Some (mkT MRel o w) -> fine (step_thread s i (mkT MRel o w) c).
Proof. intros Hp. start Rel. known; open; see. destruct fd; [exfalso; bools; congruence || lia|]. destruct lk, tg; try (exfalso; bools; lia); fin. Qed.
Lemma step_Fin : nth_error (threads s) i = Some (mkT Fin o w) -> fine (step_thread s i (mkT Fin o w) c).
Proof. intros Hp. start Rel. known; open; see; fin. Qed.
Lemma step_Free : nth_error (threads s) i = Some (mkT Free o w) -> fine (step_thread s i (mkT Free o w) c).
Proof. intros Hp. start Rel. known; open; see; fin. Qed.
Lemma step_Try : nth_error (threads s) i = Some (mkT Try o w) -> fine (step_thread s i (mkT Try o w) c).
Proof. intros Hp. start Rel. known; open; see; reads; [fin|]. destruct (Z.eqb_spec R 1); [finish; [unfold local; cbn [at_pc owned weak]; lia|assumption|num]|fin]. Qed.
Lemma step_TryCas : forall v, nth_error (threads s) i = Some (mkT (TryCas v) o w) -> fine (step_thread s i (mkT (TryCas v) o w) c).
Proof. intros v Hp. start Rel. known; open; see; (destruct (Z.eqb_spec (rc s) v); [|fin]); [exfalso; assert (0 < METADATA_BIT) by reflexivity; lia|]. replace (v - count_of v) with 0 by (destruct (word_none v ltac:(lia)) as [-> _]; lia). finish; [loc|assumption|num]. Qed.
Lemma step_TryFind : nth_error (threads s) i = Some (mkT TryFind o w) -> fine (step_thread s i (mkT TryFind o w) c).
Proof. intros Hp. start Rel. known; open; see; destruct (entry s) eqn:?; fin. Qed.
Lemma step_TryIns : nth_error (threads s) i = Some (mkT TryIns o w) -> fine (step_thread s i (mkT TryIns o w) c).
Proof. intros Hp. start Rel. known; open; see; destruct (entry s) eqn:?; [fin|exfalso; bools; lia]. Qed.
Lemma step_TryLock : nth_error (threads s) i = Some (mkT TryLock o w) -> fine (step_thread s i (mkT TryLock o w) c).
Proof. intros Hp. start Rel. known; open; see. destruct fd; [exfalso; bools; congruence || lia|]. destruct lk; [apply fine_same; exact I|fin]. Qed.
Lemma step_TryRead : nth_error (threads s) i = Some (mkT TryRead o w) -> fine (step_thread s i (mkT TryRead o w) c).
Proof. intros Hp. start Rel. known; open; see; reads; destruct (Z.eqb_spec R 1); [finish; [unfold local; cbn [at_pc owned weak]; lia|assumption|num]|fin]. Qed.
Lemma step_TryCasM : forall v, nth_error (threads s) i = Some (mkT (TryCasM v) o w) -> fine (step_thread s i (mkT (TryCasM v) o w) c).
Proof. intros v Hp. start Rel. known; open; see; destruct (Z.eqb_spec (rc s) v); [|fin]. assert (R = 1) by lia. destruct lk; [|exfalso; bools; lia]. replace (v - count_of v) with METADATA_BIT by (replace v with (1 + METADATA_BIT) by lia; destruct (word_some 1 ltac:(lia)) as [-> _]; lia). finish; [loc|assumption|num]. Qed.
Lemma step_TryNull : nth_error (threads s) i = Some (mkT TryNull o w) -> fine (step_thread s i (mkT TryNull o w) c).
Proof. intros Hp. start Rel. known; open; see. destruct fd; [exfalso; bools; congruence || lia|]. destruct lk, tg; try (exfalso; bools; lia); fin. Qed.
Lemma step_TryUnlock : forall b, nth_error (threads s) i = Some (mkT (TryUnlock b) o w) -> fine (step_thread s i (mkT (TryUnlock b) o w) c).
Proof. intros b Hp. start Rel. destruct b; known; open; see; (destruct fd; [exfalso; bools; congruence || lia|]); (destruct lk; [|exfalso; bools; lia]); fin. Qed.
Lemma step_WFind : nth_error (threads s) i = Some (mkT WFind o w) -> fine (step_thread s i (mkT WFind o w) c).
Proof. intros Hp. start Rel. known; open; see; destruct (entry s) eqn:?; fin. Qed.
Lemma step_WIns : nth_error (threads s) i = Some (mkT WIns o w) -> (entry s = false -> total wP (threads s) = 0) -> fine (step_thread s i (mkT WIns o w) c).
Proof. intros Hp Hc. start Rel. known; open; see; destruct (entry s) eqn:?; try congruence; try (exfalso; bools; lia); [fin|]. assert (P = 0) as P0 by (subst P; apply Hc; reflexivity). match goal with H : rc s = R + 0 |- _ => rewrite H, Z.add_0_r end. rewrite or_word by lia. finish; [loc|assumption|num]. Qed.
Lemma step_WRet : nth_error (threads s) i = Some (mkT WRet o w) -> fine (step_thread s i (mkT WRet o w) c).
Proof. intros Hp. start Rel. known; open; see. destruct fd; [exfalso; bools; congruence || lia|]. destruct lk, tg; try (exfalso; bools; lia); fin. Qed.
Lemma step_SLock : nth_error (threads s) i = Some (mkT SLock o w) -> fine (step_thread s i (mkT SLock o w) c).
Proof. intros Hp. start Rel. known; open; see; (destruct fd; [exfalso; bools; congruence || lia|]); (destruct lk; [apply fine_same; exact I|fin]). Qed.
Lemma step_SRead : nth_error (threads s) i = Some (mkT SRead o w) -> fine (step_thread s i (mkT SRead o w) c).
Proof.
  intros Hp. start Rel. assert (R = 0 -> good (ToNull (refs s))) as Gn by (intros R0; cbn [good]; unfold refs; rewrite <- ER; exact R0).
  known; open; see; (destruct fd; [exfalso; bools; congruence || lia|]); (destruct tg, lk; try (exfalso; bools; lia)); try solve [fin];
    (finish; [loc|apply Forall_app; split; [assumption|apply Forall_cons; [apply Gn; clear Gn; bools; lia|apply Forall_nil]]|clear Gn; num]).
Qed.
Lemma step_SInc : nth_error (threads s) i = Some (mkT SInc o w) -> fine (step_thread s i (mkT SInc o w) c).
Proof. intros Hp. start Rel. known; open; see. fin. Qed.
Lemma step_SUnlock : forall b, nth_error (threads s) i = Some (mkT (SUnlock b) o w) -> fine (step_thread s i (mkT (SUnlock b) o w) c).
Proof.
  intros b Hp. start Rel. destruct b; known; open; see; (destruct fd; [exfalso; bools; congruence || lia|]); cbn [obind]; see; (destruct lk; [|exfalso; bools; lia]);
    (finish; [loc|first [assumption|apply Forall_app; split; [assumption|apply Forall_cons; [reflexivity|apply Forall_nil]]]|num]).
Qed.
End Cases.

(** Calls made between calls. *)
Lemma total_move : forall f l i j t t' u u', nth_error l i = Some t -> nth_error (upd l i t') j = Some u -> f t' + f u' = f t + f u ->
  total f (upd (upd l i t') j u') = total f l.
Proof. intros f l i j t t' u u' Hi Hj H. rewrite (total_upd f _ j u u' Hj), (total_upd f _ i t t' Hi). lia. Qed.
Lemma inv_move : forall s i j t t' u u', inv s -> nth_error (threads s) i = Some t -> nth_error (threads s) j = Some u -> i <> j ->
  at_pc t' = at_pc t -> at_pc u' = at_pc u -> local t' -> local u' -> owned t' + owned u' = owned t + owned u -> weak t' + weak u' = weak t + weak u ->
  inv (put_t (put_t s i t') j u').
Proof.
  intros s i j t t' u u' I Hi Hj Ne Pt Pu Lt Lu Ho Hw. destruct (proj1 (inv_numbers s) I) as (L & G & Nm). apply inv_numbers.
  unfold put_t. cbn [rc alive finals entry meta threads log].
  split; [apply Forall_upd_thread; [apply Forall_upd_thread; assumption|assumption]|]. split; [exact G|]. cbv zeta in Nm |- *.
  assert (nth_error (upd (threads s) i t') j = Some u) as Hj' by (rewrite nth_error_upd_neq by congruence; exact Hj).
  rewrite (total_move refs_of _ i j t t' u u' Hi Hj') by (unfold refs_of; rewrite Pt, Pu; lia).
  rewrite (total_move weak _ i j t t' u u' Hi Hj') by exact Hw.
  rewrite (total_move wD _ i j t t' u u' Hi Hj') by (unfold wD; rewrite Pt, Pu; lia).
  rewrite (total_move wF _ i j t t' u u' Hi Hj') by (unfold wF; rewrite Pt, Pu; lia).
  rewrite (total_move wN _ i j t t' u u' Hi Hj') by (unfold wN; rewrite Pt, Pu; lia).
  rewrite (total_move wU _ i j t t' u u' Hi Hj') by (unfold wU; rewrite Pt, Pu; lia).
  rewrite (total_move wO _ i j t t' u u' Hi Hj') by (unfold wO; rewrite Pt, Pu; lia).
  rewrite (total_move wX _ i j t t' u u' Hi Hj') by (unfold wX; rewrite Pt, Pu; lia).
  rewrite (total_move wE _ i j t t' u u' Hi Hj') by (unfold wE; rewrite Pt, Pu; lia).
  rewrite (total_move wP _ i j t t' u u' Hi Hj') by (unfold wP; rewrite Pt, Pu; lia).
  rewrite (total_move wM _ i j t t' u u' Hi Hj') by (unfold wM; rewrite Pt, Pu; lia).
  exact Nm.
Qed.
Lemma local_more : forall p o w, local (mkT p o w) -> local (mkT p (o + 1) w) /\ local (mkT p o (w + 1)).
Proof. intros p o w (A & B & C). unfold local. cbn [at_pc owned weak] in *. destruct p as [| | | | | | | |[|]| | | | | | | | | | | | |[|]| | | | | | |[|]]; repeat split; try exact Logic.I; lia. Qed.
Lemma step_Idle : forall s i o w c, inv s -> nth_error (threads s) i = Some (mkT Idle o w) -> fine (step_thread s i (mkT Idle o w) c).
Proof.
  intros s i o w c I Hp. destruct c as [| | | | | |j|j].
  - start Rel. open. destruct (Z.ltb_spec 0 o) as [Po|Po]; [|apply fine_same; exact I]. known; see; fin.
  - start Rel. open. destruct (Z.ltb_spec 0 o) as [Po|Po]; [|apply fine_same; exact I]. known; see; fin.
  - start Rel. open. destruct (Z.ltb_spec 0 o) as [Po|Po]; [|apply fine_same; exact I]. known; see; fin.
  - start Rel. open. destruct (Z.ltb_spec 0 o) as [Po|Po]; [|apply fine_same; exact I]. known; see; fin.
  - start Rel. open. destruct (Z.ltb_spec 0 w) as [Po|Po]; [|apply fine_same; exact I]. known; see; fin.
  - start Rel. open. destruct (Z.ltb_spec 0 w) as [Po|Po]; [|apply fine_same; exact I]. known; see; (destruct fd; [exfalso; bools; congruence || lia|]); fin.
  - unfold step_thread. cbn [at_pc owned weak]. destruct (Z.ltb_spec 0 o) as [Po|Po]; [|apply fine_same; exact I].
    destruct (nth_error (threads s) j) as [[p' o' w']|] eqn:Hj; [|apply fine_same; exact I].
    destruct (Nat.eqb_spec j i) as [Ej|Ej]; [apply fine_same; exact I|].
    eexists. split; [reflexivity|]. intros _. cbn [at_pc owned weak]. destruct (proj1 (inv_numbers s) I) as (L & _).
    destruct (local_all _ L _ (nth_error_In _ _ Hp)) as (L1 & L2 & _). cbn [owned weak] in L1, L2.
    apply (inv_move s i j (mkT Idle o w) _ (mkT p' o' w')); try assumption; try reflexivity; cbn [owned weak]; try lia.
    + unfold local. cbn [at_pc owned weak]. repeat split; lia.
    + apply (local_more p' o' w'). exact (local_all _ L _ (nth_error_In _ _ Hj)).
  - unfold step_thread. cbn [at_pc owned weak]. destruct (Z.ltb_spec 0 w) as [Po|Po]; [|apply fine_same; exact I].
    destruct (nth_error (threads s) j) as [[p' o' w']|] eqn:Hj; [|apply fine_same; exact I].
    destruct (Nat.eqb_spec j i) as [Ej|Ej]; [apply fine_same; exact I|].
    eexists. split; [reflexivity|]. intros _. cbn [at_pc owned weak]. destruct (proj1 (inv_numbers s) I) as (L & _).
    destruct (local_all _ L _ (nth_error_In _ _ Hp)) as (L1 & L2 & _). cbn [owned weak] in L1, L2.
    apply (inv_move s i j (mkT Idle o w) _ (mkT p' o' w')); try assumption; try reflexivity; cbn [owned weak]; try lia.
    + unfold local. cbn [at_pc owned weak]. repeat split; lia.
    + apply (local_more p' o' w'). exact (local_all _ L _ (nth_error_In _ _ Hj)).
Qed.

Lemma step_fine : forall s l, inv s -> calm s l -> fine (step s l).
Proof.
  intros s [i c] I Hc. unfold step. cbn [fst snd]. destruct (nth_error (threads s) i) as [[p o w]|] eqn:Hp; [|apply fine_same; exact I].
  destruct p.
  - apply step_Idle; assumption.
  - apply step_Rel; assumption.
  - apply step_RelDec; assumption.
  - apply step_RelFind; assumption.
  - apply step_RelIns; assumption.
  - apply step_RelLock; assumption.
  - apply step_RelDecM; assumption.
  - apply step_RelNull; assumption.
  - apply step_RelUnlock; assumption.
  - apply step_Remove; assumption.
  - apply step_MRel; assumption.
  - apply step_Fin; assumption.
  - apply step_Free; assumption.
  - apply step_Try; assumption.
  - apply step_TryCas; assumption.
  - apply step_TryFind; assumption.
  - apply step_TryIns; assumption.
  - apply step_TryLock; assumption.
  - apply step_TryRead; assumption.
  - apply step_TryCasM; assumption.
  - apply step_TryNull; assumption.
  - apply step_TryUnlock; assumption.
  - apply step_WFind; assumption.
  - apply step_WIns; try assumption. intros En.
    assert (forall u, In u (threads s) -> wP u = 0) as Z.
    { intros u Hu. pose proof (Hc _ Hp eq_refl En u Hu) as Ne. unfold wP. destruct (at_pc u); congruence. }
    clear - Z. induction (threads s) as [|x l IH]; [reflexivity|]. cbn [total fold_right]. fold (total wP l).
    rewrite (Z x (or_introl eq_refl)), IH; [reflexivity|]. intros u Hu. apply Z. right. exact Hu.
  - apply step_WRet; assumption.
  - apply step_SLock; assumption.
  - apply step_SRead; assumption.
  - apply step_SInc; assumption.
  - apply step_SUnlock; assumption.
Qed.

Lemma init_inv : forall n, inv (init n).
Proof.
  intros n.
  assert (forall f : thread -> Z, f (mkT Idle 0 0) = 0 -> total f (repeat (mkT Idle 0 0) n) = 0) as Z.
  { intros f Hf. induction n as [|n IH]; [reflexivity|]. cbn [repeat total fold_right]. fold (total f (repeat (mkT Idle 0 0) n)). rewrite IH, Hf. reflexivity. }
  apply inv_numbers. unfold init. cbn [rc alive finals entry meta threads log].
  split; [constructor; [unfold local; cbn; lia|]; apply Forall_forall; intros t Ht; apply repeat_spec in Ht; subst t; unfold local; cbn; lia|].
  split; [constructor|]. cbv zeta. cbn [total fold_right].
  repeat match goal with |- context [fold_right (fun t a => ?f t + a) 0 (repeat (mkT Idle 0 0) n)] => change (fold_right (fun t a => f t + a) 0 (repeat (mkT Idle 0 0) n)) with (total f (repeat (mkT Idle 0 0) n)); rewrite (Z f) by reflexivity end.
  unfold numbers, refs_of, inflight, wD, wF, wM; cbn [at_pc owned weak]. cbn. repeat split; reflexivity.
Qed.

Lemma run_inv : forall ls s, inv s -> admissible s ls -> exists s', run s ls = Ok s' /\ inv s'.
Proof.
  induction ls as [|l ls IH]; intros s I A; cbn [run]; [exists s; split; [reflexivity|exact I]|].
  destruct A as [C A]. destruct (step_fine s l I C) as (s1 & E & F). rewrite E. cbn [obind].
  destruct (A s1 E) as [Hf A']. exact (IH s1 (F Hf) A').
Qed.
