(** The invariant of a counted object and its metadata. *)
Require Import Coq.ZArith.ZArith Coq.Lists.List Coq.Bool.Bool Coq.Arith.Arith Coq.micromega.Lia.
Require Import Verif.Base Verif.RefCount_Model Verif.RefCount_Spec.
Import ListNotations.
Local Open Scope Z_scope.

Lemma total_app : forall f l r, total f (l ++ r) = total f l + total f r.
Proof. intros f l r. induction l as [|x l IH]; simpl; [reflexivity|rewrite IH; ring]. Qed.
Lemma total_upd : forall f l i x y, nth_error l i = Some x -> total f (upd l i y) = total f l - f x + f y.
Proof.
  intros f. induction l as [|a l IH]; intros [|i] x y H; simpl in *; try discriminate H.
  - injection H as ->. ring.
  - rewrite (IH i x y H). ring.
Qed.
Lemma total_le : forall f g l, (forall t, In t l -> f t <= g t) -> total f l <= total g l.
Proof.
  intros f g l. induction l as [|x l IH]; intros H; simpl; [lia|].
  pose proof (H x (or_introl eq_refl)). assert (total f l <= total g l) by (apply IH; intros t Ht; apply H; right; exact Ht). lia.
Qed.
Lemma total_nonneg : forall f l, (forall t, In t l -> 0 <= f t) -> 0 <= total f l.
Proof.
  intros f l. induction l as [|x l IH]; intros H; simpl; [lia|].
  pose proof (H x (or_introl eq_refl)). assert (0 <= total f l) by (apply IH; intros t Ht; apply H; right; exact Ht). lia.
Qed.
Lemma total_in : forall f l t, (forall t, In t l -> 0 <= f t) -> In t l -> f t <= total f l.
Proof.
  intros f l t. induction l as [|x l IH]; intros H I; simpl; [destruct I|].
  pose proof (H x (or_introl eq_refl)).
  assert (forall t, In t l -> 0 <= f t) as H' by (intros u Hu; apply H; right; exact Hu).
  destruct I as [->|I]; [pose proof (total_nonneg f l H'); lia|pose proof (IH H' I); lia].
Qed.
Lemma total_add : forall f g h l, (forall t, f t = g t + h t) -> total f l = total g l + total h l.
Proof. intros f g h l H. induction l as [|x l IH]; simpl; [reflexivity|rewrite IH, H; ring]. Qed.
Lemma total_zero : forall f l, (forall t, In t l -> 0 <= f t) -> total f l = 0 -> forall t, In t l -> f t = 0.
Proof. intros f l H Z t I. pose proof (total_in f l t H I). pose proof (H t I). lia. Qed.

Definition b2z (b : bool) : Z := if b then 1 else 0.
Definition wD (t : thread) : Z := match at_pc t with RelNull | RelUnlock true | TryNull | TryUnlock true | Remove | MRel | Fin => 1 | _ => 0 end.
Definition wF (t : thread) : Z := match at_pc t with Free => 1 | _ => 0 end.
Definition wN (t : thread) : Z := match at_pc t with RelNull | TryNull => 1 | _ => 0 end.
Definition wU (t : thread) : Z := match at_pc t with RelUnlock false | SInc => 1 | _ => 0 end.
Definition wO (t : thread) : Z := match at_pc t with RelDecM | RelUnlock true | TryRead | TryCasM _ | TryUnlock _ | SRead | SUnlock _ => 1 | _ => 0 end.
Definition wX (t : thread) : Z := match at_pc t with RelNull | RelUnlock true | TryNull | TryUnlock true | Remove | MRel => 1 | _ => 0 end.
Definition wE (t : thread) : Z := match at_pc t with RelNull | RelUnlock true | TryNull | TryUnlock true | Remove => 1 | _ => 0 end.
Definition wP (t : thread) : Z := match at_pc t with RelDec => 1 | _ => 0 end.
Definition wM (t : thread) : Z :=
  match at_pc t with
  | RelFind | RelIns | RelLock | RelDecM | RelNull | RelUnlock _ | Remove | MRel
  | TryFind | TryIns | TryLock | TryRead | TryCasM _ | TryNull | TryUnlock _ | WRet | SLock | SRead | SInc | SUnlock _ => 1
  | _ => 0
  end.

Definition local (t : thread) : Prop :=
  0 <= owned t /\ 0 <= weak t /\
  match at_pc t with
  | Try | TryFind | TryIns | TryLock | TryRead | TryUnlock false | WFind | WIns | WRet => 1 <= owned t
  | TryCas v => 1 <= owned t /\ v = 1
  | TryCasM v => 1 <= owned t /\ v = 1 + METADATA_BIT
  | SLock | SRead | SInc | SUnlock false => 1 <= weak t
  | SUnlock true => 1 <= weak t /\ 1 <= owned t
  | _ => True
  end.
Definition pos (z : Z) : bool := 0 <? z.
Definition good (r : resolved) : Prop := match r with ToNull n => n = 0 | ToObject l => l = Alive end.
Definition inv (s : state) : Prop :=
  let T f := total f (threads s) in
  Forall local (threads s) /\ Forall good (log s) /\ T refs_of < 268435456 /\
  rc s = T refs_of + (match meta s with Some _ => METADATA_BIT | None => 0 end) /\
  match alive s with
  | Alive => finals s = 0%nat /\ T wF = 0 /\ T wD = b2z (negb (pos (T refs_of)))
  | Finalized => finals s = 1%nat /\ T refs_of = 0 /\ T wD = 0 /\ T wF = 1
  | Freed => finals s = 1%nat /\ T refs_of = 0 /\ T wD = 0 /\ T wF = 0
  end /\
  match meta s with
  | None => entry s = false /\ T wM = 0 /\ T weak = 0
  | Some m =>
    T wP = 0 /\ T wO + T wU + T wN = b2z (locked m) /\ (T wU = 0 \/ pos (T refs_of) = true) /\
    b2z (target m) = b2z (pos (T refs_of)) + T wN /\ b2z (entry s) = b2z (pos (T refs_of)) + T wE /\
    mrc m = b2z (pos (T refs_of)) + T wX + T weak /\ mfreed m = (mrc m =? 0)
  end.

(** The reference count as a word. *)
Lemma count_word : forall n b, 0 <= n < 268435456 -> count_of (n + (if b : bool then METADATA_BIT else 0)) = n.
Proof.
  intros n b H. unfold count_of, COUNT_MASK. change 268435455 with (Z.ones 28). rewrite Z.land_ones by lia.
  destruct b; unfold METADATA_BIT.
  - replace (n + 1073741824) with (n + 4 * 2 ^ 28) by reflexivity. rewrite Z.mod_add by lia. apply Z.mod_small. exact H.
  - rewrite Z.add_0_r. apply Z.mod_small. exact H.
Qed.
Lemma bit_word : forall n b, 0 <= n < 268435456 -> has_metadata (n + (if b : bool then METADATA_BIT else 0)) = b.
Proof.
  intros n b H. unfold has_metadata, METADATA_BIT.
  assert (forall v, Z.land v 1073741824 = if Z.testbit v 30 then 1073741824 else 0) as L.
  { intros v. apply Z.bits_inj'. intros k Hk. rewrite Z.land_spec.
    change 1073741824 with (2 ^ 30). rewrite Z.pow2_bits_eqb by lia. destruct (Z.eqb_spec 30 k) as [<-|Ne].
    - rewrite andb_true_r. destruct (Z.testbit v 30); [rewrite Z.pow2_bits_true by lia; reflexivity|rewrite Z.bits_0; reflexivity].
    - rewrite andb_false_r. destruct (Z.testbit v 30); [rewrite Z.pow2_bits_eqb by lia; symmetry; apply Z.eqb_neq; exact Ne|rewrite Z.bits_0; reflexivity]. }
  rewrite L. replace (Z.testbit (n + (if b then 1073741824 else 0)) 30) with b; [destruct b; reflexivity|].
  rewrite Z.testbit_eqb by lia. symmetry. destruct b.
  - replace (n + 1073741824) with (n + 1 * 2 ^ 30) by reflexivity. rewrite Z.div_add by lia. rewrite Z.div_small by lia. reflexivity.
  - rewrite Z.add_0_r, Z.div_small by lia. reflexivity.
Qed.
Lemma or_word : forall n, 0 <= n < 268435456 -> Z.lor n METADATA_BIT = n + METADATA_BIT.
Proof.
  intros n H. symmetry. rewrite <- Z.lxor_lor.
  - apply Z.add_nocarry_lxor. apply Z.bits_inj'. intros k Hk. rewrite Z.land_spec, Z.bits_0. unfold METADATA_BIT. change 1073741824 with (2 ^ 30).
    rewrite Z.pow2_bits_eqb by lia. destruct (Z.eqb_spec 30 k) as [<-|Ne]; [|apply andb_false_r].
    rewrite andb_true_r. rewrite Z.testbit_eqb by lia. rewrite Z.div_small by lia. reflexivity.
  - apply Z.bits_inj'. intros k Hk. rewrite Z.land_spec, Z.bits_0. unfold METADATA_BIT. change 1073741824 with (2 ^ 30).
    rewrite Z.pow2_bits_eqb by lia. destruct (Z.eqb_spec 30 k) as [<-|Ne]; [|apply andb_false_r].
    rewrite andb_true_r. rewrite Z.testbit_eqb by lia. rewrite Z.div_small by lia. reflexivity.
Qed.

Global Opaque METADATA_BIT COUNT_MASK.

Lemma local_refs : forall t, local t -> 0 <= refs_of t.
Proof. intros t [H _]. unfold refs_of, inflight. destruct (at_pc t); lia. Qed.
Lemma local_all : forall l, Forall local l -> forall t, In t l -> local t.
Proof. intros l H. apply Forall_forall. exact H. Qed.

(** Facts about the totals of any list of threads. *)
Lemma totals : forall l, Forall local l ->
  0 <= total refs_of l /\ 0 <= total weak l /\ 0 <= total wD l /\ 0 <= total wF l /\ 0 <= total wP l /\
  0 <= total wE l <= total wX l /\ total wX l <= total wD l /\ total wX l <= total wM l /\
  0 <= total wN l <= total wE l /\ 0 <= total wO l <= total wM l /\ 0 <= total wU l <= total wM l /\ total owned l <= total refs_of l.
Proof.
  intros l H. pose proof (local_all l H) as A.
  repeat split; (apply total_nonneg || apply total_le); intros t Ht; specialize (A t Ht);
    try (apply local_refs; exact A); try (destruct A as (? & ? & _); assumption);
    destruct t as [p o w]; unfold wD, wF, wN, wU, wO, wX, wE, wP, wM, refs_of, inflight; cbn [at_pc owned weak]; destruct p as [| | | | | | | |[|]| | | | | | | | | | | | |[|]| | | | | | |[|]]; lia.
Qed.
Lemma totals_in : forall l t, Forall local l -> In t l ->
  refs_of t <= total refs_of l /\ weak t <= total weak l /\ wD t <= total wD l /\ wF t <= total wF l /\ wP t <= total wP l /\
  wE t <= total wE l /\ wX t <= total wX l /\ wM t <= total wM l /\ wN t <= total wN l /\ wO t <= total wO l /\ wU t <= total wU l.
Proof.
  intros l t H I. pose proof (local_all l H) as A.
  repeat split; apply total_in; try exact I; intros u Hu; specialize (A u Hu);
    try (apply local_refs; exact A); try (destruct A as (? & ? & _); assumption);
    destruct u as [p o w]; unfold wD, wF, wN, wU, wO, wX, wE, wP, wM; cbn [at_pc]; destruct p as [| | | | | | | |[|]| | | | | | | | | | | | |[|]| | | | | | |[|]]; lia.
Qed.

Lemma Forall_upd_thread : forall l i (y : thread), Forall local l -> local y -> Forall local (upd l i y).
Proof.
  induction l as [|a l IH]; intros [|i] y H L; simpl; auto; inversion H as [|? ? Ha Hl]; subst; constructor; auto.
Qed.

(** The part of the invariant about numbers, so that updates can be computed. *)
Definition numbers (rc : Z) (al : life) (fi : nat) (en : bool) (me : option metadata) (R D F N U O X E P M W : Z) : Prop :=
  R < 268435456 /\ rc = R + (match me with Some _ => METADATA_BIT | None => 0 end) /\
  match al with
  | Alive => fi = 0%nat /\ F = 0 /\ D = b2z (negb (pos R))
  | Finalized => fi = 1%nat /\ R = 0 /\ D = 0 /\ F = 1
  | Freed => fi = 1%nat /\ R = 0 /\ D = 0 /\ F = 0
  end /\
  match me with
  | None => en = false /\ M = 0 /\ W = 0
  | Some m =>
    P = 0 /\ O + U + N = b2z (locked m) /\ (U = 0 \/ pos R = true) /\
    b2z (target m) = b2z (pos R) + N /\ b2z en = b2z (pos R) + E /\ mrc m = b2z (pos R) + X + W /\ mfreed m = (mrc m =? 0)
  end.
Lemma inv_numbers : forall s, inv s <->
  Forall local (threads s) /\ Forall good (log s) /\
  let T f := total f (threads s) in
  numbers (rc s) (alive s) (finals s) (entry s) (meta s) (T refs_of) (T wD) (T wF) (T wN) (T wU) (T wO) (T wX) (T wE) (T wP) (T wM) (T weak).
Proof. intros s. unfold inv, numbers. cbv zeta. tauto. Qed.

(** Replacing one thread. *)
Lemma inv_put : forall s i t t' rc' al fi en me lg, nth_error (threads s) i = Some t -> Forall local (threads s) -> local t' -> Forall good lg ->
  numbers rc' al fi en me
    (total refs_of (threads s) - refs_of t + refs_of t') (total wD (threads s) - wD t + wD t') (total wF (threads s) - wF t + wF t')
    (total wN (threads s) - wN t + wN t') (total wU (threads s) - wU t + wU t') (total wO (threads s) - wO t + wO t')
    (total wX (threads s) - wX t + wX t') (total wE (threads s) - wE t + wE t') (total wP (threads s) - wP t + wP t')
    (total wM (threads s) - wM t + wM t') (total weak (threads s) - weak t + weak t') ->
  inv (mkS rc' al fi en me (upd (threads s) i t') lg).
Proof.
  intros s i t t' rc' al fi en me lg E H L G Hn. apply inv_numbers. cbn [threads log rc alive finals entry meta].
  split; [apply Forall_upd_thread; assumption|]. split; [exact G|]. cbv zeta.
  rewrite !(fun f => total_upd f (threads s) i t t' E). exact Hn.
Qed.
Lemma inv_fits : forall s, inv s -> fits s.
Proof. intros s (_ & _ & H & _). exact H. Qed.
