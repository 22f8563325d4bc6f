(** Proofs about properties: ownership. *)
Require Import Coq.NArith.NArith Coq.ZArith.ZArith Coq.Lists.List Coq.Arith.Arith Coq.Bool.Bool Coq.micromega.Lia.
Require Import Verif.Base Verif.Number_Model Verif.Number_Spec Verif.Number_Proofs Verif.Property_Model Verif.Property_Spec.
Import ListNotations.
Local Open Scope nat_scope.

Definition refs_of (w : world) (x : nat) : nat := match nth_error (heap w) x with Some o => refs o | None => 0 end.
Definition one (x : option nat) (y : nat) : nat := match x with Some i => if i =? y then 1 else 0 | None => 0 end.
Definition of_slot (s : option slot) (y : nat) : nat := match s with Some s => is_ref s y | None => 0 end.
Definition vw (w : world) (i : nat) : option (nat * content) := match nth_error (heap w) i with Some o => Some (cls o, body o) | None => None end.
Definition fits (w : world) (p : property) (s : slot) : Prop :=
  match enc p with
  | EObj => if weak p then match s with SWeak None => True | SWeak (Some i) => i < length (heap w) | _ => False end
            else match s with SRef _ => True | _ => False end
  | e => match s with SBytes b => length b = esize e /\ octets b | _ => False end
  end.
Definition typed (P : program) (w : world) : Prop :=
  forall o off s, find_slot (memory w) (o, off) = Some s -> exists c b, vw w o = Some (c, b) /\ forall p, In p (props P c) -> offset p = off -> fits w p s.
Record inv (P : program) (w : world) (f : nat -> nat) : Prop := {
  i_refs : forall x, refs_of w x = f x + times (pool w) x + in_memory (memory w) x;
  i_typed : typed P w;
  i_body : forall x c b, vw w x = Some (c, b) -> value_ok b }.

Lemma inv_ext P w f g : (forall x, f x = g x) -> inv P w f -> inv P w g.
Proof. intros E [A B C]. constructor; auto. intros x. rewrite <- E. auto. Qed.
Lemma view_vw w i : view w (Some i) = vw w i. Proof. reflexivity. Qed.
Lemma alive_refs w x : alive w x <-> 0 < refs_of w x.
Proof.
  unfold alive, refs_of. split.
  - intros (o & E & N). rewrite E. lia.
  - destruct (nth_error (heap w) x) as [o|] eqn:E; [|lia]. intros L. exists o. split; auto. lia.
Qed.
Lemma vw_length w w' : (forall i, vw w' i = vw w i) -> length (heap w') = length (heap w).
Proof.
  intros V. assert (A: forall i, nth_error (heap w') i = None <-> nth_error (heap w) i = None).
  { intros i. specialize (V i). unfold vw in V. destruct (nth_error (heap w') i), (nth_error (heap w) i); split; congruence. }
  destruct (A (length (heap w))) as [_ A1]. destruct (A (length (heap w'))) as [A2 _].
  rewrite !nth_error_None in *. lia.
Qed.

(** * Retain and release *)
Definition same (w w' : world) : Prop := memory w' = memory w /\ pool w' = pool w /\ log w' = log w /\ forall i, vw w' i = vw w i.
Lemma same_refl w : same w w. Proof. repeat split. Qed.
Lemma same_trans a b c : same a b -> same b c -> same a c.
Proof. intros (A1 & A2 & A3 & A4) (B1 & B2 & B3 & B4). repeat split; try congruence; intros i; rewrite B4; auto. Qed.
Lemma upd_refs w x o n : nth_error (heap w) x = Some o ->
  forall y, refs_of (with_heap w (upd (heap w) x (set_refs o n))) y = (if x =? y then n else refs_of w y).
Proof.
  intros E y. unfold refs_of. cbn [heap with_heap]. assert (x < length (heap w)) by (apply nth_error_Some; congruence).
  destruct (Nat.eqb_spec x y) as [->|N].
  - rewrite nth_error_upd_eq by auto. reflexivity.
  - rewrite nth_error_upd_neq by auto. reflexivity.
Qed.
Lemma upd_vw w x o n : nth_error (heap w) x = Some o -> forall y, vw (with_heap w (upd (heap w) x (set_refs o n))) y = vw w y.
Proof.
  intros E y. unfold vw. cbn [heap with_heap]. assert (x < length (heap w)) by (apply nth_error_Some; congruence).
  destruct (Nat.eq_dec x y) as [->|N].
  - rewrite nth_error_upd_eq, E by auto. reflexivity.
  - rewrite nth_error_upd_neq by auto. reflexivity.
Qed.
Lemma retain_spec w x : match x with Some i => 0 < refs_of w i | None => True end ->
  exists w', retain w x = Ok w' /\ same w w' /\ forall y, refs_of w' y = refs_of w y + one x y.
Proof.
  destruct x as [i|]; cbn [retain one]; [|intros _; exists w; repeat split; intros; lia].
  intros A. unfold get_obj. unfold refs_of in A. destruct (nth_error (heap w) i) as [o|] eqn:E; [|lia].
  destruct (Nat.eqb_spec (refs o) 0) as [Z|Z]; [lia|]. eexists. split; [reflexivity|]. split.
  - repeat split; auto. apply upd_vw; auto.
  - intros y. rewrite (upd_refs w i o _ E). destruct (Nat.eqb_spec i y) as [->|N]; [|lia]. unfold refs_of. rewrite E. lia.
Qed.
Lemma release_spec w x : match x with Some i => 0 < refs_of w i | None => True end ->
  exists w', release w x = Ok w' /\ same w w' /\ forall y, refs_of w' y = refs_of w y - one x y.
Proof.
  destruct x as [i|]; cbn [release one]; [|intros _; exists w; repeat split; intros; lia].
  intros A. unfold get_obj. unfold refs_of in A. destruct (nth_error (heap w) i) as [o|] eqn:E; [|lia].
  destruct (Nat.eqb_spec (refs o) 0) as [Z|Z]; [lia|]. eexists. split; [reflexivity|]. split.
  - repeat split; auto. apply upd_vw; auto.
  - intros y. rewrite (upd_refs w i o _ E). destruct (Nat.eqb_spec i y) as [->|N]; [|lia]. unfold refs_of. rewrite E. lia.
Qed.
Lemma fits_same w w' p s : length (heap w) <= length (heap w') -> fits w p s -> fits w' p s.
Proof. unfold fits. destruct (enc p); auto. destruct (weak p); auto. destruct s as [|[i|]|]; auto. lia. Qed.
Lemma typed_same P w w' : memory w' = memory w -> (forall i, vw w' i = vw w i) -> typed P w -> typed P w'.
Proof.
  intros M V T o off s F. rewrite M in F. destruct (T o off s F) as (c & b & E & H). exists c, b. rewrite V. split; auto.
  intros p I O. apply (fits_same w); auto. rewrite (vw_length w w'); auto.
Qed.
Lemma body_same w w' : (forall i, vw w' i = vw w i) -> (forall x c b, vw w x = Some (c, b) -> value_ok b) -> forall x c b, vw w' x = Some (c, b) -> value_ok b.
Proof. intros V B x c b E. rewrite V in E. eauto. Qed.
Lemma inv_same P w w' f g : same w w' -> (forall x, refs_of w' x + f x = refs_of w x + g x) -> inv P w f -> inv P w' g.
Proof.
  intros (M & Po & L & V) R [A B C]. constructor.
  - intros x. rewrite M, Po. specialize (R x). rewrite (A x) in R. lia.
  - apply (typed_same P w); auto.
  - apply (body_same w); auto.
Qed.
Lemma retain_inv P w f x : inv P w f -> match x with Some i => 0 < refs_of w i | None => True end ->
  exists w', retain w x = Ok w' /\ same w w' /\ inv P w' (fun y => f y + one x y).
Proof.
  intros I A. destruct (retain_spec w x A) as (w' & E & S & R). exists w'. split; auto. split; auto.
  apply (inv_same P w w' f); auto. intros y. rewrite R. lia.
Qed.
Lemma release_inv P w f x : inv P w f -> (forall y, one x y <= f y) ->
  exists w', release w x = Ok w' /\ same w w' /\ inv P w' (fun y => f y - one x y).
Proof.
  intros I A. assert (A': match x with Some i => 0 < refs_of w i | None => True end).
  { destruct x as [i|]; auto. specialize (A i). cbn in A. rewrite Nat.eqb_refl in A. rewrite (i_refs P w f I). lia. }
  destruct (release_spec w x A') as (w' & E & S & R). exists w'. split; auto. split; auto.
  apply (inv_same P w w' f); auto. intros y. rewrite R. specialize (A y). assert (refs_of w y >= f y) by (rewrite (i_refs P w f I); lia). lia.
Qed.

(** * Memory *)
Lemma keyb k k' : ((fst k' =? fst k) && (snd k' =? snd k))%bool = true <-> k' = k.
Proof. destruct k, k'; cbn. rewrite andb_true_iff, !Nat.eqb_eq. split; [intros [-> ->]; auto|intros E; injection E; auto]. Qed.
Lemma find_put_same m k s : find_slot (put_slot m k s) k = Some s.
Proof.
  induction m as [|[k' s'] m IH]; cbn.
  - rewrite !Nat.eqb_refl. reflexivity.
  - destruct ((fst k' =? fst k) && (snd k' =? snd k))%bool eqn:E; cbn; [rewrite !Nat.eqb_refl; reflexivity|]. rewrite E. auto.
Qed.
Lemma find_put_other m k s k' : k' <> k -> find_slot (put_slot m k s) k' = find_slot m k'.
Proof.
  intros N. induction m as [|[k2 s2] m IH]; cbn.
  - destruct ((fst k =? fst k') && (snd k =? snd k'))%bool eqn:E; auto. apply keyb in E. congruence.
  - destruct ((fst k2 =? fst k) && (snd k2 =? snd k))%bool eqn:E; cbn.
    + apply keyb in E. subst k2. destruct ((fst k =? fst k') && (snd k =? snd k'))%bool eqn:E; auto. apply keyb in E. congruence.
    + rewrite IH. reflexivity.
Qed.
Lemma in_memory_put m k s x : in_memory (put_slot m k s) x + of_slot (find_slot m k) x = in_memory m x + is_ref s x.
Proof.
  induction m as [|[k' s'] m IH]; cbn; [lia|].
  destruct ((fst k' =? fst k) && (snd k' =? snd k))%bool; cbn; lia.
Qed.
Lemma find_le m k x : of_slot (find_slot m k) x <= in_memory m x.
Proof. induction m as [|[k' s'] m IH]; cbn; auto. destruct ((fst k' =? fst k) && (snd k' =? snd k))%bool; cbn; lia. Qed.
Lemma typed_save P w o off s c b : typed P w -> vw w o = Some (c, b) -> (forall p, In p (props P c) -> offset p = off -> fits w p s) -> typed P (save w o off s).
Proof.
  intros T V F o' off' s' E. cbn [save memory with_memory] in E. assert (D: (o', off') = (o, off) \/ (o', off') <> (o, off)).
  { destruct (Nat.eq_dec o' o), (Nat.eq_dec off' off); subst; auto; right; intros X; injection X; auto. }
  destruct D as [D|D].
  - rewrite D, find_put_same in E. injection D as -> ->. injection E as <-. exists c, b. split; auto.
  - rewrite find_put_other in E by auto. destruct (T o' off' s' E) as (c' & b' & V' & F'). exists c', b'. split; auto.
Qed.
(** Writing what is not a reference over what is not one. *)
Lemma save_plain P w f o off s c b : inv P w f -> vw w o = Some (c, b) -> (forall p, In p (props P c) -> offset p = off -> fits w p s) ->
  (forall x, of_slot (find_slot (memory w) (o, off)) x = 0) -> (forall x, is_ref s x = 0) -> inv P (save w o off s) f.
Proof.
  intros [A B C] V F O S. constructor.
  - intros x. change (refs_of (save w o off s) x) with (refs_of w x). cbn [save memory pool with_memory]. pose proof (in_memory_put (memory w) (o, off) s x). rewrite O, S in H. rewrite A. lia.
  - eapply typed_save; eauto.
  - exact C.
Qed.
(** Replacing a reference: what the memory holds is released, and what the client holds is handed over. *)
Lemma replace_ref P w f o off old x c b : inv P w f -> vw w o = Some (c, b) -> (forall p, In p (props P c) -> offset p = off -> fits w p (SRef x)) ->
  load_ref w o off = Ok old -> (forall y, one x y <= f y) ->
  exists w1, release w old = Ok w1 /\ same w w1 /\ inv P (save w1 o off (SRef x)) (fun y => f y - one x y).
Proof.
  intros I V F L H. assert (O: forall y, of_slot (find_slot (memory w) (o, off)) y = one old y).
  { intros y. unfold load_ref in L. destruct (find_slot (memory w) (o, off)) as [[r|r|r]|]; try discriminate; injection L as <-; reflexivity. }
  assert (A: match old with Some i => 0 < refs_of w i | None => True end).
  { destruct old as [i|]; auto. rewrite (i_refs P w f I). pose proof (find_le (memory w) (o, off) i). rewrite O in H0. cbn in H0. rewrite Nat.eqb_refl in H0. lia. }
  destruct (release_spec w old A) as (w1 & E & S & R). exists w1. split; auto. split; auto. destruct S as (M & Po & Lg & Vw). destruct I as [I1 I2 I3]. constructor.
  - intros y. change (refs_of (save w1 o off (SRef x)) y) with (refs_of w1 y). cbn [save memory pool with_memory]. rewrite M, Po, R, I1.
    pose proof (in_memory_put (memory w) (o, off) (SRef x) y). pose proof (find_le (memory w) (o, off) y). rewrite O in H0, H1. specialize (H y).
    change (is_ref (SRef x) y) with (one x y) in H0. lia.
  - apply (typed_save P w1 o off (SRef x) c b).
    + apply (typed_same P w); auto.
    + rewrite Vw; auto.
    + intros p Ip Op. apply (fits_same w); auto. rewrite (vw_length w w1); auto.
  - apply (body_same w); auto.
Qed.

(** * New objects, the pool, the log *)
Lemma vw_alloc w c b i : vw (fst (alloc w c b)) i = if i =? length (heap w) then Some (c, b) else vw w i.
Proof.
  unfold vw, alloc. cbn. destruct (Nat.eqb_spec i (length (heap w))) as [->|N].
  - rewrite nth_error_app2, Nat.sub_diag by lia. reflexivity.
  - destruct (Nat.lt_ge_cases i (length (heap w))).
    + rewrite nth_error_app1 by auto. reflexivity.
    + rewrite (proj2 (nth_error_None (heap w) i)) by lia. rewrite (proj2 (nth_error_None (heap w ++ _) i)); [reflexivity|]. rewrite app_length. cbn. lia.
Qed.
Lemma refs_alloc w c b i : refs_of (fst (alloc w c b)) i = refs_of w i + one (Some (length (heap w))) i.
Proof.
  unfold refs_of, alloc. cbn. destruct (Nat.eqb_spec (length (heap w)) i) as [<-|N].
  - rewrite nth_error_app2, Nat.sub_diag by lia. rewrite (proj2 (nth_error_None (heap w) (length (heap w)))) by lia. reflexivity.
  - destruct (Nat.lt_ge_cases i (length (heap w))).
    + rewrite nth_error_app1 by auto. lia.
    + rewrite (proj2 (nth_error_None (heap w) i)) by lia. rewrite (proj2 (nth_error_None (heap w ++ _) i)); [reflexivity|]. rewrite app_length. cbn. lia.
Qed.
Lemma vw_lt w i v : vw w i = Some v -> i < length (heap w).
Proof. unfold vw. intros E. apply nth_error_Some. destruct (nth_error (heap w) i); congruence. Qed.
Lemma vw_alloc_old w c b i v : vw w i = Some v -> vw (fst (alloc w c b)) i = Some v.
Proof. intros E. rewrite vw_alloc. pose proof (vw_lt w i v E). destruct (Nat.eqb_spec i (length (heap w))); [lia|auto]. Qed.
Lemma alloc_inv P w f c b : inv P w f -> value_ok b -> inv P (fst (alloc w c b)) (fun y => f y + one (Some (length (heap w))) y).
Proof.
  intros [A B C] V. constructor.
  - intros x. rewrite refs_alloc, A. cbn [alloc fst with_heap pool memory]. lia.
  - intros o off s E. destruct (B o off s E) as (c' & b' & X & F). exists c', b'. split; [apply vw_alloc_old; auto|].
    intros p I O. apply (fits_same w); auto. unfold alloc. cbn. rewrite app_length. lia.
  - intros x c' b' E. rewrite vw_alloc in E. destruct (x =? length (heap w)); [injection E as <- <-; auto|eauto].
Qed.
Lemma note_inv P w f e : inv P w f -> inv P (note w e) f.
Proof. intros [A B C]. constructor; auto. Qed.
Lemma auto_inv P w f x : inv P w (fun y => f y + one x y) -> inv P (autorelease w x) f.
Proof.
  destruct x as [i|]; cbn [autorelease].
  - intros [A B C]. constructor; auto. intros y. specialize (A y). cbn [with_pool pool memory]. change (refs_of (with_pool w (i :: pool w)) y) with (refs_of w y).
    rewrite A. unfold times. cbn [count_occ one]. destruct (Nat.eq_dec i y) as [->|N]; [rewrite Nat.eqb_refl|rewrite (proj2 (Nat.eqb_neq i y) N)]; lia.
  - apply inv_ext. intros y. cbn. lia.
Qed.
Lemma will_read_inv P w f o p : inv P w f -> inv P (will_read w o p) f. Proof. unfold will_read. destruct (wr p); auto using note_inv. Qed.
Lemma did_read_inv P w f o p : inv P w f -> inv P (did_read w o p) f. Proof. unfold did_read. destruct (dr p); auto using note_inv. Qed.
Lemma will_write_inv P w f o p : inv P w f -> inv P (will_write w o p) f. Proof. unfold will_write. destruct (ww p); auto using note_inv. Qed.
Lemma did_write_inv P w f o p : inv P w f -> inv P (did_write w o p) f. Proof. unfold did_write. destruct (dw p); auto using note_inv. Qed.
(** What only the log distinguishes. *)
Definition silent (w w' : world) : Prop := heap w' = heap w /\ memory w' = memory w /\ pool w' = pool w.
Lemma will_read_silent w o p : silent w (will_read w o p). Proof. unfold will_read. destruct (wr p); repeat split. Qed.
Lemma did_read_silent w o p : silent w (did_read w o p). Proof. unfold did_read. destruct (dr p); repeat split. Qed.
Lemma will_write_silent w o p : silent w (will_write w o p). Proof. unfold will_write. destruct (ww p); repeat split. Qed.
Lemma did_write_silent w o p : silent w (did_write w o p). Proof. unfold did_write. destruct (dw p); repeat split. Qed.
Lemma silent_vw w w' i : silent w w' -> vw w' i = vw w i. Proof. intros (H & _ & _). unfold vw. rewrite H. reflexivity. Qed.
Lemma silent_refs w w' i : silent w w' -> refs_of w' i = refs_of w i. Proof. intros (H & _ & _). unfold refs_of. rewrite H. reflexivity. Qed.

(** * Reading memory *)
Lemma octets_zero n : octets (repeat 0%Z n).
Proof. unfold octets. apply Forall_forall. intros z H. apply repeat_spec in H. subst. lia. Qed.
Section Access.
Variables (P : program) (w : world) (f : nat -> nat) (o : nat) (p : property) (c : nat) (b : content).
Hypothesis SP : sensible P.
Hypothesis I : inv P w f.
Hypothesis V : vw w o = Some (c, b).
Hypothesis Ip : In p (props P c).
Lemma slot_fits s : find_slot (memory w) (o, offset p) = Some s -> fits w p s.
Proof. intros E. destruct (i_typed P w f I _ _ _ E) as (c' & b' & V' & F). rewrite V in V'. injection V' as <- <-. auto. Qed.
Lemma load_ref_ok : enc p = EObj -> weak p = false -> exists r, load_ref w o (offset p) = Ok r.
Proof.
  intros E W. unfold load_ref. destruct (find_slot (memory w) (o, offset p)) as [s|] eqn:F; [|eauto].
  apply slot_fits in F. unfold fits in F. rewrite E, W in F. destruct s; try contradiction. eauto.
Qed.
Lemma load_weak_ok : enc p = EObj -> weak p = true -> exists r, load_weak w o (offset p) = Ok r /\ match r with Some i => i < length (heap w) | None => True end.
Proof.
  intros E W. unfold load_weak. destruct (find_slot (memory w) (o, offset p)) as [s|] eqn:F; [|exists None; auto].
  apply slot_fits in F. unfold fits in F. rewrite E, W in F. destruct s as [|[i|]|]; try contradiction; eauto.
Qed.
Lemma load_bytes_ok : enc p <> EObj -> exists bs, load_bytes w o (offset p) (esize (enc p)) = Ok bs /\ length bs = esize (enc p) /\ octets bs.
Proof.
  intros E. unfold load_bytes. destruct (find_slot (memory w) (o, offset p)) as [s|] eqn:F.
  - apply slot_fits in F. unfold fits in F. destruct (enc p) as [|t s'|n]; [congruence| |]; destruct s as [| |bs]; try contradiction; destruct F as [L O]; rewrite L, Nat.eqb_refl; eauto.
  - eexists. split; [reflexivity|]. split; [apply repeat_length|apply octets_zero].
Qed.
Lemma slot_plain : enc p <> EObj \/ weak p = true -> forall x, of_slot (find_slot (memory w) (o, offset p)) x = 0.
Proof.
  intros E x. destruct (find_slot (memory w) (o, offset p)) as [s|] eqn:F; [|reflexivity]. apply slot_fits in F. unfold fits in F.
  destruct (enc p) as [|t s'|n]; destruct s as [[?|]|[?|]|]; try reflexivity; destruct E as [E|E]; try rewrite E in F; try congruence; try contradiction.
Qed.
Lemma fits_all s : fits w p s -> forall q, In q (props P c) -> offset q = offset p -> fits w q s.
Proof. intros F q Iq O. destruct SP as (_ & Inj & _). rewrite (Inj c q p Iq Ip O). exact F. Qed.
Lemma save_bytes bs : enc p <> EObj -> length bs = esize (enc p) -> octets bs -> inv P (save w o (offset p) (SBytes bs)) f.
Proof.
  intros E L O. apply (save_plain P w f o (offset p) (SBytes bs) c b); auto.
  - apply fits_all. unfold fits. destruct (enc p); [congruence| |]; auto.
  - apply slot_plain; auto.
Qed.
End Access.

(** * Numbers *)
Lemma octets_le w z : octets (le w z). Proof. apply le_bytes. Qed.
Lemma octets_flat t vs : octets (flat_map (le (width t)) vs).
Proof. induction vs; cbn; [constructor|]. apply Forall_app. split; auto. apply octets_le. Qed.
Lemma convert_ok ts ss src td sd dst : well_sized (mkNum ts ss src) -> integer_type td -> is_mat sd = false -> length dst = size td sd -> octets dst ->
  exists bs, convert ts ss src td sd dst = Ok (Nat.min (count ss) (count sd), bs) /\ length bs = size td sd /\ octets bs.
Proof.
  intros W It M L O. destruct (every_number _ W) as (vs & Ns). destruct (every_number (mkNum td sd dst)) as (old & No).
  { split; [exact It|]. split; [exact L|exact O]. }
  cbn [ty sh] in *. destruct (convert_vector _ _ _ _ _ _ _ _ Ns No) as (b' & ws & E & _ & (Ib & Fb & Lb & Eb)).
  { left. rewrite M. apply andb_false_r. }
  unfold cast_value in E. cbn [ty sh mem] in E. destruct (convert ts ss src td sd dst) as [[k bs]| | |]; cbn [obind fst snd] in E; try discriminate.
  injection E as E1 E2. exists bs. subst k b'. injection Eb as ->. split; [reflexivity|]. split; [|apply octets_flat].
  rewrite flat_length, Lb. reflexivity.
Qed.
Lemma enc_dec (e : encoding) : e = EObj \/ e <> EObj. Proof. destruct e; auto; right; discriminate. Qed.

(** What an operation on one property does: the memory elsewhere, the objects, and ownership. *)
Definition grows (w w' : world) : Prop := forall i v, vw w i = Some v -> vw w' i = Some v.
Lemma grows_refl w : grows w w. Proof. intros i v E. exact E. Qed.
Lemma grows_trans a b c : grows a b -> grows b c -> grows a c. Proof. intros A B i v E. auto. Qed.
Lemma grows_same a b : (forall i, vw b i = vw a i) -> grows a b. Proof. intros A i v E. rewrite A. auto. Qed.
Lemma grows_length w w' : grows w w' -> length (heap w) <= length (heap w').
Proof.
  intros G. destruct (Nat.le_gt_cases (length (heap w)) (length (heap w'))) as [|L]; auto. exfalso.
  destruct (nth_error (heap w) (length (heap w'))) as [ob|] eqn:E; [|apply nth_error_None in E; lia].
  assert (X: vw w (length (heap w')) = Some (cls ob, body ob)) by (unfold vw; rewrite E; auto). apply G in X. apply vw_lt in X. lia.
Qed.
Definition elsewhere (k : nat * nat) (w w' : world) : Prop := forall k', k' <> k -> find_slot (memory w') k' = find_slot (memory w) k'.
Lemma elsewhere_refl k w w' : memory w' = memory w -> elsewhere k w w'. Proof. intros E k' _. rewrite E. auto. Qed.
Lemma elsewhere_trans k a b c : elsewhere k a b -> elsewhere k b c -> elsewhere k a c. Proof. intros A B k' N. rewrite B, A; auto. Qed.
Lemma elsewhere_save o off s w : elsewhere (o, off) w (save w o off s). Proof. intros k' N. cbn [save memory with_memory]. apply find_put_other; auto. Qed.

Lemma copy_ok P w f x : inv P w f -> match x with Some i => 0 < refs_of w i | None => True end ->
  exists w' y, copy P w x = Ok (w', y) /\ inv P w' (fun z => f z + one y z) /\ memory w' = memory w /\ pool w' = pool w /\ log w' = log w /\ grows w w' /\
    match x with
    | None => y = None
    | Some i => exists c b, vw w i = Some (c, b) /\ match copies P c with None => y = Some i | Some c' => exists j, y = Some j /\ vw w j = None /\ vw w' j = Some (c', b) end
    end.
Proof.
  intros I A. destruct x as [i|]; cbn [copy].
  - unfold get_obj. pose proof A as A'. unfold refs_of in A. destruct (nth_error (heap w) i) as [ob|] eqn:E; [|lia]. destruct (Nat.eqb_spec (refs ob) 0); [lia|].
    assert (V: vw w i = Some (cls ob, body ob)) by (unfold vw; rewrite E; auto).
    destruct (copies P (cls ob)) as [c'|] eqn:C.
    + eexists. eexists. split; [reflexivity|]. split; [exact (alloc_inv P w f c' (body ob) I (i_body P w f I _ _ _ V))|]. repeat split.
      * intros j v X. exact (vw_alloc_old w c' (body ob) j v X).
      * exists (cls ob), (body ob). split; auto. rewrite C. exists (length (heap w)). split; auto. split.
        -- unfold vw. rewrite (proj2 (nth_error_None _ _)); auto.
        -- pose proof (vw_alloc w c' (body ob) (length (heap w))) as X. rewrite Nat.eqb_refl in X. exact X.
    + destruct (retain_inv P w f (Some i) I A') as (w' & R & (M & Po & L & Vw) & I'). rewrite R. cbn [obind]. exists w', (Some i). split; auto. split; auto. repeat split; auto.
      * apply grows_same; auto.
      * exists (cls ob), (body ob). split; auto. rewrite C. auto.
  - exists w, None. split; auto. split; [apply (inv_ext P w f); auto; intros; cbn; lia|]. repeat split; auto. apply grows_refl.
Qed.

(** What the slot of an object property holds after [x] has been stored in it. *)
Definition stored (P : program) (w w' : world) (p : property) (x : option nat) (s : slot) : Prop :=
  if copied p then
    exists y, s = SRef y /\
      match x with
      | None => y = None
      | Some i => exists c b, vw w i = Some (c, b) /\ match copies P c with None => y = Some i | Some c' => exists j, y = Some j /\ vw w j = None /\ vw w' j = Some (c', b) end
      end
  else if weak p then s = SWeak x else s = SRef x.
Lemma store_ok P w f o p x c b : sensible P -> inv P w f -> vw w o = Some (c, b) -> In p (props P c) -> enc p = EObj ->
  match x with Some i => 0 < refs_of w i | None => True end ->
  exists w' s, store_object P w o p x = Ok w' /\ inv P w' f /\ grows w w' /\ pool w' = pool w /\ log w' = log w /\
    memory w' = put_slot (memory w) (o, offset p) s /\ stored P w w' p x s.
Proof.
  intros SP I V Ip E A. destruct (proj1 SP c p Ip) as (_ & _ & CW & _). unfold store_object, stored. destruct (copied p) eqn:Cp.
  - assert (W: weak p = false) by (destruct (weak p); auto; exfalso; auto).
    destruct (copy_ok P w f x I A) as (w1 & y & E1 & I1 & M1 & P1 & L1 & G1 & D). rewrite E1. cbn [obind].
    destruct (load_ref_ok P w1 _ o p c b I1 (G1 _ _ V) Ip E W) as (old & E2). rewrite E2. cbn [obind].
    destruct (replace_ref P w1 _ o (offset p) old y c b I1 (G1 _ _ V)) as (w2 & E3 & (M2 & P2 & L2 & V2) & I2); auto.
    { intros q Iq Oq. apply (fits_all P w1 p c SP Ip); auto. unfold fits. rewrite E, W. exact Logic.I. }
    { intros z. cbv beta. lia. }
    rewrite E3. cbn [obind]. exists (save w2 o (offset p) (SRef y)), (SRef y). split; [reflexivity|]. split.
    { eapply inv_ext; [|exact I2]. intros z. cbv beta. lia. }
    split; [intros i v X; unfold vw; cbn; fold (vw w2 i); rewrite V2; auto|]. split; [cbn; congruence|]. split; [cbn; congruence|]. split; [cbn; congruence|].
    exists y. split; auto. destruct x as [i|]; auto. destruct D as (c0 & b0 & X0 & D). exists c0, b0. split; auto. destruct (copies P c0) as [c'|]; auto.
    destruct D as (j & D1 & D2 & D3). exists j. split; auto. split; auto. unfold vw; cbn; fold (vw w2 j); rewrite V2; auto.
  - destruct (weak p) eqn:W.
    + destruct (load_weak_ok P w f o p c b I V Ip E W) as (r & E1 & _). rewrite E1. cbn [obind]. exists (save w o (offset p) (SWeak x)), (SWeak x).
      split; [reflexivity|]. split; [|split; [apply grows_same; reflexivity|repeat split]].
      apply (save_plain P w f o (offset p) (SWeak x) c b); auto.
      * apply (fits_all P w p c SP Ip). unfold fits. rewrite E, W. destruct x as [i|]; auto. unfold refs_of in A. apply nth_error_Some. intros X. rewrite X in A. lia.
      * apply (slot_plain P w f o p c b I V Ip); auto.
    + destruct (retain_inv P w f x I A) as (w1 & E1 & (M1 & P1 & L1 & V1) & I1). rewrite E1. cbn [obind].
      assert (V': vw w1 o = Some (c, b)) by (rewrite V1; auto).
      destruct (load_ref_ok P w1 _ o p c b I1 V' Ip E W) as (old & E2). rewrite E2. cbn [obind].
      destruct (replace_ref P w1 _ o (offset p) old x c b I1 V') as (w2 & E3 & (M2 & P2 & L2 & V2) & I2); auto.
      { apply (fits_all P w1 p c SP Ip). unfold fits. rewrite E, W. exact Logic.I. }
      { intros z. cbv beta. lia. }
      rewrite E3. cbn [obind]. exists (save w2 o (offset p) (SRef x)), (SRef x). split; [reflexivity|]. split.
      { eapply inv_ext; [|exact I2]. intros z. cbv beta. lia. }
      split; [intros i v X; unfold vw; cbn; fold (vw w2 i); rewrite V2, V1; auto|]. split; [cbn; congruence|]. split; [cbn; congruence|]. split; [cbn; congruence|]. reflexivity.
Qed.
