Require Import Coq.Lists.List Coq.Bool.Bool Coq.Arith.Arith Coq.micromega.Lia.
Require Import Verif.Base Verif.Own_Model Verif.Own_Spec Verif.Own_Proofs Verif.Own_Calls Verif.Own_Ends.
Require Import Verif.Gone_Model Verif.Gone_Spec Verif.Gone_Proofs Verif.Less_Model Verif.Less_Spec.
Import ListNotations.

Lemma keeps_unchanged a s s' : keeps a s s' -> unchanged_but a s s'.
Proof. intros (H & K). split; [exact H|]. intros y n b N Y B. destruct (K y N Y b) as (n' & B'); [exists n; exact B|]. exists n'. exact B'. Qed.
Definition objects_in (b : body) (os : list ref) : Prop :=
  match b with Arr l | Lnk l => os = l | Hash es | Tree es => os = map snd es | _ => False end.
Lemma objects_body s c os : has_objects s c os <-> exists b, has s c b /\ objects_in b os.
Proof.
  split.
  - intros [(n & [E|E])|(n & es & -> & [E|E])]; (eexists; split; [exists n; exact E|reflexivity]).
  - intros ([|l|l|es|es|x y] & (n & E) & O); cbn in O; try contradiction; subst os; [left; exists n; auto|left; exists n; auto|right; exists n, es; auto|right; exists n, es; auto].
Qed.
Lemma objects_ok s c b os : has s c b -> objects_in b os -> objects_of s c = Ok os.
Proof. intros B O. unfold objects_of. rewrite (body_ok _ _ _ B). cbn [obind]. destruct b; cbn in O; try contradiction; subst os; reflexivity. Qed.
Lemma objects_held b os x : objects_in b os -> In (Some x) os -> In x (members b).
Proof. destruct b as [|l|l|es|es|y z]; cbn; try contradiction; intros -> X; [apply in_somes|apply in_somes|apply in_entries|apply in_entries]; exact X. Qed.
(** Two ways of enumerating a collection that is not changed. *)
Section Steps.
  Variable a c : nat.
  Variable b : body.
  Variable os : list ref.
  Variable f : state -> ref -> outcome state.
  Variable g : list ref -> ref -> list ref.
  Hypothesis apart : a <> c.
  Hypothesis obj : objects_in b os.
  Hypothesis good : forall s l r, Inv s [] -> In a (hands s) -> In c (hands s) -> has s c b -> lists s a l -> In r os ->
    exists s', f s r = Ok s' /\ Inv s' [] /\ keeps a s s' /\ lists s' a (g l r).
  Definition ready s l : Prop := Inv s [] /\ In a (hands s) /\ In c (hands s) /\ has s c b /\ lists s a l.
  Lemma one s l r : ready s l -> In r os -> exists s', f s r = Ok s' /\ ready s' (g l r) /\ keeps a s s'.
  Proof.
    intros (I & A & C & B & L) R. destruct (good s l r I A C B L R) as (s' & E & I' & K & L'). exists s'. split; [exact E|]. split; [|exact K].
    split; [exact I'|]. split; [rewrite (proj1 K); exact A|]. split; [rewrite (proj1 K); exact C|]. split; [|exact L']. apply (proj2 K c); auto.
  Qed.
  Lemma over_ok : forall xs s l, ready s l -> incl xs os -> exists s', over f s xs = Ok s' /\ ready s' (fold_left g xs l) /\ keeps a s s'.
  Proof.
    induction xs as [|r xs IH]; intros s l R S; cbn [over fold_left]; [exists s; split; [reflexivity|]; split; [exact R|apply keeps_refl]|].
    destruct (one s l r R (S r (or_introl eq_refl))) as (s1 & E1 & R1 & K1). rewrite E1. cbn [obind].
    destruct (IH s1 _ R1) as (s2 & E2 & R2 & K2); [intros y Y; apply S; right; exact Y|]. exists s2. split; [exact E2|]. split; [exact R2|exact (keeps_trans _ _ _ _ K1 K2)].
  Qed.
  Lemma each_ok : forall fuel s l i, ready s l -> i + fuel = length os -> exists s', each fuel f s c i = Ok s' /\ ready s' (fold_left g (skipn i os) l) /\ keeps a s s'.
  Proof.
    induction fuel as [|fuel IH]; intros s l i R E; cbn [each]; pose proof R as (I & A & C & B & L); rewrite (objects_ok s c b os B obj); cbn [obind].
    - rewrite (proj2 (nth_error_None os i)) by lia. rewrite skipn_all2 by lia. exists s. split; [reflexivity|]. split; [exact R|apply keeps_refl].
    - destruct (nth_error os i) as [r|] eqn:Q; [|apply nth_error_None in Q; lia]. pose proof (nth_error_nth os i None Q) as N.
      assert (SK : skipn i os = r :: skipn (S i) os) by (rewrite (skip_nth (None : ref) i os) by lia; rewrite N; reflexivity).
      destruct (one s l r R (nth_error_In _ _ Q)) as (s1 & E1 & R1 & K1). rewrite E1. cbn [obind].
      destruct (IH s1 _ (S i) R1) as (s2 & E2 & R2 & K2); [lia|]. exists s2. split; [exact E2|]. split; [rewrite SK; exact R2|exact (keeps_trans _ _ _ _ K1 K2)].
  Qed.
  Lemma foreach_ok s l : ready s l -> exists s', foreach f s c = Ok s' /\ Inv s' [] /\ keeps a s s' /\ lists s' a (fold_left g os l).
  Proof.
    intros R. pose proof R as (I & A & C & B & L). unfold foreach. rewrite (body_ok _ _ _ B). cbn [obind].
    assert (X : exists s', (match b with Lnk l => over f s l | Arr l => each (length l) f s c 0 | Hash es | Tree es => each (length es) f s c 0 | _ => Fatal end) = Ok s' /\ ready s' (fold_left g os l) /\ keeps a s s').
    { clear B. pose proof each_ok as EO. pose proof over_ok as OO. clear good. destruct b as [|k|k|es|es|x y] eqn:Eb; cbn in obj; try contradiction.
      - specialize (EO (length k) s l 0 R). rewrite obj in EO |- *. exact (EO eq_refl).
      - specialize (OO k s l R). rewrite obj in OO |- *. exact (OO (incl_refl _)).
      - specialize (EO (length es) s l 0 R). rewrite obj in EO |- *. rewrite map_length in EO. exact (EO eq_refl).
      - specialize (EO (length es) s l 0 R). rewrite obj in EO |- *. rewrite map_length in EO. exact (EO eq_refl). }
    destruct X as (s' & E & (I' & _ & _ & _ & L') & K). exists s'. auto.
  Qed.
End Steps.
(** Looking an object up. *)
Lemma found_ok keq s a l r : Inv s [] -> lists s a l -> ref_in (live s) r -> forall n i, i + n = length l -> found keq n s a r i = Ok (existsb (alike keq r) (skipn i l)).
Proof.
  intros I L R. induction n as [|n IH]; intros i E; cbn [found].
  - rewrite skipn_all2 by lia. reflexivity.
  - rewrite (list_ok _ _ _ L). cbn [obind]. rewrite (equal_ok keq s a l r _ I L R) by (apply nth_In; lia). cbn [obind].
    rewrite (skip_nth (None : ref) i l) by lia. cbn [existsb]. destruct (alike keq r (nth i l None)); [reflexivity|]. cbn [orb]. apply IH. lia.
Qed.
Lemma append_ok s a l r : Inv s [] -> In a (hands s) -> lists s a l -> ref_in (live s) r ->
  exists s', splice s a (length l) 0 [r] = Ok s' /\ Inv s' [] /\ keeps a s s' /\ lists s' a (l ++ [r]).
Proof.
  intros I A L R. pose proof (refs_counted s [] r I R) as C.
  assert (FA : forall k : list ref, firstn (length k + 0) k = k) by (intros k; rewrite Nat.add_0_r; apply firstn_all).
  assert (SA : forall k : list ref, skipn (length k + 0) k = []) by (intros k; rewrite Nat.add_0_r; apply skipn_all).
  pose proof L as (b & [->| ->] & B); unfold splice; rewrite (body_ok _ _ _ B); cbn [obind]; (destruct (Nat.ltb_spec (length l) (length l + 0)) as [Q|_]; [lia|]).
  - unfold array_splice. cbv zeta. cbn [length Nat.min firstn]. rewrite overwrite_none. cbn [obind]. rewrite (list_ok _ _ _ L). cbn [obind Nat.ltb Nat.leb].
    change (skipn 0 [r]) with [r]. destruct (retain_all_ok [r] s [] I) as (s1 & E1 & I1 & F1); [constructor; [exact C|constructor]|]. rewrite E1. cbn [obind].
    pose proof (frame_lists _ _ _ _ _ F1 Logic.I L) as L1. rewrite FA, SA.
    destruct (set_list_ok s1 _ [] a l (l ++ [r] ++ []) I1 L1) as (s2 & E2 & I2 & K2 & L2).
    { intros x. rewrite !somes_app, !cnt_app. cbn [app]. cbn. lia. }
    exists s2. split; [exact E2|]. split; [exact I2|]. split; [|rewrite app_nil_r in L2; exact L2]. apply (keeps_trans a s s1 s2); [apply (frame_keeps _ a s s1) with (2 := F1); auto|exact K2].
  - destruct (remove_ok s [] a l (length l) 0 I A L) as (s1 & E1 & I1 & K1 & L1). rewrite E1. cbn [obind].
    rewrite firstn_all, SA, app_nil_r in L1.
    assert (C1 : ref_in (counted s1 []) r) by (pose proof (remove_none s a l (length l) s1 L E1) as G; exact (counted_grows a s s1 [] r K1 G C)).
    cbn [list_insert]. destruct (retain_ref s1 [] r I1 C1) as (s2 & E2 & I2 & F2). rewrite E2. cbn [obind].
    pose proof (frame_lists _ _ _ _ _ F2 Logic.I L1) as L2. rewrite (list_ok _ _ _ L2). cbn [obind]. rewrite firstn_all, skipn_all.
    destruct (set_list_ok s2 _ [] a l (l ++ [r]) I2 L2) as (s3 & E3 & I3 & K3 & L3).
    { intros x. rewrite !somes_app, !cnt_app. cbn. lia. }
    rewrite E3. cbn [obind]. exists s3. split; [reflexivity|]. split; [exact I3|]. split; [|exact L3].
    apply (keeps_trans a s s1 s3 K1). apply (keeps_trans a s1 s2 s3); [apply (frame_keeps _ a s1 s2) with (2 := F2); auto|exact K3].
Qed.
Definition adds keq (l : list ref) (r : ref) : list ref := if existsb (alike keq r) l then l else l ++ [r].
Lemma add_ok keq s a l r : Inv s [] -> In a (hands s) -> lists s a l -> ref_in (live s) r ->
  exists s', add_to_set keq s a r = Ok s' /\ Inv s' [] /\ keeps a s s' /\ lists s' a (adds keq l r).
Proof.
  intros I A L R. unfold add_to_set, adds. rewrite (list_ok _ _ _ L). cbn [obind]. rewrite (found_ok keq s a l r I L R _ 0) by reflexivity. cbn [obind skipn].
  destruct (existsb (alike keq r) l); [exists s; split; [reflexivity|]; split; [exact I|]; split; [apply keeps_refl|exact L]|]. apply append_ok; assumption.
Qed.
Lemma with_all_fold keq : forall os l, with_all keq os l = fold_left (adds keq) os l.
Proof. induction os as [|r os IH]; intros l; [reflexivity|]. cbn [with_all fold_left]. rewrite IH. reflexivity. Qed.
Lemma without_fold keq : forall os l, without keq os l = fold_left (fun l r => filter (differs keq r) l) os l.
Proof.
  induction os as [|r os IH]; intros l; unfold without in *; cbn [fold_left].
  - apply filter_all. reflexivity.
  - rewrite <- IH. clear IH. induction l as [|x l IH]; cbn [filter]; [reflexivity|]. unfold among at 1. cbn [existsb]. fold (among keq os x). unfold differs at 1.
    destruct (alike keq r x); cbn [orb negb]; [exact IH|]. cbn [filter]. destruct (among keq os x); cbn [negb]; [exact IH|f_equal; exact IH].
Qed.
(** The members of a collection of the program are kept. *)
Lemma kept_member s a c b os r : a <> c -> In c (hands s) -> has s c b -> objects_in b os -> In r os -> ref_in (kept s a) r.
Proof.
  intros N C (n & B) O R. destruct r as [x|]; [|exact Logic.I]. right. exists c. split; [auto|]. split; [exact C|]. exists n, b. split; [exact B|]. exact (objects_held b os x O R).
Qed.
Lemma subtract_ok keq s a c l b os : Inv s [] -> In a (hands s) -> In c (hands s) -> a <> c -> lists s a l -> has s c b -> objects_in b os ->
  exists s', subtract keq s a c = Ok s' /\ Inv s' [] /\ keeps a s s' /\ lists s' a (without keq os l).
Proof.
  intros I A C N L B O. unfold subtract. rewrite without_fold. apply (foreach_ok a c b os _ _ N O); [|repeat split; auto; apply I].
  intros t m r It At Ct Bt Lt Rt. pose proof (kept_member t a c b os r N Ct Bt O Rt) as K.
  apply (remove_object_ok keq t a m r It At Lt); [|left; exact K]. destruct r as [x|]; [exact (kept_live t a x It K)|exact Logic.I].
Qed.
Lemma unite_ok keq s a c l b os : Inv s [] -> In a (hands s) -> In c (hands s) -> a <> c -> lists s a l -> has s c b -> objects_in b os ->
  exists s', unite keq s a c = Ok s' /\ Inv s' [] /\ keeps a s s' /\ lists s' a (with_all keq os l).
Proof.
  intros I A C N L B O. unfold unite. rewrite with_all_fold. apply (foreach_ok a c b os _ _ N O); [|repeat split; auto; apply I].
  intros t m r It At Ct Bt Lt Rt. pose proof (kept_member t a c b os r N Ct Bt O Rt) as K.
  apply (add_ok keq t a m r It At Lt). destruct r as [x|]; [exact (kept_live t a x It K)|exact Logic.I].
Qed.
(** With itself. *)
Lemma alike_refl keq r : alike keq r r = true.
Proof. destruct r as [x|]; [|reflexivity]. cbn. rewrite Nat.eqb_refl. reflexivity. Qed.
Lemma list_member_live s a l r : Inv s [] -> lists s a l -> In r l -> ref_in (live s) r.
Proof. intros I L R. destruct r as [x|]; [|exact Logic.I]. destruct (member_live s a l x I L R) as (b & n & E). exists n, b. exact E. Qed.
Lemma add_present keq s a l r : Inv s [] -> lists s a l -> In r l -> add_to_set keq s a r = Ok s.
Proof.
  intros I L R. unfold add_to_set. rewrite (list_ok _ _ _ L). cbn [obind]. rewrite (found_ok keq s a l r I L (list_member_live s a l r I L R) _ 0) by reflexivity. cbn [obind skipn].
  rewrite (proj2 (existsb_exists _ _)); [reflexivity|]. exists r. split; [exact R|apply alike_refl].
Qed.
Lemma unite_self keq s a l : Inv s [] -> In a (hands s) -> lists s a l -> unite keq s a a = Ok s.
Proof.
  intros I A L. unfold unite, foreach. pose proof L as (b & [->| ->] & B); rewrite (body_ok _ _ _ B); cbn [obind].
  - assert (X : forall n i, i + n = length l -> each n (fun s r => add_to_set keq s a r) s a i = Ok s); [|apply X; reflexivity].
    induction n as [|n IH]; intros i E; cbn [each]; rewrite (objects_ok s a _ l B eq_refl); cbn [obind].
    + rewrite (proj2 (nth_error_None l i)) by lia. reflexivity.
    + destruct (nth_error l i) as [r|] eqn:Q; [|apply nth_error_None in Q; lia]. rewrite (add_present keq s a l r I L (nth_error_In _ _ Q)). cbn [obind]. apply IH. lia.
  - assert (X : forall xs, incl xs l -> over (fun s r => add_to_set keq s a r) s xs = Ok s); [|apply X, incl_refl].
    induction xs as [|r xs IH]; intros S; cbn [over]; [reflexivity|]. rewrite (add_present keq s a l r I L) by (apply S; left; reflexivity). cbn [obind]. apply IH. intros y Y. apply S. right. exact Y.
Qed.
Lemma subtract_over keq a : forall xs s l, Inv s [] -> In a (hands s) -> lists s a l -> Forall (ref_in (own s)) xs ->
  exists s', over (fun s r => remove_object keq s a r) s xs = Ok s' /\ Inv s' [] /\ keeps a s s' /\ lists s' a (without keq xs l).
Proof.
  intros xs. induction xs as [|r xs IH]; intros s l I A L O; cbn [over].
  - exists s. split; [reflexivity|]. split; [exact I|]. split; [apply keeps_refl|]. rewrite without_fold. exact L.
  - inversion O as [|? ? Or Oxs]; subst. destruct (remove_object_ok keq s a l r I A L) as (s1 & E1 & I1 & K1 & L1).
    + destruct r as [x|]; [|exact Logic.I]. apply (proj1 (inv_sound s I)). left. exact Or.
    + left. destruct r as [x|]; [left; exact Or|exact Logic.I].
    + rewrite E1. cbn [obind]. destruct (IH s1 (filter (differs keq r) l) I1) as (s2 & E2 & I2 & K2 & L2); [rewrite (proj1 K1); exact A|exact L1|exact (own_all s s1 xs (proj1 K1) Oxs)|].
      exists s2. split; [exact E2|]. split; [exact I2|]. split; [exact (keeps_trans _ _ _ _ K1 K2)|]. rewrite without_fold in L2 |- *. exact L2.
Qed.
Lemma without_self keq l : without keq l l = [].
Proof.
  unfold without. assert (X : forall os k, incl k os -> filter (fun x => negb (among keq os x)) k = []); [|apply X, incl_refl].
  induction k as [|x k IH]; intros S; cbn [filter]; [reflexivity|]. unfold among at 1. rewrite (proj2 (existsb_exists _ _)).
  - cbn [negb]. apply IH. intros y Y. apply S. right. exact Y.
  - exists x. split; [apply S; left; reflexivity|apply alike_refl].
Qed.
Lemma subtract_self keq s a l n : Inv s [] -> In a (hands s) -> nth_error (cells s) a = Some (Live n (Lnk l)) -> Forall (ref_in (own s)) l ->
  exists s', subtract keq s a a = Ok s' /\ Inv s' [] /\ keeps a s s' /\ lists s' a [].
Proof.
  intros I A B O. assert (H : has s a (Lnk l)) by (exists n; exact B). unfold subtract, foreach. rewrite (body_ok _ _ _ H). cbn [obind].
  rewrite <- (without_self keq l). apply (subtract_over keq a l s l I A); [|exact O]. exists (Lnk l). split; [right; reflexivity|exact H].
Qed.
(** ** After any program *)
Lemma reached keq cs s : follows (careful_call keq) keq init cs -> calls keq init cs = Ok s -> Inv s [].
Proof. intros F E. destruct (calls_ok keq cs init init_inv F) as [E'|(s0 & E' & I)]; [congruence|]. assert (s0 = s) by congruence. subst s0. exact I. Qed.
Lemma others keq cs s a c l os : follows (careful_call keq) keq init cs -> calls keq init cs = Ok s -> In a (hands s) -> In c (hands s) -> a <> c -> elements s a l -> has_objects s c os ->
  (exists s', unite keq s a c = Ok s' /\ sound s' /\ unchanged_but a s s' /\ elements s' a (with_all keq os l)) /\
  (exists s', subtract keq s a c = Ok s' /\ sound s' /\ unchanged_but a s s' /\ elements s' a (without keq os l)).
Proof.
  intros F E A C N L H. pose proof (reached keq cs s F E) as I. apply lists_elements in L. apply objects_body in H. destruct H as (b & B & O). split.
  - destruct (unite_ok keq s a c l b os I A C N L B O) as (s' & E' & I' & K & L'). exists s'. split; [exact E'|]. split; [apply inv_sound, I'|]. split; [apply keeps_unchanged, K|apply lists_elements, L'].
  - destruct (subtract_ok keq s a c l b os I A C N L B O) as (s' & E' & I' & K & L'). exists s'. split; [exact E'|]. split; [apply inv_sound, I'|]. split; [apply keeps_unchanged, K|apply lists_elements, L'].
Qed.
Lemma selves keq cs s a l : follows (careful_call keq) keq init cs -> calls keq init cs = Ok s -> In a (hands s) -> elements s a l ->
  unite keq s a a = Ok s /\
  ((exists n, nth_error (cells s) a = Some (Live n (Lnk l))) -> Forall (ref_in (own s)) l -> exists s', subtract keq s a a = Ok s' /\ sound s' /\ unchanged_but a s s' /\ elements s' a []).
Proof.
  intros F E A L. pose proof (reached keq cs s F E) as I. split; [apply lists_elements in L; exact (unite_self keq s a l I A L)|].
  intros (n & B) O. destruct (subtract_self keq s a l n I A B O) as (s' & E' & I' & K & L'). exists s'. split; [exact E'|]. split; [apply inv_sound, I'|]. split; [apply keeps_unchanged, K|apply lists_elements, L'].
Qed.
