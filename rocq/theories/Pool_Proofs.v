(** The pools implement a stack of queues. *)
Require Import Coq.Lists.List Coq.Bool.Bool Coq.Arith.Arith Coq.micromega.Lia.
Require Import Verif.Base Verif.Pool_Model Verif.Pool_Spec.
Import ListNotations.

Section Proofs.
Variable client : Type.
Variable obj : Type.
Variable fin : client -> obj -> client * list obj.
Local Notation rel := (only_autoreleases fin).
Local Notation pools := (pools client obj).
Local Notation empties := (empties fin).

(** Unfolding the mutual recursion. *)
Lemma exec_S : forall f (s : pools) l, exec rel (S f) s l = match l with [] => Ok s | a :: l' => do s' <- call rel f s a; exec rel f s' l' end.
Proof. reflexivity. Qed.
Lemma call_S : forall f (s : pools) a, call rel (S f) s a =
  match a with
  | Auto x => Ok (append s x)
  | Push => if length (marks s) <? STACK_SIZE then Ok (mkP (objs s) (cap s) (gen s) (length (objs s) :: marks s) (user s) (released s)) else Fatal
  | Pop => if 1 <=? length (marks s) then do s' <- drain rel f s; Ok (mkP (objs s') (cap s') (gen s') (tl (marks s')) (user s') (released s')) else Fatal
  | Drain => if length (marks s) <? STACK_SIZE then drain rel f s else Fatal
  end.
Proof. reflexivity. Qed.
Lemma drain_S : forall f (s : pools), drain rel (S f) s =
  if 0 <? length (objs s) - low s
  then do s' <- release_all rel f s (low s) (length (objs s) - low s) 0 (length (objs s)) (gen s); do s'' <- cut s' (low s) (length (objs s) - low s); drain rel f s''
  else Ok s.
Proof. reflexivity. Qed.
Lemma release_all_S : forall f (s : pools) loc len i known g, release_all rel (S f) s loc len i known g =
  if i <? len then
    do x <- read s g (loc + i);
    let '(c, l) := rel (user s) x in
    do s' <- exec rel f (mkP (objs s) (cap s) (gen s) (marks s) c (released s ++ [x])) l;
    if length (objs s') =? known then release_all rel f s' loc len (S i) known g
    else release_all rel f s' loc len (S i) (length (objs s')) (gen s')
  else Ok s.
Proof. reflexivity. Qed.

Inductive part : client -> list obj -> list (obj * list obj) -> client -> list obj -> Prop :=
| part_nil : forall c q, part c q [] c q
| part_cons : forall c x q c1 l ev c2 q', fin c x = (c1, l) -> part c1 (q ++ l) ev c2 q' -> part c (x :: q) ((x, l) :: ev) c2 q'.
Lemma part_empties : forall c q ev1 c1 q1 ev2 c2, part c q ev1 c1 q1 -> empties c1 q1 ev2 c2 -> empties c q (ev1 ++ ev2) c2.
Proof. intros c q ev1 c1 q1 ev2 c2 P E. induction P; [exact E|]. cbn [app]. econstructor; [eassumption|]. apply IHP. exact E. Qed.
Lemma empties_part : forall c q ev1 c1 q1, part c q ev1 c1 q1 -> forall ev c2, empties c q ev c2 -> exists ev2, ev = ev1 ++ ev2 /\ empties c1 q1 ev2 c2.
Proof.
  intros c q ev1 c1 q1 P. induction P as [c q|c x q c1 l ev1 c2 q' F P IH]; intros ev c3 E; [exists ev; split; [reflexivity|exact E]|].
  inversion E as [|? ? ? c1' l' ev' ? F' E']; subst. rewrite F in F'. injection F' as <- <-.
  destruct (IH _ _ E') as (ev2 & -> & E2). exists ev2. split; [reflexivity|exact E2].
Qed.
Lemma empties_det : forall c q ev c1, empties c q ev c1 -> forall ev' c1', empties c q ev' c1' -> ev' = ev /\ c1' = c1.
Proof.
  intros c q ev c1 E. induction E as [c|c x q c1 l ev c2 F E IH]; intros ev' c1' E'; inversion E'; subst; [split; reflexivity|].
  match goal with H : fin c x = _ |- _ => rewrite F in H; injection H as <- <- end.
  match goal with H : empties c1 (q ++ l) _ _ |- _ => destruct (IH _ _ H) as [-> ->] end. split; reflexivity.
Qed.
Lemma empties_releases : forall c q ev c', empties c q ev c' -> map fst ev = q ++ concat (map snd ev).
Proof. intros c q ev c' E. induction E as [c|c x q c1 l ev c2 F E IH]; [reflexivity|]. cbn [map fst snd concat app]. rewrite IH, app_assoc. reflexivity. Qed.

(** Autoreleasing several objects. *)
Definition appends (s : pools) (l : list obj) : pools := fold_left append l s.
Lemma append_fields : forall (s : pools) x, objs (append s x) = objs s ++ [x] /\ marks (append s x) = marks s /\ user (append s x) = user s /\ released (append s x) = released s.
Proof. intros s x. unfold append. destruct (S (length (objs s)) <=? cap s); repeat split; reflexivity. Qed.
Lemma appends_fields : forall l (s : pools), objs (appends s l) = objs s ++ l /\ marks (appends s l) = marks s /\ user (appends s l) = user s /\ released (appends s l) = released s.
Proof.
  induction l as [|x l IH]; intros s; cbn [appends fold_left]; [rewrite app_nil_r; repeat split; reflexivity|].
  destruct (append_fields s x) as (A & B & C & D). destruct (IH (append s x)) as (A' & B' & C' & D'). fold (appends (append s x) l).
  rewrite A', B', C', D', A, B, C, D, <- app_assoc. repeat split; reflexivity.
Qed.
Lemma exec_autos : forall l f (s : pools), exec rel f s (map Auto l) = NoFuel \/ exec rel f s (map Auto l) = Ok (appends s l).
Proof.
  induction l as [|x l IH]; intros [|f] s; auto; cbn [map]; rewrite !exec_S; auto. destruct f as [|f]; [auto|]. rewrite !call_S. cbn [obind].
  destruct (IH (S f) (append s x)) as [E|E]; rewrite E; auto.
Qed.
Lemma exec_autos_total : forall l f (s : pools), length l + 1 < f -> exec rel f s (map Auto l) = Ok (appends s l).
Proof.
  induction l as [|x l IH]; intros [|f] s H; cbn [length] in H; try lia; cbn [map]; rewrite exec_S; [reflexivity|]. destruct f as [|f]; [lia|]. rewrite call_S. cbn [obind].
  apply IH. lia.
Qed.

(** One pass over the range. *)
Definition wf (s : pools) (base A : list obj) : Prop := objs s = base ++ A.
Lemma release_all_ok : forall f (s : pools) base A len i,
  objs s = base ++ A -> i <= len -> len <= length A ->
  release_all rel f s (length base) len i (length (objs s)) (gen s) = NoFuel \/
  exists s' A' ev, release_all rel f s (length base) len i (length (objs s)) (gen s) = Ok s' /\ objs s' = base ++ A' /\ len <= length A' /\
    part (user s) (skipn i A) ev (user s') (skipn len A') /\ released s' = released s ++ map fst ev /\ marks s' = marks s /\ length ev = len - i.
Proof.
  induction f as [|f IH]; intros s base A len i Ho Hi Hl; [left; reflexivity|]. rewrite !release_all_S.
  destruct (Nat.ltb_spec i len) as [L|L].
  - unfold read. rewrite Nat.eqb_refl. rewrite Ho, nth_error_app2 by lia. replace (length base + i - length base) with i by lia.
    destruct (nth_error A i) as [x|] eqn:Ex; [|apply nth_error_None in Ex; lia]. cbn [obind]. destruct (fin (user s) x) as [c l] eqn:F.
    replace (rel (user s) x) with (c, map (@Auto obj) l) by (unfold only_autoreleases; rewrite F; reflexivity).
    match goal with |- context [exec rel f ?s0 (map Auto l)] => set (s0' := s0) end.
    destruct (exec_autos l f s0') as [E|E]; rewrite E; cbn [obind]; [left; reflexivity|].
    destruct (appends_fields l s0') as (A1 & A2 & A3 & A4). cbn [objs marks user released s0'] in A1, A2, A3, A4.
    assert (skipn i A = x :: skipn (S i) A) as Sk.
    { clear - Ex. revert i Ex. induction A as [|a A IHA]; intros [|i] Ex; cbn [nth_error] in Ex; try discriminate Ex; [injection Ex as ->; reflexivity|cbn [skipn]; exact (IHA i Ex)]. }
    assert (forall s', objs s' = base ++ (A ++ l) -> user s' = c -> released s' = released s ++ [x] -> marks s' = marks s ->
      release_all rel f s' (length base) len (S i) (length (objs s')) (gen s') = NoFuel \/
      exists s2 A' ev, release_all rel f s' (length base) len (S i) (length (objs s')) (gen s') = Ok s2 /\ objs s2 = base ++ A' /\ len <= length A' /\
        part (user s) (skipn i A) ev (user s2) (skipn len A') /\ released s2 = released s ++ map fst ev /\ marks s2 = marks s /\ length ev = len - i) as Next.
    { intros s' B1 B2 B3 B4. destruct (IH s' base (A ++ l) len (S i) B1 ltac:(lia) ltac:(rewrite app_length; lia)) as [N|(s2 & A' & ev & R1 & R2 & R3 & R4 & R5 & R6 & R7)]; [left; exact N|].
      right. exists s2, A', ((x, l) :: ev). split; [exact R1|]. split; [exact R2|]. split; [exact R3|]. split.
      - rewrite Sk. apply (part_cons _ _ _ c l); [exact F|]. rewrite B2 in R4. rewrite skipn_app in R4. replace (S i - length A) with 0 in R4 by lia. exact R4.
      - split; [rewrite R5, B3, <- app_assoc; reflexivity|]. split; [congruence|cbn [length]; lia]. }
    assert (objs (appends s0' l) = base ++ (A ++ l)) as B1 by (rewrite A1, app_assoc; reflexivity).
    destruct (Nat.eqb_spec (length (objs (appends s0' l))) (length (base ++ A))) as [Le|Le].
    + assert (l = []) as ->. { rewrite B1, !app_length in Le. destruct l; [reflexivity|cbn [length] in Le; lia]. }
      pose proof (Next (appends s0' []) B1 A3 A4 A2) as Nx. cbn [appends fold_left objs gen s0'] in Nx. exact Nx.
    + exact (Next (appends s0' l) B1 A3 A4 A2).
  - right. exists s, A, []. split; [reflexivity|]. split; [exact Ho|]. split; [exact Hl|]. replace len with i by lia. split; [constructor|].
    cbn [map]. rewrite app_nil_r. repeat split. cbn. lia.
Qed.
Lemma release_all_total : forall n (s : pools) base A len i, n = len - i -> objs s = base ++ A -> i <= len -> len <= length A ->
  exists N s', forall f, N <= f -> release_all rel f s (length base) len i (length (objs s)) (gen s) = Ok s'.
Proof.
  induction n as [|n IH]; intros s base A len i Hn Ho Hi Hl.
  - exists 1, s. intros [|f] Hf; [lia|]. rewrite !release_all_S. destruct (Nat.ltb_spec i len); [lia|reflexivity].
  - destruct (nth_error A i) as [x|] eqn:Ex; [|apply nth_error_None in Ex; lia].
    destruct (fin (user s) x) as [c l] eqn:F.
    set (s0 := mkP (objs s) (cap s) (gen s) (marks s) c (released s ++ [x])).
    destruct (appends_fields l s0) as (A1 & _). cbn [objs s0] in A1.
    assert (objs (appends s0 l) = base ++ (A ++ l)) as B1 by (rewrite A1, Ho, app_assoc; reflexivity).
    destruct (IH (appends s0 l) base (A ++ l) len (S i) ltac:(lia) B1 ltac:(lia) ltac:(rewrite app_length; lia)) as (N & s' & HN).
    exists (S (N + length l + 2)), s'. intros [|f] Hf; [lia|]. rewrite !release_all_S. destruct (Nat.ltb_spec i len); [|lia].
    unfold read. rewrite Nat.eqb_refl. rewrite Ho at 1. rewrite nth_error_app2 by lia. replace (length base + i - length base) with i by lia.
    rewrite Ex. cbn [obind]. replace (rel (user s) x) with (c, map (@Auto obj) l) by (unfold only_autoreleases; rewrite F; reflexivity).
    fold s0. rewrite exec_autos_total by lia. cbn [obind].
    destruct (Nat.eqb_spec (length (objs (appends s0 l))) (length (objs s))) as [Le|Le].
    + assert (l = []) as ->. { rewrite A1, app_length in Le. destruct l; [reflexivity|cbn [length] in Le; lia]. }
      pose proof (HN f ltac:(lia)) as Nx. cbn [appends fold_left objs gen s0] in Nx. exact Nx.
    + apply HN. lia.
Qed.

(** Draining the innermost pool. *)
Lemma drain_ok : forall f (s : pools) base A, objs s = base ++ A -> low s = length base ->
  drain rel f s = NoFuel \/
  exists s' ev, drain rel f s = Ok s' /\ objs s' = base /\ marks s' = marks s /\ empties (user s) A ev (user s') /\ released s' = released s ++ map fst ev.
Proof.
  induction f as [|f IH]; intros s base A Ho Hl; [left; reflexivity|]. rewrite !drain_S. rewrite Hl.
  destruct (Nat.ltb_spec 0 (length (objs s) - length base)) as [L|L].
  - assert (length (objs s) - length base = length A) as LA by (rewrite Ho, app_length; lia). rewrite LA.
    destruct (release_all_ok f s base A (length A) 0 Ho ltac:(lia) ltac:(lia)) as [N|(s1 & A' & ev & R1 & R2 & R3 & R4 & R5 & R6 & R7)]; [rewrite N; left; reflexivity|].
    rewrite R1. cbn [obind]. unfold cut. rewrite R2, app_length. destruct (Nat.leb_spec (length base + length A) (length base + length A')); [|lia]. cbn [obind].
    match goal with |- context [drain rel f ?s2'] => set (s2 := s2') end.
    assert (objs s2 = base ++ skipn (length A) A') as O2.
    { unfold s2. cbn [objs]. rewrite firstn_app, firstn_all. replace (length base - length base) with 0 by lia. cbn [firstn]. rewrite app_nil_r. f_equal.
      rewrite skipn_app. rewrite skipn_all2 by lia. replace (length base + length A - length base) with (length A) by lia. reflexivity. }
    destruct (IH s2 base _ O2) as [N|(s' & ev2 & D1 & D2 & D3 & D4 & D5)].
    + unfold low, s2. cbn [marks]. rewrite R6. exact Hl.
    + rewrite N. left. reflexivity.
    + right. exists s', (ev ++ ev2). split; [exact D1|]. split; [exact D2|]. split; [rewrite D3; unfold s2; cbn [marks]; exact R6|]. split.
      * apply (part_empties _ _ _ (user s1) (skipn (length A) A')); [exact R4|]. exact D4.
      * rewrite D5. unfold s2. cbn [released]. rewrite R5, map_app, app_assoc. reflexivity.
  - right. assert (A = []) as ->. { rewrite Ho, app_length in L. destruct A; [reflexivity|cbn [length] in L; lia]. }
    exists s, []. split; [reflexivity|]. split; [rewrite Ho, app_nil_r; reflexivity|]. split; [reflexivity|]. split; [constructor|cbn [map]; rewrite app_nil_r; reflexivity].
Qed.
Lemma drain_total : forall k (s : pools) base A ev c', length ev <= k -> objs s = base ++ A -> low s = length base -> empties (user s) A ev c' ->
  exists N s', forall f, N <= f -> drain rel f s = Ok s'.
Proof.
  induction k as [|k IH]; intros s base A ev c' Hk Ho Hl E.
  - inversion E; subst; [|cbn [length] in Hk; lia]. exists 1, s. intros [|f] Hf; [lia|]. rewrite !drain_S. rewrite Hl, Ho, app_nil_r.
    destruct (Nat.ltb_spec 0 (length base - length base)); [lia|reflexivity].
  - destruct A as [|x A0] eqn:EA.
    { exists 1, s. intros [|f] Hf; [lia|]. rewrite !drain_S. rewrite Hl, Ho, app_nil_r. destruct (Nat.ltb_spec 0 (length base - length base)); [lia|reflexivity]. }
    rewrite <- EA in *. assert (0 < length A) as PA by (rewrite EA; cbn; lia). clear EA x A0.
    destruct (release_all_total (length A) s base A (length A) 0 ltac:(lia) Ho ltac:(lia) ltac:(lia)) as (N1 & s1 & H1).
    destruct (release_all_ok N1 s base A (length A) 0 Ho ltac:(lia) ltac:(lia)) as [N|(s1' & A' & ev1 & R1 & R2 & R3 & R4 & R5 & R6 & R7)]; [rewrite (H1 N1 (le_n _)) in N; discriminate N|].
    rewrite (H1 N1 (le_n _)) in R1. injection R1 as <-.
    destruct (empties_part _ _ _ _ _ R4 _ _ E) as (ev2 & -> & E2). rewrite app_length in Hk.
    destruct (cut s1 (length base) (length A)) as [s2| | |] eqn:Ec; unfold cut in Ec; rewrite R2, app_length in Ec;
      destruct (Nat.leb_spec (length base + length A) (length base + length A')); try lia; try discriminate Ec.
    injection Ec as Ec.
    destruct (IH s2 base (skipn (length A) A') ev2 c') as (N2 & s' & H2).
    + lia.
    + subst s2. cbn [objs]. rewrite firstn_app, firstn_all. replace (length base - length base) with 0 by lia. cbn [firstn]. rewrite app_nil_r. f_equal.
      rewrite skipn_app. rewrite skipn_all2 by lia. replace (length base + length A - length base) with (length A) by lia. reflexivity.
    + subst s2. unfold low. cbn [marks]. rewrite R6. exact Hl.
    + subst s2. exact E2.
    + exists (S (N1 + N2)), s'. intros [|f] Hf; [lia|]. rewrite !drain_S. rewrite Hl.
      assert (length (objs s) - length base = length A) as LA by (rewrite Ho, app_length; lia). rewrite LA.
      destruct (Nat.ltb_spec 0 (length A)) as [L|L]; [|lia]. rewrite (H1 f) by lia. cbn [obind]. unfold cut. rewrite R2, app_length.
      destruct (Nat.leb_spec (length base + length A) (length base + length A')); [|lia]. cbn [obind]. rewrite Ec. apply H2. lia.
Qed.

(** The stack of queues in the array. *)
Fixpoint marks_of (o : list (list obj)) : list nat := match o with [] => [] | p :: o' => length (concat (rev o')) + length p :: marks_of o' end.
Definition shows (s : pools) (k : stack client obj) : Prop :=
  objs s = concat (rev (outer k)) ++ inner k /\ marks s = marks_of (outer k) /\ user s = state k /\ released s = done k.
Lemma marks_length : forall o, length (marks_of o) = length o.
Proof. induction o as [|p o IH]; [reflexivity|cbn [marks_of length]; rewrite IH; reflexivity]. Qed.
Lemma shows_low : forall s k, shows s k -> low s = length (concat (rev (outer k))).
Proof.
  intros s k (_ & M & _). unfold low. rewrite M. destruct (outer k) as [|p o]; [reflexivity|]. cbn [marks_of rev]. rewrite concat_app, app_length. cbn [concat]. rewrite app_nil_r. reflexivity.
Qed.
Definition depth_ok (d : nat) (a : act obj) : option nat :=
  match a with
  | Auto _ => Some d
  | Push => if d <? 8 then Some (S d) else None
  | Pop => match d with O => None | S d' => Some d' end
  | Drain => if d <? 8 then Some d else None
  end.
Lemma nested_step : forall a l d, nested d (a :: l) <-> exists d', depth_ok d a = Some d' /\ nested d' l.
Proof.
  intros [x| | |] l d; cbn [nested depth_ok].
  - split; [intros H; exists d; split; [reflexivity|exact H]|intros (d' & E & H); injection E as <-; exact H].
  - destruct (Nat.ltb_spec d 8); split; try (intros (d' & E & H'); try discriminate E; injection E as <-; auto); intros [? ?]; try lia. exists (S d). auto.
  - destruct d as [|d']; split; try (intros (d'' & E & H'); try discriminate E; injection E as <-; auto); try tauto. intros H. exists d'. auto.
  - destruct (Nat.ltb_spec d 8); split; try (intros (d' & E & H'); try discriminate E; injection E as <-; auto); intros [? ?]; try lia. exists d. auto.
Qed.
Lemma call_ok : forall f (s : pools) k a d', shows s k -> depth_ok (length (outer k)) a = Some d' ->
  call rel f s a = NoFuel \/ exists s' k', call rel f s a = Ok s' /\ does fin k a k' /\ shows s' k' /\ length (outer k') = d'.
Proof.
  intros [|f] s k a d' Sh Hd; [left; reflexivity|]. pose proof (shows_low s k Sh) as Lo. destruct Sh as (S1 & S2 & S3 & S4). destruct k as [q o c dn]. cbn [inner outer state done] in *.
  assert (length (marks s) = length o) as Lm by (rewrite S2; apply marks_length).
  destruct a as [x| | |]; rewrite !call_S; cbn [depth_ok] in *.
  - right. injection Hd as <-. exists (append s x), (mkK (q ++ [x]) o c dn). split; [reflexivity|]. split; [constructor|]. split; [|reflexivity].
    destruct (append_fields s x) as (A & B & C & D). unfold shows. cbn [inner outer state done]. rewrite A, B, C, D, S1, app_assoc. auto.
  - destruct (Nat.ltb_spec (length o) 8) as [L|L]; [|discriminate Hd]. injection Hd as <-. rewrite Lm. unfold STACK_SIZE. destruct (Nat.ltb_spec (length o) 8); [|lia].
    right. eexists. exists (mkK [] (q :: o) c dn). split; [reflexivity|]. split; [constructor|]. split; [|reflexivity].
    unfold shows. cbn [objs marks user released inner outer state done rev marks_of]. rewrite concat_app. cbn [concat]. rewrite !app_nil_r, S1, S2, app_length. auto.
  - destruct o as [|p o]; [discriminate Hd|]. injection Hd as <-. rewrite Lm. cbn [length Nat.leb].
    destruct (drain_ok f s _ _ S1 Lo) as [N|(s' & ev & D1 & D2 & D3 & D4 & D5)]; [rewrite N; left; reflexivity|]. rewrite D1. cbn [obind].
    right. eexists. exists (mkK p o (user s') (dn ++ map fst ev)). split; [reflexivity|]. split; [constructor; rewrite <- S3; exact D4|]. split; [|reflexivity].
    unfold shows. cbn [objs marks user released inner outer state done]. rewrite D2, D3, D5, S2, S4. cbn [rev marks_of tl]. rewrite concat_app. cbn [concat]. rewrite app_nil_r. auto.
  - destruct (Nat.ltb_spec (length o) 8) as [L|L]; [|discriminate Hd]. injection Hd as <-. rewrite Lm. unfold STACK_SIZE. destruct (Nat.ltb_spec (length o) 8); [|lia].
    destruct (drain_ok f s _ _ S1 Lo) as [N|(s' & ev & D1 & D2 & D3 & D4 & D5)]; [rewrite N; left; reflexivity|]. rewrite D1.
    right. eexists. exists (mkK [] o (user s') (dn ++ map fst ev)). split; [reflexivity|]. split; [constructor; rewrite <- S3; exact D4|]. split; [|reflexivity].
    unfold shows. cbn [objs marks user released inner outer state done]. rewrite D2, D3, D5, S2, S4, app_nil_r. auto.
Qed.
Lemma exec_ok : forall l f (s : pools) k, shows s k -> nested (length (outer k)) l ->
  exec rel f s l = NoFuel \/ exists s' k', exec rel f s l = Ok s' /\ history fin k l k' /\ shows s' k'.
Proof.
  induction l as [|a l IH]; intros [|f] s k Sh Hn; try (left; reflexivity); rewrite !exec_S.
  - right. exists s, k. split; [reflexivity|]. split; [constructor|exact Sh].
  - apply nested_step in Hn. destruct Hn as (d' & Hd & Hn). destruct (call_ok f s k a d' Sh Hd) as [N|(s1 & k1 & C1 & C2 & C3 & C4)]; [rewrite N; left; reflexivity|].
    rewrite C1. cbn [obind]. rewrite <- C4 in Hn. destruct (IH f s1 k1 C3 Hn) as [N|(s' & k' & E1 & E2 & E3)]; [left; exact N|].
    right. exists s', k'. split; [exact E1|]. split; [econstructor; eassumption|exact E3].
Qed.
Lemma does_det : forall k a k1, does fin k a k1 -> forall k2, does fin k a k2 -> k2 = k1.
Proof.
  intros k a k1 D k2 D'. destruct D; inversion D'; subst; try reflexivity;
    match goal with H : empties ?c ?q ?ev ?c1, H' : empties ?c ?q ?ev' ?c2 |- _ => destruct (empties_det _ _ _ _ H _ _ H') as [-> ->] end; reflexivity.
Qed.
Lemma call_total : forall (s : pools) k a d' k', shows s k -> depth_ok (length (outer k)) a = Some d' -> does fin k a k' -> exists N s', forall f, N <= f -> call rel f s a = Ok s'.
Proof.
  intros s k a d' k' Sh Hd Hk. pose proof (shows_low s k Sh) as Lo. destruct Sh as (S1 & S2 & S3 & S4).
  assert (length (marks s) = length (outer k)) as Lm by (rewrite S2; apply marks_length).
  destruct Hk as [q o c d x|q o c d|q p o c d ev c' E|q o c d ev c' E]; cbn [inner outer state done depth_ok] in *.
  - exists 1, (append s x). intros [|f] Hf; [lia|]. reflexivity.
  - eexists 1, _. intros [|f] Hf; [lia|]. rewrite call_S. rewrite Lm. unfold STACK_SIZE. destruct (length o <? 8); [reflexivity|discriminate Hd].
  - rewrite <- S3 in E. destruct (drain_total (length ev) s _ _ ev c' (le_n _) S1 Lo E) as (N & s' & H). eexists (S N), _. intros [|f] Hf; [lia|]. rewrite call_S. rewrite Lm. cbn [length Nat.leb].
    rewrite H by lia. cbn [obind]. reflexivity.
  - rewrite <- S3 in E. destruct (drain_total (length ev) s _ _ ev c' (le_n _) S1 Lo E) as (N & s' & H). exists (S N), s'. intros [|f] Hf; [lia|]. rewrite call_S. rewrite Lm. unfold STACK_SIZE.
    destruct (length o <? 8); [|discriminate Hd]. apply H. lia.
Qed.
Lemma exec_total : forall l (s : pools) k k', shows s k -> nested (length (outer k)) l -> history fin k l k' ->
  exists N s', shows s' k' /\ forall f, N <= f -> exec rel f s l = Ok s'.
Proof.
  induction l as [|a l IH]; intros s k k' Sh Hn Hh; inversion Hh as [|? ? k1 ? ? D H]; subst.
  - exists 1, s. split; [exact Sh|]. intros [|f] Hf; [lia|reflexivity].
  - apply nested_step in Hn. destruct Hn as (d' & Hd & Hn). destruct (call_total s k a d' k1 Sh Hd D) as (N1 & s1 & H1).
    destruct (call_ok N1 s k a d' Sh Hd) as [N|(s1' & k1' & C1 & C2 & C3 & C4)]; [rewrite (H1 N1 (le_n _)) in N; discriminate N|].
    rewrite (H1 N1 (le_n _)) in C1. injection C1 as <-. rewrite (does_det _ _ _ D _ C2) in C3, C4. rewrite <- C4 in Hn.
    destruct (IH s1 k1 k' C3 Hn H) as (N2 & s' & Sh' & H2). exists (S (N1 + N2)), s'. split; [exact Sh'|]. intros [|f] Hf; [lia|]. rewrite exec_S.
    rewrite H1 by lia. cbn [obind]. apply H2. lia.
Qed.
Lemma start_shows : forall c, shows (start c) (mkK [] [] c []).
Proof. intros c. repeat split. Qed.
End Proofs.
Arguments shows {client obj}.

Lemma pools_sound : forall (client obj : Type) (fin : client -> obj -> client * list obj) (c : client) (l : list (act obj)) (fuel : nat), nested 0 l ->
  exec (only_autoreleases fin) fuel (start c) l = NoFuel \/
  exists s k, exec (only_autoreleases fin) fuel (start c) l = Ok s /\ history fin (mkK [] [] c []) l k /\
    released s = done k /\ user s = state k /\ objs s = concat (rev (inner k :: outer k)).
Proof.
  intros client obj fin c l fuel Hn. destruct (exec_ok client obj fin l fuel (start c) (mkK [] [] c []) (start_shows client obj c) Hn) as [N|(s & k & E & H & S1 & S2 & S3 & S4)]; [left; exact N|].
  right. exists s, k. split; [exact E|]. split; [exact H|]. split; [exact S4|]. split; [exact S3|]. cbn [rev]. rewrite concat_app. cbn [concat]. rewrite app_nil_r. exact S1.
Qed.
Lemma pools_complete : forall (client obj : Type) (fin : client -> obj -> client * list obj) (c : client) (l : list (act obj)) k, nested 0 l -> history fin (mkK [] [] c []) l k ->
  exists fuel s, exec (only_autoreleases fin) fuel (start c) l = Ok s /\ released s = done k.
Proof.
  intros client obj fin c l k Hn Hh. destruct (exec_total client obj fin l (start c) (mkK [] [] c []) k (start_shows client obj c) Hn Hh) as (N & s & (_ & _ & _ & S4) & H).
  exists N, s. split; [apply H; apply le_n|exact S4].
Qed.
