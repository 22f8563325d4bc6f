(** Proofs about the objects that parsing XML makes: elements and attributes. *)
Require Import Coq.ZArith.ZArith Coq.NArith.NArith Coq.Lists.List Coq.Bool.Bool Coq.Arith.Arith Coq.micromega.Lia.
Require Import Verif.Base Verif.Own_Model Verif.Own_Spec Verif.Own_Proofs Verif.Own_Calls Verif.Own_Ends Verif.Parsed_Model Verif.Parsed_Spec Verif.Parsed_Proofs Verif.Parsed_Steps Verif.Parsed_Shape Verif.Elem_Model Verif.Elem_Spec Verif.Elem_Proofs Verif.Elem_Steps Verif.Elem_Events.
Require Verif.HashTable_Model Verif.XML_Model Verif.JSON_Parse.
Import ListNotations.

(** ** The start of an element *)
Lemma new_ok s : Inv s [] -> let e := next s in Inv (new_element s) [] /\ next (new_element s) = 4 + e /\ below s (new_element s) /\ hands (new_element s) = hands s ++ [e] /\
  has (new_element s) e (parts e) /\ has (new_element s) (1 + e) Leaf /\ has (new_element s) (2 + e) (Hash []) /\ has (new_element s) (3 + e) (Arr []).
Proof.
  intros (P & C) e. assert (G: forall i, nth_error (cells (new_element s)) (i + e) = nth_error [Live 1 (parts e); Live 1 Leaf; Live 1 (Hash []); Live 1 (Arr [])] i) by (intros i; unfold new_element, e, next; cbn [cells]; rewrite nth_error_app2 by lia; f_equal; lia).
  assert (B: below s (new_element s)) by (intros y Y; unfold new_element; cbn [cells]; apply nth_error_app1, Y).
  assert (Ln: next (new_element s) = 4 + e) by (unfold next, new_element, e; cbn [cells]; rewrite app_length; cbn; unfold next; lia).
  split; [split|]; [| |split; [exact Ln|]; split; [exact B|]; split; [reflexivity|]].
  - intros x n b X. destruct (Nat.lt_ge_cases x (next s)) as [L|L]; [rewrite B in X by exact L; exact (P _ _ _ X)|]. replace x with ((x - e) + e) in X by (unfold e; lia). rewrite G in X. destruct (x - e) as [|[|[|[|[|m]]]]]; cbn in X; try discriminate; injection X as <- _; lia.
  - intros x. specialize (C x). unfold rc in *. assert (Ct: content (new_element s) = content s ++ [1 + e; 2 + e; 3 + e]) by (unfold content, new_element; cbn [cells]; rewrite map_app, concat_app; reflexivity). assert (Hh: hands (new_element s) = hands s ++ [e]) by reflexivity. rewrite Ct, Hh, !cnt_app.
    destruct (Nat.lt_ge_cases x (next s)) as [L|L].
    + rewrite B by exact L. cbn [count_occ] in *. repeat match goal with |- context [Nat.eq_dec ?a x] => destruct (Nat.eq_dec a x); [unfold e in *; lia|] end. lia.
    + assert (nth_error (cells s) x = None) as Z by (apply nth_error_None; exact L). rewrite Z in C. replace x with ((x - e) + e) at 1 by (unfold e; lia). rewrite G. cbn [count_occ] in *.
      destruct (x - e) as [|[|[|[|m]]]] eqn:M; cbn [nth_error]; repeat match goal with |- context [Nat.eq_dec ?a x] => destruct (Nat.eq_dec a x); try (unfold e in *; lia) end. destruct m; cbn [nth_error]; lia.
  - split; [exists 1; exact (G 0)|]. split; [exists 1; exact (G 1)|]. split; [exists 1; exact (G 2)|exists 1; exact (G 3)].
Qed.
Lemma new_up a s : a <= next s -> up any a s -> up any a (new_element s).
Proof.
  intros A U y n b Y N. split; [|intros; exact Logic.I]. unfold new_element in N. cbn [cells] in N. destruct (Nat.lt_ge_cases y (next s)) as [L|L]; [rewrite nth_error_app1 in N by exact L; exact (proj1 (U y n b Y N))|].
  rewrite nth_error_app2 in N by exact L. unfold next in *. destruct (y - length (cells s)) as [|[|[|[|[|m]]]]] eqn:M; cbn in N; try discriminate; injection N as <- <-; cbn; try (apply Forall_nil); repeat (apply Forall_cons; [lia|]); apply Forall_nil.
Qed.
Definition more (ids : nat -> nat) (n e : nat) : nat -> nat := fun i => if i =? n then e else ids i.
Lemma more_old ids n e i : i < n -> more ids n e i = ids i.
Proof. intros L. unfold more. destruct (Nat.eqb_spec i n); [lia|reflexivity]. Qed.
Lemma more_new ids n e : more ids n e n = e.
Proof. unfold more. rewrite Nat.eqb_refl. reflexivity. Qed.
Lemma more_stack ids n e es : Forall (fun i => i < n) es -> map (fun i => Some (more ids n e i)) (es ++ [n]) = map (fun i => Some (ids i)) es ++ [Some e].
Proof. intros F. rewrite map_app. cbn [map]. rewrite more_new. f_equal. induction F as [|i es L F IH]; [reflexivity|]. cbn [map]. rewrite more_old, IH by exact L. reflexivity. Qed.
Lemma nth_snoc {A} (l : list A) x i y : nth_error (l ++ [x]) i = Some y -> (i = length l /\ y = x) \/ (i < length l /\ nth_error l i = Some y).
Proof.
  intros N. destruct (Nat.lt_ge_cases i (length l)) as [L|L]; [right; rewrite nth_error_app1 in N by exact L; auto|left]. pose proof (nth_len _ _ _ N) as M. rewrite app_length in M. cbn in M. assert (i = length l) by lia. subst i. rewrite nth_error_app2, Nat.sub_diag in N by lia. cbn in N. split; [reflexivity|congruence].
Qed.
Lemma first_step base s h es n ks ids : W base s h None es None None ks ids -> exists s', append (new_element s) (next base) (Some (next s)) = Ok s' /\
  W base s' (h ++ [XML_Model.mkE n [] []]) (Some (length h)) (es ++ [length h]) (Some (next s)) None ks (more ids (length h) (next s)).
Proof.
  intros Hw. pose proof (w_inv _ _ _ _ _ _ _ _ _ Hw) as I. pose proof (w_next _ _ _ _ _ _ _ _ _ Hw) as L. destruct (w_root _ _ _ _ _ _ _ _ _ Hw) as [(_ & -> & _)|(R & _)]; [|discriminate].
  pose proof (w_stack _ _ _ _ _ _ _ _ _ Hw) as St. destruct es as [|x es]; [|inversion St as [|? ? Z _]; subst; cbn in Z; lia]. clear St.
  destruct (new_ok s I) as (I0 & L0 & B0 & H0 & X0 & X1 & X2 & X3). pose proof (below_has _ _ B0) as F0. pose proof (new_up (next base) s ltac:(lia) (w_up _ _ _ _ _ _ _ _ _ Hw)) as U0. pose proof (F0 _ _ (w_pile _ _ _ _ _ _ _ _ _ Hw)) as P0. cbn [map] in P0.
  destruct (append_any (next base) (new_element s) (next base) [] (next s) _ I0 U0 ltac:(lia) P0 X0 L) as (s1 & E1 & I1 & H1 & (T1 & T1' & U1) & D1 & F1). exists s1. split; [exact E1|]. cbn [length app].
  constructor; try assumption.
  - intros y Y. rewrite T1', B0 by lia. apply (w_below _ _ _ _ _ _ _ _ _ Hw y Y).
  - unfold next in *. lia.
  - rewrite H1, H0, (w_hands _ _ _ _ _ _ _ _ _ Hw), <- app_assoc. reflexivity.
  - right. split; [reflexivity|]. split; [cbn; lia|reflexivity].
  - cbn. intros i j Hi Hj _. lia.
  - cbn. intros i Hi. assert (i = 0) by lia. subst i. exact L.
  - constructor; [cbn; lia|constructor].
  - intros i Hi Hi'. cbn in Hi'. lia.
  - intros [|i] el j Ni X; [|destruct i; discriminate]. injection Ni as <-. destruct X.
  - intros [|i] el Ni; [|destruct i; discriminate]. injection Ni as <-. change (more ids 0 (next s) 0) with (next s). split; [apply F1; [lia|exact X0]|]. split; [apply F1; [lia|exact X1]|]. split; [exists []; split; [apply F1; [lia|exact X2]|constructor]|exists []; split; [apply F1; [lia|exact X3]|constructor]].
  - discriminate.
Qed.
Lemma child_step base s h es p el r ks ids n : W base s h (Some r) (es ++ [p]) (Some (ids 0)) None ks ids -> nth_error h p = Some el ->
  exists s1 s2 s', elements (new_element s) (next base) = Ok (3 + ids p) /\ append (new_element s) (3 + ids p) (Some (next s)) = Ok s1 /\ give_up s1 (Some (next s)) = Ok s2 /\ append s2 (next base) (Some (next s)) = Ok s' /\
  W base s' (upd (h ++ [XML_Model.mkE n [] []]) p (XML_Model.mkE (XML_Model.ename el) (eattributes el) (eelements el ++ [CElement (length h)]))) (Some r) ((es ++ [p]) ++ [length h]) (Some (ids 0)) None ks (more ids (length h) (next s)).
Proof.
  intros Hw N. pose proof (w_inv _ _ _ _ _ _ _ _ _ Hw) as I. pose proof (w_next _ _ _ _ _ _ _ _ _ Hw) as L. pose proof (nth_len _ _ _ N) as Hp. pose proof (w_new _ _ _ _ _ _ _ _ _ Hw p Hp) as Np.
  destruct (w_reps _ _ _ _ _ _ _ _ _ Hw p el N) as (R1 & R2 & (q3 & R3 & F3) & (q & R4 & F4)). pose proof (has_lt _ _ _ R4) as Ld. destruct (arr_not _ _ _ R4) as (NL & NP). pose proof (w_pile _ _ _ _ _ _ _ _ _ Hw) as Pl. destruct (arr_not _ _ _ Pl) as (ML & MP).
  destruct (new_ok s I) as (I0 & L0 & B0 & H0 & X0 & X1 & X2 & X3). pose proof (below_has _ _ B0) as F0. pose proof (new_up (next base) s ltac:(lia) (w_up _ _ _ _ _ _ _ _ _ Hw)) as U0.
  destruct (append_any (next base) (new_element s) (3 + ids p) q (next s) _ I0 U0 ltac:(lia) (F0 _ _ R4) X0 Ld) as (s1 & E1 & I1 & H1 & (T1 & T1' & U1) & D1 & F1).
  destruct (give_held (next base) s1 (next s) I1 U1 ltac:(lia)) as (s2 & E2 & I2 & H2 & (T2 & T2' & U2) & F2).
  { rewrite H1, H0. apply in_or_app. right. left. reflexivity. } { apply in_content. destruct D1 as (m & D1). exists (3 + ids p), m, (Arr (q ++ [Some (next s)])). split; [exact D1|]. cbn [members]. rewrite somes_app. apply in_or_app. right. left. reflexivity. }
  assert (FF: forall y b, y <> 3 + ids p -> has (new_element s) y b -> has s2 y b) by (intros y b Y Hy; apply F2, F1; assumption).
  destruct (append_any (next base) s2 (next base) _ (next s) _ I2 U2 ltac:(lia) (FF (next base) _ ltac:(lia) (F0 _ _ Pl)) (FF (next s) _ ltac:(lia) X0) L) as (s3 & E3 & I3 & H3 & (T3 & T3' & U3) & D3 & F3').
  assert (GG: forall y b, y <> next base -> y <> 3 + ids p -> has s y b -> has s3 y b) by (intros y b Y Y' Hy; apply F3', FF, F0; assumption). assert (GN: forall y b, next s <= y -> has (new_element s) y b -> has s3 y b) by (intros y b Y Hy; apply F3', FF; [lia|lia|exact Hy]).
  exists s1, s2, s3. split; [apply (part_has _ _ (map (fun e => Some (ids e)) es)); [|apply F0, R1]; pose proof (F0 _ _ Pl) as Z; rewrite map_app in Z; exact Z|]. split; [exact E1|]. split; [exact E2|]. split; [exact E3|].
  set (h' := upd _ _ _). assert (Lh: length h' = S (length h)) by (unfold h'; rewrite upd_length, app_length; cbn; lia).
  assert (Ch: forall i x, nth_error h' i = Some x -> (i = p /\ x = XML_Model.mkE (XML_Model.ename el) (eattributes el) (eelements el ++ [CElement (length h)])) \/ (i = length h /\ x = XML_Model.mkE n [] []) \/ (i <> p /\ nth_error h i = Some x)).
  { intros i x Ni. destruct (upd_cases _ _ _ _ _ Ni) as [(-> & -> & _)|(D & Ni')]; [left; auto|right]. destruct (nth_snoc _ _ _ _ Ni') as [(-> & ->)|(_ & Z)]; [left; auto|right; auto]. }
  assert (Np': nth_error h' p = Some (XML_Model.mkE (XML_Model.ename el) (eattributes el) (eelements el ++ [CElement (length h)]))) by (apply nth_error_upd_eq; rewrite app_length; lia).
  assert (Nn: forall i x, i <> p -> nth_error h i = Some x -> nth_error h' i = Some x) by (intros i x D Ni; unfold h'; rewrite nth_error_upd_neq by congruence; rewrite nth_error_app1 by exact (nth_len _ _ _ Ni); exact Ni).
  assert (Lt: forall i, i < length h -> ids i < next s). { intros i Hi. destruct (nth_error h i) as [x|] eqn:Ni; [|apply nth_error_None in Ni; lia]. exact (has_lt _ _ _ (proj1 (w_reps _ _ _ _ _ _ _ _ _ Hw i x Ni))). }
  assert (L3: forall y b, has s y Leaf -> b = Leaf -> has s3 y b) by (intros y b Y ->; apply GG; [intros ->; exact (ML Y)|intros ->; exact (NL Y)|exact Y]).
  constructor; try assumption.
  - intros y Y. rewrite T3', T2', T1', B0 by lia. apply (w_below _ _ _ _ _ _ _ _ _ Hw y Y).
  - unfold next in *. lia.
  - rewrite H3, H2, H1, H0, take_last by (apply hands_old; [exact I|lia]). apply Hw.
  - rewrite more_stack; [exact D3|apply Hw].
  - destruct (w_root _ _ _ _ _ _ _ _ _ Hw) as [(Z & _)|(Z & Z1 & Z2)]; [discriminate|right]. split; [exact Z|]. split; [lia|]. rewrite more_old by lia. reflexivity.
  - intros i j Hi Hj E. rewrite Lh in Hi, Hj. destruct (Nat.eq_dec i (length h)) as [->|Di], (Nat.eq_dec j (length h)) as [->|Dj]; [reflexivity| | |].
    + exfalso. rewrite more_new, more_old in E by lia. specialize (Lt j ltac:(lia)). lia.
    + exfalso. rewrite more_new, more_old in E by lia. specialize (Lt i ltac:(lia)). lia.
    + rewrite !more_old in E by lia. apply (w_inj _ _ _ _ _ _ _ _ _ Hw i j); [lia|lia|exact E].
  - intros i Hi. rewrite Lh in Hi. destruct (Nat.eq_dec i (length h)) as [->|Di]; [rewrite more_new; exact L|]. rewrite more_old by lia. apply (w_new _ _ _ _ _ _ _ _ _ Hw). lia.
  - rewrite Lh. apply Forall_app. split; [apply Forall_impl with (2 := w_stack _ _ _ _ _ _ _ _ _ Hw); intros; lia|constructor; [lia|constructor]].
  - intros i Hi Hi'. rewrite Lh in Hi'. destruct (Nat.eq_dec i (length h)) as [->|Di].
    + exists p. eexists. split; [exact Hp|]. split; [exact Np'|]. cbn. apply in_or_app. right. left. reflexivity.
    + destruct (w_links _ _ _ _ _ _ _ _ _ Hw i Hi ltac:(lia)) as (j & x & J & Nj & X). destruct (Nat.eq_dec j p) as [->|D].
      * exists p. eexists. split; [exact J|]. split; [exact Np'|]. cbn. apply in_or_app. left. congruence.
      * exists j, x. split; [exact J|]. split; [exact (Nn _ _ D Nj)|exact X].
  - intros i x j Ni X. rewrite Lh. destruct (Ch _ _ Ni) as [(-> & ->)|[(-> & ->)|(D & Ni')]]; cbn in X.
    + apply in_app_or in X. destruct X as [X|[X|[]]]; [pose proof (w_closed _ _ _ _ _ _ _ _ _ Hw p el j N X); lia|injection X as <-; lia].
    + destruct X.
    + pose proof (w_closed _ _ _ _ _ _ _ _ _ Hw i x j Ni' X). lia.
  - intros i x Ni. destruct (Ch _ _ Ni) as [(-> & ->)|[(-> & ->)|(D & Ni')]].
    + rewrite more_old by exact Hp. split; [apply GG; [lia|lia|exact R1]|]. split; [apply (L3 _ _ R2 eq_refl)|]. split.
      * exists q3. split; [apply GG; [lia|lia|exact R3]|]. apply f2_impl with (2 := F3). intros kv y (Y1 & Y2 & v & Y3 & Y4). split; [exact Y1|]. split; [exact (L3 _ _ Y2 eq_refl)|]. exists v. split; [exact Y3|exact (L3 _ _ Y4 eq_refl)].
      * exists (q ++ [Some (next s)]). split; [apply F3'; [lia|apply F2, D1]|]. cbn [XML_Model.eelements]. apply Forall2_app; [|constructor; [cbn; rewrite more_new; split; [reflexivity|apply GN; [lia|exact X0]]|constructor]].
        pose proof (w_closed _ _ _ _ _ _ _ _ _ Hw p el) as Cl. clear - F4 L3 GG NP MP Cl N. specialize (fun j => Cl j N). revert Cl. remember (eelements el) as cs eqn:Q. clear Q. induction F4 as [|c y cs q C F IH]; intros Cl; constructor; [|apply IH; intros j J; apply Cl; right; exact J].
        destruct c as [u|j]; cbn in *; [destruct C as (z & Z & Lf); exists z; split; [exact Z|exact (L3 _ _ Lf eq_refl)]|]. rewrite more_old by (apply Cl; left; reflexivity). destruct C as (Z & Lf). split; [exact Z|]. apply GG; [intros Y; rewrite Y in Lf at 1; exact (MP _ Lf)|intros Y; rewrite Y in Lf at 1; exact (NP _ Lf)|exact Lf].
    + rewrite more_new. split; [apply GN; [lia|exact X0]|]. split; [apply GN; [lia|exact X1]|]. split; [exists []; split; [apply GN; [lia|exact X2]|constructor]|exists []; split; [apply GN; [lia|exact X3]|constructor]].
    + pose proof (nth_len _ _ _ Ni') as Hi. pose proof (w_new _ _ _ _ _ _ _ _ _ Hw i Hi) as Nwi. rewrite more_old by exact Hi. apply (rep_ids _ ks ids); [intros j J; apply more_old; exact (w_closed _ _ _ _ _ _ _ _ _ Hw i x j Ni' J)|].
      pose proof (w_reps _ _ _ _ _ _ _ _ _ Hw i x Ni') as R. apply (rep_away (has s) (3 + ids p)) in R; [|exact NL|exact NP| |].
      * apply (rep_away _ (next base)) in R; [|intros (_ & Z); exact (ML Z)|intros z (_ & Z); exact (MP _ Z)|lia|lia]. apply rep_mono with (3 := R); [|auto]. intros y b (Y & Y' & Hy). exact (GG y b Y Y' Hy).
      * intros Z. destruct R as (_ & _ & (q' & Q & _) & _). rewrite Z in Q. pose proof (has_fun _ _ _ _ Q R4). discriminate.
      * intros Z. apply D, (w_inj _ _ _ _ _ _ _ _ _ Hw i p Hi Hp). lia.
  - discriminate.
Qed.
