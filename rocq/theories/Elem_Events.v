(** Proofs about the objects that parsing XML makes: what holds while it parses, and what the tokens do. *)
Require Import Coq.ZArith.ZArith Coq.NArith.NArith Coq.Lists.List Coq.Bool.Bool Coq.Arith.Arith Coq.micromega.Lia.
Require Import Verif.Base Verif.Own_Model Verif.Own_Spec Verif.Own_Proofs Verif.Own_Calls Verif.Own_Ends Verif.Parsed_Model Verif.Parsed_Spec Verif.Parsed_Proofs Verif.Parsed_Steps Verif.Parsed_Shape Verif.Elem_Model Verif.Elem_Spec Verif.Elem_Proofs Verif.Elem_Steps.
Require Verif.HashTable_Model Verif.XML_Model Verif.JSON_Parse.
Import ListNotations.
Notation CElement := XML_Model.CElement.
Notation CText := XML_Model.CText.

(** [h] are the elements made, [rs] the first, [es] those that are open; [rt] and [av] are the references the parser has besides
    the stack, which was made first. *)
Record W (base s : Own_Model.state) (h : list element) (rs : option nat) (es : list nat) (rt av : option nat) (ks : list (nat * list N)) (ids : nat -> nat) : Prop := mkW {
  w_inv : Inv s [];
  w_below : below base s;
  w_up : up any (next base) s;
  w_next : next base < next s;
  w_hands : hands s = hands base ++ next base :: somes [rt] ++ somes [av];
  w_pile : has s (next base) (Arr (map (fun e => Some (ids e)) es));
  w_root : (rs = None /\ h = [] /\ rt = None) \/ (rs = Some 0 /\ 0 < length h /\ rt = Some (ids 0));
  w_inj : forall i j, i < length h -> j < length h -> ids i = ids j -> i = j;
  w_new : forall i, i < length h -> next base < ids i;
  w_stack : Forall (fun e => e < length h) es;
  w_links : links h;
  w_closed : forall i el j, nth_error h i = Some el -> In (CElement j) (eelements el) -> j < length h;
  w_reps : forall i el, nth_error h i = Some el -> rep (has s) ks ids el (ids i);
  w_at : forall v, av = Some v -> next base < v /\ has s v Leaf /\ forall i, i < length h -> 3 + ids i < v }.

Lemma has_lt s y b : has s y b -> y < next s.
Proof. intros (n & N). exact (nth_len _ _ _ N). Qed.
Lemma list_has s a l : has s a (Arr l) -> list_of s a = Ok l.
Proof. intros (n & N). unfold list_of, body_of. rewrite N. reflexivity. Qed.
Lemma part_has s a l p : has s a (Arr (l ++ [Some p])) -> has s p (parts p) -> attributes s a = Ok (2 + p) /\ elements s a = Ok (3 + p).
Proof. intros A P. unfold attributes, elements, part, last_of. rewrite (list_has _ _ _ A). cbn [obind]. rewrite last_last, (body_ok _ _ _ P). cbn [obind]. split; reflexivity. Qed.
Lemma rep_away (at_ : nat -> body -> Prop) d ks ids el x : ~ at_ d Leaf -> (forall z, ~ at_ d (parts z)) -> 2 + x <> d -> 3 + x <> d -> rep at_ ks ids el x -> rep (fun y b => y <> d /\ at_ y b) ks ids el x.
Proof.
  intros NL NP D2 D3 (R1 & R2 & (es & R3 & F3) & (rs & R4 & F4)). assert (XL: forall y, at_ y Leaf -> y <> d /\ at_ y Leaf) by (intros y Y; split; [intros ->; exact (NL Y)|exact Y]). assert (XP: forall y z, at_ y (parts z) -> y <> d /\ at_ y (parts z)) by (intros y z Y; split; [intros ->; exact (NP _ Y)|exact Y]).
  split; [apply XP, R1|]. split; [apply XL, R2|]. split; [exists es; split; [split; assumption|]|exists rs; split; [split; assumption|]].
  - apply f2_impl with (2 := F3). intros kv e (E1 & E2 & v & E3 & E4). split; [exact E1|]. split; [apply XL, E2|]. exists v. split; [exact E3|apply XL, E4].
  - apply f2_impl with (2 := F4). intros [t|i] r; cbn; [intros (y & Y & Lf); exists y; split; [exact Y|apply XL, Lf]|intros (Y & Lf); split; [exact Y|apply XP, Lf]].
Qed.
Lemma arr_not s d l : has s d (Arr l) -> ~ has s d Leaf /\ forall z, ~ has s d (parts z).
Proof. intros H. split; [intros K|intros z K]; pose proof (has_fun _ _ _ _ H K); discriminate. Qed.
Lemma hash_not s d l : has s d (Hash l) -> ~ has s d Leaf /\ forall z, ~ has s d (parts z).
Proof. intros H. split; [intros K|intros z K]; pose proof (has_fun _ _ _ _ H K); discriminate. Qed.
Lemma top_split s e el : XML_Model.top s = Ok (e, el) -> exists es, XML_Model.estack s = es ++ [e] /\ nth_error (XML_Model.heap s) e = Some el.
Proof.
  unfold XML_Model.top. destruct (rev (XML_Model.estack s)) as [|x r] eqn:R; [discriminate|]. destruct (nth_error _ x) eqn:N; [|discriminate]. intros E. injection E as -> ->. exists (rev r). split; [|exact N].
  rewrite <- (rev_involutive (XML_Model.estack s)), R. reflexivity.
Qed.
Lemma upd_cases {A} (l : list A) e x i y : nth_error (upd l e x) i = Some y -> (i = e /\ y = x /\ e < length l) \/ (i <> e /\ nth_error l i = Some y).
Proof.
  intros N. assert (Hi: i < length l) by (rewrite <- (upd_length _ l e x); exact (nth_len _ _ _ N)). destruct (Nat.eq_dec i e) as [->|D]; [left|right; split; [exact D|rewrite nth_error_upd_neq in N by congruence; exact N]]. rewrite nth_error_upd_eq in N by exact Hi. split; [reflexivity|]. split; [congruence|exact Hi].
Qed.

(** ** An element changes *)
Lemma w_change base s s' h rs es rt av av' ks ks' ids e el el' : W base s h rs es rt av ks ids -> nth_error h e = Some el ->
  Inv s' [] -> below base s' -> up any (next base) s' -> next base < next s' -> hands s' = hands base ++ next base :: somes [rt] ++ somes [av'] ->
  has s' (next base) (Arr (map (fun e => Some (ids e)) es)) -> (forall j, In (CElement j) (eelements el') <-> In (CElement j) (eelements el)) ->
  (forall i x, nth_error (upd h e el') i = Some x -> rep (has s') ks' ids x (ids i)) -> (forall v, av' = Some v -> next base < v /\ has s' v Leaf /\ forall i, i < length h -> 3 + ids i < v) ->
  W base s' (upd h e el') rs es rt av' ks' ids.
Proof.
  intros Hw N I' B' U' L' H' P' C R A. pose proof (nth_len _ _ _ N) as He. constructor; try assumption; rewrite ?upd_length; try assumption; try (apply Hw).
  - destruct (w_root _ _ _ _ _ _ _ _ _ Hw) as [(R1 & R2 & R3)|R1]; [exfalso; subst h; cbn in He; lia|right; exact R1].
  - intros i I0 I1. rewrite upd_length in I1. destruct (w_links _ _ _ _ _ _ _ _ _ Hw i I0 I1) as (j & x & J & Nj & X). destruct (Nat.eq_dec j e) as [->|D].
    + exists e, el'. split; [exact J|]. split; [apply nth_error_upd_eq, He|]. apply C. congruence.
    + exists j, x. split; [exact J|]. split; [rewrite nth_error_upd_neq by congruence; exact Nj|exact X].
  - intros i x j Ni X. destruct (upd_cases _ _ _ _ _ Ni) as [(-> & -> & _)|(_ & Ni')]; [apply (w_closed _ _ _ _ _ _ _ _ _ Hw e el j N), C, X|exact (w_closed _ _ _ _ _ _ _ _ _ Hw i x j Ni' X)].
Qed.

(** ** The start of an attribute *)
Lemma make_grows a b s : members b = [] -> a <= next s -> up any a s -> up any a (make s b).
Proof.
  intros M A U y n c Y N. destruct (Nat.lt_ge_cases y (next s)) as [J|J]; [|split; [exact (proj1 (make_up any b s M Logic.I y n c J N))|intros; exact Logic.I]]. unfold make, add, next in *. cbn [cells] in N. rewrite nth_error_app1 in N by exact J. exact (U y n c Y N).
Qed.
Lemma below_has s s' : below s s' -> forall y b, has s y b -> has s' y b.
Proof. intros B y b (n & N). exists n. rewrite B; [exact N|exact (nth_len _ _ _ N)]. Qed.
Lemma attr_start base s h rs es rt ks ids : W base s h rs es rt None ks ids -> W base (make s Leaf) h rs es rt (Some (next s)) ks ids.
Proof.
  intros Hw. destruct (make_ok Leaf s eq_refl (w_inv _ _ _ _ _ _ _ _ _ Hw)) as (I0 & L0 & B0 & H0 & N0). pose proof (w_next _ _ _ _ _ _ _ _ _ Hw) as L. pose proof (below_has _ _ B0) as F. constructor; try assumption; try exact (w_root _ _ _ _ _ _ _ _ _ Hw); try exact (w_inj _ _ _ _ _ _ _ _ _ Hw); try exact (w_new _ _ _ _ _ _ _ _ _ Hw); try exact (w_stack _ _ _ _ _ _ _ _ _ Hw); try exact (w_links _ _ _ _ _ _ _ _ _ Hw); try exact (w_closed _ _ _ _ _ _ _ _ _ Hw).
  - intros y Y. rewrite B0 by lia. apply (w_below _ _ _ _ _ _ _ _ _ Hw y Y).
  - apply make_grows; [reflexivity|lia|apply Hw].
  - lia.
  - rewrite H0, (w_hands _ _ _ _ _ _ _ _ _ Hw). cbn [somes flat_map app]. rewrite !app_nil_r, <- app_assoc. reflexivity.
  - apply F, Hw.
  - intros i el N. apply (rep_mono (has s) _ ks ks); [exact F|auto|]. apply (w_reps _ _ _ _ _ _ _ _ _ Hw i el N).
  - intros v V. injection V as <-. split; [lia|]. split; [exists 1; exact N0|]. intros i Hi. destruct (nth_error h i) as [x|] eqn:Ni; [|apply nth_error_None in Ni; lia]. destruct (w_reps _ _ _ _ _ _ _ _ _ Hw i x Ni) as (_ & _ & _ & (q & Q & _)). exact (has_lt _ _ _ Q).
Qed.

(** ** Text *)
Lemma last_child els : els = [] \/ (exists l i, els = l ++ [CElement i]) \/ exists l t, els = l ++ [CText t].
Proof. destruct els as [|c els] using rev_ind; [auto|right]. destruct c as [t|i]; [right; eauto|left; eauto]. Qed.
Lemma f2_last {A B} (P : A -> B -> Prop) l a l' : Forall2 P (l ++ [a]) l' -> exists m b, l' = m ++ [b] /\ Forall2 P l m /\ P a b.
Proof. intros F. apply Forall2_app_inv_l in F. destruct F as (m & m' & F1 & F2 & ->). inversion F2 as [|? b ? r H R]; subst. inversion R; subst. exists m, b. auto. Qed.
Lemma same_state base s h rs es rt av ks ids e el el' : W base s h rs es rt av ks ids -> nth_error h e = Some el -> eattributes el' = eattributes el -> (forall j, In (CElement j) (eelements el') <-> In (CElement j) (eelements el)) ->
  (forall rs, Forall2 (child_for (has s) ids) (eelements el) rs -> Forall2 (child_for (has s) ids) (eelements el') rs) -> W base s (upd h e el') rs es rt av ks ids.
Proof.
  intros Hw N A C F. apply (w_change base s s h rs es rt av av ks ks ids e el el' Hw N); try (apply Hw); [exact C|]. intros i x Ni. destruct (upd_cases _ _ _ _ _ Ni) as [(-> & -> & _)|(_ & Ni')]; [|apply (w_reps _ _ _ _ _ _ _ _ _ Hw i x Ni')].
  destruct (w_reps _ _ _ _ _ _ _ _ _ Hw e el N) as (R1 & R2 & R3 & (q & R4 & F4)). split; [exact R1|]. split; [exact R2|]. split; [rewrite A; exact R3|]. exists q. split; [exact R4|apply F, F4].
Qed.
Lemma new_text base s h rs es rt av ks ids e el t : W base s h rs (es ++ [e]) rt av ks ids -> nth_error h e = Some el ->
  exists s' s'', append (make s Leaf) (3 + ids e) (Some (next s)) = Ok s' /\ give_up s' (Some (next s)) = Ok s'' /\ W base s'' (upd h e (XML_Model.mkE (XML_Model.ename el) (eattributes el) (eelements el ++ [CText t]))) rs (es ++ [e]) rt av ks ids.
Proof.
  intros Hw N. pose proof (nth_len _ _ _ N) as He. pose proof (w_new _ _ _ _ _ _ _ _ _ Hw e He) as Ne. destruct (w_reps _ _ _ _ _ _ _ _ _ Hw e el N) as (R1 & R2 & (q3 & R3 & F3) & (q & R4 & F4)). pose proof (w_next _ _ _ _ _ _ _ _ _ Hw) as L. pose proof (w_inv _ _ _ _ _ _ _ _ _ Hw) as I.
  destruct (make_ok Leaf s eq_refl I) as (I0 & L0 & B0 & H0 & N0). pose proof (below_has _ _ B0) as F0. assert (U0: up any (next base) (make s Leaf)) by (apply make_grows; [reflexivity|lia|apply Hw]). pose proof (has_lt _ _ _ R4) as Ld. assert (X0: has (make s Leaf) (next s) Leaf) by (exists 1; exact N0).
  destruct (append_any (next base) (make s Leaf) (3 + ids e) q (next s) Leaf I0 U0 ltac:(lia) (F0 _ _ R4) X0 Ld) as (s1 & E1 & I1 & H1 & T1 & D1 & F1). destruct T1 as (T1 & T1' & U1).
  destruct (give_held (next base) s1 (next s) I1 U1 ltac:(lia)) as (s2 & E2 & I2 & H2 & T2 & F2).
  { rewrite H1, H0. apply in_or_app. right. left. reflexivity. } { apply in_content. destruct D1 as (n & D1). exists (3 + ids e), n, (Arr (q ++ [Some (next s)])). split; [exact D1|]. cbn [members]. rewrite somes_app. apply in_or_app. right. left. reflexivity. }
  destruct T2 as (T2 & T2' & U2). exists s1, s2. split; [exact E1|]. split; [exact E2|]. destruct (arr_not _ _ _ R4) as (NL & NP).
  assert (FF: forall y b, y <> 3 + ids e -> has s y b -> has s2 y b) by (intros y b Y Hy; apply F2, F1, F0; assumption).
  apply (w_change base s s2 h rs (es ++ [e]) rt av av ks ks ids e el _ Hw N); try assumption.
  - intros y Y. rewrite T2', T1', B0 by lia. apply (w_below _ _ _ _ _ _ _ _ _ Hw y Y).
  - unfold next in *. lia.
  - rewrite H2, H1, H0, take_last by (apply hands_old; [exact I|lia]). apply Hw.
  - apply FF; [lia|apply Hw].
  - intros j. cbn [eelements XML_Model.eelements]. split; intros J; [apply in_app_or in J; destruct J as [J|[J|[]]]; [exact J|discriminate]|apply in_or_app; left; exact J].
  - intros i x Ni. destruct (upd_cases _ _ _ _ _ Ni) as [(-> & -> & _)|(D & Ni')].
    + split; [apply FF; [lia|exact R1]|]. split; [apply FF; [lia|exact R2]|]. split.
      * exists q3. split; [apply FF; [lia|exact R3]|]. apply f2_impl with (2 := F3). intros kv y (Y1 & Y2 & v & Y3 & Y4). split; [exact Y1|]. split; [apply FF; [intros Z; rewrite Z in Y2; exact (NL Y2)|exact Y2]|]. exists v. split; [exact Y3|]. apply FF; [intros Z; rewrite Z in Y4; exact (NL Y4)|exact Y4].
      * exists (q ++ [Some (next s)]). split; [apply F2, D1|]. cbn [XML_Model.eelements]. apply Forall2_app; [|constructor; [exists (next s); split; [reflexivity|apply F2, F1; [lia|exact X0]]|constructor]].
        apply f2_impl with (2 := F4). intros [u|j] r; cbn; [intros (y & Y & Lf); exists y; split; [exact Y|apply FF; [intros Z; rewrite Z in Lf; exact (NL Lf)|exact Lf]]|intros (Y & Lf); split; [exact Y|apply FF; [intros Z; rewrite Z in Lf at 1; exact (NP _ Lf)|exact Lf]]].
    + pose proof (w_reps _ _ _ _ _ _ _ _ _ Hw i x Ni') as R. pose proof (nth_len _ _ _ Ni') as Hi. apply (rep_away (has s) (3 + ids e)) in R; [|exact NL|exact NP| |].
      * apply rep_mono with (3 := R); [intros y b (Y & Hy); exact (FF y b Y Hy)|auto].
      * intros Z. destruct R as (_ & _ & (q' & Q & _) & _). rewrite Z in Q. pose proof (has_fun _ _ _ _ Q R4). discriminate.
      * intros Z. apply D, (w_inj _ _ _ _ _ _ _ _ _ Hw i e Hi He). lia.
  - intros v V. destruct (w_at _ _ _ _ _ _ _ _ _ Hw v V) as (V1 & V2 & V3). split; [exact V1|]. split; [|exact V3]. apply FF; [intros Z; rewrite Z in V2; exact (NL V2)|exact V2].
Qed.
Section Text.
  Variable isspace : Z -> outcome bool.
  Lemma xml_text els ch els' : XML_Model.append_text isspace els ch = Ok els' -> exists c0 ws, Utf8_Model.rd ch 0 = Ok c0 /\ isspace (XML_Model.to_char c0) = Ok ws /\
    ((exists l t t', els = l ++ [CText t] /\ els' = l ++ [CText t']) \/ ((els = [] \/ exists l i, els = l ++ [CElement i]) /\ ((ws = true /\ els' = els) \/ (ws = false /\ exists t, els' = els ++ [CText t])))).
  Proof.
    unfold XML_Model.append_text. intros E. apply bind_ok in E. destruct E as (c0 & E0 & E). apply bind_ok in E. destruct E as (ws & Ew & E). exists c0, ws. split; [exact E0|]. split; [exact Ew|].
    destruct (last_child els) as [Z|[(l & i & Z)|(l & t & Z)]]; subst els.
    - right. split; [auto|]. cbn [rev] in E. destruct ws; [left; split; congruence|right]. split; [reflexivity|]. apply bind_ok in E. destruct E as (j & _ & E). cbn [negb] in E. apply bind_ok in E. destruct E as (c & _ & E). injection E as <-. eexists. reflexivity.
    - right. split; [eauto|]. rewrite rev_unit in E. destruct ws; [left; split; congruence|right]. split; [reflexivity|]. apply bind_ok in E. destruct E as (j & _ & E). cbn [negb] in E. apply bind_ok in E. destruct E as (c & _ & E). injection E as <-. eexists. reflexivity.
    - left. rewrite rev_unit in E. rewrite removelast_last in E. apply bind_ok in E. destruct E as (j & _ & E). destruct ws; cbn [negb] in E.
      + destruct j as [j|]; [|injection E as <-; exists l, t; eexists; split; reflexivity]. apply bind_ok in E. destruct E as (b & _ & E). apply bind_ok in E. destruct E as (w & _ & E). injection E as <-. exists l, t. eexists. split; reflexivity.
      + apply bind_ok in E. destruct E as (c & _ & E). injection E as <-. exists l, t. eexists. split; reflexivity.
  Qed.
  Lemma content_step base s h rs es rt av ks ids e el els ch : W base s h rs (es ++ [e]) rt av ks ids -> nth_error h e = Some el -> XML_Model.append_text isspace (eelements el) ch = Ok els ->
    exists s', append_text isspace s (3 + ids e) ch = Ok s' /\ W base s' (upd h e (XML_Model.mkE (XML_Model.ename el) (eattributes el) els)) rs (es ++ [e]) rt av ks ids.
  Proof.
    intros Hw N E. destruct (w_reps _ _ _ _ _ _ _ _ _ Hw e el N) as (R1 & R2 & (q3 & R3 & F3) & (q & R4 & F4)). unfold append_text, last_of. rewrite (list_has _ _ _ R4). cbn [obind].
    destruct (xml_text _ _ _ E) as (c0 & ws & E0 & Ew & C). destruct C as [(l & t & t' & Z & ->)|(Z & C)].
    - rewrite Z in F4. destruct (f2_last _ _ _ _ F4) as (m & b & -> & _ & (x & -> & X)). rewrite last_last. cbn [is_text]. rewrite (body_ok _ _ _ X). cbn [obind]. rewrite E0. cbn [obind]. rewrite Ew. cbn [obind orb]. exists s. split; [reflexivity|].
      apply (same_state base s h rs _ rt av ks ids e el _ Hw N); [reflexivity| |]; cbn [XML_Model.eelements]; rewrite Z.
      + intros j. split; intros J; apply in_app_or in J; (destruct J as [J|[J|[]]]; [apply in_or_app; left; exact J|discriminate]).
      + intros r F. destruct (f2_last _ _ _ _ F) as (m' & b' & -> & F1 & F2). apply Forall2_app; [exact F1|]. constructor; [exact F2|constructor].
    - assert (T: is_text s (last q None) = Ok false).
      { destruct Z as [Z|(l & i & Z)]; rewrite Z in F4; [inversion F4; subst; reflexivity|]. destruct (f2_last _ _ _ _ F4) as (m & b & -> & _ & (-> & X)). rewrite last_last. cbn [is_text]. rewrite (body_ok _ _ _ X). reflexivity. }
      rewrite T. cbn [obind]. rewrite E0. cbn [obind]. rewrite Ew. cbn [obind orb]. destruct C as [(-> & ->)|(-> & t & ->)].
      + exists s. split; [reflexivity|]. apply (same_state base s h rs _ rt av ks ids e el _ Hw N); [reflexivity| |]; cbn [XML_Model.eelements]; auto. intros j. reflexivity.
      + destruct (new_text base s h rs es rt av ks ids e el t Hw N) as (s1 & s2 & E1 & E2 & W2). exists s2. split; [|exact W2]. rewrite E1. cbn [obind]. exact E2.
  Qed.
End Text.
