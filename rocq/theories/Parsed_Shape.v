(** Proofs about the objects that parsing JSON makes: they are those of the value. *)
Require Import Coq.ZArith.ZArith Coq.NArith.NArith Coq.Lists.List Coq.Bool.Bool Coq.Arith.Arith Coq.micromega.Lia.
Require Import Verif.Base Verif.Utf8_Model Verif.Strtonum_Model Verif.JSON_Model Verif.Own_Model Verif.Own_Spec Verif.Own_Proofs Verif.Own_Calls Verif.Own_Ends Verif.Parsed_Model Verif.Parsed_Spec Verif.Parsed_Proofs Verif.Parsed_Steps.
Require Verif.HashTable_Model Verif.JSON_Write.
Import ListNotations.

Definition all_for (s : state) : list json -> list ref -> Prop :=
  fix all l rs := match l, rs with [], [] => True | v :: l, r :: rs => stands_for s v r /\ all l rs | _, _ => False end.
Definition all_entries (s : state) : list (list N * json) -> list (nat * ref) -> Prop :=
  fix all l es := match l, es with [], [] => True | (_, v) :: l, (k, r) :: es => leaf s k /\ stands_for s v r /\ all l es | _, _ => False end.

(** ** What stays *)
Definition keeps (Q : nat -> Prop) (s s' : state) : Prop := forall y n b, Q y -> nth_error (cells s') y = Some (Live n b) -> exists m, nth_error (cells s) y = Some (Live m b).
Definition every (y : nat) : Prop := True.
Definition other (a y : nat) : Prop := y <> a.
Lemma keeps_refl Q s : keeps Q s s.
Proof. intros y n b _ N. exists n. exact N. Qed.
Lemma keeps_trans Q s s' s'' : keeps Q s s' -> keeps Q s' s'' -> keeps Q s s''.
Proof. intros K K' y n b Y N. destruct (K' y n b Y N) as (m & M). exact (K y m b Y M). Qed.
Lemma keeps_weak (Q Q' : nat -> Prop) s s' : (forall y, Q' y -> Q y) -> keeps Q s s' -> keeps Q' s s'.
Proof. intros W K y n b Y N. exact (K y n b (W y Y) N). Qed.
Lemma set_keeps s x c' n0 b0 : nth_error (cells s) x = Some (Live n0 b0) -> (forall n b, c' = Live n b -> b = b0) -> keeps every s (set_cell s x c').
Proof.
  intros E H y n b _ N. destruct (Nat.eq_dec x y) as [->|D].
  - rewrite (set_cell_same _ _ _ _ E) in N. injection N as N. rewrite (H n b N). eauto.
  - rewrite set_cell_other in N by exact D. eauto.
Qed.
Lemma retain_keeps s r s' : retain s r = Ok s' -> keeps every s s'.
Proof.
  intros E. destruct r as [x|]; cbn [retain] in E; [|injection E as <-; apply keeps_refl].
  destruct (nth_error (cells s) x) as [[[|n] b|]|] eqn:N; try discriminate. injection E as <-. apply (set_keeps s x _ _ _ N). intros m b' Q. injection Q as _ <-. reflexivity.
Qed.
Lemma drop_keeps : forall f s xs s', drop f s xs = Ok s' -> keeps every s s'.
Proof.
  induction f as [|f IH]; intros s [|x xs] s' E; cbn [drop] in E; try discriminate; try (injection E as <-; apply keeps_refl).
  destruct (nth_error (cells s) x) as [[[|n] b|]|] eqn:N; try discriminate. destruct n as [|n].
  - apply IH in E. apply (keeps_trans _ _ _ _ (set_keeps s x Freed _ _ N ltac:(discriminate)) E).
  - apply IH in E. refine (keeps_trans _ _ _ _ (set_keeps s x (Live (S n) b) _ _ N _) E). intros m b' Q. injection Q as _ <-. reflexivity.
Qed.
Lemma release_keeps s xs s' : release s xs = Ok s' -> keeps every s s'.
Proof. apply drop_keeps. Qed.
Lemma give_keeps s r s' : give_up s r = Ok s' -> keeps every s s'.
Proof. destruct r as [x|]; cbn [give_up step]; [|intros E; injection E as <-; apply keeps_refl]. intros E. exact (release_keeps _ _ _ E). Qed.
Lemma body_keeps s a b s' : set_body s a b = Ok s' -> keeps (other a) s s' /\ exists n, nth_error (cells s') a = Some (Live n b).
Proof.
  unfold set_body. destruct (nth_error (cells s) a) as [[n b0|]|] eqn:N; try discriminate. intros E. injection E as <-. split; [|exists n; exact (set_cell_same _ _ _ _ N)].
  intros y m c Y Ny. rewrite set_cell_other in Ny by (intros Z; apply Y; congruence). eauto.
Qed.
Lemma lt_every a s s' : keeps every s s' -> keeps (lt a) s s'.
Proof. apply keeps_weak. intros. exact Logic.I. Qed.

Lemma other_every a s s' : keeps every s s' -> keeps (other a) s s'.
Proof. apply keeps_weak. intros. exact Logic.I. Qed.
Lemma lt_other a s s' : keeps (other a) s s' -> keeps (lt a) s s'.
Proof. apply keeps_weak. intros y Y. unfold other. lia. Qed.
(** ** What stands for a value stays so *)
Lemma mono s s' : below s s' -> forall v r, stands_for s v r -> stands_for s' v r.
Proof.
  intros B. assert (C: forall x n b, nth_error (cells s) x = Some (Live n b) -> nth_error (cells s') x = Some (Live n b)) by (intros x n b N; rewrite B; [exact N|exact (nth_len _ _ _ N)]).
  assert (Lf: forall x, leaf s x -> leaf s' x) by (intros x (n & N); exists n; apply C, N).
  induction v as [ | | | | |l F|l F] using JSON_Write.json_induction; intros r H; cbn [stands_for] in *; try exact H; try (destruct H as (x & R & X); exists x; split; [exact R|apply Lf, X]).
  - destruct H as (x & n & rs & R & N & A). exists x, n, rs. split; [exact R|]. split; [apply C, N|]. clear R N. revert rs A. induction F as [|v l Hv F IH]; intros [|q rs] A; try exact A. destruct A as (A1 & A2). split; [apply Hv, A1|apply IH, A2].
  - destruct H as (x & n & es & R & N & A). exists x, n, es. split; [exact R|]. split; [apply C, N|]. clear R N. revert es A. induction F as [|(k, v) l Hv F IH]; intros [|(kx, q) es] A; try exact A. destruct A as (A0 & A1 & A2). split; [apply Lf, A0|]. split; [apply Hv, A1|apply IH, A2].
Qed.
Lemma members_live s x n b y : Inv s [] -> nth_error (cells s) x = Some (Live n b) -> In y (members b) -> exists m c, nth_error (cells s) y = Some (Live m c).
Proof.
  intros I N M. assert (C: In y (content s)) by (apply in_content; exists x, n, b; auto). apply cnt_in in C. destruct (inv_live s [] y I ltac:(lia)) as (m & d & E). eauto.
Qed.
Definition lives (s : state) (x : nat) : Prop := exists n b, nth_error (cells s) x = Some (Live n b).
Section Frame.
  Variable P : body -> Prop.
  Variable a : nat.
  Variable s s' : state.
  Hypothesis I : Inv s' [].
  Hypothesis U : up P a s'.
  Hypothesis K : keeps (lt a) s s'.
  Lemma leaf_frame x : leaf s x -> a < x -> lives s' x -> leaf s' x.
  Proof. intros (n & N) X (m & b & M). destruct (K x m b X M) as (m' & M'). rewrite N in M'. injection M' as _ <-. exists m. exact M. Qed.
  Lemma cell_frame x n b : nth_error (cells s) x = Some (Live n b) -> a < x -> lives s' x -> exists m, nth_error (cells s') x = Some (Live m b) /\ Forall (fun y => a < y /\ lives s' y) (members b).
  Proof.
    intros N X (m & c & M). destruct (K x m c X M) as (m' & M'). rewrite N in M'. injection M' as _ <-. exists m. split; [exact M|].
    apply Forall_forall. intros y Y. split; [|exact (members_live s' x m b y I M Y)]. destruct (U x m b ltac:(lia) M) as (F & _). rewrite Forall_forall in F. specialize (F y Y). lia.
  Qed.
  Notation fine := (ref_in (fun y => a < y /\ lives s' y)).
  Lemma frame : forall v r, stands_for s v r -> fine r -> stands_for s' v r.
  Proof.
    induction v as [ | | | | |l F|l F] using JSON_Write.json_induction; intros r H Fr; cbn [stands_for] in *; try exact H; try (destruct H as (x & -> & X); exists x; split; [reflexivity|apply leaf_frame; [exact X|apply Fr|apply Fr]]).
    - destruct H as (x & n & rs & -> & N & A). destruct Fr as (X & Lx). destruct (cell_frame x n _ N X Lx) as (m & M & Fm). exists x, m, rs. split; [reflexivity|]. split; [exact M|]. clear N M. cbn [members] in Fm. revert rs A Fm. induction F as [|v l Hv F IH]; intros [|q rs] A Fm; try exact A. destruct A as (A1 & A2).
      change (q :: rs) with ([q] ++ rs) in Fm. rewrite somes_app in Fm. apply Forall_app in Fm. destruct Fm as (Fq & Fr). split; [apply Hv; [exact A1|apply refs_in, Fq]|apply IH; [exact A2|exact Fr]].
    - destruct H as (x & n & es & -> & N & A). destruct Fr as (X & Lx). destruct (cell_frame x n _ N X Lx) as (m & M & Fm). exists x, m, es. split; [reflexivity|]. split; [exact M|]. clear N M. cbn [members] in Fm. apply entries_forall in Fm. revert es A Fm. induction F as [|(k, v) l Hv F IH]; intros [|(kx, q) es] A Fm; try exact A. destruct A as (A0 & A1 & A2).
      inversion Fm as [|? ? ((Fk1 & Fk2) & Fq) Fm']; subst. split; [apply leaf_frame; assumption|]. split; [apply Hv; [exact A1|exact Fq]|apply IH; [exact A2|exact Fm']].
  Qed.
  Lemma all_frame l : forall rs, all_for s l rs -> Forall fine rs -> all_for s' l rs.
  Proof. induction l as [|v l IH]; intros [|r rs] A F; try exact A. destruct A as (A1 & A2). inversion F; subst. split; [apply frame; assumption|apply IH; assumption]. Qed.
End Frame.

(** ** Collections that are being read *)
Definition arr_for (base s : state) (l : list json) : Prop := exists n rs, nth_error (cells s) (next base) = Some (Live n (Arr rs)) /\ all_for s l rs.
(** An entry: its key has the text of the entry. *)
Definition entry_for (s : state) (ks : list (nat * list N)) (p : list N * json) (e : nat * ref) : Prop := text_of ks (fst e) = Some (fst p) /\ leaf s (fst e) /\ stands_for s (snd p) (snd e).
Definition hash_for (base s : state) (ks : list (nat * list N)) (l : list (list N * json)) : Prop := exists n es, nth_error (cells s) (next base) = Some (Live n (Hash es)) /\ Forall2 (entry_for s ks) l es.

Lemma all_mono s s' l : below s s' -> forall rs, all_for s l rs -> all_for s' l rs.
Proof. intros B. induction l as [|v l IH]; intros [|r rs] A; try exact A. destruct A as (A1 & A2). split; [exact (mono s s' B _ _ A1)|apply IH, A2]. Qed.
Lemma leaf_mono s s' x : below s s' -> leaf s x -> leaf s' x.
Proof. intros B (n & N). exists n. rewrite B; [exact N|exact (nth_len _ _ _ N)]. Qed.
Lemma arr_mono base s s' l : below s s' -> next base < next s -> arr_for base s l -> arr_for base s' l.
Proof. intros B L (n & rs & N & A). exists n, rs. split; [rewrite B; [exact N|exact L]|exact (all_mono _ _ _ B _ A)]. Qed.
Lemma hash_mono base s s' ks l : below s s' -> next base < next s -> hash_for base s ks l -> hash_for base s' ks l.
Proof.
  intros B L (n & es & N & A). exists n, es. split; [rewrite B; [exact N|exact L]|]. clear N. induction A as [|p e l es (E1 & E2 & E3) A IH]; [constructor|]. constructor; [|exact IH].
  split; [exact E1|]. split; [exact (leaf_mono _ _ _ B E2)|exact (mono _ _ B _ _ E3)].
Qed.
(** What an own collection has is there. *)
Lemma own_members P base K s n b : inside P base K s -> nth_error (cells s) (next base) = Some (Live n b) -> Forall (fun y => next base < y /\ lives s y) (members b).
Proof.
  intros (I & L & B & U & H) N. apply Forall_forall. intros y Y. split; [|exact (members_live s _ n b y I N Y)]. destruct (U (next base) n b (Nat.le_refl _) N) as (F & _). rewrite Forall_forall in F. exact (F y Y).
Qed.
Lemma somes_forall (Q : nat -> Prop) rs : Forall Q (somes rs) <-> Forall (ref_in Q) rs.
Proof. induction rs as [|r rs IH]; [split; constructor|]. change (r :: rs) with ([r] ++ rs) at 1. rewrite somes_app, Forall_app, refs_in, IH, Forall_cons_iff. reflexivity. Qed.
(** A collection whose body stays. *)
Lemma arr_stays base K K' s s' l : inside is_arr base K s -> inside is_arr base K' s' -> keeps every s s' -> arr_for base s l -> arr_for base s' l.
Proof.
  intros D D' Ke (n & rs & N & A). destruct (kind_of _ _ _ _ D') as (m & b & M & _). destruct (Ke _ m b Logic.I M) as (m' & M'). rewrite N in M'. injection M' as _ <-. exists m, rs. split; [exact M|].
  pose proof (own_members _ _ _ _ _ _ D' M) as F. cbn [members] in F. apply somes_forall in F. destruct D' as (I' & _ & _ & U' & _). exact (all_frame is_arr (next base) s s' I' U' (lt_every _ _ _ Ke) l rs A F).
Qed.
Lemma entries_frame P a s s' ks l es : Inv s' [] -> up P a s' -> keeps (lt a) s s' -> Forall2 (entry_for s ks) l es -> Forall (fun y => a < y /\ lives s' y) (of_entries es) -> Forall2 (entry_for s' ks) l es.
Proof.
  intros I U Ke A F. apply entries_forall in F. induction A as [|p e l es (E1 & E2 & E3) A IH]; [constructor|]. inversion F as [|? ? ((Fk1 & Fk2) & Fq) Fm']; subst. constructor; [|exact (IH Fm')].
  split; [exact E1|]. split; [exact (leaf_frame a s s' Ke _ E2 Fk1 Fk2)|exact (frame P a s s' I U Ke _ _ E3 Fq)].
Qed.
Lemma hash_stays base K K' s s' ks l : inside is_hash base K s -> inside is_hash base K' s' -> keeps every s s' -> hash_for base s ks l -> hash_for base s' ks l.
Proof.
  intros D D' Ke (n & es & N & A). destruct (kind_of _ _ _ _ D') as (m & b & M & _). destruct (Ke _ m b Logic.I M) as (m' & M'). rewrite N in M'. injection M' as _ <-. exists m, es. split; [exact M|].
  pose proof (own_members _ _ _ _ _ _ D' M) as F. cbn [members] in F. destruct D' as (I' & _ & _ & U' & _). exact (entries_frame is_hash (next base) s s' ks l es I' U' (lt_every _ _ _ Ke) A F).
Qed.
(** A value is added to an array. *)
Lemma append_cells s a n l x s' : nth_error (cells s) a = Some (Live n (Arr l)) -> append s a x = Ok s' -> keeps (other a) s s' /\ exists m, nth_error (cells s') a = Some (Live m (Arr (l ++ [x]))).
Proof.
  intros N E. unfold append in E. unfold list_of, body_of in E. rewrite N in E. cbn [obind] in E. change (splice s a (length l) 0 (@cons Own_Model.ref x nil) = Ok s') in E. rewrite (splice_end s a l x n N) in E. apply bind_ok in E. destruct E as (s1 & R & E). apply bind_ok in E. destruct E as (l1 & _ & E).
  pose proof (retain_keeps _ _ _ R) as K1. rewrite Nat.add_0_r, firstn_all, skipn_all, app_nil_r in E. unfold set_list in E. apply bind_ok in E. destruct E as (b & B & E). unfold body_of in B.
  destruct (nth_error (cells s1) a) as [[m b1|]|] eqn:N1; try discriminate. injection B as ->. destruct (K1 a m b Logic.I N1) as (m' & M'). rewrite N in M'. injection M' as _ <-.
  destruct (body_keeps _ _ _ _ E) as (K2 & Q). split; [exact (keeps_trans _ _ _ _ (other_every _ _ _ K1) K2)|exact Q].
Qed.
Lemma all_snoc s l : forall rs v r, all_for s l rs -> stands_for s v r -> all_for s (l ++ [v]) (rs ++ [r]).
Proof. induction l as [|w l IH]; intros [|q rs] v r A H; try contradiction; [split; [exact H|exact Logic.I]|]. destruct A as (A1 & A2). split; [exact A1|exact (IH rs v r A2 H)]. Qed.
Lemma append_for base K K' s s' l v x : inside is_arr base K s -> inside is_arr base K' s' -> append s (next base) x = Ok s' -> arr_for base s l -> stands_for s v x -> arr_for base s' (l ++ [v]).
Proof.
  intros D D' E (n & rs & N & A) H. destruct (append_cells _ _ _ _ _ _ N E) as (Ke0 & m & M). pose proof (lt_other _ _ _ Ke0) as Ke. exists m, (rs ++ [x]). split; [exact M|].
  pose proof (own_members _ _ _ _ _ _ D' M) as F. cbn [members] in F. apply somes_forall, Forall_app in F. destruct F as (F1 & F2). inversion F2 as [|? ? F3 _]; subst. destruct D' as (I' & _ & _ & U' & _).
  apply all_snoc; [exact (all_frame is_arr (next base) s s' I' U' Ke l rs A F1)|exact (frame is_arr (next base) s s' I' U' Ke v x H F3)].
Qed.
(** A value is entered in a hash table. *)
Definition entered (keq : nat -> nat -> bool) (es : list (nat * ref)) (k : nat) (v : ref) : list (nat * ref) := match find_key keq es k with Some _ => set_key keq es k v | None => es ++ [(k, v)] end.
Lemma set_same keq es k k' v : find_key keq es k = Some (k', v) -> set_key keq es k v = es.
Proof. induction es as [|(y, w) es IH]; cbn [find_key set_key fst]; [discriminate|]. destruct (keq y k); intros E; [injection E as <- ->; reflexivity|rewrite (IH E); reflexivity]. Qed.
Lemma same_eq r r' : same r r' = true -> r = r'.
Proof. destruct r as [x|], r' as [y|]; cbn; try discriminate; try reflexivity. intros E. apply Nat.eqb_eq in E. congruence. Qed.
Lemma put_cells keq s a n es k v s' : nth_error (cells s) a = Some (Live n (Hash es)) -> lives s' a -> put keq s a k v HashTable_Model.InsertAlways = Ok s' ->
  keeps (other a) s s' /\ exists m, nth_error (cells s') a = Some (Live m (Hash (entered keq es k v))).
Proof.
  intros N Lv E. unfold put, body_of in E. rewrite N in E. cbn [obind] in E. unfold hash_put in E. apply bind_ok in E. destruct E as (s1 & E1 & E). pose proof (retain_keeps _ _ _ E1) as K1. apply bind_ok in E. destruct E as (s2 & E2 & E3). pose proof (release_keeps _ _ _ E3) as K3.
  assert (G: keeps (other a) s1 s2 /\ forall m b, nth_error (cells s2) a = Some (Live m b) -> b = Hash (entered keq es k v)).
  { unfold entered. destruct (find_key keq es k) as [(k', old)|] eqn:Fk.
    - cbv beta iota in E2. destruct (same old v) eqn:Sm.
      + injection E2 as <-. split; [apply keeps_refl|]. intros m b M. destruct (K1 a m b Logic.I M) as (m' & M'). rewrite N in M'. injection M' as _ <-. apply same_eq in Sm. subst old. rewrite (set_same _ _ _ _ _ Fk). reflexivity.
      + apply bind_ok in E2. destruct E2 as (s3 & Q3 & E2). apply bind_ok in E2. destruct E2 as (s4 & Q4 & E2). apply bind_ok in E2. destruct E2 as (s5 & Q5 & Q6).
        destruct (body_keeps _ _ _ _ Q3) as (J3 & _). destruct (body_keeps _ _ _ _ Q6) as (J6 & m6 & M6). pose proof (other_every a _ _ (release_keeps _ _ _ Q4)) as J4. pose proof (other_every a _ _ (retain_keeps _ _ _ Q5)) as J5.
        split; [exact (keeps_trans _ _ _ _ J3 (keeps_trans _ _ _ _ J4 (keeps_trans _ _ _ _ J5 J6)))|]. intros m b M. rewrite M6 in M. injection M as _ <-. reflexivity.
    - cbv beta iota in E2. apply bind_ok in E2. destruct E2 as (s3 & Q3 & E2). apply bind_ok in E2. destruct E2 as (s4 & Q4 & Q5). destruct (body_keeps _ _ _ _ Q5) as (J5 & m5 & M5). pose proof (other_every a _ _ (retain_keeps _ _ _ Q3)) as J3. pose proof (other_every a _ _ (retain_keeps _ _ _ Q4)) as J4.
      split; [exact (keeps_trans _ _ _ _ J3 (keeps_trans _ _ _ _ J4 J5))|]. intros m b M. rewrite M5 in M. injection M as _ <-. reflexivity. }
  destruct G as (K2 & G). split; [exact (keeps_trans _ _ _ _ (other_every _ _ _ K1) (keeps_trans _ _ _ _ K2 (other_every _ _ _ K3)))|]. destruct Lv as (m & b & M). destruct (K3 a m b Logic.I M) as (m' & M'). rewrite (G _ _ M') in M. exists m. exact M.
Qed.
(** The entry with an equal key is the one of dict_set. *)
Lemma same_bytes_sym a : forall b, same_bytes a b = same_bytes b a.
Proof. induction a as [|x a IH]; intros [|y b]; cbn [same_bytes]; try reflexivity. rewrite N.eqb_sym, IH. reflexivity. Qed.
Lemma entered_for (R : list N * json -> nat * ref -> Prop) ks c k v x l es : text_of ks c = Some k ->
  Forall2 (fun p e => text_of ks (fst e) = Some (fst p)) l es -> Forall2 R l es -> (forall p e, R p e -> text_of ks (fst e) = Some (fst p) -> R (fst p, v) (fst e, x)) -> R (k, v) (c, x) ->
  Forall2 R (dict_set l k v) (entered (key_eq ks) es c x).
Proof.
  intros C T F Rep New. unfold entered. induction F as [|(k1, v1) (y, w) l es H F IH].
  - cbn. constructor; [exact New|constructor].
  - inversion T as [|? ? ? ? T1 T2]; subst. cbn [fst] in T1. cbn [dict_set find_key set_key fst]. assert (Kq: key_eq ks y c = same_bytes k k1) by (unfold key_eq; rewrite T1, C; apply same_bytes_sym). rewrite Kq.
    destruct (same_bytes k k1) eqn:Sb; [constructor; [exact (Rep _ _ H T1)|exact F]|]. specialize (IH T2). destruct (find_key (key_eq ks) es c); [constructor; assumption|]. cbn [app]. constructor; assumption.
Qed.
Lemma text_fresh ks c k y : y <> c -> text_of ((c, k) :: ks) y = text_of ks y.
Proof. intros D. cbn [text_of]. destruct (Nat.eqb_spec y c); [congruence|reflexivity]. Qed.
Lemma enter_for base K K' s s' ks ks' l k v x : inside is_hash base K s -> inside is_hash base K' s' -> enter s (next base) ks k x = Ok (s', ks') -> hash_for base s ks l -> stands_for s v x -> hash_for base s' ks' (dict_set l k v).
Proof.
  intros D D' E Hf H. unfold enter in E. apply bind_ok in E. destruct E as (s1 & E1 & E). apply bind_ok in E. destruct E as (s2 & E2 & E). injection E as -> <-. pose proof (give_keeps _ _ _ E2) as K2. pose proof D as (I & L & _).
  destruct (make_ok Leaf s eq_refl I) as (I0 & L0 & B0 & H0 & N0). destruct (hash_mono base s _ ks l B0 L Hf) as (n & es & N & A).
  destruct (kind_of _ _ _ _ D') as (m & b & M & _). destruct (K2 _ m b Logic.I M) as (m1 & M1).
  destruct (put_cells _ _ _ _ _ _ _ _ N (ex_intro _ m1 (ex_intro _ b M1)) E1) as (K1o & m1' & M1'). pose proof (lt_other _ _ _ K1o) as K1. rewrite M1' in M1. injection M1 as _ <-. eexists m, _. split; [exact M|].
  assert (Tx: Forall2 (entry_for (make s Leaf) ((next s, k) :: ks)) l es).
  { destruct Hf as (n0 & es0 & N0' & A0). assert (es0 = es) by (rewrite B0 in N by exact L; rewrite N in N0'; congruence). subst es0. clear - A A0. revert A. induction A0 as [|p e l es (_ & (q & Q) & _) A0 IH]; intros A; [constructor|].
    inversion A as [|? ? ? ? (T1 & T2 & T3) A']; subst. constructor; [|exact (IH A')]. split; [|split; assumption]. rewrite text_fresh; [exact T1|]. apply nth_len in Q. unfold next. lia. }
  pose proof (own_members _ _ _ _ _ _ D' M) as F. cbn [members] in F. destruct D' as (I' & _ & _ & U' & _).
  apply (entries_frame is_hash (next base) (make s Leaf) s' _ _ _ I' U') with (3 := F); [exact (keeps_trans _ _ _ _ K1 (lt_every _ _ _ K2))|].
  apply entered_for; [cbn [text_of]; rewrite Nat.eqb_refl; reflexivity| |exact Tx| |].
  - clear - Tx. induction Tx as [|p e l es (T1 & _) A IH]; [constructor|]. constructor; [exact T1|exact IH].
  - intros p e (T1 & T2 & _) _. split; [exact T1|]. split; [exact T2|]. exact (mono s _ B0 v x H).
  - split; [cbn [text_of fst]; rewrite Nat.eqb_refl; reflexivity|]. split; [exists 1; exact N0|exact (mono s _ B0 v x H)].
Qed.
(** What comes with a token is a string, a vector or a number. *)
Definition plain (v : json) : Prop := match v with JNum _ | JStr _ | JVec _ _ => True | _ => False end.
Lemma token_plain : forall f,
  (forall vec want cur t v c, scan_token f vec want cur = Ok (t, Some v, c) -> plain v) /\
  (forall vec want cur dbl buf v c, scan_vector f vec want cur dbl buf = Ok (Some v, c) -> plain v).
Proof.
  induction f as [|f (IHt & IHv)]; [split; intros; discriminate|]. split.
  - intros vec want cur t v c E. cbn [scan_token] in E. apply bind_ok in E. destruct E as (((ch, n), s) & Es & E).
    destruct (Nat.eqb_spec n 0) as [->|N0]; [discriminate|]. destruct (ch =? 34)%Z.
    + apply bind_ok in E. destruct E as ((len, b) & Ess & E). destruct want; [|discriminate E]. assert (V: v = JStr b) by congruence. rewrite V. exact Logic.I.
    + destruct ((ch =? 35)%Z && vec).
      * apply bind_ok in E. destruct E as ((c1, m) & _ & E). cbn [fst snd] in E. destruct (c1 =? 91)%Z; [|discriminate].
        apply bind_ok in E. destruct E as ((o, c2) & Ev & E). injection E as _ -> _. exact (IHv _ _ _ _ _ _ _ Ev).
      * apply bind_ok in E. destruct E as (b & _ & E). destruct (special (Z.of_N b)); [discriminate|].
        apply bind_ok in E. destruct E as (len & _ & E). discriminate.
  - intros vec want cur dbl buf v c E. cbn [scan_vector] in E. apply bind_ok in E. destruct E as (((t, o), c1) & E1 & E). apply bind_ok in E. destruct E as (b & _ & E). apply bind_ok in E. destruct E as (g & _ & E). destruct g; [|discriminate].
    apply bind_ok in E. destruct E as (x & _ & E). apply bind_ok in E. destruct E as (((t2, o2), c2) & E2 & E). apply bind_ok in E. destruct E as (b2 & _ & E).
    destruct (b2 =? 44)%N; [exact (IHv _ _ _ _ _ _ _ E)|]. destruct (b2 =? 93)%N; [|discriminate]. destruct want; [|discriminate]. injection E as <- _. unfold new_vector. repeat match goal with |- context [match ?y with _ => _ end] => destruct y end; exact Logic.I.
Qed.
Lemma plain_leaf s v : plain v -> stands_for (make s Leaf) v (Some (next s)).
Proof.
  intros P. assert (Lf: leaf (make s Leaf) (next s)) by (exists 1; unfold make, add, next; cbn [cells]; rewrite nth_error_app2, Nat.sub_diag by lia; reflexivity).
  destruct v; try contradiction; cbn [stands_for]; eauto.
Qed.
Lemma new_arr s : arr_for s (make s (Arr [])) [].
Proof. exists 1, []. split; [|exact Logic.I]. unfold make, add, next. cbn [cells]. rewrite nth_error_app2, Nat.sub_diag by lia. reflexivity. Qed.
Lemma new_hash s : hash_for s (make s (Hash [])) [] [].
Proof. exists 1, []. split; [|constructor]. unfold make, add, next. cbn [cells]. rewrite nth_error_app2, Nat.sub_diag by lia. reflexivity. Qed.
Lemma arr_done base s l : arr_for base s l -> stands_for s (JArr l) (Some (next base)).
Proof. intros (n & rs & N & A). exists (next base), n, rs. auto. Qed.
Lemma hash_done base s ks l : hash_for base s ks l -> stands_for s (JObj l) (Some (next base)).
Proof.
  intros (n & es & N & A). exists (next base), n, es. split; [reflexivity|]. split; [exact N|]. clear N. induction A as [|(k, v) (y, w) l es (_ & T2 & T3) A IH]; [exact Logic.I|]. split; [exact T2|]. split; [exact T3|exact IH].
Qed.
Definition shape (q : result) (s : state) : Prop := match q with RVal v r => stands_for s v r | _ => True end.
Lemma fail_shape s a b d c q c' s' : fail s a b d c = Ok (q, c', s') -> shape q s'.
Proof. unfold fail. intros E. apply bind_ok in E. destruct E as (s1 & _ & E). apply bind_ok in E. destruct E as (s2 & _ & E). apply bind_ok in E. destruct E as (s3 & _ & E). injection E as <- _ _. exact Logic.I. Qed.

Lemma shapes : forall fuel,
  (forall vec cur s p c q c' s', Inv s [] -> parse_object fuel vec cur = Ok (p, c) -> parse fuel vec cur s = Ok (q, c', s') -> shape q s') /\
  (forall vec cur s l p c base q c' s', Inv base [] -> inside is_arr base [] s -> arr_for base s l -> array_loop fuel vec cur l = Ok (p, c) -> array fuel vec cur s (next base) l = Ok (q, c', s') -> shape q s') /\
  (forall vec cur s ks l p c base q c' s', Inv base [] -> inside is_hash base [] s -> hash_for base s ks l -> object_loop fuel vec cur l = Ok (p, c) -> object fuel vec cur s (next base) ks l = Ok (q, c', s') -> shape q s').
Proof.
  induction fuel as [|f (IHp & IHa & IHo)]; [repeat split; intros; discriminate|]. split; [|split].
  - intros vec cur s p c q c' s' I E R. cbn [parse_object parse] in *. destruct (scan_token (S (length cur)) vec true cur) as [((t, obj), c1)| | |] eqn:Et; try discriminate. cbn [obind] in *.
    destruct (Z.eqb_spec (tlen t) 0) as [Z|NZ]; [injection R as <- _ _; exact Logic.I|].
    destruct (rd (tstr t) 0) as [ch| | |]; try discriminate. cbn [obind] in *. destruct obj as [v|].
    { injection R as <- _ <-. apply plain_leaf. exact (proj1 (token_plain _) _ _ _ _ _ _ Et). }
    destruct (ch =? 91)%N. { exact (IHa vec c1 (make s (Arr [])) [] p c s q c' s' I (make_inside is_arr (Arr []) s eq_refl (ex_intro _ [] eq_refl) I) (new_arr s) E R). }
    destruct (ch =? 93)%N. { injection R as <- _ _. exact Logic.I. }
    destruct (ch =? 123)%N. { exact (IHo vec c1 (make s (Hash [])) [] [] p c s q c' s' I (make_inside is_hash (Hash []) s eq_refl (ex_intro _ [] eq_refl) I) (new_hash s) E R). }
    destruct (ch =? 125)%N. { injection R as <- _ _. exact Logic.I. }
    destruct (if (ch =? 45)%N then Ok true else is_digit ch) as [g| | |]; try discriminate. cbn [obind] in *. destruct g.
    { destruct (strtonum (tstr t)) as [x| | |]; try discriminate. cbn [obind] in *. injection R as <- _ <-. exists (next s). split; [reflexivity|]. exists 1. unfold make, add, next. cbn [cells]. rewrite nth_error_app2, Nat.sub_diag by lia. reflexivity. }
    destruct (starts (tstr t) [116; 114; 117; 101]%N) as [b1| | |]; try discriminate. cbn [obind] in *. destruct b1; [injection R as <- _ _; reflexivity|].
    destruct (starts (tstr t) [102; 97; 108; 115; 101]%N) as [b2| | |]; try discriminate. cbn [obind] in *. destruct b2; [injection R as <- _ _; reflexivity|].
    destruct (starts (tstr t) [110; 117; 108; 108]%N) as [b3| | |]; try discriminate. cbn [obind] in *. destruct b3; [injection R as <- _ _; reflexivity|].
    exact (fail_shape _ _ _ _ _ _ _ _ R).
  - intros vec cur s l p c base q c' s' IB D A E R. cbn [array_loop array] in *. destruct (parse_object f vec cur) as [(p1, c1)| | |] eqn:E1; try discriminate. cbn [obind] in *.
    destruct (proj1 (parser f) vec cur s p1 c1 (proj1 D) E1) as (q1 & s1 & Q1 & A1 & G1). rewrite Q1 in R. cbn [obind] in R. pose proof (IHp vec cur s p1 c1 q1 c1 s1 (proj1 D) E1 Q1) as S1. destruct (inner _ _ _ _ _ _ D G1) as (D1 & R1). cbn [app] in D1.
    assert (A': arr_for base s1 l) by (apply (arr_mono base s s1 l (proj1 (proj2 (proj2 G1)))); [apply D|exact A]).
    destruct p1 as [v|b|], q1 as [v' x|b'|]; try contradiction.
    + destruct A1 as (-> & _). cbn [refs shape] in *. destruct (append_step base x s1 IB R1 D1) as (s2 & E2 & D2). rewrite E2 in R. cbn [obind] in R. pose proof (append_for _ _ _ _ _ _ _ _ D1 D2 E2 A' S1) as A2. assert (D2': inside is_arr base (somes [x] ++ []) s2) by (rewrite app_nil_r; exact D2). destruct (give_ok is_arr base x [] s2 IB R1 D2') as (s3 & E3 & D3). rewrite E3 in R. cbn [obind] in R.
      pose proof (arr_stays _ _ _ _ _ _ D2 D3 (give_keeps _ _ _ E3) A2) as A3.
      destruct (scan_token (S (length c1)) vec false c1) as [((t, o), c2)| | |]; try discriminate. cbn [obind] in *. destruct (rd (tstr t) 0) as [ch| | |]; try discriminate. cbn [obind] in *.
      destruct (ch =? 93)%N. { injection R as <- _ <-. exact (arr_done base s3 _ A3). }
      destruct (ch =? 44)%N; [exact (IHa vec c2 s3 (l ++ [v]) p c base q c' s' IB D3 A3 E R)|]. exact (fail_shape _ _ _ _ _ _ _ _ R).
    + cbn in A1. subst b'. destruct (b =? 93)%N; [injection R as <- _ <-; exact (arr_done base s1 _ A')|exact (fail_shape _ _ _ _ _ _ _ _ R)].
    + exact (fail_shape _ _ _ _ _ _ _ _ R).
  - intros vec cur s ks l p c base q c' s' IB D A E R. cbn [object_loop object] in *. destruct (parse_object f vec cur) as [(p1, c1)| | |] eqn:E1; try discriminate. cbn [obind] in *.
    destruct (proj1 (parser f) vec cur s p1 c1 (proj1 D) E1) as (q1 & s1 & Q1 & A1 & G1). rewrite Q1 in R. cbn [obind] in R. destruct (inner _ _ _ _ _ _ D G1) as (D1 & R1). cbn [app] in D1.
    assert (A': hash_for base s1 ks l) by (apply (hash_mono base s s1 ks l (proj1 (proj2 (proj2 G1)))); [apply D|exact A]).
    destruct p1 as [v|b|], q1 as [v' key|b'|]; try contradiction.
    + destruct A1 as (-> & _). cbn [refs] in *. destruct v as [ | | | |k| | ]; try exact (fail_shape _ _ _ _ _ _ _ _ R).
      destruct (scan_token (S (length c1)) vec false c1) as [((t, o), c2)| | |]; try discriminate. cbn [obind] in *. destruct (rd (tstr t) 0) as [ch| | |]; try discriminate. cbn [obind] in *.
      destruct (ch =? 58)%N; [|exact (fail_shape _ _ _ _ _ _ _ _ R)].
      destruct (parse_object f vec c2) as [(p2, c3)| | |] eqn:E2; try discriminate. cbn [obind] in *. destruct (proj1 (parser f) vec c2 s1 p2 c3 (proj1 D1) E2) as (q2 & s2 & Q2 & A2 & G2). rewrite Q2 in R. cbn [obind] in R. pose proof (IHp vec c2 s1 p2 c3 q2 c3 s2 (proj1 D1) E2 Q2) as S2. destruct (inner _ _ _ _ _ _ D1 G2) as (D2 & R2).
      assert (A'': hash_for base s2 ks l) by (apply (hash_mono base s1 s2 ks l (proj1 (proj2 (proj2 G2)))); [apply D1|exact A']).
      destruct p2 as [v|b|], q2 as [v' x|b'|]; try contradiction; try exact (fail_shape _ _ _ _ _ _ _ _ R).
      destruct A2 as (-> & _). cbn [refs shape] in *. destruct (enter_step base ks k key x s2 IB R2 D2) as (s3 & ks' & E3 & D3). rewrite E3 in R. cbn [obind] in R. pose proof (enter_for _ _ _ _ _ _ _ _ _ _ _ D2 D3 E3 A'' S2) as A3.
      destruct (give_ok is_hash base key (somes [x]) s3 IB R1 D3) as (s4 & E4 & D4). rewrite E4 in R. cbn [obind] in R. pose proof (hash_stays _ _ _ _ _ _ _ D3 D4 (give_keeps _ _ _ E4) A3) as A4.
      assert (D4': inside is_hash base (somes [x] ++ []) s4) by (rewrite app_nil_r; exact D4). destruct (give_ok is_hash base x [] s4 IB R2 D4') as (s5 & E5 & D5). rewrite E5 in R. cbn [obind] in R. pose proof (hash_stays _ _ _ _ _ _ _ D4 D5 (give_keeps _ _ _ E5) A4) as A5.
      destruct (scan_token (S (length c3)) vec false c3) as [((t2, o2), c4)| | |]; try discriminate. cbn [obind] in *. destruct (rd (tstr t2) 0) as [ch2| | |]; try discriminate. cbn [obind] in *.
      destruct (ch2 =? 125)%N. { injection R as <- _ <-. exact (hash_done base s5 _ _ A5). }
      destruct (ch2 =? 44)%N; [exact (IHo vec c4 s5 ks' _ p c base q c' s' IB D5 A5 E R)|]. exact (fail_shape _ _ _ _ _ _ _ _ R).
    + cbn in A1. subst b'. destruct (b =? 125)%N; [injection R as <- _ <-; exact (hash_done base s1 _ _ A')|exact (fail_shape _ _ _ _ _ _ _ _ R)].
    + exact (fail_shape _ _ _ _ _ _ _ _ R).
Qed.
Lemma stands vec text base v r s : Inv base [] -> JSON_Model.json_parse vec text = Ok v -> Parsed_Model.json_parse vec text base = Ok (v, r, s) -> stands_for s v r.
Proof.
  intros I E R. unfold JSON_Model.json_parse in E. apply bind_ok in E. destruct E as ((p, c) & E & V). unfold Parsed_Model.json_parse in R. apply bind_ok in R. destruct R as (((q, c'), s') & R & W). pose proof (proj1 (shapes _) vec _ base p c q c' s' I E R) as H.
  destruct q as [w x|b|]; injection W as <- <- <-; [exact H|reflexivity|reflexivity].
Qed.
