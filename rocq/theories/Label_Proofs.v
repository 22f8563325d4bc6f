(** Proofs about descriptions of encodings. *)
Require Import Coq.Strings.String Coq.ZArith.ZArith Coq.NArith.NArith Coq.Lists.List Coq.Bool.Bool Coq.micromega.Lia.
Require Import Verif.Encoding_Model Verif.Encoding_Proofs Verif.Label_Model Verif.Label_Spec.
Require Verif.Describe_Model Verif.Strtonum_Model Verif.Strtonum_Spec Verif.Strtonum_Proofs.
Import ListNotations.
Local Open Scope N_scope.

(** Two texts, neither with a [c], before a [c] or the end. *)
Lemma part (c : N) : forall a b x y : list N, ~ In c a -> ~ In c b -> (x = [] \/ exists x', x = c :: x') -> (y = [] \/ exists y', y = c :: y') -> a ++ x = b ++ y -> a = b /\ x = y.
Proof.
  induction a as [|u a IH]; intros [|v b] x y A B X Y E; cbn [app] in E.
  - auto.
  - exfalso. destruct X as [->|(x' & ->)]; [discriminate|]. assert (v = c) by congruence. subst. apply B. left. reflexivity.
  - exfalso. destruct Y as [->|(y' & ->)]; [discriminate|]. assert (u = c) by congruence. subst. apply A. left. reflexivity.
  - assert (U: u = v) by congruence. assert (E': a ++ x = b ++ y) by congruence. destruct (IH b x y) as (-> & ->); auto; [intros I; apply A; right; exact I|intros I; apply B; right; exact I|]. subst. auto.
Qed.
Lemma nums n : n < 2 ^ 24 -> exists ds, Strtonum_Model.print_int (Z.of_N n) = ds /\ ~ In 93 ds /\ Strtonum_Spec.value ds = Z.of_N n.
Proof.
  intros L. change (2 ^ 24) with 16777216 in L. unfold Strtonum_Model.print_int. destruct (Z.ltb_spec (Z.of_N n) 0) as [B|_]; [lia|]. rewrite N2Z.id.
  destruct (Strtonum_Proofs.print_ok 20 n []) as (ds & E & F & V & _); [change (N.of_nat 20) with 20; change (10 ^ 20) with 100000000000000000000; lia|lia|].
  exists ds. rewrite E, app_nil_r. split; [reflexivity|]. split; [|exact V]. intros I. rewrite Forall_forall in F. specialize (F _ I). unfold Strtonum_Spec.digit in F. lia.
Qed.
Lemma index_inj a b x y : a < 2 ^ 24 -> b < 2 ^ 24 -> index a ++ x = index b ++ y -> a = b /\ x = y.
Proof.
  intros A B E. destruct (nums a A) as (da & Ea & Na & Va). destruct (nums b B) as (db & Eb & Nb & Vb). unfold index in E. rewrite Ea, Eb in E. cbn [app] in E. rewrite <- !app_assoc in E. cbn [app] in E.
  assert (E': da ++ 93 :: x = db ++ 93 :: y) by congruence. destruct (part 93 da db (93 :: x) (93 :: y) Na Nb) as (D & X); [right; eauto|right; eauto|exact E'|]. split; [|congruence]. apply N2Z.inj. congruence.
Qed.
Definition tail (e : N) : list N :=
  if is_matrix e then index (get_rows e) ++ index (get_cols e) else if get_count e =? 1 then [] else index (get_count e).
Lemma description_tail e : description e = type_name e ++ tail e.
Proof. unfold description, tail. destruct (is_matrix e); [reflexivity|]. destruct (get_count e =? 1); [rewrite app_nil_r|]; reflexivity. Qed.
Lemma tail_form e : tail e = [] \/ exists x, tail e = 91 :: x.
Proof. unfold tail. destruct (is_matrix e); [right; eexists; reflexivity|]. destruct (get_count e =? 1); [left|right; eexists]; reflexivity. Qed.
Definition name_of (t : N) : list N := Describe_Model.ascii (if (0 <? t) && (t <? 26) then nth (N.to_nat t) names ""%string else nth 0 names ""%string).
Definition no_bracket (l : list N) : bool := forallb (fun c => negb (c =? 91)) l.
Fixpoint same (a b : list N) : bool := match a, b with [], [] => true | x :: a, y :: b => (x =? y) && same a b | _, _ => false end.
Lemma same_refl a : same a a = true.
Proof. induction a; cbn [same]; [reflexivity|]. rewrite N.eqb_refl. exact IHa. Qed.
Lemma names_checked : forallb (fun t => no_bracket (name_of t) && forallb (fun u => implb (same (name_of t) (name_of u)) (t =? u)) public_types) public_types = true.
Proof. vm_compute. reflexivity. Qed.
Lemma name_ok t : In t public_types -> ~ In 91 (name_of t) /\ forall u, In u public_types -> name_of t = name_of u -> t = u.
Proof.
  intros I. pose proof names_checked as C. rewrite forallb_forall in C. specialize (C t I). apply andb_true_iff in C. destruct C as (B & C). split.
  - intros J. unfold no_bracket in B. rewrite forallb_forall in B. specialize (B _ J). discriminate.
  - intros u U E. rewrite forallb_forall in C. specialize (C u U). rewrite E, same_refl in C. cbn [implb] in C. apply N.eqb_eq in C. exact C.
Qed.
Lemma low_lt e k : N.land e (N.ones k) < 2 ^ k.
Proof. rewrite N.land_ones. apply N.mod_lt. apply N.pow_nonzero. discriminate. Qed.
Lemma count_lt e : N.land e max_count < 2 ^ 24. Proof. rewrite count_ones. apply low_lt. Qed.
Lemma twelve_lt e : N.land e max_cols < 2 ^ 24. Proof. rewrite cols_ones. eapply N.lt_trans; [apply low_lt|]. vm_compute. reflexivity. Qed.
Lemma low_bit a b k i : N.land a (N.ones k) = N.land b (N.ones k) -> i < k -> N.testbit a i = N.testbit b i.
Proof. intros E L. assert (H: N.testbit (N.land a (N.ones k)) i = N.testbit (N.land b (N.ones k)) i) by congruence. rewrite !N.land_spec, ones_bit in H. rewrite (proj2 (N.ltb_lt i k) L), !andb_true_r in H. exact H. Qed.
Lemma type_bit e i : 24 <= i < 31 -> N.testbit e i = N.testbit (get_type e) (i - 24).
Proof.
  intros L. unfold get_type. rewrite N.shiftr_spec by lia. replace (i - 24 + 24) with i by lia. rewrite N.land_spec, type_bits_ones, shiftl_bit, ones_bit.
  replace (24 <=? i) with true by (symmetry; apply N.leb_le; lia). replace (i - 24 <? 7) with true by (symmetry; apply N.ltb_lt; lia). rewrite !andb_true_r. reflexivity.
Qed.
(** A word from its parts. *)
Lemma word a b : a < 2 ^ 32 -> b < 2 ^ 32 -> is_matrix a = is_matrix b -> get_type a = get_type b -> (forall i, i < 24 -> N.testbit a i = N.testbit b i) -> a = b.
Proof.
  intros A B M T L. apply N.bits_inj. intros i. rewrite !is_matrix_bit in M.
  destruct (N.lt_ge_cases i 24) as [I|I]; [apply L; exact I|]. destruct (N.lt_ge_cases i 31) as [J|J]; [rewrite (type_bit a i), (type_bit b i) by lia; rewrite T; reflexivity|].
  destruct (N.eq_dec i 31) as [->|K]; [exact M|]. rewrite (bits_high a 32 i), (bits_high b 32 i); auto; lia.
Qed.
Lemma tails a b : tail a = tail b -> is_matrix a = is_matrix b /\ forall i, i < 24 -> N.testbit a i = N.testbit b i.
Proof.
  pose proof (count_lt a) as Ca. pose proof (count_lt b) as Cb. pose proof (twelve_lt a) as Da. pose proof (twelve_lt b) as Db. pose proof (twelve_lt (N.shiftr a 12)) as Ra. pose proof (twelve_lt (N.shiftr b 12)) as Rb. change max_cols with max_rows in Ra, Rb.
  unfold tail, get_rows, get_cols, get_count. destruct (is_matrix a) eqn:Ma, (is_matrix b) eqn:Mb.
  - intros E. apply index_inj in E; [|exact Ra|exact Rb]. destruct E as (R & E). assert (C: index (N.land a max_cols) ++ [] = index (N.land b max_cols) ++ []) by congruence. apply index_inj in C; [|exact Da|exact Db]. destruct C as (C & _).
    split; [reflexivity|]. intros i L. rewrite rows_ones in R. rewrite cols_ones in C. destruct (N.lt_ge_cases i 12) as [I|I]; [exact (low_bit a b 12 i C I)|].
    pose proof (low_bit _ _ 12 (i - 12) R ltac:(lia)) as H. rewrite !N.shiftr_spec in H by lia. replace (i - 12 + 12) with i in H by lia. exact H.
  - intros E. exfalso. destruct (N.land b max_count =? 1); [discriminate|]. assert (E': index (N.land (N.shiftr a 12) max_rows) ++ index (N.land a max_cols) = index (N.land b max_count) ++ []) by (rewrite app_nil_r; exact E).
    apply index_inj in E'; [|exact Ra|exact Cb]. destruct E' as (_ & E'). discriminate.
  - intros E. exfalso. destruct (N.land a max_count =? 1); [discriminate|]. assert (E': index (N.land a max_count) ++ [] = index (N.land (N.shiftr b 12) max_rows) ++ index (N.land b max_cols)) by (rewrite app_nil_r; exact E).
    apply index_inj in E'; [|exact Ca|exact Rb]. destruct E' as (_ & E'). discriminate.
  - intros E. split; [reflexivity|]. assert (C: N.land a max_count = N.land b max_count).
    { destruct (N.eqb_spec (N.land a max_count) 1), (N.eqb_spec (N.land b max_count) 1); try congruence; try discriminate.
      assert (E': index (N.land a max_count) ++ [] = index (N.land b max_count) ++ []) by congruence. apply index_inj in E'; [apply E'|exact Ca|exact Cb]. }
    rewrite count_ones in C. intros i L. exact (low_bit a b 24 i C L).
Qed.
Lemma tells_apart a b : a < 2 ^ 32 -> b < 2 ^ 32 -> In (get_type a) public_types -> In (get_type b) public_types -> description a = description b -> a = b.
Proof.
  intros A B Pa Pb E. rewrite !description_tail in E. change (type_name a) with (name_of (get_type a)) in E. change (type_name b) with (name_of (get_type b)) in E.
  destruct (name_ok _ Pa) as (Na & U). destruct (name_ok _ Pb) as (Nb & _). destruct (part 91 _ _ _ _ Na Nb (tail_form a) (tail_form b) E) as (X & T).
  destruct (tails a b T) as (M & L). apply word; auto.
Qed.
