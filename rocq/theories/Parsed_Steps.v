(** Proofs about the objects that parsing JSON makes: the parser. *)
Require Import Coq.ZArith.ZArith Coq.NArith.NArith Coq.Lists.List Coq.Bool.Bool Coq.Arith.Arith Coq.micromega.Lia.
Require Import Verif.Base Verif.Utf8_Model Verif.Strtonum_Model Verif.JSON_Model Verif.Own_Model Verif.Own_Spec Verif.Own_Proofs Verif.Own_Calls Verif.Parsed_Model Verif.Parsed_Proofs.
Require Verif.HashTable_Model.
Import ListNotations.

Definition any (b : body) : Prop := True.
Definition refs (q : result) : list nat := match q with RVal _ r => somes [r] | _ => [] end.
Definition below (base s : state) : Prop := forall y, y < next base -> nth_error (cells s) y = nth_error (cells base) y.
(** After parsing: nothing that was there is changed, and the parser has one more reference, to a new object. *)
Definition good (base : state) (q : result) (s : state) : Prop :=
  Inv s [] /\ next base <= next s /\ below base s /\ up any (next base) s /\ hands s = hands base ++ refs q /\ Forall (le (next base)) (refs q).
Definition agree (p : pres) (q : result) : Prop :=
  match p, q with
  | PVal v, RVal v' r => v' = v /\ ((exists k, v = JStr k) -> exists x, r = Some x)
  | PClose b, RClose b' => b' = b
  | PFail, RFail => True
  | _, _ => False
  end.
(** While a collection is read: it was made first, and the parser has [K] besides. *)
Definition inside (P : body -> Prop) (base : state) (K : list nat) (s : state) : Prop :=
  Inv s [] /\ next base < next s /\ below base s /\ up P (next base) s /\ hands s = hands base ++ next base :: K.

Lemma hands_live s x : Inv s [] -> In x (hands s) -> x < next s.
Proof. intros I H. apply cnt_in in H. destruct (inv_live s [] x I ltac:(lia)) as (n & b & E). exact (nth_len _ _ _ E). Qed.
Lemma hands_old s x : Inv s [] -> next s <= x -> ~ In x (hands s).
Proof. intros I L H. pose proof (hands_live s x I H). lia. Qed.
Lemma up_any P a s : up P a s -> up any a s.
Proof. intros U y n b Y N. split; [exact (proj1 (U y n b Y N))|]. intros _. exact Logic.I. Qed.
Lemma make_ok b s : members b = [] -> Inv s [] -> Inv (make s b) [] /\ next (make s b) = S (next s) /\ below s (make s b) /\ hands (make s b) = hands s ++ [next s] /\ nth_error (cells (make s b)) (next s) = Some (Live 1 b).
Proof.
  intros M I. split; [apply add_inv; rewrite M; exact I|]. split; [unfold next, make, add; cbn [cells]; rewrite app_length; cbn; lia|]. split; [intros y Y; unfold make, add; cbn [cells]; apply nth_error_app1, Y|]. split; [reflexivity|].
  unfold make, add, next. cbn [cells]. rewrite nth_error_app2, Nat.sub_diag by lia. reflexivity.
Qed.
Lemma make_up (P : body -> Prop) b s : members b = [] -> P b -> up P (next s) (make s b).
Proof.
  intros M HP y n b' Y N. unfold make, add, next in *. cbn [cells] in N. assert (y < S (length (cells s))) by (apply nth_len in N; rewrite app_length in N; cbn in N; lia). assert (y = length (cells s)) by lia. subst y.
  rewrite nth_error_app2, Nat.sub_diag in N by lia. cbn in N. injection N as <- <-. rewrite M. split; [constructor|auto].
Qed.
Lemma make_good v b s : members b = [] -> Inv s [] -> good s (RVal v (Some (next s))) (make s b).
Proof.
  intros M I. destruct (make_ok b s M I) as (I' & L & B & H & _). split; [exact I'|]. split; [lia|]. split; [exact B|]. split; [apply (make_up any b s M); exact Logic.I|]. split; [exact H|]. cbn. constructor; [lia|constructor].
Qed.
Lemma same_good q s : refs q = [] -> Inv s [] -> good s q s.
Proof.
  intros R I. split; [exact I|]. split; [lia|]. split; [intros y Y; reflexivity|]. split; [|rewrite R, app_nil_r; split; [reflexivity|constructor]]. intros y n b Y N. exfalso. apply nth_len in N. unfold next in Y. lia.
Qed.
Lemma make_inside (P : body -> Prop) b s : members b = [] -> P b -> Inv s [] -> inside P s [] (make s b).
Proof. intros M HP I. destruct (make_ok b s M I) as (I' & L & B & H & _). split; [exact I'|]. split; [lia|]. split; [exact B|]. split; [exact (make_up P b s M HP)|exact H]. Qed.
(** A value is read inside a collection. *)
Lemma inner P base K s q s' : inside P base K s -> good s q s' -> inside P base (K ++ refs q) s' /\ Forall (lt (next base)) (refs q).
Proof.
  intros (I & L & B & U & H) (I' & L' & B' & U' & H' & R). split; [|apply Forall_impl with (2 := R); intros z Z; lia]. split; [exact I'|]. split; [lia|]. split; [intros y Y; rewrite B', B by lia; reflexivity|].
  split; [|rewrite H', H, <- app_assoc; reflexivity]. intros y n b Y N. destruct (Nat.lt_ge_cases y (next s)) as [J|J].
  - rewrite B' in N by exact J. exact (U y n b Y N).
  - split; [exact (proj1 (U' y n b J N))|]. intros ->. lia.
Qed.
Lemma later_inside P base K K' s s' : inside P base K s -> Inv s' [] -> hands s' = hands base ++ next base :: K' -> later P (next base) s s' -> inside P base K' s'.
Proof. intros (I & L & B & U & H) I' H' (L' & E & U'). split; [exact I'|]. split; [unfold next in *; lia|]. split; [intros y Y; rewrite E, B by exact Y; reflexivity|]. split; [exact U'|exact H']. Qed.
Lemma take_mid x l r : ~ In x l -> take x (l ++ x :: r) = l ++ r.
Proof. induction l as [|y l IH]; cbn [take app]; intros N; [rewrite Nat.eqb_refl; reflexivity|]. destruct (Nat.eqb_spec x y) as [->|D]; [exfalso; apply N; left; reflexivity|]. rewrite IH; [reflexivity|]. intros J. apply N. right. exact J. Qed.
(** What the parser has besides is given up, the first of it first. *)
Lemma give_ok P base r K s : Inv base [] -> Forall (lt (next base)) (somes [r]) -> inside P base (somes [r] ++ K) s -> exists s', give_up s r = Ok s' /\ inside P base K s'.
Proof.
  intros IB R D. destruct r as [x|]; cbn [give_up]; [|exists s; split; [reflexivity|exact D]]. cbn [somes flat_map app] in *. inversion R as [|? ? X _]; subst. pose proof D as (I & L & B & U & H).
  destruct (release_one (fun _ _ => false) P (next base) s x I) as (s' & E & I' & H' & T); [rewrite H; apply in_or_app; right; right; left; reflexivity|lia|exact U|].
  exists s'. split; [exact E|]. apply (later_inside P base (x :: K) K s s' D I'); [|exact T]. rewrite H', H. replace (hands base ++ next base :: x :: K) with ((hands base ++ [next base]) ++ x :: K) by (rewrite <- app_assoc; reflexivity).
  rewrite take_mid; [rewrite <- app_assoc; reflexivity|]. intros J. apply in_app_or in J. destruct J as [J|[J|[]]]; [apply (hands_live _ _ IB) in J; lia|lia].
Qed.
(** Giving up the collection and what is left. *)
Lemma fail_ok P base key s cur : Inv base [] -> Forall (lt (next base)) (somes [key]) -> inside P base (somes [key]) s -> exists s', fail s (Some (next base)) key None cur = Ok (RFail, cur, s') /\ good base RFail s'.
Proof.
  intros IB R (I & L & B & U & H). unfold fail. cbn [give_up].
  destruct (release_one (fun _ _ => false) P (next base) s (next base) I) as (s1 & E1 & I1 & H1 & (L1 & B1 & U1)); [rewrite H; apply in_or_app; right; left; reflexivity|lia|exact U|]. rewrite E1. cbn [obind].
  rewrite H, take_mid in H1 by (apply hands_old; [exact IB|lia]). assert (B1': below base s1) by (intros y Y; rewrite B1, B by exact Y; reflexivity).
  destruct key as [k|]; cbn [give_up].
  - inversion R as [|? ? X _]; subst. cbn [somes flat_map app] in H1. destruct (release_one (fun _ _ => false) P (next base) s1 k I1) as (s2 & E2 & I2 & H2 & (L2 & B2 & U2)); [rewrite H1; apply in_or_app; right; left; reflexivity|lia|exact U1|].
    rewrite E2. cbn [obind]. exists s2. split; [reflexivity|]. split; [exact I2|]. split; [unfold next in *; lia|]. split; [intros y Y; rewrite B2, B1' by exact Y; reflexivity|]. split; [exact (up_any _ _ _ U2)|].
    split; [|constructor]. rewrite H2, H1, take_mid by (apply hands_old; [exact IB|lia]). reflexivity.
  - cbn [obind]. exists s1. split; [reflexivity|]. split; [exact I1|]. split; [unfold next in *; lia|]. split; [exact B1'|]. split; [exact (up_any _ _ _ U1)|]. split; [exact H1|constructor].
Qed.
Lemma finished P base v s : inside P base [] s -> good base (RVal v (Some (next base))) s.
Proof. intros (I & L & B & U & H). split; [exact I|]. split; [lia|]. split; [exact B|]. split; [exact (up_any _ _ _ U)|]. split; [exact H|]. cbn. constructor; [lia|constructor]. Qed.
Lemma kind_of P base K s : inside P base K s -> exists n b, nth_error (cells s) (next base) = Some (Live n b) /\ P b.
Proof.
  intros (I & L & B & U & H). destruct (inv_owned s [] (next base) I) as (b & n & N); [rewrite H; apply in_or_app; right; left; reflexivity|]. exists n, b. split; [exact N|]. exact (proj2 (U _ _ _ (Nat.le_refl _) N) eq_refl).
Qed.
Lemma append_step base x s : Inv base [] -> Forall (lt (next base)) (somes [x]) -> inside is_arr base (somes [x]) s -> exists s', append s (next base) x = Ok s' /\ inside is_arr base (somes [x]) s'.
Proof.
  intros IB R D. destruct (kind_of _ _ _ _ D) as (n & b & N & (l & ->)). pose proof D as (I & L & B & U & H). unfold append, list_of, body_of. rewrite N. cbn [obind].
  destruct (append_ok s (next base) l n x I N) as (s' & E & I' & H' & T).
  - rewrite H. apply in_or_app. right. left. reflexivity.
  - destruct x as [x|]; [|exact Logic.I]. cbn. red. rewrite H. apply in_or_app. right. right. left. reflexivity.
  - apply refs_in, R.
  - exact U.
  - exists s'. split; [exact E|]. apply (later_inside is_arr base (somes [x]) _ s s' D I'); [congruence|exact T].
Qed.
Lemma enter_step base ks k key x s : Inv base [] -> Forall (lt (next base)) (somes [x]) -> inside is_hash base (somes [key] ++ somes [x]) s ->
  exists s' ks', enter s (next base) ks k x = Ok (s', ks') /\ inside is_hash base (somes [key] ++ somes [x]) s'.
Proof.
  intros IB R D. pose proof D as (I & L & B & U & H). unfold enter. destruct (make_ok Leaf s eq_refl I) as (I0 & L0 & B0 & H0 & N0).
  assert (D0: inside is_hash base (somes [key] ++ somes [x] ++ [next s]) (make s Leaf)).
  { split; [exact I0|]. split; [lia|]. split; [intros y Y; rewrite B0, B by lia; reflexivity|]. split; [|rewrite H0, H, <- !app_assoc; cbn [app]; rewrite <- !app_assoc; reflexivity].
    intros y n b Y N. destruct (Nat.lt_ge_cases y (next s)) as [J|J]; [rewrite B0 in N by exact J; exact (U y n b Y N)|]. destruct (make_up any Leaf s eq_refl Logic.I y n b J N) as (M & _). split; [exact M|]. intros ->. lia. }
  destruct (kind_of _ _ _ _ D0) as (n & b & N & (es & ->)). pose proof D0 as (_ & _ & _ & U0 & H0').
  destruct (put_fine (key_eq ((next s, k) :: ks)) (make s Leaf) (next base) n es (next s) x I0 N) as (s1 & E1 & I1 & H1 & T1).
  - rewrite H0'. apply in_or_app. right. left. reflexivity.
  - rewrite H0. apply in_or_app. right. left. reflexivity.
  - destruct x as [x|]; [|exact Logic.I]. cbn [ref_in]. red. rewrite H0'. apply in_or_app. right. right. apply in_or_app. right. left. reflexivity.
  - exact L.
  - apply refs_in, R.
  - exact U0.
  - rewrite E1. cbn [obind give_up]. pose proof (later_inside is_hash base _ _ _ s1 D0 I1 (eq_trans H1 H0') T1) as D1. pose proof D1 as (_ & _ & _ & U1 & H1').
    destruct (release_one (fun _ _ => false) is_hash (next base) s1 (next s) I1) as (s2 & E2 & I2 & H2 & T2); [rewrite H1, H0; apply in_or_app; right; left; reflexivity|lia|exact U1|].
    rewrite E2. cbn [obind]. eexists. eexists. split; [reflexivity|]. apply (later_inside is_hash base _ _ _ s2 D1 I2); [|exact T2]. rewrite H2, H1, H0, take_last; [exact H|]. apply hands_old; [exact I|lia].
Qed.

(** ** A token that comes with an object is not empty *)
Lemma space_len : forall f s ch n s1, skip_space f s = Ok (ch, n, s1) -> length s1 <= length s /\ (n <> 0 -> s1 <> []).
Proof.
  induction f as [|f IH]; intros s ch n s1 E; cbn [skip_space] in E; [discriminate|]. apply bind_ok in E. destruct E as ((c, m) & Es & E).
  assert (S: s <> []) by (intros ->; discriminate). destruct (Nat.eqb_spec m 0) as [->|M]; [injection E as <- <- <-; auto|]. apply bind_ok in E. destruct E as (w & _ & E). destruct w.
  - destruct (IH _ _ _ _ E) as (L & Q). rewrite skipn_length in L. split; [lia|exact Q].
  - injection E as <- <- <-. auto.
Qed.
Lemma string_len : forall f w s len buf n t, scan_string f w s len buf = Ok (n, t) -> len <= n.
Proof.
  induction f as [|f IH]; intros w s len buf n t E; cbn [scan_string] in E; [discriminate|]. apply bind_ok in E. destruct E as ((c, m) & Es & E). destruct (Nat.eqb_spec m 0) as [->|M]; [injection E as <- <-; lia|].
  destruct (c =? 92)%Z.
  - apply bind_ok in E. destruct E as ((c2, m2) & _ & E). destruct (c2 =? 117)%Z; [apply bind_ok in E; destruct E as (u & _ & E)|]; apply IH in E; lia.
  - destruct (c =? 34)%Z; [injection E as <- <-; lia|]. apply IH in E. lia.
Qed.
Lemma token_len : forall f,
  (forall vec want cur t obj c, scan_token f vec want cur = Ok (t, obj, c) -> length c <= length cur /\ (obj <> None -> tlen t <> 0%Z)) /\
  (forall vec want cur dbl buf obj c, scan_vector f vec want cur dbl buf = Ok (obj, c) -> length c <= length cur).
Proof.
  induction f as [|f (IHt & IHv)]; [split; intros; discriminate|]. split.
  - intros vec want cur t obj c E. cbn [scan_token] in E. apply bind_ok in E. destruct E as (((ch, n), s) & Es & E). destruct (space_len _ _ _ _ _ Es) as (L & Q).
    destruct (Nat.eqb_spec n 0) as [->|N0]; [injection E as <- <- <-; split; [exact L|congruence]|]. destruct (ch =? 34)%Z.
    + apply bind_ok in E. destruct E as ((len, b) & Ess & E). apply string_len in Ess. injection E as <- <- <-. split; [rewrite skipn_length; lia|]. intros _. cbn [tlen]. lia.
    + destruct ((ch =? 35)%Z && vec).
      * apply bind_ok in E. destruct E as ((c1, m) & _ & E). cbn [fst snd] in E. destruct (c1 =? 91)%Z.
        -- apply bind_ok in E. destruct E as ((o, c2) & Ev & E). apply IHv in Ev. rewrite skipn_length in Ev. injection E as <- <- <-. split; [lia|]. intros _. cbn [tlen]. specialize (Q N0). destruct s; [congruence|]. cbn [length] in *. lia.
        -- injection E as <- <- <-. split; [lia|congruence].
      * apply bind_ok in E. destruct E as (b & _ & E). destruct (special (Z.of_N b)); [injection E as <- <- <-; split; [rewrite skipn_length; lia|congruence]|].
        apply bind_ok in E. destruct E as (len & _ & E). injection E as <- <- <-. split; [rewrite skipn_length; lia|congruence].
  - intros vec want cur dbl buf obj c E. cbn [scan_vector] in E. apply bind_ok in E. destruct E as (((t, o), c1) & E1 & E). apply IHt in E1. destruct E1 as (L1 & _). apply bind_ok in E. destruct E as (b & _ & E). apply bind_ok in E. destruct E as (g & _ & E). destruct g; [|injection E as _ <-; exact L1].
    apply bind_ok in E. destruct E as (x & _ & E). apply bind_ok in E. destruct E as (((t2, o2), c2) & E2 & E). apply IHt in E2. destruct E2 as (L2 & _). apply bind_ok in E. destruct E as (b2 & _ & E).
    destruct (b2 =? 44)%N; [apply IHv in E; lia|]. destruct (b2 =? 93)%N; injection E as _ <-; lia.
Qed.

(** ** The parser *)
Lemma parser : forall fuel,
  (forall vec cur s p c, Inv s [] -> parse_object fuel vec cur = Ok (p, c) -> exists q s', parse fuel vec cur s = Ok (q, c, s') /\ agree p q /\ good s q s') /\
  (forall vec cur s l p c base, Inv base [] -> inside is_arr base [] s -> array_loop fuel vec cur l = Ok (p, c) -> exists q s', array fuel vec cur s (next base) l = Ok (q, c, s') /\ agree p q /\ good base q s') /\
  (forall vec cur s ks l p c base, Inv base [] -> inside is_hash base [] s -> object_loop fuel vec cur l = Ok (p, c) -> exists q s', object fuel vec cur s (next base) ks l = Ok (q, c, s') /\ agree p q /\ good base q s').
Proof.
  induction fuel as [|f (IHp & IHa & IHo)]; [repeat split; intros; discriminate|]. split; [|split].
  - intros vec cur s p c I E. cbn [parse_object parse] in *. destruct (scan_token (S (length cur)) vec true cur) as [((t, obj), c1)| | |] eqn:Et; try discriminate. cbn [obind] in *. pose proof (proj2 (proj1 (token_len _) _ _ _ _ _ _ Et)) as TL.
    destruct (Z.eqb_spec (tlen t) 0) as [Z|NZ].
    + destruct obj; [exfalso; apply TL; [discriminate|exact Z]|]. injection E as <- <-. exists RFail, s. split; [reflexivity|]. split; [exact Logic.I|apply same_good; [reflexivity|exact I]].
    + destruct (rd (tstr t) 0) as [ch| | |]; try discriminate. cbn [obind] in *. destruct obj as [v|].
      { injection E as <- <-. exists (RVal v (Some (next s))), (make s Leaf). split; [reflexivity|]. split; [split; [reflexivity|eauto]|apply make_good; [reflexivity|exact I]]. }
      destruct (ch =? 91)%N. { exact (IHa vec c1 (make s (Arr [])) [] p c s I (make_inside is_arr (Arr []) s eq_refl (ex_intro _ [] eq_refl) I) E). }
      destruct (ch =? 93)%N. { injection E as <- <-. exists (RClose 93), s. split; [reflexivity|]. split; [reflexivity|apply same_good; [reflexivity|exact I]]. }
      destruct (ch =? 123)%N. { exact (IHo vec c1 (make s (Hash [])) [] [] p c s I (make_inside is_hash (Hash []) s eq_refl (ex_intro _ [] eq_refl) I) E). }
      destruct (ch =? 125)%N. { injection E as <- <-. exists (RClose 125), s. split; [reflexivity|]. split; [reflexivity|apply same_good; [reflexivity|exact I]]. }
      destruct (if (ch =? 45)%N then Ok true else is_digit ch) as [g| | |]; try discriminate. cbn [obind] in *. destruct g.
      { destruct (strtonum (tstr t)) as [x| | |]; try discriminate. cbn [obind] in *. injection E as <- <-. eexists. eexists. split; [reflexivity|]. split; [split; [reflexivity|eauto]|apply make_good; [reflexivity|exact I]]. }
      assert (Sm: forall v, (forall k, v <> JStr k) -> exists q s', Ok (RVal v None, c1, s) = Ok (q, c1, s') /\ agree (PVal v) q /\ good s q s').
      { intros v NS. exists (RVal v None), s. split; [reflexivity|]. split; [split; [reflexivity|intros (k & K); destruct (NS k K)]|apply same_good; [reflexivity|exact I]]. }
      destruct (starts (tstr t) [116; 114; 117; 101]%N) as [b1| | |]; try discriminate. cbn [obind] in *. destruct b1; [injection E as <- <-; apply Sm; discriminate|].
      destruct (starts (tstr t) [102; 97; 108; 115; 101]%N) as [b2| | |]; try discriminate. cbn [obind] in *. destruct b2; [injection E as <- <-; apply Sm; discriminate|].
      destruct (starts (tstr t) [110; 117; 108; 108]%N) as [b3| | |]; try discriminate. cbn [obind] in *. destruct b3; [injection E as <- <-; apply Sm; discriminate|].
      injection E as <- <-. exists RFail, s. split; [reflexivity|]. split; [exact Logic.I|apply same_good; [reflexivity|exact I]].
  - intros vec cur s l p c base IB D E. cbn [array_loop array] in *. destruct (parse_object f vec cur) as [(p1, c1)| | |] eqn:E1; try discriminate. cbn [obind] in *.
    destruct (IHp vec cur s p1 c1 (proj1 D) E1) as (q1 & s1 & Q1 & A1 & G1). rewrite Q1. cbn [obind]. destruct (inner _ _ _ _ _ _ D G1) as (D1 & R1). cbn [app] in D1.
    assert (Fl: forall K s2 c2, K = [] -> inside is_arr base K s2 -> exists q s', fail s2 (Some (next base)) None None c2 = Ok (q, c2, s') /\ agree PFail q /\ good base q s').
    { intros K s2 c2 -> D2. destruct (fail_ok is_arr base None s2 c2 IB (Forall_nil _) D2) as (s' & Ef & G). exists RFail, s'. split; [exact Ef|]. split; [exact Logic.I|exact G]. }
    destruct p1 as [v|b|], q1 as [v' x|b'|]; try contradiction.
    + destruct A1 as (-> & _). cbn [refs] in *. destruct (append_step base x s1 IB R1 D1) as (s2 & E2 & D2). rewrite E2. cbn [obind]. assert (D2': inside is_arr base (somes [x] ++ []) s2) by (rewrite app_nil_r; exact D2). destruct (give_ok is_arr base x [] s2 IB R1 D2') as (s3 & E3 & D3). rewrite E3. cbn [obind].
      destruct (scan_token (S (length c1)) vec false c1) as [((t, o), c2)| | |]; try discriminate. cbn [obind] in *. destruct (rd (tstr t) 0) as [ch| | |]; try discriminate. cbn [obind] in *.
      destruct (ch =? 93)%N. { injection E as <- <-. eexists. eexists. split; [reflexivity|]. split; [split; [reflexivity|eauto]|exact (finished is_arr base _ s3 D3)]. }
      destruct (ch =? 44)%N; [exact (IHa vec c2 s3 (l ++ [v]) p c base IB D3 E)|]. injection E as <- <-. exact (Fl _ s3 c2 eq_refl D3).
    + cbn in A1. subst b'. destruct (b =? 93)%N; injection E as <- <-; [|exact (Fl _ s1 c1 eq_refl D1)]. eexists. eexists. split; [reflexivity|]. split; [split; [reflexivity|eauto]|exact (finished is_arr base _ s1 D1)].
    + injection E as <- <-. exact (Fl _ s1 c1 eq_refl D1).
  - intros vec cur s ks l p c base IB D E. cbn [object_loop object] in *. destruct (parse_object f vec cur) as [(p1, c1)| | |] eqn:E1; try discriminate. cbn [obind] in *.
    destruct (IHp vec cur s p1 c1 (proj1 D) E1) as (q1 & s1 & Q1 & A1 & G1). rewrite Q1. cbn [obind]. destruct (inner _ _ _ _ _ _ D G1) as (D1 & R1). cbn [app] in D1.
    assert (Fl: forall key s2 c2, Forall (lt (next base)) (somes [key]) -> inside is_hash base (somes [key]) s2 -> exists q s', fail s2 (Some (next base)) key None c2 = Ok (q, c2, s') /\ agree PFail q /\ good base q s').
    { intros key s2 c2 R2 D2. destruct (fail_ok is_hash base key s2 c2 IB R2 D2) as (s' & Ef & G). exists RFail, s'. split; [exact Ef|]. split; [exact Logic.I|exact G]. }
    destruct p1 as [v|b|], q1 as [v' key|b'|]; try contradiction.
    + destruct A1 as (-> & _). cbn [refs] in *. destruct v as [ | | | |k| | ]; try (injection E as <- <-; exact (Fl key s1 c1 R1 D1)).
      destruct (scan_token (S (length c1)) vec false c1) as [((t, o), c2)| | |]; try discriminate. cbn [obind] in *. destruct (rd (tstr t) 0) as [ch| | |]; try discriminate. cbn [obind] in *.
      destruct (ch =? 58)%N; [|injection E as <- <-; exact (Fl key s1 c2 R1 D1)].
      destruct (parse_object f vec c2) as [(p2, c3)| | |] eqn:E2; try discriminate. cbn [obind] in *. destruct (IHp vec c2 s1 p2 c3 (proj1 D1) E2) as (q2 & s2 & Q2 & A2 & G2). rewrite Q2. cbn [obind]. destruct (inner _ _ _ _ _ _ D1 G2) as (D2 & R2).
      destruct p2 as [v|b|], q2 as [v' x|b'|]; try contradiction.
      * destruct A2 as (-> & _). cbn [refs] in *. destruct (enter_step base ks k key x s2 IB R2 D2) as (s3 & ks' & E3 & D3). rewrite E3. cbn [obind]. destruct (give_ok is_hash base key (somes [x]) s3 IB R1 D3) as (s4 & E4 & D4). rewrite E4. cbn [obind].
        assert (D4': inside is_hash base (somes [x] ++ []) s4) by (rewrite app_nil_r; exact D4). destruct (give_ok is_hash base x [] s4 IB R2 D4') as (s5 & E5 & D5). rewrite E5. cbn [obind].
        destruct (scan_token (S (length c3)) vec false c3) as [((t2, o2), c4)| | |]; try discriminate. cbn [obind] in *. destruct (rd (tstr t2) 0) as [ch2| | |]; try discriminate. cbn [obind] in *.
        destruct (ch2 =? 125)%N. { injection E as <- <-. eexists. eexists. split; [reflexivity|]. split; [split; [reflexivity|eauto]|exact (finished is_hash base _ s5 D5)]. }
        destruct (ch2 =? 44)%N; [exact (IHo vec c4 s5 ks' _ p c base IB D5 E)|]. injection E as <- <-. exact (Fl None s5 c4 (Forall_nil _) D5).
      * injection E as <- <-. rewrite app_nil_r in D2. exact (Fl key s2 c3 R1 D2).
      * injection E as <- <-. rewrite app_nil_r in D2. exact (Fl key s2 c3 R1 D2).
    + cbn in A1. subst b'. destruct (b =? 125)%N; injection E as <- <-; [|exact (Fl None s1 c1 (Forall_nil _) D1)]. eexists. eexists. split; [reflexivity|]. split; [split; [reflexivity|eauto]|exact (finished is_hash base _ s1 D1)].
    + injection E as <- <-. exact (Fl None s1 c1 (Forall_nil _) D1).
Qed.
