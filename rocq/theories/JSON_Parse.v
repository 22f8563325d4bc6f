(** Proofs about JSON: texts are parsed with their meaning. *)
Require Import Coq.ZArith.ZArith Coq.NArith.NArith Coq.Lists.List Coq.Bool.Bool Coq.Arith.Arith Coq.micromega.Lia.
Require Import Verif.Base Verif.Utf8_Model Verif.Utf8_Spec Verif.Utf8_Proofs Verif.Utf8_Strings Verif.Strtonum_Model Verif.Strtonum_Spec Verif.Strtonum_Proofs Verif.JSON_Model Verif.JSON_Spec Verif.JSON_Proofs.
Import ListNotations.
Local Open Scope N_scope.

Lemma delim_ends rest : delim rest -> ends rest.
Proof.
  destruct rest as [|b rest]; cbn; auto. unfold white, digit. intros [W|[S|Z]]; [lia| |lia]. decompose [or] S; subst; try tauto; repeat split; lia.
Qed.
Lemma digit_word b : digit b -> wordbyte b.
Proof. unfold digit, wordbyte, white. cbn. lia. Qed.
Lemma digits_word ds : Forall digit ds -> Forall wordbyte ds.
Proof. intros H. induction H; constructor; auto using digit_word. Qed.
Lemma e_word e : e = 101 \/ e = 69 -> wordbyte e.
Proof. unfold wordbyte, white. cbn. lia. Qed.
Lemma sign_word neg ds r : Forall digit ds -> ds <> [] -> Forall wordbyte r -> exists b s, sign_text neg ++ ds ++ r = b :: s /\ (b = 45 \/ digit b) /\ wordbyte b /\ Forall wordbyte s.
Proof.
  intros D Ne R. destruct D as [|d ds Hd D]; [congruence|]. destruct neg; cbn.
  - exists 45, (d :: ds ++ r). repeat split; auto; try (unfold white; cbn; lia). constructor; [now apply digit_word|]. apply Forall_app. auto using digits_word.
  - exists d, (ds ++ r). repeat split; auto; try (unfold white, digit in *; cbn; lia). apply Forall_app. auto using digits_word.
Qed.
Lemma number_word n s : number n s -> exists b s', s = b :: s' /\ (b = 45 \/ digit b) /\ wordbyte b /\ Forall wordbyte s'.
Proof.
  intros H. destruct H as [neg ds D Ne V|neg ds fs es D Ne V F L E|neg ds e ed D Ne V E F V'].
  - destruct (sign_word neg ds [] D Ne (Forall_nil _)) as (b & s & E & X). rewrite app_nil_r in E. eauto.
  - apply sign_word; auto. cbn [app]. constructor; [unfold wordbyte, white; cbn; lia|]. apply Forall_app. split; [now apply digits_word|].
    destruct es as [(e & ed)|]; [|constructor]. destruct E as (E & G & _). constructor; auto using e_word, digits_word.
  - apply sign_word; auto. constructor; auto using e_word, digits_word.
Qed.
Lemma number_read n s rest : number n s -> delim rest -> strtonum (s ++ rest) = Ok (n, rest).
Proof.
  intros H E%delim_ends. destruct H as [neg ds D Ne V|neg ds fs es D Ne V F L H|neg ds e ed D Ne V H F V'].
  - rewrite <- app_assoc. now apply (read_int [] neg ds rest).
  - rewrite <- !app_assoc. now apply (read_real [] neg ds fs es rest).
  - rewrite <- !app_assoc. now apply (read_exp [] neg ds e ed rest).
Qed.
Lemma rd_head b s : rd (b :: s) 0 = Ok b. Proof. reflexivity. Qed.
Lemma minus_digit b : b = 45 \/ digit b -> (if b =? 45 then Ok true else is_digit b) = Ok true.
Proof.
  intros [->|D]; [reflexivity|]. unfold is_digit. destruct (N.eqb_spec b 45); auto. unfold digit in D. replace (b <? 128) with true by (symmetry; apply N.ltb_lt; lia). cbn [orb]. now rewrite isdigit_yes.
Qed.
Lemma head_ne b : b = 45 \/ digit b -> b <> 34 /\ b <> 35.
Proof. unfold digit. lia. Qed.
Lemma token_number vec fuel want w n s rest : Forall white w -> number n s -> delim rest ->
  exists b s', s = b :: s' /\ (b = 45 \/ digit b) /\ scan_token (S fuel) vec want (w ++ s ++ rest) = Ok (mkT (s ++ rest) (Z.of_nat (length s)), None, rest).
Proof.
  intros W H D. destruct (number_word n s H) as (b & s' & -> & B & Wb & F). destruct (head_ne b B). exists b, s'. split; [reflexivity|]. split; [exact B|]. now apply token_word.
Qed.
(** ** Vectors *)
Lemma vector_ok vec ns t : numbers ns t -> forall fuel want dbl buf rest, (length ns < fuel)%nat ->
  scan_vector fuel vec want (t ++ 93 :: rest) dbl buf = Ok (if want then Some (new_vector (dbl || existsb is_real ns) (buf ++ ns)) else None, rest).
Proof.
  intros H. induction H as [n w s w' W Hn W'|n ns w s w' t W Hn W' H IH]; intros fuel want dbl buf rest L; cbn [length] in L; destruct fuel as [|fuel']; try lia; assert (exists fuel, fuel' = S fuel) as (fuel & Ef) by (exists (pred fuel'); lia);
    cbn [scan_vector]; replace (scan_token fuel') with (scan_token (S fuel)) by congruence; rewrite <- !app_assoc.
  - destruct (token_number vec fuel false w n s (w' ++ 93 :: rest) W Hn) as (b & s' & Es & B & T); [apply delim_app; cbn; auto 10|].
    rewrite T. cbn [obind]. cbn [tstr]. rewrite (number_read n s _ Hn) by (apply delim_app; cbn; auto 10). rewrite Es at 1. rewrite <- app_comm_cons, rd_head. cbn [obind]. rewrite (minus_digit b B). cbn [obind fst].
    rewrite (token_special vec fuel false w' 93 rest) by (auto; cbn; auto 10). cbn [obind tstr]. rewrite rd_head. cbn [obind]. change (93 =? 44) with false. change (93 =? 93) with true. cbv iota. cbn [existsb]. rewrite orb_false_r. reflexivity.
  - cbn [app]. destruct (token_number vec fuel false w n s (w' ++ 44 :: t ++ 93 :: rest) W Hn) as (b & s' & Es & B & T); [apply delim_app; cbn; auto 10|].
    rewrite T. cbn [obind]. cbn [tstr]. rewrite (number_read n s _ Hn) by (apply delim_app; cbn; auto 10). rewrite Es at 1. rewrite <- app_comm_cons, rd_head. cbn [obind]. rewrite (minus_digit b B). cbn [obind fst].
    rewrite (token_special vec fuel false w' 44 (t ++ 93 :: rest)) by (auto; cbn; auto 10). cbn [obind tstr]. rewrite rd_head. cbn [obind]. change (44 =? 44) with true. cbv iota.
    rewrite IH by lia. cbn [existsb]. rewrite orb_assoc, <- app_assoc. reflexivity.
Qed.
Lemma numbers_len ns t : numbers ns t -> (length ns <= length t)%nat.
Proof.
  intros H. induction H as [n w s w' W Hn W'|n ns w s w' t W Hn W' H IH]; cbn [length]; rewrite ?app_length; cbn [length]; destruct (number_word n s Hn) as (b & s' & -> & _); cbn [length]; lia.
Qed.
Lemma new_vector_ok dbl l : (2 <= length l)%nat -> N.of_nat (length l) < 2 ^ 24 -> new_vector dbl l = JVec dbl l.
Proof.
  intros A B. unfold new_vector. rewrite N.mod_small by auto. rewrite Nnat.Nat2N.id, firstn_all. destruct l as [|x [|y l]]; cbn in A; try lia. reflexivity.
Qed.
Lemma token_vector fuel want w l s rest : Forall white w -> (2 <= length l)%nat -> N.of_nat (length l) < 2 ^ 24 -> numbers l s -> (length s < fuel)%nat ->
  scan_token (S fuel) true want (w ++ (35 :: 91 :: s ++ [93]) ++ rest) = Ok (mkT ((35 :: 91 :: s ++ [93]) ++ rest) (Z.of_nat (length s + 3)), if want then Some (JVec (existsb is_real l) l) else None, rest).
Proof.
  intros W L1 L2 Ns F. cbn [scan_token]. rewrite (skip_white w ((35 :: 91 :: s ++ [93]) ++ rest) 35 1); [|auto|apply (scan_ascii 35); lia|lia|reflexivity|rewrite !app_length; cbn; lia].
  cbn [obind Nat.eqb]. change (35 =? 34)%Z with false. change ((35 =? 35)%Z && true) with true. cbv iota. cbn [app skipn]. rewrite scan_ascii by lia. cbn [obind fst snd]. change (Z.of_N 91 =? 91)%Z with true. cbv iota.
  cbn [Nat.add skipn]. rewrite <- app_assoc. cbn [app]. pose proof (numbers_len l s Ns). rewrite (vector_ok true l s Ns) by lia. cbn [obind]. rewrite orb_false_l, new_vector_ok by auto. do 3 f_equal. f_equal. cbn [length]. rewrite app_length. cbn [length]. lia.
Qed.
(** ** Dictionaries *)
Lemma same_ok a b : same_bytes a b = if list_eq_dec N.eq_dec a b then true else false.
Proof.
  revert b. induction a as [|x a IH]; intros [|y b]; cbn [same_bytes]; try (destruct (list_eq_dec N.eq_dec _ _); congruence).
  rewrite IH. destruct (N.eqb_spec x y) as [->|Ne]; cbn [andb].
  - destruct (list_eq_dec N.eq_dec a b) as [->|Ne]; destruct (list_eq_dec N.eq_dec _ _); congruence.
  - destruct (list_eq_dec N.eq_dec _ _); congruence.
Qed.
Definition sets (m acc : list (list N * json)) : list (list N * json) := fold_left (fun l p => dict_set l (fst p) (snd p)) m acc.
Lemma set_keys l k v : map fst (dict_set l k v) = map fst l ++ (if in_dec (list_eq_dec N.eq_dec) k (map fst l) then [] else [k]).
Proof.
  induction l as [|(k' & v') l IH]; [reflexivity|]. cbn [dict_set map fst]. rewrite same_ok. destruct (list_eq_dec N.eq_dec k k') as [->|Ne].
  - cbn [map fst]. destruct (in_dec _ k' (k' :: map fst l)) as [|X]; [now rewrite app_nil_r|]. exfalso. apply X. now left.
  - cbn [map fst app]. rewrite IH. do 2 f_equal. destruct (in_dec _ k (map fst l)) as [Y|Y], (in_dec _ k (k' :: map fst l)) as [X|X]; auto; exfalso; [apply X; now right|]. destruct X; [congruence|auto].
Qed.
Lemma set_get l k v : forall k' v', In (k', v') (dict_set l k v) -> NoDup (map fst l) -> (k' = k /\ v' = v) \/ (k' <> k /\ In (k', v') l).
Proof.
  induction l as [|(a & b) l IH]; intros k' v' H Nd; cbn [dict_set] in H.
  - destruct H as [H|[]]. injection H as <- <-. now left.
  - cbn [map fst] in Nd. inversion Nd as [|? ? Na Nl]; subst. rewrite same_ok in H. destruct (list_eq_dec N.eq_dec k a) as [->|Ne]; destruct H as [H|H].
    + injection H as <- <-. now left.
    + right. split; [|now right]. intros ->. apply Na. change a with (fst (a, v')). now apply in_map.
    + injection H as <- <-. right. split; [congruence|now left].
    + destruct (IH _ _ H Nl) as [X|(X & Y)]; [now left|right]. split; [auto|now right].
Qed.
Lemma first_keys_ext m : forall a b, (forall k, In k a <-> In k b) -> first_keys a m = first_keys b m.
Proof.
  induction m as [|(k & v) m IH]; intros a b H; cbn; auto. destruct (in_dec _ k a) as [X|X], (in_dec _ k b) as [Y|Y]; [auto|exfalso; apply Y; now apply H|exfalso; apply X; now apply H|].
  f_equal. apply IH. intros k'. cbn. now rewrite H.
Qed.
Lemma first_keys_app m m' : forall a, first_keys a (m ++ m') = first_keys a m ++ first_keys (map fst m ++ a) m'.
Proof.
  induction m as [|(k & v) m IH]; intros a; cbn [app first_keys map fst]; auto. destruct (in_dec _ k a) as [X|X].
  - rewrite IH. f_equal. apply first_keys_ext. intros k'. rewrite !in_app_iff. cbn. rewrite in_app_iff. split; [tauto|]. intros [->|[Y|Y]]; auto.
  - rewrite IH. cbn [app]. do 2 f_equal. apply first_keys_ext. intros k'. rewrite !in_app_iff. cbn. rewrite in_app_iff. tauto.
Qed.
Lemma first_keys_in m : forall a k, In k (first_keys a m) <-> In k (map fst m) /\ ~ In k a.
Proof.
  induction m as [|(k0 & v) m IH]; intros a k; cbn; [tauto|]. destruct (in_dec _ k0 a) as [X|X]; cbn; rewrite IH; cbn; [|destruct (list_eq_dec N.eq_dec k0 k); [subst|]; tauto].
  split; [tauto|]. intros ([->|Y] & Z); tauto.
Qed.
Lemma member_snoc m k v k' : member_of k' (m ++ [(k, v)]) = if list_eq_dec N.eq_dec k k' then Some v else member_of k' m.
Proof. unfold member_of. rewrite rev_app_distr. cbn [rev app find fst]. destruct (list_eq_dec N.eq_dec k k'); reflexivity. Qed.
Lemma sets_ok m : map fst (sets m []) = first_keys [] m /\ NoDup (map fst (sets m [])) /\ forall k v, In (k, v) (sets m []) -> member_of k m = Some v.
Proof.
  induction m as [|(k & v) m IH] using rev_ind; [repeat split; [constructor|intros k v []]|]. destruct IH as (K & Nd & G).
  unfold sets in *. rewrite fold_left_app. cbn [fold_left fst snd]. set (d := fold_left _ m []) in *. clearbody d. rewrite set_keys, K, first_keys_app. cbn [first_keys]. rewrite app_nil_r.
  assert (Q: In k (first_keys [] m) <-> In k (map fst m)) by (rewrite first_keys_in; cbn; tauto).
  split; [|split].
  - f_equal. destruct (in_dec _ k (first_keys [] m)), (in_dec _ k (map fst m)); tauto.
  - rewrite <- K. rewrite <- K in Q. destruct (in_dec _ k (map fst d)) as [X|X]; [now rewrite app_nil_r|].
    assert (Nr: NoDup (rev (map fst d ++ [k]))). { rewrite rev_app_distr. cbn. constructor; [rewrite <- in_rev; auto|]. now apply NoDup_rev. }
    apply NoDup_rev in Nr. now rewrite rev_involutive in Nr.
  - intros k' v' H. rewrite member_snoc. destruct (set_get _ _ _ _ _ H Nd) as [(-> & ->)|(X & Y)]; [destruct (list_eq_dec _ _ _); congruence|]. destruct (list_eq_dec _ k k'); [congruence|auto].
Qed.
Lemma keyed_eq (d d' : list (list N * json)) (f : list N -> option json) : map fst d = map fst d' -> (forall k v, In (k, v) d -> f k = Some v) -> (forall k v, In (k, v) d' -> f k = Some v) -> d = d'.
Proof.
  revert d'. induction d as [|(k & v) d IH]; intros [|(k' & v') d'] K F G; cbn in K; try discriminate; auto. injection K as E K. subst k'.
  pose proof (F k v (or_introl eq_refl)) as A. pose proof (G k v' (or_introl eq_refl)) as B. rewrite A in B. injection B as <-. f_equal. apply IH; auto; intros; [apply F|apply G]; now right.
Qed.
Lemma object_sets m d : object_of m d -> sets m [] = d.
Proof.
  intros (K & G). destruct (sets_ok m) as (K' & _ & G'). apply (keyed_eq _ _ (fun k => member_of k m)); auto. now rewrite K'.
Qed.
(** ** Objects *)
Section Parse.
Context (vec : bool).
Lemma white_nil : Forall white []. Proof. constructor. Qed.
Hint Resolve white_nil : core.
Lemma delim_special b r : In b specials -> delim (b :: r). Proof. cbn. auto. Qed.
Lemma parse_close fuel w b rest : Forall white w -> b = 93 \/ b = 125 -> parse_object (S fuel) vec (w ++ b :: rest) = Ok (PClose b, rest).
Proof.
  intros W B. cbn [parse_object]. rewrite token_special by (auto; destruct B; subst; cbn; auto 10). cbn [obind tlen tstr]. change (1 =? 0)%Z with false. cbv iota. rewrite rd_head. cbn [obind]. destruct B; subst b; reflexivity.
Qed.
Lemma parse_open fuel w b rest : Forall white w -> b = 91 \/ b = 123 -> parse_object (S fuel) vec (w ++ b :: rest) = if b =? 91 then array_loop fuel vec rest [] else object_loop fuel vec rest [].
Proof.
  intros W B. cbn [parse_object]. rewrite token_special by (auto; destruct B; subst; cbn; auto 10). cbn [obind tlen tstr]. change (1 =? 0)%Z with false. cbv iota. rewrite rd_head. cbn [obind]. destruct B; subst b; reflexivity.
Qed.
Lemma parse_number fuel w n s rest : Forall white w -> number n s -> delim rest -> parse_object (S fuel) vec (w ++ s ++ rest) = Ok (PVal (JNum n), rest).
Proof.
  intros W H D. cbn [parse_object]. destruct (token_number vec (length (w ++ s ++ rest)) true w n s rest W H D) as (b & s' & Es & B & ->). cbn [obind tlen tstr].
  rewrite (number_read n s rest H D). destruct (Z.eqb_spec (Z.of_nat (length s)) 0) as [E|_]; [rewrite Es in E; cbn in E; lia|]. rewrite Es. rewrite <- app_comm_cons, rd_head. cbn [obind].
  rewrite (minus_digit b B). cbn [obind fst].
  unfold digit in B. destruct (N.eqb_spec b 91); [lia|]. destruct (N.eqb_spec b 93); [lia|]. destruct (N.eqb_spec b 123); [lia|]. destruct (N.eqb_spec b 125); [lia|]. reflexivity.
Qed.
Lemma parse_literal fuel w s v rest : Forall white w -> delim rest ->
  (v = JNull /\ s = [110; 117; 108; 108]) \/ (v = JBool true /\ s = [116; 114; 117; 101]) \/ (v = JBool false /\ s = [102; 97; 108; 115; 101]) -> parse_object (S fuel) vec (w ++ s ++ rest) = Ok (PVal v, rest).
Proof.
  intros W D H. cbn [parse_object]. assert (F: forall l, forallb (fun b => (0 <? b) && (b <? 128) && negb (b =? 32) && negb ((9 <=? b) && (b <=? 13)) && negb (existsb (N.eqb b) specials)) l = true -> Forall wordbyte l).
  { intros l Hl. rewrite forallb_forall in Hl. apply Forall_forall. intros b Hb. specialize (Hl b Hb). rewrite !andb_true_iff, !negb_true_iff in Hl. destruct Hl as ((((A & B) & C) & E) & G).
    apply N.ltb_lt in A, B. apply N.eqb_neq in C. split; [lia|]. split; [intros [X|X]; [auto|]; apply andb_false_iff in E; rewrite !N.leb_gt in E; lia|]. intros X.
    assert (Y: existsb (N.eqb b) specials = true) by (apply existsb_exists; exists b; split; auto; apply N.eqb_refl). congruence. }
  destruct H as [(-> & ->)|[(-> & ->)|(-> & ->)]].
  all: rewrite token_word by (auto; try discriminate; try (apply F; reflexivity); try (match goal with |- wordbyte ?b => assert (X: Forall wordbyte [b]) by (apply F; reflexivity); now inversion X end)); reflexivity.
Qed.
Lemma parse_string fuel w cs t rest : Forall white w -> items cs t -> parse_object (S fuel) vec (w ++ (34 :: t ++ [34]) ++ rest) = Ok (PVal (JStr (encode cs)), rest).
Proof.
  intros W I. cbn [parse_object]. rewrite (token_string vec _ true w cs t rest W I). cbn [obind tlen tstr]. destruct (Z.eqb_spec (Z.of_nat (length t + 2)) 0); [lia|]. rewrite <- app_comm_cons, rd_head. reflexivity.
Qed.
Lemma parse_vector fuel w l s rest : vec = true -> Forall white w -> (2 <= length l)%nat -> N.of_nat (length l) < 2 ^ 24 -> numbers l s ->
  parse_object (S fuel) vec (w ++ (35 :: 91 :: s ++ [93]) ++ rest) = Ok (PVal (JVec (existsb is_real l) l), rest).
Proof.
  intros -> W A B H. cbn [parse_object]. rewrite (token_vector _ true w l s rest) by (auto; cbn; rewrite !app_length; cbn; rewrite !app_length; cbn; lia). cbn [obind tlen tstr].
  destruct (Z.eqb_spec (Z.of_nat (length s + 3)) 0); [lia|]. rewrite <- app_comm_cons, rd_head. reflexivity.
Qed.
(** The member and what follows it. *)
Definition key_then (fuel : nat) (u : list N) (l : list (list N * json)) (k : list N) : outcome (pres * list N) :=
  do r <- parse_object fuel vec u;
  let (p, cur) := r in
  match p with
  | PVal v =>
    let l := dict_set l k v in
    do r <- scan_token (S (length cur)) vec false cur;
    let '(t, _, cur) := r in
    do ch <- rd (tstr t) 0;
    if ch =? 125 then Ok (PVal (JObj l), cur)
    else if ch =? 44 then object_loop fuel vec cur l else Ok (PFail, cur)
  | _ => Ok (PFail, cur)
  end.
Lemma object_key fuel w cs k w' u l : Forall white w -> items cs k -> Forall white w' ->
  object_loop (S (S fuel)) vec (w ++ (34 :: k ++ [34]) ++ w' ++ 58 :: u) l = key_then (S fuel) u l (encode cs).
Proof.
  intros W I W'. cbn [object_loop]. rewrite (parse_string fuel w cs k (w' ++ 58 :: u) W I). cbn [obind]. rewrite (token_special vec _ false w' 58 u) by (auto; cbn; auto). cbn [obind tstr]. rewrite rd_head. cbn [obind].
  change (58 =? 58) with true. cbv iota. reflexivity.
Qed.
Lemma key_end fuel u l k v w' rest r : parse_object fuel vec u = Ok (PVal v, r) -> r = w' ++ 125 :: rest -> Forall white w' -> key_then fuel u l k = Ok (PVal (JObj (dict_set l k v)), rest).
Proof.
  intros P -> W'. unfold key_then. rewrite P. cbn [obind]. rewrite (token_special vec _ false w' 125 rest) by (auto; cbn; auto 10). cbn [obind tstr]. rewrite rd_head. reflexivity.
Qed.
Lemma key_next fuel u l k v w' rest r : parse_object fuel vec u = Ok (PVal v, r) -> r = w' ++ 44 :: rest -> Forall white w' -> key_then fuel u l k = object_loop fuel vec rest (dict_set l k v).
Proof.
  intros P -> W'. unfold key_then. rewrite P. cbn [obind]. rewrite (token_special vec _ false w' 44 rest) by (auto; cbn; auto 10). cbn [obind tstr]. rewrite rd_head. reflexivity.
Qed.
Theorem parse_ok :
  (forall v s, text vec v s -> forall w rest fuel, Forall white w -> delim rest -> (2 * length (w ++ s ++ rest) < fuel)%nat -> parse_object fuel vec (w ++ s ++ rest) = Ok (PVal v, rest)) /\
  (forall l s, elements vec l s -> forall acc rest fuel, (2 * length (s ++ 93%N :: rest) + 1 < fuel)%nat -> array_loop fuel vec (s ++ 93 :: rest) acc = Ok (PVal (JArr (acc ++ l)), rest)) /\
  (forall m s, members vec m s -> forall acc rest fuel, (2 * length (s ++ 125%N :: rest) + 1 < fuel)%nat -> object_loop fuel vec (s ++ 125 :: rest) acc = Ok (PVal (JObj (sets m acc)), rest)).
Proof.
  apply text_ind3.
  - intros w rest [|fuel] W D L; [lia|]. apply parse_literal; auto.
  - intros w rest [|fuel] W D L; [lia|]. apply parse_literal; auto.
  - intros w rest [|fuel] W D L; [lia|]. apply parse_literal; auto.
  - intros n s H w rest [|fuel] W D L; [lia|]. now apply parse_number.
  - intros l s V A B H w rest [|fuel] W D L; [lia|]. now apply parse_vector.
  - intros cs s I w rest [|fuel] W D L; [lia|]. now apply parse_string.
  - intros w0 W0 w rest [|[|[|fuel]]] W D L; rewrite ?app_length in L; cbn in L; try lia. cbn [app]. rewrite parse_open by auto. change (91 =? 91) with true. cbv iota. cbn [array_loop]. rewrite <- app_assoc. cbn [app]. rewrite parse_close by auto. reflexivity.
  - intros l s H IH w rest [|fuel] W D L; [lia|]. cbn [app]. rewrite parse_open by auto. change (91 =? 91) with true. cbv iota. rewrite <- app_assoc. cbn [app]. rewrite IH; [reflexivity|]. rewrite !app_length in *. cbn in *. rewrite !app_length in *. cbn in *. lia.
  - intros w0 W0 w rest [|[|[|fuel]]] W D L; rewrite ?app_length in L; cbn in L; try lia. cbn [app]. rewrite parse_open by auto. change (123 =? 91) with false. cbv iota. cbn [object_loop]. rewrite <- app_assoc. cbn [app]. rewrite parse_close by auto. reflexivity.
  - intros m d s H IH O w rest [|fuel] W D L; [lia|]. cbn [app]. rewrite parse_open by auto. change (123 =? 91) with false. cbv iota. rewrite <- app_assoc. cbn [app]. rewrite IH; [now rewrite (object_sets m d O)|]. rewrite !app_length in *. cbn in *. rewrite !app_length in *. cbn in *. lia.
  - intros v w s w' W Ht IH W' acc rest [|fuel] L; [lia|]. cbn [array_loop]. rewrite <- !app_assoc in *. rewrite IH; [|auto|apply delim_app; cbn; auto 10|lia]. cbn [obind].
    rewrite token_special by (auto; cbn; auto 10). cbn [obind tstr]. rewrite rd_head. reflexivity.
  - intros v l w s w' t W Ht IHt W' He IHe acc rest [|fuel] L; [lia|]. cbn [array_loop]. rewrite <- !app_assoc in *. rewrite <- app_comm_cons in *. rewrite IHt; [|auto|apply delim_app; cbn; auto 10|lia]. cbn [obind].
    rewrite token_special by (auto; cbn; auto 10). cbn [obind tstr]. rewrite rd_head. cbn [obind]. change (44 =? 93) with false. change (44 =? 44) with true. cbv iota. rewrite IHe; [now rewrite <- app_assoc|]. rewrite !app_length in *. cbn [length] in *. rewrite !app_length in *. cbn [length] in *. lia.
  - intros cs k v w w' u s u' W I W' U Ht IH U' acc rest fuel L.
    replace ((w ++ (34 :: k ++ [34]) ++ w' ++ 58 :: u ++ s ++ u') ++ 125 :: rest) with (w ++ (34 :: k ++ [34]) ++ w' ++ 58 :: (u ++ s ++ (u' ++ 125 :: rest))) in * by (repeat (rewrite <- ?app_assoc; cbn [app]); reflexivity).
    destruct fuel as [|[|fuel]]; try lia. rewrite (object_key fuel w cs k w' _ acc W I W'). eapply key_end; [apply IH|reflexivity|auto]; [auto|apply delim_app; cbn; auto 10|]. rewrite !app_length in *. cbn [length] in *. rewrite !app_length in *. cbn [length] in *. lia.
  - intros cs k v l w w' u s u' t W I W' U Ht IH U' Hm IHm acc rest fuel L.
    replace ((w ++ (34 :: k ++ [34]) ++ w' ++ 58 :: u ++ s ++ u' ++ 44 :: t) ++ 125 :: rest) with (w ++ (34 :: k ++ [34]) ++ w' ++ 58 :: (u ++ s ++ (u' ++ 44 :: (t ++ 125 :: rest)))) in * by (repeat (rewrite <- ?app_assoc; cbn [app]); reflexivity).
    destruct fuel as [|[|fuel]]; try lia. rewrite (object_key fuel w cs k w' _ acc W I W'). repeat (rewrite app_length in L; cbn [length] in L).
    rewrite (key_next (S fuel) (u ++ s ++ u' ++ 44 :: t ++ 125 :: rest) acc (encode cs) v u' (t ++ 125 :: rest) (u' ++ 44 :: t ++ 125 :: rest)); [|apply IH; [auto|apply delim_app; cbn; auto 10|]|reflexivity|auto].
    + rewrite IHm; [reflexivity|]. rewrite !app_length. cbn [length]. lia.
    + rewrite !app_length. cbn [length]. rewrite !app_length. cbn [length]. lia.
Qed.
(** The whole text. *)
Theorem parse_text v s w w' : text vec v s -> Forall white w -> Forall white w' ->
  parse_object (2 * length (w ++ s ++ w') + 3) vec ((w ++ s ++ w') ++ [0]) = Ok (PVal v, w' ++ [0]).
Proof.
  intros H W W'. rewrite <- !app_assoc. apply parse_ok; auto; [apply delim_app; cbn; auto|]. rewrite !app_length. cbn. lia.
Qed.
Theorem parse_json v s w w' : text vec v s -> Forall white w -> Forall white w' -> json_parse vec (w ++ s ++ w') = Ok v.
Proof. intros H W W'. unfold json_parse. now rewrite (parse_text v s w w' H W W'). Qed.
End Parse.
