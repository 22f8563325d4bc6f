(** Proofs about JSON: what is written is a text of the value. *)
Require Import Coq.ZArith.ZArith Coq.NArith.NArith Coq.Lists.List Coq.Bool.Bool Coq.Arith.Arith Coq.micromega.Lia.
Require Import Verif.Base Verif.Utf8_Model Verif.Utf8_Spec Verif.Utf8_Proofs Verif.Utf8_Strings Verif.Strtonum_Model Verif.Strtonum_Spec Verif.Strtonum_Proofs Verif.JSON_Model Verif.JSON_Spec Verif.JSON_Proofs Verif.JSON_Parse.
Import ListNotations.
Local Open Scope N_scope.

(** ** Strings *)
Lemma replacement_item c x : replacement escaped_chars (Z.of_N c) = Some x -> item c x.
Proof.
  unfold escaped_chars. cbn [replacement].
  repeat match goal with |- context [if (?a <? Z.of_N c)%Z then _ else _] => destruct (Z.ltb_spec a (Z.of_N c)); [discriminate|] | |- context [if (?a =? Z.of_N c)%Z then _ else _] => destruct (Z.eqb_spec a (Z.of_N c)) end;
    try discriminate; let R := fresh in intros R; injection R as <-;
    match goal with E : (?a = Z.of_N c)%Z |- _ => let k := eval compute in (Z.to_N a) in replace c with k by lia end; constructor.
Qed.
Lemma replacement_plain c : replacement escaped_chars (Z.of_N c) = None -> c <> 34 /\ c <> 92.
Proof. intros H. split; intros ->; discriminate. Qed.
(** The characters [pre] are in the buffer. *)
Lemma escape_ok cs : Forall char_ok cs -> forall pre fuel tp, Forall char_ok pre -> items pre tp -> tp = encode pre -> (length cs < fuel)%nat ->
  exists t, escape_loop fuel (encode pre ++ encode cs ++ [0]) (length (encode pre)) (encode cs ++ [0]) = Ok t /\ items (pre ++ cs) t.
Proof.
  assert (Ip: forall a ta b tb, items a ta -> items b tb -> items (a ++ b) (ta ++ tb)).
  { intros a ta b tb A B. induction A; cbn; auto. rewrite <- app_assoc. now constructor. }
  assert (Fl: forall l r, (if (0 <? length l)%nat then firstn (length l) (l ++ r) else []) = (l : list N)).
  { intros l r. rewrite firstn_pre. destruct l; reflexivity. }
  induction 1 as [|c cs C F IH]; intros pre fuel tp P I E L; (destruct fuel as [|fuel]; [cbn in L; lia|]); cbn [escape_loop].
  - cbn [encode map concat app]. rewrite scan_nul. cbn [obind Nat.eqb]. rewrite Fl, app_nil_r. exists (encode pre). split; [reflexivity|congruence].
  - rewrite encode_cons, <- !app_assoc, scan_char by auto. cbn [obind]. pose proof (utf8_nonempty c). destruct (Nat.eqb_spec (length (utf8 c)) 0); [lia|]. cbn [length] in L. rewrite skipn_pre0.
    destruct (replacement escaped_chars (Z.of_N c)) as [x|] eqn:R.
    + apply replacement_item in R. destruct (IH [] fuel []) as (t & Et & It); [constructor|constructor|reflexivity|lia|]. change (encode []) with (@nil N) in Et. cbn [app length] in Et.
      rewrite Et. cbn [obind]. rewrite Fl. eexists. split; [reflexivity|]. apply Ip; [congruence|]. now constructor.
    + apply replacement_plain in R. destruct (IH (pre ++ [c]) fuel (encode (pre ++ [c]))) as (t & Et & It).
      * apply Forall_app. split; auto.
      * rewrite encode_app. apply Ip; [congruence|]. rewrite <- (app_nil_r (encode [c])). unfold encode. cbn [map concat]. rewrite app_nil_r. constructor; [|constructor]. now apply i_plain.
      * reflexivity.
      * lia.
      * rewrite encode_app, app_length in Et. replace (encode [c]) with (utf8 c) in Et by (unfold encode; cbn; now rewrite app_nil_r). rewrite <- !app_assoc in Et. rewrite Et. exists t. split; [reflexivity|]. now rewrite <- app_assoc in It.
Qed.
Lemma encode_len cs : (length cs <= length (encode cs))%nat.
Proof. induction cs as [|c cs IH]; [cbn; lia|]. rewrite encode_cons, app_length. pose proof (utf8_nonempty c). cbn [length]. lia. Qed.
Lemma write_string cs : Forall char_ok cs -> exists t, write_escaped (encode cs) = Ok (34 :: t ++ [34]) /\ items cs t.
Proof.
  intros F. pose proof (encode_len cs). destruct (escape_ok cs F [] (S (length (encode cs))) []) as (t & E & I); [constructor|constructor|reflexivity|lia|]. unfold write_escaped.
  change (encode []) with (@nil N) in E. cbn [app length] in E, I. rewrite E. exists t. split; [reflexivity|auto].
Qed.
(** ** Numbers *)
Lemma print_number n : int_ok n -> number n (print_num n).
Proof.
  destruct n as [z|]; [|intros []]. cbn [int_ok print_num]. intros R. destruct (print_int_ok z R) as (neg & ds & -> & (D & V & _) & Ne & Sg).
  rewrite <- Sg at 1. rewrite <- V. apply n_int; auto. lia.
Qed.
Lemma print_numbers l : l <> [] -> Forall int_ok l -> forall w, Forall white w -> numbers l (w ++ format_nums [44; 32] l).
Proof.
  induction l as [|n l IH]; [congruence|]. intros _ F w W. inversion F as [|? ? Hn Fl]; subst. destruct l as [|m l].
  - cbn [format_nums]. apply ns_one; auto using print_number.
  - change (format_nums [44; 32] (n :: m :: l)) with (print_num n ++ [] ++ 44 :: [32] ++ format_nums [44; 32] (m :: l)). apply ns_cons; auto using print_number. apply IH; auto; [discriminate|]. repeat constructor.
Qed.
Lemma ints_not_real l : Forall int_ok l -> existsb is_real l = false.
Proof. induction 1 as [|n l H F IH]; cbn; auto. destruct n; [auto|destruct H]. Qed.
(** ** Values *)
Section Induction.
Context (P : json -> Prop) (H0 : P JNull) (H1 : forall b, P (JBool b)) (H2 : forall n, P (JNum n)) (H3 : forall d l, P (JVec d l)) (H4 : forall s, P (JStr s))
  (H5 : forall l, Forall P l -> P (JArr l)) (H6 : forall l, Forall (fun p => P (snd p)) l -> P (JObj l)).
Fixpoint json_induction (v : json) : P v :=
  match v with
  | JNull => H0 | JBool b => H1 b | JNum n => H2 n | JVec d l => H3 d l | JStr s => H4 s
  | JArr l => H5 l ((fix go l := match l return Forall P l with [] => Forall_nil _ | x :: l' => Forall_cons x (json_induction x) (go l') end) l)
  | JObj l => H6 l ((fix go l := match l return Forall (fun p => P (snd p)) l with [] => Forall_nil _ | x :: l' => Forall_cons x (json_induction (snd x)) (go l') end) l)
  end.
End Induction.
Lemma white_indent n : Forall white (indentation n).
Proof. unfold indentation. induction n as [|n IH]; [constructor|]. cbn [repeat concat]. apply Forall_app. split; auto. repeat constructor. Qed.
Section Write.
Context (pretty vec : bool).
(** White space after a comma. *)
Definition sep (n : nat) : list N := if pretty then 10 :: indentation n else [].
Lemma white_sep n : Forall white (sep n).
Proof. unfold sep. destruct pretty; constructor; [right; lia|apply white_indent]. Qed.
Lemma comma_true n : write_comma pretty (mkW n true) = 44 :: sep n.
Proof. unfold write_comma, sep. cbn. destruct pretty; reflexivity. Qed.
Definition each_arr := fix each (c : wctx) (l : list json) : outcome (list N * wctx) :=
  match l with
  | [] => Ok ([], c)
  | x :: l' => do r <- write_object pretty vec c x; do r' <- each (snd r) l'; Ok (fst r ++ fst r', snd r')
  end.
Definition each_obj := fix each (c : wctx) (l : list (list N * json)) : outcome (list N * wctx) :=
  match l with
  | [] => Ok ([], c)
  | (k, x) :: l' =>
    do r <- write_object pretty vec (mkW (indent c) false) x;
    do r' <- each (mkW (indent (snd r)) true) l';
    Ok (write_comma pretty c ++ 34 :: k ++ (if pretty then [34; 32; 58; 32] else [34; 58]) ++ fst r ++ fst r', snd r')
  end.
Lemma write_arr c l : write_object pretty vec c (JArr l) =
  do r <- (let (t1, c1) := begin_group pretty c 91 in do r <- each_arr c1 l; let (t3, c3) := end_group pretty (snd r) 93 in Ok (t1 ++ fst r ++ t3, c3));
  Ok (write_comma pretty c ++ fst r, mkW (indent (snd r)) true).
Proof. reflexivity. Qed.
Lemma write_obj c l : write_object pretty vec c (JObj l) =
  do r <- (let (t1, c1) := begin_group pretty c 123 in do r <- each_obj c1 l; let (t3, c3) := end_group pretty (snd r) 125 in Ok (t1 ++ fst r ++ t3, c3));
  Ok (write_comma pretty c ++ fst r, mkW (indent (snd r)) true).
Proof. reflexivity. Qed.
(** What is written for a value. *)
Definition writes (v : json) : Prop := forall c, exists s, write_object pretty vec c v = Ok (write_comma pretty c ++ s, mkW (indent c) true) /\ text vec v s.
Lemma begin_ok c d : begin_group pretty c d = (d :: sep (if pretty then S (indent c) else indent c), mkW (if pretty then S (indent c) else indent c) false).
Proof. unfold begin_group, sep. destruct pretty; reflexivity. Qed.
Lemma end_ok n b d : end_group pretty (mkW n b) d = (sep (pred n) ++ [d], mkW (if pretty then pred n else n) b).
Proof. unfold end_group, sep. cbn. destruct pretty; reflexivity. Qed.
(** The elements after the first one. *)
Lemma each_arr_ok l : Forall writes l -> forall n, exists t, each_arr (mkW n true) l = Ok (t, mkW n true) /\
  forall x s w w', Forall white w -> Forall white w' -> text vec x s -> elements vec (x :: l) (w ++ s ++ t ++ w').
Proof.
  induction 1 as [|y l Hy F IH]; intros n.
  - exists []. split; [reflexivity|]. intros x s w w' W W' T. cbn [app]. now apply e_one.
  - destruct (Hy (mkW n true)) as (sy & Ey & Ty). destruct (IH n) as (t & Et & Ht). cbn [each_arr]. rewrite Ey. cbn [obind snd fst indent]. fold each_arr. rewrite Et. cbn [obind fst snd].
    eexists. split; [reflexivity|]. intros x s w w' W W' T. rewrite comma_true.
    replace (w ++ s ++ (((44 :: sep n) ++ sy) ++ t) ++ w') with (w ++ s ++ [] ++ 44 :: (sep n ++ sy ++ t ++ w')) by (repeat (rewrite <- ?app_assoc; cbn [app]); reflexivity).
    apply e_cons; auto. apply Ht; auto. apply white_sep.
Qed.
Lemma arr_ok l : Forall writes l -> writes (JArr l).
Proof.
  intros F c. rewrite write_arr, begin_ok. set (m := if pretty then S (indent c) else indent c). assert (M: (if pretty then pred m else m) = indent c) by (unfold m; destruct pretty; reflexivity).
  destruct F as [|x l Hx F].
  - cbn [each_arr obind fst snd]. rewrite end_ok. cbn [obind fst snd indent]. rewrite M. eexists. split; [reflexivity|].
    replace ((91 :: sep m) ++ [] ++ sep (pred m) ++ [93]) with (91 :: (sep m ++ sep (pred m)) ++ [93]) by (cbn [app]; rewrite <- app_assoc; reflexivity). apply t_arr0. apply Forall_app. split; apply white_sep.
  - destruct (Hx (mkW m false)) as (sx & Ex & Tx). destruct (each_arr_ok l F m) as (t & Et & Ht). cbn [each_arr]. rewrite Ex. cbn [obind snd fst indent]. fold each_arr. rewrite Et. cbn [obind fst snd]. rewrite end_ok. cbn [obind fst snd indent]. rewrite M. eexists. split; [reflexivity|].
    change (write_comma pretty (mkW m false)) with (@nil N).
    replace ((91 :: sep m) ++ (([] ++ sx) ++ t) ++ sep (pred m) ++ [93]) with (91 :: (sep m ++ sx ++ t ++ sep (pred m)) ++ [93]) by (repeat (rewrite <- ?app_assoc; cbn [app]); reflexivity).
    apply t_arr. apply Ht; auto using white_sep.
Qed.
(** Keys. *)
Lemma plain_items cs : Forall char_ok cs -> ~ In 34 cs -> ~ In 92 cs -> items cs (encode cs).
Proof.
  induction 1 as [|c cs C F IH]; intros A B; [constructor|]. rewrite encode_cons. constructor; [apply i_plain; auto; intros E; subst; [apply A|apply B]; now left|]. apply IH; intros X; [apply A|apply B]; now right.
Qed.
Lemma key_items k : plain_key k -> exists cs, items cs k /\ encode cs = k.
Proof. intros (cs & F & -> & A & B). exists cs. split; [now apply plain_items|reflexivity]. Qed.
Definition colon1 : list N := if pretty then [32] else [].
Lemma white_colon : Forall white colon1. Proof. unfold colon1. destruct pretty; repeat constructor. Qed.
Lemma colon_eq k r : 34 :: k ++ (if pretty then [34; 32; 58; 32] else [34; 58]) ++ r = (34 :: k ++ [34]) ++ colon1 ++ 58 :: colon1 ++ r.
Proof. unfold colon1. destruct pretty; repeat (rewrite <- ?app_assoc; cbn [app]); reflexivity. Qed.
Lemma each_obj_ok l : Forall (fun p => plain_key (fst p)) l -> Forall (fun p => writes (snd p)) l -> forall n, exists t, each_obj (mkW n true) l = Ok (t, mkW n true) /\
  forall k x s w w', plain_key k -> Forall white w -> Forall white w' -> text vec x s -> members vec ((k, x) :: l) (w ++ (34 :: k ++ (if pretty then [34; 32; 58; 32] else [34; 58]) ++ s ++ t) ++ w').
Proof.
  induction l as [|(k' & y) l IH]; intros FK FW n.
  - exists []. split; [reflexivity|]. intros k x s w w' K W W' T. destruct (key_items k K) as (cs & I & E). rewrite colon_eq, app_nil_r.
    replace (w ++ ((34 :: k ++ [34]) ++ colon1 ++ 58 :: colon1 ++ s) ++ w') with (w ++ (34 :: k ++ [34]) ++ colon1 ++ 58 :: colon1 ++ s ++ w') by (repeat (rewrite <- ?app_assoc; cbn [app]); reflexivity).
    rewrite <- E at 1. apply m_one; auto using white_colon.
  - inversion FK as [|? ? Kk FK']; subst. inversion FW as [|? ? Hy FW']; subst. cbn [fst snd] in *. destruct (Hy (mkW n false)) as (sy & Ey & Ty). destruct (IH FK' FW' n) as (t & Et & Ht). cbn [each_obj]. cbn [indent]. rewrite Ey. cbn [obind snd fst indent]. fold each_obj. rewrite Et. cbn [obind fst snd].
    eexists. split; [reflexivity|]. intros k x s w w' K W W' T. destruct (key_items k K) as (cs & I & E). rewrite colon_eq, comma_true. change (write_comma pretty (mkW n false)) with (@nil N). cbn [app].
    match goal with |- members _ _ ?b => replace b
      with (w ++ (34 :: k ++ [34]) ++ colon1 ++ 58 :: colon1 ++ s ++ [] ++ 44 :: (sep n ++ (34 :: k' ++ (if pretty then [34; 32; 58; 32] else [34; 58]) ++ sy ++ t) ++ w')) by (repeat (rewrite <- ?app_assoc; cbn [app]); reflexivity) end.
    rewrite <- E at 1. apply m_cons; auto using white_colon. apply Ht; auto using white_sep.
Qed.
Lemma distinct_object l : NoDup (map fst l) -> object_of l l.
Proof.
  intros Nd. assert (G: forall seen, (forall k, In k seen -> ~ In k (map fst l)) -> first_keys seen l = map fst l).
  { clear - Nd. induction l as [|(k & v) l IH]; intros seen S; [reflexivity|]. cbn [first_keys map fst] in *. inversion Nd as [|? ? Nk Nl]; subst. destruct (in_dec _ k seen) as [X|X]; [exfalso; apply (S k X); now left|].
    f_equal. apply IH; auto. intros k' [<-|X'] Y; auto. apply (S k' X'). now right. }
  split; [symmetry; apply G; intros k []|]. intros k v H. unfold member_of.
  destruct (find _ (rev l)) as [(k' & v')|] eqn:Ef.
  - apply find_some in Ef. destruct Ef as (Hi & Hk). cbn [fst snd] in *. destruct (list_eq_dec N.eq_dec k' k) as [->|]; [|discriminate]. apply in_rev in Hi. f_equal.
    clear - Nd H Hi. induction l as [|(a & b) l IH]; [destruct H|]. cbn [map fst] in Nd. inversion Nd as [|? ? Na Nl]; subst. destruct H as [H|H], Hi as [J|J].
    + congruence.
    + injection H as -> ->. exfalso. apply Na. change k with (fst (k, v')). now apply in_map.
    + injection J as -> ->. exfalso. apply Na. change k with (fst (k, v)). now apply in_map.
    + auto.
  - exfalso. pose proof (find_none _ _ Ef (k, v)) as X. cbn [fst] in X. rewrite <- in_rev in X. specialize (X H). destruct (list_eq_dec N.eq_dec k k); congruence.
Qed.
Lemma obj_ok l : Forall (fun p => plain_key (fst p)) l -> Forall (fun p => writes (snd p)) l -> NoDup (map fst l) -> writes (JObj l).
Proof.
  intros FK FW Nd%distinct_object c. rewrite write_obj, begin_ok. set (m := if pretty then S (indent c) else indent c). assert (M: (if pretty then pred m else m) = indent c) by (unfold m; destruct pretty; reflexivity).
  destruct l as [|(k & x) l].
  - cbn [each_obj obind fst snd]. rewrite end_ok. cbn [obind fst snd indent]. rewrite M. eexists. split; [reflexivity|].
    replace ((123 :: sep m) ++ [] ++ sep (pred m) ++ [125]) with (123 :: (sep m ++ sep (pred m)) ++ [125]) by (cbn [app]; rewrite <- app_assoc; reflexivity). apply t_obj0. apply Forall_app. split; apply white_sep.
  - inversion FK as [|? ? Kk FK']; subst. inversion FW as [|? ? Hx FW']; subst. cbn [fst snd] in *.
    destruct (Hx (mkW m false)) as (sx & Ex & Tx). destruct (each_obj_ok l FK' FW' m) as (t & Et & Ht). cbn [each_obj]. cbn [indent]. rewrite Ex. cbn [obind snd fst indent]. fold each_obj. rewrite Et. cbn [obind fst snd]. rewrite end_ok. cbn [obind fst snd indent]. rewrite M. eexists. split; [reflexivity|].
    change (write_comma pretty (mkW m false)) with (@nil N). cbn [app].
    match goal with |- text _ _ ?b => replace b
      with (123 :: (sep m ++ (34 :: k ++ (if pretty then [34; 32; 58; 32] else [34; 58]) ++ sx ++ t) ++ sep (pred m)) ++ [125]) by (repeat (rewrite <- ?app_assoc; cbn [app]); reflexivity) end.
    apply (t_obj _ ((k, x) :: l)); auto. apply Ht; auto using white_sep.
Qed.
Theorem write_ok v : writable vec plain_key v -> writes v.
Proof.
  induction v using json_induction; intros W; inversion W; subst.
  - intros c. eexists. split; [reflexivity|constructor].
  - intros c. eexists. split; [reflexivity|]. destruct b; constructor.
  - intros c. eexists. split; [reflexivity|]. constructor. now apply print_number.
  - intros c. cbn [write_object]. destruct vec eqn:V; [|discriminate]. eexists. split; [reflexivity|]. cbn [fst]. rewrite <- (ints_not_real l) by auto. apply t_vec; auto. apply (fun a b => print_numbers l a b [] (Forall_nil _)); auto. intros ->; cbn in *; lia.
  - intros c. destruct (write_string cs) as (t & E & I); auto. cbn [write_object]. rewrite E. cbn [obind]. eexists. split; [reflexivity|]. now constructor.
  - apply arr_ok. match goal with A : Forall _ l, B : Forall (writable _ _) l |- _ => clear - A B; induction A; inversion B; subst; constructor; auto end.
  - apply obj_ok; auto. match goal with A : Forall (fun p => writable _ _ (snd p) -> _) l, B : Forall (fun p => writable _ _ (snd p)) l |- _ => clear - A B; induction A; inversion B; subst; constructor; auto end.
Qed.
(** The whole text. *)
Theorem write_text v : writable vec plain_key v -> exists s w, json_write pretty vec v = Ok (s ++ w) /\ text vec v s /\ Forall white w.
Proof.
  intros W. destruct (write_ok v W (mkW 0 false)) as (s & E & T). unfold json_write. rewrite E. cbn [obind fst]. exists s, (if pretty then [10] else []). split; [reflexivity|]. split; auto. destruct pretty; constructor; [right; lia|constructor].
Qed.
Theorem round_trip v : writable vec plain_key v -> exists t w, json_write pretty vec v = Ok t /\ json_parse vec t = Ok v /\
  Forall white w /\ parse_object (2 * length t + 3) vec (t ++ [0]) = Ok (PVal v, w ++ [0]).
Proof.
  intros W. destruct (write_text v W) as (s & w & E & T & Ww). exists (s ++ w), w. split; [auto|].
  pose proof (parse_json vec v s [] w T (Forall_nil _) Ww) as A. pose proof (parse_text vec v s [] w T (Forall_nil _) Ww) as B. cbn [app] in A, B. auto.
Qed.
End Write.
