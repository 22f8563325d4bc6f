(** Comparing numbers, and conversions forth and back. *)
Require Import Coq.ZArith.ZArith Coq.QArith.QArith Coq.QArith.Qabs Coq.Lists.List Coq.Bool.Bool Coq.micromega.Lia Coq.micromega.Lqa.
Require Import Verif.Base Verif.Number_Model Verif.Number_Spec Verif.Number_Proofs Verif.Real_Model Verif.Real_Spec Verif.Real_Proofs Verif.Real_Meaning Verif.Real_Conv.
Import ListNotations.
Local Open Scope Z_scope.

Lemma inject_qv : forall z m, (inject_Z z == qv m)%Q <-> z * one = m.
Proof. intros z m. rewrite <- (qv_int z). symmetry. apply qv_eq. Qed.
Lemma agree_inf : forall f b (neg : bool), pattern (layout_of f) b -> meaning (layout_of f) b = (if neg then Minus else Plus) -> decode f b = Inf neg.
Proof. intros f b neg Hb Hm. pose proof (meaning_decode f b Hb) as A. rewrite Hm in A. destruct (decode f b) as [|[]|[] m]; destruct neg; cbn in A; try contradiction; reflexivity. Qed.
Lemma meaning_inf : forall f (neg : bool), meaning (layout_of f) (with_sign f neg (inf f)) = if neg then Minus else Plus.
Proof.
  intros f neg. assert (HI : 0 < inf f) by (destruct f; reflexivity). pose proof (meaning_decode f _ (with_sign_pattern f neg (inf f) ltac:(lia))) as A. rewrite decode_with_sign in A by lia. rewrite Z.ltb_irrefl in A.
  destruct (meaning (layout_of f) (with_sign f neg (inf f))); destruct neg; cbn in A; try contradiction; reflexivity.
Qed.
Lemma same_trans : forall a b c, same a b -> same b c -> same a c.
Proof. intros [| |p|] [| |q|] [| |r|]; cbn; try tauto. intros A B. now rewrite A. Qed.
Lemma same_sym : forall a b, same a b -> same b a.
Proof. intros [| |p|] [| |q|]; cbn; try tauto. intros A. now symmetry. Qed.
Lemma same_refl : forall a, proper a -> same a a.
Proof. intros [| |q|] H; cbn; try exact Logic.I; [now apply H|reflexivity]. Qed.

Lemma int_to_float : forall f z y', pattern (layout_of f) y' -> same (meaning (layout_of f) y') (Real (inject_Z z)) -> exists c, 0 <= c < inf f /\ of_int f z = with_sign f (z <? 0) c /\ mag f c = Z.abs z * one.
Proof.
  intros f z y' P S1. destruct (meaning (layout_of f) y') as [| |q|] eqn:M; cbn in S1; try contradiction. destruct (agree_real f y' q P M) as (neg & c & Hc & _ & _ & E). rewrite S1 in E. apply (proj1 (inject_qv _ _)) in E.
  pose proof (mag_pos f c ltac:(lia)) as MP. pose proof one_pos as HO.
  assert (X : mag f c = Z.abs z * one) by (replace (Z.abs z * one) with (Z.abs (z * one)) by (rewrite Z.abs_mul, (Z.abs_eq one); lia); rewrite E; unfold sval; destruct neg; lia). exists c. split; [exact Hc|]. split; [|exact X]. apply of_int_exact; [lia|exact X].
Qed.
Lemma float_to_float : forall f g y y', pattern (layout_of g) y -> pattern (layout_of f) y' -> same (meaning (layout_of f) y') (meaning (layout_of g) y) ->
  pattern (layout_of f) (to_fmt f (decode g y)) /\ same (meaning (layout_of f) (to_fmt f (decode g y))) (meaning (layout_of g) y).
Proof.
  intros f g y y' Py Py' S1. assert (HI : 0 < inf f) by (destruct f; reflexivity). destruct (meaning (layout_of g) y) as [| |r|] eqn:M.
  - destruct (meaning (layout_of f) y'); destruct S1.
  - rewrite (agree_inf g y true Py M). cbn [to_fmt]. split; [apply with_sign_pattern; lia|]. rewrite meaning_inf. exact Logic.I.
  - destruct (meaning (layout_of f) y') as [| |q|] eqn:M'; cbn in S1; try contradiction.
    destruct (agree_real g y r Py M) as (neg & c & Hc & _ & D & E). destruct (agree_real f y' q Py' M') as (neg' & c' & Hc' & _ & _ & E'). rewrite D. cbn [to_fmt].
    rewrite S1, E in E'. apply (proj2 (qv_eq _ _)) in E'. pose proof (mag_pos g c ltac:(lia)). pose proof (mag_pos f c' ltac:(lia)). assert (X : mag g c = mag f c') by (unfold sval in E'; destruct neg, neg'; lia).
    assert (R : round f (mag g c) 1 = c') by (rewrite X; rewrite <- (Z.mul_1_r (mag f c')); apply round_exact; lia). rewrite R. split; [apply with_sign_pattern; lia|].
    destruct (meaning_fin f neg c' Hc') as (q' & M2 & E2). rewrite M2. cbn [same]. rewrite E2, E, X. reflexivity.
  - rewrite (agree_inf g y false Py M). cbn [to_fmt]. split; [apply with_sign_pattern; lia|]. rewrite meaning_inf. exact Logic.I.
Qed.
Lemma same_fmt_eq : forall f g, same_fmt f g = true -> f = g. Proof. intros [] []; cbn; congruence. Qed.

(** A number that the other type has is converted to it. *)
Lemma cast_same : forall ta tb y, element tb y -> (match ta with TI t => integer_type t | TF _ => True end) -> can_hold ta (value_of tb y) -> exists x, cast tb ta y = Ok x /\ element ta x /\ same (value_of ta x) (value_of tb y).
Proof.
  intros ta tb y Hy Ht (y' & Hy' & S1). destruct ta as [t|f]; destruct tb as [s|g]; cbn [cast value_of element] in *.
  - cbn in S1. assert (y' = y) by (apply inject_Z_injective; exact S1). subst y'. exists y. rewrite cast_id by tauto. split; [reflexivity|]. split; [exact Hy'|reflexivity].
  - destruct (meaning (layout_of g) y) as [| |r|] eqn:M; cbn in S1; try contradiction. destruct (to_int_ok g t y r Ht Hy M) as (z & T & C).
    assert (z = y') by (apply (truncated_unique r); [exact T|]; eapply truncated_compat; [symmetry; exact S1|apply trunc_int]). subst z.
    destruct C as [(_ & C)|(C & _)]; [|tauto]. exists y'. split; [exact C|]. split; [exact Hy'|]. exact S1.
  - destruct (int_to_float f y y' Hy' S1) as (c & Hc & O & M). exists (of_int f y). split; [reflexivity|]. rewrite O. split; [apply with_sign_pattern; lia|].
    destruct (meaning_fin f (y <? 0) c Hc) as (q & M2 & E2). rewrite M2. cbn [same]. rewrite E2, M. rewrite <- qv_int. apply (proj1 (qv_eq _ _)). unfold sval. destruct (Z.ltb_spec y 0); lia.
  - destruct (same_fmt g f) eqn:SF.
    + apply same_fmt_eq in SF. subst g. exists y. split; [reflexivity|]. split; [exact Hy|]. apply same_refl. intros N. rewrite N in S1. destruct (meaning (layout_of f) y'); destruct S1.
    + exists (to_fmt f (decode g y)). split; [reflexivity|]. now apply float_to_float with y'.
Qed.

Lemma flt_before : forall x y ex ey, agree x ex -> agree y ey -> (flt x y = true <-> before ex ey).
Proof.
  intros x y ex ey Ax Ay. destruct x as [|[]|a m], y as [|[]|b n]; destruct ex as [| |q|], ey as [| |r|]; cbn in Ax, Ay; try contradiction; cbn [flt before andb negb];
    try (split; intros; (exact Logic.I || reflexivity || discriminate || contradiction)).
  destruct Ax as (_ & Eq), Ay as (_ & Er). rewrite Z.ltb_lt. rewrite Eq, Er. apply qv_lt.
Qed.
Lemma lt_before : forall t x y, element t x -> element t y -> (lt t x y = true <-> before (value_of t x) (value_of t y)).
Proof.
  intros [t|f] x y Hx Hy; cbn [lt value_of element] in *.
  - cbn. rewrite Z.ltb_lt. rewrite Zlt_Qlt. reflexivity.
  - apply flt_before; now apply meaning_decode.
Qed.
Lemma before_same_l : forall a b c, same a b -> before b c -> before a c.
Proof. intros [| |p|] [| |q|] [| |r|]; cbn; try tauto. intros A B. now rewrite A. Qed.
Lemma before_same_r : forall a b c, before a b -> same b c -> before a c.
Proof. intros [| |p|] [| |q|] [| |r|]; cbn; try tauto. intros A B. now rewrite <- B. Qed.
Lemma before_total : forall a b, proper a -> proper b -> before a b \/ same a b \/ before b a.
Proof.
  intros [| |p|] [| |q|] Ha Hb; cbn; try tauto; try (now destruct (Ha eq_refl)); try (now destruct (Hb eq_refl)). destruct (Q_dec p q) as [[H|H]|H]; auto.
Qed.
Lemma before_not : forall a b, before a b -> ~ same a b /\ ~ before b a.
Proof. intros [| |p|] [| |q|]; cbn; try tauto. intros H. split; lra. Qed.

(** The three possible results. *)
Definition result (c : Z) (x y : list ext) : Prop := (c = 1 /\ first x y) \/ (c = -1 /\ first y x) \/ (c = 0 /\ Forall2 same x y).
Lemma cmp_ok : forall ta tb, (match ta with TI t => integer_type t | TF _ => True end) -> forall xs ys, length xs = length ys -> Forall (element ta) xs -> Forall (element tb) ys ->
  Forall (fun x => proper (value_of ta x)) xs -> Forall (fun y => can_hold ta (value_of tb y)) ys ->
  exists c, cmp_loop ta tb xs ys = Ok c /\ result c (map (value_of ta) xs) (map (value_of tb) ys).
Proof.
  intros ta tb Ht. induction xs as [|x xs IH]; intros [|y ys] HL HX HY HP HC; try discriminate.
  - exists 0. split; [reflexivity|]. right. right. split; [reflexivity|constructor].
  - cbn [cmp_loop map]. pose proof (Forall_inv HX) as X1. pose proof (Forall_inv HY) as Y1. pose proof (Forall_inv HP) as P1. pose proof (Forall_inv HC) as C1. cbv beta in P1, C1.
    destruct (cast_same ta tb y Y1 Ht C1) as (z & CZ & EZ & SZ). rewrite CZ. cbn [obind].
    assert (PZ : proper (value_of ta z)) by (intros N; rewrite N in SZ; destruct (value_of tb y); destruct SZ).
    pose proof (lt_before ta x z X1 EZ) as B1. pose proof (lt_before ta z x EZ X1) as B2.
    destruct (lt ta x z) eqn:L1.
    { exists 1. split; [reflexivity|]. left. split; [reflexivity|]. apply first_here. eapply before_same_r; [now apply B1|exact SZ]. }
    destruct (lt ta z x) eqn:L2.
    { exists (-1). split; [reflexivity|]. right. left. split; [reflexivity|]. apply first_here. eapply before_same_l; [apply same_sym; exact SZ|now apply B2]. }
    destruct (IH ys ltac:(now injection HL) (Forall_inv_tail HX) (Forall_inv_tail HY) (Forall_inv_tail HP) (Forall_inv_tail HC)) as (c & E & R). exists c. split; [exact E|].
    assert (SM : same (value_of ta x) (value_of ta z)). { destruct (before_total _ _ P1 PZ) as [H|[H|H]]; [apply B1 in H; congruence|exact H|apply B2 in H; congruence]. }
    pose proof (same_trans _ _ _ SM SZ) as SM2. destruct R as [(-> & R)|[(-> & R)|(-> & R)]].
    + left. split; [reflexivity|]. now apply first_later.
    + right. left. split; [reflexivity|]. apply first_later; [now apply same_sym|exact R].
    + right. right. split; [reflexivity|]. now constructor.
Qed.
Lemma first_not : forall x y, first x y -> ~ first y x /\ ~ Forall2 same x y.
Proof.
  induction 1 as [x y xs ys B|x y xs ys S1 F IH].
  - destruct (before_not _ _ B) as (N1 & N2). split.
    + intros H. inversion H; subst; [tauto|]. apply N1. now apply same_sym.
    + intros H. inversion H; subst. tauto.
  - destruct IH as (I1 & I2). split.
    + intros H. inversion H as [? ? ? ? B|]; subst; [|tauto]. destruct (before_not _ _ B) as (N1 & _). apply N1. now apply same_sym.
    + intros H. inversion H; subst. tauto.
Qed.
Lemma same_all_sym : forall x y, Forall2 same x y -> Forall2 same y x.
Proof. induction 1; constructor; auto. now apply same_sym. Qed.
Lemma result_iff : forall c x y, result c x y -> (c = 1 <-> first x y) /\ (c = -1 <-> first y x) /\ (c = 0 <-> Forall2 same x y).
Proof.
  intros c x y [(-> & F)|[(-> & F)|(-> & F)]].
  - destruct (first_not _ _ F) as (A & B). repeat split; intros; try discriminate; tauto.
  - destruct (first_not _ _ F) as (A & B). repeat split; intros; try discriminate; try tauto. exfalso. apply B. now apply same_all_sym.
  - repeat split; intros H; try discriminate; try tauto; exfalso; destruct (first_not _ _ H) as (A & B); apply B; [exact F|now apply same_all_sym].
Qed.
Theorem compare_ok : forall a b, (match rty a with TI t => integer_type t | TF _ => True end) -> length (elems a) = length (elems b) -> Forall (element (rty a)) (elems a) -> Forall (element (rty b)) (elems b) ->
  Forall (fun x => proper (value_of (rty a) x)) (elems a) -> Forall (fun y => can_hold (rty a) (value_of (rty b) y)) (elems b) ->
  exists c, compare a b = Ok c /\ (c = 1 <-> first (map (value_of (rty a)) (elems a)) (map (value_of (rty b)) (elems b))) /\ (c = -1 <-> first (map (value_of (rty b)) (elems b)) (map (value_of (rty a)) (elems a))) /\
    (c = 0 <-> Forall2 same (map (value_of (rty a)) (elems a)) (map (value_of (rty b)) (elems b))).
Proof.
  intros a b Ht HL HA HB HP HC. unfold compare. rewrite HL, Nat.eqb_refl. destruct (cmp_ok (rty a) (rty b) Ht _ _ HL HA HB HP HC) as (c & E & R). exists c. split; [exact E|]. now apply result_iff.
Qed.
Theorem compare_same_ok : forall t xs ys, (match t with TI t => integer_type t | TF _ => True end) -> length xs = length ys -> Forall (element t) xs -> Forall (element t) ys ->
  Forall (fun x => proper (value_of t x)) (xs ++ ys) ->
  exists c, compare (mkR t xs) (mkR t ys) = Ok c /\ (c = 1 <-> first (map (value_of t) xs) (map (value_of t) ys)) /\ (c = -1 <-> first (map (value_of t) ys) (map (value_of t) xs)) /\ (c = 0 <-> Forall2 same (map (value_of t) xs) (map (value_of t) ys)).
Proof.
  intros t xs ys Ht HL HX HY HP. apply Forall_app in HP. destruct HP as (P1 & P2). apply (compare_ok (mkR t xs) (mkR t ys)); cbn [rty elems]; auto.
  rewrite Forall_forall in *. intros y Hy. exists y. split; [now apply HY|]. apply same_refl. now apply P2.
Qed.

(** Forth and back. *)
Theorem int_back : forall f t z, integer_type t -> holds t z -> significant (prec f) z -> exists b, cast (TI t) (TF f) z = Ok b /\ same (value_of (TF f) b) (Real (inject_Z z)) /\ cast (TF f) (TI t) b = Ok z.
Proof.
  intros f t z Ht Hz HS. destruct (repr_int f z HS (holds_64 t z Ht Hz)) as (c & Hc & M). exists (of_int f z). split; [reflexivity|]. rewrite (of_int_exact f z c) by (lia || exact M).
  destruct (meaning_fin f (z <? 0) c Hc) as (q & M2 & E2). assert (X : (q == inject_Z z)%Q). { rewrite E2, M, <- qv_int. apply (proj1 (qv_eq _ _)). unfold sval. destruct (Z.ltb_spec z 0); lia. }
  cbn [value_of cast]. rewrite M2. split; [exact X|]. destruct (to_int_ok f t _ q Ht (with_sign_pattern f (z <? 0) c ltac:(lia)) M2) as (y & T & C).
  assert (y = z) by (apply (truncated_unique q); [exact T|]; eapply truncated_compat; [exact X|apply trunc_int]). subst y. destruct C as [(_ & C)|(C & _)]; [exact C|tauto].
Qed.
Lemma single_small : forall c, 0 <= c < inf Single -> mag Single c <= mag Double (inf Double - 1).
Proof.
  intros c Hc. apply Z.le_trans with (2 ^ 128 * one).
  - apply Z.lt_le_incl. eapply Z.lt_le_trans; [apply (mag_mono Single c (inf Single)); lia|]. rewrite inf_eq. replace (top Single * hid Single) with ((1178 + 1 - unit Single) * hid Single + hid Single) by (cbn [top unit]; lia).
    rewrite mag_form; [|cbn [unit]; lia|pose proof (hid_pos Single); lia|right; lia]. change (hid Single) with (2 ^ 23). rewrite one_pow, <- !Z.pow_add_r by lia. apply Z.pow_le_mono_r; lia.
  - apply big_double. split; [apply Z.pow_nonneg; lia|]. apply Z.pow_le_mono_r; lia.
Qed.
Lemma widen : forall c, 0 <= c < inf Single -> exists d, 0 <= d < inf Double /\ mag Double d = mag Single c.
Proof.
  intros c Hc. destruct (form_of Single c ltac:(lia)) as (q & k & Q1 & K1 & C1 & E). destruct (repr_raw Double k q) as (d & Hd & M).
  - change (hid Single) with (2 ^ 23) in K1. change (hid Double) with (2 ^ 52). assert (2 ^ 23 <= 2 ^ 52) by (apply Z.pow_le_mono_r; lia). lia.
  - cbn [unit prec] in *. lia.
  - assert (X : mag Double d = mag Single c). { rewrite M, E. symmetry. apply mag_form; [exact Q1|lia|exact C1]. }
    exists d. split; [|exact X]. split; [exact Hd|]. pose proof (single_small c Hc) as L. rewrite <- X in L. apply mag_le_inv in L; [lia|lia|vm_compute; discriminate].
Qed.
Theorem float_back : forall b, pattern float b -> proper (meaning float b) -> exists d, cast (TF Single) (TF Double) b = Ok d /\ same (value_of (TF Double) d) (value_of (TF Single) b) /\ cast (TF Double) (TF Single) d = Ok b.
Proof.
  intros b Hb HP. cbn [cast same_fmt value_of]. pose proof (meaning_decode Single b Hb) as A. change (layout_of Single) with float in *. eexists. split; [reflexivity|].
  destruct (pattern_form Single b Hb) as (neg & c & Hc & E). { intros N. rewrite N in A. destruct (meaning float b); cbn in A; try contradiction; now apply HP. }
  rewrite E. rewrite decode_with_sign by exact Hc. destruct (Z.ltb_spec c (inf Single)) as [L|L].
  - destruct (widen c ltac:(lia)) as (d & Hd & M). cbn [to_fmt]. assert (R : round Double (mag Single c) 1 = d) by (rewrite <- M, <- (Z.mul_1_r (mag Double d)); apply round_exact; lia). rewrite R.
    split.
    + destruct (meaning_fin Double neg d Hd) as (q & M1 & E1). destruct (meaning_fin Single neg c ltac:(lia)) as (r & M2 & E2). change (layout_of Single) with float in M2. rewrite M1, M2. cbn [same]. rewrite E1, E2, M. reflexivity.
    + rewrite decode_with_sign by lia. destruct (Z.ltb_spec d (inf Double)); [|lia]. rewrite M. cbn [to_fmt]. rewrite <- (Z.mul_1_r (mag Single c)). rewrite round_exact by lia. reflexivity.
  - assert (c = inf Single) by lia. subst c. cbn [to_fmt]. split.
    + rewrite (meaning_inf Double neg). pose proof (meaning_inf Single neg) as MI. change (layout_of Single) with float in MI. rewrite MI. destruct neg; exact Logic.I.
    + assert (0 < inf Double) by reflexivity. rewrite decode_with_sign by lia. rewrite Z.ltb_irrefl. reflexivity.
Qed.
