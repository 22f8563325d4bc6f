(** Proofs about numbers. *)
Require Import Coq.ZArith.ZArith Coq.Lists.List Coq.Arith.Arith Coq.Bool.Bool Coq.micromega.Lia.
Require Import Verif.Base Verif.Number_Model Verif.Number_Spec.
Import ListNotations.
Local Open Scope Z_scope.

(** ** Bytes *)
Lemma le_length w z : length (le w z) = w.
Proof. revert z. induction w; intros; cbn; auto. Qed.
Lemma pow_S w : 256 ^ Z.of_nat (S w) = 256 * 256 ^ Z.of_nat w.
Proof. rewrite Nat2Z.inj_succ, Z.pow_succ_r by lia. reflexivity. Qed.
Lemma pow_pos w : 0 < 256 ^ Z.of_nat w.
Proof. apply Z.pow_pos_nonneg; lia. Qed.
Lemma unle_le w z : unle (le w z) = z mod 256 ^ Z.of_nat w.
Proof.
  revert z. induction w as [|w IH]; intros z; cbn [le unle].
  - change (256 ^ Z.of_nat 0) with 1. now rewrite Z.mod_1_r.
  - rewrite IH, pow_S. pose proof (pow_pos w). rewrite Z.rem_mul_r by lia. lia.
Qed.
Lemma le_mod w z k : le w (z + k * 256 ^ Z.of_nat w) = le w z.
Proof.
  revert z k. induction w as [|w IH]; intros z k; auto. cbn [le]. rewrite pow_S. pose proof (pow_pos w).
  replace (z + k * (256 * 256 ^ Z.of_nat w)) with (z + (k * 256 ^ Z.of_nat w) * 256) by lia.
  rewrite Z.mod_add, Z.div_add by lia. f_equal. rewrite <- (IH (z / 256) k). reflexivity.
Qed.
Lemma unle_range bs : Forall (fun b => 0 <= b < 256) bs -> 0 <= unle bs < 256 ^ Z.of_nat (length bs).
Proof.
  induction 1 as [|b bs H _ IH]; cbn [unle length]; [change (256 ^ Z.of_nat 0) with 1; lia|]. rewrite pow_S. lia.
Qed.
Lemma le_unle bs : Forall (fun b => 0 <= b < 256) bs -> le (length bs) (unle bs) = bs.
Proof.
  induction 1 as [|b bs H _ IH]; auto. cbn [le unle length]. f_equal.
  - rewrite Z.mul_comm, Z.mod_add by lia. now apply Z.mod_small.
  - replace (b + 256 * unle bs) with (b + unle bs * 256) by lia. rewrite Z.div_add, Z.div_small by lia. exact IH.
Qed.
Lemma full_bits t : full t = 2 ^ bits t.
Proof. unfold full, bits. rewrite Z.pow_mul_r by lia. reflexivity. Qed.
Lemma full_pos t : 0 < full t.
Proof. apply pow_pos. Qed.
Lemma half t : integer_type t -> 2 ^ bits t = 2 * 2 ^ (bits t - 1) /\ 2 ^ bits t / 2 = 2 ^ (bits t - 1) /\ 0 < 2 ^ (bits t - 1).
Proof.
  intros I. assert (1 <= bits t) by (unfold integer_type, bits in *; cbn in I; lia).
  assert (E: 2 ^ bits t = 2 * 2 ^ (bits t - 1)) by (rewrite <- Z.pow_succ_r by lia; f_equal; lia).
  split; auto. rewrite E. split; [|apply Z.pow_pos_nonneg; lia]. rewrite Z.mul_comm. apply Z.div_mul. lia.
Qed.
Lemma of_bytes_holds t bs : integer_type t -> length bs = width t -> Forall (fun b => 0 <= b < 256) bs ->
  holds t (of_bytes t bs) /\ exists k, of_bytes t bs = unle bs + k * full t.
Proof.
  intros I L B. destruct (half t I) as (H1 & H2 & H3). pose proof (unle_range bs B) as R. rewrite L in R. change (256 ^ Z.of_nat (width t)) with (full t) in R.
  unfold of_bytes, holds. rewrite full_bits in *. rewrite H2. destruct (signed t); cbn [andb].
  - destruct (Z.leb_spec (2 ^ (bits t - 1)) (unle bs)); (split; [lia|]); [exists (-1); lia|exists 0; lia].
  - split; [lia|]. exists 0. lia.
Qed.
Lemma le_bytes w z : Forall (fun b => 0 <= b < 256) (le w z).
Proof. revert z. induction w; intros; cbn; constructor; auto. apply Z.mod_pos_bound. lia. Qed.
Lemma cast_represents t z : integer_type t -> represents t z (cast t z).
Proof.
  intros I. unfold cast. destruct (of_bytes_holds t (le (width t) z) I (le_length _ _) (le_bytes _ _)) as (H & k & E). split; auto.
  rewrite unle_le in E. change (256 ^ Z.of_nat (width t)) with (full t) in E. rewrite E, <- full_bits. pose proof (full_pos t).
  exists (k - z / full t). rewrite (Z.mod_eq z (full t)) by lia. lia.
Qed.
Lemma holds_unique t y z k : integer_type t -> holds t y -> holds t z -> y = z + k * 2 ^ bits t -> y = z.
Proof.
  intros I Hy Hz E. destruct (half t I) as (H1 & _ & H3). unfold holds in *. assert (k = 0); [|subst; lia].
  destruct (signed t); nia.
Qed.
Lemma cast_id t z : integer_type t -> holds t z -> cast t z = z.
Proof. intros I H. destruct (cast_represents t z I) as (H' & k & E). eapply holds_unique; eauto. Qed.
Lemma le_cast t z : integer_type t -> le (width t) (cast t z) = le (width t) z.
Proof. intros I. destruct (cast_represents t z I) as (_ & k & ->). rewrite <- full_bits. apply le_mod. Qed.
Lemma width_pos t : integer_type t -> (0 < width t)%nat.
Proof. unfold integer_type. cbn. lia. Qed.
(** ** Elements in memory *)
Lemma load_mid t pre v post : load t (pre ++ le (width t) v ++ post) (length pre) = Ok (cast t v).
Proof.
  unfold load. rewrite !app_length, le_length. replace (length pre + width t <=? length pre + (width t + length post))%nat with true by (symmetry; apply Nat.leb_le; lia).
  rewrite skipn_app, skipn_all, Nat.sub_diag. cbn [app skipn]. rewrite firstn_app, le_length, Nat.sub_diag. cbn [firstn]. rewrite app_nil_r.
  rewrite firstn_all2 by (rewrite le_length; lia). reflexivity.
Qed.
Lemma store_mid t pre old post z : length old = width t -> store t (pre ++ old ++ post) (length pre) z = Ok (pre ++ le (width t) z ++ post).
Proof.
  intros L. unfold store. rewrite !app_length, L. replace (length pre + width t <=? length pre + (width t + length post))%nat with true by (symmetry; apply Nat.leb_le; lia).
  rewrite firstn_app, firstn_all, Nat.sub_diag. cbn [firstn]. rewrite app_nil_r. do 3 f_equal.
  rewrite app_assoc, skipn_app, app_length, L. rewrite skipn_all2 by (rewrite app_length; lia). rewrite Nat.sub_diag. reflexivity.
Qed.
Lemma flat_length t vs : length (flat_map (le (width t)) vs) = (width t * length vs)%nat.
Proof. induction vs as [|v vs IH]; cbn; [lia|]. rewrite app_length, le_length, IH. lia. Qed.
Lemma cast_loop_mid ts td : integer_type ts -> forall vs old spre spost dpre dpost, Forall (holds ts) vs -> length old = length vs ->
  cast_loop ts td (spre ++ flat_map (le (width ts)) vs ++ spost) (dpre ++ flat_map (le (width td)) old ++ dpost) (length spre) (length dpre) (length vs) =
  Ok (dpre ++ flat_map (le (width td)) vs ++ dpost).
Proof.
  intros I. induction vs as [|v vs IH]; intros [|o old] spre spost dpre dpost F L; try discriminate; [reflexivity|]. inversion_clear F. cbn [length cast_loop flat_map].
  rewrite <- !app_assoc. rewrite load_mid, cast_id by auto. cbn [obind]. rewrite store_mid by apply le_length. cbn [obind].
  specialize (IH old (spre ++ le (width ts) v) spost (dpre ++ le (width td) v) dpost H0 ltac:(cbn in L; lia)).
  rewrite !app_length, !le_length, <- !app_assoc in IH. exact IH.
Qed.
Lemma flat_split t vs i : flat_map (le (width t)) vs = flat_map (le (width t)) (firstn i vs) ++ flat_map (le (width t)) (skipn i vs).
Proof. rewrite <- flat_map_app, firstn_skipn. reflexivity. Qed.
Lemma skipn_skipn {A} x y (l : list A) : skipn x (skipn y l) = skipn (x + y) l.
Proof. rewrite Nat.add_comm. revert l. induction y as [|y IH]; intros l; auto. destruct l; cbn; auto. now rewrite skipn_nil. Qed.
(** Values [si ..] are put in the places [di ..]. *)
Lemma cast_loop_vals ts td vs old si di n : integer_type ts -> Forall (holds ts) vs -> (si + n <= length vs)%nat -> (di + n <= length old)%nat ->
  cast_loop ts td (flat_map (le (width ts)) vs) (flat_map (le (width td)) old) (width ts * si) (width td * di) n =
  Ok (flat_map (le (width td)) (firstn di old ++ firstn n (skipn si vs) ++ skipn (di + n) old)).
Proof.
  intros I F Ls Ld.
  assert (Ev: vs = firstn si vs ++ firstn n (skipn si vs) ++ skipn (si + n) vs) by (rewrite Nat.add_comm, <- skipn_skipn, firstn_skipn, firstn_skipn; reflexivity).
  assert (Eo: old = firstn di old ++ firstn n (skipn di old) ++ skipn (di + n) old) by (rewrite Nat.add_comm, <- skipn_skipn, firstn_skipn, firstn_skipn; reflexivity).
  rewrite Ev at 1. rewrite Eo at 1. rewrite !flat_map_app.
  assert (A: (width ts * si)%nat = length (flat_map (le (width ts)) (firstn si vs))) by (rewrite flat_length, firstn_length; f_equal; lia).
  assert (B: (width td * di)%nat = length (flat_map (le (width td)) (firstn di old))) by (rewrite flat_length, firstn_length; f_equal; lia).
  rewrite A, B. assert (C: n = length (firstn n (skipn si vs))) by (rewrite firstn_length, skipn_length; lia).
  transitivity (cast_loop ts td (flat_map (le (width ts)) (firstn si vs) ++ flat_map (le (width ts)) (firstn n (skipn si vs)) ++ flat_map (le (width ts)) (skipn (si + n) vs))
    (flat_map (le (width td)) (firstn di old) ++ flat_map (le (width td)) (firstn n (skipn di old)) ++ flat_map (le (width td)) (skipn (di + n) old))
    (length (flat_map (le (width ts)) (firstn si vs))) (length (flat_map (le (width td)) (firstn di old))) (length (firstn n (skipn si vs)))); [now rewrite <- C|].
  apply cast_loop_mid; auto.
  - rewrite Ev in F. apply Forall_app in F. destruct F as [_ F]. apply Forall_app in F. tauto.
  - rewrite !firstn_length, !skipn_length. lia.
Qed.
Lemma flat_cast t vs : integer_type t -> flat_map (le (width t)) (map (cast t) vs) = flat_map (le (width t)) vs.
Proof. intros I. induction vs as [|v vs IH]; cbn; auto. now rewrite IH, le_cast. Qed.
Lemma cast_id_list t vs : integer_type t -> Forall (holds t) vs -> map (cast t) vs = vs.
Proof. intros I F. induction F; cbn; auto. rewrite cast_id by auto. now f_equal. Qed.
Lemma cast_all t vs : integer_type t -> Forall (holds t) (map (cast t) vs).
Proof. intros I. induction vs; cbn; constructor; auto. apply cast_represents; auto. Qed.
Lemma represents_all t vs : integer_type t -> Forall2 (represents t) vs (map (cast t) vs).
Proof. intros I. induction vs; cbn; constructor; auto. now apply cast_represents. Qed.
Lemma Forall_firstn {A} (P : A -> Prop) n l : Forall P l -> Forall P (firstn n l).
Proof. intros F. revert n. induction F; intros [|n]; cbn; auto. Qed.
Lemma Forall_skipn {A} (P : A -> Prop) n l : Forall P l -> Forall P (skipn n l).
Proof. intros F. revert n. induction F; intros [|n]; cbn; auto. Qed.
(** ** Every memory is a number *)
Lemma chunks w : (0 < w)%nat -> forall n m, length m = (w * n)%nat -> Forall (fun b => 0 <= b < 256) m -> forall t, width t = w -> integer_type t ->
  exists vs, Forall (holds t) vs /\ length vs = n /\ m = flat_map (le w) vs.
Proof.
  intros W. induction n as [|n IH]; intros m L B t E I.
  - exists []. destruct m; [auto|cbn in L; lia].
  - destruct (IH (skipn w m)) with (t := t) as (vs & F & Lv & Em); auto; [rewrite skipn_length; lia|now apply Forall_skipn|].
    assert (Lf: length (firstn w m) = width t) by (rewrite firstn_length, E; nia).
    assert (Bf: Forall (fun b => 0 <= b < 256) (firstn w m)) by now apply Forall_firstn.
    destruct (of_bytes_holds t (firstn w m) I Lf Bf) as (H & k & Ek).
    exists (of_bytes t (firstn w m) :: vs). repeat split; [constructor; auto|cbn; lia|]. cbn [flat_map]. rewrite <- Em, Ek. unfold full. rewrite E, le_mod.
    pose proof (le_unle (firstn w m) Bf) as G. rewrite Lf, E in G. now rewrite G, firstn_skipn.
Qed.
Lemma every_number n : well_sized n -> exists vs, is_number n (ty n) (sh n) vs.
Proof.
  intros (I & L & B). destruct (chunks (width (ty n)) (width_pos _ I) (count (sh n)) (mem n)) with (t := ty n) as (vs & F & Lv & Em); auto.
  exists vs. split; [auto|split; [auto|split; [auto|]]]. destruct n; cbn in *. now f_equal.
Qed.
(** ** Conversion *)
Lemma firstn_skipn_0 {A} n (l : list A) : firstn n (skipn 0 l) = firstn n l. Proof. reflexivity. Qed.
Lemma convert_vector a ta sa vs b tb sb old : is_number a ta sa vs -> is_number b tb sb old -> is_mat sa && is_mat sb = false \/ count sa = count sb ->
  let m := Nat.min (count sa) (count sb) in
  exists b' ws, cast_value a b = Ok (m, b') /\ Forall2 (represents tb) (firstn m vs) ws /\ is_number b' tb sb (ws ++ skipn m old).
Proof.
  intros (Ia & Fa & La & ->) (Ib & Fb & Lb & ->) C m. exists (mkNum tb sb (flat_map (le (width tb)) (firstn m vs ++ skipn m old))), (map (cast tb) (firstn m vs)).
  assert (X: forall n, n = m -> cast_loop ta tb (flat_map (le (width ta)) vs) (flat_map (le (width tb)) old) 0 0 n = Ok (flat_map (le (width tb)) (firstn m vs ++ skipn m old))).
  { intros n ->. pose proof (cast_loop_vals ta tb vs old 0 0 m Ia Fa ltac:(lia) ltac:(lia)) as H. rewrite !Nat.mul_0_r in H. exact H. }
  split; [|split].
  - unfold cast_value, convert. cbn [ty sh mem]. destruct (Nat.eqb_spec (count sb) (count sa)) as [E|E].
    + rewrite X by (unfold m; lia). cbn. repeat f_equal. unfold m. lia.
    + destruct C as [-> |C]; [|congruence].
      assert (Y: (if (count sa <? count sb)%nat then count sa else count sb) = m) by (unfold m; destruct (Nat.ltb_spec (count sa) (count sb)); lia).
      rewrite Y, X by auto. reflexivity.
  - now apply represents_all.
  - split; [auto|split; [|split]].
    + apply Forall_app. split; [now apply cast_all|now apply Forall_skipn].
    + rewrite app_length, map_length, firstn_length, skipn_length. lia.
    + f_equal. rewrite !flat_map_app, flat_cast by auto. reflexivity.
Qed.
Lemma nth_error_seg {A} (old new : list A) di n p : length new = n -> (di + n <= length old)%nat ->
  nth_error (firstn di old ++ new ++ skipn (di + n) old) p = if (di <=? p)%nat && (p <? di + n)%nat then nth_error new (p - di) else nth_error old p.
Proof.
  intros L Ld. assert (Lf: length (firstn di old) = di) by (rewrite firstn_length; lia). destruct (Nat.leb_spec di p) as [H|H]; cbn [andb].
  - rewrite nth_error_app2, Lf by lia. destruct (Nat.ltb_spec p (di + n)) as [G|G].
    + rewrite nth_error_app1 by lia. reflexivity.
    + rewrite nth_error_app2, L by lia. rewrite <- (firstn_skipn (di + n) old) at 2. rewrite nth_error_app2 by (rewrite firstn_length; lia). rewrite firstn_length. f_equal. lia.
  - rewrite nth_error_app1 by lia. rewrite <- (firstn_skipn di old) at 2. rewrite nth_error_app1 by lia. reflexivity.
Qed.
Lemma nth_error_firstn_skipn {A} (l : list A) s n p : (p < n)%nat -> nth_error (firstn n (skipn s l)) p = nth_error l (s + p).
Proof.
  intros H. revert l. induction s as [|s IH]; intros l; cbn [skipn plus].
  - revert p H l. induction n as [|n IHn]; intros p H [|a l]; [lia|lia|destruct p; reflexivity|]. destruct p; cbn; auto. apply IHn. lia.
  - destruct l as [|a l]; [rewrite firstn_nil; destruct p; reflexivity|]. cbn. apply IH.
Qed.
Lemma rows_loop_vals ts td vs cS cd cs rs rd : integer_type ts -> width ts = width td -> Forall (holds ts) vs -> (cs <= cS)%nat -> (cs <= cd)%nat ->
  forall n r old, (r + n <= rs)%nat -> (r + n <= rd)%nat -> (rs * cS <= length vs)%nat -> length old = (rd * cd)%nat ->
  exists new, rows_loop ts td (flat_map (le (width ts)) vs) (flat_map (le (width td)) old) (width ts * (r * cS)) (width td * (r * cd)) (width ts * cS) (width ts * cd) cs n = Ok (flat_map (le (width td)) new) /\
    length new = length old /\
    forall i j, (i < rd)%nat -> (j < cd)%nat -> nth_error new (i * cd + j) = if (r <=? i)%nat && (i <? r + n)%nat && (j <? cs)%nat then nth_error vs (i * cS + j) else nth_error old (i * cd + j).
Proof.
  intros I W F Hs Hd. induction n as [|n IH]; intros r old H1 H2 Lv Lo.
  - exists old. cbn [rows_loop]. repeat split; auto. intros i j Hi Hj. replace ((r <=? i)%nat && (i <? r + 0)%nat) with false; [reflexivity|].
    symmetry. destruct (Nat.leb_spec r i); cbn; auto. apply Nat.ltb_ge. lia.
  - cbn [rows_loop]. rewrite cast_loop_vals by (auto; nia). cbn [obind].
    set (old1 := firstn (r * cd) old ++ firstn cs (skipn (r * cS) vs) ++ skipn (r * cd + cs) old).
    assert (Lc: length (firstn cs (skipn (r * cS) vs)) = cs) by (rewrite firstn_length, skipn_length; nia).
    assert (Lo1: length old1 = length old) by (unfold old1; rewrite !app_length, Lc, firstn_length, skipn_length; nia).
    destruct (IH (S r) old1) as (new & E & Ln & N); [lia|lia|auto|lia|].
    exists new. split; [|split; [lia|]].
    + rewrite <- E. f_equal; [lia|]. rewrite W. lia.
    + intros i j Hi Hj. rewrite N by auto. unfold old1. rewrite nth_error_seg by (auto; nia).
      destruct (Nat.leb_spec (S r) i), (Nat.ltb_spec i (S r + n)), (Nat.leb_spec r i), (Nat.ltb_spec i (r + S n)), (Nat.ltb_spec j cs), (Nat.leb_spec (r * cd) (i * cd + j)), (Nat.ltb_spec (i * cd + j) (r * cd + cs));
        cbn [andb]; try reflexivity; try lia; try nia.
      replace i with r by lia. rewrite nth_error_firstn_skipn by nia. f_equal. nia.
Qed.
Lemma convert_matrix a ta rs cs vs b tb rd cd old : is_number a ta (Mat rs cs) vs -> is_number b tb (Mat rd cd) old -> (rs * cs <> rd * cd)%nat -> width ta = width tb ->
  exists b' ws, cast_value a b = Ok ((Nat.min rs rd * Nat.min cs cd)%nat, b') /\ is_number b' tb (Mat rd cd) ws /\
    forall r c, (r < rd)%nat -> (c < cd)%nat ->
      ((r < rs)%nat /\ (c < cs)%nat -> exists x y, at_rc cs vs r c = Some x /\ at_rc cd ws r c = Some y /\ represents tb x y) /\
      (~ ((r < rs)%nat /\ (c < cs)%nat) -> at_rc cd ws r c = at_rc cd old r c).
Proof.
  intros (Ia & Fa & La & ->) (Ib & Fb & Lb & ->) C W. cbn [count] in *.
  destruct (rows_loop_vals ta tb vs cs cd (Nat.min cs cd) rs rd Ia W Fa ltac:(lia) ltac:(lia) (Nat.min rs rd) 0 old ltac:(lia) ltac:(lia) ltac:(lia) Lb) as (new & E & Ln & N).
  exists (mkNum tb (Mat rd cd) (flat_map (le (width tb)) new)), (map (cast tb) new). split; [|split].
  - unfold cast_value, convert. cbn [ty sh mem count rows cols is_mat andb]. apply Nat.eqb_neq in C. rewrite Nat.eqb_sym, C.
    assert (Y: forall x y, (if (x <? y)%nat then x else y) = Nat.min x y) by (intros; destruct (Nat.ltb_spec x y); lia). rewrite !Y.
    cbn [Nat.mul] in E. rewrite !Nat.mul_0_r in E. rewrite E. reflexivity.
  - split; [auto|split; [now apply cast_all|split; [rewrite map_length; cbn; lia|]]]. f_equal. symmetry. now apply flat_cast.
  - intros r c Hr Hc. unfold at_rc. rewrite nth_error_map, N by auto.
    assert (D: (0 <=? r)%nat && (r <? 0 + Nat.min rs rd)%nat && (c <? Nat.min cs cd)%nat = true <-> (r < rs)%nat /\ (c < cs)%nat).
    { rewrite !andb_true_iff, Nat.leb_le, !Nat.ltb_lt. lia. }
    destruct ((0 <=? r)%nat && (r <? 0 + Nat.min rs rd)%nat && (c <? Nat.min cs cd)%nat) eqn:X; split; intros H.
    + destruct (nth_error vs (r * cs + c)) as [x|] eqn:V; [|apply nth_error_None in V; nia]. exists x, (cast tb x). repeat split; try apply cast_represents; auto.
    + exfalso. tauto.
    + exfalso. apply D in H. discriminate.
    + destruct (nth_error old (r * cd + c)) as [x|] eqn:V; auto. cbn. rewrite cast_id; auto. rewrite Forall_forall in Fb. apply Fb. eapply nth_error_In; eauto.
Qed.
Lemma get_int_ok t junk a ta sa vs : integer_type t -> length junk = width t -> Forall (fun b => 0 <= b < 256) junk -> is_number a ta sa vs ->
  exists z, get_int t junk a = Ok z /\ match vs with [] => z = 0 | v :: _ => represents t v z end.
Proof.
  intros I L B (Ia & Fa & La & ->). unfold get_int. cbn [ty sh mem].
  assert (E: convert ta sa (flat_map (le (width ta)) vs) t (Vec 1) junk = Ok (Nat.min (length vs) 1, match vs with [] => junk | v :: _ => le (width t) v end)).
  { unfold convert. cbn [count is_mat]. rewrite andb_false_r, <- La.
    assert (G: forall v vs', vs = v :: vs' -> cast_loop ta t (flat_map (le (width ta)) vs) junk 0 0 1 = Ok (le (width t) v)).
    { intros v vs' ->. inversion_clear Fa. cbn [cast_loop flat_map]. pose proof (load_mid ta [] v (flat_map (le (width ta)) vs')) as H1. cbn [app length] in H1. rewrite H1, cast_id by auto. cbn [obind].
      pose proof (store_mid t [] junk [] v L) as H2. cbn [app length] in H2. rewrite !app_nil_r in H2. rewrite H2. reflexivity. }
    destruct vs as [|v [|v' vs]]; cbn [length Nat.eqb Nat.ltb Nat.leb].
    - reflexivity.
    - rewrite (G v [] eq_refl). reflexivity.
    - rewrite (G v (v' :: vs) eq_refl). reflexivity. }
  rewrite E. cbn [obind fst snd]. destruct vs as [|v vs]; cbn [length Nat.min Nat.eqb].
  - exists 0. split; reflexivity.
  - replace (Nat.min (length vs) 0) with 0%nat by lia. cbn [Nat.eqb]. exists (cast t v). split; [|now apply cast_represents].
    pose proof (load_mid t [] v []) as H. cbn [app length] in H. rewrite app_nil_r in H. exact H.
Qed.
(** ** Comparison *)
Lemma cmp_mid tx ty : integer_type tx -> integer_type ty -> forall vs ws xpre xpost ypre ypost, length vs = length ws -> Forall (holds tx) vs -> Forall (holds ty) ws -> Forall (holds tx) ws ->
  exists c, cmp_loop tx ty (xpre ++ flat_map (le (width tx)) vs ++ xpost) (ypre ++ flat_map (le (width ty)) ws ++ ypost) (length xpre) (length ypre) (length ws) = Ok c /\
  (0 < c <-> first_less vs ws) /\ (c < 0 <-> first_less ws vs) /\ (c = 0 <-> vs = ws).
Proof.
  intros Ix Iy. induction vs as [|v vs IH]; intros [|w ws] xpre xpost ypre ypost L Fv Fw Fx; try discriminate.
  - exists 0. cbn. repeat split; intros; auto; try lia; tauto.
  - inversion_clear Fv. inversion_clear Fw. inversion_clear Fx. cbn [flat_map length cmp_loop first_less]. rewrite <- !app_assoc, !load_mid. cbn [obind].
    rewrite (cast_id tx v), (cast_id ty w), (cast_id tx w) by auto. destruct (Z.ltb_spec v w); [exists 1|destruct (Z.ltb_spec w v); [exists (-1)|]].
    + split; auto. repeat split; intros; try lia; try congruence; injection H6; lia.
    + split; auto. repeat split; intros; try lia; try congruence; injection H7; lia.
    + assert (w = v) by lia. subst w. destruct (IH ws (xpre ++ le (width tx) v) xpost (ypre ++ le (width ty) v) ypost) as (c & E & A & B & C); auto.
      exists c. rewrite !app_length, !le_length, <- !app_assoc in E. split; [exact E|]. split; [|split].
      * rewrite A. split; auto. intros [X|[_ X]]; [lia|auto].
      * rewrite B. split; auto. intros [X|[_ X]]; [lia|auto].
      * rewrite C. split; [intros ->; reflexivity|intros X; now injection X].
Qed.
Lemma cmp_vals tx ty vs ws : integer_type tx -> integer_type ty -> length vs = length ws -> Forall (holds tx) vs -> Forall (holds ty) ws -> Forall (holds tx) ws ->
  exists c, cmp_loop tx ty (flat_map (le (width tx)) vs) (flat_map (le (width ty)) ws) 0 0 (length ws) = Ok c /\ (0 < c <-> first_less vs ws) /\ (c < 0 <-> first_less ws vs) /\ (c = 0 <-> vs = ws).
Proof.
  intros. pose proof (cmp_mid tx ty H H0 vs ws [] [] [] [] H1 H2 H3 H4) as X. cbn [app length] in X. now rewrite !app_nil_r in X.
Qed.
Lemma compare_same t a sa vs b sb ws : is_number a t sa vs -> is_number b t sb ws ->
  exists c, compare a b = Ok c /\ (0 < c <-> less vs ws) /\ (c < 0 <-> less ws vs) /\ (c = 0 <-> vs = ws).
Proof.
  intros (I & Fa & La & ->) (_ & Fb & Lb & ->). unfold compare, less. cbn [ty sh mem]. destruct (Nat.eqb_spec (count sa) (count sb)) as [E|E].
  - destruct (cmp_vals t t vs ws I I ltac:(lia) Fa Fb Fb) as (c & Ec & A & B & C). exists c. rewrite <- Lb. split; [exact Ec|]. split; [|split; [|exact C]].
    + rewrite A. split; [intros; right; split; [lia|auto]|intros [X|[_ X]]; [lia|auto]].
    + rewrite B. split; [intros; right; split; [lia|auto]|intros [X|[_ X]]; [lia|auto]].
  - unfold size. pose proof (width_pos t I). assert (N: vs <> ws) by (intros ->; lia).
    destruct (Nat.ltb_spec (width t * count sa) (width t * count sb)); [exists 1|destruct (Nat.ltb_spec (width t * count sb) (width t * count sa)); [exists (-1)|exfalso; nia]];
      (split; [reflexivity|]); repeat split; intros; try lia; try congruence; try (left; nia); match goal with H : _ \/ _ |- _ => destruct H as [?|[? _]]; nia end.
Qed.
Lemma first_less_trans a : forall b c, first_less a b -> first_less b c -> first_less a c.
Proof.
  induction a as [|x a IH]; intros [|y b] [|z c]; cbn; try tauto. intros [H|[E H]] [G|[E' G]]; [left; lia|left; lia|left; lia|right; split; [lia|eauto]].
Qed.
Lemma less_trans a b c : less a b -> less b c -> less a c.
Proof.
  unfold less. intros [H|[E H]] [G|[E' G]]; [left; lia|left; lia|left; lia|right; split; [lia|eapply first_less_trans; eauto]].
Qed.
Lemma same_type_laws t a sa vs b sb ws c sc us : is_number a t sa vs -> is_number b t sb ws -> is_number c t sc us ->
  exists x y z w, compare a b = Ok x /\ compare b a = Ok y /\ compare b c = Ok z /\ compare a c = Ok w /\
    (x = 0 <-> vs = ws) /\ (0 < x <-> less vs ws) /\ (0 < x <-> y < 0) /\ (x = 0 <-> y = 0) /\ (0 < x -> 0 < z -> 0 < w) /\ (x = 0 -> hash a = hash b /\ exists h, hash a = Ok h).
Proof.
  intros A B C. destruct (compare_same t a sa vs b sb ws A B) as (x & Ex & X1 & X2 & X3). destruct (compare_same t b sb ws a sa vs B A) as (y & Ey & Y1 & Y2 & Y3).
  destruct (compare_same t b sb ws c sc us B C) as (z & Ez & Z1 & Z2 & Z3). destruct (compare_same t a sa vs c sc us A C) as (w & Ew & W1 & W2 & W3).
  exists x, y, z, w. repeat split; auto; try tauto.
  - intros E. apply Y3. symmetry. now apply X3.
  - intros E. apply X3. symmetry. now apply Y3.
  - intros P Q. apply W1. eapply less_trans; [apply X1|apply Z1]; auto.
  - destruct A as (_ & _ & La & ->), B as (_ & _ & Lb & ->). assert (E: vs = ws) by tauto. subst ws. unfold hash, size. cbn [ty sh mem]. now rewrite <- La, <- Lb.
  - destruct A as (I & Fa & La & ->). unfold hash. cbn [ty sh mem]. unfold size. rewrite <- La.
    destruct ((length vs =? 1)%nat && (width t <=? 8)%nat) eqn:Q.
    + apply andb_prop in Q. destruct Q as [Q _]. apply Nat.eqb_eq in Q. destruct vs as [|v [|]]; try discriminate. cbn [flat_map].
      pose proof (load_mid t [] v []) as L. cbn [app length] in L. rewrite L. cbn. eauto.
    + rewrite flat_length, Nat.leb_refl. eauto.
Qed.
Lemma compare_cross a ta sa vs b tb sb ws : is_number a ta sa vs -> is_number b tb sb ws -> count sa = count sb -> Forall (holds ta) ws ->
  exists c, compare a b = Ok c /\ (0 < c <-> first_less vs ws) /\ (c < 0 <-> first_less ws vs) /\ (c = 0 <-> vs = ws).
Proof.
  intros (Ia & Fa & La & ->) (Ib & Fb & Lb & ->) E H. unfold compare. cbn [ty sh mem]. rewrite E, Nat.eqb_refl, <- Lb. apply cmp_vals; auto. lia.
Qed.
Lemma hash_scalar a ta sa v : is_number a ta sa [v] -> hash a = Ok (v mod 2 ^ 64).
Proof.
  intros (I & F & L & ->). unfold hash. cbn [ty sh mem]. rewrite <- L. cbn [length Nat.eqb]. inversion_clear F.
  replace (width ta <=? 8)%nat with true by (symmetry; unfold integer_type in I; cbn in I; apply Nat.leb_le; lia). cbn [andb flat_map].
  pose proof (load_mid ta [] v []) as X. cbn [app length] in X. rewrite X, cast_id by auto. reflexivity.
Qed.
Lemma scalar_cross a ta sa v b tb sb w : is_number a ta sa [v] -> is_number b tb sb [w] -> holds ta w -> holds tb v ->
  exists x y, compare a b = Ok x /\ compare b a = Ok y /\ (0 < x <-> v < w) /\ (x < 0 <-> w < v) /\ (0 < y <-> w < v) /\ (y < 0 <-> v < w) /\ (x = 0 -> hash a = hash b).
Proof.
  intros A B Hw Hv. assert (E: count sa = count sb) by (destruct A as (_ & _ & <- & _), B as (_ & _ & <- & _); reflexivity).
  destruct (compare_cross a ta sa [v] b tb sb [w] A B E) as (x & Ex & X1 & X2 & X3); [repeat constructor; auto|].
  destruct (compare_cross b tb sb [w] a ta sa [v] B A) as (y & Ey & Y1 & Y2 & Y3); [auto|repeat constructor; auto|].
  exists x, y. cbn [first_less] in *. repeat split; auto; try lia; try tauto. intros Z. apply X3 in Z. injection Z as ->. rewrite (hash_scalar a ta sa w A), (hash_scalar b tb sb w B). reflexivity.
Qed.
(** ** Enumeration *)
Lemma load_at t vs i v : integer_type t -> Forall (holds t) vs -> nth_error vs i = Some v -> load t (flat_map (le (width t)) vs) (width t * i) = Ok v.
Proof.
  intros I F H. destruct (nth_error_split vs i H) as (l1 & l2 & -> & <-). rewrite flat_map_app. cbn [flat_map]. rewrite <- flat_length, load_mid. f_equal. apply cast_id; auto.
  apply Forall_app in F. destruct F as [_ F]. now inversion F.
Qed.
Lemma enum_ok ts td vs : integer_type ts -> Forall (holds ts) vs -> forall n i, (i + n = length vs)%nat ->
  enum_loop ts td (flat_map (le (width ts)) vs) i n = Ok (combine (seq i n) (map (cast td) (skipn i vs))).
Proof.
  intros I F. induction n as [|n IH]; intros i L; [reflexivity|]. cbn [enum_loop seq].
  destruct (nth_error vs i) as [v|] eqn:V; [|apply nth_error_None in V; lia]. rewrite (load_at ts vs i v) by auto. cbn [obind]. rewrite IH by lia. cbn [obind].
  destruct (nth_error_split vs i V) as (l1 & l2 & E & L1). subst vs. rewrite !skipn_app, <- L1, skipn_all, Nat.sub_diag. rewrite skipn_all2 by lia. replace (S (length l1) - length l1)%nat with 1%nat by lia. reflexivity.
Qed.
Lemma enumerate_ok a ta sa vs td : is_number a ta sa vs -> integer_type td ->
  exists ws, enumerate a td = Ok (combine (seq 0 (length vs)) ws) /\ Forall2 (represents td) vs ws.
Proof.
  intros (I & F & L & ->) Id. exists (map (cast td) vs). split; [|now apply represents_all]. unfold enumerate. cbn [ty sh mem]. rewrite <- L. now rewrite enum_ok by auto.
Qed.
Definition row_list (td : ity) (vs : list Z) (cs row : nat) (col n : nat) : list (nat * nat * Z) :=
  map (fun c => (row, c, cast td (nth (row * cs + c) vs 0))) (seq col n).
Lemma cols_ok ts td vs rs cs row : integer_type ts -> Forall (holds ts) vs -> (row * rs = row * cs)%nat -> (row * cs + cs <= length vs)%nat -> forall n col, (col + n = cs)%nat ->
  cols_loop ts td (flat_map (le (width ts)) vs) rs row col n = Ok (row_list td vs cs row col n).
Proof.
  intros I F R Lr. induction n as [|n IH]; intros col C; [reflexivity|]. cbn [cols_loop]. rewrite R.
  destruct (nth_error vs (row * cs + col)) as [v|] eqn:V; [|apply nth_error_None in V; lia]. rewrite (load_at ts vs _ v) by auto. cbn [obind]. rewrite IH by lia. cbn [obind]. unfold row_list. cbn [seq map].
  rewrite (nth_error_nth vs _ 0 V). reflexivity.
Qed.
Lemma matrix_ok ts td vs rs cs : integer_type ts -> Forall (holds ts) vs -> (rs = cs \/ rs <= 1)%nat -> length vs = (rs * cs)%nat -> forall n row, (row + n = rs)%nat ->
  matrix_loop ts td (flat_map (le (width ts)) vs) rs cs row n = Ok (flat_map (fun r => row_list td vs cs r 0 cs) (seq row n)).
Proof.
  intros I F R L. induction n as [|n IH]; intros row C; [reflexivity|]. cbn [matrix_loop seq flat_map]. rewrite (cols_ok ts td vs rs cs row) by (auto; nia). cbn [obind]. rewrite IH by lia. reflexivity.
Qed.
Lemma enumerate_matrix_ok a ta sa vs td : is_number a ta sa vs -> integer_type td -> (rows sa = cols sa \/ rows sa <= 1)%nat ->
  exists l, enumerate_matrix a td = Ok l /\ map fst l = list_prod (seq 0 (rows sa)) (seq 0 (cols sa)) /\
    forall r c y, In (r, c, y) l -> exists x, at_rc (cols sa) vs r c = Some x /\ represents td x y.
Proof.
  intros (I & F & L & ->) Id S. assert (Lc: length vs = (rows sa * cols sa)%nat) by (rewrite L; destruct sa; cbn; lia).
  unfold enumerate_matrix. cbn [ty sh mem]. rewrite (matrix_ok ta td vs (rows sa) (cols sa)) by auto. eexists. split; [reflexivity|]. split.
  - generalize (seq 0 (rows sa)) as rl. induction rl as [|r rl IH]; auto. cbn [flat_map list_prod]. rewrite map_app, IH. f_equal. unfold row_list. rewrite map_map. reflexivity.
  - intros r c y H. apply in_flat_map in H. destruct H as (r' & Hr & H). apply in_map_iff in H. destruct H as (c' & E & Hc). injection E as -> -> <-. apply in_seq in Hr, Hc.
    exists (nth (r * cols sa + c) vs 0). split; [|now apply cast_represents]. unfold at_rc. apply nth_error_nth'. nia.
Qed.
Lemma get_bool_ok junk a ta sa v vs : length junk = 4%nat -> Forall (fun b => 0 <= b < 256) junk -> is_number a ta sa (v :: vs) -> - 2 ^ 32 < v < 2 ^ 32 ->
  exists b, get_bool junk a = Ok b /\ (b = true <-> v <> 0).
Proof.
  intros L B A R. destruct (get_int_ok int32 junk a ta sa (v :: vs)) as (z & E & (H & k & K)); auto; [cbn; auto|].
  unfold get_bool. rewrite E. cbn [obind]. exists (negb (z =? 0)). split; auto. rewrite negb_true_iff, Z.eqb_neq.
  change (bits int32) with 32 in K. unfold holds in H. cbn in H. change (2 ^ 32) with 4294967296 in *. split; intros; intro; nia.
Qed.
