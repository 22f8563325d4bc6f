(** Memory, and what the archiver builds. *)
Require Import Coq.NArith.NArith Coq.ZArith.ZArith Coq.Lists.List Coq.Arith.Arith Coq.Bool.Bool Coq.micromega.Lia.
Require Import Verif.Base Verif.Encoding_Model Verif.Encoding_Spec Verif.Encoding_Proofs Verif.Egg_Model Verif.Egg_Spec.
Import ListNotations.
Local Open Scope nat_scope.

(** ** Integers in memory *)
Lemma le_length w n : length (le_bytes w n) = w.
Proof. revert n. induction w; cbn; auto. Qed.
Lemma int_length big w n : length (int_bytes big w n) = w.
Proof. unfold int_bytes. destruct big; rewrite ?rev_length; apply le_length. Qed.
Lemma of_le_bytes w : forall n, (n < 256 ^ N.of_nat w)%N -> of_le (le_bytes w n) = n.
Proof.
  induction w as [|w IH]; intros n L.
  - cbn in *. lia.
  - cbn [le_bytes of_le]. rewrite IH.
    + rewrite N.add_comm. symmetry. apply N.div_mod. lia.
    + rewrite Nat2N.inj_succ, N.pow_succ_r' in L. apply N.div_lt_upper_bound; lia.
Qed.
Lemma le_of_le : forall l, Forall (fun b => (b < 256)%N) l -> le_bytes (length l) (of_le l) = l.
Proof.
  induction l as [|b l IH]; intros F; [reflexivity|]. apply Forall_inv in F as B; apply Forall_inv_tail in F. cbn [length le_bytes of_le]. f_equal.
  - rewrite N.mul_comm, N.mod_add by lia. apply N.mod_small. auto.
  - rewrite N.mul_comm, N.div_add by lia. rewrite N.div_small by auto. exact (IH F).
Qed.
Lemma le_bytes_bytes w : forall n, Forall (fun b => (b < 256)%N) (le_bytes w n).
Proof. induction w; intros; cbn; constructor; auto. apply N.mod_lt. lia. Qed.
Lemma of_int big w n : (n < 256 ^ N.of_nat w)%N -> of_bytes big (int_bytes big w n) = n.
Proof. intros L. unfold of_bytes, int_bytes. destruct big; rewrite ?rev_involutive; now apply of_le_bytes. Qed.
Lemma of_int_swap bw br w n : (n < 256 ^ N.of_nat w)%N -> bw <> br -> swap w (of_bytes br (int_bytes bw w n)) = n.
Proof.
  intros L D. assert (E: of_bytes br (int_bytes bw w n) = of_le (rev (le_bytes w n))).
  { unfold of_bytes, int_bytes. destruct bw, br; try congruence. }
  rewrite E. unfold swap. assert (F: Forall (fun b => (b < 256)%N) (rev (le_bytes w n))) by (apply Forall_rev, le_bytes_bytes).
  pose proof (le_of_le _ F) as G. rewrite rev_length, le_length in G. rewrite G, rev_involutive. now apply of_le_bytes.
Qed.
Lemma u32_lt n : (u32 n < 2 ^ 32)%N.
Proof. apply N.mod_lt. lia. Qed.
Lemma u32_small n : (N.of_nat n < 2 ^ 32)%N -> u32 n = N.of_nat n.
Proof. intros. now apply N.mod_small. Qed.

(** ** Bytes at an offset *)
Definition has (d : list N) (off : nat) (bs : list N) : Prop := exists p q, d = p ++ bs ++ q /\ length p = off.
Lemma has_bound d off bs : has d off bs -> off + length bs <= length d.
Proof. intros (p & q & -> & <-). rewrite !app_length. lia. Qed.
Lemma has_app d off bs x : has d off bs -> has (d ++ x) off bs.
Proof. intros (p & q & -> & <-). exists p, (q ++ x). now rewrite <- !app_assoc. Qed.
Lemma has_pre p d off bs : has d off bs -> has (p ++ d) (length p + off) bs.
Proof. intros (p' & q & -> & <-). exists (p ++ p'), q. rewrite <- app_assoc, app_length. auto. Qed.
Lemma has_sub d off a b : has d off (a ++ b) -> has d off a /\ has d (off + length a) b.
Proof.
  intros (p & q & -> & <-). split; [exists p, (b ++ q); now rewrite <- app_assoc|].
  exists (p ++ a), q. rewrite app_length, <- !app_assoc. auto.
Qed.
Lemma slice_has l off bs : has l off bs -> slice l (N.of_nat off) (N.of_nat (length bs)) = Ok bs.
Proof.
  intros (p & q & -> & <-). unfold slice. rewrite !app_length. destruct (N.leb_spec (N.of_nat (length p) + N.of_nat (length bs)) (N.of_nat (length p + (length bs + length q)))); [|lia].
  rewrite !Nat2N.id, skipn_app, skipn_all, Nat.sub_diag. cbn. rewrite firstn_app, firstn_all, Nat.sub_diag. cbn. now rewrite app_nil_r.
Qed.
Lemma slice_all l : slice l 0 (N.of_nat (length l)) = Ok l.
Proof. change 0%N with (N.of_nat 0). apply slice_has. exists [], []. rewrite app_nil_r. auto. Qed.
Lemma read_has bw br w l off n : (n < 256 ^ N.of_nat w)%N -> has l off (int_bytes bw w n) ->
  read_int br w (negb (eqb bw br)) l (N.of_nat off) = Ok n.
Proof.
  intros L H. apply slice_has in H. rewrite int_length in H. unfold read_int. rewrite H. cbn [obind]. f_equal.
  destruct (eqb bw br) eqn:E; cbn [negb].
  - apply eqb_prop in E. subst. now apply of_int.
  - apply eqb_false_iff in E. now apply of_int_swap.
Qed.
Lemma put_ok l off bs : off + length bs <= length l -> put l off bs = Ok (firstn off l ++ bs ++ skipn (off + length bs) l).
Proof. intros. unfold put. now rewrite (proj2 (Nat.leb_le _ _) H). Qed.
Lemma cstr_name s r : Forall (fun b => b <> 0%N) s -> cstr (s ++ 0%N :: r) = Ok s.
Proof. induction s as [|b s IH]; intros F; cbn; auto. apply Forall_inv in F as B; apply Forall_inv_tail in F. destruct (N.eqb_spec b 0); [congruence|]. now rewrite IH. Qed.

(** Bytes that avoid the storage of the collections that are being added. *)
Definition hole := nat -> Prop.
Definition hasH (H : hole) (d : list N) (off : nat) (bs : list N) : Prop := has d off bs /\ forall i, off <= i < off + length bs -> ~ H i.
Definition keeps (H : hole) (d d' : list N) : Prop := forall off bs, hasH H d off bs -> hasH H d' off bs.
Definition pre {A} (d d' : list A) : Prop := exists x, d' = d ++ x.
Lemma pre_refl {A} (d : list A) : pre d d.
Proof. exists []. now rewrite app_nil_r. Qed.
Lemma pre_trans {A} (a b c : list A) : pre a b -> pre b c -> pre a c.
Proof. intros (x & ->) (y & ->). exists (x ++ y). now rewrite app_assoc. Qed.
Lemma pre_app {A} (a b : list A) : pre a (a ++ b).
Proof. now exists b. Qed.
Lemma pre_len {A} (a b : list A) : pre a b -> length a <= length b.
Proof. intros (x & ->). rewrite app_length. lia. Qed.
Lemma pre_nth {A} (a b : list A) k x : pre a b -> nth_error a k = Some x -> nth_error b k = Some x.
Proof. intros (y & ->) E. rewrite nth_error_app1; auto. apply nth_error_Some. congruence. Qed.
Lemma keeps_pre H d d' : pre d d' -> keeps H d d'.
Proof. intros (x & ->) off bs (A & B). split; auto. now apply has_app. Qed.
Lemma keeps_trans H a b c : keeps H a b -> keeps H b c -> keeps H a c.
Proof. unfold keeps. auto. Qed.
(** Writing into a hole keeps the rest. *)
Lemma keeps_put (H : hole) p a b q : length a = length b -> (forall i, length p <= i < length p + length a -> H i) -> keeps H (p ++ a ++ q) (p ++ b ++ q).
Proof.
  intros L Ho off bs (A & B). split; auto. destruct bs as [|c bs].
  { apply has_bound in A. rewrite !app_length in A. cbn in A. exists (firstn off (p ++ b ++ q)), (skipn off (p ++ b ++ q)). cbn. rewrite firstn_skipn. split; auto.
    rewrite firstn_length, !app_length. lia. }
  destruct a as [|a0 a]; [destruct b; [auto|discriminate]|].
  destruct A as (p' & q' & E & <-).
  assert (D: length p' + length (c :: bs) <= length p \/ length p + length (a0 :: a) <= length p').
  { destruct (le_lt_dec (length p' + length (c :: bs)) (length p)); auto. destruct (le_lt_dec (length p + length (a0 :: a)) (length p')); auto.
    exfalso. destruct (le_lt_dec (length p) (length p')).
    - apply (B (length p')); [cbn; lia|]. apply Ho. lia.
    - apply (B (length p)); [cbn in *; lia|]. apply Ho. cbn. lia. }
  destruct D as [D|D].
  - assert (X: exists r, p = p' ++ (c :: bs) ++ r).
    { exists (skipn (length p' + length (c :: bs)) p).
      assert (Y: firstn (length p' + length (c :: bs)) p = p' ++ c :: bs).
      { apply (f_equal (firstn (length p' + length (c :: bs)))) in E. rewrite firstn_app in E. replace (_ - length p) with 0 in E by lia. rewrite firstn_O, app_nil_r in E. rewrite E.
        rewrite firstn_app_2. f_equal. rewrite firstn_app, Nat.sub_diag, firstn_O, app_nil_r, firstn_all. reflexivity. }
      rewrite app_assoc, <- Y. symmetry. apply firstn_skipn. }
    destruct X as (r & ->). exists p', (r ++ b ++ q). now rewrite <- !app_assoc.
  - assert (X: exists r, q = r ++ (c :: bs) ++ q' /\ length p' = length p + length (a0 :: a) + length r).
    { exists (skipn (length p + length (a0 :: a)) p'). apply (f_equal (skipn (length p + length (a0 :: a)))) in E.
      rewrite app_assoc, skipn_app, skipn_all2 in E by (rewrite app_length; lia). rewrite app_length, Nat.sub_diag in E. cbn [skipn app] in E.
      rewrite skipn_app in E. replace (length p + length (a0 :: a) - length p') with 0 in E by lia. cbn [skipn] in E. split; [exact E|]. rewrite skipn_length. lia. }
    destruct X as (r & -> & Lp). exists (p ++ b ++ r), q'. rewrite <- !app_assoc. split; auto. rewrite !app_length. lia.
Qed.
Definition sub (H H' : hole) := forall i, H i -> H' i.
Lemma hasH_sub H H' d off bs : sub H H' -> hasH H' d off bs -> hasH H d off bs.
Proof. intros S (A & B). split; auto. intros i L X. apply (B i L). auto. Qed.

(** ** The archiver's state *)
Section Arch.
Context (big : bool) (g : registry) (h : heap) (roots : list nat) (root : option nat) (first : list N).

Definition ix (a : archiver) (j i : nat) : Prop := In (j, i) (avisited a) /\ 0 < i.
Definition oix (a : archiver) (o : option nat) (i : nat) : Prop := match o with None => i = 0 | Some j => ix a j i end.
Definition idx_bytes (l : list nat) : list N := concat (map (fun i => int_bytes big 4 (u32 i)) l).
Definition pair_bytes (l : list (nat * nat)) : list N := concat (map (fun p => int_bytes big 4 (u32 (fst p)) ++ int_bytes big 4 (u32 (snd p))) l).
Definition num_bytes (e : N) (l : list N) : list N := concat (map (int_bytes big (N.to_nat (get_type_size e))) l).

(** How a value is stored: no attribute, or an encoding and a value. *)
Inductive stored (H : hole) (a : archiver) : value -> option (N * N) -> Prop :=
| st_null : stored H a (VObj None) None
| st_obj j i : ix a j i -> stored H a (VObj (Some j)) (Some (encode TObject 1, u32 i))
| st_class s off : hasH H (adata a) off (s ++ [0%N]) -> stored H a (VClass s) (Some (encode TClass 1, u32 off))
| st_sel s off : hasH H (adata a) off (s ++ [0%N]) -> stored H a (VSel s) (Some (encode TSelector 1, u32 off))
| st_coll0 : stored H a (VColl []) None
| st_coll1 o i : oix a o i -> stored H a (VColl [o]) (Some (encode TObject 1, u32 i))
| st_coll js l off : 2 <= length js -> Forall2 (ix a) js l -> hasH H (adata a) off (idx_bytes l) ->
    stored H a (VColl (map Some js)) (Some (encode TObject (u32 (length js)), u32 off))
| st_keyed ps l off : Forall2 (fun p q => ix a (fst p) (fst q) /\ oix a (snd p) (snd q)) ps l -> hasH H (adata a) off (pair_bytes l) ->
    stored H a (VKeyed ps) (Some (encode TKeyedObject (u32 (length ps)), u32 off))
| st_text s off : hasH H (adata a) off (s ++ [0%N]) -> stored H a (VText s) (Some (encode TText (u32 (length s + 1)), u32 off))
| st_bin s off : hasH H (adata a) off s -> stored H a (VBin s) (Some (encode TBinary (u32 (length s)), u32 off))
| st_num e l off : hasH H (adata a) off (num_bytes e l) -> stored H a (VNum e l) (Some (e, u32 off))
| st_str0 : stored H a (VStr []) None
| st_str s off : s <> [] -> hasH H (adata a) off (s ++ [0%N]) -> stored H a (VStr s) (Some (encode TText (u32 (length s + 1)), u32 off))
| st_data0 : stored H a (VData 0 []) None
| st_datab s off : s <> [] -> hasH H (adata a) off s -> stored H a (VData 0 s) (Some (encode TBinary (u32 (length s)), u32 off))
| st_datan t l off : number_type t = true -> hasH H (adata a) off (num_bytes (encode t (u32 (length l))) l) -> stored H a (VData t l) (Some (encode t (u32 (length l)), u32 off)).
Definition attrs_of (key : list N) (x : option (N * N)) : list attr := match x with None => [] | Some (e, v) => [mkA (hash32 0 key) e v] end.
Inductive fstored (H : hole) (a : archiver) : list (list N * value) -> list attr -> Prop :=
| fs_nil : fstored H a [] []
| fs_cons k v fs x l : stored H a v x -> fstored H a fs l -> fstored H a ((k, v) :: fs) (attrs_of k x ++ l).
Definition done (H : hole) (a : archiver) (k : nat) : Prop :=
  exists id n c l, In (id, k) (avisited a) /\ nth_error h id = Some n /\ reach h roots id /\ nth_error (aobjs a) k = Some (u32 c, l) /\
    hasH H (adata a) c (ncls n ++ [0%N]) /\ fstored H a (nfields n) l.

Definition grow (H : hole) (a a' : archiver) : Prop := keeps H (adata a) (adata a') /\ incl (avisited a) (avisited a').
Lemma ix_grow H a a' j i : grow H a a' -> ix a j i -> ix a' j i.
Proof. intros (_ & I) (A & B). split; auto. Qed.
Lemma oix_grow H a a' o i : grow H a a' -> oix a o i -> oix a' o i.
Proof. destruct o; cbn; eauto using ix_grow. Qed.
Lemma Forall2_imp {A B} (P Q : A -> B -> Prop) l l' : (forall a b, P a b -> Q a b) -> Forall2 P l l' -> Forall2 Q l l'.
Proof. intros I F. induction F; constructor; auto. Qed.
Lemma stored_grow H a a' v x : grow H a a' -> stored H a v x -> stored H a' v x.
Proof.
  intros G S. assert (K := proj1 G). destruct S; try (constructor; eauto using ix_grow, oix_grow; fail).
  - eapply st_coll; eauto. eapply Forall2_imp; [|eassumption]. eauto using ix_grow.
  - eapply st_keyed; eauto. eapply Forall2_imp; [|eassumption]. cbn. intros ? ? (P & Q). eauto using ix_grow, oix_grow.
Qed.
Lemma fstored_grow H a a' fs l : grow H a a' -> fstored H a fs l -> fstored H a' fs l.
Proof. intros G F. induction F; constructor; eauto using stored_grow. Qed.
Lemma done_grow H a a' k : grow H a a' -> (forall c l, nth_error (aobjs a) k = Some (c, l) -> nth_error (aobjs a') k = Some (c, l)) -> done H a k -> done H a' k.
Proof.
  intros G E (id & n & c & l & A & B & C & D & F & S). exists id, n, c, l. destruct G as (K & I). repeat split; auto; try apply (K c); auto.
  eapply fstored_grow; [split|]; eauto.
Qed.
Lemma stored_sub H H' a v x : sub H H' -> stored H' a v x -> stored H a v x.
Proof. intros S T. destruct T; econstructor; eauto using hasH_sub. Qed.
Lemma fstored_sub H H' a fs l : sub H H' -> fstored H' a fs l -> fstored H a fs l.
Proof. intros S T. induction T; constructor; eauto using stored_sub. Qed.
Lemma done_sub H H' a k : sub H H' -> done H' a k -> done H a k.
Proof. intros S (id & n & c & l & A & B & C & D & F & T). exists id, n, c, l. repeat split; auto; try (eapply hasH_sub; eauto); eauto using fstored_sub. Qed.

Record inv (H : hole) (a : archiver) : Prop := mkInv {
  i_fst : NoDup (map fst (avisited a));
  i_snd : NoDup (map snd (avisited a));
  i_vis : forall j i, In (j, i) (avisited a) -> i < length (aobjs a) /\ j < length h;
  i_zero : forall j, In (j, 0) (avisited a) -> root = Some j;
  i_sym : forall s off, In (s, off) (asyms a) -> hasH H (adata a) off (s ++ [0%N]) /\ (off = 0 -> s = first);
  i_hole : forall i, H i -> i < length (adata a) }.
Lemma inv_sub H H' a : sub H H' -> inv H' a -> inv H a.
Proof. intros S [A B C D E F]. split; auto. intros s off I. destruct (E s off I). split; auto. eapply hasH_sub; eauto. Qed.

(** Everything but the data grows. *)
Definition ext0 (a a' : archiver) : Prop := pre (aobjs a) (aobjs a') /\ incl (avisited a) (avisited a') /\ incl (asyms a) (asyms a') /\ astack a = astack a'.
Definition ext (a a' : archiver) : Prop := pre (adata a) (adata a') /\ ext0 a a'.
Lemma ext0_refl a : ext0 a a.
Proof. repeat split; auto using pre_refl, incl_refl. Qed.
Lemma ext_refl a : ext a a.
Proof. split; auto using pre_refl, ext0_refl. Qed.
Lemma ext0_trans a b c : ext0 a b -> ext0 b c -> ext0 a c.
Proof. intros (A & B & C & D) (A' & B' & C' & D'). repeat split; eauto using pre_trans, incl_tran. congruence. Qed.
Lemma ext_trans a b c : ext a b -> ext b c -> ext a c.
Proof. intros (A & B) (A' & B'). split; eauto using pre_trans, ext0_trans. Qed.
Lemma ext_grow H a b : ext a b -> grow H a b.
Proof. intros (A & B & C & D). split; auto using keeps_pre. Qed.
Definition newdone (H : hole) (a a' : archiver) : Prop := forall k, length (aobjs a) <= k < length (aobjs a') -> done H a' k.
Lemma newdone_same H a a' : length (aobjs a) = length (aobjs a') -> newdone H a a'.
Proof. intros E k L. lia. Qed.
Lemma newdone_trans H a b c : grow H b c -> pre (aobjs b) (aobjs c) -> newdone H a b -> newdone H b c -> newdone H a c.
Proof.
  intros G P A B k L. destruct (le_lt_dec (length (aobjs b)) k); [apply B; lia|]. eapply done_grow; [exact G| |apply A; lia]. intros. eapply pre_nth; eauto.
Qed.
Definition unvisited (a : archiver) : nat := length h - length (avisited a).
Lemma visited_le H a : inv H a -> length (avisited a) <= length h.
Proof.
  intros I. rewrite <- (map_length fst), <- (seq_length (length h) 0). apply NoDup_incl_length; [apply (i_fst _ _ I)|].
  intros j X. apply in_map_iff in X. destruct X as ([j' i] & <- & X). apply in_seq. apply (i_vis _ _ I) in X. cbn. lia.
Qed.
Lemma unvisited_ext H a a' : inv H a -> inv H a' -> incl (avisited a) (avisited a') -> unvisited a' <= unvisited a.
Proof.
  intros I I' L. unfold unvisited. assert (length (avisited a) <= length (avisited a')); [|lia].
  apply NoDup_incl_length; auto. eapply NoDup_map_inv. apply (i_fst _ _ I).
Qed.

(** ** Data and symbols *)
Lemma align_ok d k : 0 < k -> exists x, align d k = Ok (d ++ x).
Proof. intros L. destruct k; [lia|]. unfold align. destruct (0 <? _); eexists; [reflexivity|]. now rewrite app_nil_r. Qed.
Lemma align_one d : align d 1 = Ok d.
Proof. unfold align. rewrite Nat.mod_1_r. reflexivity. Qed.
Lemma inv_data H a d' : pre (adata a) d' -> inv H a -> inv H (mkArch (aobjs a) (avisited a) (asyms a) d' (astack a)).
Proof.
  intros P [A B C D E F]. split; cbn; auto.
  - intros s off I. destruct (E s off I) as (X & Y). split; auto. eapply keeps_pre; eauto.
  - intros i X. apply pre_len in P. specialize (F i X). lia.
Qed.
Lemma add_data_ok H a enc src : inv H a -> (0 < get_type_size enc)%N -> N.of_nat (length src) = (get_type_size enc * get_count enc)%N ->
  exists x, add_data a enc src = Ok (mkArch (aobjs a) (avisited a) (asyms a) ((adata a ++ x) ++ src) (astack a), length (adata a ++ x)) /\
    (get_type_size enc = 1%N -> x = []) /\ hasH H ((adata a ++ x) ++ src) (length (adata a ++ x)) src.
Proof.
  intros I Sz L. destruct (align_ok (adata a) (N.to_nat (get_type_size enc))) as (x & X); [lia|]. exists x. unfold add_data. rewrite X. cbn [obind].
  assert (Sl: slice src 0 (N.of_nat (length src)) = Ok src) by apply slice_all.
  rewrite <- L, Sl. cbn [obind]. split; auto. split.
  - intros E. rewrite E in X. change (N.to_nat 1) with 1 in X. rewrite align_one in X. injection X as X. symmetry in X. rewrite <- (app_nil_r (adata a)) in X at 2. now apply app_inv_head in X.
  - split; [exists (adata a ++ x), []; rewrite app_nil_r; split; reflexivity|]. intros i Li Hi. apply (i_hole _ _ I) in Hi. rewrite app_length in Li. lia.
Qed.
Lemma text_enc n : (N.of_nat n <= max_count)%N -> get_type_size (encode TText (u32 n)) = 1%N /\ get_count (encode TText (u32 n)) = N.of_nat n /\ get_size (encode TText (u32 n)) = N.of_nat n /\ get_type (encode TText (u32 n)) = TText.
Proof.
  intros L. unfold max_count in L. rewrite u32_small by lia. destruct (vector_unpacks TText 1 (N.of_nat n) e_text) as (_ & T & C & _ & _ & S & _); [lia|].
  repeat split; auto. 2: rewrite S; lia. unfold get_type_size. now rewrite T.
Qed.
Lemma bin_enc n : (N.of_nat n <= max_count)%N -> get_type_size (encode TBinary (u32 n)) = 1%N /\ get_count (encode TBinary (u32 n)) = N.of_nat n /\ get_size (encode TBinary (u32 n)) = N.of_nat n /\ get_type (encode TBinary (u32 n)) = TBinary.
Proof.
  intros L. unfold max_count in L. rewrite u32_small by lia. destruct (vector_unpacks TBinary 1 (N.of_nat n) e_binary) as (_ & T & C & _ & _ & S & _); [lia|].
  repeat split; auto. 2: rewrite S; lia. unfold get_type_size. now rewrite T.
Qed.
Lemma number_element t : number_type t = true -> (0 < type_size t)%N -> element t (type_size t).
Proof.
  intros T Z. unfold number_type in T. apply andb_true_iff in T as (T1 & T2). apply N.leb_le in T1, T2.
  assert (C: exists k, (k < 18)%nat /\ t = (8 + N.of_nat k)%N) by (exists (N.to_nat (t - 8)); lia). destruct C as (k & Lk & ->). clear T1 T2.
  do 18 (destruct k as [|k]; [vm_compute in Z |- *; first [discriminate Z|constructor]|]). lia.
Qed.
Lemma num_enc t n : number_type t = true -> (0 < type_size t)%N -> (N.of_nat n <= max_count)%N -> let e := encode t (u32 n) in
  (e < 2 ^ 32)%N /\ get_type e = t /\ get_type_size e = type_size t /\ get_count e = N.of_nat n /\ is_number e = true.
Proof.
  intros T Z L e. unfold max_count in L. unfold e. rewrite u32_small by lia. destruct (vector_unpacks t (type_size t) (N.of_nat n) (number_element t T Z)) as (_ & A & B & _ & _ & _ & C); [lia|].
  unfold get_type_size, is_number. rewrite A. auto.
Qed.
Lemma list_eqb_eq a b : list_eqb a b = true <-> a = b.
Proof. unfold list_eqb. destruct (list_eq_dec N.eq_dec a b); split; congruence. Qed.
Lemma add_symbol_ok H a s : inv H a -> name_ok s -> (adata a = [] -> s = first) ->
  exists a' off, add_symbol a s = Ok (a', off) /\ inv H a' /\ ext a a' /\ aobjs a' = aobjs a /\ avisited a' = avisited a /\ hasH H (adata a') off (s ++ [0%N]) /\ (s <> first -> 0 < off) /\ adata a' <> [].
Proof.
  intros I (Z & L) F. unfold add_symbol. destruct (find _ (asyms a)) as [[s' off]|] eqn:E.
  - apply find_some in E. destruct E as (E & Q). cbn in Q. apply list_eqb_eq in Q. subst s'. destruct (i_sym _ _ I _ _ E) as (X & Y).
    exists a, off. split; [reflexivity|]. split; [exact I|]. split; [apply ext_refl|]. split; [reflexivity|]. split; [reflexivity|]. split; [exact X|]. split.
    + intros D. destruct off; [|lia]. elim D. now apply Y.
    + destruct X as (X & _). apply has_bound in X. rewrite app_length in X. cbn in X. intros D. rewrite D in X. cbn in X. lia.
  - destruct (text_enc (length s + 1)) as (T1 & T2 & _); [lia|].
    destruct (add_data_ok H a (encode TText (u32 (length s + 1))) (s ++ [0%N]) I) as (x & A & Ex & Hs).
    + rewrite T1. lia.
    + rewrite T1, T2, app_length. cbn [length]. lia.
    + rewrite A. cbn [obind]. rewrite (Ex T1) in *. clear Ex A x T1 T2 L Z. rewrite app_nil_r in *. eexists _, _. split; [reflexivity|]. cbn [adata aobjs avisited asyms astack].
      assert (J := inv_data H a (adata a ++ s ++ [0%N]) (pre_app _ _) I). split; [|split; [split; [apply pre_app|split; [apply pre_refl|split; [apply incl_refl|split; [apply incl_tl, incl_refl|reflexivity]]]]|split; [reflexivity|split; [reflexivity|split; [exact Hs|split]]]]].
      * destruct J as [A B C D J G]. split; cbn [adata aobjs avisited asyms astack] in *; auto. intros s' off' [Q|Q]; auto. injection Q as <- <-. split; auto. intros Q. apply F. now apply length_zero_iff_nil.
      * intros D. destruct (adata a); [|cbn; lia]. now destruct D, F.
      * intros D. destruct (adata a), s; discriminate.
Qed.

Lemma add_attr_ok a top s c l key e v : astack a = top :: s -> nth_error (aobjs a) top = Some (c, l) ->
  add_attr a key e v = Ok (mkArch (upd (aobjs a) top (c, l ++ attrs_of key (Some (e, v)))) (avisited a) (asyms a) (adata a) (astack a)).
Proof. intros S E. unfold add_attr. rewrite S, E. cbn. reflexivity. Qed.
End Arch.
