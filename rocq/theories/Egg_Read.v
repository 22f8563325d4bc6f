(** The unarchiver reads what the archiver has stored. *)
Require Import Coq.NArith.NArith Coq.ZArith.ZArith Coq.Lists.List Coq.Arith.Arith Coq.Bool.Bool Coq.micromega.Lia.
Require Import Verif.Base Verif.Encoding_Model Verif.Encoding_Spec Verif.Encoding_Proofs Verif.Egg_Model Verif.Egg_Spec Verif.Egg_Proofs Verif.Egg_Archive.
Import ListNotations.
Local Open Scope nat_scope.

Definition full : hole := fun _ => False.
Lemma hasH_has d off bs : hasH full d off bs -> has d off bs.
Proof. now intros (A & _). Qed.

(** ** The tables *)
Definition starts (O : list (N * list attr)) (i : nat) : nat := length (concat (map snd (firstn i O))).
Lemma starts_S x O i : starts (x :: O) (S i) = length (snd x) + starts O i.
Proof. unfold starts. cbn [firstn map concat]. now rewrite app_length. Qed.
Lemma ot_length big : forall O k, length (object_table big k O) = 12 * length O.
Proof. induction O as [|[c l] O IH]; intros k; [reflexivity|]. cbn [object_table length]. rewrite !app_length, !int_length, IH. lia. Qed.
Lemma ot_has big : forall O i c l k, nth_error O i = Some (c, l) ->
  has (object_table big k O) (12 * i) (int_bytes big 4 c ++ int_bytes big 4 (u32 (k + starts O i)) ++ int_bytes big 4 (u32 (length l))).
Proof.
  induction O as [|[c' l'] O IH]; intros i c l k E; destruct i; try discriminate.
  - cbn in E. injection E as -> ->. cbn [object_table]. unfold starts. cbn [firstn map concat length]. rewrite Nat.add_0_r. exists [], (object_table big (k + length l) O).
    split; [|reflexivity]. rewrite <- !app_assoc. reflexivity.
  - cbn in E. cbn [object_table]. rewrite starts_S. cbn [snd]. rewrite Nat.add_assoc.
    replace (12 * S i) with (length (int_bytes big 4 c' ++ int_bytes big 4 (u32 k) ++ int_bytes big 4 (u32 (length l'))) + 12 * i) by (rewrite !app_length, !int_length; lia).
    rewrite 2 app_assoc, <- (app_assoc (int_bytes big 4 c')). apply has_pre. now apply IH.
Qed.
Lemma attr_length big x : length (attr_bytes big x) = 12.
Proof. unfold attr_bytes. rewrite !app_length, !int_length. reflexivity. Qed.
Lemma at_length big L : length (concat (map (attr_bytes big) L)) = 12 * length L.
Proof. induction L; [reflexivity|]. cbn [map concat length]. rewrite app_length, attr_length, IHL. lia. Qed.
Lemma at_has big : forall L t x, nth_error L t = Some x -> has (concat (map (attr_bytes big) L)) (12 * t) (attr_bytes big x).
Proof.
  induction L as [|y L IH]; intros t x E; destruct t; try discriminate.
  - injection E as ->. exists [], (concat (map (attr_bytes big) L)). auto.
  - cbn in E. cbn [map concat]. replace (12 * S t) with (length (attr_bytes big y) + 12 * t) by (rewrite attr_length; lia). apply has_pre. now apply IH.
Qed.
Lemma attrs_nth : forall O i c l t x, nth_error O i = Some (c, l) -> nth_error l t = Some x -> nth_error (concat (map snd O)) (starts O i + t) = Some x.
Proof.
  induction O as [|[c' l'] O IH]; intros i c l t x E F; destruct i; try discriminate.
  - injection E as -> ->. cbn [map concat snd]. unfold starts. cbn. rewrite nth_error_app1; auto. apply nth_error_Some. congruence.
  - cbn in E. rewrite starts_S. cbn [map concat snd]. rewrite nth_error_app2 by lia. replace (length l' + starts O i + t - length l') with (starts O i + t) by lia. now apply (IH i c l).
Qed.
Lemma firstn_nth {A} (x : A) : forall l i, nth_error l i = Some x -> firstn (S i) l = firstn i l ++ [x].
Proof. induction l as [|y l IH]; intros i E; destruct i; try discriminate; [cbn in *; congruence|]. cbn in E. change (y :: firstn (S i) l = y :: (firstn i l ++ [x])). f_equal. auto. Qed.
Lemma header_length big rl no na nd : length (header big rl no na nd) = 48.
Proof. unfold header. rewrite !app_length, !int_length. reflexivity. Qed.

Definition attr_ok (x : attr) : Prop := (ahash x < 2 ^ 32 /\ aenc x < 2 ^ 32 /\ aval x < 2 ^ 32)%N.
Lemma hash_lt : forall s x, (x < 2 ^ 32)%N -> (hash32 x s < 2 ^ 32)%N.
Proof. induction s as [|b s IH]; intros x L; cbn [hash32]; auto. destruct (N.eqb b 0); auto. apply IH. apply N.mod_lt. lia. Qed.
Lemma enc_lt t z c : element t z -> (c <= max_count)%N -> (encode t c < 2 ^ 32)%N.
Proof. intros E L. apply (vector_unpacks t z c E). unfold max_count in L. lia. Qed.
Lemma enc_u32_lt t z n : element t z -> (N.of_nat n <= max_count)%N -> (encode t (u32 n) < 2 ^ 32)%N.
Proof. intros E L. apply (enc_lt t z); auto. rewrite u32_small; auto. unfold max_count in L. lia. Qed.
Lemma stored_attr_ok big g root first H a k v x : storable g root first v -> stored big H a v x -> Forall attr_ok (attrs_of k x).
Proof.
  intros S T. assert (Hk := hash_lt k 0 eq_refl). pose proof u32_lt as U.
  destruct T; cbn [attrs_of]; constructor; auto; repeat split; cbn [ahash aenc aval]; auto; cbn [storable] in S.
  all: first [reflexivity|apply S|apply (enc_u32_lt _ 8 _ e_object); rewrite map_length in S; apply S|apply (enc_u32_lt _ 16 _ e_keyed); apply S
    |apply (enc_u32_lt _ 1 _ e_text); lia|apply (enc_u32_lt _ 1 _ e_binary); exact S
    |apply (enc_u32_lt _ 1 _ e_binary); apply S|destruct S as (S & [->|(T & Z & _)]); [discriminate|apply (enc_u32_lt _ _ _ (number_element t T Z) S)]].
Qed.
Lemma fstored_attr_ok big g root first H a fs l : Forall (fun f => storable g root first (snd f)) fs -> fstored big H a fs l -> Forall attr_ok l.
Proof.
  intros S T. induction T; [constructor|]. apply Forall_app. split; [|apply IHT; now apply Forall_inv_tail in S]. apply Forall_inv in S. eapply stored_attr_ok; eauto.
Qed.

Lemma find_fstored big H a : forall fs l k v, fstored big H a fs l -> NoDup (map (fun f : list N * value => hash32 0 (fst f)) fs) -> In (k, v) fs ->
  exists x, stored big H a v x /\ find (fun y => N.eqb (ahash y) (hash32 0 k)) l = match x with None => None | Some (e, w) => Some (mkA (hash32 0 k) e w) end.
Proof.
  assert (Z: forall fs l k, fstored big H a fs l -> ~ In (hash32 0 k) (map (fun f : list N * value => hash32 0 (fst f)) fs) -> find (fun y => N.eqb (ahash y) (hash32 0 k)) l = None).
  { intros fs l k T. induction T as [|k' v' fs x l S T IH]; intros D; [reflexivity|]. cbn [map fst] in D. destruct x as [[e w]|]; cbn [attrs_of app find ahash].
    - destruct (N.eqb_spec (hash32 0 k') (hash32 0 k)) as [Q|_]; [destruct D; now left|]. apply IH. intros X. apply D. now right.
    - apply IH. intros X. apply D. now right. }
  intros fs l k v T. induction T as [|k' v' fs x l S T IH]; intros D J; [destruct J|]. cbn [map fst] in D. inversion D as [|? ? X Y]; subst. destruct J as [J|J].
  - injection J as -> ->. exists x. split; auto. destruct x as [[e w]|]; cbn [attrs_of app find ahash].
    + now rewrite N.eqb_refl.
    + eapply Z; eauto.
  - destruct (IH Y J) as (x' & S' & F'). exists x'. split; auto. rewrite <- F'. destruct x as [[e w]|]; cbn [attrs_of app find ahash]; auto.
    destruct (N.eqb_spec (hash32 0 k') (hash32 0 k)) as [Q|_]; auto. destruct X. rewrite Q. apply in_map_iff. now exists (k, v).
Qed.

Section Read.
Context (bw br rl : bool) (g : registry) (h : heap) (roots : list nat) (root : option nat) (first : list N) (a : archiver) (base : nat).
Context (Gok : graph_ok g h roots root first) (Rok : registry_ok g) (I : inv h root first full a).
Context (No : (N.of_nat (length (aobjs a)) < 2 ^ 32)%N) (Fit : (N.of_nat (length (archived_data bw rl a)) < 2 ^ 32)%N).
Context (Done : forall k, base <= k < length (aobjs a) -> done bw h roots full a k) (Base : base <= 1).
Context (Aok : forall k c l, nth_error (aobjs a) k = Some (c, l) -> (c < 2 ^ 32)%N /\ Forall attr_ok l).

Let O := aobjs a.
Let attrs := concat (map snd O).
Let bytes := archived_data bw rl a.
Let sw := negb (eqb bw br).
Let no := length O.
Let na := length attrs.
Let nd := length (adata a).
Let e := mkE bytes sw (N.of_nat no) (N.of_nat na) rl.

Lemma bytes_eq : bytes = header bw rl (N.of_nat no) (u32 na) nd ++ object_table bw 0 O ++ concat (map (attr_bytes bw) attrs) ++ adata a.
Proof. unfold bytes, archived_data. rewrite (u32_small (length (aobjs a))) by exact No. rewrite Nat2N.id, firstn_all. reflexivity. Qed.
Lemma bytes_length : length bytes = 48 + 12 * no + 12 * na + nd.
Proof. rewrite bytes_eq, !app_length, header_length, ot_length, at_length. unfold no, na, nd. lia. Qed.
Lemma na_lt : (N.of_nat na < 2 ^ 32)%N.
Proof. pose proof Fit as F. fold bytes in F. rewrite bytes_length in F. lia. Qed.
Lemma starts_le i : starts O i <= na.
Proof.
  unfold starts, na, attrs. rewrite <- (firstn_skipn i O) at 2. rewrite map_app, concat_app, app_length. lia.
Qed.
Lemma starts_end i c l : nth_error O i = Some (c, l) -> starts O i + length l <= na.
Proof.
  intros E. pose proof (starts_le (S i)) as L. unfold starts in *. rewrite (firstn_nth _ _ _ E) in L.
  rewrite map_app, concat_app, app_length in L. cbn [map concat snd] in L. rewrite app_nil_r in L. exact L.
Qed.

Lemma tbl off n : (n < 2 ^ 32)%N -> has bytes off (int_bytes bw 4 n) -> table_int br e (N.of_nat off) = Ok n.
Proof. intros L X. unfold table_int. apply (read_has bw br 4); auto. Qed.
Lemma object_at i c l : nth_error O i = Some (c, l) ->
  table_int br e (48 + 12 * N.of_nat i) = Ok c /\ table_int br e (48 + 12 * N.of_nat i + 4) = Ok (N.of_nat (starts O i)) /\ table_int br e (48 + 12 * N.of_nat i + 8) = Ok (N.of_nat (length l)).
Proof.
  intros E. pose proof (ot_has bw O i c l 0 E) as X. cbn [Nat.add] in X. apply has_app with (x := concat (map (attr_bytes bw) attrs) ++ adata a) in X.
  apply has_pre with (p := header bw rl (N.of_nat no) (u32 na) nd) in X. rewrite header_length in X. rewrite <- bytes_eq in X.
  pose proof (starts_end i c l E) as Se. pose proof na_lt as Nl.
  rewrite !u32_small in X by lia.
  apply has_sub in X as (X1 & X). apply has_sub in X as (X2 & X3). rewrite !int_length in *. destruct (Aok i c l E) as (Lc & _).
  replace (48 + 12 * N.of_nat i)%N with (N.of_nat (48 + 12 * i)) by lia.
  replace (N.of_nat (48 + 12 * i) + 4)%N with (N.of_nat (48 + 12 * i + 4)) by lia. replace (N.of_nat (48 + 12 * i) + 8)%N with (N.of_nat (48 + 12 * i + 4 + 4)) by lia.
  repeat split; apply tbl; auto; lia.
Qed.
Lemma attr_at i c l t x : nth_error O i = Some (c, l) -> nth_error l t = Some x -> let k := (attrs_at e + 12 * N.of_nat (starts O i + t))%N in
  table_int br e k = Ok (ahash x) /\ table_int br e (k + 4) = Ok (aenc x) /\ table_int br e (k + 8) = Ok (aval x).
Proof.
  intros E F k. pose proof (at_has bw attrs _ x (attrs_nth O i c l t x E F)) as X.
  apply has_app with (x := adata a) in X. apply has_pre with (p := object_table bw 0 O) in X. rewrite ot_length in X.
  apply has_pre with (p := header bw rl (N.of_nat no) (u32 na) nd) in X. rewrite header_length, <- bytes_eq in X.
  unfold attr_bytes in X. apply has_sub in X as (X1 & X). apply has_sub in X as (X2 & X3). rewrite !int_length in *.
  destruct (Aok i c l E) as (_ & Al). rewrite Forall_forall in Al. destruct (Al x) as (A1 & A2 & A3); [eapply nth_error_In; eauto|].
  assert (Ek: k = N.of_nat (48 + (12 * length O + 12 * (starts O i + t)))) by (unfold k, attrs_at; cbn [unobj e]; unfold no; lia).
  rewrite Ek. replace (N.of_nat (48 + (12 * length O + 12 * (starts O i + t))) + 4)%N with (N.of_nat (48 + (12 * length O + 12 * (starts O i + t)) + 4)) by lia.
  replace (N.of_nat (48 + (12 * length O + 12 * (starts O i + t))) + 8)%N with (N.of_nat (48 + (12 * length O + 12 * (starts O i + t)) + 4 + 4)) by lia.
  repeat split; apply tbl; auto.
Qed.
Lemma data_has off bs : has (adata a) off bs -> has bytes (48 + 12 * no + 12 * na + off) bs.
Proof.
  intros X. apply has_pre with (p := concat (map (attr_bytes bw) attrs)) in X. rewrite at_length in X. apply has_pre with (p := object_table bw 0 O) in X. rewrite ot_length in X.
  apply has_pre with (p := header bw rl (N.of_nat no) (u32 na) nd) in X. rewrite header_length, <- bytes_eq in X. fold na no in X. replace (48 + 12 * no + 12 * na + off) with (48 + (12 * no + (12 * na + off))) by lia. exact X.
Qed.
Lemma data_at_eq off : (data_at e + N.of_nat off)%N = N.of_nat (48 + 12 * no + 12 * na + off).
Proof. unfold data_at. cbn [unobj unattr e]. lia. Qed.
Lemma off_lt off bs : has (adata a) off bs -> u32 off = N.of_nat off.
Proof. intros X. apply has_bound in X. pose proof Fit as F. fold bytes in F. rewrite bytes_length in F. apply u32_small. unfold nd in F. lia. Qed.
Lemma slice_data off bs : has (adata a) off bs -> slice bytes (data_at e + u32 off) (N.of_nat (length bs)) = Ok bs.
Proof. intros X. rewrite (off_lt _ _ X), data_at_eq. apply slice_has. now apply data_has. Qed.

(** GetAttribute. *)
Lemma find_attr_ok i c l hk : nth_error O i = Some (c, l) -> forall n t, t + n = length l ->
  find_attr br e n (N.of_nat (starts O i + t)) hk = Ok (find (fun y => N.eqb (ahash y) hk) (skipn t l)).
Proof.
  intros E. pose proof (starts_end i c l E) as Se. pose proof na_lt as Nl. induction n as [|n IH]; intros t L.
  - rewrite skipn_all2 by lia. reflexivity.
  - destruct (nth_error l t) as [x|] eqn:F; [|apply nth_error_None in F; lia].
    assert (Sk: skipn t l = x :: skipn (S t) l). { clear -F. revert t F. induction l as [|y l IH]; intros [|t] F; cbn in *; try discriminate; [congruence|]. rewrite (IH t F). now destruct l. }
    destruct (attr_at i c l t x E F) as (A1 & A2 & A3). cbn [find_attr]. rewrite A1. cbn [obind]. rewrite Sk. cbn [find]. destruct (N.eqb (ahash x) hk).
    + rewrite A2, A3. cbn [obind]. now destruct x.
    + replace (N.of_nat (starts O i + t) + 1)%N with (N.of_nat (starts O i + S t)) by lia. rewrite N.mod_small by lia. apply IH. lia.
Qed.
Lemma get_attr_ok i c l s key : nth_error O i = Some (c, l) -> get_attr br e (i :: s) key = Ok (find (fun y => N.eqb (ahash y) (hash32 0 key)) l).
Proof.
  intros E. destruct (object_at i c l E) as (_ & B & C). unfold get_attr. rewrite B, C. cbn [obind]. rewrite Nat2N.id.
  pose proof (find_attr_ok i c l (hash32 0 key) E (length l) 0 eq_refl) as X. rewrite Nat.add_0_r in X. exact X.
Qed.

(** Names. *)
Lemma name_at_ok off s : has (adata a) off (s ++ [0%N]) -> Forall (fun b => b <> 0%N) s -> name_at e (u32 off) = Ok s.
Proof.
  intros X F. rewrite (off_lt _ _ X). unfold name_at. rewrite data_at_eq. pose proof (data_has _ _ X) as (p & q & E & L). cbn [ubytes e].
  rewrite <- L, E, !app_length. destruct (N.leb_spec (N.of_nat (length p)) (N.of_nat (length p + (length s + length [0%N] + length q)))); [|lia].
  rewrite Nat2N.id, skipn_app, skipn_all, Nat.sub_diag. cbn [skipn app]. rewrite <- app_assoc. now apply cstr_name.
Qed.
Lemma get_class_ok off s schema : has (adata a) off (s ++ [0%N]) -> In (s, schema) (rclasses g) -> get_class g e (u32 off) = Ok (Some (s, schema)).
Proof.
  intros X J. destruct Rok as (Nd & Nm & _). unfold get_class. rewrite (name_at_ok off s X).
  - cbn [obind]. f_equal. clear -J Nd. induction (rclasses g) as [|[s' sc] r IH]; [destruct J|]. cbn [map fst] in Nd. inversion Nd as [|? ? U V]; subst. cbn [find fst]. destruct (list_eqb s' s) eqn:Q.
    + apply list_eqb_eq in Q. subst s'. destruct J as [J|J]; [now injection J as ->|]. destruct U. apply in_map_iff. exists (s, schema); split; [reflexivity|exact J].
    + destruct J as [J|J]; [|auto]. injection J as -> ->. assert (list_eqb s s = true) by now apply list_eqb_eq. congruence.
  - rewrite Forall_forall in Nm. apply Nm. apply in_map_iff. exists (s, schema); split; [reflexivity|exact J].
Qed.
Lemma get_sel_ok off s : has (adata a) off (s ++ [0%N]) -> In s (rsels g) -> get_sel g e (u32 off) = Ok (Some s).
Proof.
  intros X J. destruct Rok as (_ & _ & Nm). unfold get_sel. rewrite (name_at_ok off s X).
  - cbn [obind]. f_equal. clear -J. induction (rsels g) as [|s' r IH]; [destruct J|]. cbn [find]. destruct (list_eqb s' s) eqn:Q; [apply list_eqb_eq in Q; congruence|].
    destruct J as [->|J]; auto. assert (list_eqb s s = true) by now apply list_eqb_eq. congruence.
  - rewrite Forall_forall in Nm. now apply Nm.
Qed.

(** ** Objects *)
Definition R (u : unarch) (j j' : nat) : Prop := exists i, In (j, i) (avisited a) /\ In (i, j') (ucache u).
Definition orel (u : unarch) (o o' : option nat) : Prop := match o, o' with None, None => True | Some j, Some j' => R u j j' | _, _ => False end.
Definition vrel (u : unarch) (v v' : value) : Prop :=
  match v with
  | VObj o => exists o', v' = VObj o' /\ orel u o o'
  | VColl l => exists l', v' = VColl l' /\ Forall2 (orel u) l l'
  | VKeyed l => exists l', v' = VKeyed l' /\ Forall2 (fun p q => R u (fst p) (fst q) /\ orel u (snd p) (snd q)) l l'
  | _ => v' = v
  end.
Definition frel (u : unarch) (f f' : list N * value) : Prop := fst f' = fst f /\ vrel u (snd f) (snd f').
Record uinv (u : unarch) : Prop := mkUinv {
  u_fst : NoDup (map fst (ucache u)); u_snd : NoDup (map snd (ucache u));
  u_bd : forall i id, In (i, id) (ucache u) -> base <= i < no /\ id < length (uheap u) }.
Definition uext (u u' : unarch) : Prop := pre (uheap u) (uheap u') /\ incl (ucache u) (ucache u') /\ ustack u = ustack u'.
Lemma uext_refl u : uext u u.
Proof. split; [apply pre_refl|split; [apply incl_refl|reflexivity]]. Qed.
Lemma uext_trans u v w : uext u v -> uext v w -> uext u w.
Proof. intros (A & B & C) (A' & B' & C'). split; [eapply pre_trans; eauto|]. split; [eapply incl_tran; eauto|congruence]. Qed.
Lemma R_ext u u' j j' : incl (ucache u) (ucache u') -> R u j j' -> R u' j j'.
Proof. intros L (i & A & B). exists i. auto. Qed.
Lemma orel_ext u u' o o' : incl (ucache u) (ucache u') -> orel u o o' -> orel u' o o'.
Proof. intros L. destruct o, o'; cbn; auto. now apply R_ext. Qed.
Lemma vrel_ext u u' v v' : incl (ucache u) (ucache u') -> vrel u v v' -> vrel u' v v'.
Proof.
  intros L. destruct v; cbn; auto.
  - intros (x & A & B). exists x. split; auto. eapply orel_ext; eauto.
  - intros (x & A & B). exists x. split; auto. eapply Forall2_imp; [|exact B]. intros. eapply orel_ext; eauto.
  - intros (x & A & B). exists x. split; auto. eapply Forall2_imp; [|exact B]. cbn. intros ? ? (P & Q). split; [eapply R_ext|eapply orel_ext]; eauto.
Qed.
Definition udone (u : unarch) (id : nat) : Prop :=
  exists i j n fs, In (i, id) (ucache u) /\ In (j, i) (avisited a) /\ nth_error h j = Some n /\ nth_error (uheap u) id = Some (mkN (ncls n) fs) /\ Forall2 (frel u) (nfields n) fs.
Definition unew (u u' : unarch) : Prop := forall id, length (uheap u) <= id < length (uheap u') -> udone u' id.
Lemma udone_ext u u' id : incl (ucache u) (ucache u') -> (forall x, nth_error (uheap u) id = Some x -> nth_error (uheap u') id = Some x) -> udone u id -> udone u' id.
Proof.
  intros L E (i & j & n & fs & A & B & C & D & F). exists i, j, n, fs. split; [auto|]. split; [assumption|]. split; [assumption|]. split; [auto|]. eapply Forall2_imp; [|exact F]. intros ? ? (P & Q). split; auto. eapply vrel_ext; eauto.
Qed.
Lemma unew_same u u' : length (uheap u) = length (uheap u') -> unew u u'.
Proof. intros E k L. lia. Qed.
Lemma unew_trans u v w : uext v w -> unew u v -> unew v w -> unew u w.
Proof.
  intros (P & L & _) A B k Lk. destruct (le_lt_dec (length (uheap v)) k); [apply B; lia|]. eapply udone_ext; [exact L| |apply A; lia]. intros. eapply pre_nth; eauto.
Qed.
Definition uncached (u : unarch) : nat := no - length (ucache u).
Lemma cached_le u : uinv u -> length (ucache u) <= no.
Proof.
  intros U. rewrite <- (map_length fst), <- (seq_length no 0). apply NoDup_incl_length; [apply (u_fst _ U)|].
  intros j X. apply in_map_iff in X. destruct X as ([j' i] & <- & X). apply in_seq. apply (u_bd _ U) in X. cbn. lia.
Qed.
Lemma uncached_ext u u' : uinv u -> incl (ucache u) (ucache u') -> uncached u' <= uncached u.
Proof.
  intros U L. unfold uncached. assert (length (ucache u) <= length (ucache u')); [|lia]. apply NoDup_incl_length; auto. eapply NoDup_map_inv. apply (u_fst _ U).
Qed.

Definition get_spec (m : nat) (get : unarch -> N -> outcome (unarch * option nat)) : Prop :=
  forall u i, uinv u -> base <= i < no -> uncached u < m -> exists u' id, get u (N.of_nat i) = Ok (u', Some id) /\ uinv u' /\ uext u u' /\ In (i, id) (ucache u') /\ unew u u'.

Section Values.
Context (m : nat) (get : unarch -> N -> outcome (unarch * option nat)) (Get : get_spec m get).

Lemma ix_bound j i : ix a j i -> base <= i < no /\ u32 i = N.of_nat i /\ (0 <? N.of_nat i)%N = true.
Proof.
  intros (A & B). apply (i_vis _ _ _ _ _ I) in A as (L & _). fold O in L. fold no in L. split; [lia|]. split; [apply u32_small; fold O no in No; lia|apply N.ltb_lt; lia].
Qed.
Lemma get_ix u j i : uinv u -> uncached u < m -> ix a j i -> exists u' id, get u (u32 i) = Ok (u', Some id) /\ uinv u' /\ uext u u' /\ R u' j id /\ unew u u'.
Proof.
  intros U M X. destruct (ix_bound j i X) as (B & -> & _). destruct (Get u i U B M) as (u' & id & E & U' & Ex & C & N). exists u', id. repeat (split; [first [reflexivity|assumption]|]). split; auto. exists i. split; auto. apply X.
Qed.
Lemma get_oix u o i : uinv u -> uncached u < m -> oix a o i ->
  exists u' o', (if (0 <? u32 i)%N then get u (u32 i) else Ok (u, None)) = Ok (u', o') /\ uinv u' /\ uext u u' /\ orel u' o o' /\ unew u u'.
Proof.
  intros U M X. destruct o as [j|]; cbn [oix] in X.
  - destruct (ix_bound j i X) as (_ & Eu & Lt). rewrite Eu, Lt. rewrite <- Eu. destruct (get_ix u j i U M X) as (u' & id & E & U' & Ex & C & N). exists u', (Some id). auto.
  - subst i. exists u, None. cbn. split; auto. split; auto. split; [apply uext_refl|]. split; auto. now apply unew_same.
Qed.
Lemma off_has off x bs : has (adata a) off (int_bytes bw 4 (u32 x) ++ bs) -> read_int br 4 (uswap e) (ubytes e) (data_at e + N.of_nat off) = Ok (u32 x) /\ has (adata a) (off + 4) bs.
Proof.
  intros X. apply has_sub in X as (X1 & X2). rewrite int_length in X2. split; auto. rewrite data_at_eq. apply (read_has bw br 4); [apply u32_lt|now apply data_has].
Qed.
Lemma elems_ok : forall js l u off, uinv u -> uncached u < m -> Forall2 (ix a) js l -> has (adata a) off (idx_bytes bw l) ->
  exists u' l', get_elems br e get u (length js) (data_at e + N.of_nat off) = Ok (u', l') /\ uinv u' /\ uext u u' /\ Forall2 (orel u') (map Some js) l' /\ unew u u'.
Proof.
  induction js as [|j js IH]; intros l u off U M F X; inversion F as [|? i ? l0 Fi Fl]; subst.
  - exists u, []. cbn. split; auto. split; auto. split; [apply uext_refl|]. split; [constructor|]. now apply unew_same.
  - rewrite idx_cons in X. destruct (off_has off i _ X) as (E1 & X1). cbn [length get_elems]. rewrite E1. cbn [obind].
    destruct (get_oix u (Some j) i U M Fi) as (u1 & o1 & G1 & U1 & Ex1 & R1 & N1). rewrite G1. cbn [obind].
    replace (data_at e + N.of_nat off + 4)%N with (data_at e + N.of_nat (off + 4))%N by lia.
    destruct (IH l0 u1 (off + 4) U1) as (u2 & l' & G2 & U2 & Ex2 & R2 & N2); auto; [pose proof (uncached_ext u u1 U (proj1 (proj2 Ex1))); lia|].
    rewrite G2. cbn [obind]. exists u2, (o1 :: l'). split; auto. split; auto. split; [eapply uext_trans; eauto|]. split; [|eapply unew_trans; eauto].
    cbn [map]. constructor; auto. eapply orel_ext; [apply Ex2|auto].
Qed.
Lemma pairs_ok : forall ps l u off, uinv u -> uncached u < m -> Forall2 (fun p q => ix a (fst p) (fst q) /\ oix a (snd p) (snd q)) ps l -> has (adata a) off (pair_bytes bw l) ->
  exists u' l', get_pairs br e get u (length ps) (data_at e + N.of_nat off) = Ok (u', l') /\ uinv u' /\ uext u u' /\ Forall2 (fun p q => R u' (fst p) (fst q) /\ orel u' (snd p) (snd q)) ps l' /\ unew u u'.
Proof.
  induction ps as [|p ps IH]; intros l u off U M F X; inversion F as [|? q ? l0 (Fk & Fv) Fl]; subst.
  - exists u, []. cbn. split; auto. split; auto. split; [apply uext_refl|]. split; [constructor|]. now apply unew_same.
  - rewrite pair_cons, <- app_assoc in X. destruct (off_has off _ _ X) as (E1 & X1). destruct (off_has (off + 4) _ _ X1) as (E2 & X2). cbn [length get_pairs]. rewrite E1. cbn [obind].
    replace (data_at e + N.of_nat off + 4)%N with (data_at e + N.of_nat (off + 4))%N by lia. rewrite E2. cbn [obind].
    destruct (get_ix u (fst p) (fst q) U M Fk) as (u1 & k1 & G1 & U1 & Ex1 & R1 & N1). rewrite G1. cbn [obind].
    assert (M1: uncached u1 < m) by (pose proof (uncached_ext u u1 U (proj1 (proj2 Ex1))); lia).
    destruct (get_oix u1 (snd p) (snd q) U1 M1 Fv) as (u2 & o2 & G2 & U2 & Ex2 & R2 & N2). rewrite G2. cbn [obind].
    assert (M2: uncached u2 < m) by (pose proof (uncached_ext u1 u2 U1 (proj1 (proj2 Ex2))); lia).
    replace (data_at e + N.of_nat off + 8)%N with (data_at e + N.of_nat (off + 4 + 4))%N by lia.
    destruct (IH l0 u2 (off + 4 + 4) U2 M2 Fl X2) as (u3 & l' & G3 & U3 & Ex3 & R3 & N3).
    rewrite G3. cbn [obind]. exists u3, ((k1, o2) :: l'). split; auto. split; auto. split; [eapply uext_trans; [exact Ex1|eapply uext_trans; eauto]|].
    split; [|eapply unew_trans; [|exact N1|eapply unew_trans; eauto]; eapply uext_trans; eauto].
    constructor; auto. cbn [fst snd]. split; [eapply R_ext; [|exact R1]; eapply incl_tran; [apply Ex2|apply Ex3]|eapply orel_ext; [apply Ex3|auto]].
Qed.
Lemma nums_ok w : forall l off, Forall (fun x => (x < 256 ^ N.of_nat w)%N) l -> has (adata a) off (concat (map (int_bytes bw w) l)) ->
  get_nums br e w (length l) (data_at e + N.of_nat off) = Ok l.
Proof.
  induction l as [|x l IH]; intros off F X; [reflexivity|]. cbn [map concat] in X. apply has_sub in X as (X1 & X2). rewrite int_length in X2. cbn [length get_nums].
  assert (E: read_int br w (uswap e) (ubytes e) (data_at e + N.of_nat off) = Ok x) by (rewrite data_at_eq; apply (read_has bw br w); [now apply Forall_inv in F|now apply data_has]).
  rewrite E. cbn [obind]. replace (data_at e + N.of_nat off + N.of_nat w)%N with (data_at e + N.of_nat (off + w))%N by lia. rewrite IH; auto. now apply Forall_inv_tail in F.
Qed.

Lemma one_obj : get_type (encode TObject 1) = TObject /\ get_count (encode TObject 1) = 1%N.
Proof. split; reflexivity. Qed.
Lemma enc_count t z n : element t z -> (N.of_nat n <= max_count)%N -> get_type (encode t (u32 n)) = t /\ get_count (encode t (u32 n)) = N.of_nat n.
Proof. intros E L. unfold max_count in L. rewrite u32_small by lia. destruct (vector_unpacks t z (N.of_nat n) E) as (_ & T & C & _); [lia|]. auto. Qed.

Lemma get_value_ok u key v x : uinv u -> uncached u < m -> storable g root first v -> stored bw full a v x ->
  get_attr br e (ustack u) key = Ok (match x with None => None | Some (en, w) => Some (mkA (hash32 0 key) en w) end) ->
  exists u' v', get_value br g e get u key (kind_of v) = Ok (u', v') /\ uinv u' /\ uext u u' /\ vrel u' v v' /\ unew u u'.
Proof.
  intros U M S T A. unfold get_value. rewrite A. cbn [obind].
  assert (Same: forall v', vrel u v v' -> exists u' v'', Ok (u, v') = Ok (u', v'') /\ uinv u' /\ uext u u' /\ vrel u' v v'' /\ unew u u').
  { intros v' V. exists u, v'. split; auto. split; auto. split; [apply uext_refl|]. split; auto. now apply unew_same. }
  destruct T as [|j i X|s off X|s off X| |o i X|js l off L X Y|ps l off X Y|s off X|s off X|en l off X| |s off Z X| |s off Z X|t l off Z X]; cbn [kind_of storable] in *; cbn [aenc aval].
  - apply Same. exists None. cbn. auto.
  - rewrite N.eqb_refl. destruct (get_ix u j i U M X) as (u' & id & E & U' & Ex & C & N). rewrite E. cbn [obind]. exists u', (VObj (Some id)). repeat (split; [first [reflexivity|assumption]|]). split; auto. exists (Some id). auto.
  - change (encode TClass 1 =? encode TObject 1)%N with false. cbn match. rewrite N.eqb_refl. destruct S as (_ & S). apply in_map_iff in S as ([s' sc] & Q & S). cbn in Q. subst s'.
    rewrite (get_class_ok off s sc (hasH_has _ _ _ X) S). cbn [obind fst]. apply Same. reflexivity.
  - change (encode TSelector 1 =? encode TObject 1)%N with false. change (encode TSelector 1 =? encode TClass 1)%N with false. cbn match. rewrite N.eqb_refl.
    rewrite (get_sel_ok off s (hasH_has _ _ _ X)) by apply S. cbn [obind]. apply Same. reflexivity.
  - apply Same. exists []. split; auto.
  - destruct one_obj as (-> & ->). rewrite !N.eqb_refl. destruct (get_oix u o i U M X) as (u' & o' & E & U' & Ex & C & N). rewrite E. cbn [obind].
    exists u', (VColl [o']). repeat (split; [first [reflexivity|assumption]|]). split; auto. exists [o']. split; auto.
  - destruct S as (_ & S & _). rewrite map_length in S. destruct (enc_count TObject 8 (length js) e_object S) as (-> & ->). rewrite N.eqb_refl.
    destruct (N.eqb_spec (N.of_nat (length js)) 1); [lia|]. rewrite Nat2N.id. apply hasH_has in Y. rewrite (off_lt _ _ Y).
    destruct (elems_ok js l u off U M X Y) as (u' & l' & E & U' & Ex & C & N). rewrite E. cbn [obind]. exists u', (VColl l'). repeat (split; [first [reflexivity|assumption]|]). split; auto. exists l'. auto.
  - destruct S as (_ & S). destruct (enc_count TKeyedObject 16 (length ps) e_keyed S) as (-> & ->). rewrite N.eqb_refl. rewrite Nat2N.id. apply hasH_has in Y. rewrite (off_lt _ _ Y).
    destruct (pairs_ok ps l u off U M X Y) as (u' & l' & E & U' & Ex & C & N). rewrite E. cbn [obind]. exists u', (VKeyed l'). repeat (split; [first [reflexivity|assumption]|]). split; auto. exists l'. auto.
  - destruct (text_enc (length s + 1)) as (_ & _ & -> & ->); [lia|]. rewrite N.eqb_refl. destruct (N.ltb_spec 0 (N.of_nat (length s + 1))); [|lia].
    replace (N.of_nat (length s + 1) - 1)%N with (N.of_nat (length s)) by lia. apply hasH_has in X. pose proof (off_lt _ _ X) as Ol. apply has_sub in X as (X & _). cbn [ubytes e]. rewrite (slice_data _ _ X). cbn [obind]. apply Same. reflexivity.
  - destruct (bin_enc (length s)) as (_ & _ & -> & ->); [lia|]. rewrite N.eqb_refl. apply hasH_has in X. cbn [ubytes e]. rewrite (slice_data _ _ X). cbn [obind]. apply Same. reflexivity.
  - destruct S as (_ & S1 & S2 & S3 & S4). rewrite S1. destruct (Nat.eqb_spec (N.to_nat (get_type_size en)) 0); [lia|]. rewrite <- S3, Nat2N.id. apply hasH_has in X. rewrite (off_lt _ _ X).
    rewrite (nums_ok (N.to_nat (get_type_size en)) l off); [|now rewrite N2Nat.id|exact X]. cbn [obind]. apply Same. reflexivity.
  - apply Same. reflexivity.
  - destruct (text_enc (length s + 1)) as (_ & _ & -> & ->); [lia|]. rewrite N.eqb_refl. destruct (N.ltb_spec 0 (N.of_nat (length s + 1))); [|lia].
    replace (N.of_nat (length s + 1) - 1)%N with (N.of_nat (length s)) by lia. apply hasH_has in X. pose proof (off_lt _ _ X) as Ol. apply has_sub in X as (X & _). cbn [ubytes e]. rewrite (slice_data _ _ X). cbn [obind]. apply Same. reflexivity.
  - apply Same. reflexivity.
  - destruct S as (S & _). destruct (bin_enc (length s)) as (_ & _ & Es & Et); [lia|]. unfold is_number. rewrite Et, Es. change (number_type TBinary) with false. cbn match. rewrite N.eqb_refl. apply hasH_has in X. cbn [ubytes e]. rewrite (slice_data _ _ X). cbn [obind]. apply Same. reflexivity.
  - destruct S as (S & [->|(T & S2 & S4)]); [discriminate Z|]. destruct (num_enc t (length l) T S2 S) as (_ & Et & Es & Ec & En). rewrite En, Es, Ec, Et.
    destruct (Nat.eqb_spec (N.to_nat (type_size t)) 0); [lia|]. rewrite Nat2N.id. apply hasH_has in X. rewrite (off_lt _ _ X). unfold num_bytes in X. rewrite Es in X.
    rewrite (nums_ok (N.to_nat (type_size t)) l off); [|now rewrite N2Nat.id|exact X]. cbn [obind]. apply Same. reflexivity.
Qed.
Lemma get_fields_ok top s c l : nth_error O top = Some (c, l) -> forall fs u, uinv u -> uncached u < m -> ustack u = top :: s ->
  Forall (fun f => storable g root first (snd f)) fs ->
  (forall k v, In (k, v) fs -> exists x, stored bw full a v x /\ find (fun y => N.eqb (ahash y) (hash32 0 k)) l = match x with None => None | Some (en, w) => Some (mkA (hash32 0 k) en w) end) ->
  exists u' fs', get_fields br g e get u (shape fs) = Ok (u', fs') /\ uinv u' /\ uext u u' /\ Forall2 (frel u') fs fs' /\ unew u u'.
Proof.
  intros E. induction fs as [|[k v] fs IH]; intros u U M St F Fd.
  - exists u, []. split; auto. split; auto. split; [apply uext_refl|]. split; [constructor|]. now apply unew_same.
  - destruct (Fd k v (or_introl eq_refl)) as (x & S & Fx). pose proof (Forall_inv F) as Sv. apply Forall_inv_tail in F. cbn [snd] in Sv.
    destruct (get_value_ok u k v x U M Sv S) as (u1 & v1 & G1 & U1 & Ex1 & R1 & N1); [rewrite St, (get_attr_ok top c l s k E); congruence|].
    change (shape ((k, v) :: fs)) with ((k, kind_of v) :: shape fs). cbn [get_fields]. rewrite G1. cbn [obind].
    destruct (IH u1 U1) as (u2 & fs2 & G2 & U2 & Ex2 & R2 & N2); auto.
    + pose proof (uncached_ext u u1 U (proj1 (proj2 Ex1))). lia.
    + destruct Ex1 as (_ & _ & Q). congruence.
    + intros k' v' J. apply Fd. now right.
    + rewrite G2. cbn [obind]. exists u2, ((k, v1) :: fs2). split; auto. split; auto. split; [eapply uext_trans; eauto|]. split; [|eapply unew_trans; eauto].
      constructor; auto. split; auto. cbn. eapply vrel_ext; [apply Ex2|auto].
Qed.
End Values.

(** DKEggUnarchiverGetObject. *)
Lemma get_object_ok : forall fuel, get_spec fuel (get_object br g e fuel).
Proof.
  induction fuel as [|fuel IH]; intros u i U B M; [lia|]. cbn [get_object unobj e].
  destruct (N.ltb_spec (N.of_nat i) (N.of_nat no)); [|lia]. cbn [negb]. rewrite Nat2N.id. destruct (lookup i (ucache u)) as [id|] eqn:L.
  { exists u, id. split; auto. split; auto. split; [apply uext_refl|]. split; [now apply lookup_in|]. now apply unew_same. }
  destruct (Done i B) as (j & n & c & l & V & En & Rn & Eo & Hc & Fs). destruct (Gok j Rn) as (n' & En' & (Nc & Nd & Ns)). rewrite En in En'. injection En' as <-.
  destruct (object_at i _ l Eo) as (-> & _). cbn [obind]. rewrite (get_class_ok c _ _ (hasH_has _ _ _ Hc) Nc). cbn [obind].
  set (id := length (uheap u)). set (u0 := mkU _ _ _).
  assert (Nl: ~ In i (map fst (ucache u))) by now apply lookup_none.
  assert (U0: uinv u0).
  { destruct U as [A1 A2 A3]. split; cbn.
    - constructor; auto.
    - constructor; auto. intros X. apply in_map_iff in X as ([i' id'] & Q & X). cbn in Q. subst id'. apply A3 in X. unfold id in X. lia.
    - intros i' id' [Q|X]; [injection Q as <- <-; rewrite app_length; cbn; unfold id; lia|]. apply A3 in X. rewrite app_length. lia. }
  assert (M0: uncached u0 < fuel).
  { unfold uncached in *. cbn [ucache u0 length]. pose proof (cached_le u0 U0) as Lv. cbn [ucache u0 length] in Lv. lia. }
  destruct (get_fields_ok fuel _ IH i (ustack u) (u32 c) l Eo (nfields n) u0 U0 M0 eq_refl Ns) as (u1 & fs & G1 & U1 & Ex1 & R1 & N1).
  { intros k v J. eapply find_fstored; eauto. }
  rewrite G1. cbn [obind]. destruct Ex1 as ((x & P1) & L1 & S1). cbn [uheap u0] in P1.
  assert (Eh: upd (uheap u1) id (mkN (ncls n) fs) = uheap u ++ mkN (ncls n) fs :: x) by (rewrite P1, <- app_assoc; cbn [app]; now apply upd_at).
  eexists _, id. split; [reflexivity|]. rewrite Eh.
  assert (Lh: length (uheap u1) = length (uheap u ++ mkN (ncls n) fs :: x)) by (rewrite P1, !app_length; cbn [length]; lia).
  split; [destruct U1 as [A1 A2 A3]; split; cbn; auto; rewrite <- Lh; auto|].
  split; [split; [cbn; apply pre_app|cbn; split; [intros y Hy; apply L1; cbn; auto|rewrite <- S1; reflexivity]]|].
  assert (C1: In (i, id) (ucache u1)) by (apply L1; cbn; auto). split; auto.
  intros k Lk. cbn [uheap ucache] in Lk. destruct (Nat.eq_dec k id) as [->|Ne].
  - exists i, j, n, fs. cbn [ucache uheap]. split; [assumption|]. split; [assumption|]. split; [assumption|]. split; [unfold id; rewrite nth_error_app2, Nat.sub_diag by lia; reflexivity|].
    eapply Forall2_imp; [|exact R1]. intros ? ? (P & Q). split; auto.
  - eapply udone_ext; [| |apply (N1 k)]; cbn [ucache uheap].
    + apply incl_refl.
    + intros y Hy. rewrite P1 in Hy. rewrite <- app_assoc in Hy. cbn [app] in Hy. unfold id in Ne. rewrite nth_error_app2 in Hy |- * by lia. destruct (k - length (uheap u)) eqn:Q; [lia|exact Hy].
    + rewrite <- Lh in Lk. cbn. rewrite app_length. cbn. unfold id in Ne. lia.
Qed.
End Read.
