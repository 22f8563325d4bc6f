(** The archiver stores every reachable object. *)
Require Import Coq.NArith.NArith Coq.ZArith.ZArith Coq.Lists.List Coq.Arith.Arith Coq.Bool.Bool Coq.micromega.Lia.
Require Import Verif.Base Verif.Encoding_Model Verif.Encoding_Spec Verif.Encoding_Proofs Verif.Egg_Model Verif.Egg_Spec Verif.Egg_Proofs.
Import ListNotations.
Local Open Scope nat_scope.

Section Arch.
Context (big : bool) (g : registry) (h : heap) (roots : list nat) (root : option nat) (first : list N).
Context (Gok : graph_ok g h roots root first) (Rok : registry_ok g).
Notation inv := (inv h root first).
Notation done := (done big h roots).
Notation newdone := (newdone big h roots).
Notation stored := (stored big).
Notation fstored := (fstored big).
Notation unvisited := (unvisited h).

Definition started (a : archiver) : Prop := adata a <> [] /\ aobjs a <> [].
Lemma started_ext a a' : ext a a' -> started a -> started a'.
Proof. intros ((x & X) & (y & Y) & _) (A & B). split; [rewrite X|rewrite Y]; intros E; apply app_eq_nil in E; tauto. Qed.

(** What AddObject does. *)
Definition add_spec (m : nat) (add : archiver -> nat -> outcome (archiver * nat)) : Prop :=
  forall H a id, inv H a -> started a -> reach h roots id -> unvisited a < m ->
    exists a' i, add a id = Ok (a', i) /\ inv H a' /\ ext a a' /\ In (id, i) (avisited a') /\ newdone H a a'.

Section Values.
Context (m : nat) (add : archiver -> nat -> outcome (archiver * nat)) (Add : add_spec m add).

Lemma ref_pos H a j i : inv H a -> ref_ok root j -> In (j, i) (avisited a) -> ix a j i.
Proof. intros I R X. split; auto. destruct i; [|lia]. apply (i_zero _ _ _ _ _ I) in X. contradiction. Qed.

Lemma set_data_grow (H : hole) a p x y q : adata a = p ++ x ++ q -> length x = length y -> (forall i, length p <= i < length p + length x -> H i) ->
  grow H a (mkArch (aobjs a) (avisited a) (asyms a) (p ++ y ++ q) (astack a)).
Proof. intros E L Ho. split; cbn; [rewrite E; now apply keeps_put|apply incl_refl]. Qed.
Lemma set_data_inv (H : hole) a p x y q : inv H a -> adata a = p ++ x ++ q -> length x = length y -> (forall i, length p <= i < length p + length x -> H i) ->
  inv H (mkArch (aobjs a) (avisited a) (asyms a) (p ++ y ++ q) (astack a)).
Proof.
  intros I E L Ho. destruct (set_data_grow H a p x y q E L Ho) as (K & _). destruct I as [A B C D F G]. split; cbn in *; auto.
  - intros s off X. destruct (F s off X). split; auto.
  - intros i X. specialize (G i X). rewrite E in G. rewrite !app_length in *. lia.
Qed.

Lemma put_split p x y q : length x = length y -> put (p ++ x ++ q) (length p) y = Ok (p ++ y ++ q).
Proof.
  intros L. rewrite put_ok by (rewrite !app_length; lia). f_equal. rewrite firstn_app, firstn_all, Nat.sub_diag, firstn_O, app_nil_r. f_equal. f_equal.
  rewrite app_assoc, skipn_app, skipn_all2 by (rewrite app_length; lia). rewrite app_length, L, Nat.sub_diag. reflexivity.
Qed.
Lemma repeat_plus {A} (x : A) a b : repeat x (a + b) = repeat x a ++ repeat x b.
Proof. apply repeat_app. Qed.
Lemma idx_cons i l : idx_bytes big (i :: l) = int_bytes big 4 (u32 i) ++ idx_bytes big l.
Proof. reflexivity. Qed.
Lemma idx_length l : length (idx_bytes big l) = 4 * length l.
Proof. induction l; [reflexivity|]. rewrite idx_cons, app_length, int_length, IHl. cbn [length]. lia. Qed.
Lemma pair_cons p l : pair_bytes big (p :: l) = (int_bytes big 4 (u32 (fst p)) ++ int_bytes big 4 (u32 (snd p))) ++ pair_bytes big l.
Proof. reflexivity. Qed.
Lemma pair_length l : length (pair_bytes big l) = 8 * length l.
Proof. induction l; [reflexivity|]. rewrite pair_cons, !app_length, !int_length, IHl. cbn [length]. lia. Qed.

(** The loop over a collection. *)
Lemma add_elems_ok (H : hole) off : forall js a p bs q n, inv H a -> started a -> unvisited a < m ->
  Forall (fun j => reach h roots j /\ ref_ok root j) js ->
  adata a = p ++ bs ++ repeat 0%N (4 * length js) ++ q -> length p = off -> length bs = 4 * n ->
  (forall i, off + 4 * n <= i < off + 4 * n + 4 * length js -> H i) ->
  exists a' l q', add_elems big add off (a, n) (map Some js) = Ok (a', n + length js) /\ inv H a' /\ ext0 a a' /\
    adata a' = p ++ bs ++ idx_bytes big l ++ q' /\ pre q q' /\ Forall2 (ix a') js l /\ newdone H a a' /\ grow H a a'.
Proof.
  induction js as [|j js IH]; intros a p bs q n I St M F D Lp Lb Ho.
  - exists a, [], q. split; [cbn; now rewrite Nat.add_0_r|]. split; [exact I|]. split; [apply ext0_refl|]. split; [exact D|]. split; [apply pre_refl|]. split; [constructor|]. split; [now apply newdone_same|]. split; [intros ? ? ?; auto|apply incl_refl].
  - pose proof (Forall_inv F) as (Rj & Oj); apply Forall_inv_tail in F. cbn [map add_elems add_elem].
    destruct (Add H a j I St Rj M) as (a1 & i & E1 & I1 & X1 & V1 & N1). rewrite E1. cbn [obind].
    pose proof X1 as ((x & Dx) & _). rewrite D in Dx.
    set (w := int_bytes big 4 (u32 i)).
    assert (Lw: length w = 4) by apply int_length.
    assert (D1: adata a1 = (p ++ bs) ++ repeat 0%N 4 ++ (repeat 0%N (4 * length js) ++ q ++ x)).
    { rewrite Dx. replace (4 * length (j :: js)) with (4 + 4 * length js) by (cbn [length]; lia). rewrite repeat_plus, <- !app_assoc. reflexivity. }
    assert (Lpb: length (p ++ bs) = off + 4 * n) by (rewrite app_length; lia).
    rewrite D1, <- Lpb, put_split by (rewrite repeat_length; auto). cbn [obind].
    assert (Hw: forall k, length (p ++ bs) <= k < length (p ++ bs) + length (repeat 0%N 4) -> H k) by (intros k; rewrite Lpb, repeat_length; intros; apply Ho; cbn [length]; lia).
    pose proof (set_data_grow H a1 _ _ w _ D1 (eq_sym Lw) Hw) as G2.
    pose proof (set_data_inv H a1 _ _ w _ I1 D1 (eq_sym Lw) Hw) as I2.
    set (a2 := mkArch _ _ _ _ _) in *.
    assert (M2: unvisited a2 < m). { change (unvisited a2) with (unvisited a1). pose proof (unvisited_ext h root first H a a1 I I1 (proj1 (proj2 (proj2 X1)))). lia. }
    assert (D2: adata a2 = p ++ (bs ++ w) ++ repeat 0%N (4 * length js) ++ (q ++ x)) by (cbn; rewrite <- !app_assoc; reflexivity).
    destruct (IH a2 p (bs ++ w) (q ++ x) (S n) I2) as (a3 & l & q' & E3 & I3 & X3 & D3 & P3 & F3 & N3 & G3); auto.
    + destruct (started_ext _ _ X1 St) as (S1 & S2). split; auto. rewrite D2. intros Q. apply app_eq_nil in Q as (_ & Q). apply app_eq_nil in Q as (Q & _). apply app_eq_nil in Q as (_ & Q). rewrite Q in Lw. discriminate.
    + rewrite app_length. lia.
    + intros k Lk. apply Ho. cbn [length]. lia.
    + exists a3, (i :: l), q'. split; [rewrite E3; f_equal; f_equal; cbn [length]; lia|]. split; auto.
      assert (X2: ext0 a1 a2) by (split; [apply pre_refl|repeat split; apply incl_refl]).
      assert (E: ext0 a a3) by (eapply ext0_trans; [apply X1|]; eapply ext0_trans; eauto).
      assert (G1: grow H a a1) by (now apply ext_grow).
      assert (G: grow H a1 a3) by (destruct G2, G3; split; eauto using keeps_trans, incl_tran).
      split; auto. split; [rewrite D3, idx_cons, <- !app_assoc; reflexivity|]. split; [eapply pre_trans; [apply pre_app|eauto]|].
      split. { constructor; auto. apply (ix_grow H a1 a3); auto. eapply ref_pos; eauto. }
      split.
      * apply (newdone_trans big h roots H a a1 a3); [exact G|exact (proj1 (ext0_trans a1 a2 a3 X2 X3))|assumption|].
        apply (newdone_trans big h roots H a1 a2 a3); [exact G3|exact (proj1 X3)| |exact N3]. apply newdone_same. reflexivity.
      * destruct G1, G. split; eauto using keeps_trans, incl_tran.
Qed.

(** The loop over a keyed collection. *)
Lemma add_opt_ok H a o : inv H a -> started a -> unvisited a < m -> (forall j, o = Some j -> reach h roots j) -> oref_ok root o ->
  exists a' i, match o with None => Ok (a, 0) | Some j => add a j end = Ok (a', i) /\ inv H a' /\ ext a a' /\ oix a' o i /\ newdone H a a'.
Proof.
  intros I St M R O. destruct o as [j|].
  - destruct (Add H a j I St (R j eq_refl) M) as (a1 & i & E1 & I1 & X1 & V1 & N1). exists a1, i. split; [exact E1|]. split; [exact I1|]. split; [exact X1|]. split; [|exact N1]. cbn. eapply ref_pos; eauto.
  - exists a, 0. split; [reflexivity|]. split; auto. split; [apply ext_refl|]. split; [reflexivity|]. now apply newdone_same.
Qed.
Lemma add_pairs_ok (H : hole) off : forall ps a p bs q n, inv H a -> started a -> unvisited a < m ->
  Forall (fun x => (reach h roots (fst x) /\ ref_ok root (fst x)) /\ (forall j, snd x = Some j -> reach h roots j) /\ oref_ok root (snd x)) ps ->
  adata a = p ++ bs ++ repeat 0%N (8 * length ps) ++ q -> length p = off -> length bs = 8 * n ->
  (forall i, off + 8 * n <= i < off + 8 * n + 8 * length ps -> H i) ->
  exists a' l q', add_pairs big add off (a, n) ps = Ok (a', n + length ps) /\ inv H a' /\ ext0 a a' /\
    adata a' = p ++ bs ++ pair_bytes big l ++ q' /\ pre q q' /\ Forall2 (fun x y => ix a' (fst x) (fst y) /\ oix a' (snd x) (snd y)) ps l /\ newdone H a a' /\ grow H a a'.
Proof.
  induction ps as [|pr ps IH]; intros a p bs q n I St M F D Lp Lb Ho.
  - exists a, [], q. split; [cbn; now rewrite Nat.add_0_r|]. split; [exact I|]. split; [apply ext0_refl|]. split; [exact D|]. split; [apply pre_refl|]. split; [constructor|]. split; [now apply newdone_same|]. split; [intros ? ? ?; auto|apply incl_refl].
  - pose proof (Forall_inv F) as ((Rk & Ok1) & Rv & Ov); apply Forall_inv_tail in F. cbn [add_pairs]. unfold add_pair at 1.
    destruct (Add H a (fst pr) I St Rk M) as (a0 & k & E0 & I0 & X0 & V0 & N0). rewrite E0. cbn [obind].
    pose proof (ref_pos _ _ _ _ I0 Ok1 V0) as K0. rewrite (proj2 (Nat.ltb_lt 0 k)) by apply K0.
    assert (M0: unvisited a0 < m). { pose proof (unvisited_ext h root first H a a0 I I0 (proj1 (proj2 (proj2 X0)))). lia. }
    destruct (add_opt_ok H a0 (snd pr) I0 (started_ext _ _ X0 St) M0 Rv Ov) as (a1 & v & E1 & I1 & X1 & V1 & N1). rewrite E1. cbn [obind].
    pose proof (ext_trans _ _ _ X0 X1) as X01. pose proof X01 as ((x & Dx) & _). rewrite D in Dx.
    set (w := int_bytes big 4 (u32 k) ++ int_bytes big 4 (u32 v)).
    assert (Lw: length w = 8) by (unfold w; rewrite app_length, !int_length; reflexivity).
    assert (D1: adata a1 = (p ++ bs) ++ repeat 0%N 8 ++ (repeat 0%N (8 * length ps) ++ q ++ x)).
    { rewrite Dx. replace (8 * length (pr :: ps)) with (8 + 8 * length ps) by (cbn [length]; lia). rewrite repeat_plus, <- !app_assoc. reflexivity. }
    assert (Lpb: length (p ++ bs) = off + 8 * n) by (rewrite app_length; lia).
    rewrite D1, <- Lpb, put_split by (rewrite repeat_length; auto). cbn [obind].
    assert (Hw: forall k, length (p ++ bs) <= k < length (p ++ bs) + length (repeat 0%N 8) -> H k) by (intros i; rewrite Lpb, repeat_length; intros; apply Ho; cbn [length]; lia).
    pose proof (set_data_grow H a1 _ _ w _ D1 (eq_sym Lw) Hw) as G2.
    pose proof (set_data_inv H a1 _ _ w _ I1 D1 (eq_sym Lw) Hw) as I2.
    set (a2 := mkArch _ _ _ _ _) in *.
    assert (M2: unvisited a2 < m). { change (unvisited a2) with (unvisited a1). pose proof (unvisited_ext h root first H a a1 I I1 (proj1 (proj2 (proj2 X01)))). lia. }
    assert (D2: adata a2 = p ++ (bs ++ w) ++ repeat 0%N (8 * length ps) ++ (q ++ x)) by (cbn; rewrite <- !app_assoc; reflexivity).
    destruct (IH a2 p (bs ++ w) (q ++ x) (S n) I2) as (a3 & l & q' & E3 & I3 & X3 & D3 & P3 & F3 & N3 & G3); auto.
    + destruct (started_ext _ _ X01 St) as (S1 & S2). split; auto. rewrite D2. intros Q. apply app_eq_nil in Q as (_ & Q). apply app_eq_nil in Q as (Q & _). apply app_eq_nil in Q as (_ & Q). rewrite Q in Lw. discriminate.
    + rewrite app_length. lia.
    + intros i Li. apply Ho. cbn [length]. lia.
    + exists a3, ((k, v) :: l), q'. split; [rewrite E3; f_equal; f_equal; cbn [length]; lia|]. split; auto.
      assert (X2: ext0 a1 a2) by (split; [apply pre_refl|repeat split; apply incl_refl]).
      assert (E: ext0 a a3) by (eapply ext0_trans; [apply X01|]; eapply ext0_trans; eauto).
      assert (G0: grow H a a1) by (now apply ext_grow).
      assert (G: grow H a1 a3) by (destruct G2, G3; split; eauto using keeps_trans, incl_tran).
      assert (G01: grow H a0 a3) by (destruct (ext_grow H _ _ X1), G; split; eauto using keeps_trans, incl_tran).
      split; auto. split; [rewrite D3, pair_cons; unfold w; cbn [fst snd]; rewrite <- !app_assoc; reflexivity|]. split; [eapply pre_trans; [apply pre_app|eauto]|].
      split. { constructor; auto. cbn [fst snd]. split; [apply (ix_grow H a0 a3)|apply (oix_grow H a1 a3)]; auto. }
      split.
      * assert (N01: newdone H a a1) by (apply (newdone_trans big h roots H a a0 a1); auto; [now apply ext_grow|apply X1]).
        apply (newdone_trans big h roots H a a1 a3); [exact G|exact (proj1 (ext0_trans a1 a2 a3 X2 X3))|assumption|].
        apply (newdone_trans big h roots H a1 a2 a3); [exact G3|exact (proj1 X3)| |exact N3]. apply newdone_same. reflexivity.
      * destruct G0, G. split; eauto using keeps_trans, incl_tran.
Qed.

Definition finish (a : archiver) (key : list N) (x : option (N * N)) : outcome archiver :=
  match x with None => Ok a | Some (e, v) => add_attr a key e v end.

(** Storage for a collection. *)
Lemma reserve_ok (H : hole) a n : inv H a -> exists p, reserve a n = Ok (mkArch (aobjs a) (avisited a) (asyms a) (p ++ repeat 0%N n) (astack a), length p) /\ pre (adata a) p /\
  inv (fun i => H i \/ length p <= i < length p + n) (mkArch (aobjs a) (avisited a) (asyms a) (p ++ repeat 0%N n) (astack a)).
Proof.
  intros I. destruct (align_ok (adata a) 4) as (x & X); [lia|]. exists (adata a ++ x). unfold reserve. rewrite X. cbn [obind]. split; auto. split; [apply pre_app|].
  assert (P: pre (adata a) ((adata a ++ x) ++ repeat 0%N n)) by (eapply pre_trans; apply pre_app).
  destruct (inv_data h root first H a _ P I) as [A B C D E F]. split; cbn in *; auto.
  - intros s off J. destruct (E s off J) as ((U & V) & W). split; auto. split; auto. intros i Li [K|K]; [apply (V i); auto|].
    destruct (i_sym _ _ _ _ _ I s off J) as ((U' & _) & _). apply has_bound in U'. rewrite app_length in K. lia.
  - intros i [K|K]; auto. rewrite !app_length, repeat_length in *. lia.
Qed.

Lemma unopt l : Forall (fun o : option nat => o <> None) l -> exists js, l = map Some js.
Proof. induction l as [|[j|] l IH]; intros F; [now exists []| |now apply Forall_inv in F]. apply Forall_inv_tail in F. destruct (IH F) as (js & ->). now exists (j :: js). Qed.

Lemma text_ok H a key s : inv H a -> (N.of_nat (length s) < max_count)%N ->
  exists a' off, add_text a key s = finish a' key (Some (encode TText (u32 (length s + 1)), u32 off)) /\ inv H a' /\ ext a a' /\ hasH H (adata a') off (s ++ [0%N]) /\ newdone H a a'.
Proof.
  intros I S. destruct (text_enc (length s + 1)) as (T1 & T2 & _); [lia|]. unfold add_text. destruct (N.ltb_spec max_count (N.of_nat (length s) + 1)); [lia|].
  destruct (add_data_ok h root first H a (encode TText (u32 (length s + 1))) (s ++ [0%N]) I) as (x & A & Ex & Hs); [rewrite T1; lia|rewrite T1, T2, app_length; cbn [length]; lia|].
  rewrite A. cbn [obind]. eexists _, _. split; [reflexivity|].
  assert (P: pre (adata a) ((adata a ++ x) ++ s ++ [0%N])) by (eapply pre_trans; apply pre_app).
  split; [now apply inv_data|]. split; [split; [exact P|split; [apply pre_refl|repeat split; apply incl_refl]]|]. split; [exact Hs|now apply newdone_same].
Qed.
Lemma bin_ok H a key s : inv H a -> (N.of_nat (length s) <= max_count)%N ->
  exists a' off, add_bin a key s = finish a' key (Some (encode TBinary (u32 (length s)), u32 off)) /\ inv H a' /\ ext a a' /\ hasH H (adata a') off s /\ newdone H a a'.
Proof.
  intros I S. destruct (bin_enc (length s)) as (T1 & T2 & _); [lia|]. unfold add_bin. destruct (N.ltb_spec max_count (N.of_nat (length s))); [lia|].
  destruct (add_data_ok h root first H a (encode TBinary (u32 (length s))) s I) as (x & A & Ex & Hs); [rewrite T1; lia|rewrite T1, T2; lia|].
  rewrite A. cbn [obind]. eexists _, _. split; [reflexivity|].
  assert (P: pre (adata a) ((adata a ++ x) ++ s)) by (eapply pre_trans; apply pre_app).
  split; [now apply inv_data|]. split; [split; [exact P|split; [apply pre_refl|repeat split; apply incl_refl]]|]. split; [exact Hs|now apply newdone_same].
Qed.
Lemma num_ok H a key e l : inv H a -> (0 < get_type_size e)%N -> N.of_nat (length l) = get_count e ->
  exists a' off, add_num big a key e l = finish a' key (Some (e, u32 off)) /\ inv H a' /\ ext a a' /\ hasH H (adata a') off (num_bytes big e l) /\ newdone H a a'.
Proof.
  intros I S1 S2. unfold add_num.
  assert (Ln: forall l, length (num_bytes big e l) = N.to_nat (get_type_size e) * length l).
  { intros l'. induction l' as [|y l' IH]; [cbn; lia|]. unfold num_bytes in *. cbn [map concat length]. rewrite app_length, int_length, IH. lia. }
  destruct (add_data_ok h root first H a e (num_bytes big e l) I) as (x & A & Ex & Hs); [auto|rewrite Ln; lia|].
  change (concat (map (int_bytes big (N.to_nat (get_type_size e))) l)) with (num_bytes big e l).
  rewrite A. cbn [obind]. eexists _, _. split; [reflexivity|].
  assert (P: pre (adata a) ((adata a ++ x) ++ num_bytes big e l)) by (eapply pre_trans; apply pre_app).
  split; [now apply inv_data|]. split; [split; [exact P|split; [apply pre_refl|repeat split; apply incl_refl]]|]. split; [exact Hs|now apply newdone_same].
Qed.

Lemma value_ok H a key v : inv H a -> started a -> unvisited a < m -> storable g root first v -> (forall j, In j (refs v) -> reach h roots j) ->
  exists a' x, add_value big add a key v = finish a' key x /\ inv H a' /\ ext a a' /\ stored H a' v x /\ newdone H a a'.
Proof.
  intros I St M S R. destruct v as [[j|]|s|s|l|l|s|s|e l|s|t l]; cbn [storable] in S.
  - destruct (Add H a j I St (R j (or_introl eq_refl)) M) as (a1 & i & E1 & I1 & X1 & V1 & N1). pose proof (ref_pos _ _ _ _ I1 S V1) as K.
    exists a1, (Some (encode TObject 1, u32 i)). unfold add_value. rewrite E1. cbn [obind]. rewrite (proj2 (Nat.ltb_lt 0 i)) by apply K. repeat (split; [now auto|]). split; auto. now constructor.
  - exists a, None. repeat (split; [now auto using ext_refl|]). split; [constructor|now apply newdone_same].
  - destruct S as (Sf & Sc). assert (Nm: name_ok s) by (destruct Rok as (_ & Rn & _); rewrite Forall_forall in Rn; auto).
    destruct (add_symbol_ok h root first H a s I Nm) as (a1 & off & E1 & I1 & X1 & O1 & V1 & H1 & P1 & D1); [destruct St; contradiction|].
    exists a1, (Some (encode TClass 1, u32 off)). unfold add_value. rewrite E1. cbn [obind]. rewrite (proj2 (Nat.ltb_lt 0 off)) by auto.
    repeat (split; [now auto|]). split; [now constructor|]. apply newdone_same. now rewrite O1.
  - destruct S as (Sf & Sc). assert (Nm: name_ok s) by (destruct Rok as (_ & _ & Rn); rewrite Forall_forall in Rn; auto).
    destruct (add_symbol_ok h root first H a s I Nm) as (a1 & off & E1 & I1 & X1 & O1 & V1 & H1 & P1 & D1); [destruct St; contradiction|].
    exists a1, (Some (encode TSelector 1, u32 off)). unfold add_value. rewrite E1. cbn [obind]. rewrite (proj2 (Nat.ltb_lt 0 off)) by auto.
    repeat (split; [now auto|]). split; [now constructor|]. apply newdone_same. now rewrite O1.
  - destruct S as (So & Sl & Sn). destruct l as [|o l]; [exists a, None; repeat (split; [now auto using ext_refl|]); split; [constructor|now apply newdone_same]|].
    destruct l as [|o' l].
    + destruct (add_opt_ok H a o I St M) as (a1 & i & E1 & I1 & X1 & V1 & N1); [intros j ->; apply R; cbn; auto|now apply Forall_inv in So|].
      exists a1, (Some (encode TObject 1, u32 i)). unfold add_value. rewrite E1. cbn [obind]. repeat (split; [now auto|]). split; auto. now constructor.
    + destruct Sn as [Sn|Sn]; [discriminate|]. destruct (unopt _ Sn) as (js & Ejs). set (ol := o :: o' :: l) in *.
      assert (Ev: add_value big add a key (VColl ol) = (do r <- reserve a (4 * length ol); let (a, off) := r in do r <- add_elems big add off (a, 0) ol; let (a, _) := r in add_attr a key (encode TObject (u32 (length ol))) (u32 off))) by reflexivity.
      rewrite Ev. destruct (reserve_ok H a (4 * length ol) I) as (p & E0 & P0 & I0). rewrite E0. cbn [obind].
      assert (Lj: length js = length ol) by (rewrite Ejs, map_length; auto).
      set (H' := fun i => H i \/ _) in *. set (a0 := mkArch _ _ _ _ _) in *.
      assert (Dn: adata a0 <> []) by (cbn; destruct P0 as (x & ->), St as (St & _); destruct (adata a); [contradiction|discriminate]).
      destruct (add_elems_ok H' (length p) js a0 p [] [] 0 I0) as (a1 & il & q & E1 & I1 & X1 & D1 & Q1 & F1 & N1 & G1); auto.
      * split; auto. apply St.
      * rewrite Forall_forall. intros j J. split; [apply R; cbn [refs]; apply in_flat_map; exists (Some j); split; [rewrite Ejs; now apply in_map|now left]|].
        rewrite Forall_forall in So. apply (So (Some j)). rewrite Ejs. now apply in_map.
      * cbn. now rewrite app_nil_r, Lj.
      * intros i Li. right. rewrite Lj in Li. lia.
      * rewrite <- Ejs in E1. rewrite E1. cbn [obind]. assert (Sb: sub H H') by (intros i; left; auto).
        exists a1, (Some (encode TObject (u32 (length ol)), u32 (length p))). split; [reflexivity|]. split; [eapply inv_sub; eauto|].
        split; [split; [rewrite D1; cbn [app]; eapply pre_trans; [exact P0|apply pre_app]|exact X1]|].
        split; [|intros k Lk; eapply done_sub; [exact Sb|]; apply N1; auto].
        rewrite <- Lj. rewrite Ejs. apply (st_coll big H a1 js il (length p)); auto; [rewrite Lj; cbn; lia|].
        split; [rewrite D1; exists p, q; auto|]. intros i Li Hi. apply (i_hole _ _ _ _ _ I) in Hi. apply pre_len in P0. lia.
  - destruct S as (So & Sl). unfold add_value.
    destruct (reserve_ok H a (8 * length l) I) as (p & E0 & P0 & I0). rewrite E0. cbn [obind].
    set (H' := fun i => H i \/ _) in *. set (a0 := mkArch _ _ _ _ _) in *.
    assert (Dn: adata a0 <> []) by (cbn; destruct P0 as (x & ->), St as (St & _); destruct (adata a); [contradiction|discriminate]).
    destruct (add_pairs_ok H' (length p) l a0 p [] [] 0 I0) as (a1 & il & q & E1 & I1 & X1 & D1 & Q1 & F1 & N1 & G1); auto.
    + split; auto. apply St.
    + rewrite Forall_forall in *. intros pr J. destruct (So pr J) as (S1 & S2). split; [split; auto|split; auto].
      * apply R. cbn [refs]. apply in_flat_map. exists pr. split; auto. now left.
      * intros j Ej. apply R. cbn [refs]. apply in_flat_map. exists pr. split; auto. right. rewrite Ej. now left.
    + cbn. now rewrite app_nil_r.
    + intros i Li. right. lia.
    + rewrite E1. cbn [obind]. assert (Sb: sub H H') by (intros i; left; auto).
      exists a1, (Some (encode TKeyedObject (u32 (length l)), u32 (length p))). split; [reflexivity|]. split; [eapply inv_sub; eauto|].
      split; [split; [rewrite D1; cbn [app]; eapply pre_trans; [exact P0|apply pre_app]|exact X1]|].
      split; [|intros k Lk; eapply done_sub; [exact Sb|]; apply N1; auto].
      apply (st_keyed big H a1 l il (length p)); auto.
      split; [rewrite D1; exists p, q; auto|]. intros i Li Hi. apply (i_hole _ _ _ _ _ I) in Hi. apply pre_len in P0. lia.
  - destruct (text_ok H a key s I S) as (a' & off & E & I1 & X1 & D1 & N1). eexists a', (Some _). split; [exact E|]. repeat (split; [assumption|]). split; [now constructor|assumption].
  - destruct (bin_ok H a key s I S) as (a' & off & E & I1 & X1 & D1 & N1). eexists a', (Some _). split; [exact E|]. repeat (split; [assumption|]). split; [now constructor|assumption].
  - destruct S as (_ & _ & S1 & S2 & _). destruct (num_ok H a key e l I S1 S2) as (a' & off & E & I1 & X1 & D1 & N1). eexists a', (Some _). split; [exact E|]. repeat (split; [assumption|]). split; [now constructor|assumption].
  - destruct s as [|b s]; [exists a, None; repeat (split; [now auto using ext_refl|]); split; [constructor|now apply newdone_same]|].
    destruct (text_ok H a key (b :: s) I S) as (a' & off & E & I1 & X1 & D1 & N1). eexists a', (Some _). split; [exact E|]. repeat (split; [assumption|]). split; [now constructor|assumption].
  - destruct S as (S & [->|(T & Z & F)]).
    + destruct l as [|b l]; [exists a, None; repeat (split; [now auto using ext_refl|]); split; [constructor|now apply newdone_same]|].
      destruct (bin_ok H a key (b :: l) I S) as (a' & off & E & I1 & X1 & D1 & N1). eexists a', (Some _). split; [exact E|]. repeat (split; [assumption|]). split; [now constructor|assumption].
    + destruct (num_enc t (length l) T Z S) as (_ & _ & Es & Ec & _). unfold add_value. rewrite T. cbn zeta. rewrite Es. destruct (N.eqb_spec (type_size t) 0); [lia|].
      destruct (num_ok H a key (encode t (u32 (length l))) l I) as (a' & off & E & I1 & X1 & D1 & N1); [now rewrite Es|now rewrite Ec|].
      eexists a', (Some _). split; [exact E|]. repeat (split; [assumption|]). split; [now constructor|assumption].
Qed.

Lemma upd_at {A} (z z0 : A) r2 : forall r1 k, length r1 = k -> upd (r1 ++ z0 :: r2) k z = r1 ++ z :: r2.
Proof. intros r1 k <-. induction r1; cbn; congruence. Qed.
(** Fields are added to the object on top of the stack. *)
Lemma inv_objs H a o : length o = length (aobjs a) -> inv H a -> inv H (mkArch o (avisited a) (asyms a) (adata a) (astack a)).
Proof. intros L [A B C D E F]. split; cbn; auto. rewrite L. auto. Qed.
Lemma stored_eq H a a' v x : adata a = adata a' -> avisited a = avisited a' -> stored H a v x -> stored H a' v x.
Proof. intros E V. apply stored_grow. split; [rewrite E; now intros ? ?|rewrite V; apply incl_refl]. Qed.
Lemma fields_done H top s c : forall fs a l, inv H a -> started a -> unvisited a < m -> astack a = top :: s -> nth_error (aobjs a) top = Some (c, l) ->
  Forall (fun f => storable g root first (snd f)) fs -> (forall k v j, In (k, v) fs -> In j (refs v) -> reach h roots j) ->
  exists a' l' x, add_fields big add a fs = Ok a' /\ inv H a' /\ pre (adata a) (adata a') /\ incl (avisited a) (avisited a') /\ incl (asyms a) (asyms a') /\ astack a' = astack a /\
    aobjs a' = upd (aobjs a) top (c, l ++ l') ++ x /\ fstored H a' fs l' /\ (forall k, length (aobjs a) <= k < length (aobjs a') -> done H a' k).
Proof.
  induction fs as [|[k v] fs IH]; intros a l I St M Sk T F R.
  - exists a, [], []. cbn [add_fields]. rewrite !app_nil_r. repeat (split; [now auto using pre_refl, incl_refl|]). split.
    + destruct (upd_split _ _ _ (c, l) _ T) as (l1 & l2 & E & _ & E'). congruence.
    + split; [constructor|]. intros; lia.
  - apply Forall_inv in F as S; apply Forall_inv_tail in F. cbn [snd] in S.
    destruct (value_ok H a k v I St M S) as (a1 & x & E1 & I1 & X1 & S1 & N1); [intros j J; eapply R; [now left|auto]|].
    assert (T1: nth_error (aobjs a1) top = Some (c, l)) by (eapply pre_nth; [apply X1|auto]).
    assert (Sk1: astack a1 = top :: s) by (destruct X1 as (_ & _ & _ & _ & <-); auto).
    set (a2 := mkArch (upd (aobjs a1) top (c, l ++ attrs_of k x)) (avisited a1) (asyms a1) (adata a1) (astack a1)).
    assert (E2: finish a1 k x = Ok a2).
    { destruct x as [[e w]|]; cbn [finish]; [now apply (add_attr_ok _ top s)|]. unfold a2. cbn. rewrite app_nil_r. destruct (upd_split _ _ _ (c, l) _ T1) as (l1 & l2 & E & _ & E'). rewrite E', <- E. now destruct a1. }
    assert (Lt: top < length (aobjs a)) by (apply nth_error_Some; congruence).
    assert (Lt1: top < length (aobjs a1)) by (apply nth_error_Some; congruence).
    assert (I2: inv H a2) by (apply inv_objs; auto; apply upd_length).
    cbn [add_fields]. rewrite E1, E2. cbn [obind].
    destruct (IH a2 (l ++ attrs_of k x) I2) as (a3 & l' & y & E3 & I3 & P3 & V3 & Y3 & Sk3 & O3 & F3 & N3); auto.
    + destruct (started_ext _ _ X1 St). split; auto. cbn. intros Q. apply (f_equal (@length _)) in Q. rewrite upd_length in Q. cbn in Q. lia.
    + change (unvisited a2) with (unvisited a1). pose proof (unvisited_ext h root first H a a1 I I1 (proj1 (proj2 (proj2 X1)))). lia.
    + cbn. apply nth_error_upd_eq. auto.
    + intros k' v' j J. apply (R k' v'). now right.
    + destruct X1 as (P1 & (o & O1) & V1 & Y1 & Sk1').
      assert (G3: grow H a1 a3) by (split; [now apply keeps_pre|auto]).
      exists a3, (attrs_of k x ++ l'), (o ++ y). split; auto. split; auto. split; [eapply pre_trans; eauto|]. split; [eapply incl_tran; eauto|]. split; [eapply incl_tran; eauto|].
      split; [rewrite Sk3; cbn; congruence|]. split.
      * rewrite O3. cbn [aobjs a2]. rewrite O1. rewrite <- app_assoc.
        destruct (upd_split _ _ _ (c, l ++ attrs_of k x) _ T) as (l1 & l2 & Ea & La & Ea'). rewrite Ea.
        rewrite <- app_assoc. cbn [app]. rewrite !upd_at by auto. rewrite <- !app_assoc. cbn [app]. rewrite <- ?app_assoc. reflexivity.
      * split; [constructor; auto; eapply stored_grow; [exact G3|auto]|].
        intros i Li. destruct (le_lt_dec (length (aobjs a1)) i) as [Le|Le]; [apply N3; cbn; rewrite upd_length; lia|].
        eapply done_grow; [exact G3| |apply N1; lia]. intros c0 l0 Q. rewrite O3, nth_error_app1 by (rewrite upd_length; cbn; rewrite upd_length; lia).
        rewrite nth_error_upd_neq by lia. cbn. rewrite nth_error_upd_neq by lia. auto.
Qed.
End Values.

(** AddObject. *)
Lemma lookup_in {A} k (l : list (nat * A)) v : lookup k l = Some v -> In (k, v) l.
Proof. unfold lookup. destruct (find _ l) as [[k' v']|] eqn:E; [|discriminate]. intros [= <-]. apply find_some in E as (E & Q). apply Nat.eqb_eq in Q. cbn in Q. now subst. Qed.
Lemma lookup_none {A} k (l : list (nat * A)) : lookup k l = None -> ~ In k (map fst l).
Proof.
  unfold lookup. destruct (find _ l) as [[k' v']|] eqn:E; [discriminate|]. intros _ J. apply in_map_iff in J as ([k' v] & <- & J).
  apply (find_none _ _ E) in J. cbn in J. now rewrite Nat.eqb_refl in J.
Qed.
Lemma lookup_some {A} k (l : list (nat * A)) v : NoDup (map fst l) -> In (k, v) l -> lookup k l = Some v.
Proof.
  induction l as [|[k' v'] l IH]; intros N J; [destruct J|]. inversion N as [|? ? X Y]; subst. unfold lookup. cbn [find fst]. destruct (Nat.eqb_spec k' k) as [->|D].
  - destruct J as [[= ->]|J]; auto. destruct X. apply in_map_iff. now exists (k, v).
  - destruct J as [[= -> ->]|J]; [congruence|]. now apply IH.
Qed.
Lemma add_object_ok : forall fuel H a id n, inv H a -> nth_error h id = Some n -> reach h roots id -> (adata a = [] -> ncls n = first) -> (aobjs a = [] -> root = Some id) -> unvisited a < fuel ->
  exists a' i, add_object fuel big h a id = Ok (a', i) /\ inv H a' /\ ext a a' /\ In (id, i) (avisited a') /\ newdone H a a' /\ (lookup id (avisited a) = None -> i = length (aobjs a)).
Proof.
  induction fuel as [|fuel IH]; intros H a id n I E R Fd Fo M; [lia|]. cbn [add_object]. rewrite E.
  destruct (lookup id (avisited a)) as [i|] eqn:L.
  { apply lookup_in in L as L'. exists a, i. repeat (split; [now auto using ext_refl|]). split; [now apply newdone_same|discriminate]. }
  destruct (Gok id R) as (n' & E' & (Nc & Nf)). rewrite E in E'. injection E' as <-.
  assert (Nm: name_ok (ncls n)). { destruct Rok as (_ & Rn & _). rewrite Forall_forall in Rn. apply Rn. apply in_map_iff. eexists. split; [|exact Nc]. reflexivity. }
  destruct (add_symbol_ok h root first H a (ncls n) I Nm Fd) as (a1 & c & E1 & I1 & X1 & O1 & V1 & H1 & P1 & D1). rewrite E1. cbn [obind].
  set (i := length (aobjs a)) in *. set (a2 := mkArch _ _ _ _ _).
  assert (Nv: ~ In id (map fst (avisited a))) by (now apply lookup_none).
  assert (I2: inv H a2).
  { destruct I1 as [A B C D S Ho]. split; cbn; auto.
    - constructor; auto. now rewrite V1.
    - constructor; auto. intros J. apply in_map_iff in J as ([j k] & Q & J). cbn in Q. subst k. apply C in J. rewrite O1 in J. unfold i in J. lia.
    - intros j k [[= <- <-]|J].
      + rewrite app_length, O1. cbn. split; [unfold i; lia|]. apply nth_error_Some. congruence.
      + apply C in J. rewrite app_length. cbn. lia.
    - intros j [[= <- Q]|J]; auto. apply Fo. apply length_zero_iff_nil. exact Q. }
  assert (M2: unvisited a2 < fuel).
  { unfold unvisited in *. cbn [avisited a2 length]. rewrite V1. pose proof (visited_le h root first H a2 I2) as Lv. cbn [avisited a2 length] in Lv. rewrite V1 in Lv. lia. }
  destruct Nf as (_ & Ns).
  assert (AS: add_spec fuel (add_object fuel big h)).
  { intros H' a' id' I' (S1 & S2) R' M'. destruct (Gok id' R') as (n' & En' & _).
    destruct (IH H' a' id' n' I' En' R') as (a'' & i' & Q & Q1 & Q2 & Q3 & Q4 & _); auto; [intros X; contradiction|intros X; contradiction|]. exists a'', i'. auto. }
  destruct (fields_done fuel _ AS H i (astack a1) (u32 c) (nfields n) a2 [] I2) as (a3 & l & x & E3 & I3 & P3 & V3 & Y3 & Sk3 & O3 & F3 & N3); auto.
  - split; cbn; auto. destruct (aobjs a1); discriminate.
  - cbn. rewrite O1. unfold i. rewrite nth_error_app2, Nat.sub_diag by lia. reflexivity.
  - intros k v j J1 J2. eapply reach_field; eauto.
  - rewrite E3. cbn [obind].
    assert (O4: aobjs a3 = aobjs a ++ (u32 c, l) :: x).
    { rewrite O3. cbn [aobjs a2]. rewrite O1. unfold i. cbn [app]. clear. induction (aobjs a); cbn; congruence. }
    eexists _, i. split; [reflexivity|]. cbn [avisited aobjs].
    split; [destruct I3; split; auto|].
    split. { split; [cbn; eapply pre_trans; [apply X1|exact P3]|]. split; [cbn; rewrite O4; apply pre_app|]. cbn. split; [|split].
      - intros y Hy. apply V3. cbn. rewrite V1. auto.
      - eapply incl_tran; [apply X1|exact Y3].
      - rewrite Sk3. cbn. destruct X1 as (_ & _ & _ & _ & ->). reflexivity. }
    assert (V: In (id, i) (avisited a3)) by (apply V3; cbn; auto).
    split; auto. split; auto.
    intros k Lk. cbn [aobjs] in Lk.
    assert (D: done H a3 k).
    { destruct (Nat.eq_dec k i) as [->|Ne].
      - exists id, n, c, l. repeat (split; [now auto|]). split; [rewrite O4; unfold i; rewrite nth_error_app2, Nat.sub_diag by lia; reflexivity|]. split; auto. eapply keeps_pre; [exact P3|auto].
      - apply N3. cbn. rewrite app_length, O1. cbn. unfold i in *. lia. }
    eapply done_grow; [| |exact D]; [split; [now intros ? ?|apply incl_refl]|auto].
Qed.
Lemma inv_empty : inv (fun _ => False) no_arch.
Proof. split; cbn; try (intros; contradiction); constructor. Qed.
End Arch.
