(** Archives are read back. *)
Require Import Coq.NArith.NArith Coq.ZArith.ZArith Coq.Lists.List Coq.Arith.Arith Coq.Bool.Bool Coq.micromega.Lia.
Require Import Verif.Base Verif.Encoding_Model Verif.Encoding_Spec Verif.Encoding_Proofs Verif.Egg_Model Verif.Egg_Spec Verif.Egg_Proofs Verif.Egg_Archive Verif.Egg_Read.
Import ListNotations.
Local Open Scope nat_scope.

(** The layout of an archive. *)
Definition layout (bw rl : bool) (O : list (N * list attr)) (D : list N) : list N :=
  let attrs := concat (map snd O) in header bw rl (N.of_nat (length O)) (u32 (length attrs)) (length D) ++ object_table bw 0 O ++ concat (map (attr_bytes bw) attrs) ++ D.

Section Layout.
Context (bw br rl : bool) (O : list (N * list attr)) (D : list N).
Let attrs := concat (map snd O).
Let bytes := layout bw rl O D.
Let no := length O.
Let na := length attrs.
Let nd := length D.
Context (Fit : (N.of_nat (length bytes) < 2 ^ 32)%N).

Lemma layout_length : length bytes = 48 + 12 * no + 12 * na + nd.
Proof. unfold bytes, layout. rewrite !app_length, header_length, ot_length, at_length. unfold no, na, nd, attrs. lia. Qed.
Lemma sizes : (N.of_nat (length bytes) = 48 + 12 * N.of_nat no + 12 * N.of_nat na + N.of_nat nd)%N /\ (48 + 12 * N.of_nat no + 12 * N.of_nat na + N.of_nat nd < 2 ^ 32)%N.
Proof. pose proof layout_length as L. assert (L': (N.of_nat (length bytes) = 48 + 12 * N.of_nat no + 12 * N.of_nat na + N.of_nat nd)%N) by (rewrite L; lia). split; [exact L'|]. rewrite <- L'. exact Fit. Qed.
Lemma layout_header : exists x, bytes = header bw rl (N.of_nat no) (N.of_nat na) nd ++ x.
Proof. destruct sizes as (_ & F). eexists. unfold bytes, layout. fold attrs. fold na. rewrite (u32_small na) by lia. reflexivity. Qed.
Lemma header_has x : let l := header bw rl (N.of_nat no) (N.of_nat na) nd ++ x in
  has l 0 (prefix_text ++ [0%N]) /\ has l 20 [1%N; 1%N; byte_order bw; if rl then 1%N else 0%N] /\
  has l 28 (int_bytes bw 4 (N.of_nat no)) /\ has l 36 (int_bytes bw 4 (N.of_nat na)) /\ has l 40 (int_bytes bw 4 (48 + N.of_nat no * 12 + N.of_nat na * 12)) /\ has l 44 (int_bytes bw 4 (N.of_nat nd)).
Proof.
  cbn zeta. destruct sizes as (_ & F).
  assert (E: forall y, header bw rl (N.of_nat no) (N.of_nat na) nd ++ y = prefix_text ++ [0%N; 0%N; 0%N] ++ [1%N; 1%N; byte_order bw; if rl then 1%N else 0%N] ++
    int_bytes bw 4 48 ++ int_bytes bw 4 (N.of_nat no) ++ int_bytes bw 4 (48 + N.of_nat no * 12) ++ int_bytes bw 4 (N.of_nat na) ++ int_bytes bw 4 (48 + N.of_nat no * 12 + N.of_nat na * 12) ++ int_bytes bw 4 (N.of_nat nd) ++ y).
  { intros y. unfold header. rewrite (u32_small nd) by lia. rewrite (N.mod_small (48 + N.of_nat no * 12)) by lia. rewrite (N.mod_small (48 + N.of_nat no * 12 + N.of_nat na * 12)) by lia. rewrite <- !app_assoc. reflexivity. }
  rewrite E.
  set (P := prefix_text ++ [0%N; 0%N; 0%N]). set (V := [1%N; 1%N; byte_order bw; if rl then 1%N else 0%N]).
  split; [exists []; eexists; split; [|reflexivity]; unfold prefix_text; cbn [app]; reflexivity|].
  split; [exists P; eexists; split; [|reflexivity]; unfold P; rewrite <- app_assoc; reflexivity|].
  split; [exists (P ++ V ++ int_bytes bw 4 48); eexists; split; [unfold P; rewrite <- !app_assoc; reflexivity|rewrite !app_length, !int_length; reflexivity]|].
  split; [exists (P ++ V ++ int_bytes bw 4 48 ++ int_bytes bw 4 (N.of_nat no) ++ int_bytes bw 4 (48 + N.of_nat no * 12)); eexists; split; [unfold P; rewrite <- !app_assoc; reflexivity|rewrite !app_length, !int_length; reflexivity]|].
  split; [exists (P ++ V ++ int_bytes bw 4 48 ++ int_bytes bw 4 (N.of_nat no) ++ int_bytes bw 4 (48 + N.of_nat no * 12) ++ int_bytes bw 4 (N.of_nat na)); eexists; split; [unfold P; rewrite <- !app_assoc; reflexivity|rewrite !app_length, !int_length; reflexivity]|].
  exists (P ++ V ++ int_bytes bw 4 48 ++ int_bytes bw 4 (N.of_nat no) ++ int_bytes bw 4 (48 + N.of_nat no * 12) ++ int_bytes bw 4 (N.of_nat na) ++ int_bytes bw 4 (48 + N.of_nat no * 12 + N.of_nat na * 12)); eexists; split; [unfold P; rewrite <- !app_assoc; reflexivity|rewrite !app_length, !int_length; reflexivity].
Qed.
Lemma header_reads x : let l := header bw rl (N.of_nat no) (N.of_nat na) nd ++ x in let sw := negb (eqb bw br) in
  check_header br l = Ok (Some sw) /\ is_rootless l = Ok rl /\ read_int br 4 sw l 28 = Ok (N.of_nat no) /\ read_int br 4 sw l 36 = Ok (N.of_nat na) /\
  read_int br 4 sw l 40 = Ok (48 + N.of_nat no * 12 + N.of_nat na * 12)%N /\ read_int br 4 sw l 44 = Ok (N.of_nat nd).
Proof.
  cbn zeta. destruct (header_has x) as (A & B & C & D' & E & F). destruct sizes as (_ & L). set (l := _ ++ x) in *.
  assert (P32: (256 ^ N.of_nat 4 = 2 ^ 32)%N) by reflexivity.
  split; [|split; [|split; [|split; [|split]]]].
  - unfold check_header. apply slice_has in A. apply slice_has in B. change (N.of_nat 0) with 0%N in A. change (N.of_nat (length (prefix_text ++ [0%N]))) with 18%N in A. rewrite A. cbn [obind].
    change (N.of_nat 20) with 20%N in B. change (N.of_nat (length _)) with 4%N in B. rewrite B. cbn [obind].
    assert (X: list_eqb (prefix_text ++ [0%N]) (prefix_text ++ [0%N]) = true) by now apply list_eqb_eq. rewrite X. cbn [negb nth N.eqb Pos.eqb]. destruct bw, br; reflexivity.
  - unfold is_rootless. change [1%N; 1%N; byte_order bw; if rl then 1%N else 0%N] with ([1%N; 1%N; byte_order bw] ++ [if rl then 1%N else 0%N]) in B. apply has_sub in B as (_ & B). apply slice_has in B.
    change (N.of_nat (20 + length [1%N; 1%N; byte_order bw])) with 23%N in B. change (N.of_nat (length [if rl then 1%N else 0%N])) with 1%N in B. rewrite B. cbn [obind nth]. now destruct rl.
  - change 28%N with (N.of_nat 28). apply read_has; first [assumption|rewrite P32; lia].
  - change 36%N with (N.of_nat 36). apply read_has; first [assumption|rewrite P32; lia].
  - change 40%N with (N.of_nat 40). apply read_has; first [assumption|rewrite P32; lia].
  - change 44%N with (N.of_nat 44). apply read_has; first [assumption|rewrite P32; lia].
Qed.
Let e := mkE bytes (negb (eqb bw br)) (N.of_nat no) (N.of_nat na) rl.
Lemma open_data_layout : open_data br bytes = Ok (Some e).
Proof.
  destruct layout_header as (x & E0). destruct (header_reads x) as (A & B & C & D' & E & F). rewrite <- E0 in *. destruct sizes as (L & S). unfold open_data.
  destruct (N.ltb_spec (N.of_nat (length bytes)) 48); [lia|]. rewrite A. cbn [obind]. rewrite C, D'. cbn [obind].
  destruct (N.ltb_spec (N.of_nat (length bytes)) (48 + 12 * N.of_nat no + 12 * N.of_nat na)); [lia|]. rewrite andb_false_r. rewrite E, F. cbn [obind].
  rewrite N.mod_small by lia. destruct (N.ltb_spec (N.of_nat (length bytes)) (48 + N.of_nat no * 12 + N.of_nat na * 12 + N.of_nat nd)); [lia|]. rewrite B. reflexivity.
Qed.
Lemma open_stream_layout rest : open_stream br (bytes ++ rest) = Ok (Some (e, rest)).
Proof.
  destruct layout_header as (x & E0). destruct (header_reads (x ++ rest)) as (A & B & C & D' & E & F). rewrite app_assoc, <- E0 in *. destruct sizes as (L & S). unfold open_stream. rewrite app_length, Nat2N.inj_add, L.
  destruct (N.ltb_spec (48 + 12 * N.of_nat no + 12 * N.of_nat na + N.of_nat nd + N.of_nat (length rest)) 48); [lia|]. rewrite A. cbn [obind]. rewrite E, F. cbn [obind].
  rewrite N.mod_small by lia. destruct (N.ltb_spec (48 + N.of_nat no * 12 + N.of_nat na * 12 + N.of_nat nd) 48); [lia|].
  destruct (N.ltb_spec (48 + 12 * N.of_nat no + 12 * N.of_nat na + N.of_nat nd + N.of_nat (length rest)) (48 + N.of_nat no * 12 + N.of_nat na * 12 + N.of_nat nd)); [lia|].
  rewrite C, D'. cbn [obind]. destruct (N.ltb_spec (48 + N.of_nat no * 12 + N.of_nat na * 12 + N.of_nat nd) (48 + 12 * N.of_nat no + 12 * N.of_nat na)); [lia|]. rewrite andb_false_r, B. cbn [obind].
  replace (N.to_nat (48 + N.of_nat no * 12 + N.of_nat na * 12 + N.of_nat nd)) with (length bytes) by lia.
  rewrite firstn_app, firstn_all, Nat.sub_diag, firstn_O, app_nil_r, skipn_app, skipn_all, Nat.sub_diag. reflexivity.
Qed.
(** Part of an archive. *)
Lemma open_cut p : p < length bytes -> open_data br (firstn p bytes) = Ok None /\ open_stream br (firstn p bytes) = Ok None.
Proof.
  intros Lp. destruct sizes as (L & S). assert (Lf: length (firstn p bytes) = p) by (apply firstn_length_le; lia). unfold open_data, open_stream. rewrite Lf.
  destruct (N.ltb_spec (N.of_nat p) 48); [split; reflexivity|].
  destruct layout_header as (x & E0). assert (E1: firstn p bytes = header bw rl (N.of_nat no) (N.of_nat na) nd ++ firstn (p - 48) x) by (rewrite E0, firstn_app, header_length, firstn_all2; [reflexivity|rewrite header_length; lia]).
  rewrite E1. destruct (header_reads (firstn (p - 48) x)) as (A & B & C & D' & E & F). rewrite A. cbn [obind]. rewrite C, D', E, F. cbn [obind]. rewrite N.mod_small by lia.
  destruct (N.ltb_spec (N.of_nat p) (48 + N.of_nat no * 12 + N.of_nat na * 12 + N.of_nat nd)); [|lia].
  destruct (N.ltb_spec (48 + N.of_nat no * 12 + N.of_nat na * 12 + N.of_nat nd) 48); [lia|]. split; [|reflexivity]. now destruct (negb (eqb bw br) && _).
Qed.
End Layout.
Lemma archived_layout bw rl a : archived_data bw rl a = layout bw rl (firstn (N.to_nat (u32 (length (aobjs a)))) (aobjs a)) (adata a).
Proof.
  unfold archived_data, layout. rewrite firstn_length_le; [now rewrite N2Nat.id|]. unfold u32. pose proof (N.mod_le (N.of_nat (length (aobjs a))) (2 ^ 32)). lia.
Qed.
Lemma archived_small bw rl a : (N.of_nat (length (aobjs a)) < 2 ^ 32)%N -> archived_data bw rl a = layout bw rl (aobjs a) (adata a).
Proof. intros L. rewrite archived_layout, u32_small, Nat2N.id, firstn_all; auto. Qed.
Lemma cut_ok bw h root l : save bw h root = Ok l -> (N.of_nat (length l) < 2 ^ 32)%N -> forall br p, p < length l -> open_data br (firstn p l) = Ok None /\ open_stream br (firstn p l) = Ok None.
Proof.
  unfold save. destruct (archive_root bw h root) as [a| | |] eqn:E; cbn [obind]; try discriminate. intros X. injection X as <-. rewrite archived_layout. intros F br p Lp. now apply open_cut.
Qed.
Lemma cut_fields_ok bw h fs l : save_fields bw h fs = Ok l -> (N.of_nat (length l) < 2 ^ 32)%N -> forall br p, p < length l -> open_data br (firstn p l) = Ok None /\ open_stream br (firstn p l) = Ok None.
Proof.
  unfold save_fields. destruct (archive_fields bw h fs) as [a| | |] eqn:E; cbn [obind]; try discriminate. intros X. injection X as <-. rewrite archived_layout. intros F br p Lp. now apply open_cut.
Qed.

(** Opening never reads outside of the data. *)
Lemma slice_in l off n : (off + n <= N.of_nat (length l))%N -> exists x, slice l off n = Ok x.
Proof. intros L. unfold slice. destruct (N.leb_spec (off + n) (N.of_nat (length l))); [eauto|lia]. Qed.
Lemma read_in br w sw l off : (off + N.of_nat w <= N.of_nat (length l))%N -> exists x, read_int br w sw l off = Ok x.
Proof. intros L. unfold read_int. destruct (slice_in l off (N.of_nat w) L) as (x & ->). cbn [obind]. eauto. Qed.
Lemma open_total br l : exists r, open_data br l = Ok r.
Proof.
  unfold open_data. destruct (N.ltb_spec (N.of_nat (length l)) 48); [eauto|]. unfold check_header.
  destruct (slice_in l 0 18) as (p & ->); [lia|]. destruct (slice_in l 20 4) as (v & ->); [lia|]. cbn [obind].
  destruct (negb (list_eqb p _)); cbn [obind]; [eauto|]. destruct (negb _); cbn [obind]; [eauto|]. destruct (negb _); cbn [obind]; [eauto|].
  set (sw := negb _). destruct (read_in br 4 sw l 28) as (no & ->); [lia|]. destruct (read_in br 4 sw l 36) as (na & ->); [lia|]. cbn [obind].
  destruct (sw && _); [eauto|]. destruct (read_in br 4 sw l 40) as (di & ->); [lia|]. destruct (read_in br 4 sw l 44) as (dl & ->); [lia|]. cbn [obind].
  destruct (N.ltb _ _); [eauto|]. unfold is_rootless. destruct (slice_in l 23 1) as (b & ->); [lia|]. cbn [obind]. eauto.
Qed.

Section Final.
Context (bw br rl : bool) (g : registry) (h : heap) (roots : list nat) (root : option nat) (first : list N) (a : archiver) (base : nat).
Context (Gok : graph_ok g h roots root first) (Rok : registry_ok g) (I : inv h root first full a).
Context (No : (N.of_nat (length (aobjs a)) < 2 ^ 32)%N) (Fit : (N.of_nat (length (archived_data bw rl a)) < 2 ^ 32)%N).
Context (Done : forall k, base <= k < length (aobjs a) -> done bw h roots full a k) (Base : base <= 1).
Context (Aok : forall k c l, nth_error (aobjs a) k = Some (c, l) -> (c < 2 ^ 32)%N /\ Forall attr_ok l).

(** The copies of the objects. *)
Definition phi (u : unarch) (j : nat) : nat := match lookup j (avisited a) with Some i => match lookup i (ucache u) with Some id => id | None => 0 end | None => 0 end.
Notation uinv := (uinv a base).
Lemma R_phi u j j' : uinv u -> R a u j j' -> phi u j = j'.
Proof.
  intros U (i & A & B). unfold phi. rewrite (lookup_some j _ i) by (auto; apply (i_fst _ _ _ _ _ I)). rewrite (lookup_some i _ j') by (auto; apply (u_fst _ _ _ U)). reflexivity.
Qed.
Lemma orel_phi u o o' : uinv u -> orel a u o o' -> o' = option_map (phi u) o.
Proof. intros U. destruct o, o'; cbn; try contradiction; auto. intros X. now rewrite (R_phi u _ _ U X). Qed.
Lemma vrel_phi u v v' : uinv u -> vrel a u v v' -> v' = map_value (phi u) v.
Proof.
  intros U. destruct v; cbn; auto.
  - intros (o' & -> & X). now rewrite (orel_phi u _ _ U X).
  - intros (l' & -> & X). f_equal. induction X; cbn; auto. now rewrite <- (orel_phi u _ _ U H), IHX.
  - intros (l' & -> & X). f_equal. induction X as [|p q l l' (H & H') X IH]; cbn; auto. rewrite <- (orel_phi u _ _ U H'), (R_phi u _ _ U H), <- IH. now destruct q.
Qed.
Lemma frel_phi u fs fs' : uinv u -> Forall2 (frel a u) fs fs' -> fs' = map_fields (phi u) fs.
Proof. intros U X. induction X as [|[k v] [k' v'] l l' (H & H') X IH]; cbn in *; auto. rewrite IH, (vrel_phi u _ _ U H'). cbn. now subst. Qed.
Lemma vrel_refs u v v' j : vrel a u v v' -> In j (refs v) -> exists j', R a u j j'.
Proof.
  assert (Ol: forall o o', orel a u o o' -> In j (olist o) -> exists j', R a u j j') by (intros [x|] [y|]; cbn; try contradiction; intros X [<-|[]]; eauto).
  destruct v; cbn; try contradiction.
  - intros (o' & _ & X). eauto.
  - intros (l' & _ & X) J. apply in_flat_map in J as (o & Jo & J). induction X; [destruct Jo|]. destruct Jo as [->|Jo]; eauto.
  - intros (l' & _ & X) J. apply in_flat_map in J as (o & Jo & J). induction X as [|p q l l' (H & H') X IH]; [destruct Jo|]. destruct Jo as [->|Jo]; eauto. destruct J as [<-|J]; eauto.
Qed.
Lemma nodup_fst {A B} (l : list (A * B)) x y z : NoDup (map snd l) -> In (x, z) l -> In (y, z) l -> x = y.
Proof.
  induction l as [|[p q] l IH]; intros N A1 A2; [destruct A1|]. inversion N as [|? ? X Y]; subst. destruct A1 as [A1|A1], A2 as [A2|A2].
  - congruence.
  - injection A1 as -> ->. destruct X. apply in_map_iff. exists (y, z). auto.
  - injection A2 as -> ->. destruct X. apply in_map_iff. exists (x, z). auto.
  - eauto.
Qed.
Lemma copies_ok u : uinv u -> (forall id, id < length (uheap u) -> udone h a u id) -> (forall j, In j roots -> exists j', R a u j j') -> copies h roots (uheap u) (phi u).
Proof.
  intros U D Ro.
  assert (Cp: forall j j', R a u j j' -> exists n, nth_error h j = Some n /\ exists fs, nth_error (uheap u) j' = Some (mkN (ncls n) fs) /\ Forall2 (frel a u) (nfields n) fs).
  { intros j j' (i & V & C). destruct (D j') as (i' & j2 & n & fs & C' & V' & En & Eu & F); [apply (u_bd _ _ _ U) in C; lia|].
    assert (i' = i) by (eapply nodup_fst; eauto; apply (u_snd _ _ _ U)). subst i'. assert (j2 = j) by (eapply nodup_fst; eauto; apply (i_snd _ _ _ _ _ I)). subst j2. eauto. }
  assert (Rc: forall j, reach h roots j -> exists j', R a u j j').
  { intros j X. induction X as [j J|i n key v j X (i' & IH) En J Jr]; auto. destruct (Cp i i' IH) as (n' & En' & fs & _ & F). rewrite En in En'. injection En' as <-.
    clear -F J Jr. induction F as [|[k v0] f' l l' (_ & Hv) F IHF]; [destruct J|]. destruct J as [J|J]; auto. injection J as -> ->. eapply vrel_refs; eauto. }
  split; [|split].
  - intros j n X En. destruct (Rc j X) as (j' & Rj). destruct (Cp j j' Rj) as (n' & En' & fs & Eu & F). rewrite En in En'. injection En' as <-.
    rewrite (R_phi u j j' U Rj), Eu. now rewrite (frel_phi u _ _ U F).
  - intros i j X Y Q. destruct (Rc i X) as (i' & Ri). destruct (Rc j Y) as (j' & Rj). rewrite (R_phi u _ _ U Ri), (R_phi u _ _ U Rj) in Q. subst j'.
    destruct Ri as (k & V & C), Rj as (k' & V' & C'). assert (k = k') by (eapply nodup_fst; eauto; apply (u_snd _ _ _ U)). subst k'. eapply nodup_fst; eauto; apply (i_snd _ _ _ _ _ I).
  - intros k Lk. destruct (D k Lk) as (i & j & n & fs & C & V & En & Eu & F). exists j. destruct (Done i) as (j' & _ & _ & _ & V' & _ & Rj & _); [apply (u_bd _ _ _ U) in C; apply C|].
    assert (j' = j) by (eapply nodup_fst; eauto; apply (i_snd _ _ _ _ _ I)). subst j'. split; auto. apply R_phi; auto. exists i. auto.
Qed.
Lemma uinv_empty s : uinv (mkU [] [] s).
Proof. split; cbn; try constructor; intros; contradiction. Qed.
End Final.

Lemma objs_le bw h roots root first a base : inv h root first full a -> (forall k, base <= k < length (aobjs a) -> done bw h roots full a k) -> length (aobjs a) <= length h + base.
Proof.
  intros I D. pose proof (visited_le h root first full a I) as L. assert (length (aobjs a) - base <= length (avisited a)); [|lia].
  rewrite <- (seq_length (length (aobjs a) - base) base), <- (map_length snd (avisited a)). apply NoDup_incl_length; [apply seq_NoDup|].
  intros k J. apply in_seq in J. destruct (D k) as (id & n & c & l & V & _); [lia|]. apply in_map_iff. now exists (id, k).
Qed.
Lemma aok_done bw g h roots root first a base : graph_ok g h roots root first -> (forall k, base <= k < length (aobjs a) -> done bw h roots full a k) ->
  forall k c l, base <= k -> nth_error (aobjs a) k = Some (c, l) -> (c < 2 ^ 32)%N /\ Forall attr_ok l.
Proof.
  intros G D k c l B E. destruct (D k) as (id & n & c' & l' & _ & En & R & E' & _ & F); [split; auto; apply nth_error_Some; congruence|].
  rewrite E in E'. injection E' as -> ->. split; [apply u32_lt|]. destruct (G id R) as (n' & En' & (_ & _ & S)). rewrite En in En'. injection En' as <-. eapply fstored_attr_ok; eauto.
Qed.

(** Archives with a root. *)
Lemma round_trip bw g h root n : registry_ok g -> nth_error h root = Some n -> graph_ok g h [root] (Some root) (ncls n) -> (N.of_nat (length h) + 1 < 2 ^ 32)%N ->
  exists l, save bw h root = Ok l /\ ((N.of_nat (length l) < 2 ^ 32)%N -> forall br rest, exists h' phi,
    load br g l = Ok (Some (h', Some (phi root))) /\ load_stream br g (l ++ rest) = Ok (Some (h', Some (phi root), rest)) /\ copies h [root] h' phi).
Proof.
  intros Rok En Gok Hl. assert (Rr: reach h [root] root) by (apply reach_root; now left).
  destruct (add_object_ok bw g h [root] (Some root) (ncls n) Gok Rok (S (length h)) full no_arch root n (inv_empty h (Some root) (ncls n)) En Rr) as (a & i & E & I & X & V & D & Li); auto; [unfold unvisited; cbn; lia|].
  unfold save, archive_root. rewrite E. cbn [obind fst]. eexists. split; [reflexivity|]. intros Fit br rest.
  assert (i = 0) as -> by (apply Li; reflexivity).
  assert (Dn: forall k, 0 <= k < length (aobjs a) -> done bw h [root] full a k) by (intros k Lk; apply D; cbn; lia).
  assert (No: (N.of_nat (length (aobjs a)) < 2 ^ 32)%N) by (pose proof (objs_le bw h _ _ _ a 0 I Dn); lia).
  assert (Aok := aok_done bw g h _ _ _ a 0 Gok Dn). assert (Aok': forall k c l, nth_error (aobjs a) k = Some (c, l) -> (c < 2 ^ 32)%N /\ Forall attr_ok l) by (intros; eapply Aok; [apply Nat.le_0_l|eauto]). clear Aok.
  assert (B0: 0 <= 1) by lia.
  set (e := mkE (archived_data bw false a) (negb (eqb bw br)) (N.of_nat (length (aobjs a))) (N.of_nat (length (concat (map snd (aobjs a))))) false).
  assert (O1: open_data br (archived_data bw false a) = Ok (Some e)) by (unfold e; rewrite !archived_small in * by assumption; apply open_data_layout; assumption).
  assert (O2: open_stream br (archived_data bw false a ++ rest) = Ok (Some (e, rest))) by (unfold e; rewrite !archived_small in * by assumption; apply open_stream_layout; assumption).
  assert (L0: 0 <= 0 < length (aobjs a)) by (apply (i_vis _ _ _ _ _ I) in V; lia).
  destruct (get_object_ok bw br false g h [root] (Some root) (ncls n) a 0 Gok Rok I No Fit Dn B0 Aok' (S (length (aobjs a))) (mkU [] [] []) 0 (uinv_empty a 0 []) L0) as (u & id & G & U & Ex & C & N); [unfold uncached; cbn; lia|].
  assert (Gr: get_root br g e = Ok (uheap u, Some id)).
  { unfold get_root, no_unarch. cbn [unobj urootless e]. rewrite Nat2N.id. fold e in G. change (N.of_nat 0) with 0%N in G. rewrite G. reflexivity. }
  exists (uheap u), (phi a u). assert (Pr: phi a u root = id) by (apply (R_phi h (Some root) (ncls n) a 0); auto; exists 0; auto).
  unfold load, load_stream. rewrite O1, O2. cbn [obind]. rewrite Gr, Pr. split; [reflexivity|]. split; [reflexivity|].
  eapply copies_ok; eauto.
  - intros k Lk. apply N. cbn. lia.
  - intros j [<-|[]]. exists id, 0. auto.
Qed.

Lemma name_anonymous : name_ok anonymous.
Proof. split; [unfold anonymous; repeat (constructor; [discriminate|]); constructor|reflexivity]. Qed.
(** Archives without a root. *)
Lemma round_trip_fields bw g h fs : registry_ok g -> let roots := flat_map (fun f => refs (snd f)) fs in graph_ok g h roots None anonymous -> fields_ok g None anonymous fs ->
  (N.of_nat (length h) + 1 < 2 ^ 32)%N ->
  exists l, save_fields bw h fs = Ok l /\ ((N.of_nat (length l) < 2 ^ 32)%N -> forall br, exists h' phi,
    load_fields br g l (shape fs) = Ok (Some (h', map_fields phi fs)) /\ copies h roots h' phi).
Proof.
  intros Rok roots Gok (Fn & Fs) Hl. unfold save_fields, archive_fields.
  destruct (add_symbol_ok h None anonymous full no_arch anonymous (inv_empty h None anonymous) name_anonymous) as (a0 & c & E0 & I0 & X0 & O0 & V0 & H0 & P0 & D0); auto. rewrite E0. cbn [obind].
  set (a1 := mkArch _ _ _ _ _). cbn [aobjs avisited no_arch] in O0, V0.
  assert (I1: inv h None anonymous full a1). { destruct I0 as [A B C D F G]. split; cbn; auto. rewrite V0. intros; contradiction. }
  assert (AS: add_spec bw h roots None anonymous (S (length h)) (add_object (S (length h)) bw h)).
  { intros H' a' id' I' (S1 & S2) R' M'. destruct (Gok id' R') as (n' & En' & _).
    destruct (add_object_ok bw g h roots None anonymous Gok Rok (S (length h)) H' a' id' n' I' En' R') as (a'' & i' & Q & Q1 & Q2 & Q3 & Q4 & _); auto; try contradiction. exists a'', i'. auto. }
  destruct (fields_done bw g h roots None anonymous Rok (S (length h)) _ AS full 0 [] (u32 c) fs a1 [] I1) as (a & l & x & E & I & P & V & Y & Sk & Ob & F & D); auto.
  - split; cbn; auto. rewrite O0. discriminate.
  - unfold unvisited. cbn. lia.
  - cbn. now rewrite O0.
  - intros k v j J1 J2. apply reach_root. apply in_flat_map. exists (k, v). auto.
  - rewrite E. cbn [obind]. eexists. split; [reflexivity|]. intros Fit br.
    assert (Ob': aobjs a = (u32 c, l) :: x) by (rewrite Ob; cbn; rewrite O0; reflexivity).
    assert (Dn: forall k, 1 <= k < length (aobjs a) -> done bw h roots full a k) by (intros k Lk; apply D; cbn; rewrite O0; cbn; lia).
    assert (No: (N.of_nat (length (aobjs a)) < 2 ^ 32)%N) by (pose proof (objs_le bw h _ _ _ a 1 I Dn); lia).
    assert (Aok: forall k c l, nth_error (aobjs a) k = Some (c, l) -> (c < 2 ^ 32)%N /\ Forall attr_ok l).
    { intros [|k] c' l' En'; [|eapply aok_done; [exact Gok|exact Dn| |exact En']; lia]. rewrite Ob' in En'. injection En' as <- <-. split; [apply u32_lt|]. eapply fstored_attr_ok; eauto. }
    assert (B1: 1 <= 1) by lia.
    set (e := mkE (archived_data bw true a) (negb (eqb bw br)) (N.of_nat (length (aobjs a))) (N.of_nat (length (concat (map snd (aobjs a))))) true).
    assert (O1: open_data br (archived_data bw true a) = Ok (Some e)) by (unfold e; rewrite !archived_small in * by assumption; apply open_data_layout; assumption).
    assert (GS := get_object_ok bw br true g h roots None anonymous a 1 Gok Rok I No Fit Dn B1 Aok (S (length (aobjs a)))).
    assert (E1: nth_error (aobjs a) 0 = Some (u32 c, l)) by now rewrite Ob'.
    destruct (get_fields_ok bw br true g h None anonymous a 1 Rok I No Fit B1 Aok (S (length (aobjs a))) _ GS 0 [] (u32 c) l E1 fs (mkU [] [] [0]) (uinv_empty a 1 [0])) as (u & fs' & G & U & Ex & Rl & N); auto.
    + unfold uncached. cbn. lia.
    + intros k v J. eapply find_fstored; eauto.
    + assert (Gr: get_rootless br g e (shape fs) = Ok (uheap u, fs')).
      { unfold get_rootless, no_unarch. cbn [unobj urootless e]. rewrite Nat2N.id. fold e in G. rewrite G. reflexivity. }
      exists (uheap u), (phi a u). unfold load_fields. rewrite O1. cbn [obind]. rewrite Gr. cbn [obind]. rewrite <- (frel_phi h None anonymous a 1 I u fs fs' U Rl). split; [reflexivity|].
      eapply copies_ok; eauto.
      * intros k Lk. apply N. cbn. lia.
      * intros j J. unfold roots in J. apply in_flat_map in J as ([k v] & J & Jr). clear -Rl J Jr. induction Rl as [|[k0 v0] f' ll ll' (_ & Hv) Rl IH]; [destruct J|]. destruct J as [J|J]; auto. injection J as -> ->. eapply vrel_refs; eauto.
Qed.

Lemma either_order bw g h root n : registry_ok g -> nth_error h root = Some n -> graph_ok g h [root] (Some root) (ncls n) -> (N.of_nat (length h) + 1 < 2 ^ 32)%N ->
  exists l, save bw h root = Ok l /\ ((N.of_nat (length l) < 2 ^ 32)%N -> forall br, exists h' phi, load br g l = Ok (Some (h', Some (phi root))) /\ copies h [root] h' phi).
Proof.
  intros A B C D. destruct (round_trip bw g h root n A B C D) as (l & S & L). exists l. split; [exact S|]. intros F br. destruct (L F br []) as (h' & phi & X & _ & Y). exists h', phi. split; assumption.
Qed.
Lemma sharing bw g h root n : registry_ok g -> nth_error h root = Some n -> graph_ok g h [root] (Some root) (ncls n) -> (N.of_nat (length h) + 1 < 2 ^ 32)%N ->
  exists l, save bw h root = Ok l /\ ((N.of_nat (length l) < 2 ^ 32)%N -> forall br, exists h' phi,
    load br g l = Ok (Some (h', Some (phi root))) /\
    (forall i j, reach h [root] i -> reach h [root] j -> phi i = phi j -> i = j) /\
    (forall i m key j, reach h [root] i -> nth_error h i = Some m -> In (key, VObj (Some j)) (nfields m) ->
      exists m', nth_error h' (phi i) = Some m' /\ In (key, VObj (Some (phi j))) (nfields m'))).
Proof.
  intros A B C D. destruct (either_order bw g h root n A B C D) as (l & S & L). exists l. split; [exact S|]. intros F br. destruct (L F br) as (h' & phi & X & (C1 & C2 & _)). exists h', phi. split; [exact X|]. split; [exact C2|].
  intros i m key j R E J. eexists. split; [apply (C1 i m R E)|]. cbn. apply in_map_iff. exists (key, VObj (Some j)). split; [reflexivity|exact J].
Qed.
Lemma distinct_keys bw g fs : registry_ok g -> NoDup (map (fun f => hash32 0 (fst f)) fs) -> Forall (fun f => exists s, snd f = VText s /\ (N.of_nat (length s) < max_count)%N) fs ->
  exists l, save_fields bw [] fs = Ok l /\ ((N.of_nat (length l) < 2 ^ 32)%N -> forall br, load_fields br g l (map (fun f => (fst f, KText)) fs) = Ok (Some ([], fs))).
Proof.
  intros Rok N F. assert (Rf: flat_map (fun f => refs (snd f)) fs = []) by (clear -F; induction F as [|x l (s & E & _) F IH]; cbn; [reflexivity|rewrite E, IH; reflexivity]).
  assert (Sh: shape fs = map (fun f => (fst f, KText)) fs) by (clear -F; unfold shape; induction F as [|x l (s & E & _) F IH]; cbn; [reflexivity|rewrite E, IH; reflexivity]).
  destruct (round_trip_fields bw g [] fs Rok) as (l & S & L).
  - rewrite Rf. intros i R. exfalso. induction R as [j []|i n k v j R IH E J Jr]; exact IH.
  - split; [exact N|]. apply Forall_impl with (2 := F). intros x (s & -> & Q). exact Q.
  - reflexivity.
  - exists l. split; [exact S|]. intros Ft br. destruct (L Ft br) as (h' & phi & X & (_ & _ & C)). rewrite Rf in C. rewrite <- Sh, X.
    assert (h' = []) as -> by (destruct h' as [|x h']; [reflexivity|]; destruct (C 0) as (i & R & _); [cbn; lia|]; exfalso; induction R as [j []|i n k v j R IH E J Jr]; exact IH).
    do 3 f_equal. clear -F. induction F as [|[k v] l (s & E & _) F IH]; [reflexivity|]. cbn in E. unfold map_fields in *. cbn [map fst snd]. rewrite IH, E. reflexivity.
Qed.
Lemma streams g (gs : list (bool * heap * nat)) : registry_ok g ->
  Forall (fun x => let '(bw, h, root) := x in (exists n, nth_error h root = Some n /\ graph_ok g h [root] (Some root) (ncls n)) /\ (N.of_nat (length h) + 1 < 2 ^ 32)%N) gs ->
  exists ls, Forall2 (fun x l => let '(bw, h, root) := x in save bw h root = Ok l) gs ls /\
    (Forall (fun l => (N.of_nat (length l) < 2 ^ 32)%N) ls -> forall br rest, load_all br g (concat ls ++ rest) (map (fun x => let '(bw, h, root) := x in (h, root)) gs) rest).
Proof.
  intros Rok F. induction F as [|[[bw h] root] gs ((n & E & G) & Q) F (ls & I1 & I2)].
  - exists []. split; [constructor|]. intros _ br rest. reflexivity.
  - destruct (round_trip bw g h root n Rok E G Q) as (l & S & L). exists (l :: ls). split; [constructor; assumption|]. intros Fl br rest. pose proof (Forall_inv Fl) as F1. apply Forall_inv_tail in Fl.
    destruct (L F1 br (concat ls ++ rest)) as (h' & phi & _ & X & Y). cbn [map load_all concat]. exists h', phi, (concat ls ++ rest). rewrite <- app_assoc. split; [exact X|]. split; [exact Y|]. apply I2. exact Fl.
Qed.
