(** Proofs about the objects that parsing XML makes: what the tokens do. *)
Require Import Coq.ZArith.ZArith Coq.NArith.NArith Coq.Lists.List Coq.Bool.Bool Coq.Arith.Arith Coq.micromega.Lia.
Require Import Verif.Base Verif.Own_Model Verif.Own_Spec Verif.Own_Proofs Verif.Own_Calls Verif.Own_Ends Verif.Parsed_Model Verif.Parsed_Spec Verif.Parsed_Proofs Verif.Parsed_Steps Verif.Parsed_Shape Verif.Elem_Model Verif.Elem_Spec Verif.Elem_Proofs.
Require Verif.HashTable_Model Verif.XML_Model Verif.JSON_Parse.
Import ListNotations.

(** ** Entering an attribute in a hash table that something holds *)
Lemma body_at B s d b s' : up any B s -> B <= d -> Forall (lt d) (members b) -> set_body s d b = Ok s' -> later any B s s' /\ has s' d b /\ forall y c, y <> d -> has s y c -> has s' y c.
Proof.
  intros U D M E. unfold set_body in E. destruct (nth_error (cells s) d) as [[n b0|]|] eqn:N; try discriminate. injection E as <-. split; [|split].
  - apply (set_later any B s d _ _ U D N). intros m b' Q. injection Q as _ <-. split; [exact M|intros; exact Logic.I].
  - exists n. exact (set_cell_same _ _ _ _ N).
  - intros y c Y (m & K). exists m. rewrite set_cell_other by congruence. exact K.
Qed.
Lemma put_any keq B s d es k v : Inv s [] -> up any B s -> B <= d -> has s d (Hash es) -> has s k Leaf -> In v (hands s) -> d < k -> d < v -> (forall k' o, find_key keq es k = Some (k', Some o) -> has s o Leaf) ->
  exists s', put keq s d k (Some v) HashTable_Model.InsertAlways = Ok s' /\ Inv s' [] /\ hands s' = hands s /\ later any B s s' /\ has s' d (Hash (entered keq es k (Some v))).
Proof.
  intros I U D Hd Hk Hv K V Old. unfold put. rewrite (body_ok _ _ _ Hd). cbn [obind]. unfold hash_put.
  destruct (retain_more s [] (Some k) I (has_counted s k Leaf I Hk)) as (s0 & E0 & I0 & F0 & C0). rewrite E0. cbn [obind]. change (somes [Some k] ++ []) with [k] in I0.
  assert (L0: later any B s s0) by (apply (retain_later any B s (Some k) s0 U) with (2 := E0); cbn; lia). pose proof (proj2 (proj2 L0)) as U0. pose proof (proj1 F0) as H0.
  pose proof (frame_has _ _ _ _ _ F0 Logic.I Hd) as Hd0. pose proof (frame_has _ _ _ _ _ F0 Logic.I Hk) as Hk0.
  assert (W: Forall (lt d) (of_entries es)) by (destruct Hd0 as (n & N); exact (proj1 (U0 d n _ D N))). pose proof (proj1 (entries_forall _ _) W) as W'.
  assert (X: exists s1, (match find_key keq es k with
    | Some (_, old) => if same old (Some v) then Ok s0 else do s <- set_body s0 d (Hash (set_key keq es k None)); do s <- release_ref s old; do s <- retain s (Some v); set_body s d (Hash (set_key keq es k (Some v)))
    | None => do s <- retain s0 (Some k); do s <- retain s (Some v); set_body s d (Hash (es ++ [(k, Some v)])) end) = Ok s1 /\ Inv s1 [k] /\ hands s1 = hands s0 /\ later any B s0 s1 /\ has s1 d (Hash (entered keq es k (Some v))) /\ has s1 k Leaf).
  { unfold entered. destruct (find_key keq es k) as [(k', old)|] eqn:Q.
    - destruct (same old (Some v)) eqn:SM.
      + apply same_eq in SM. subst old. rewrite (set_same _ _ _ _ _ Q). exists s0. split; [reflexivity|]. split; [exact I0|]. split; [reflexivity|]. split; [apply later_refl, U0|]. split; [exact Hd0|exact Hk0].
      + destruct (set_body_ok s0 _ (somes [old] ++ [k]) d _ (Hash (set_key keq es k None)) I0 Hd0) as (s1 & E1 & I1 & K1 & _).
        { intros x. cbn [members]. pose proof (cnt_set keq es k None k' old x Q) as C. change (somes [None]) with (@nil nat) in C. rewrite cnt_app. cbn [count_occ] in *. lia. }
        rewrite E1. cbn [obind]. destruct (fun M => body_at B s0 d (Hash (set_key keq es k None)) s1 U0 D M E1) as (L1 & Hd1 & Fw1); [apply entries_forall, set_key_forall; [exact W'|exact Logic.I]|].
        assert (R: exists s2, release_ref s1 old = Ok s2 /\ Inv s2 [k] /\ hands s2 = hands s1 /\ later any B s1 s2 /\ has s2 d (Hash (set_key keq es k None)) /\ (old = Some k \/ has s2 k Leaf)).
        { unfold release_ref. destruct old as [o|].
          - cbn [somes flat_map app] in *. assert (Ho: has s o Leaf) by exact (Old _ _ eq_refl). pose proof (frame_has _ _ _ _ _ F0 Logic.I Ho) as Ho0. assert (Od: o <> d) by (intros ->; pose proof (has_fun _ _ _ _ Ho0 Hd0); discriminate).
            destruct (release_leaf s1 o [k] I1 (Fw1 _ _ Od Ho0)) as (s2 & E2 & I2 & H2 & Fw2). exists s2. split; [exact E2|]. split; [exact I2|]. split; [exact H2|]. split; [apply (release_later any B s1 [o] s2 (proj2 (proj2 L1))) with (2 := E2)|].
            + constructor; [|constructor]. rewrite Forall_forall in W'. specialize (W' _ (find_entry _ _ _ _ _ Q)). cbn in W'. lia.
            + split; [apply Fw2; [congruence|exact Hd1]|]. destruct (Nat.eq_dec o k) as [->|Ok']; [left; reflexivity|right]. apply Fw2; [congruence|]. apply Fw1; [lia|exact Hk0].
          - cbn [somes flat_map app] in *. exists s1. split; [unfold release; apply drop_nil|]. split; [exact I1|]. split; [reflexivity|]. split; [apply later_refl, L1|]. split; [exact Hd1|right]. apply Fw1; [lia|exact Hk0]. }
        destruct R as (s2 & E2 & I2 & H2 & L2 & Hd2 & Hk2). rewrite E2. cbn [obind]. assert (Hh2: hands s2 = hands s) by (rewrite H2, (proj1 K1); exact H0).
        assert (Hk2': has s2 k Leaf). { destruct Hk2 as [Z|Z]; [|exact Z]. destruct (inv_live s2 [k] k I2) as (n & b & N); [cbn; destruct (Nat.eq_dec k k); [lia|congruence]|].
          assert (Kp: keeps (other d) s s2). { apply (keeps_trans _ _ _ _ (other_every d _ _ (retain_keeps _ _ _ E0))), (keeps_trans _ _ _ _ (proj1 (body_keeps _ _ _ _ E1))). exact (other_every d _ _ (release_keeps _ _ _ E2)). }
          destruct (Kp k (S n) b ltac:(unfold other; lia) N) as (m & M). assert (b = Leaf) by (apply (has_fun s k); [exists m; exact M|exact Hk]). subst b. exists (S n). exact N. }
        destruct (retain_own s2 [k] (Some v) I2) as (s3 & E3 & I3 & F3); [cbn; red; rewrite Hh2; exact Hv|]. rewrite E3. cbn [obind].
        assert (L3: later any B s2 s3) by (apply (retain_later any B s2 (Some v) s3 (proj2 (proj2 L2))) with (2 := E3); cbn; lia). pose proof (frame_has _ _ _ _ _ F3 Logic.I Hd2) as Hd3. pose proof (frame_has _ _ _ _ _ F3 Logic.I Hk2') as Hk3.
        destruct (set_body_ok s3 _ [k] d _ (Hash (set_key keq es k (Some v))) I3 Hd3) as (s4 & E4 & I4 & K4 & B4).
        { intros x. cbn [members]. pose proof (cnt_set keq es k None k' old x Q) as C. pose proof (cnt_set keq es k (Some v) k' old x Q) as C'. change (somes [None]) with (@nil nat) in C. rewrite cnt_app. cbn [count_occ] in C. lia. }
        destruct (fun M => body_at B s3 d (Hash (set_key keq es k (Some v))) s4 (proj2 (proj2 L3)) D M E4) as (L4 & _ & Fw4); [apply entries_forall, set_key_forall; [exact W'|exact V]|].
        exists s4. split; [exact E4|]. split; [exact I4|]. split; [rewrite (proj1 K4), (proj1 F3), H2; exact (proj1 K1)|]. split; [exact (later_trans _ _ _ _ _ L1 (later_trans _ _ _ _ _ L2 (later_trans _ _ _ _ _ L3 L4)))|]. split; [exact B4|]. apply Fw4; [lia|exact Hk3].
    - pose proof (counted_more s s0 [] [k] (Some k) H0 C0 (has_counted s k Leaf I Hk)) as HK0. assert (HC0: ref_in (counted s0 [k]) (Some v)) by (apply own_counted; rewrite H0; exact Hv).
      destruct (enter_ok Hash s0 [k] d es k (Some v) (fun _ => eq_refl) I0 Hd0 HK0 HC0) as (s1 & s2 & s3 & E1 & E2 & E3 & I3 & K3 & _). rewrite E1. cbn [obind]. rewrite E2. cbn [obind].
      assert (L1: later any B s0 s1) by (apply (retain_later any B s0 (Some k) s1 U0) with (2 := E1); cbn; lia). assert (L2: later any B s1 s2) by (apply (retain_later any B s1 (Some v) s2 (proj2 (proj2 L1))) with (2 := E2); cbn; lia).
      destruct (fun M => body_at B s2 d (Hash (es ++ [(k, Some v)])) s3 (proj2 (proj2 L2)) D M E3) as (L3 & Hd3 & Fw3). { cbn [members]. apply entries_forall, Forall_app. split; [exact W'|]. constructor; [split; [exact K|exact V]|constructor]. }
      exists s3. split; [exact E3|]. split; [exact I3|]. split; [exact (proj1 K3)|]. split; [exact (later_trans _ _ _ _ _ L1 (later_trans _ _ _ _ _ L2 L3))|]. split; [exact Hd3|].
      destruct (inv_live s3 [k] k I3) as (n & b & N); [cbn; destruct (Nat.eq_dec k k); [lia|congruence]|]. assert (Kp: keeps (other d) s0 s3). { apply (keeps_trans _ _ _ _ (other_every d _ _ (retain_keeps _ _ _ E1))), (keeps_trans _ _ _ _ (other_every d _ _ (retain_keeps _ _ _ E2))). exact (proj1 (body_keeps _ _ _ _ E3)). }
      destruct (Kp k (S n) b ltac:(unfold other; lia) N) as (m & M). assert (b = Leaf) by (apply (has_fun s0 k); [exists m; exact M|exact Hk0]). subst b. exists (S n). exact N. }
  destruct X as (s1 & E1 & I1 & H1 & L1 & Hd1 & Hk1). match goal with |- exists s', obind ?m _ = _ /\ _ => replace m with (Ok s1) by (symmetry; exact E1) end. cbn [obind].
  destruct (release_leaf s1 k [] I1 Hk1) as (s2 & E2 & I2 & H2 & Fw2). exists s2. split; [exact E2|]. split; [exact I2|]. split; [congruence|]. split; [|apply Fw2; [lia|exact Hd1]].
  apply (later_trans _ _ _ _ _ L0), (later_trans _ _ _ _ _ L1). apply (release_later any B s1 [k] s2 (proj2 (proj2 L1))) with (2 := E2). constructor; [lia|constructor].
Qed.
