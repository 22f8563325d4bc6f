(** Proofs about the objects that splitting strings makes: the pool is popped. *)
Require Import Coq.NArith.NArith Coq.Lists.List Coq.Bool.Bool Coq.Arith.Arith Coq.micromega.Lia.
Require Import Verif.Base Verif.JSON_Model Verif.Own_Model Verif.Own_Spec Verif.Own_Proofs Verif.Own_Calls Verif.Own_Ends Verif.Own_May Verif.Parsed_Model Verif.Parsed_Spec Verif.Parsed_Proofs Verif.Parsed_Steps Verif.Parsed_Shape Verif.Parsed_Ends Verif.Pieces_Spec Verif.Pieces_Proofs.
Require Verif.String_Model Verif.Query_Model Verif.Pieces_Model.
Import ListNotations.

Lemma same_is : forall a b, same_bytes a b = true <-> a = b.
Proof.
  induction a as [|x a IH]; intros [|y b]; cbn [same_bytes]; try (split; [discriminate|discriminate]); [split; reflexivity|]. rewrite andb_true_iff, N.eqb_eq, IH. split; [intros (-> & ->); reflexivity|intros E; injection E as -> ->; auto].
Qed.
Lemma give_shown l k v : map shown (give l k v) = dict_set (map shown l) k (val v).
Proof.
  induction l as [|(k1, v1) l IH]; [reflexivity|]. cbn [give fst]. change (map shown ((k1, v1) :: l)) with ((k1, val v1) :: map shown l). cbn [dict_set]. destruct (list_eq_dec N.eq_dec k k1) as [->|D].
  - rewrite (proj2 (same_is k1 k1) eq_refl). reflexivity.
  - destruct (same_bytes k k1) eqn:Sb; [apply same_is in Sb; congruence|]. cbn [map]. rewrite IH. reflexivity.
Qed.
Lemma fold_shown ps : forall l, map shown (fold_left (fun l p => give l (fst p) (snd p)) ps l) = fold_left (fun l p => dict_set l (fst p) (val (snd p))) ps (map shown l).
Proof. induction ps as [|p ps IH]; intros l; [reflexivity|]. cbn [fold_left]. rewrite IH, give_shown. reflexivity. Qed.
Lemma dictionary base s ks ps : hash_for base s ks (fold_left (fun l p => dict_set l (fst p) (val (snd p))) ps []) -> exists n es, nth_error (cells s) (next base) = Some (Live n (Hash es)) /\ Forall2 (entry_is s) (parameters ps) es.
Proof.
  intros (n & es & HN & A). exists n, es. split; [exact HN|]. change (@nil (list N * json)) with (map shown []) in A. rewrite <- fold_shown in A. change (Forall2 (entry_for s ks) (map shown (parameters ps)) es) in A. remember (parameters ps) as l. clear - A.
  revert es A. induction l as [|(k, v) l IH]; intros es A; inversion A as [|? e ? es' (_ & L & H) A']; subst; [constructor|]. constructor; [|exact (IH _ A')]. split; [exact L|]. destruct v; exact H.
Qed.
(** References are released, first to last. *)
Lemma release_all keq P base : Inv base [] -> forall L R s, Inv s [] -> next base <= next s -> below base s -> up P (next base) s -> hands s = hands base ++ L ++ R -> Forall (le (next base)) L ->
  exists s', run keq s (map Release L) = Ok s' /\ Inv s' [] /\ next base <= next s' /\ below base s' /\ up P (next base) s' /\ hands s' = hands base ++ R /\ keeps every s s'.
Proof.
  intros IB. induction L as [|x L IH]; intros R s I Ln B U H F.
  - exists s. split; [reflexivity|]. do 5 (split; [assumption|]). apply keeps_refl.
  - inversion F as [|? ? Fx F']; subst. destruct (release_one keq P (next base) s x I) as (s1 & E1 & I1 & H1 & (L1 & B1 & U1)); [rewrite H; apply in_or_app; right; left; reflexivity|exact Fx|exact U|]. rewrite H in H1. cbn [app] in H1. rewrite take_mid in H1 by (apply hands_old; auto).
    assert (K1: keeps every s s1) by exact (give_keeps s (Some x) s1 E1).
    destruct (IH R s1 I1) as (s2 & E2 & I2 & L2 & B2 & U2 & H2 & K2); [unfold next in *; lia|intros y Y; rewrite B1, B by exact Y; reflexivity|exact U1|exact H1|exact F'|].
    exists s2. split; [|do 5 (split; [assumption|]); exact (keeps_trans _ _ _ _ K1 K2)]. cbn [map run]. rewrite E1. cbn [obind]. exact E2.
Qed.
Lemma retain_step keq P base x s : Inv s [] -> In x (hands s) -> next base <= x -> up P (next base) s -> exists s', step keq s (Retain x) = Ok s' /\ Inv s' [] /\ hands s' = hands s ++ [x] /\ later P (next base) s s' /\ keeps every s s'.
Proof.
  intros I Hx X U. destruct (retain_ref s [] (Some x) I) as (s1 & E1 & I1 & (F1 & _)); [apply own_counted, Hx|].
  assert (Q: step keq s (Retain x) = Ok (mkS (cells s1) (hands s1 ++ [x]))) by (cbn [step]; rewrite E1; reflexivity). exists (mkS (cells s1) (hands s1 ++ [x])). split; [exact Q|].
  pose proof (may_step keq s (Retain x) I) as M. rewrite Q in M. split; [|cbn [hands]; rewrite F1; split; [reflexivity|]; split; [exact (retain_later P (next base) s (Some x) s1 U X E1)|exact (retain_keeps _ _ _ E1)]].
  apply M. cbn [allowed]. destruct (inv_owned s [] x I Hx) as (b & n & HN). exists n, b. exact HN.
Qed.

(** ** After any history *)
Section History.
  Variables (keq : nat -> nat -> bool) (os : list op) (s : state).
  Hypotheses (O : obeys allowed keq init os) (E : run keq init os = Ok s).
  Lemma pieces_made text sep l : String_Model.split text sep = Ok l ->
    exists s', Pieces_Model.split text sep s = Ok (l, length (cells s), s') /\ sound s' /\ hands s' = hands s ++ [length (cells s)] /\ untouched s s' /\
      (exists n rs, nth_error (cells s') (length (cells s)) = Some (Live n (Arr rs)) /\ Forall2 (fun _ r => exists x, r = Some x /\ leaf s' x) l rs) /\
      forall x, length (cells s) <= x -> (live s' x <-> within s' (Some (length (cells s))) x).
  Proof.
    intros Q. pose proof (history_inv keq os s O E) as I. destruct (split_ok text sep l s I Q) as (s' & E' & (I' & L & B & U & H & _) & S'). exists s'. split; [exact E'|]. split; [apply inv_sound, I'|]. split; [exact H|]. split; [exact B|]. split; [exact S'|].
    exact (new_live s _ s' I I' B U H).
  Qed.
  Lemma pieces_gone text sep l s' : String_Model.split text sep = Ok l -> Pieces_Model.split text sep s = Ok (l, length (cells s), s') ->
    exists s'', step keq s' (Release (length (cells s))) = Ok s'' /\ hands s'' = hands s /\ untouched s s'' /\ forall y, length (cells s) <= y -> ~ live s'' y.
  Proof.
    intros Q E1. pose proof (history_inv keq os s O E) as I. destruct (split_ok text sep l s I Q) as (s1 & E' & (I' & L & B & U & H & _) & S'). rewrite E1 in E'. injection E' as <-.
    destruct (release_all keq any s I [next s] [] s' I' L B U H) as (s2 & E2 & I2 & L2 & B2 & U2 & H2 & _); [constructor; [lia|constructor]|]. cbn [map run] in E2. apply bind_ok in E2. destruct E2 as (s3 & E3 & E2). injection E2 as ->. rewrite app_nil_r in H2.
    exists s2. split; [exact E3|]. split; [exact H2|]. split; [exact B2|]. intros y Y Lv. apply (new_live s None s2 I I2 B2 U2) in Lv; [|cbn; rewrite app_nil_r; exact H2|exact Y]. destruct Lv as (w & W & _). discriminate.
  Qed.
  Variable fuel : nat.
  Lemma query_made text ps : Query_Model.split_query fuel text = Ok (Some ps) ->
    exists L s', Pieces_Model.split_query fuel text s = Ok (Some (length (cells s)), s') /\ sound s' /\ hands s' = hands s ++ length (cells s) :: L /\ untouched s s' /\
      (exists n es, nth_error (cells s') (length (cells s)) = Some (Live n (Hash es)) /\ Forall2 (entry_is s') (parameters ps) es).
  Proof.
    intros Q. pose proof (history_inv keq os s O E) as I. destruct (query_ok fuel text ps s I Q) as (K & s' & ks & E' & (I' & L & B & U & H) & F & Hf). exists K, s'. split; [exact E'|]. split; [apply inv_sound, I'|]. split; [exact H|]. split; [exact B|]. exact (dictionary _ _ _ _ Hf).
  Qed.
  Lemma query_popped text ps s' L : Query_Model.split_query fuel text = Ok (Some ps) -> Pieces_Model.split_query fuel text s = Ok (Some (length (cells s)), s') -> hands s' = hands s ++ length (cells s) :: L ->
    exists s'', run keq s' (map Release (length (cells s) :: L)) = Ok s'' /\ hands s'' = hands s /\ untouched s s'' /\ forall y, length (cells s) <= y -> ~ live s'' y.
  Proof.
    intros Q E1 HL. pose proof (history_inv keq os s O E) as I. destruct (query_ok fuel text ps s I Q) as (K & s1 & ks & E' & (I' & Ln & B & U & H) & F & Hf). rewrite E1 in E'. injection E' as <-. rewrite HL in H. apply app_inv_head in H. injection H as <-.
    destruct (release_all keq is_hash s I (next s :: L) [] s' I') as (s2 & E2 & I2 & L2 & B2 & U2 & H2 & _); [lia|exact B|exact U|rewrite app_nil_r; exact HL|constructor; [lia|]; apply Forall_impl with (2 := F); intros; lia|]. rewrite app_nil_r in H2.
    exists s2. split; [exact E2|]. split; [exact H2|]. split; [exact B2|]. intros y Y Lv. apply (new_live s None s2 I I2 B2 (up_any _ _ _ U2)) in Lv; [|cbn; rewrite app_nil_r; exact H2|exact Y]. destruct Lv as (w & W & _). discriminate.
  Qed.
  Lemma query_kept text ps s' L : Query_Model.split_query fuel text = Ok (Some ps) -> Pieces_Model.split_query fuel text s = Ok (Some (length (cells s)), s') -> hands s' = hands s ++ length (cells s) :: L ->
    exists s'', run keq s' (Retain (length (cells s)) :: map Release (length (cells s) :: L)) = Ok s'' /\ sound s'' /\ hands s'' = hands s ++ [length (cells s)] /\ untouched s s'' /\
      (exists n es, nth_error (cells s'') (length (cells s)) = Some (Live n (Hash es)) /\ Forall2 (entry_is s'') (parameters ps) es) /\
      forall y, length (cells s) <= y -> (live s'' y <-> within s'' (Some (length (cells s))) y).
  Proof.
    intros Q E1 HL. pose proof (history_inv keq os s O E) as I. destruct (query_ok fuel text ps s I Q) as (K & s1 & ks & E' & D & F & Hf). pose proof D as (I' & Ln & B & U & H). rewrite E1 in E'. injection E' as <-. rewrite HL in H. apply app_inv_head in H. injection H as <-.
    destruct (retain_step keq is_hash s (next s) s' I') as (s2 & E2 & I2 & H2 & (L2 & B2 & U2) & K2); [rewrite HL; apply in_or_app; right; left; reflexivity|lia|exact U|].
    destruct (release_all keq is_hash s I (next s :: L) [next s] s2 I2) as (s3 & E3 & I3 & L3 & B3 & U3 & H3 & K3); [unfold next in *; lia|intros y Y; rewrite B2, B by exact Y; reflexivity|exact U2|rewrite H2, HL, <- app_assoc; reflexivity|constructor; [lia|]; apply Forall_impl with (2 := F); intros; lia|].
    exists s3. split; [cbn [run]; change (length (cells s)) with (next s); rewrite E2; exact E3|]. split; [apply inv_sound, I3|]. split; [exact H3|]. split; [exact B3|].
    assert (D3: inside is_hash s [] s3). { split; [exact I3|]. split; [|split; [exact B3|]; split; [exact U3|exact H3]]. apply (hands_live s3); [exact I3|]. rewrite H3. apply in_or_app. right. left. reflexivity. }
    split; [|exact (new_live s (Some (next s)) s3 I I3 B3 (up_any _ _ _ U3) H3)]. apply (dictionary s s3 ks). exact (hash_stays s L [] s' s3 ks _ D D3 (keeps_trans _ _ _ _ K2 K3) Hf).
  Qed.
End History.
