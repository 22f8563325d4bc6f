(** Proofs about the objects that parsing JSON makes: what is left. *)
Require Import Coq.ZArith.ZArith Coq.NArith.NArith Coq.Lists.List Coq.Bool.Bool Coq.Arith.Arith Coq.micromega.Lia.
Require Import Verif.Base Verif.JSON_Model Verif.Own_Model Verif.Own_Spec Verif.Own_Proofs Verif.Own_Calls Verif.Own_Ends Verif.Own_May Verif.Parsed_Model Verif.Parsed_Spec Verif.Parsed_Proofs Verif.Parsed_Steps Verif.Parsed_Shape.
Import ListNotations.

Lemma history_inv keq os s : obeys allowed keq init os -> run keq init os = Ok s -> Inv s [].
Proof. intros O E. pose proof (may_run keq os init init_inv O) as M. rewrite E in M. exact M. Qed.
(** What is held by something old is old. *)
Lemma old_holds base s : Inv base [] -> below base s -> forall y x, y < next base -> holds s y x -> x < next base.
Proof.
  intros I B y x Y (n & b & N & M). rewrite B in N by exact Y. assert (H: holds base y x) by (exists n, b; auto).
  assert (C: In x (content base)) by (apply in_content; exists y; exact H). apply cnt_in in C. destruct (inv_live base [] x I ltac:(lia)) as (m & d & E). exact (nth_len _ _ _ E).
Qed.
Lemma old_chain base s y x : Inv base [] -> below base s -> chain s y x -> y < next base -> x < next base.
Proof. intros I B C. induction C as [y x H|y z x H C IH]; intros Y; [exact (old_holds base s I B y x Y H)|]. apply IH. exact (old_holds base s I B y z Y H). Qed.
Lemma up_chain a s y x : up any a s -> chain s y x -> a <= y -> y < x.
Proof.
  intros U C. induction C as [y x (n & b & N & M)|y z x (n & b & N & M) C IH]; intros Y.
  - pose proof (proj1 (U y n b Y N)) as F. rewrite Forall_forall in F. exact (F x M).
  - pose proof (proj1 (U y n b Y N)) as F. rewrite Forall_forall in F. specialize (F z M). specialize (IH ltac:(lia)). lia.
Qed.
Lemma new_live base r s : Inv base [] -> Inv s [] -> below base s -> up any (next base) s -> hands s = hands base ++ somes [r] -> forall x, next base <= x -> (live s x <-> within s r x).
Proof.
  intros IB I B U H x X. rewrite (live_iff s x (inv_sound s I)). split.
  - intros (w & W & Q). destruct (Nat.lt_ge_cases w (next base)) as [L|L].
    + exfalso. destruct Q as [->|Q]; [lia|]. pose proof (old_chain base s w x IB B Q L). lia.
    + destruct W as [W|W]; [|pose proof (up_chain _ s w w U W L); lia]. rewrite H in W. apply in_app_or in W. destruct W as [W|W]; [apply (hands_live _ _ IB) in W; lia|]. exists w. split; [|exact Q]. destruct r as [y|]; [destruct W as [->|[]]; reflexivity|destruct W].
  - intros (w & -> & Q). exists w. split; [|exact Q]. left. rewrite H. apply in_or_app. right. left. reflexivity.
Qed.
Lemma parsed vec text base v : Inv base [] -> JSON_Model.json_parse vec text = Ok v -> exists r s, Parsed_Model.json_parse vec text base = Ok (v, r, s) /\ Inv s [] /\ below base s /\ up any (next base) s /\ hands s = hands base ++ somes [r] /\ ref_in (le (next base)) r.
Proof.
  intros I E. unfold JSON_Model.json_parse in E. apply bind_ok in E. destruct E as ((p, c) & E & V). cbn [fst] in V. destruct (proj1 (parser _) vec _ base p c I E) as (q & s & Q & A & (I' & L & B & U & H & R)). unfold Parsed_Model.json_parse. rewrite Q. cbn [obind].
  destruct p as [v0|b|], q as [v1 r|b1|]; try contradiction; injection V as <-.
  - destruct A as (-> & _). exists r, s. split; [reflexivity|]. repeat (split; [assumption|]). apply refs_in, R.
  - exists None, s. split; [reflexivity|]. repeat (split; [assumption|]). exact Logic.I.
  - exists None, s. split; [reflexivity|]. repeat (split; [assumption|]). exact Logic.I.
Qed.
Lemma made keq os s vec text v : obeys allowed keq init os -> run keq init os = Ok s -> JSON_Model.json_parse vec text = Ok v ->
  exists r s', Parsed_Model.json_parse vec text s = Ok (v, r, s') /\ sound s' /\ hands s' = hands s ++ somes [r] /\ untouched s s' /\ forall x, length (cells s) <= x -> (live s' x <-> within s' r x).
Proof.
  intros O E V. pose proof (history_inv keq os s O E) as I. destruct (parsed vec text s v I V) as (r & s' & Q & I' & B & U & H & _). exists r, s'. split; [exact Q|]. split; [apply inv_sound, I'|]. split; [exact H|]. split; [exact B|]. exact (new_live s r s' I I' B U H).
Qed.
Lemma unmade keq os s vec text v x s' : obeys allowed keq init os -> run keq init os = Ok s -> JSON_Model.json_parse vec text = Ok v -> Parsed_Model.json_parse vec text s = Ok (v, Some x, s') ->
  exists s'', step keq s' (Release x) = Ok s'' /\ hands s'' = hands s /\ untouched s s'' /\ forall y, length (cells s) <= y -> ~ live s'' y.
Proof.
  intros O E V Q. pose proof (history_inv keq os s O E) as I. destruct (parsed vec text s v I V) as (r & s1 & Q1 & I' & B & U & H & R). rewrite Q in Q1. injection Q1 as <- <-. cbn in H, R.
  destruct (release_one keq any (next s) s' x I') as (s2 & E2 & I2 & H2 & (L2 & B2 & U2)); [rewrite H; apply in_or_app; right; left; reflexivity|exact R|exact U|]. rewrite H, take_last in H2 by (apply hands_old; auto).
  assert (B': below s s2) by (intros y Y; rewrite B2, B by exact Y; reflexivity). exists s2. split; [exact E2|]. split; [exact H2|]. split; [exact B'|]. intros y Y Lv. apply (new_live s None s2 I I2 B' U2) in Lv; [|cbn; rewrite app_nil_r; exact H2|exact Y]. destruct Lv as (w & W & _). discriminate.
Qed.
Lemma objects keq os s vec text v r s' : obeys allowed keq init os -> run keq init os = Ok s -> JSON_Model.json_parse vec text = Ok v -> Parsed_Model.json_parse vec text s = Ok (v, r, s') -> stands_for s' v r.
Proof. intros O E V Q. exact (stands vec text s v r s' (history_inv keq os s O E) V Q). Qed.
