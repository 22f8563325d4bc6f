(** What DKEggGetTextData copies. *)
Require Import Coq.NArith.NArith Coq.Lists.List Coq.Arith.Arith Coq.Bool.Bool Coq.micromega.Lia.
Require Import Verif.Base Verif.Encoding_Model Verif.Egg_Model Verif.Egg_Spec Verif.Egg_Final.
Import ListNotations.
Local Open Scope N_scope.

Lemma less_one : forall n M, 0 < n -> n < M -> (n + M - 1) mod M = n - 1.
Proof. intros n M H1 H2. replace (n + M - 1) with (n - 1 + 1 * M) by lia. rewrite N.mod_add by lia. apply N.mod_small. lia. Qed.
Lemma slice_length : forall l a n s, slice l a n = Ok s -> N.of_nat (length s) = n.
Proof. intros l a n s E. unfold slice in E. destruct (_ <=? _) eqn:Le in E; [|discriminate E]. apply N.leb_le in Le. injection E as <-. rewrite firstn_length, skipn_length. lia. Qed.
Lemma text_value : forall br g e get u key u' v, get_value br g e get u key KText = Ok (u', v) ->
  u' = u /\ exists s, v = VText s /\ (s <> [] -> N.of_nat (length s) < 2 ^ 64 -> get_text_data br e (ustack u) key = Ok (s, N.of_nat (length s) - 1)).
Proof.
  intros br g e get u key u' v H. unfold get_value in H. unfold get_text_data. destruct (get_attr br e (ustack u) key) as [[x|]| | |]; try discriminate H; cbn [obind] in *.
  - destruct (get_type (aenc x) =? TText); [|injection H as <- <-; split; [reflexivity|]; exists []; split; [reflexivity|]; congruence].
    destruct (slice (ubytes e) (data_at e + aval x) (if 0 <? get_size (aenc x) then get_size (aenc x) - 1 else 0)) as [s| | |] eqn:E; try discriminate H. cbn [obind] in *. injection H as <- <-. split; [reflexivity|]. exists s. split; [reflexivity|]. intros Hs Hl. f_equal. f_equal.
    pose proof (slice_length _ _ _ _ E) as Ln. clear E. rewrite <- Ln. apply less_one; [|exact Hl]. destruct s; [congruence|]. cbn [length]. lia.
  - injection H as <- <-. split; [reflexivity|]. exists []. split; [reflexivity|]. congruence.
Qed.
Lemma text_fields : forall br g e get ks u u' l, get_fields br g e get u (map (fun k => (k, KText)) ks) = Ok (u', l) ->
  forall k s, In (k, VText s) l -> s <> [] -> N.of_nat (length s) < 2 ^ 64 -> get_text_data br e (ustack u) k = Ok (s, N.of_nat (length s) - 1).
Proof.
  intros br g e get. induction ks as [|k0 ks IH]; intros u u' l H k s Hin Hs Hl; cbn [map get_fields] in H; [injection H as _ <-; destruct Hin|].
  destruct (get_value br g e get u k0 KText) as [[u1 v]| | |] eqn:E; try discriminate H. cbn [obind] in H. destruct (get_fields br g e get u1 (map (fun k => (k, KText)) ks)) as [[u2 l2]| | |] eqn:E2; try discriminate H. cbn [obind] in H. injection H as <- <-.
  destruct (text_value _ _ _ _ _ _ _ _ E) as (-> & s0 & -> & X). destruct Hin as [Hin|Hin]; [injection Hin as -> ->; auto|]. now apply (IH u u2 l2 E2).
Qed.
Lemma text_copied : forall bw g fs, registry_ok g -> NoDup (map (fun f => hash32 0 (fst f)) fs) -> Forall (fun f => exists s, snd f = VText s /\ N.of_nat (length s) < max_count) fs ->
  exists l, save_fields bw [] fs = Ok l /\ (N.of_nat (length l) < 2 ^ 32 -> forall br, exists e, open_data br l = Ok (Some e) /\
    forall k s, In (k, VText s) fs -> s <> [] -> get_text_data br e [0%nat] k = Ok (s, N.of_nat (length s) - 1)).
Proof.
  intros bw g fs Hr Hn Hf. destruct (distinct_keys bw g fs Hr Hn Hf) as (l & S & L). exists l. split; [exact S|]. intros Hl br. specialize (L Hl br). unfold load_fields in L. destruct (open_data br l) as [[e|]| | |]; try discriminate L. cbn [obind] in L.
  destruct (get_rootless br g e (map (fun f => (fst f, KText)) fs)) as [r| | |] eqn:E; try discriminate L. cbn [obind] in L. injection L as ->. exists e. split; [reflexivity|]. intros k s Hin Hs.
  unfold get_rootless in E. destruct (get_fields br g e _ (no_unarch e) (map (fun f => (fst f, KText)) fs)) as [[u' fs']| | |] eqn:G; try discriminate E. cbn [obind fst snd] in E. injection E as _ ->.
  replace (map (fun f : list N * value => (fst f, KText)) fs) with (map (fun k => (k, KText)) (map fst fs)) in G by (rewrite map_map; reflexivity).
  assert (Hs2 : N.of_nat (length s) < 2 ^ 64). { rewrite Forall_forall in Hf. destruct (Hf _ Hin) as (s' & E & Q). cbn in E. injection E as <-. assert (max_count < 2 ^ 64) by reflexivity. lia. }
  pose proof (text_fields br g e _ (map fst fs) _ _ _ G k s Hin Hs Hs2) as X. unfold no_unarch in X. destruct (urootless e); [exact X|]. cbn [ustack] in X. unfold get_text_data in X. cbn in X. discriminate X.
Qed.
