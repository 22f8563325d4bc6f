(** Concrete cases and counterexamples for string objects. *)
Require Import Coq.ZArith.ZArith Coq.NArith.NArith Coq.Lists.List Coq.Bool.Bool Coq.Arith.Arith Coq.micromega.Lia.
Require Import Coq.micromega.ZifyN Coq.micromega.ZifyNat.
Require Import Verif.Base Verif.Array_Model Verif.Utf8_Spec Verif.Utf8_Proofs Verif.Utf8_Strings.
Require Import Verif.String_Model Verif.String_Spec Verif.String_Proofs Verif.String_Lists Verif.String_Wrap Verif.String_Path Verif.String_Escape.
Require Import Verif.StrObj_Model Verif.StrObj_Spec Verif.StrObj_Proofs.
Import ListNotations.
Local Open Scope N_scope.

Ltac ok_text := unfold text; repeat (constructor; [unfold char_ok, scalar; lia|]); constructor.
Ltac ok_ascii := unfold ascii; repeat (constructor; [lia|]); constructor.
Ltac ok_fits := unfold fits, INT64_MAX; cbn; lia.
Lemma substring_case : text [104; 233; 8364] /\ fits (length (encode [104; 233; 8364])) /\
  substring (encode [104; 233; 8364]) 1 2 = Ok (Some (encode [233; 8364])) /\ substring_from (encode [104; 233; 8364]) 2 = Ok (Some (encode [8364])).
Proof. split; [ok_text|]. split; [ok_fits|]. split; vm_compute; reflexivity. Qed.
Lemma history_case : Forall safe_op [ONew true [97; 98]; OHash 1; OEdit 1 1 1 []; ONew false [97]; OCopy true 2] /\
  arun astart [ONew true [97; 98]; OHash 1; OEdit 1 1 1 []; ONew false [97]; OCopy true 2] =
    Some ([([], false); ([97], true); ([97], false); ([97], true)], [RAddr 1; RHash 3105; RNone; RAddr 2; RAddr 3]).
Proof. split; [repeat constructor|]. vm_compute. reflexivity. Qed.
Lemma range_beyond : exists cs pat start, text cs /\ text pat /\ pat <> [] /\ range_of_string (encode cs) (encode pat) start = UB.
Proof. exists [97], [98], 5%Z. split; [ok_text|]. split; [ok_text|]. split; [discriminate|]. vm_compute. reflexivity. Qed.
Lemma empty_prefix : exists cs, text cs /\ has_prefix (encode cs) [] = Ok false /\ has_suffix (encode cs) [] = Ok false.
Proof. exists [97]. split; [ok_text|]. split; vm_compute; reflexivity. Qed.
Lemma range_case : text [233; 97; 98; 97; 98] /\ text [97; 98] /\
  range_of_string (encode [233; 97; 98; 97; 98]) (encode [97; 98]) 0 = Ok (Some (1%Z, 2%nat)) /\
  range_of_string (encode [233; 97; 98; 97; 98]) (encode [97; 98]) 2 = Ok (Some (3%Z, 2%nat)).
Proof. split; [ok_text|]. split; [ok_text|]. split; vm_compute; reflexivity. Qed.
Lemma replace_case : ascii [97; 97; 97; 98] /\ ascii [97; 97] /\ ascii [120] /\ fits (4 * 2) /\
  replace_occurrences 5 [97; 97; 97; 98] [97; 97] [120] = Ok [120; 97; 98].
Proof. split; [ok_ascii|]. split; [ok_ascii|]. split; [ok_ascii|]. split; [ok_fits|]. vm_compute. reflexivity. Qed.
Lemma split_last : exists cs sep l, text cs /\ text sep /\ sep <> [] /\ String_Model.split (encode cs) (encode sep) = Ok l /\
  String_Model.combine l (encode sep) <> encode cs.
Proof. exists [97; 44], [44], [[97]]. split; [ok_text|]. split; [ok_text|]. split; [discriminate|]. split; [vm_compute; reflexivity|]. vm_compute. discriminate. Qed.
Lemma split_adjacent : exists cs sep l, text cs /\ text sep /\ sep <> [] /\ String_Model.split (encode cs) (encode sep) = Ok (map encode l) /\
  Exists (fun c => exists i, occurs_at sep c i) l.
Proof.
  exists [97; 44; 44; 98], [44], [[97]; [44; 98]]. split; [ok_text|]. split; [ok_text|]. split; [discriminate|]. split; [vm_compute; reflexivity|].
  right. left. exists 0%nat, [], [98]. auto.
Qed.
Lemma split_case : text [44; 32] /\ Forall text [[97]; [233; 98]] /\ Forall (separable [44; 32]) [[97]; [233; 98]] /\
  String_Model.split (encode [97; 44; 32; 233; 98]) (encode [44; 32]) = Ok [encode [97]; encode [233; 98]].
Proof.
  split; [ok_text|]. split; [repeat constructor; unfold scalar; lia|]. split; [|vm_compute; reflexivity].
  constructor; [|constructor; [|constructor]]; (split; [discriminate|]); intros i (pre & post & E & <-); cbn [app] in E;
    repeat (destruct pre as [|? pre]; cbn in E; [inversion E; try reflexivity|injection E as _ E]); destruct pre; discriminate.
Qed.
Lemma path_reading : forall s, exists abs comps, path_of s abs comps /\ Forall component comps /\
  forall abs' comps', path_of s abs' comps' -> abs' = abs /\ comps' = comps.
Proof.
  intros s. destruct (path_total s) as (a & c & H). exists a, c. split; auto. split; [eapply path_components; eauto|]. intros a' c' H'. eapply path_fun; eauto.
Qed.
Lemma standardize_same : forall s t abs comps, cstring s -> standardize s = Ok t -> path_of s abs comps -> path_of t abs comps.
Proof. intros s t a c Hs E H. rewrite (standardize_path s a c Hs H) in E. inversion E. apply path_render. eapply path_components; eauto. Qed.
Definition cbyte (b : N) : Prop := b < 256 /\ b <> 0.
Lemma cstring_forall : forall s, cstring s <-> Forall cbyte s.
Proof.
  intros s. unfold cstring, bytes_ok, cbyte. rewrite !Forall_forall. split.
  - intros [H G] b Hb. split; auto. intros ->. auto.
  - intros H. split; [intros b Hb; apply H; auto|]. intros F. apply H in F. destruct F. auto.
Qed.
Lemma cstring_join : forall comps, Forall (Forall cbyte) comps -> Forall cbyte (join [slash] comps).
Proof.
  assert (S0 : Forall cbyte [slash]) by (repeat constructor; unfold slash; lia).
  induction 1 as [|c l H Hl IH]; [constructor|]. destruct l as [|d l]; auto. cbn [join]. apply Forall_app. split; auto. apply Forall_app. split; auto.
Qed.
Lemma rest_cstring : forall s comps, rest_of s comps -> Forall cbyte s -> Forall (Forall cbyte) comps.
Proof.
  induction 1 as [|s comps H IH|c s comps Hc H IH Hs]; intros G; [constructor| |].
  - inversion G; auto.
  - apply Forall_app in G. destruct G. constructor; auto. 
Qed.
Lemma path_cstring : forall s abs comps, path_of s abs comps -> Forall cbyte s -> Forall (Forall cbyte) comps.
Proof.
  intros s abs comps H G. destruct H as [|s comps H|c s comps Hc H Hs]; [constructor| |].
  - inversion G; subst. eapply rest_cstring; eauto.
  - apply Forall_app in G. destruct G. constructor; auto. eapply rest_cstring; eauto.
Qed.
Lemma standardize_idempotent : forall s t, cstring s -> standardize s = Ok t -> standardize t = Ok t.
Proof.
  intros s t Hs E. destruct (path_total s) as (a & c & H). pose proof (standardize_same s t a c Hs E H) as H2.
  rewrite (standardize_path s a c Hs H) in E. injection E as <-. apply standardize_path; [|exact H2].
  apply cstring_forall. apply cstring_forall in Hs. unfold render. apply Forall_app. split; [destruct a; repeat constructor; unfold slash; lia|]. apply cstring_join. exact (path_cstring s a c H Hs).
Qed.
Lemma path_case : cstring [47; 47; 97; 47; 47; 98; 47] /\ path_of [47; 47; 97; 47; 47; 98; 47] true [[97]; [98]] /\
  standardize [47; 47; 97; 47; 47; 98; 47] = Ok [47; 97; 47; 98].
Proof.
  split; [apply cstring_forall; repeat constructor; lia|]. split; [|vm_compute; reflexivity]. apply path_abs, rest_slash.
  apply (rest_comp [97] [47; 47; 98; 47] [[98]]); [split; [discriminate|intros [E|[]]; discriminate]| |right; eauto]. apply rest_slash, rest_slash.
  apply (rest_comp [98] [47] []); [split; [discriminate|intros [E|[]]; discriminate]| |right; exists []; auto]. apply rest_slash, rest_nil.
Qed.
Lemma trim_undefined : exists cs, text cs /\ trim c_isspace (encode cs) = UB.
Proof. exists [8364]. split; [ok_text|]. vm_compute. reflexivity. Qed.
Lemma isspace_latin : forall c, 0 < c < 256 -> c_isspace (Z.of_N c) = Ok (blank c).
Proof.
  intros c H. unfold c_isspace, blank. replace ((Z.of_N c =? -1)%Z || ((0 <=? Z.of_N c) && (Z.of_N c <=? 255))%Z) with true.
  - f_equal. apply eq_true_iff_eq. rewrite !orb_true_iff, !andb_true_iff, !Z.leb_le, !N.leb_le, Z.eqb_eq, N.eqb_eq. lia.
  - symmetry. apply orb_true_iff. right. apply andb_true_iff. split; apply Z.leb_le; lia.
Qed.
Lemma trim_case : text [32; 233; 9; 97; 10] /\ trimmed blank [32; 233; 9; 97; 10] [233; 9; 97] /\
  trim c_isspace (encode [32; 233; 9; 97; 10]) = Ok (encode [233; 9; 97]).
Proof.
  split; [ok_text|]. split; [|vm_compute; reflexivity]. exists [32], [10]. split; auto. split; [repeat constructor|]. split; [repeat constructor|]. split.
  - intros c l E. inversion E. auto.
  - intros c l E. change ([233; 9; 97]) with ([233; 9] ++ [97]) in E. apply app_inj_tail in E. destruct E as [_ <-]. auto.
Qed.
Lemma percent_case : Forall plainly [97; 38; 47; 98] /\ fits (4 * 12) /\ add_escapes 20 [97; 38; 47; 98] = Ok [97; 37; 50; 54; 37; 50; 70; 98].
Proof.
  split; [|split; [ok_fits|vm_compute; reflexivity]]. repeat (constructor; [split; [lia|cbn; lia]|]). constructor.
Qed.
Lemma interning_case : exists g ts, iruns (mkSh None []) (initially [([97], true); ([97], true); ([98], true); ([97], false)])
    [0; 1; 0; 1; 2; 0; 1; 0; 1; 3; 3; 1; 0; 0; 1; 1; 2; 2; 2; 2]%nat = Ok (g, ts) /\
  map pc ts = [IDone (Some 1%nat); IDone (Some 1%nat); IDone (Some 2%nat); IDone None] /\ nth_error (objects g) 0 = Some ([97], false).
Proof. eexists. eexists. split; [vm_compute; reflexivity|]. split; vm_compute; reflexivity. Qed.
Lemma filter_case : text [97; 233; 98; 99] /\
  filter_string nat (fun st i j u ch => (S st, (Z.leb 98 ch, Z.eqb ch 98))) 0%nat (encode [97; 233; 98; 99]) = Ok (3%nat, encode [233; 98]).
Proof. split; [ok_text|]. vm_compute. reflexivity. Qed.
Lemma root_component : exists cs, text cs /\ path_of cs true [] /\ last_path_component (encode cs) = Ok (encode cs) /\ cs <> [] /\ last_path_component (encode [slash]) = Ok [].
Proof.
  exists [47; 47; 47]. split; [ok_text|]. split; [apply path_abs, rest_slash, rest_slash, rest_nil|]. split; [vm_compute; reflexivity|]. split; [discriminate|vm_compute; reflexivity].
Qed.
Lemma component_case : text [47; 97; 47; 47; 98; 47] /\ path_of [47; 97; 47; 47; 98; 47] true ([[97]] ++ [[98]]) /\
  last_path_component (encode [47; 97; 47; 47; 98; 47]) = Ok (encode [98]).
Proof.
  split; [ok_text|]. split; [|vm_compute; reflexivity]. apply path_abs.
  apply (rest_comp [97] [47; 47; 98; 47] [[98]]); [split; [discriminate|intros [E|[]]; discriminate]| |right; eauto]. apply rest_slash, rest_slash.
  apply (rest_comp [98] [47] []); [split; [discriminate|intros [E|[]]; discriminate]| |right; exists []; auto]. apply rest_slash, rest_nil.
Qed.
Lemma wrap_case : ascii [97; 98; 32; 99; 32; 100; 101] /\ wrap [97; 98; 32; 99; 32; 100; 101] 4 = Ok [[97; 98; 32; 99]; [100; 101]].
Proof. split; [ok_ascii|]. vm_compute. reflexivity. Qed.
