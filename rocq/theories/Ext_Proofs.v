(** Proofs about path extensions. *)
Require Import Coq.ZArith.ZArith Coq.NArith.NArith Coq.Lists.List Coq.Bool.Bool Coq.Arith.Arith Coq.micromega.Lia.
Require Import Verif.Base Verif.Utf8_Model Verif.Utf8_Spec Verif.Utf8_Proofs Verif.Utf8_Strings Verif.String_Model Verif.String_Spec Verif.String_Proofs Verif.String_Lists Verif.String_Path.
Require Import Verif.Ext_Model Verif.Ext_Spec.
Require Verif.StrObj_Model Verif.StrObj_Spec Verif.StrObj_Proofs.
Import ListNotations.
Local Open Scope N_scope.

Lemma after_none c cs : after_last c cs = None <-> ~ In c cs.
Proof.
  induction cs as [|x cs IH]; cbn [after_last In]; [tauto|]. destruct (after_last c cs) as [t|].
  - split; [discriminate|]. intros H. exfalso. assert (Q : ~ In c cs) by tauto. apply IH in Q. discriminate Q.
  - destruct (N.eqb_spec x c) as [->|E]; [split; [discriminate|tauto]|]. split; [|auto]. intros _ [H|H]; [congruence|]. apply IH in H; auto.
Qed.
Lemma after_app c pre post : ~ In c post -> after_last c (pre ++ c :: post) = Some post.
Proof.
  intros H. induction pre as [|x pre IH]; cbn [app after_last].
  - apply after_none in H. rewrite H, N.eqb_refl. reflexivity.
  - rewrite IH. reflexivity.
Qed.
Lemma after_split (c : N) cs : (~ In c cs) \/ exists pre post, cs = pre ++ c :: post /\ ~ In c post.
Proof.
  induction cs as [|x cs [H|(pre & post & -> & H)]]; [left; auto| |right; exists (x :: pre), post; auto].
  destruct (N.eq_dec x c) as [->|E]; [right; exists [], cs; auto|]. left. intros [Q|Q]; auto.
Qed.
(** Two places in a text. *)
Lemma places (p q p' q' : list N) a b : p ++ a :: q = p' ++ b :: q' -> a <> b -> (exists m, p' = p ++ a :: m /\ q = m ++ b :: q') \/ (exists m, p = p' ++ b :: m /\ q' = m ++ a :: q).
Proof.
  revert p'. induction p as [|x p IH]; intros [|y p'] E N; cbn [app] in E.
  - injection E as E1 E2. congruence.
  - injection E as <- ->. left. exists p'. auto.
  - injection E as -> <-. right. exists p. auto.
  - injection E as <- E. destruct (IH p' E N) as [(m & -> & ->)|(m & -> & ->)]; [left|right]; exists m; auto.
Qed.
Lemma scan_dot r : ustrscan (46 :: r) = Ok (46%Z, 1%nat).
Proof. reflexivity. Qed.
Lemma dot_char : Z.of_N period = 46%Z.
Proof. reflexivity. Qed.
Lemma slash_char : Z.of_N slash = 47%Z.
Proof. reflexivity. Qed.
Lemma encode_dot cs : encode (period :: cs) = 46 :: encode cs.
Proof. reflexivity. Qed.

(** The cases of both functions. *)
Lemma cases cs : text cs ->
  (extension (file_name cs) = [] /\ ((ustrrchr (sto (encode cs)) 46 = Ok None) \/ exists e l, ustrrchr (sto (encode cs)) 46 = Ok (Some e) /\ ustrrchr (sto (encode cs)) 47 = Ok (Some l) /\ (e < l)%nat)) \/
  exists pre post, cs = pre ++ period :: post /\ extension (file_name cs) = post /\ ustrrchr (sto (encode cs)) 46 = Ok (Some (length (encode pre))) /\
    (ustrrchr (sto (encode cs)) 47 = Ok None \/ exists l, ustrrchr (sto (encode cs)) 47 = Ok (Some l) /\ (l <= length (encode pre))%nat).
Proof.
  intros T. rewrite <- dot_char, <- slash_char. destruct (after_split period cs) as [D|(pre & post & E & D)].
  - left. split; [|left; apply rrchr_absent; auto]. unfold extension. replace (after_last period (file_name cs)) with (@None (list N)); [reflexivity|]. symmetry. apply after_none. intros H. apply D. unfold file_name in H.
    destruct (after_split slash cs) as [S0|(p & q & -> & S0)]; [apply after_none in S0; rewrite S0 in H; exact H|]. rewrite after_app in H by exact S0. apply in_or_app. right. right. exact H.
  - assert (R : ustrrchr (sto (encode cs)) (Z.of_N period) = Ok (Some (length (encode pre)))) by (rewrite E; apply rrchr_found; [rewrite <- E; exact T|exact D]).
    destruct (after_split slash cs) as [S0|(p & q & E' & S0)].
    + right. exists pre, post. split; [exact E|]. split; [|split; [exact R|left; apply rrchr_absent; auto]]. unfold file_name. apply after_none in S0. rewrite S0. unfold extension. now rewrite E, after_app.
    + assert (R' : ustrrchr (sto (encode cs)) (Z.of_N slash) = Ok (Some (length (encode p)))) by (rewrite E'; apply rrchr_found; [rewrite <- E'; exact T|exact S0]).
      assert (F : file_name cs = q) by (unfold file_name; now rewrite E', after_app).
      destruct (places pre post p q period slash ltac:(congruence) ltac:(discriminate)) as [(m & Ep & Eq)|(m & Ep & Eq)].
      * left. split; [|right; exists (length (encode pre)), (length (encode p))].
        -- rewrite F. unfold extension. replace (after_last period q) with (@None (list N)); [reflexivity|]. symmetry. apply after_none. intros H. apply D. rewrite Eq. apply in_or_app. right. right. exact H.
        -- split; [exact R|]. split; [exact R'|]. rewrite Ep, encode_app, app_length, encode_dot. cbn [length]. lia.
      * right. exists pre, post. split; [exact E|]. split; [rewrite F, Eq; unfold extension; now rewrite after_app|]. split; [exact R|]. right. exists (length (encode p)). split; [exact R'|]. rewrite Ep, encode_app, app_length. lia.
Qed.
Lemma tail_bytes pre post : skipn (length (encode pre) + 1) (sto (encode (pre ++ period :: post))) = sto (encode post).
Proof.
  unfold sto. rewrite encode_app, encode_dot. rewrite <- app_assoc. rewrite skipn_app, skipn_all2 by lia. replace (length (encode pre) + 1 - length (encode pre))%nat with 1%nat by lia. reflexivity.
Qed.
Lemma get_ok cs : text cs -> path_extension (encode cs) = Ok (encode (extension (file_name cs))).
Proof.
  intros T. unfold path_extension. destruct (cases cs T) as [(-> & [R|(e & l & R & R' & L)])|(pre & post & E & X & R & S0)].
  - rewrite R. reflexivity.
  - rewrite R. cbn [obind]. rewrite R'. cbn [obind]. apply Nat.ltb_lt in L. rewrite L. reflexivity.
  - rewrite R. cbn [obind]. rewrite X.
    assert (C : copy_bytes (sto (encode cs)) (length (encode pre) + 1) (length (encode cs) - (length (encode pre) + 1)) = encode post).
    { unfold copy_bytes. rewrite E, tail_bytes. unfold sto. rewrite encode_app, encode_dot, app_length. cbn [length]. replace (length (encode pre) + S (length (encode post)) - (length (encode pre) + 1))%nat with (length (encode post)) by lia. rewrite firstn_app, Nat.sub_diag, firstn_all. apply app_nil_r. }
    destruct S0 as [S0|(l & S0 & L)]; rewrite S0; cbn [obind]; [now rewrite C|]. destruct (Nat.ltb_spec (length (encode pre)) l); [lia|]. now rewrite C.
Qed.
Lemma cut_cstring s : (~ In 0 s) -> StrObj_Spec.cut s = s.
Proof. induction s as [|b s IH]; intros H; [reflexivity|]. cbn [StrObj_Spec.cut]. destruct (N.eqb_spec b 0) as [->|E]; [exfalso; apply H; left; reflexivity|]. rewrite IH; [reflexivity|]. intros Q. apply H. right. exact Q. Qed.
Lemma text_suffix pre c post : text (pre ++ c :: post) -> text post.
Proof. unfold text. rewrite Forall_app. intros [_ H]. now inversion H. Qed.
Lemma encode_nil_len cs : (length (encode cs) =? 0)%nat = true <-> cs = [].
Proof. split; [|intros ->; reflexivity]. intros H. apply Nat.eqb_eq in H. pose proof (encode_length cs). destruct cs; [reflexivity|cbn [length] in *; lia]. Qed.
Lemma has_ok cs x : text cs -> text x -> has_path_extension (encode cs) (encode x) = Ok (if list_eq_dec N.eq_dec (extension (file_name cs)) x then true else false).
Proof.
  intros T X0. unfold has_path_extension.
  assert (Z0 : extension (file_name cs) = [] -> (length (encode x) =? 0)%nat = (if list_eq_dec N.eq_dec (extension (file_name cs)) x then true else false)).
  { intros ->. destruct (list_eq_dec N.eq_dec [] x) as [<-|H]; [reflexivity|]. destruct (length (encode x) =? 0)%nat eqn:E; [|reflexivity]. apply encode_nil_len in E. congruence. }
  destruct (cases cs T) as [(Z1 & [R|(e & l & R & R' & L)])|(pre & post & E & X & R & S0)].
  - rewrite R. cbn [obind]. now rewrite Z0.
  - rewrite R. cbn [obind]. rewrite R'. cbn [obind]. apply Nat.ltb_lt in L. rewrite L. now rewrite Z0.
  - rewrite R. cbn [obind].
    assert (C : compare_from (encode cs) (length (encode pre)) (encode x) = Ok (if list_eq_dec N.eq_dec (extension (file_name cs)) x then true else false)).
    { unfold compare_from. assert (Sk : skipn (length (encode pre)) (sto (encode cs)) = 46 :: sto (encode post)) by (unfold sto; rewrite E, encode_app, encode_dot, <- app_assoc, skipn_app, skipn_all, Nat.sub_diag; reflexivity).
      rewrite Sk, scan_dot. cbn [obind snd]. rewrite E at 1. rewrite tail_bytes, StrObj_Proofs.strcmp_ok. f_equal. rewrite X.
      assert (Tp : text post) by (rewrite E in T; apply text_suffix in T; exact T).
      rewrite !cut_cstring by (apply encode_cstring; assumption). destruct (list_eq_dec N.eq_dec post x) as [->|H]; [now apply StrObj_Proofs.bytes_eqb_eq|].
      destruct (String_Model.bytes_eqb (encode post) (encode x)) eqn:Q; [|reflexivity]. apply StrObj_Proofs.bytes_eqb_eq in Q. apply encode_inj in Q; auto. contradiction. }
    destruct S0 as [S0|(l & S0 & L)]; rewrite S0; cbn [obind]; [exact C|]. destruct (Nat.ltb_spec (length (encode pre)) l); [lia|]. exact C.
Qed.

(** The name of a path that does not end with a separator is its last component. *)
Lemma name_app c s : In slash s -> file_name (c ++ s) = file_name s.
Proof.
  intros H. unfold file_name. destruct (after_split slash s) as [Q|(p & q & -> & Q)]; [contradiction|]. rewrite app_assoc, !after_app by exact Q. reflexivity.
Qed.
Lemma no_rest s comps : rest_of s comps -> comps = [] -> s = [] \/ exists t, s = t ++ [slash].
Proof.
  induction 1 as [|s comps R IH|c s comps C R IH H]; intros E; [left; reflexivity| |discriminate E]. right. destruct (IH E) as [->|[t ->]]; [exists []; reflexivity|exists (slash :: t); reflexivity].
Qed.
Lemma name_rest s comps : rest_of s comps -> forall l c, comps = l ++ [c] -> (forall t, s <> t ++ [slash]) -> file_name s = c.
Proof.
  induction 1 as [|s comps R IH|c0 s comps C R IH H]; intros l c E N.
  - destruct l; discriminate E.
  - assert (Q : file_name s = c) by (apply (IH l c E); intros t Et; apply (N (slash :: t)); rewrite Et; reflexivity). rewrite <- Q. unfold file_name. cbn [after_last]. destruct (after_last slash s); reflexivity.
  - destruct H as [->|[t ->]].
    + inversion R; subst; [|match goal with Q : _ ++ _ = [] |- _ => apply app_eq_nil in Q; destruct Q; subst; match goal with D : component [] |- _ => destruct D; congruence end end].
      destruct l as [|x l]; [|destruct l; discriminate E]. injection E as <-. rewrite app_nil_r. unfold file_name. destruct C as [_ C]. apply after_none in C. now rewrite C.
    + rewrite name_app by (left; reflexivity). destruct l as [|x l].
      * injection E as <- ->. exfalso. destruct (no_rest _ _ R eq_refl) as [Q|[u Q]]; [discriminate Q|]. apply (N (c0 ++ u)). rewrite <- app_assoc. now rewrite Q.
      * injection E as _ E. apply (IH l c E). intros u Q. apply (N (c0 ++ u)). rewrite <- app_assoc. now rewrite Q.
Qed.
Lemma name_path s abs l c : path_of s abs (l ++ [c]) -> (forall t, s <> t ++ [slash]) -> file_name s = c.
Proof.
  intros P N. inversion P as [|s' comps R|c0 s' comps C R H]; subst.
  - destruct l; discriminate.
  - apply (name_rest _ _ (rest_slash _ _ R) l c eq_refl N).
  - apply (name_rest _ _ (rest_comp _ _ _ C R H) l c); auto.
Qed.
Lemma component_text s abs l c : text s -> path_of s abs (l ++ [c]) -> text c.
Proof. intros T P. pose proof (path_text _ _ _ P T) as H. apply Forall_app in H. destruct H as [_ H]. now inversion H. Qed.
Lemma of_component cs abs l c : text cs -> path_of cs abs (l ++ [c]) -> (forall t, cs <> t ++ [slash]) ->
  exists name, last_path_component (encode cs) = Ok name /\ path_extension name = path_extension (encode cs).
Proof.
  intros T P N. exists (encode c). split; [apply (last_component_ok cs abs l c T P)|]. rewrite !get_ok by (try assumption; exact (component_text _ _ _ _ T P)). rewrite (name_path _ _ _ _ P N). do 2 f_equal. 
  assert (C : ~ In slash c) by (pose proof (path_components _ _ _ P) as Q; apply Forall_app in Q; destruct Q as [_ Q]; inversion Q as [|? ? Q1]; exact (proj2 Q1)). unfold file_name. apply after_none in C. now rewrite C.
Qed.
