(** Every document is accepted by the machine: content and documents. *)
Require Import Coq.ZArith.ZArith Coq.NArith.NArith Coq.Lists.List Coq.Bool.Bool Coq.micromega.Lia Coq.micromega.ZifyBool Coq.micromega.ZifyN.
Require Import Verif.Base Verif.XML_Model Verif.XML_Spec Verif.XML_Machine Verif.XML_Forward.
Import ListNotations.
Local Open Scope N_scope.

Ltac unjunk J := destruct J; unfold at_; cbn [j_nx j_q j_sr j_v j_rf].

(** Units of text. *)
Lemma add_kept : forall kp kp' k b, blank b = false -> add_byte kp k b = add_byte kp' k b.
Proof. intros kp kp' k b H. unfold add_byte, add_to. rewrite H. reflexivity. Qed.
Lemma add_unit_one : forall k b, add_unit k [b] = add_byte false k b.
Proof.
  intros k b. cbn [add_unit fold_left]. destruct (blank b) eqn:E; [reflexivity|]. now apply add_kept.
Qed.
Lemma utf8_unit : forall k c, add_unit k (utf8 c) = add_bytes k (utf8 c).
Proof.
  assert (G : forall x y, 128 <= x -> blank (x + y) = false) by (intros; unfold blank; lia).
  assert (F : forall bs k, Forall (fun b => blank b = false) bs -> fold_left (add_byte true) bs k = fold_left (add_byte false) bs k).
  { induction bs as [|b bs IH]; intros k H; [reflexivity|]. inversion H; subst. cbn [fold_left]. rewrite (add_kept true false) by assumption. now apply IH. }
  intros k c. unfold utf8, add_bytes.
  destruct (c <? 128); [apply add_unit_one|].
  destruct (c <? 2048); [|destruct (c <? 65536)]; cbn [add_unit]; rewrite G by lia;
    change (fold_left (add_byte false) (?b :: ?r) k) with (fold_left (add_byte false) r (add_byte false k b));
    rewrite (add_kept true false) by (apply G; lia); apply F; repeat (apply Forall_cons; [apply G; lia|]); apply Forall_nil.
Qed.

Lemma cdata_tail : forall b c, cdata_text (b :: c) -> cdata_text c.
Proof. intros b c H x y E. apply (H (b :: x) y). cbn [app] in *. now rewrite E. Qed.
Lemma cdata_run : forall nx q sr n a fs v rf rt c k s, cdata_text c ->
  arun (mkC S_cd0 nx q sr ((n, a, k) :: fs) [] v rf rt) (c ++ [93; 93; 62] ++ s) =
  arun (mkC S_misc2 nx q sr ((n, a, add_cdata k 0 c) :: fs) [] v rf rt) s.
Proof.
  intros nx q sr n a fs v rf rt c k s.
  assert (G : forall m c, (length c <= m)%nat ->
    (forall prev k, prev <> 93 -> cdata_text c ->
      arun (mkC S_cd0 nx q sr ((n, a, k) :: fs) [] v rf rt) (c ++ [93; 93; 62] ++ s) =
      arun (mkC S_misc2 nx q sr ((n, a, add_cdata k prev c) :: fs) [] v rf rt) s) /\
    (forall k, cdata_text (93 :: 93 :: c) ->
      arun (mkC S_cd2 nx q sr ((n, a, k) :: fs) [] v rf rt) (c ++ [93; 93; 62] ++ s) =
      arun (mkC S_misc2 nx q sr ((n, a, add_cdata (add_byte false (add_byte false k 93) 93) 93 c) :: fs) [] v rf rt) s)).
  2: { intros H. apply (proj1 (G (length c) c ltac:(lia))); [lia|assumption]. }
  clear c k. induction m as [|m IH]; intros c Hl.
  - destruct c; [|cbn in Hl; lia]. split; intros; ones; cbn [add_top app]; rewrite ?add_unit_one; reflexivity.
  - destruct c as [|b c]; [split; intros; ones; cbn [add_top app]; rewrite ?add_unit_one; reflexivity|]. cbn [length] in Hl.
    destruct (IH c ltac:(lia)) as [IH1 IH2]. split.
    + intros prev k Hp Hc. destruct (N.eq_dec b 93) as [->|Hb].
      2: { cbn [app]. one. cbn [add_top app]. rewrite add_unit_one. cbn [app] in IH1. rewrite (IH1 b); [|assumption|now apply cdata_tail in Hc].
           cbn [add_cdata]. replace (prev =? 93) with false by lia. reflexivity. }
      cbn [add_cdata]. replace (prev =? 93) with false by lia.
      destruct c as [|b c].
      * ones. cbn [add_top app]. rewrite add_unit_one. reflexivity.
      * cbn [length] in Hl. destruct (IH c ltac:(lia)) as [IH3 IH4]. destruct (N.eq_dec b 93) as [->|Hb].
        -- cbn [app] in *. one. one. rewrite IH4 by assumption. cbn [add_cdata]. change (93 =? 93) with true.
           rewrite (add_kept true false _ 93) by reflexivity. reflexivity.
        -- cbn [app] in *. one. one. cbn [add_top app add_unit fold_left]. change (blank 93) with false. cbv iota.
           rewrite (IH3 b); [|assumption|now do 2 apply cdata_tail in Hc].
           cbn [add_cdata]. change (93 =? 93) with true. rewrite (add_kept true false _ 93) by reflexivity. reflexivity.
    + intros k Hc. destruct (N.eq_dec b 93) as [->|Hb].
      * cbn [app] in *. one. cbn [add_top app]. rewrite add_unit_one. rewrite IH2 by now apply cdata_tail in Hc.
        cbn [add_cdata]. change (93 =? 93) with true. rewrite (add_kept true false _ 93) by reflexivity. reflexivity.
      * assert (b <> 62) by (intros ->; apply (Hc [] (c ++ [93; 93])); reflexivity).
        cbn [app] in *. one. cbn [add_top app add_unit fold_left]. change (blank 93) with false. cbv iota.
        rewrite (IH1 b); [|assumption|now do 3 apply cdata_tail in Hc].
        cbn [add_cdata]. change (93 =? 93) with true. rewrite !(add_kept true false _ 93) by reflexivity. reflexivity.
Qed.

(** End tags. *)
Lemma end_name_run : forall nx q sr n a k fs v rf rt r done s, n = done ++ r -> Forall name_char r ->
  arun (mkC S_etag1 nx q sr ((n, a, k) :: fs) done v rf rt) (r ++ s) = arun (mkC S_etag1 nx q sr ((n, a, k) :: fs) n v rf rt) s.
Proof.
  intros nx q sr n a k fs v rf rt r. induction r as [|b r IH]; intros done s E H.
  - rewrite app_nil_r in E. now subst.
  - inversion H as [|? ? Hb Hr]; subst. cbn [app]. rewrite arun_cons. look. cbn [top_name c_frames].
    rewrite nth_error_app2, Nat.sub_diag by lia. cbn [nth_error]. rewrite N.eqb_refl. cbv iota.
    apply IH; [now rewrite <- app_assoc|assumption].
Qed.
Lemma end_tag_run : forall nx q sr n a k fs v rf rt s, is_a_name n ->
  arun (mkC S_misc2 nx q sr ((n, a, k) :: fs) [] v rf rt) ([60; 47] ++ n ++ s) = arun (mkC S_etag1 nx q sr ((n, a, k) :: fs) n v rf rt) s.
Proof.
  intros nx q sr n a k fs v rf rt s H. destruct n as [|b n]; [destruct H|]. destruct H as [Hb Hn]. cbn [app].
  one. one. rewrite arun_cons. look. cbn [top_name c_frames nth_error length]. rewrite N.eqb_refl. cbv iota.
  apply (end_name_run nx q sr (b :: n) a k fs v rf rt n [b] s); [reflexivity|assumption].
Qed.
Lemma start_name_run : forall st', In st' [S_le0; S_le1; S_le2] -> forall J fs rt n s, is_a_name n ->
  arun (at_ st' J fs [] rt) (n ++ s) = arun (at_ S_elem0 J fs n rt) s.
Proof.
  intros st' H J fs rt n s Hn. destruct n as [|b n]; [destruct Hn|]. destruct Hn as [Hb Hn]. unjunk J. cbn [app].
  destruct H as [<-|[<-|[<-|[]]]]; one; now rewrite name_run_elem.
Qed.

Lemma comment_split : forall c, comment c -> exists t, c = [60; 33; 45; 45] ++ t ++ [45; 45; 62] /\ comment_text t.
Proof. intros c H. exact H. Qed.
Lemma comment_zone : forall st0 st1 nx q sr fs v rf rt c s, comment c ->
  (st0 = S_misc1 /\ st1 = S_misc1 \/ st0 = S_misc0 /\ st1 = S_misc1 \/ st0 = S_misc2 /\ st1 = S_misc2 \/ st0 = S_misc3 /\ st1 = S_misc3 \/ st0 = S_dt0 /\ st1 = S_dt0) ->
  arun (mkC st0 nx q sr fs [] v rf rt) (c ++ s) = arun (mkC st1 st1 q sr fs [] v rf rt) s.
Proof.
  intros st0 st1 nx q sr fs v rf rt c s (t & -> & Ht) Hst. rewrite <- !app_assoc.
  destruct Hst as [[-> ->]|[[-> ->]|[[-> ->]|[[-> ->]|[-> ->]]]]]; cbn [app]; one; one; one; one; exact (comment_run _ q sr fs [] v rf rt t s Ht).
Qed.
Lemma instruction_zone : forall st0 st1 nx q sr fs v rf rt p s, instruction p ->
  (st0 = S_misc1 /\ st1 = S_misc1 \/ st0 = S_misc0 /\ st1 = S_misc1 \/ st0 = S_misc2 /\ st1 = S_misc2 \/ st0 = S_misc3 /\ st1 = S_misc3 \/ st0 = S_dt0 /\ st1 = S_dt0) ->
  arun (mkC st0 nx q sr fs [] v rf rt) (p ++ s) = arun (mkC st1 st1 q sr fs [] v rf rt) s.
Proof.
  intros st0 st1 nx q sr fs v rf rt p s Hp Hst. destruct (instruction_split p Hp) as (b & n & e & -> & Ht & He). rewrite <- !app_assoc.
  destruct Hst as [[-> ->]|[[-> ->]|[[-> ->]|[[-> ->]|[-> ->]]]]]; cbn [app]; one; one;
    first [exact (instruction_run _ q sr fs v rf rt b n e s Ht He)|exact (instruction_run_x _ q sr fs v rf rt b n e s Ht He)].
Qed.

Scheme element_min := Minimality for is_element Sort Prop with content_min := Minimality for is_content Sort Prop.
Combined Scheme element_content_min from element_min, content_min.

Lemma content_run :
  (forall e t, is_element e t -> forall J n a k fs rt, exists J', forall s,
     arun (at_ S_misc2 J ((n, a, k) :: fs) [] rt) (e ++ s) = arun (at_ S_misc2 J' ((n, a, k ++ [Sub t]) :: fs) [] rt) s) /\
  (forall k c k', is_content k c k' -> forall J n a fs rt, exists J', forall s,
     arun (at_ S_misc2 J ((n, a, k) :: fs) [] rt) (c ++ s) = arun (at_ S_misc2 J' ((n, a, k') :: fs) [] rt) s).
Proof.
  apply element_content_min.
  - intros n s a (as_ & w & -> & Hn & Ha & Hw) J n0 a0 k fs rt.
    destruct (start_run as_ a w 47 Ha Hw ltac:(auto) J n ((n0, a0, k) :: fs) rt) as (J' & E). exists J'. intros s.
    rewrite <- !app_assoc. transitivity (arun (at_ S_elem0 J ((n0, a0, k) :: fs) n rt) (as_ ++ w ++ [47] ++ [62] ++ s)).
    { rewrite <- (start_name_run S_le2 ltac:(cbn; auto)) by assumption. unjunk J. cbn [app]. one. reflexivity. }
    rewrite E. unjunk J'. cbn [app tag_end]. one. reflexivity.
  - intros n s a c k w (as_ & w0 & -> & Hn & Ha & Hw0) _ IH Hw J n0 a0 k0 fs rt.
    destruct (start_run as_ a w0 62 Ha Hw0 ltac:(auto) J n ((n0, a0, k0) :: fs) rt) as (J1 & E1).
    destruct (IH J1 n a ((n0, a0, k0) :: fs) rt) as (J2 & E2). exists J2. intros s.
    rewrite <- !app_assoc. transitivity (arun (at_ S_elem0 J ((n0, a0, k0) :: fs) n rt) (as_ ++ w0 ++ [62] ++ c ++ [60; 47] ++ n ++ w ++ [62] ++ s)).
    { rewrite <- (start_name_run S_le2 ltac:(cbn; auto)) by assumption. unjunk J. cbn [app]. one. reflexivity. }
    rewrite E1. cbn [tag_end]. change (62 =? 62) with true. cbv iota. rewrite E2. unjunk J2. rewrite end_tag_run by assumption.
    destruct Hw as [|b w Hb Hw].
    + cbn [app]. rewrite arun_cons. look. cbn [top_name c_frames]. rewrite Nat.eqb_refl. reflexivity.
    + cbn [app]. rewrite arun_cons. look. cbn [top_name c_frames]. rewrite Nat.eqb_refl. unfold close. cbv beta iota delta [c_frames]. bytes_red.
      stay. one. reflexivity.
  - intros k J n a fs rt. exists J. reflexivity.
  - intros k b s k' H1 H2 _ IH J n a fs rt. destruct (IH J n a fs rt) as (J' & E). exists J'. intros s'. rewrite <- E.
    unjunk J. cbn [app]. one. cbn [add_top app]. now rewrite add_unit_one.
  - intros k r c s k' Hr _ IH J n a fs rt. destruct (reference_value r c Hr) as (Ev & Hb). destruct Hr as (_ & Hl & _).
    destruct (IH (mkJ (j_nx J) (j_q J) (j_sr J) (j_v J) r) n a fs rt) as (J' & E). exists J'. intros s'. rewrite <- E.
    unjunk J. rewrite <- !app_assoc. cbn [app]. one. rewrite ref_run_text by (assumption || (cbn; lia)). cbn [app].
    one. rewrite Ev. cbn [add_top app]. now rewrite utf8_unit.
  - intros k c s k' Hc _ IH J n a fs rt.
    destruct (IH (mkJ S_cd0 (j_q J) [0] (j_v J) (j_rf J)) n a fs rt) as (J' & E). exists J'. intros s'. rewrite <- E.
    unjunk J. rewrite <- !app_assoc. cbn [app]. do 9 one. exact (cdata_run _ _ _ n a fs _ _ rt c k (s ++ s') Hc).
  - intros k c s k' Hc _ IH J n a fs rt.
    destruct (IH (mkJ S_misc2 (j_q J) (j_sr J) (j_v J) (j_rf J)) n a fs rt) as (J' & E). exists J'. intros s'. rewrite <- E.
    unjunk J. rewrite <- app_assoc. apply comment_zone; [assumption|tauto].
  - intros k c s k' Hc _ IH J n a fs rt.
    destruct (IH (mkJ S_misc2 (j_q J) (j_sr J) (j_v J) (j_rf J)) n a fs rt) as (J' & E). exists J'. intros s'. rewrite <- E.
    unjunk J. rewrite <- app_assoc. apply instruction_zone; [assumption|tauto].
  - intros k e t s k' _ IH1 _ IH2 J n a fs rt. destruct (IH1 J n a k fs rt) as (J1 & E1). destruct (IH2 J1 n a fs rt) as (J2 & E2).
    exists J2. intros s'. rewrite <- app_assoc, E1. apply E2.
Qed.

Lemma root_run : forall r t, is_root r t -> forall st0, st0 = S_misc0 \/ st0 = S_misc1 -> forall J, exists J', forall s,
  arun (at_ st0 J [] [] None) (r ++ s) = arun (at_ S_misc3 J' [] [] (Some t)) s.
Proof.
  intros r t H st0 Hst J. destruct H as [n s a Hs|n s a c k m Hs Hc Hm].
  - destruct Hs as (as_ & w & -> & Hn & Ha & Hw).
    destruct (start_run as_ a w 47 Ha Hw ltac:(auto) J n [] None) as (J' & E). exists J'. intros s.
    rewrite <- !app_assoc. transitivity (arun (at_ S_elem0 J [] n None) (as_ ++ w ++ [47] ++ [62] ++ s)).
    { destruct Hst as [->| ->]; [rewrite <- (start_name_run S_le0 ltac:(cbn; auto)) by assumption|rewrite <- (start_name_run S_le1 ltac:(cbn; auto)) by assumption];
        unjunk J; cbn [app]; one; reflexivity. }
    rewrite E. unjunk J'. cbn [app tag_end]. one. reflexivity.
  - destruct Hs as (as_ & w0 & -> & Hn & Ha & Hw0).
    destruct (start_run as_ a w0 62 Ha Hw0 ltac:(auto) J n [] None) as (J1 & E1).
    destruct (proj2 content_run [] c k Hc J1 n a [] None) as (J2 & E2). exists J2. intros s.
    rewrite <- !app_assoc. transitivity (arun (at_ S_elem0 J [] n None) (as_ ++ w0 ++ [62] ++ c ++ [60; 47] ++ n ++ m ++ s)).
    { destruct Hst as [->| ->]; [rewrite <- (start_name_run S_le0 ltac:(cbn; auto)) by assumption|rewrite <- (start_name_run S_le1 ltac:(cbn; auto)) by assumption];
        unjunk J; cbn [app]; one; reflexivity. }
    rewrite E1. cbn [tag_end]. change (62 =? 62) with true. cbv iota. rewrite E2. unjunk J2. rewrite end_tag_run by assumption.
    destruct Hm as [->|(b & -> & Hb)].
    + cbn [app]. rewrite arun_cons. look. cbn [top_name c_frames]. rewrite Nat.eqb_refl. reflexivity.
    + cbn [app]. rewrite arun_cons. look. cbn [top_name c_frames]. rewrite Nat.eqb_refl. reflexivity.
Qed.

(** Document types. *)
Lemma quoted_run : forall nx q sr fs v rf rt t s, ~ In q t ->
  arun (mkC S_dt1 nx q sr fs [] v rf rt) (t ++ [q] ++ s) = arun (mkC nx nx q sr fs [] v rf rt) s.
Proof.
  intros nx q sr fs v rf rt t s H. induction t as [|b t IH].
  - cbn [app]. rewrite arun_cons. unfold astep. cbv beta iota delta [table c_st c_quote]. rewrite N.eqb_refl. reflexivity.
  - cbn [app In] in *. rewrite arun_cons. unfold astep. cbv beta iota delta [table c_st c_quote].
    destruct (N.eqb_spec q b); [subst; tauto|]. cbn [app] in IH. apply IH. tauto.
Qed.
Lemma declaration_run : forall d, declaration d -> forall J rt, exists J', forall s,
  arun (at_ S_dt4 J [] [] rt) (d ++ [62] ++ s) = arun (at_ S_dt0 J' [] [] rt) s.
Proof.
  intros d H. induction H as [|b s H1 H2 H3 H IH|q t s Hq Ht H IH]; intros J rt.
  - exists J. intros s. unjunk J. cbn [app]. one. reflexivity.
  - destruct (IH J rt) as (J' & E). exists J'. intros s'. rewrite <- E. unjunk J. cbn [app]. one. reflexivity.
  - destruct (IH (mkJ S_dt4 q (j_sr J) (j_v J) (j_rf J)) rt) as (J' & E). exists J'. intros s'. rewrite <- E. unjunk J.
    rewrite <- !app_assoc. cbn [app]. one. exact (quoted_run S_dt4 q _ [] _ _ rt t (s ++ 62 :: s') Ht).
Qed.
Lemma type_run : forall d, type_text d -> forall J rt, exists J', forall s,
  arun (at_ S_dt0 J [] [] rt) (d ++ s) = arun (at_ S_dt0 J' [] [] rt) s.
Proof.
  intros d H. induction H as [|b s H1 H2 H3 H4 H IH|q t s Hq Ht H IH|c s Hc H IH|p s Hp H IH|b d s Hb Hd H IH]; intros J rt.
  - exists J. reflexivity.
  - destruct (IH J rt) as (J' & E). exists J'. intros s'. rewrite <- E. unjunk J. cbn [app]. one. reflexivity.
  - destruct (IH (mkJ S_dt0 q (j_sr J) (j_v J) (j_rf J)) rt) as (J' & E). exists J'. intros s'. rewrite <- E. unjunk J.
    rewrite <- !app_assoc. cbn [app]. one. exact (quoted_run S_dt0 q _ [] _ _ rt t (s ++ s') Ht).
  - destruct (IH (mkJ S_dt0 (j_q J) (j_sr J) (j_v J) (j_rf J)) rt) as (J' & E). exists J'. intros s'. rewrite <- E. unjunk J.
    rewrite <- app_assoc. apply comment_zone; [assumption|tauto].
  - destruct (IH (mkJ S_dt0 (j_q J) (j_sr J) (j_v J) (j_rf J)) rt) as (J' & E). exists J'. intros s'. rewrite <- E. unjunk J.
    rewrite <- app_assoc. apply instruction_zone; [assumption|tauto].
  - destruct (declaration_run d Hd J rt) as (J1 & E1). destruct (IH J1 rt) as (J2 & E2). exists J2. intros s'. rewrite <- E2.
    rewrite <- !app_assoc. rewrite <- E1. unjunk J. cbn [app]. one. one. one. reflexivity.
Qed.
Lemma doctype_run : forall st0 d, st0 = S_misc0 \/ st0 = S_misc1 -> doctype d -> forall J rt, exists J', forall s,
  arun (at_ st0 J [] [] rt) (d ++ s) = arun (at_ S_misc1 J' [] [] rt) s.
Proof.
  intros st0 d Hst (t & -> & Ht) J rt. destruct (type_run t Ht (mkJ S_dt0 (j_q J) [0] (j_v J) (j_rf J)) rt) as (J' & E). exists J'. intros s.
  rewrite <- !app_assoc. transitivity (arun (at_ S_dt0 (mkJ S_dt0 (j_q J) [0] (j_v J) (j_rf J)) [] [] rt) (t ++ [62] ++ s)).
  - unjunk J. destruct Hst as [->| ->]; cbn [app]; do 9 one; reflexivity.
  - rewrite E. unjunk J'. cbn [app]. one. reflexivity.
Qed.

Lemma misc1_run : forall m, misc true m -> forall J, exists J', forall s, arun (at_ S_misc1 J [] [] None) (m ++ s) = arun (at_ S_misc1 J' [] [] None) s.
Proof.
  intros m H. induction H as [|b s Hb H IH|c s Hc H IH|p s Hp H IH|d s _ Hd H IH]; intros J.
  - exists J. reflexivity.
  - destruct (IH J) as (J' & E). exists J'. intros s'. rewrite <- E. unjunk J. cbn [app]. one. reflexivity.
  - destruct (IH (mkJ S_misc1 (j_q J) (j_sr J) (j_v J) (j_rf J))) as (J' & E). exists J'. intros s'. rewrite <- E. unjunk J.
    rewrite <- app_assoc. apply comment_zone; [assumption|tauto].
  - destruct (IH (mkJ S_misc1 (j_q J) (j_sr J) (j_v J) (j_rf J))) as (J' & E). exists J'. intros s'. rewrite <- E. unjunk J.
    rewrite <- app_assoc. apply instruction_zone; [assumption|tauto].
  - destruct (doctype_run S_misc1 d ltac:(auto) Hd J None) as (J1 & E1). destruct (IH J1) as (J2 & E2). exists J2. intros s'.
    rewrite <- app_assoc, E1. apply E2.
Qed.
Lemma misc0_run : forall m, misc true m -> forall J, exists st' J', (st' = S_misc0 \/ st' = S_misc1) /\
  forall s, arun (at_ S_misc0 J [] [] None) (m ++ s) = arun (at_ st' J' [] [] None) s.
Proof.
  intros m H. induction H as [|b s Hb H IH|c s Hc H _|p s Hp H _|d s _ Hd H _]; intros J.
  - exists S_misc0, J. auto.
  - destruct (IH J) as (st' & J' & Hst & E). exists st', J'. split; [assumption|]. intros s'. rewrite <- E. unjunk J. cbn [app]. one. reflexivity.
  - destruct (misc1_run s H (mkJ S_misc1 (j_q J) (j_sr J) (j_v J) (j_rf J))) as (J' & E). exists S_misc1, J'. split; [auto|]. intros s'. rewrite <- E. unjunk J.
    rewrite <- app_assoc. apply comment_zone; [assumption|tauto].
  - destruct (misc1_run s H (mkJ S_misc1 (j_q J) (j_sr J) (j_v J) (j_rf J))) as (J' & E). exists S_misc1, J'. split; [auto|]. intros s'. rewrite <- E. unjunk J.
    rewrite <- app_assoc. apply instruction_zone; [assumption|tauto].
  - destruct (doctype_run S_misc0 d ltac:(auto) Hd J None) as (J1 & E1). destruct (misc1_run s H J1) as (J2 & E2). exists S_misc1, J2. split; [auto|].
    intros s'. rewrite <- app_assoc, E1. apply E2.
Qed.
Lemma misc3_run : forall m, misc false m -> forall J t, arun (at_ S_misc3 J [] [] (Some t)) m = Some t.
Proof.
  intros m H. induction H as [|b s Hb H IH|c s Hc H IH|p s Hp H IH|d s Hf]; intros J t.
  - reflexivity.
  - etransitivity; [|apply (IH J t)]. unjunk J. one. reflexivity.
  - etransitivity; [|apply (IH (mkJ S_misc3 (j_q J) (j_sr J) (j_v J) (j_rf J)) t)]. unjunk J. apply comment_zone; [assumption|tauto].
  - etransitivity; [|apply (IH (mkJ S_misc3 (j_q J) (j_sr J) (j_v J) (j_rf J)) t)]. unjunk J. apply instruction_zone; [assumption|tauto].
  - discriminate.
Qed.

(** The XML declaration. *)
Lemma equals_run : forall st1 st2, (st1 = S_ver0 /\ st2 = S_ver1 \/ st1 = S_enc0 /\ st2 = S_enc1 \/ st1 = S_std0 /\ st2 = S_std1) ->
  forall nx q sr v rf s eq c, equals eq -> quote_mark c ->
  arun (mkC st1 nx q sr [] [] v rf None) (eq ++ [c] ++ s) = arun (mkC st2 nx q sr [] [] v rf None) ([c] ++ s).
Proof.
  intros st1 st2 Hst nx q sr v rf s eq c (w1 & w2 & -> & H1 & H2) Hc. rewrite <- !app_assoc.
  destruct Hst as [[-> ->]|[[-> ->]|[-> ->]]]; stay; cbn [app]; one; stay; reflexivity.
Qed.
Lemma digits_run : forall nx q sr v rf ds s, Forall digit ds -> arun (mkC S_ver3 nx q sr [] [] v rf None) (ds ++ s) = arun (mkC S_ver3 nx q sr [] [] v rf None) s.
Proof.
  intros nx q sr v rf ds s H. apply (stay_run digit); [assumption|]. intros b Hb. unfold astep. cbv beta iota delta [table c_st c_quote].
  now rewrite digit_num.
Qed.
Lemma encname_char : forall b, encoding_char b -> is_encname b = true.
Proof.
  intros b H. unfold is_encname. assert (b < 256) by (cls_unfold; lia). rewrite alpha_form, num_form by assumption. cls_unfold; lia.
Qed.
Lemma encoding_run : forall nx q sr v rf enc st0, encoding_decl enc -> st0 = S_xmldecl4 -> exists nx' q' sr', forall s,
  arun (mkC st0 nx q sr [] [] v rf None) (enc ++ s) = arun (mkC S_xmldecl6 nx' q' sr' [] [] v rf None) s.
Proof.
  intros nx q sr v rf enc st0 (w & eq & c & b & e & -> & Hw & Hne & Heq & Hc & Hb & He) ->.
  exists S_enc0, c, [0]. intros s. rewrite <- !app_assoc.
  destruct w as [|x w]; [congruence|]. inversion Hw as [|? ? Hx Hw']; subst. cbn [app]. one. stay. do 8 one.
  change (eq ++ c :: b :: e ++ c :: s) with (eq ++ [c] ++ (b :: e ++ c :: s)).
  rewrite (equals_run S_enc0 S_enc1) by tauto. cbn [app]. one.
  rewrite arun_cons. unfold astep. cbv beta iota delta [table c_st c_quote].
  replace (is_alpha b) with true by (symmetry; rewrite alpha_form; cls_unfold; lia). bytes_red.
  etransitivity; [apply (stay_run encoding_char); [assumption|]|].
  { intros y Hy. unfold astep. cbv beta iota delta [table c_st c_quote]. now rewrite encname_char. }
  destruct Hc as [->| ->]; one; reflexivity.
Qed.
Lemma standalone_run : forall nx q sr v rf a st0, standalone_decl a -> st0 = S_xmldecl4 \/ st0 = S_xmldecl6 -> exists nx' q' sr', forall s,
  arun (mkC st0 nx q sr [] [] v rf None) (a ++ s) = arun (mkC S_xmldecl8 nx' q' sr' [] [] v rf None) s.
Proof.
  intros nx q sr v rf a st0 (w & eq & c & y & -> & Hw & Hne & Heq & Hc & Hy) Hst.
  exists S_std3, c, [0]. intros s. rewrite <- !app_assoc.
  destruct w as [|x w]; [congruence|]. inversion Hw as [|? ? Hx Hw']; subst.
  assert (E : forall nx q sr, arun (mkC S_std0 nx q sr [] [] v rf None) (eq ++ [c] ++ y ++ [c] ++ s) = arun (mkC S_xmldecl8 S_std3 c [0] [] [] v rf None) s).
  { intros. rewrite (equals_run S_std0 S_std1) by tauto. cbn [app]. one. destruct Hy as [->| ->]; cbn [app]; destruct Hc as [->| ->]; repeat one; reflexivity. }
  destruct Hst as [->| ->]; cbn [app]; one; stay; do 10 one; apply E.
Qed.
Lemma declaration_end : forall nx q sr v rf w s st0, In st0 [S_xmldecl4; S_xmldecl6; S_xmldecl8] -> white w ->
  arun (mkC st0 nx q sr [] [] v rf None) (w ++ [63; 62] ++ s) = arun (mkC S_misc1 nx q sr [] [] v rf None) s.
Proof.
  intros nx q sr v rf w s st0 Hst Hw. destruct Hw as [|b w Hb Hw].
  - cbn [app]. destruct Hst as [<-|[<-|[<-|[]]]]; one; one; reflexivity.
  - destruct Hst as [<-|[<-|[<-|[]]]]; cbn [app]; one; stay; one; one; reflexivity.
Qed.
Lemma xml_run : forall d, xml_declaration d -> forall st0, st0 = S_misc0 -> forall J, exists J', forall s,
  arun (at_ st0 J [] [] None) (d ++ s) = arun (at_ S_misc1 J' [] [] None) s.
Proof.
  intros d (w & eq & c & ds & enc & al & w' & -> & Hw & Hne & Heq & Hc & Hds & Hdne & Henc & Hal & Hw') st0 -> J.
  assert (G : forall nx q sr v rf, exists st' nx' q' sr', In st' [S_xmldecl4; S_xmldecl6; S_xmldecl8] /\ forall s,
    arun (mkC S_xmldecl4 nx q sr [] [] v rf None) (enc ++ al ++ s) = arun (mkC st' nx' q' sr' [] [] v rf None) s).
  { intros nx q sr v rf.
    assert (G1 : exists st' nx' q' sr', (st' = S_xmldecl4 \/ st' = S_xmldecl6) /\ forall s,
      arun (mkC S_xmldecl4 nx q sr [] [] v rf None) (enc ++ s) = arun (mkC st' nx' q' sr' [] [] v rf None) s).
    { destruct Henc as [->|Henc].
      - exists S_xmldecl4, nx, q, sr. auto.
      - destruct (encoding_run nx q sr v rf enc S_xmldecl4 Henc eq_refl) as (nx' & q' & sr' & E). exists S_xmldecl6, nx', q', sr'. auto. }
    destruct G1 as (st' & nx' & q' & sr' & Hst & E1). destruct Hal as [->|Hal].
    - exists st', nx', q', sr'. split; [destruct Hst as [->| ->]; cbn; auto|]. intros s. apply E1.
    - destruct (standalone_run nx' q' sr' v rf al st' Hal Hst) as (nx2 & q2 & sr2 & E2). exists S_xmldecl8, nx2, q2, sr2. split; [cbn; auto|].
      intros s. rewrite E1. apply E2. }
  destruct ds as [|d0 ds]; [congruence|]. inversion Hds as [|? ? Hd0 Hds']; subst.
  destruct w as [|x w]; [congruence|]. inversion Hw as [|? ? Hx Hwt]; subst.
  destruct (G S_ver2 c [0] (j_v J) (j_rf J)) as (st' & nx' & q' & sr' & Hst & E). clear G.
  exists (mkJ nx' q' sr' (j_v J) (j_rf J)). intros s. rewrite <- !app_assoc. unjunk J. cbn [app XML_Forward.j_v XML_Forward.j_rf] in *.
  do 6 one. stay. do 7 one.
  match goal with |- arun _ (eq ++ c :: ?l) = _ => change (eq ++ c :: l) with (eq ++ [c] ++ l) end.
  rewrite (equals_run S_ver0 S_ver1) by tauto. cbn [app]. one. one. one.
  rewrite arun_cons. unfold astep. cbv beta iota delta [table c_st c_quote]. rewrite digit_num by assumption. bytes_red.
  rewrite digits_run by assumption.
  assert (E' : arun (mkC S_ver3 S_ver2 c [0] [] [] j_v j_rf None) (c :: enc ++ al ++ w' ++ 63 :: 62 :: s) =
    arun (mkC S_xmldecl4 S_ver2 c [0] [] [] j_v j_rf None) (enc ++ al ++ w' ++ 63 :: 62 :: s)) by (destruct Hc as [->| ->]; one; reflexivity).
  rewrite E', E. apply declaration_end; assumption.
Qed.

Theorem document_accepted : forall s t, is_document s t -> arun start s = Some t.
Proof.
  intros s t (bom & w & decl & m & r & m' & -> & Hb & Hw & Hd & Hm & Hr & Hm').
  assert (G0 : forall J, arun (at_ S_misc0 J [] [] None) (w ++ decl ++ m ++ r ++ m') = Some t).
  { intros J. transitivity (arun (at_ S_misc0 J [] [] None) (decl ++ m ++ r ++ m')). { unjunk J. stay. reflexivity. }
    assert (G1 : exists st' J', (st' = S_misc0 \/ st' = S_misc1) /\ forall s, arun (at_ S_misc0 J [] [] None) (decl ++ m ++ s) = arun (at_ st' J' [] [] None) s).
    { destruct Hd as [->|Hd].
      - exact (misc0_run m Hm J).
      - destruct (xml_run decl Hd S_misc0 eq_refl J) as (J1 & E1). destruct (misc1_run m Hm J1) as (J2 & E2). exists S_misc1, J2. split; [auto|].
        intros s. rewrite E1. apply E2. }
    destruct G1 as (st' & J' & Hst & E). etransitivity; [exact (E (r ++ m'))|].
    destruct (root_run r t Hr st' Hst J') as (J2 & E2). rewrite E2. now apply misc3_run. }
  destruct Hb as [->| ->].
  2: { unfold start. cbn [app]. one. one. one. exact (G0 (mkJ S_misc0 0 [0] [] [])). }
  cbn [app].
  assert (G : forall b s, b <> 239 -> arun (mkC S_misc0 S_string 0 [] [] [] [] [] None) (b :: s) = Some t -> arun start (b :: s) = Some t).
  { intros b s Hne H. unfold start. rewrite arun_cons in H |- *. revert H. unfold astep. cbv beta iota delta [table c_st c_quote].
    replace (b =? 239) with false by lia. cbv iota. destruct (is_sp b); [|destruct (b =? 60); auto]. intros H. exact H. }
  specialize (G0 (mkJ S_string 0 [] [] [])). unfold at_ in G0. cbn [j_nx j_q j_sr j_v j_rf] in G0.
  destruct (w ++ decl ++ m ++ r ++ m') as [|b s]; [discriminate|]. apply G; [|assumption].
  intros ->. revert G0. rewrite arun_cons. unfold astep. cbv beta iota delta [table c_st c_quote]. discriminate.
Qed.
