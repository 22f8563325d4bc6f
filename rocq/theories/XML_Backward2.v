(** What the machine accepts is a document: elements, document types, declarations. *)
Require Import Coq.ZArith.ZArith Coq.NArith.NArith Coq.Lists.List Coq.Bool.Bool Coq.micromega.Lia Coq.micromega.ZifyBool Coq.micromega.ZifyN.
Require Import Verif.Base Verif.XML_Model Verif.XML_Spec Verif.XML_Machine Verif.XML_Forward Verif.XML_Forward2 Verif.XML_Backward.
Import ListNotations.
Local Open Scope N_scope.

Ltac uj J H := let nx := fresh "nx" in let q := fresh "q" in let sr := fresh "sr" in let v := fresh "v" in let rf := fresh "rf" in
  destruct J as [nx q sr v rf]; unfold at_ in H; cbn [XML_Forward.j_nx XML_Forward.j_q XML_Forward.j_sr XML_Forward.j_v XML_Forward.j_rf] in H.
Ltac nexts H b := match type of H with arun _ ?s = _ => let s' := fresh "s" in destruct s as [|b s']; [discriminate H|] end; next_at H.
Ltac spc := repeat match goal with E : is_sp _ = true |- _ => apply sp_space in E end.
Lemma white_one : forall b, space b -> white [b].
Proof. intros b H. apply Forall_cons; [assumption|apply Forall_nil]. Qed.
Lemma white_cons : forall b w, space b -> white w -> white (b :: w).
Proof. intros b w H. apply Forall_cons. assumption. Qed.
Lemma white_nil : white [].
Proof. apply Forall_nil. Qed.

(** CDATA sections. *)
Lemma cdata_nil : cdata_text [].
Proof. intros a b E. apply (f_equal (@length N)) in E. rewrite !app_length in E. cbn [length app] in E. lia. Qed.
Lemma cdata_cons : forall b c, cdata_text c -> (b = 93 -> forall r, c ++ [93; 93] <> 93 :: 62 :: r) -> cdata_text (b :: c).
Proof.
  intros b c Hc Hb [|x a] d E; cbn [app] in E; injection E as E1 E2.
  - exact (Hb E1 _ E2).
  - exact (Hc a d E2).
Qed.
Lemma cdata_prev : forall k p p' c, match c with [] => True | b :: _ => b = 93 end -> add_cdata k p c = add_cdata k p' c.
Proof. intros k p p' [|b c] H; [reflexivity|]. subst b. cbn [add_cdata]. now rewrite (add_kept (p =? 93) (p' =? 93) k 93) by reflexivity. Qed.
Lemma cdata_back : forall nx q sr n a fs v rf rt t m s, (length s <= m)%nat ->
  (forall prev k, prev <> 93 -> arun (mkC S_cd0 nx q sr ((n, a, k) :: fs) [] v rf rt) s = Some t ->
    exists c s', s = c ++ [93; 93; 62] ++ s' /\ cdata_text c /\
      arun (mkC S_misc2 nx q sr ((n, a, add_cdata k prev c) :: fs) [] v rf rt) s' = Some t) /\
  (forall prev k, arun (mkC S_cd2 nx q sr ((n, a, k) :: fs) [] v rf rt) s = Some t ->
    exists c s', 93 :: 93 :: s = c ++ [93; 93; 62] ++ s' /\ cdata_text c /\
      arun (mkC S_misc2 nx q sr ((n, a, add_cdata k prev c) :: fs) [] v rf rt) s' = Some t).
Proof.
  intros nx q sr n a fs v rf rt t m. induction m as [|m IH]; intros s Hm; [destruct s; [split; intros; discriminate|cbn in Hm; lia]|]. split.
  - intros prev k Hp H. next H b s; cbn [length] in Hm.
    + next H b s; cbn [length] in Hm.
      * exact (proj2 (IH s ltac:(lia)) prev k H).
      * cbn [add_top app add_unit fold_left] in H. change (blank 93) with false in H. cbv iota in H.
        destruct (proj1 (IH s ltac:(lia)) b _ ltac:(lia) H) as (c & s' & -> & Hc & H').
        exists (93 :: b :: c), s'. split; [reflexivity|]. split.
        { apply cdata_cons; [apply cdata_cons; [assumption|lia]|]. intros _ r E. cbn [app] in E. injection E as -> _. lia. }
        cbn [add_cdata]. change (93 =? 93) with true. rewrite (add_kept (prev =? 93) true _ 93) by reflexivity. exact H'.
    + cbn [add_top app] in H. rewrite add_unit_one in H. destruct (proj1 (IH s ltac:(lia)) b _ ltac:(lia) H) as (c & s' & -> & Hc & H').
      exists (b :: c), s'. split; [reflexivity|]. split; [apply cdata_cons; [assumption|lia]|]. cbn [add_cdata]. now replace (prev =? 93) with false by lia.
  - intros prev k H. next H b s; cbn [length] in Hm.
    + cbn [add_top app] in H. rewrite add_unit_one in H. destruct (proj2 (IH s ltac:(lia)) 93 _ H) as (c & s' & E & Hc & H').
      exists (93 :: c), s'. split; [cbn [app] in *; now rewrite E|]. split.
      * apply cdata_cons; [assumption|]. intros _ r E'.
        destruct c as [|x [|y c]]; cbn [app] in *; [discriminate| |]; injection E' as E1 E2; [discriminate|].
        injection E as _ E3 _. congruence.
      * cbn [add_cdata]. rewrite (add_kept (prev =? 93) false _ 93) by reflexivity. exact H'.
    + exists [], s. split; [reflexivity|]. split; [apply cdata_nil|exact H].
    + cbn [add_top app add_unit fold_left] in H. change (blank 93) with false in H. cbv iota in H.
      destruct (proj1 (IH s ltac:(lia)) b _ ltac:(lia) H) as (c & s' & -> & Hc & H').
      exists (93 :: 93 :: b :: c), s'. split; [reflexivity|]. split.
      { apply cdata_cons; [apply cdata_cons; [apply cdata_cons; [assumption|lia]|]|]; intros _ r E; cbn [app] in E; injection E; lia. }
      cbn [add_cdata]. change (93 =? 93) with true. rewrite (add_kept (prev =? 93) true k 93) by reflexivity. exact H'.
Qed.

(** End tags. *)
Lemma end_name_back : forall nx q sr n a k fs v rf rt t s done rest, n = done ++ rest ->
  arun (mkC S_etag1 nx q sr ((n, a, k) :: fs) done v rf rt) s = Some t ->
  exists b st c' s', s = rest ++ [b] ++ s' /\ close (mkC st nx q sr ((n, a, k) :: fs) n v rf rt) = Some c' /\ arun c' s' = Some t /\
    (space b /\ st = S_etag2 \/ b = 62 /\ st = S_misc2).
Proof.
  intros nx q sr n a k fs v rf rt t s. induction s as [|b s IH]; intros done rest En H; [discriminate H|]. next_at H.
  - cbn [top_name c_frames] in H. subst n. rewrite nth_error_app2, Nat.sub_diag in H by lia. destruct rest as [|x rest]; [discriminate H|].
    cbn [nth_error] in H. destruct (x =? b) eqn:E; [|discriminate H]. apply N.eqb_eq in E. subst x.
    destruct (IH (done ++ [b]) rest ltac:(now rewrite <- app_assoc) H) as (b' & st & c' & s' & -> & H1 & H2 & H3).
    exists b', st, c', s'. auto.
  - cbn [top_name c_frames] in H. destruct (Nat.eqb_spec (length done) (length n)) as [El|]; [|discriminate H].
    assert (rest = []) by (rewrite En, app_length in El; destruct rest; [reflexivity|cbn in El; lia]). subst rest. rewrite app_nil_r in En. subst done.
    match type of H with match close ?c with _ => _ end = _ => destruct (close c) as [c'|] eqn:Ec; [|discriminate H] end.
    exists b, S_etag2, c', s. spc. repeat split; auto.
  - cbn [top_name c_frames] in H. destruct (Nat.eqb_spec (length done) (length n)) as [El|]; [|discriminate H].
    assert (rest = []) by (rewrite En, app_length in El; destruct rest; [reflexivity|cbn in El; lia]). subst rest. rewrite app_nil_r in En. subst done.
    match type of H with match close ?c with _ => _ end = _ => destruct (close c) as [c'|] eqn:Ec; [|discriminate H] end.
    exists 62, S_misc2, c', s. repeat split; auto.
Qed.

(** Content to the end tag, and what is after it. *)
Definition closes (n : bytes) (a : list (bytes * bytes)) (k : list item) (fs : list frame) (rt : option tree) (t : tree) (s : bytes) : Prop :=
  exists c k' w J s', s = c ++ [60; 47] ++ n ++ w ++ s' /\ is_content k c k' /\
    match fs with
    | [] => end_mark w /\ arun (at_ S_misc3 J [] [] (Some (Elem n a k'))) s' = Some t
    | (n1, a1, k1) :: fs' => (exists w', w = w' ++ [62] /\ white w') /\
      arun (at_ S_misc2 J ((n1, a1, k1 ++ [Sub (Elem n a k')]) :: fs') [] rt) s' = Some t
    end.
Lemma closes_more : forall n a k k2 fs rt t p s, (forall c k', is_content k2 c k' -> is_content k (p ++ c) k') ->
  closes n a k2 fs rt t s -> closes n a k fs rt t (p ++ s).
Proof.
  intros n a k k2 fs rt t p s Hp (c & k' & w & J & s' & -> & Hc & H). exists (p ++ c), k', w, J, s'.
  split; [now rewrite <- app_assoc|]. split; [now apply Hp|exact H].
Qed.
Lemma after_end : forall nx q sr n a k fs v rf rt t s, arun (mkC S_etag0 nx q sr ((n, a, k) :: fs) [] v rf rt) s = Some t -> closes n a k fs rt t ([60; 47] ++ s).
Proof.
  intros nx q sr n a k fs v rf rt t s H. next H b s. cbn [top_name c_frames length] in H.
  destruct n as [|b' n]; [discriminate H|]. cbn [nth_error] in H. destruct (b' =? b) eqn:E; [|discriminate H]. apply N.eqb_eq in E. subst b'.
  destruct (end_name_back _ _ _ _ _ _ _ _ _ _ _ _ [b] n eq_refl H) as (m & st & c' & s' & -> & Hc & H' & Hm).
  unfold close in Hc. cbv beta iota delta [c_frames] in Hc. destruct fs as [|[[n1 a1] k1] fs].
  - injection Hc as <-. exists [], k, [m], (mkJ nx q sr v rf), s'. split; [reflexivity|]. split; [constructor|]. split; [|exact H'].
    destruct Hm as [[Hm _]|[Hm _]]; [right; eauto|left; now subst].
  - injection Hc as <-. destruct Hm as [[Hm ->]|[-> ->]]; red_in H'.
    + spaces H' w Hw s0. next H' b0 s0.
      * exfalso. apply Hn. now apply sp_space.
      * exists [], k, ((m :: w) ++ [62]), (mkJ nx q sr v rf), s0. split; [cbn [app]; now rewrite <- app_assoc|]. split; [constructor|].
        split; [exists (m :: w); split; [reflexivity|now apply white_cons]|exact H'].
    + exists [], k, [62], (mkJ nx q sr v rf), s'. split; [reflexivity|]. split; [constructor|]. split; [exists []; split; [reflexivity|apply white_nil]|exact H'].
Qed.

Lemma content_back : forall t m s, (length s <= m)%nat -> ok s -> forall J n a k fs rt,
  arun (at_ S_misc2 J ((n, a, k) :: fs) [] rt) s = Some t -> closes n a k fs rt t s.
Proof.
  intros t m. induction m as [|m IH]; intros s Hm Hs J n a k fs rt H; [destruct s; [uj J H; discriminate H|cbn in Hm; lia]|].
  uj J H. next H b s; cbn [length] in Hm; apply ok_cons in Hs; destruct Hs as [Hb Hs].
  - next H b s; cbn [length] in Hm; apply ok_cons in Hs; destruct Hs as [Hb' Hs].
    + next H b s; cbn [length] in Hm; apply ok_cons in Hs; destruct Hs as [Hb'' Hs].
      * next H b s; cbn [length] in Hm; apply ok_cons in Hs; destruct Hs as [Hb3 Hs].
        destruct (comment_back _ _ _ _ _ _ _ _ _ _ H) as (c & s' & -> & Hc & H').
        rewrite !app_length in Hm. cbn [length] in Hm. apply ok_app in Hs. destruct Hs as [_ Hs]. apply ok_app in Hs. destruct Hs as [_ Hs].
        replace (60 :: 33 :: 45 :: 45 :: c ++ [45; 45; 62] ++ s') with (([60; 33; 45; 45] ++ c ++ [45; 45; 62]) ++ s') by (cbn [app]; now rewrite <- app_assoc).
        eapply closes_more; [intros; apply con_comment; [exists c; auto|eassumption]|].
        apply (IH s' ltac:(lia) Hs (mkJ _ _ _ _ _)) with (1 := H').
      * do 6 lit H. repeat (apply ok_cons in Hs; destruct Hs as [_ Hs]). cbn [length] in Hm.
        destruct (proj1 (cdata_back _ _ _ _ _ _ _ _ _ _ _ _ (le_n _)) 0 k ltac:(discriminate) H) as (c & s' & -> & Hc & H').
        rewrite !app_length in Hm. cbn [length] in Hm. apply ok_app in Hs. destruct Hs as [_ Hs]. apply ok_app in Hs. destruct Hs as [_ Hs].
        match goal with |- closes _ _ _ _ _ _ ?l => replace l with (([60; 33; 91; 67; 68; 65; 84; 65; 91] ++ c ++ [93; 93; 62]) ++ s') by (cbn [app]; now rewrite <- app_assoc) end.
        eapply closes_more; [intros c0 k' Hc0; rewrite <- !app_assoc; apply con_cdata; [assumption|exact Hc0]|].
        apply (IH s' ltac:(lia) Hs (mkJ _ _ _ _ _)) with (1 := H').
    + destruct (instruction_back _ _ _ _ _ _ _ _ _ H) as (p & s' & -> & Hp & H').
      rewrite app_length in Hm. apply ok_app in Hs. destruct Hs as [_ Hs].
      change (60 :: 63 :: p ++ s') with (([60; 63] ++ p) ++ s').
      eapply closes_more; [intros; apply con_instruction; eassumption|].
      apply (IH s' ltac:(lia) Hs (mkJ _ _ _ _ _)) with (1 := H').
    + exact (after_end _ _ _ _ _ _ _ _ _ _ _ _ H).
    + destruct (start_tag_back _ _ _ _ Hs (mkJ nx q sr v rf) [b] H) as (r & as_ & a' & w & c & J' & s' & -> & Hr & Ha & Hw & Hc & Hl & H').
      assert (Hst : start_tag (b :: r) ([60] ++ (b :: r) ++ as_ ++ w) a').
      { exists as_, w. split; [reflexivity|]. split; [split; [now apply start_name|assumption]|]. auto. }
      apply ok_app in Hs. destruct Hs as [_ Hs]. apply ok_app in Hs. destruct Hs as [_ Hs]. apply ok_app in Hs. destruct Hs as [_ Hs]. apply ok_app in Hs. destruct Hs as [_ Hs].
      cbn [app] in H'. destruct Hc as [->| ->].
      * change (tag_end 62) with S_misc2 in H'.
        destruct (IH s' ltac:(lia) Hs _ _ _ _ _ _ H') as (c & k' & w2 & J2 & s2 & -> & Hc & (w3 & -> & Hw3) & H2).
        match goal with |- closes _ _ _ _ _ _ ?l => replace l with ((([60] ++ (b :: r) ++ as_ ++ w) ++ [62] ++ c ++ [60; 47] ++ (b :: r) ++ w3 ++ [62]) ++ s2) by (repeat (rewrite <- !app_assoc; cbn [app]); reflexivity) end.
        eapply closes_more; [intros c0 k0 Hc0; apply con_element with (t := Elem (b :: r) a' k'); [now apply el_full|exact Hc0]|].
        apply (IH s2) with (3 := H2).
        -- repeat (rewrite ?app_length in Hl, Hm; cbn [length] in Hl, Hm). lia.
        -- do 4 (apply ok_app in Hs; destruct Hs as [_ Hs]). assumption.
      * change (tag_end 47) with S_elem3 in H'. uj J' H'. next H' b0 s'. unfold close in H'. cbv beta iota delta [c_frames] in H'. red_in H'.
        apply ok_cons in Hs. destruct Hs as [_ Hs]. cbn [length] in Hl.
        match goal with |- closes _ _ _ _ _ _ ?l => replace l with ((([60] ++ (b :: r) ++ as_ ++ w) ++ [47; 62]) ++ s') by (repeat (rewrite <- !app_assoc; cbn [app]); reflexivity) end.
        eapply closes_more; [intros c0 k0 Hc0; apply con_element with (t := Elem (b :: r) a' []); [now apply el_empty|exact Hc0]|].
        apply (IH s' ltac:(lia) Hs (mkJ _ _ _ _ _)) with (1 := H').
  - destruct (reference_back_text _ _ _ _ _ _ _ _ _ _ (Forall_nil _) (Forall_nil _) ltac:(cbn; lia) Hs H) as (r & c & s1 & -> & Hr & H1).
    cbn [app add_top] in Hr, H1. rewrite utf8_unit in H1. apply ok_app in Hs. destruct Hs as [_ Hs]. apply ok_cons in Hs. destruct Hs as [_ Hs].
    rewrite !app_length in Hm. cbn [length] in Hm.
    replace (38 :: r ++ [59] ++ s1) with (([38] ++ r ++ [59]) ++ s1) by (cbn [app]; now rewrite <- app_assoc).
    eapply closes_more; [intros c0 k' Hc0; rewrite <- !app_assoc; apply con_ref with (c := c); [assumption|exact Hc0]|].
    apply (IH s1 ltac:(lia) Hs (mkJ _ _ _ _ _)) with (1 := H1).
  - cbn [add_top app] in H. rewrite add_unit_one in H.
    change (b :: s) with ([b] ++ s).
    eapply closes_more; [intros c0 k' Hc0; apply con_char; [lia|lia|exact Hc0]|].
    apply (IH s ltac:(lia) Hs (mkJ _ _ _ _ _)) with (1 := H).
Qed.
Lemma root_back : forall J b s t, ok s -> name_start b -> arun (at_ S_elem0 J [] [b] None) s = Some t ->
  exists x s' tr J', s = x ++ s' /\ is_root ([60; b] ++ x) tr /\ arun (at_ S_misc3 J' [] [] (Some tr)) s' = Some t.
Proof.
  intros J b s t Hs Hb H. destruct (start_tag_back _ _ _ _ Hs J [b] H) as (r & as_ & a' & w & c & J' & s' & -> & Hr & Ha & Hw & Hc & Hl & H').
  assert (Hst : start_tag (b :: r) ([60] ++ (b :: r) ++ as_ ++ w) a').
  { exists as_, w. split; [reflexivity|]. split; [split; assumption|]. auto. }
  apply ok_app in Hs. destruct Hs as [_ Hs]. apply ok_app in Hs. destruct Hs as [_ Hs]. apply ok_app in Hs. destruct Hs as [_ Hs]. apply ok_app in Hs. destruct Hs as [_ Hs].
  cbn [app] in H'. destruct Hc as [->| ->].
  - change (tag_end 62) with S_misc2 in H'.
    destruct (content_back t _ s' (le_n _) Hs _ _ _ _ _ _ H') as (c & k' & w2 & J2 & s2 & -> & Hc & Hm & H2).
    exists (r ++ as_ ++ w ++ [62] ++ c ++ [60; 47] ++ (b :: r) ++ w2), s2, (Elem (b :: r) a' k'), J2.
    split; [repeat (rewrite <- !app_assoc; cbn [app]); reflexivity|]. split; [|exact H2].
    match goal with |- is_root ?l _ => replace l with (([60] ++ (b :: r) ++ as_ ++ w) ++ [62] ++ c ++ [60; 47] ++ (b :: r) ++ w2) by (repeat (rewrite <- !app_assoc; cbn [app]); reflexivity) end.
    now apply root_full.
  - change (tag_end 47) with S_elem3 in H'. uj J' H'. next H' b0 s'. unfold close in H'. cbv beta iota delta [c_frames] in H'. red_in H'.
    exists (r ++ as_ ++ w ++ [47; 62]), s', (Elem (b :: r) a' []), (mkJ nx q sr v rf).
    split; [repeat (rewrite <- !app_assoc; cbn [app]); reflexivity|]. split; [|exact H'].
    match goal with |- is_root ?l _ => replace l with (([60] ++ (b :: r) ++ as_ ++ w) ++ [47; 62]) by (repeat (rewrite <- !app_assoc; cbn [app]); reflexivity) end.
    now apply root_empty.
Qed.

(** Document types. *)
Lemma quoted_back : forall nx q sr fs nm v rf rt t s, arun (mkC S_dt1 nx q sr fs nm v rf rt) s = Some t ->
  exists x s', s = x ++ [q] ++ s' /\ ~ In q x /\ arun (mkC nx nx q sr fs nm v rf rt) s' = Some t.
Proof.
  intros nx q sr fs nm v rf rt t s. induction s as [|b s IH]; intros H; [discriminate H|]. next_at H.
  - exists [], s. cbn. auto.
  - destruct (IH H) as (x & s' & -> & Hx & H'). exists (b :: x), s'. split; [reflexivity|]. split; [|assumption]. intros [->|Hi]; [lia|auto].
Qed.
Lemma declaration_back : forall rt t m s, (length s <= m)%nat -> forall J, arun (at_ S_dt4 J [] [] rt) s = Some t ->
  exists d s' J', s = d ++ [62] ++ s' /\ declaration d /\ arun (at_ S_dt0 J' [] [] rt) s' = Some t.
Proof.
  intros rt t m. induction m as [|m IH]; intros s Hm J H; [destruct s; [uj J H; discriminate H|cbn in Hm; lia]|].
  uj J H. next H b s; cbn [length] in Hm.
  - destruct (quoted_back _ _ _ _ _ _ _ _ _ _ H) as (x & s1 & -> & Hx & H1). rewrite !app_length in Hm. cbn [length] in Hm.
    destruct (IH s1 ltac:(lia) (mkJ _ _ _ _ _) H1) as (d & s' & J' & -> & Hd & H').
    exists ([b] ++ x ++ [b] ++ d), s', J'. split; [repeat (rewrite <- !app_assoc; cbn [app]); reflexivity|]. split; [|assumption].
    apply dec_quoted; [unfold quote_mark; lia|assumption|assumption].
  - exists [], s, (mkJ nx q sr v rf). split; [reflexivity|]. split; [constructor|exact H].
  - destruct (IH s ltac:(lia) (mkJ _ _ _ _ _) H) as (d & s' & J' & -> & Hd & H').
    exists (b :: d), s', J'. split; [reflexivity|]. split; [|assumption]. apply dec_char; [lia|lia|lia|assumption].
Qed.
Lemma type_back : forall rt t m s, (length s <= m)%nat -> forall J, arun (at_ S_dt0 J [] [] rt) s = Some t ->
  exists x s' J', s = x ++ [62] ++ s' /\ type_text x /\ arun (at_ S_misc1 J' [] [] rt) s' = Some t.
Proof.
  intros rt t m. induction m as [|m IH]; intros s Hm J H; [destruct s; [uj J H; discriminate H|cbn in Hm; lia]|].
  uj J H. next H b s; cbn [length] in Hm.
  - exists [], s, (mkJ nx q sr v rf). split; [reflexivity|]. split; [constructor|exact H].
  - destruct (quoted_back _ _ _ _ _ _ _ _ _ _ H) as (x & s1 & -> & Hx & H1). rewrite !app_length in Hm. cbn [length] in Hm.
    destruct (IH s1 ltac:(lia) (mkJ _ _ _ _ _) H1) as (d & s' & J' & -> & Hd & H').
    exists ([b] ++ x ++ [b] ++ d), s', J'. split; [repeat (rewrite <- !app_assoc; cbn [app]); reflexivity|]. split; [|assumption].
    apply typ_quoted; [unfold quote_mark; lia|assumption|assumption].
  - next H b s; cbn [length] in Hm.
    + destruct (instruction_back _ _ _ _ _ _ _ _ _ H) as (p & s1 & -> & Hp & H1). rewrite app_length in Hm.
      destruct (IH s1 ltac:(lia) (mkJ _ _ _ _ _) H1) as (d & s' & J' & -> & Hd & H').
      exists (([60; 63] ++ p) ++ d), s', J'. split; [repeat (rewrite <- !app_assoc; cbn [app]); reflexivity|]. split; [|assumption]. now apply typ_instruction.
    + next H b s; cbn [length] in Hm.
      * next H b s; cbn [length] in Hm. destruct (comment_back _ _ _ _ _ _ _ _ _ _ H) as (c & s1 & -> & Hc & H1). rewrite !app_length in Hm. cbn [length] in Hm.
        destruct (IH s1 ltac:(lia) (mkJ _ _ _ _ _) H1) as (d & s' & J' & -> & Hd & H').
        exists (([60; 33; 45; 45] ++ c ++ [45; 45; 62]) ++ d), s', J'. split; [repeat (rewrite <- !app_assoc; cbn [app]); reflexivity|]. split; [|assumption].
        apply typ_comment; [exists c; auto|assumption].
      * destruct (declaration_back _ _ _ _ (le_n _) (mkJ _ _ _ _ _) H) as (d & s1 & J1 & -> & Hd & H1). rewrite !app_length in Hm. cbn [length] in Hm.
        destruct (IH s1 ltac:(lia) J1 H1) as (d' & s' & J' & -> & Hd' & H').
        exists ([60; 33; b] ++ d ++ [62] ++ d'), s', J'. split; [repeat (rewrite <- !app_assoc; cbn [app]); reflexivity|]. split; [|assumption].
        apply typ_declaration; [lia|assumption|assumption].
  - destruct (IH s ltac:(lia) (mkJ _ _ _ _ _) H) as (d & s' & J' & -> & Hd & H').
    exists (b :: d), s', J'. split; [reflexivity|]. split; [|assumption]. apply typ_char; [lia|lia|lia|lia|assumption].
Qed.
(** Comments and document types before the outermost element. *)
Lemma exclamation_back : forall J rt t s, arun (at_ S_lee1 J [] [] rt) s = Some t ->
  exists x s' J', s = x ++ s' /\ (comment ([60; 33] ++ x) \/ doctype ([60; 33] ++ x)) /\ arun (at_ S_misc1 J' [] [] rt) s' = Some t.
Proof.
  intros J rt t s H. uj J H. next H b s.
  - next H b s. destruct (comment_back _ _ _ _ _ _ _ _ _ _ H) as (c & s1 & -> & Hc & H1).
    exists ([45; 45] ++ c ++ [45; 45; 62]), s1, (mkJ S_misc1 q sr v rf). split; [repeat (rewrite <- !app_assoc; cbn [app]); reflexivity|]. split; [|exact H1].
    left. exists c. auto.
  - do 6 lit H. destruct (type_back _ _ _ _ (le_n _) (mkJ _ _ _ _ _) H) as (d & s' & J' & -> & Hd & H').
    exists ([68; 79; 67; 84; 89; 80; 69] ++ d ++ [62]), s', J'. split; [repeat (rewrite <- !app_assoc; cbn [app]); reflexivity|]. split; [|exact H'].
    right. exists d. auto.
Qed.

(** Around the outermost element. *)
Lemma misc3_back : forall t t' m s, (length s <= m)%nat -> forall J, arun (at_ S_misc3 J [] [] (Some t')) s = Some t -> t' = t /\ misc false s.
Proof.
  intros t t' m. induction m as [|m IH]; intros s Hm J H; [destruct s; [uj J H; injection H as <-; split; [reflexivity|constructor]|cbn in Hm; lia]|].
  uj J H. destruct s as [|b s]; [injection H as <-; split; [reflexivity|constructor]|]. cbn [length] in Hm. next_at H.
  - destruct (IH s ltac:(lia) (mkJ _ _ _ _ _) H) as (-> & Hs). split; [reflexivity|]. constructor; [now apply sp_space|assumption].
  - next H b s; cbn [length] in Hm.
    + next H b s; cbn [length] in Hm. next H b s; cbn [length] in Hm. destruct (comment_back _ _ _ _ _ _ _ _ _ _ H) as (c & s1 & -> & Hc & H1). rewrite !app_length in Hm. cbn [length] in Hm.
      destruct (IH s1 ltac:(lia) (mkJ _ _ _ _ _) H1) as (-> & Hs). split; [reflexivity|].
      match goal with |- misc _ ?l => replace l with (([60; 33; 45; 45] ++ c ++ [45; 45; 62]) ++ s1) by (repeat (rewrite <- !app_assoc; cbn [app]); reflexivity) end.
      apply misc_comment; [exists c; auto|assumption].
    + destruct (instruction_back _ _ _ _ _ _ _ _ _ H) as (p & s1 & -> & Hp & H1). rewrite app_length in Hm.
      destruct (IH s1 ltac:(lia) (mkJ _ _ _ _ _) H1) as (-> & Hs). split; [reflexivity|].
      change (60 :: 63 :: p ++ s1) with (([60; 63] ++ p) ++ s1). now apply misc_instruction.
Qed.
Definition body (s : bytes) (t : tree) : Prop := exists m r m', s = m ++ r ++ m' /\ misc true m /\ is_root r t /\ misc false m'.
Lemma body_more : forall p s t, (forall m, misc true m -> misc true (p ++ m)) -> body s t -> body (p ++ s) t.
Proof. intros p s t Hp (m & r & m' & -> & H). exists (p ++ m), r, m'. split; [now rewrite <- app_assoc|]. split; [now apply Hp|tauto]. Qed.
Lemma root_body : forall J b s t, ok s -> name_start b -> arun (at_ S_elem0 J [] [b] None) s = Some t -> body ([60; b] ++ s) t.
Proof.
  intros J b s t Hs Hb H. destruct (root_back _ _ _ _ Hs Hb H) as (x & s' & tr & J' & -> & Hr & H').
  destruct (misc3_back _ _ _ _ (le_n _) _ H') as (-> & Hm). exists [], ([60; b] ++ x), s'. split; [now rewrite <- app_assoc|].
  split; [constructor|]. auto.
Qed.
Lemma misc1_back : forall t m s, (length s <= m)%nat -> ok s -> forall J, arun (at_ S_misc1 J [] [] None) s = Some t -> body s t.
Proof.
  intros t m. induction m as [|m IH]; intros s Hm Hs J H; [destruct s; [uj J H; discriminate H|cbn in Hm; lia]|].
  uj J H. next H b s; cbn [length] in Hm; apply ok_cons in Hs; destruct Hs as [Hb Hs].
  - change (b :: s) with ([b] ++ s). apply body_more; [intros; apply misc_space; [now apply sp_space|assumption]|].
    exact (IH s ltac:(lia) Hs (mkJ _ _ _ _ _) H).
  - next H b s; cbn [length] in Hm; apply ok_cons in Hs; destruct Hs as [Hb' Hs].
    + destruct (exclamation_back (mkJ _ _ _ _ _) _ _ _ H) as (x & s' & J' & -> & Hx & H'). rewrite app_length in Hm. apply ok_app in Hs. destruct Hs as [_ Hs].
      change (60 :: 33 :: x ++ s') with (([60; 33] ++ x) ++ s'). apply body_more; [|exact (IH s' ltac:(lia) Hs _ H')].
      intros m0 Hm0. destruct Hx as [Hx|Hx]; [now apply misc_comment|now apply misc_doctype].
    + destruct (instruction_back _ _ _ _ _ _ _ _ _ H) as (p & s' & -> & Hp & H'). rewrite app_length in Hm. apply ok_app in Hs. destruct Hs as [_ Hs].
      change (60 :: 63 :: p ++ s') with (([60; 63] ++ p) ++ s'). apply body_more; [|exact (IH s' ltac:(lia) Hs (mkJ _ _ _ _ _) H')].
      intros m0 Hm0. now apply misc_instruction.
    + exact (root_body (mkJ _ _ _ _ _) b s t Hs (start_name b ltac:(assumption)) H).
Qed.

(** The XML declaration. *)
Lemma equals_back : forall st1 st2, (st1 = S_ver0 /\ st2 = S_ver1 \/ st1 = S_enc0 /\ st2 = S_enc1 \/ st1 = S_std0 /\ st2 = S_std1) ->
  forall nx q sr fs nm v rf rt s t, arun (mkC st1 nx q sr fs nm v rf rt) s = Some t ->
  exists eq c s', s = eq ++ [c] ++ s' /\ equals eq /\ quote_mark c /\ arun (mkC st2 nx q sr fs nm v rf rt) ([c] ++ s') = Some t.
Proof.
  intros st1 st2 Hst nx q sr fs nm v rf rt s t H.
  destruct Hst as [[-> ->]|[[-> ->]|[-> ->]]].
  all: spaces H w1 H1 s0; next H b s0; [exfalso; apply Hn; now apply sp_space|]; spaces H w2 H2 s1.
  all: match goal with H : arun _ ?s = _ |- _ => destruct s as [|c s']; [discriminate H|] end.
  all: exists (w1 ++ [61] ++ w2), c, s'; split; [repeat (rewrite <- !app_assoc; cbn [app]); reflexivity|]; split; [exists w1, w2; auto|]; split; [|exact H].
  all: next_at H; [exfalso; apply Hn0; now apply sp_space|]; unfold quote_mark; lia.
Qed.
Definition decl_end (st : ystate) (J : junk) (s : bytes) (t : tree) (alone : bytes -> Prop) : Prop :=
  exists al w s' J', s = al ++ w ++ [63; 62] ++ s' /\ alone al /\ white w /\ arun (at_ S_misc1 J' [] [] None) s' = Some t.
Lemma std_back : forall J s t, arun (at_ S_std0 J [] [] None) s = Some t ->
  exists eq q v w s' J', s = eq ++ [q] ++ v ++ [q] ++ w ++ [63; 62] ++ s' /\ equals eq /\ quote_mark q /\ (v = [121; 101; 115] \/ v = [110; 111]) /\ white w /\
    arun (at_ S_misc1 J' [] [] None) s' = Some t.
Proof.
  assert (G : forall nx q sr v rf s t, arun (mkC S_xmldecl8 nx q sr [] [] v rf None) s = Some t -> exists w s' J', s = w ++ [63; 62] ++ s' /\ white w /\ arun (at_ S_misc1 J' [] [] None) s' = Some t).
  { intros nx q sr v rf s t H. spaces H w Hw s0. next H b s0; [exfalso; apply Hn; now apply sp_space|]. next H b s0.
    exists w, s0, (mkJ nx q sr v rf). auto. }
  intros J s t H. uj J H. destruct (equals_back S_std0 S_std1 ltac:(tauto) _ _ _ _ _ _ _ _ _ _ H) as (eq & c & s1 & -> & Heq & Hc & H1).
  cbn [app] in H1. assert (Hsp : is_sp c = false) by (destruct Hc as [->| ->]; reflexivity). next_at H1; [congruence|]. next H1 b s1.
  - lit H1. lit H1. nexts H1 b. destruct (G _ _ _ _ _ _ _ H1) as (w & s' & J' & -> & Hw & H').
    exists eq, b, [121; 101; 115], w, s', J'. split; [reflexivity|]. auto 8.
  - lit H1. nexts H1 b. destruct (G _ _ _ _ _ _ _ H1) as (w & s' & J' & -> & Hw & H').
    exists eq, b, [110; 111], w, s', J'. split; [reflexivity|]. auto 8.
Qed.
Lemma alone_back : forall st, (st = S_xmldecl7 \/ st = S_xmldecl5) -> forall nx q sr v rf w0 s t, white w0 -> w0 <> [] ->
  arun (mkC st nx q sr [] [] v rf None) (115 :: s) = Some t ->
  exists al w s' J', w0 ++ 115 :: s = al ++ w ++ [63; 62] ++ s' /\ standalone_decl al /\ white w /\ arun (at_ S_misc1 J' [] [] None) s' = Some t.
Proof.
  intros st Hst nx q sr v rf w0 s t Hw0 Hne H.
  assert (G : arun (mkC S_string S_std0 q [116; 97; 110; 100; 97; 108; 111; 110; 101; 0] [] [] v rf None) s = Some t) by (destruct Hst as [->| ->]; exact H).
  clear H. rename G into H. do 9 lit H. destruct (std_back (mkJ _ _ _ _ _) _ _ H) as (eq & c & y & w & s' & J' & -> & Heq & Hc & Hy & Hw & H').
  exists (w0 ++ [115; 116; 97; 110; 100; 97; 108; 111; 110; 101] ++ eq ++ [c] ++ y ++ [c]), w, s', J'.
  split; [repeat (rewrite <- !app_assoc; cbn [app]); reflexivity|]. split; [|auto]. exists w0, eq, c, y. auto 8.
Qed.
Lemma decl6_back : forall nx q sr v rf s t, arun (mkC S_xmldecl6 nx q sr [] [] v rf None) s = Some t ->
  exists al w s' J', s = al ++ w ++ [63; 62] ++ s' /\ (al = [] \/ standalone_decl al) /\ white w /\ arun (at_ S_misc1 J' [] [] None) s' = Some t.
Proof.
  intros nx q sr v rf s t H. next H b s.
  - spc. spaces H w Hw s0. assert (Hw' : white (b :: w)) by now apply white_cons.
    destruct s0 as [|c s0]; [discriminate H|]. assert (H0 := H). next_at H; [exfalso; apply Hn; now apply sp_space| |].
    + next H c s0. exists [], (b :: w), s0, (mkJ nx q sr v rf). cbn [app]. auto 8.
    + destruct (alone_back S_xmldecl7 ltac:(tauto) _ _ _ _ _ (b :: w) _ _ Hw' ltac:(discriminate) H0) as (al & w' & s' & J' & E & Hal & Hww & H').
      exists al, w', s', J'. cbn [app] in *. auto 8.
  - next H c s. exists [], [], s, (mkJ nx q sr v rf). cbn [app]. split; [reflexivity|]. split; [auto|]. split; [apply white_nil|exact H].
Qed.
Lemma decl4_back : forall nx q sr v rf s t, ok s -> arun (mkC S_xmldecl4 nx q sr [] [] v rf None) s = Some t ->
  exists enc al w s' J', s = enc ++ al ++ w ++ [63; 62] ++ s' /\ (enc = [] \/ encoding_decl enc) /\ (al = [] \/ standalone_decl al) /\ white w /\
    arun (at_ S_misc1 J' [] [] None) s' = Some t.
Proof.
  intros nx q sr v rf s t Hok H. next H b s.
  - spc. spaces H w Hw s0. assert (Hw' : white (b :: w)) by now apply white_cons.
    destruct s0 as [|c s0]; [discriminate H|]. assert (H0 := H). next_at H; [exfalso; apply Hn; now apply sp_space| | |].
    + next H c s0. exists [], [], (b :: w), s0, (mkJ nx q sr v rf). cbn [app]. auto 8.
    + clear H0. do 7 lit H. destruct (equals_back S_enc0 S_enc1 ltac:(tauto) _ _ _ _ _ _ _ _ _ _ H) as (eq & c & s1 & -> & Heq & Hc & H1).
      cbn [app] in H1. assert (Hsp : is_sp c = false) by (destruct Hc as [->| ->]; reflexivity). next_at H1; [congruence|]. clear H. destruct s1 as [|x s1]; [discriminate H1|]. next_at H1.
      assert (Hok1 : ok (x :: s1)).
      { apply ok_cons in Hok. destruct Hok as [_ Hok]. apply ok_app in Hok. destruct Hok as [_ Hok]. do 8 (apply ok_cons in Hok; destruct Hok as [_ Hok]).
        apply ok_app in Hok. destruct Hok as [_ Hok]. apply ok_app in Hok. tauto. }
      apply ok_cons in Hok1. destruct Hok1 as [Hx Hok1].
      assert (Hl : letter x). { match goal with E : is_alpha _ = true |- _ => rewrite alpha_form in E by assumption end. cls_unfold. lia. }
      assert (G : forall s, ok s -> arun (mkC S_enc3 S_enc0 c [0] [] [] v rf None) s = Some t ->
        exists e s', s = e ++ [c] ++ s' /\ Forall encoding_char e /\ arun (mkC S_xmldecl6 S_enc0 c [0] [] [] v rf None) s' = Some t).
      { clear. intros s. induction s as [|y s IH]; intros Hok H; [discriminate H|]. apply ok_cons in Hok. destruct Hok as [Hy Hok]. next_at H.
        - destruct (IH Hok H) as (e & s' & -> & He & H'). exists (y :: e), s'. split; [reflexivity|]. split; [|assumption]. constructor; [|assumption].
          unfold is_encname in *. rewrite alpha_form, num_form in * by assumption. unfold encoding_char. cls_unfold. lia.
        - exists [], s. split; [reflexivity|]. split; [constructor|exact H]. }
      destruct (G s1 Hok1 H1) as (e & s2 & -> & He & H2).
      destruct (decl6_back _ _ _ _ _ _ _ H2) as (al & w' & s' & J' & -> & Hal & Hww & H').
      exists ((b :: w) ++ [101; 110; 99; 111; 100; 105; 110; 103] ++ eq ++ [c; x] ++ e ++ [c]), al, w', s', J'.
      split; [repeat (rewrite <- !app_assoc; cbn [app]); reflexivity|]. split; [|auto].
      right. exists (b :: w), eq, c, x, e. repeat (split; [solve [auto|discriminate]|]). assumption.
    + destruct (alone_back S_xmldecl5 ltac:(tauto) _ _ _ _ _ (b :: w) _ _ Hw' ltac:(discriminate) H0) as (al & w' & s' & J' & E & Hal & Hww & H').
      exists [], al, w', s', J'. cbn [app] in *. auto 8.
  - next H c s. exists [], [], [], s, (mkJ nx q sr v rf). cbn [app]. split; [reflexivity|]. split; [auto|]. split; [auto|]. split; [apply white_nil|exact H].
Qed.
Lemma xml_back : forall nx q sr v rf s t, ok s -> arun (mkC S_xmldecl3 nx q sr [] [] v rf None) s = Some t ->
  forall w0, white w0 -> w0 <> [] ->
  exists x s' J', s = x ++ s' /\ xml_declaration ([60; 63; 120; 109; 108] ++ w0 ++ x) /\ arun (at_ S_misc1 J' [] [] None) s' = Some t.
Proof.
  intros nx q sr v rf s t Hok H w0 Hw0 Hne. spaces H w Hw s0. next H b s0; [exfalso; apply Hn; now apply sp_space|]. do 6 lit H.
  destruct (equals_back S_ver0 S_ver1 ltac:(tauto) _ _ _ _ _ _ _ _ _ _ H) as (eq & c & s1 & -> & Heq & Hc & H1).
  cbn [app] in H1. assert (Hsp : is_sp c = false) by (destruct Hc as [->| ->]; reflexivity). next_at H1; [congruence|]. clear H. lit H1. lit H1.
  match type of H1 with arun _ ?s = _ => rename s into s2 end.
  assert (Hok1 : ok s2).
  { apply ok_app in Hok. destruct Hok as [_ Hok]. do 7 (apply ok_cons in Hok; destruct Hok as [_ Hok]).
    apply ok_app in Hok. destruct Hok as [_ Hok]. apply ok_app in Hok. destruct Hok as [_ Hok]. do 2 (apply ok_cons in Hok; destruct Hok as [_ Hok]). assumption. }
  assert (G : forall s, ok s -> arun (mkC S_ver3 S_ver2 c [0] [] [] v rf None) s = Some t ->
    exists e s', s = e ++ [c] ++ s' /\ Forall digit e /\ arun (mkC S_xmldecl4 S_ver2 c [0] [] [] v rf None) s' = Some t).
  { clear. intros s. induction s as [|y s IH]; intros Hok H; [discriminate H|]. apply ok_cons in Hok. destruct Hok as [Hy Hok]. next_at H.
    - destruct (IH Hok H) as (e & s' & -> & He & H'). exists (y :: e), s'. split; [reflexivity|]. split; [|assumption]. constructor; [|assumption].
      rewrite num_form in * by assumption. cls_unfold. lia.
    - exists [], s. split; [reflexivity|]. split; [constructor|exact H]. }
  next H1 d s2. apply ok_cons in Hok1. destruct Hok1 as [Hd Hok1].
  assert (Hdd : digit d). { match goal with E : is_num _ = true |- _ => rewrite num_form in E by assumption end. cls_unfold. lia. }
  destruct (G s2 Hok1 H1) as (e & s3 & -> & He & H2). apply ok_app in Hok1. destruct Hok1 as [_ Hok1]. apply ok_app in Hok1. destruct Hok1 as [_ Hok1].
  destruct (decl4_back _ _ _ _ _ _ _ Hok1 H2) as (enc & al & w' & s' & J' & -> & Henc & Hal & Hww & H').
  exists (w ++ [118; 101; 114; 115; 105; 111; 110] ++ eq ++ [c; 49; 46] ++ (d :: e) ++ [c] ++ enc ++ al ++ w' ++ [63; 62]), s', J'.
  split; [repeat (rewrite <- !app_assoc; cbn [app]); reflexivity|]. split; [|assumption].
  exists (w0 ++ w), eq, c, (d :: e), enc, al, w'. split; [repeat (rewrite <- !app_assoc; cbn [app]); reflexivity|].
  split; [now apply Forall_app|]. split; [destruct w0; [congruence|discriminate]|]. split; [assumption|]. split; [assumption|].
  split; [constructor; assumption|]. split; [discriminate|]. auto.
Qed.
Lemma first_back : forall J s t, ok s -> arun (at_ S_le0 J [] [] None) s = Some t ->
  exists d s', [60] ++ s = d ++ s' /\ (d = [] \/ xml_declaration d) /\ body s' t.
Proof.
  intros J s t Hok H. uj J H. next H b s; apply ok_cons in Hok; destruct Hok as [Hb Hok].
  - exists [], (60 :: 33 :: s). split; [reflexivity|]. split; [auto|].
    destruct (exclamation_back (mkJ _ _ _ _ _) _ _ _ H) as (x & s' & J' & -> & Hx & H'). apply ok_app in Hok. destruct Hok as [_ Hok].
    change (60 :: 33 :: x ++ s') with (([60; 33] ++ x) ++ s'). apply body_more; [|exact (misc1_back _ _ s' (le_n _) Hok _ H')].
    intros m0 Hm0. destruct Hx as [Hx|Hx]; [now apply misc_comment|now apply misc_doctype].
  - assert (PI : forall n, is_a_name n -> forall nx s, ok s -> nx = S_misc1 -> arun (mkC S_pi1 nx q sr [] n v rf None) s = Some t -> body ([60; 63] ++ n ++ s) t).
    { intros n Hn nx0 s0 Hok0 -> H0. destruct (after_back _ _ _ _ _ _ _ _ _ _ H0) as (r & e & s' & -> & Hr & He & Hx & H').
      replace ([60; 63] ++ n ++ r ++ e ++ s') with (([60; 63] ++ (n ++ r) ++ e) ++ s') by (repeat (rewrite <- !app_assoc; cbn [app]); reflexivity).
      apply ok_app in Hok0. destruct Hok0 as [_ Hok0]. apply ok_app in Hok0. destruct Hok0 as [_ Hok0].
      apply body_more; [|exact (misc1_back _ _ s' (le_n _) Hok0 (mkJ _ _ _ _ _) H')].
      intros m0 Hm0. apply misc_instruction; [|assumption]. apply after_instruction; [|assumption]. apply is_target; [|assumption].
      destruct n as [|n0 n]; [destruct Hn|]. destruct Hn as [Hn1 Hn2]. split; [assumption|now apply Forall_app]. }
    assert (N1 : is_a_name [120]) by (split; [unfold name_start; cls_unfold; lia|apply Forall_nil]).
    assert (N2 : is_a_name [120; 109]) by (split; [unfold name_start; cls_unfold; lia|apply Forall_cons; [cls_unfold; lia|apply Forall_nil]]).
    assert (N3 : is_a_name [120; 109; 108]) by (split; [unfold name_start; cls_unfold; lia|apply Forall_cons; [cls_unfold; lia|apply Forall_cons; [cls_unfold; lia|apply Forall_nil]]]).
    destruct s as [|b s]; [discriminate H|]. apply ok_cons in Hok. destruct Hok as [Hb2 Hok]. next_at H.
    + destruct s as [|b s]; [discriminate H|]. destruct (N.eq_dec b 109) as [->|H109].
      2: { exists [], ([60; 63] ++ [120] ++ b :: s). split; [reflexivity|]. split; [auto|]. apply (PI _ N1 S_misc1); [assumption|reflexivity|].
           etransitivity; [|exact H]. rewrite !arun_cons. unfold astep. cbv beta iota delta [table c_st c_quote].
           replace (b =? 109) with false by lia. destruct (is_name b), (b =? 63), (is_sp b); reflexivity. }
      apply ok_cons in Hok. destruct Hok as [Hb3 Hok]. rewrite arun_cons in H. unfold astep in H. cbv beta iota delta [table c_st c_quote] in H. change (109 =? 109) with true in H. red_in H.
      destruct s as [|b s]; [discriminate H|]. destruct (N.eq_dec b 108) as [->|H108].
      2: { exists [], ([60; 63] ++ [120; 109] ++ b :: s). split; [reflexivity|]. split; [auto|]. apply (PI _ N2 S_misc1); [assumption|reflexivity|].
           etransitivity; [|exact H]. rewrite !arun_cons. unfold astep. cbv beta iota delta [table c_st c_quote].
           replace (b =? 108) with false by lia. destruct (is_name b), (b =? 63), (is_sp b); reflexivity. }
      apply ok_cons in Hok. destruct Hok as [Hb4 Hok]. rewrite arun_cons in H. unfold astep in H. cbv beta iota delta [table c_st c_quote] in H. change (108 =? 108) with true in H. red_in H.
      destruct s as [|b s]; [discriminate H|]. destruct (is_sp b) eqn:Es.
      * rewrite arun_cons in H. unfold astep in H. cbv beta iota delta [table c_st c_quote] in H. rewrite Es in H. red_in H.
        apply ok_cons in Hok. destruct Hok as [Hb5 Hok]. spc.
        destruct (xml_back _ _ _ _ _ _ _ Hok H [b] (white_one _ Es) ltac:(discriminate)) as (x & s' & J' & -> & Hx & H').
        apply ok_app in Hok. destruct Hok as [_ Hok].
        exists ([60; 63; 120; 109; 108] ++ [b] ++ x), s'. split; [repeat (rewrite <- !app_assoc; cbn [app]); reflexivity|]. split; [auto|].
        exact (misc1_back _ _ s' (le_n _) Hok _ H').
      * exists [], ([60; 63] ++ [120; 109; 108] ++ b :: s). split; [reflexivity|]. split; [auto|]. apply (PI _ N3 S_misc1); [assumption|reflexivity|].
        rewrite arun_cons in H |- *. unfold astep in H |- *. cbv beta iota delta [table c_st c_quote] in H |- *. rewrite Es in H |- *. red_in H.
        destruct (is_name b); [exact H|]. red_in H. discriminate H.
    + exists [], ([60; 63] ++ [b] ++ s). split; [reflexivity|]. split; [auto|]. apply (PI [b]) with (nx := S_misc1); [|assumption|reflexivity|exact H].
      split; [now apply start_name|apply Forall_nil].
  - exists [], ([60; b] ++ s). split; [reflexivity|]. split; [auto|]. exact (root_body (mkJ _ _ _ _ _) b s t Hok (start_name b ltac:(assumption)) H).
Qed.
Lemma misc0_back : forall J s t, ok s -> arun (at_ S_misc0 J [] [] None) s = Some t ->
  exists w d s', s = w ++ d ++ s' /\ white w /\ (d = [] \/ xml_declaration d) /\ body s' t.
Proof.
  intros J s t Hok H. uj J H. spaces H w Hw s0. next H b s0; [exfalso; apply Hn; now apply sp_space|].
  apply ok_app in Hok. destruct Hok as [_ Hok]. apply ok_cons in Hok. destruct Hok as [_ Hok].
  destruct (first_back (mkJ _ _ _ _ _) _ _ Hok H) as (d & s' & E & Hd & Hs). exists w, d, s'. cbn [app] in E. rewrite E. auto.
Qed.
Theorem accepted_document : forall s t, ok s -> arun start s = Some t -> is_document s t.
Proof.
  intros s t Hok H. unfold start in H.
  assert (G : exists bom s', s = bom ++ s' /\ (bom = [] \/ bom = [239; 187; 191]) /\ exists J, arun (at_ S_misc0 J [] [] None) s' = Some t).
  { destruct s as [|b s]; [discriminate H|]. next_at H.
    - lit H. lit H. exists [239; 187; 191]. eexists. split; [reflexivity|]. split; [auto|]. eexists (mkJ _ _ _ _ _). exact H.
    - exists [], (b :: s). split; [reflexivity|]. split; [auto|]. eexists (mkJ _ _ _ _ _). unfold at_. cbn [j_nx j_q j_sr j_v j_rf]. rewrite arun_cons. unfold astep.
      cbv beta iota delta [table c_st c_quote]. match goal with E : is_sp _ = true |- _ => rewrite E end. exact H.
    - exists [], (60 :: s). split; [reflexivity|]. split; [auto|]. eexists (mkJ _ _ _ _ _). exact H. }
  destruct G as (bom & s' & -> & Hb & J & H'). apply ok_app in Hok. destruct Hok as [_ Hok].
  destruct (misc0_back _ _ _ Hok H') as (w & d & s2 & -> & Hw & Hd & m & r & m' & -> & Hm & Hr & Hm').
  exists bom, w, d, m, r, m'. auto 8.
Qed.
Theorem document_iff : forall s t, ok s -> (arun start s = Some t <-> is_document s t).
Proof. intros s t H. split; [now apply accepted_document|apply document_accepted]. Qed.
