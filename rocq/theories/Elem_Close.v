(** Proofs about the objects that parsing XML makes: the ends of elements and attributes. *)
Require Import Coq.ZArith.ZArith Coq.NArith.NArith Coq.Lists.List Coq.Bool.Bool Coq.Arith.Arith Coq.micromega.Lia.
Require Import Verif.Base Verif.Own_Model Verif.Own_Spec Verif.Own_Proofs Verif.Own_Calls Verif.Own_Ends Verif.Parsed_Model Verif.Parsed_Spec Verif.Parsed_Proofs Verif.Parsed_Steps Verif.Parsed_Shape Verif.Elem_Model Verif.Elem_Spec Verif.Elem_Proofs Verif.Elem_Steps Verif.Elem_Events.
Require Verif.HashTable_Model Verif.XML_Model Verif.JSON_Parse.
Import ListNotations.

(** ** The end of an element *)
Lemma remove_snoc s a (m : list Own_Model.ref) x n : nth_error (cells s) a = Some (Live n (Arr (m ++ [Some x]))) -> remove_last s a = do s1 <- set_body s a (Arr m); release s1 [x].
Proof.
  intros N. remember (m ++ [Some x]) as l eqn:Q. assert (A0: length l = length m + 1) by (rewrite Q; apply app_length). assert (A1: firstn (length m) l = m) by (rewrite Q, firstn_app, firstn_all, Nat.sub_diag; apply app_nil_r). assert (A2: skipn (length m + 1) l = []) by (apply skipn_all2; lia).
  assert (A3: skipn (length m) l = [Some x]) by (rewrite Q, skipn_app, skipn_all, Nat.sub_diag; reflexivity). clear Q. assert (Hl: list_of s a = Ok l) by (apply list_has; exists n; exact N).
  unfold remove_last. rewrite Hl. cbn [obind]. destruct l as [|y l]; [cbn in A0; lia|]. remember (y :: l) as l' eqn:Q. clear Q. replace (length l' - 1) with (length m) by lia.
  unfold splice, body_of. rewrite N. cbn [obind]. rewrite A0, Nat.ltb_irrefl. unfold array_splice. cbn [length Nat.min firstn overwrite obind]. rewrite Hl. cbn [obind]. change (1 <? 0) with false. cbv iota. rewrite Nat.add_0_r, A1, A2, A3, app_nil_r. cbn [firstn Nat.sub somes flat_map app]. unfold set_list, body_of. rewrite N. reflexivity.
Qed.
Lemma end_step base s h rs es rt av ks ids : W base s h rs es rt av ks ids -> exists s', remove_last s (next base) = Ok s' /\ W base s' h rs (removelast es) rt av ks ids.
Proof.
  intros Hw. destruct es as [|e es _] using rev_ind; [exists s; split; [|exact Hw]; unfold remove_last; rewrite (list_has _ _ _ (w_pile _ _ _ _ _ _ _ _ _ Hw)); reflexivity|]. rewrite removelast_last.
  pose proof (w_inv _ _ _ _ _ _ _ _ _ Hw) as I. pose proof (w_pile _ _ _ _ _ _ _ _ _ Hw) as Pl. destruct (arr_not _ _ _ Pl) as (ML & MP). pose proof (w_stack _ _ _ _ _ _ _ _ _ Hw) as St. apply Forall_app in St. destruct St as (St & Se). inversion Se as [|? ? He _]; subst. clear Se.
  rewrite map_app in Pl. cbn [map] in Pl. destruct Pl as (n & Pl). rewrite (remove_snoc _ _ _ _ _ Pl). pose proof (w_new _ _ _ _ _ _ _ _ _ Hw e He) as Ne.
  destruct (set_body_ok s [] [ids e] (next base) _ (Arr (map (fun e => Some (ids e)) es)) I (ex_intro _ n Pl)) as (s1 & E1 & I1 & K1 & _).
  { intros x. cbn [members]. rewrite somes_app, !cnt_app. cbn [app somes flat_map]. cbn [count_occ]. destruct (Nat.eq_dec (ids e) x); lia. }
  rewrite E1. cbn [obind]. destruct (body_at (next base) s (next base) (Arr (map (fun e => Some (ids e)) es)) s1 (w_up _ _ _ _ _ _ _ _ _ Hw) (Nat.le_refl _)) as ((T1 & T1' & U1) & D1 & F1).
  { pose proof (proj1 (w_up _ _ _ _ _ _ _ _ _ Hw _ _ _ (Nat.le_refl _) Pl)) as Z. cbn [members] in *. rewrite somes_app in Z. apply Forall_app in Z. apply Z. } { exact E1. }
  pose proof (proj1 K1) as H1.
  assert (Two: In (ids e) (hands s1) \/ In (ids e) (content s1)).
  { destruct e as [|e].
    - left. rewrite H1, (w_hands _ _ _ _ _ _ _ _ _ Hw). destruct (w_root _ _ _ _ _ _ _ _ _ Hw) as [(_ & -> & _)|(_ & _ & ->)]; [cbn in He; lia|]. apply in_or_app. right. right. left. reflexivity.
    - right. destruct (w_links _ _ _ _ _ _ _ _ _ Hw (S e) ltac:(lia) He) as (j & el & J & Nj & X). destruct (w_reps _ _ _ _ _ _ _ _ _ Hw j el Nj) as (_ & _ & _ & (q & R4 & F4)). destruct (f2_in_l _ _ _ _ F4 X) as (r & Ir & (-> & _)).
      pose proof (w_new _ _ _ _ _ _ _ _ _ Hw j (nth_len _ _ _ Nj)). destruct (F1 (3 + ids j) _ ltac:(lia) R4) as (m & M). apply in_content. exists (3 + ids j), m, (Arr q). split; [exact M|]. exact (in_somes _ _ Ir). }
  destruct (release_ok [ids e] s1 [] I1) as (s2 & E2 & I2 & (H2 & _)). exists s2. split; [exact E2|].
  assert (L2: later any (next base) s1 s2) by (apply (release_later any (next base) s1 [ids e] s2 U1) with (2 := E2); constructor; [lia|constructor]). destruct L2 as (T2 & T2' & U2).
  assert (F2: forall y b, has s1 y b -> has s2 y b).
  { intros y c (m & M). unfold release in E2. cbn [length plus drop] in E2. pose proof (proj2 I1 (ids e)) as Cx. unfold rc in Cx. assert (C1: cnt [ids e] (ids e) = 1) by (cbn; destruct (Nat.eq_dec (ids e) (ids e)); [reflexivity|congruence]).
    assert (1 <= cnt (hands s1) (ids e) + cnt (content s1) (ids e)) by (destruct Two as [Z|Z]; apply cnt_in in Z; lia).
    destruct (nth_error (cells s1) (ids e)) as [[[|[|k]] b|]|] eqn:Nx; try discriminate; try lia. rewrite drop_nil in E2. injection E2 as <-. destruct (Nat.eq_dec (ids e) y) as [<-|D].
    - rewrite M in Nx. injection Nx as -> ->. exists (S k). cbn [set_cell cells]. apply nth_error_upd_eq. exact (nth_len _ _ _ M).
    - exists m. cbn [set_cell cells]. rewrite nth_error_upd_neq by exact D. exact M. }
  constructor; try exact (w_root _ _ _ _ _ _ _ _ _ Hw); try exact (w_inj _ _ _ _ _ _ _ _ _ Hw); try exact (w_new _ _ _ _ _ _ _ _ _ Hw); try exact (w_links _ _ _ _ _ _ _ _ _ Hw); try exact (w_closed _ _ _ _ _ _ _ _ _ Hw); try assumption.
  - intros y Y. rewrite T2', T1' by exact Y. apply (w_below _ _ _ _ _ _ _ _ _ Hw y Y).
  - pose proof (w_next _ _ _ _ _ _ _ _ _ Hw). unfold next in *. lia.
  - rewrite H2, H1. apply Hw.
  - apply F2, D1.
  - intros i el Ni. pose proof (w_reps _ _ _ _ _ _ _ _ _ Hw i el Ni) as R. pose proof (w_new _ _ _ _ _ _ _ _ _ Hw i (nth_len _ _ _ Ni)). apply (rep_away (has s) (next base)) in R; [|exact ML|exact MP|lia|lia]. apply rep_mono with (3 := R); [intros y b (Y & Hy); apply F2, F1; assumption|auto].
  - intros v V. destruct (w_at _ _ _ _ _ _ _ _ _ Hw v V) as (V1 & V2 & V3). split; [exact V1|]. split; [|exact V3]. apply F2, F1; [lia|exact V2].
Qed.

(** ** The end of an attribute *)
Lemma links_upd h e el el' : links h -> nth_error h e = Some el -> (forall j, In (CElement j) (eelements el) -> In (CElement j) (eelements el')) -> links (upd h e el').
Proof.
  intros Lk N C i I0 I1. rewrite upd_length in I1. destruct (Lk i I0 I1) as (j & x & J & Nj & X). destruct (Nat.eq_dec j e) as [->|D].
  - exists e, el'. split; [exact J|]. split; [apply nth_error_upd_eq, (nth_len _ _ _ N)|]. apply C. congruence.
  - exists j, x. split; [exact J|]. split; [rewrite nth_error_upd_neq by congruence; exact Nj|exact X].
Qed.
Lemma entered_attr (R : list N * list N -> nat * option nat -> Prop) ks c k v x l es : text_of ks c = Some k ->
  Forall2 (fun p e => text_of ks (fst e) = Some (fst p)) l es -> Forall2 R l es -> (forall p e, R p e -> text_of ks (fst e) = Some k -> R (k, v) (fst e, x)) -> R (k, v) (c, x) ->
  Forall2 R (XML_Model.set_attribute l k v) (entered (key_eq ks) es c x).
Proof.
  intros C T F Rp New. unfold entered. induction F as [|(k1, v1) (y, w) l es H F IH].
  - cbn. constructor; [exact New|constructor].
  - inversion T as [|? ? ? ? T1 T2]; subst. cbn [fst] in T1. cbn [XML_Model.set_attribute find_key set_key fst]. assert (Kq: key_eq ks y c = if list_eq_dec N.eq_dec k k1 then true else false) by (unfold key_eq; rewrite T1, C, same_bytes_sym; apply JSON_Parse.same_ok). rewrite Kq.
    destruct (list_eq_dec N.eq_dec k k1) as [<-|Ne]; [constructor; [exact (Rp _ _ H T1)|exact F]|]. specialize (IH T2). destruct (find_key (key_eq ks) es c); [constructor; assumption|]. cbn [app]. constructor; assumption.
Qed.
Lemma attr_end base s h rs es rt v ks ids e el n t : Inv base [] -> W base s h rs (es ++ [e]) rt (Some v) ks ids -> nth_error h e = Some el ->
  exists s1 s2 s3, attributes s (next base) = Ok (2 + ids e) /\ put (key_eq ((next s, n) :: ks)) (make s Leaf) (2 + ids e) (next s) (Some v) HashTable_Model.InsertAlways = Ok s1 /\ give_up s1 (Some (next s)) = Ok s2 /\ give_up s2 (Some v) = Ok s3 /\
    W base s3 (upd h e (XML_Model.mkE (XML_Model.ename el) (XML_Model.set_attribute (eattributes el) n t) (eelements el))) rs (es ++ [e]) rt None ((next s, n) :: ks) ids.
Proof.
  intros IB Hw N. pose proof (nth_len _ _ _ N) as He. pose proof (w_new _ _ _ _ _ _ _ _ _ Hw e He) as Ne. destruct (w_reps _ _ _ _ _ _ _ _ _ Hw e el N) as (R1 & R2 & (q & R3 & F3) & (q4 & R4 & F4)). pose proof (w_next _ _ _ _ _ _ _ _ _ Hw) as L. pose proof (w_inv _ _ _ _ _ _ _ _ _ Hw) as I.
  pose proof (w_pile _ _ _ _ _ _ _ _ _ Hw) as Pl. destruct (w_at _ _ _ _ _ _ _ _ _ Hw v eq_refl) as (V1 & V2 & V3). destruct (hash_not _ _ _ R3) as (NL & NP). pose proof (has_lt _ _ _ R3) as Ld. pose proof (has_lt _ _ _ V2) as Lv.
  destruct (make_ok Leaf s eq_refl I) as (I0 & L0 & B0 & H0 & N0). pose proof (below_has _ _ B0) as F0. assert (U0: up any (next base) (make s Leaf)) by (apply make_grows; [reflexivity|lia|apply Hw]). assert (X0: has (make s Leaf) (next s) Leaf) by (exists 1; exact N0).
  set (ks' := (next s, n) :: ks). set (d := 2 + ids e) in *. pose proof (w_hands _ _ _ _ _ _ _ _ _ Hw) as Hh. specialize (V3 e He). set (el' := XML_Model.mkE _ _ _).
  destruct (put_any (key_eq ks') (next base) (make s Leaf) d q (next s) v I0 U0 ltac:(unfold d; lia) (F0 _ _ R3) X0) as (s1 & E1 & I1 & H1 & (T1 & T1' & U1) & D1).
  { rewrite H0, Hh. apply in_or_app. left. apply in_or_app. right. right. apply in_or_app. right. left. reflexivity. } { exact Ld. } { unfold d. lia. }
  { intros k' o Q. apply find_entry in Q. destruct (f2_in_r _ _ _ _ F3 Q) as (kv & _ & (_ & _ & w & Z & Lw)). cbn [snd] in Z. injection Z as ->. apply F0, Lw. }
  destruct (F0 _ _ R3) as (nd & Nd). pose proof D1 as (n1 & N1). destruct (put_cells (key_eq ks') (make s Leaf) d nd q (next s) (Some v) s1 Nd (ex_intro _ n1 (ex_intro _ _ N1)) E1) as (K1 & _).
  destruct (release_one (fun _ _ => false) any (next base) s1 (next s) I1) as (s2 & E2 & I2 & H2 & (T2 & T2' & U2)); [rewrite H1, H0; apply in_or_app; right; left; reflexivity|lia|exact U1|].
  rewrite H1, H0, take_last in H2 by (apply hands_old; [exact I|lia]).
  destruct (release_one (fun _ _ => false) any (next base) s2 v I2) as (s3 & E3 & I3 & H3 & (T3 & T3' & U3)); [rewrite H2, Hh; apply in_or_app; right; right; apply in_or_app; right; left; reflexivity|lia|exact U2|].
  assert (Hh3: hands s3 = hands base ++ next base :: somes [rt] ++ somes [None]).
  { rewrite H3, H2, Hh. change (somes [None]) with (@nil nat). rewrite app_nil_r. change (somes [Some v]) with [v]. replace (hands base ++ next base :: somes [rt] ++ [v]) with ((hands base ++ next base :: somes [rt]) ++ [v]) by (rewrite <- app_assoc; reflexivity). apply take_last. intros J. apply in_app_or in J. destruct J as [J|[J|J]].
    - apply (hands_live _ _ IB) in J. lia.
    - lia.
    - destruct (w_root _ _ _ _ _ _ _ _ _ Hw) as [(_ & _ & Z)|(_ & Z0 & Z)]; rewrite Z in J; [destruct J|]. destruct J as [J|[]]. destruct (nth_error h 0) as [x|] eqn:Nx; [|apply nth_error_None in Nx; lia]. pose proof (proj1 (w_reps _ _ _ _ _ _ _ _ _ Hw 0 x Nx)) as Z1. rewrite J in Z1 at 1. pose proof (has_fun _ _ _ _ V2 Z1). discriminate. }
  exists s1, s2, s3. split; [apply (part_has _ _ (map (fun e => Some (ids e)) es)); [rewrite map_app in Pl; exact Pl|exact R1]|]. split; [exact E1|]. split; [exact E2|]. split; [exact E3|].
  pose proof (give_keeps s1 (Some (next s)) s2 E2) as K2. pose proof (give_keeps s2 (Some v) s3 E3) as K3. pose proof (keeps_trans _ _ _ _ K2 K3) as K23. pose proof (keeps_trans _ _ _ _ K1 (other_every d _ _ K23)) as K.
  set (at_ := fun y b => (y <> d /\ has (make s Leaf) y b) \/ (y = d /\ b = Hash (entered (key_eq ks') q (next s) (Some v)))).
  assert (A: forall y b, at_ y b -> lives s3 y -> has s3 y b).
  { intros y b [(Y & Hy)|(-> & ->)] (m & c & M).
    - destruct (K y m c Y M) as (m' & M'). rewrite (has_fun _ _ _ _ Hy (ex_intro _ m' M')). exists m. exact M.
    - destruct (K23 d m c Logic.I M) as (m' & M'). rewrite (has_fun _ _ _ _ D1 (ex_intro _ m' M')). exists m. exact M. }
  assert (Same: forall j, In (CElement j) (eelements el') <-> In (CElement j) (eelements el)) by (intros j; reflexivity).
  assert (Rs: forall i x, nth_error (upd h e el') i = Some x -> rep at_ ks' ids x (ids i)).
  { assert (Tx: forall y tt, has s y Leaf -> text_of ks y = Some tt -> text_of ks' y = Some tt) by (intros y tt Hy Q; unfold ks'; rewrite text_fresh; [exact Q|apply has_lt in Hy; lia]).
    assert (Al: forall y b, y <> d -> has s y b -> at_ y b) by (intros y b Y Hy; left; split; [exact Y|apply F0, Hy]). assert (Aleaf: forall y, has s y Leaf -> at_ y Leaf) by (intros y Hy; apply Al; [intros ->; exact (NL Hy)|exact Hy]).
    intros i x Ni. destruct (upd_cases _ _ _ _ _ Ni) as [(-> & -> & _)|(D & Ni')].
    - split; [apply Al; [unfold d; lia|exact R1]|]. split; [apply Aleaf, R2|]. split.
      + eexists. split; [right; split; reflexivity|]. unfold el'. cbn [XML_Model.eattributes]. apply entered_attr.
        * unfold ks'. cbn [text_of]. rewrite Nat.eqb_refl. reflexivity.
        * apply f2_impl with (2 := F3). intros kv y (Y1 & Y2 & _). exact (Tx _ _ Y2 Y1).
        * apply f2_impl with (2 := F3). intros kv y (Y1 & Y2 & w & Y3 & Y4). split; [exact (Tx _ _ Y2 Y1)|]. split; [apply Aleaf, Y2|]. exists w. split; [exact Y3|apply Aleaf, Y4].
        * intros p y (Y1 & Y2 & _) Q. split; [exact Q|]. split; [exact Y2|]. exists v. split; [reflexivity|apply Aleaf, V2].
        * split; [unfold ks'; cbn [text_of fst]; rewrite Nat.eqb_refl; reflexivity|]. split; [left; split; [cbn [fst]; lia|exact X0]|]. exists v. split; [reflexivity|apply Aleaf, V2].
      + exists q4. split; [apply Al; [unfold d; lia|exact R4]|]. apply f2_impl with (2 := F4). intros [u|j] r; cbn; [intros (y & Y & Lf); exists y; split; [exact Y|apply Aleaf, Lf]|intros (Y & Lf); split; [exact Y|apply Al; [intros Z; rewrite Z in Lf at 1; exact (NP _ Lf)|exact Lf]]].
    - pose proof (nth_len _ _ _ Ni') as Hi. pose proof (w_reps _ _ _ _ _ _ _ _ _ Hw i x Ni') as R. apply (rep_away (has s) d) in R; [|exact NL|exact NP| |].
      + apply rep_mono with (3 := R); [intros y b (Y & Hy); exact (Al y b Y Hy)|intros y tt (_ & Hy); exact (Tx y tt Hy)].
      + intros Z. apply D, (w_inj _ _ _ _ _ _ _ _ _ Hw i e Hi He). unfold d in Z. lia.
      + intros Z. destruct R as (_ & _ & _ & (q' & Q & _)). rewrite Z in Q. pose proof (has_fun _ _ _ _ Q R3). discriminate. }
  assert (Rt: 0 < length (upd h e el') -> In (ids 0) (hands s3)).
  { intros Z. rewrite Hh3. destruct (w_root _ _ _ _ _ _ _ _ _ Hw) as [(_ & -> & _)|(_ & _ & ->)]; [cbn in He; lia|]. apply in_or_app. right. right. left. reflexivity. }
  apply (w_change base s s3 h rs (es ++ [e]) rt (Some v) None ks ks' ids e el el' Hw N); try assumption.
  - intros y Y. rewrite T3', T2', T1', B0 by lia. apply (w_below _ _ _ _ _ _ _ _ _ Hw y Y).
  - unfold next in *. lia.
  - apply A; [left; split; [unfold d; lia|apply F0, Pl]|]. apply (hand_lives s3 I3). rewrite Hh3. apply in_or_app. right. left. reflexivity.
  - exact (settle at_ ks' ids (upd h e el') s3 I3 A Rt (links_upd h e el el' (w_links _ _ _ _ _ _ _ _ _ Hw) N (fun j => proj2 (Same j))) Rs).
  - discriminate.
Qed.
