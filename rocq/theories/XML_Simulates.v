(** Every step of the parser is a step of the machine on names and trees, or the stack is full. *)
Require Import Coq.ZArith.ZArith Coq.NArith.NArith Coq.Lists.List Coq.Bool.Bool Coq.micromega.Lia Coq.micromega.ZifyBool Coq.micromega.ZifyN.
Require Import Verif.Base Verif.XML_Model Verif.XML_Spec Verif.XML_Machine Verif.XML_Forward Verif.XML_Forward2 Verif.XML_Backward Verif.XML_Memory Verif.XML_Relation.
Import ListNotations.
Local Open Scope N_scope.

Definition fname (f : frame) : bytes := fst (fst f).
Definition open_names (fs : list frame) : list bytes := rev (map fname fs).
Definition extra (s : ystate) (n : bytes) : list bytes := match naming s with Some _ => [n] | None => [] end.
Definition elem_ok (s : ystate) (fs : list frame) (n : bytes) (e : nat) : Prop :=
  match naming s with
  | Some K_elem => e = length (mem (open_names fs))
  | _ => match fs with [] => True | _ :: fs' => e = (length (mem (open_names fs')) + (if matching s then length n else 0))%nat end
  end.
Record Holds (s nx : ystate) (c : cfg) (x : yxml) (h : list element) (r : option nat) (es : list nat) (av : option bytes) : Prop := mkH {
  h_zone : zoned (zone_of s nx) (c_frames c) (c_root c);
  h_mem : exists rest, stack x = map Some (mem (open_names (c_frames c) ++ extra s (c_name c))) ++ rest;
  h_len : S (stacklen x) = length (mem (open_names (c_frames c) ++ extra s (c_name c)));
  h_clean : Forall clean (open_names (c_frames c) ++ extra s (c_name c));
  h_data : length (data x) = 8%nat;
  h_heap : heap_rel (c_frames c) (c_root c) h r es;
  h_name : naming s = None -> matching s = false -> c_name c = [];
  h_elem : elem_ok s (c_frames c) (c_name c) (elem x);
  h_attr : naming s = Some K_attr -> attr x = length (mem (open_names (c_frames c)));
  h_pi : naming s = Some K_pi -> pi x = length (mem (open_names (c_frames c)));
  h_val : valued s = true -> av = Some (c_val c);
  h_ref : refing s = true -> data x = c_ref c ++ repeat 0 (8 - length (c_ref c)) /\ reflen x = length (c_ref c) /\ (length (c_ref c) <= 7)%nat;
  h_match : matching s = true -> (length (c_name c) <= length (top_name c))%nat }.
Definition Same (c : cfg) (x : yxml) : Prop := st x = c_st c /\ nextst x = c_next c /\ quote x = c_quote c /\ str x = c_str c.
Definition Rel (c : cfg) (x : yxml) (h : list element) (r : option nat) (es : list nat) (av : option bytes) : Prop :=
  Same c x /\ inv (c_st c) (c_next c) = true /\ (stringing (c_st c) = true -> good_string (c_str c) = true) /\ Holds (c_st c) (c_next c) c x h r es av.
Definition error (r : ret) : bool := match r with EREF | ECLOSE | ESYN => true | _ => false end.

Lemma open_cons : forall f fs, open_names (f :: fs) = open_names fs ++ [fname f].
Proof. reflexivity. Qed.
Lemma set_assign : forall l k v, set_attribute l k v = assign l k v.
Proof. induction l as [|[k' v'] l IH]; intros k v; [reflexivity|]. cbn [set_attribute assign]. now rewrite IH. Qed.
Lemma remove_rev : forall A (e : A) es, removelast (rev (e :: es)) = rev es.
Proof. intros. cbn [rev]. apply removelast_last. Qed.
Lemma as_space_good : forall ch, good ch -> setchar (if (ch =? 9) || (ch =? 10) then 32 else ch) = as_space ch /\ good (as_space ch).
Proof.
  intros ch Hg. unfold setchar, as_space, good in *. destruct ((ch =? 9) || (ch =? 10)) eqn:E.
  - split; [|destruct (_ || _); lia]. rewrite N.mod_small by lia. destruct (_ || _) eqn:E2; lia.
  - split; [|destruct (_ || _); lia]. rewrite N.mod_small by lia. destruct (_ || _) eqn:E2; lia.
Qed.

Section Step.
Variable isspace : Z -> outcome bool.
Variable report : list N -> list Verif.Stream_Model.arg -> outcome unit.
Hypothesis Hspace : spacelike isspace.

Definition acted (a : act) (c : cfg) (x : yxml) (h : list element) (r : option nat) (es : list nat) (av : option bytes) (ch : N) (res : result) (cres : option cfg) : Prop :=
  (exists x', res = Ok (x', ESTACK) /\ (length (stack x) <= stacklen x + 2)%nat) \/
  exists x' rt, res = Ok (x', rt) /\ length (stack x') = length (stack x) /\ (stacklen x' <= stacklen x + 2)%nat /\ ignore x' = ignore x /\
    match cres with
    | None => error rt = true
    | Some c' => exists h' r' es' av',
      handle isspace report (mkS x' h r (rev es) av) rt = Ok (Some (mkS x' h' r' (rev es') av')) /\ Rel c' x' h' r' es' av'
    end.

Lemma open_clean : forall s nx c x h r es av, Holds s nx c x h r es av -> Forall clean (open_names (c_frames c)).
Proof. intros s nx c x h r es av H. apply (h_clean _ _ _ _ _ _ _ _) in H. apply Forall_app in H. tauto. Qed.
Lemma name_clean : forall s nx c x h r es av, Holds s nx c x h r es av -> naming s <> None -> clean (c_name c).
Proof.
  intros s nx c x h r es av H Hn. apply (h_clean _ _ _ _ _ _ _ _) in H. apply Forall_app in H. destruct H as [_ H]. unfold extra in H.
  destruct (naming s); [|congruence]. now inversion H.
Qed.

Ltac stk H rest Hm Hl := destruct (h_mem _ _ _ _ _ _ _ _ H) as (rest & Hm); pose proof (h_len _ _ _ _ _ _ _ _ H) as Hl.

(** Closing an element. *)
Lemma act_close : forall s nx c x h r es av ch a, Holds s nx c x h r es av -> Same c x -> naming s = None -> zone_of s nx = Ele ->
  naming (c_st c) = None -> valued (c_st c) = false -> refing (c_st c) = false -> matching (c_st c) = false -> stringing (c_st c) = false ->
  base (c_st c) = Ele -> inv (c_st c) (c_next c) = true ->
  acted a c x h r es av ch (selfclose x ch) (close c).
Proof.
  intros s nx c x h r es av ch a H (Es & En & Eq & Er) Hn Hz Hn' Hv' Hr' Hm' Hs' Hb Hi. right.
  pose proof (h_zone _ _ _ _ _ _ _ _ H) as Z. rewrite Hz in Z. destruct Z as [Hne Hrt].
  stk H rest Hm Hl. pose proof (open_clean _ _ _ _ _ _ _ _ H) as Hc. pose proof (h_heap _ _ _ _ _ _ _ _ H) as Hh.
  unfold extra in Hm, Hl. rewrite Hn, app_nil_r in Hm, Hl. unfold close.
  destruct (c_frames c) as [|[[n aa] k] fs] eqn:Ef; [congruence|]. rewrite open_cons in *. cbn [fname fst] in *.
  apply Forall_app in Hc. destruct Hc as [Hc Hcn]. apply Forall_inv in Hcn.
  destruct (heap_close _ _ _ _ _ _ _ _ Hh) as (e & es' & -> & Hh').
  destruct fs as [|[[n' a'] k'] fs].
  - cbn [open_names map rev app] in Hm, Hl. rewrite (selfclose_outer x n rest ch Hm Hl Hcn).
    eexists _, _. split; [reflexivity|]. cbn [stack stacklen ignore to_state set_elem set_stack]. split; [reflexivity|]. split; [lia|]. split; [reflexivity|].
    eexists h, r, es', av. split; [unfold handle; cbn [estack heap root attrvalue parser]; rewrite remove_rev; reflexivity|].
    assert (Em : exists rest', stack x = map Some (mem []) ++ rest').
    { rewrite Hm. change [n] with ([] ++ [n]). rewrite mem_snoc, map_app, <- app_assoc. eexists. reflexivity. }
    split; [repeat split; cbn; assumption|]. split; [reflexivity|]. split; [discriminate|].
    constructor; cbn; try discriminate; try (now auto).
    exact (h_data _ _ _ _ _ _ _ _ H).
  - rewrite open_cons in *. cbn [fname fst] in *. rewrite <- app_assoc in Hm, Hl. cbn [app] in Hm, Hl.
    apply Forall_app in Hc. destruct Hc as [Hc Hcn']. apply Forall_inv in Hcn'.
    rewrite (selfclose_inner x (open_names fs) n n' rest ch Hm Hl Hcn Hcn').
    eexists _, _. split; [reflexivity|]. cbn [stack stacklen ignore to_state set_elem set_stack].
    assert (Hle : (1 <= length (mem (open_names fs ++ [n'])) <= length (mem (open_names fs ++ [n'; n])))%nat).
    { change [n'; n] with ([n'] ++ [n]). rewrite app_assoc, (mem_snoc (open_names fs ++ [n'])), app_length. split; [|lia].
      rewrite mem_snoc, !app_length. cbn [length]. lia. }
    split; [reflexivity|]. split; [lia|]. split; [reflexivity|].
    eexists h, r, es', av. split; [unfold handle; cbn [estack heap root attrvalue parser]; rewrite remove_rev; reflexivity|].
    split; [repeat split; cbn; assumption|]. split; [assumption|]. cbn [c_st with_frames with_name].
    split; [rewrite Hs'; discriminate|].
    constructor; cbn [c_frames c_name c_root c_val c_ref with_frames with_name stack stacklen data elem attr pi reflen set_elem set_stack]; try (intros X; congruence).
    + unfold zone_of. cbn [c_next with_frames with_name]. rewrite Hb. split; [discriminate|assumption].
    + unfold extra. rewrite Hn', app_nil_r, open_cons. cbn [fname fst]. rewrite Hm. change [n'; n] with ([n'] ++ [n]).
      rewrite app_assoc, (mem_snoc (open_names fs ++ [n'])), map_app, <- app_assoc. eexists. reflexivity.
    + unfold extra. rewrite Hn', app_nil_r, open_cons. cbn [fname fst]. lia.
    + unfold extra. rewrite Hn', app_nil_r, open_cons. cbn [fname fst]. apply Forall_app. auto.
    + exact (h_data _ _ _ _ _ _ _ _ H).
    + exact Hh'.
    + unfold elem_ok. rewrite Hn', Hm'. lia.
Qed.

(** Steps that leave the stack alone. *)
Lemma keep : forall s nx c x h r es av s' nx' c' x' h' r' es' av', Holds s nx c x h r es av ->
  naming s' = naming s -> matching s = false -> matching s' = false -> zoned (zone_of s' nx') (c_frames c') (c_root c') ->
  map fname (c_frames c') = map fname (c_frames c) -> c_name c' = c_name c ->
  stack x' = stack x -> stacklen x' = stacklen x -> elem x' = elem x -> attr x' = attr x -> pi x' = pi x -> length (data x') = 8%nat ->
  heap_rel (c_frames c') (c_root c') h' r' es' ->
  (valued s' = true -> av' = Some (c_val c')) ->
  (refing s' = true -> data x' = c_ref c' ++ repeat 0 (8 - length (c_ref c')) /\ reflen x' = length (c_ref c') /\ (length (c_ref c') <= 7)%nat) ->
  Holds s' nx' c' x' h' r' es' av'.
Proof.
  intros s nx c x h r es av s' nx' c' x' h' r' es' av' H Hn Hm Hm' Hz Hf Ha Es El Ee Et Ep Ed Hh Hv Hr.
  assert (Ho : open_names (c_frames c') = open_names (c_frames c)) by (unfold open_names; now rewrite Hf).
  assert (Hx : extra s' (c_name c') = extra s (c_name c)) by (unfold extra; now rewrite Hn, Ha).
  destruct H as [H1 H2 H3 H4 H5 H6 H7 H8 H9 H10 H11 H12 H13].
  constructor; rewrite ?Ho, ?Hx, ?Es, ?El, ?Et, ?Ep, ?Hn, ?Ha; try assumption.
  - intros Hn0 _. auto.
  - unfold elem_ok in *. rewrite Hn, Ee, Hm', Ho. rewrite Hm in H8. destruct (naming s) as [[]|]; try assumption;
      destruct (c_frames c') as [|f' fs'], (c_frames c) as [|f fs]; try discriminate Hf; try exact Logic.I;
      rewrite H8; unfold open_names; cbn [map] in Hf; now injection Hf as _ ->.
  - congruence.
Qed.
(** Steps that take the name read from the stack. *)
Lemma popped : forall s nx c x h r es av s' nx' c' x' h' r' es' av', Holds s nx c x h r es av ->
  naming s <> None -> naming s <> Some K_elem -> naming s' = None -> matching s = false -> matching s' = false -> valued s' = false -> refing s' = false ->
  zoned (zone_of s' nx') (c_frames c') (c_root c') ->
  map fname (c_frames c') = map fname (c_frames c) -> c_name c' = [] ->
  stack x' = stack x -> stacklen x' = (length (mem (open_names (c_frames c))) - 1)%nat -> elem x' = elem x -> length (data x') = 8%nat ->
  heap_rel (c_frames c') (c_root c') h' r' es' ->
  Holds s' nx' c' x' h' r' es' av'.
Proof.
  intros s nx c x h r es av s' nx' c' x' h' r' es' av' H Hn0 Hn1 Hn Hm Hm' Hv' Hr' Hz Hf Ha Es El Ee Ed Hh.
  assert (Ho : open_names (c_frames c') = open_names (c_frames c)) by (unfold open_names; now rewrite Hf).
  pose proof (open_clean _ _ _ _ _ _ _ _ H) as Hc.
  destruct H as [H1 H2 H3 H4 H5 H6 H7 H8 H9 H10 H11 H12 H13].
  constructor; rewrite ?Ho; try assumption; try (intros X; congruence).
  - unfold extra. rewrite Hn, app_nil_r, Es. destruct H2 as (rest & H2). rewrite H2. unfold extra. destruct (naming s); [|congruence].
    rewrite mem_snoc, map_app, <- app_assoc. eexists. reflexivity.
  - unfold extra. rewrite Hn, app_nil_r, El. destruct (mem_last (open_names (c_frames c))) as (m & ->). rewrite app_length. cbn [length]. lia.
  - unfold extra. now rewrite Hn, app_nil_r.
  - unfold elem_ok in *. rewrite Hn, Ee, Hm'. rewrite Hm in H8. destruct (naming s) as [[]|]; try congruence;
      destruct (c_frames c') as [|f' fs'], (c_frames c) as [|f fs]; try discriminate Hf; try exact Logic.I;
      rewrite H8; unfold open_names; cbn [map] in Hf; now injection Hf as _ ->.
Qed.
Lemma pop_here : forall s nx c x h r es av, Holds s nx c x h r es av -> naming s <> None ->
  popstack x = Ok (set_stack x (stack x) (length (mem (open_names (c_frames c))) - 1)) /\ (length (mem (open_names (c_frames c))) - 1 <= stacklen x)%nat.
Proof.
  intros s nx c x h r es av H Hn. stk H rest Hm Hl. pose proof (name_clean _ _ _ _ _ _ _ _ H Hn) as Hc. unfold extra in Hm, Hl.
  destruct (naming s); [|congruence]. split; [eapply pop_ok; eassumption|]. rewrite mem_snoc, !app_length in Hl. cbn [length] in Hl. lia.
Qed.

Ltac simp := cbn [c_st c_next c_quote c_str c_frames c_name c_val c_ref c_root with_state with_str with_frames with_name with_val with_ref with_root
  elem attr pi data st stack stacklen reflen quote nextst ignore str
  to_state to_next set_next set_quote set_string set_data set_stack set_elem set_attr set_pi] in *.
Lemma act_ok : forall a sr s nx c x h r es av ch, Holds s nx c x h r es av -> Same c x -> inv (c_st c) (c_next c) = true ->
  fits a sr s nx (c_st c) (c_next c) -> (stringing (c_st c) = true -> (a = A_ok \/ a = A_string) -> good_string (c_str c) = true) -> good ch ->
  acted a c x h r es av ch (perform x a ch) (aperform c a ch).
Proof.
  intros a sr s nx c x h r es av ch H Hsame Hinv Hf Hstr Hg. pose proof Hsame as (Es & En & Eq & Er).
  pose proof (h_zone _ _ _ _ _ _ _ _ H) as Hz. pose proof (h_heap _ _ _ _ _ _ _ _ H) as Hh. pose proof (h_data _ _ _ _ _ _ _ _ H) as Hd.
  destruct a as [| | |k| | | | | | | | | | | | |pre|pre| | |]; cbn [fits perform aperform] in *.
  - (* A_ok *) destruct Hf as (F1 & F2 & F3 & F4 & F5 & F6 & F7). right. exists x, OK. split; [reflexivity|]. split; [reflexivity|]. split; [lia|]. split; [reflexivity|].
    exists h, r, es, av. split; [reflexivity|]. split; [assumption|]. split; [assumption|]. split; [intros X; apply Hstr; auto|].
    apply (keep s nx c x h r es av); auto; [rewrite F7; assumption|intros X; apply (h_val _ _ _ _ _ _ _ _ H); auto|congruence].
  - (* A_esyn *) right. exists x, ESYN. repeat split; try reflexivity. lia.
  - (* A_string *) destruct Hf as (-> & F2 & F3 & F4). right. rewrite F2 in Hstr. specialize (Hstr eq_refl (or_intror eq_refl)).
    rewrite Er. unfold good_string in Hstr. destruct (rev (c_str c)) as [|z [|y l]] eqn:El; [discriminate|discriminate Hstr || destruct z; discriminate Hstr|].
    destruct z; [|discriminate Hstr]. assert (Ec : c_str c = rev (y :: l) ++ [0]) by (rewrite <- (rev_involutive (c_str c)), El; reflexivity).
    assert (Hall : Forall (fun b => b <> 0) (rev (y :: l))).
    { apply Forall_rev. rewrite forallb_forall in Hstr. apply Forall_forall. intros b Hb. apply Hstr in Hb. lia. }
    destruct (rev (y :: l)) as [|b l'] eqn:Erev; [cbn [rev] in Erev; destruct (rev l); discriminate Erev|]. rewrite Ec. cbn [app Verif.Utf8_Model.rd nth_error obind skipn].
    unfold Verif.Utf8_Model.rd. cbn [nth_error obind skipn]. pose proof (Forall_inv Hall) as Hb0. pose proof (Forall_inv_tail Hall) as Hall'. cbv beta in Hb0.
    destruct l' as [|b' l'']; cbn [app].
    + destruct (ch =? b); [|exists x, ESYN; repeat split; try reflexivity; apply Nat.le_add_r].
      cbn [nth_error obind N.eqb]. eexists _, _. split; [reflexivity|]. split; [reflexivity|]. split; [simp; apply Nat.le_add_r|]. split; [reflexivity|].
      exists h, r, es, av. split; [reflexivity|]. simp. unfold inv in Hinv. rewrite F2 in Hinv. cbn [base declaring] in Hinv. rewrite andb_true_r in Hinv.
      unfold plain in Hinv. split; [repeat split; simp; auto|]. simp. rewrite F3 in Hinv.
      assert (P : naming nx = None /\ valued nx = false /\ refing nx = false /\ matching nx = false /\ stringing nx = false /\ declaring nx = false /\ base nx <> Via).
      { destruct (naming nx); [discriminate|]. destruct (valued nx), (refing nx), (matching nx), (stringing nx), (declaring nx), (base nx); try discriminate Hinv; repeat split; discriminate. }
      destruct P as (P1 & P2 & P3 & P4 & P5 & P6 & P7). rewrite F3.
      split; [unfold inv; rewrite P6; destruct (base nx); auto; congruence|]. split; [rewrite P5; discriminate|].
      apply (keep S_string nx c x h r es av); simp; auto; try congruence.
      unfold zone_of in *. cbn [base] in Hz. destruct (base nx); auto; contradiction.
    + destruct (ch =? b); [|exists x, ESYN; repeat split; try reflexivity; apply Nat.le_add_r].
      pose proof (Forall_inv Hall') as Hb1. cbv beta in Hb1. cbn [nth_error obind str set_string]. replace (b' =? 0) with false by lia.
      eexists _, _. split; [reflexivity|]. split; [reflexivity|]. split; [simp; apply Nat.le_add_r|]. split; [reflexivity|].
      exists h, r, es, av. split; [reflexivity|]. split; [repeat split; simp; auto|]. simp. split; [assumption|]. split.
      * intros _. unfold good_string. rewrite app_comm_cons, rev_app_distr. cbn [rev app]. 
        destruct (rev l'' ++ [b']) as [|u v] eqn:Eu; [destruct (rev l''); discriminate Eu|]. rewrite <- Eu. apply forallb_forall.
        intros w Hw. rewrite Forall_forall in Hall'. assert (Hw' : In w (b' :: l'')). { rewrite in_app_iff, <- in_rev in Hw. cbn [In] in *. tauto. }
        apply Hall' in Hw'. lia.
      * rewrite F2. apply (keep S_string nx c x h r es av); simp; auto; try congruence. all: discriminate.
  - (* A_start *) destruct Hf as (F1 & F2 & F3 & F4 & F5 & F6 & F7 & F8). stk H rest Hm Hl. unfold extra in Hm, Hl. rewrite F1, app_nil_r in Hm, Hl.
    pose proof (open_clean _ _ _ _ _ _ _ _ H) as Hc.
    set (res := match k with K_elem => set_elem | K_attr => set_attr | K_pi => set_pi end).
    destruct (push_ok x res _ rest ch Hm Hl Hg) as [(Hp & Hfull)|(rest' & Hlen & Hroom & Hp)]; [left; exists x; auto|].
    right. rewrite Hp. eexists _, _. split; [reflexivity|]. simp. split; [exact Hlen|]. split; [lia|]. split; [destruct k; reflexivity|].
    exists h, r, es, av. split; [reflexivity|]. split; [destruct k; repeat split; simp; auto|]. simp. split; [assumption|]. split; [rewrite F7; discriminate|].
    pose proof (h_elem _ _ _ _ _ _ _ _ H) as He. unfold elem_ok in He. rewrite F1, F2 in He.
    assert (Hz' : zoned (zone_of (c_st c) (c_next c)) (c_frames c) (c_root c)).
    { destruct k; [|rewrite F8; assumption|rewrite F8; assumption]. destruct F8 as [[E|E] ->]; rewrite E in Hz; destruct Hz; assumption. }
    constructor; simp; try (intros X; congruence); auto.
    + unfold extra. rewrite F3. eexists. reflexivity.
    + unfold extra. rewrite F3, mem_snoc, app_length. cbn [app length]. lia.
    + unfold extra. rewrite F3. apply Forall_app. split; [assumption|]. apply Forall_cons; [|apply Forall_nil]. split; [discriminate|]. apply Forall_cons; [assumption|apply Forall_nil].
    + destruct k; assumption.
    + unfold elem_ok. rewrite F3, F6. destruct k; simp; [reflexivity|assumption|assumption].
    + intros X. destruct k; try congruence. reflexivity.
    + intros X. destruct k; try congruence. reflexivity.
  - (* A_name *) destruct Hf as (F1 & F2 & F3 & F4 & F5 & F6 & F7 & F8). stk H rest Hm Hl. unfold extra in Hm, Hl.
    pose proof (open_clean _ _ _ _ _ _ _ _ H) as Hc. pose proof (name_clean _ _ _ _ _ _ _ _ H F2) as [Hcn Hcn'].
    pose proof (h_elem _ _ _ _ _ _ _ _ H) as He. pose proof (h_attr _ _ _ _ _ _ _ _ H) as Hat. pose proof (h_pi _ _ _ _ _ _ _ _ H) as Hpi.
    unfold elem_ok in He. rewrite F3 in He. rewrite <- F1 in *. destruct (naming (c_st c)) as [k|] eqn:Ek; [|congruence].
    destruct (pushc_ok x _ _ rest ch Hm Hl Hg) as [(Hp & Hfull)|(rest' & Hlen & Hp)]; [left; exists x; auto|].
    right. rewrite Hp. eexists _, _. split; [reflexivity|]. simp. split; [exact Hlen|]. split; [lia|]. split; [reflexivity|].
    exists h, r, es, av. split; [reflexivity|]. split; [repeat split; simp; auto|]. simp. split; [assumption|]. split; [rewrite F7; discriminate|].
    constructor; simp; try (intros X; congruence); try (intros X; first [apply Hat|apply Hpi]; congruence); auto.
    + rewrite F8. assumption.
    + unfold extra. rewrite Ek. eexists. reflexivity.
    + unfold extra. rewrite Ek. rewrite mem_snoc in *. repeat (rewrite ?app_length in *; cbn [length] in * ). lia.
    + unfold extra. rewrite Ek. apply Forall_app. split; [assumption|]. apply Forall_cons; [|apply Forall_nil]. split; [destruct (c_name c); discriminate|].
      apply Forall_app. split; [assumption|]. apply Forall_cons; [assumption|apply Forall_nil].
    + unfold elem_ok. rewrite Ek, F6. assumption.
  - (* A_elemnameend *) destruct Hf as (F1 & F2 & F3 & F4 & F5 & F6 & F7 & F8). stk H rest Hm Hl. unfold extra in Hm, Hl. rewrite F1 in Hm, Hl.
    pose proof (open_clean _ _ _ _ _ _ _ _ H) as Hc. assert (F9 : naming s <> None) by congruence. pose proof (name_clean _ _ _ _ _ _ _ _ H F9) as Hcn.
    pose proof (h_elem _ _ _ _ _ _ _ _ H) as He. unfold elem_ok in He. rewrite F1 in He.
    right. unfold elemnameend. exists x, ELEMSTART. split; [reflexivity|]. split; [reflexivity|]. split; [lia|]. split; [reflexivity|].
    rewrite F7 in Hz. cbn [zoned] in Hz. rewrite Hz in Hh. pose proof (heap_open (c_name c) _ _ _ _ Hh) as Ho.
    unfold handle. cbn [estack heap root attrvalue parser top]. rewrite Hm, He, name_read by assumption. cbn [obind].
    assert (Hgoal : forall h' r' es', heap_rel ((c_name c, [], []) :: c_frames c) None h' r' es' ->
      Rel (with_frames (with_name c []) ((c_name c, [], []) :: c_frames c)) x h' r' es' av).
    { intros h' r' es' Hh'. split; [repeat split; simp; auto|]. simp. split; [assumption|]. split; [rewrite F6; discriminate|].
      constructor; simp; try (intros X; congruence); auto.
      - rewrite F8. split; [discriminate|assumption].
      - unfold extra. rewrite F2, app_nil_r, open_cons. exists rest. exact Hm.
      - unfold extra. rewrite F2, app_nil_r, open_cons. exact Hl.
      - unfold extra. rewrite F2, app_nil_r, open_cons. apply Forall_app. split; [assumption|]. apply Forall_cons; [assumption|apply Forall_nil].
      - rewrite Hz. exact Hh'.
      - unfold elem_ok. rewrite F2, F5, Nat.add_0_r. exact He. }
    destruct (c_frames c) as [|f fs] eqn:Ef.
    + destruct Ho as [-> Ho]. destruct Hh as (_ & Hfr & _). destruct es as [|e es]; [|destruct Hfr]. cbn [rev app].
      eexists _, _, [length h], _. split; [reflexivity|]. apply Hgoal. exact Ho.
    + destruct Ho as (e & es' & p & Hr & -> & Hp & Ho). destruct r as [r0|]; [|congruence].
      unfold top. cbn [estack heap]. rewrite rev_involutive, Hp. cbn [obind fst snd].
      eexists _, _, (length h :: e :: es'), _. split; [reflexivity|]. apply Hgoal. exact Ho.
  - (* A_selfclose *) destruct Hf as (F1 & F2 & F3 & F4 & F5 & F6 & F7 & F8 & F9). now apply (act_close s nx).
  - (* A_elemclose *) destruct Hf as (F1 & F3 & F6 & F4 & F5 & F7 & F8 & F9). right. stk H rest Hm Hl. unfold extra in Hm, Hl. rewrite F1, app_nil_r in Hm, Hl.
    pose proof (open_clean _ _ _ _ _ _ _ _ H) as Hc.
    pose proof (h_elem _ _ _ _ _ _ _ _ H) as He. unfold elem_ok in He. rewrite F1 in He.
    pose proof (h_match _ _ _ _ _ _ _ _ H) as Hma. pose proof (h_name _ _ _ _ _ _ _ _ H F1) as Hna.
    rewrite F8 in Hz. destruct Hz as [Hz1 Hz2]. unfold top_name in *. destruct (c_frames c) as [|[[n a] k] fs] eqn:Ef; [congruence|].
    assert (He' : elem x = (length (mem (open_names fs)) + length (c_name c))%nat /\ (length (c_name c) <= length n)%nat).
    { destruct (matching s); [auto|]. rewrite Hna by reflexivity. cbn [length]. split; [assumption|lia]. }
    destruct He' as [He1 He2]. unfold elemclose. rewrite open_cons in *. cbn [fname fst] in *. assert (Hrd : rds (stack x) (elem x) = Ok (nth (length (c_name c)) (n ++ [0]) 0)) by (rewrite Hm, He1; now apply rds_name). rewrite Hrd. cbn [obind].
    apply Forall_app in Hc. destruct Hc as [Hc Hcn]. apply Forall_inv in Hcn.
    destruct (nth_error n (length (c_name c))) as [b|] eqn:Eb.
    + assert (Hlt : (length (c_name c) < length n)%nat) by (apply nth_error_Some; congruence).
      rewrite app_nth1 by assumption. rewrite (nth_error_nth n _ 0 Eb). destruct (b =? ch) eqn:Ech; [|exists x, ECLOSE; repeat split; try reflexivity; apply Nat.le_add_r].
      eexists _, _. split; [reflexivity|]. split; [reflexivity|]. split; [simp; apply Nat.le_add_r|]. split; [reflexivity|].
      exists h, r, es, av. split; [reflexivity|]. split; [repeat split; simp; auto|]. simp. split; [assumption|]. split; [rewrite F7; discriminate|].
      constructor; simp; try (intros X; congruence); auto.
      * unfold zone_of. rewrite F9. rewrite Ef. split; [discriminate|assumption].
      * unfold extra. rewrite F3, app_nil_r, Ef, open_cons. exists rest. exact Hm.
      * unfold extra. rewrite F3, app_nil_r, Ef, open_cons. exact Hl.
      * unfold extra. rewrite F3, app_nil_r, Ef, open_cons. apply Forall_app. split; [assumption|]. apply Forall_cons; [assumption|apply Forall_nil].
      * rewrite Ef. assumption.
      * unfold elem_ok. rewrite F3, F6, Ef, app_length. cbn [length]. lia.
      * intros _. unfold top_name. simp. rewrite Ef, app_length. cbn [length]. lia.
    + assert (Heq : length (c_name c) = length n) by (apply nth_error_None in Eb; lia).
      rewrite app_nth2 by lia. rewrite Heq, Nat.sub_diag. cbn [nth]. replace (0 =? ch) with false by (unfold good in Hg; lia).
      exists x, ECLOSE. repeat split; try reflexivity; apply Nat.le_add_r.
  - (* A_elemcloseend *) destruct Hf as (F1 & F2 & F3 & F4 & F5 & F6 & F7 & F8 & F9). stk H rest Hm Hl. unfold extra in Hm, Hl. rewrite F1, app_nil_r in Hm, Hl.
    pose proof (open_clean _ _ _ _ _ _ _ _ H) as Hc.
    pose proof (h_elem _ _ _ _ _ _ _ _ H) as He. unfold elem_ok in He. rewrite F1, F2 in He.
    pose proof (h_match _ _ _ _ _ _ _ _ H F2) as Hma. pose proof Hz as Hz0. rewrite F8 in Hz0. destruct Hz0 as [Hz1 Hz2]. unfold top_name in *.
    destruct (c_frames c) as [|[[n a] k] fs] eqn:Ef; [congruence|]. rewrite open_cons in *. cbn [fname fst] in *.
    unfold elemcloseend. assert (Hrd : rds (stack x) (elem x) = Ok (nth (length (c_name c)) (n ++ [0]) 0)) by (rewrite Hm, He; now apply rds_name). rewrite Hrd. cbn [obind].
    apply Forall_app in Hc. destruct Hc as [Hc Hcn]. apply Forall_inv in Hcn. destruct Hcn as [_ Hcn].
    destruct (length (c_name c) =? length n)%nat eqn:Elen.
    + apply Nat.eqb_eq in Elen. rewrite app_nth2 by lia. rewrite Elen, Nat.sub_diag. cbn [nth N.eqb]. now apply (act_close s nx).
    + apply Nat.eqb_neq in Elen. rewrite app_nth1 by lia. replace (nth (length (c_name c)) n 0 =? 0) with false.
      * right. exists x, ECLOSE. repeat split; try reflexivity; apply Nat.le_add_r.
      * symmetry. apply N.eqb_neq. assert (Hlt : (length (c_name c) < length n)%nat) by lia. apply (nth_In n 0) in Hlt. rewrite Forall_forall in Hcn. apply Hcn in Hlt. unfold good in Hlt. lia.
  - (* A_attrnameend *) destruct Hf as (F1 & F2 & F3 & F4 & F5 & F6 & F7 & F8). right. exists x, ATTRSTART. split; [reflexivity|]. split; [reflexivity|]. split; [lia|]. split; [reflexivity|].
    exists h, r, es, (Some []). split; [reflexivity|]. split; [repeat split; simp; auto|]. simp. split; [assumption|]. split; [rewrite F6; discriminate|].
    apply (keep s nx c x h r es av); simp; auto; try congruence. unfold zone_of. rewrite F8. rewrite F7 in Hz. assumption.
  - (* A_attval *) destruct Hf as (F1 & F2 & F3 & F4 & F5 & F6 & F7 & F8 & F9). right. unfold dataattr. destruct (as_space_good ch Hg) as [-> Hg'].
    destruct (put_ok x [as_space ch] ATTRVAL Hd) as (tail & Hlen & ->); [cbn [length]; lia|].
    eexists _, _. split; [reflexivity|]. split; [reflexivity|]. split; [simp; lia|]. split; [reflexivity|].
    assert (Hall : Forall good [as_space ch]) by (apply Forall_cons; [assumption|apply Forall_nil]).
    eexists h, r, es, _. split; [unfold handle; cbn [parser attrvalue heap root estack]; simp; rewrite cstring_ok by assumption; cbn [obind]; reflexivity|].
    split; [repeat split; simp; auto|]. simp. split; [assumption|]. split; [rewrite F7; discriminate|].
    apply (keep s nx c x h r es av); simp; auto; try congruence.
    + unfold zone_of. rewrite F9. rewrite F8 in Hz. assumption.
    + intros _. rewrite (h_val _ _ _ _ _ _ _ _ H F3). reflexivity.
  - (* A_attrvalend *) destruct Hf as (F1 & F2 & F3 & F4 & F5 & F6 & F7 & F8 & F9 & F10). assert (Fn : naming s <> None) by congruence. right.
    unfold attrvalend. destruct (pop_here _ _ _ _ _ _ _ _ H Fn) as [-> Hle]. cbn [obind]. stk H rest Hm Hl. unfold extra in Hm. rewrite F1 in Hm.
    pose proof (name_clean _ _ _ _ _ _ _ _ H Fn) as Hcn. rewrite F9 in Hz. destruct Hz as [Hz1 Hz2].
    eexists _, _. split; [reflexivity|]. split; [reflexivity|]. split; [simp; lia|]. split; [reflexivity|].
    destruct (c_frames c) as [|[[n a] k] fs] eqn:Ef; [congruence|].
    destruct (heap_top _ _ _ _ _ _ _ _ Hh) as (e & es' & ks & -> & He & Hi & Ht & Hup).
    eexists _, _, (e :: es'), _. split.
    { unfold handle. cbn [estack heap root attrvalue parser]. unfold top. cbn [estack heap]. rewrite rev_involutive, He. cbn [obind fst snd]. simp.
      rewrite Hm, (h_attr _ _ _ _ _ _ _ _ H F1), Ef, name_read by assumption. cbn [obind]. rewrite (h_val _ _ _ _ _ _ _ _ H F3). cbn [ename eattributes eelements]. rewrite <- Hm, <- Ef. reflexivity. }
    split; [repeat split; simp; auto|]. simp. split; [assumption|]. split; [rewrite F8; discriminate|].
    eapply (popped s nx c x h r (e :: es') av); simp; auto; try congruence.
    + unfold zone_of. rewrite F10. split; [discriminate|assumption].
    + rewrite Ef. reflexivity.
    + rewrite set_assign. apply Hup; assumption.
  - (* A_refattrval *) destruct Hf as (F1 & F2 & F3 & F4 & F5 & F6 & F7 & F8 & F9 & F10). right. unfold refattrval.
    destruct (h_ref _ _ _ _ _ _ _ _ H F4) as (R1 & R2 & R3). pose proof (refend_ok x (c_ref c) ATTRVAL R1 R3) as Hre.
    destruct (ref_value (c_ref c)) as [v|]; [|rewrite Hre; exists x, EREF; repeat split; try reflexivity; apply Nat.le_add_r].
    destruct Hre as (Hv & tail & Hlen & ->). destruct (utf8_stored v Hv) as (_ & Hall & _).
    eexists _, _. split; [reflexivity|]. split; [reflexivity|]. split; [simp; lia|]. split; [reflexivity|].
    eexists h, r, es, _. split; [unfold handle; cbn [parser attrvalue heap root estack]; simp; rewrite cstring_ok by assumption; cbn [obind]; reflexivity|].
    split; [repeat split; simp; auto|]. simp. split; [assumption|]. split; [rewrite F8; discriminate|].
    apply (keep s nx c x h r es av); simp; auto; try congruence.
    + unfold zone_of. rewrite F10. rewrite F9 in Hz. assumption.
    + intros _. rewrite (h_val _ _ _ _ _ _ _ _ H F3). reflexivity.
  - (* A_refstart *) destruct Hf as (F1 & F2 & F3 & F4 & F5 & F6 & F7). right. unfold refstart. eexists _, _. split; [reflexivity|]. split; [reflexivity|]. split; [simp; lia|]. split; [reflexivity|].
    exists h, r, es, av. split; [reflexivity|]. split; [repeat split; simp; auto|]. simp. split; [assumption|]. split; [rewrite F5; discriminate|].
    apply (keep s nx c x h r es av); simp; auto; try congruence.
    + unfold zone_of. rewrite F7. rewrite F6 in Hz. assumption.
    + intros X. apply (h_val _ _ _ _ _ _ _ _ H). auto.
    + intros _. cbn [app length]. repeat split. lia.
  - (* A_ref *) destruct Hf as (F1 & F2 & F3 & F4 & F5 & F6 & F7 & F8). right. destruct (h_ref _ _ _ _ _ _ _ _ H F3) as (R1 & R2 & R3).
    destruct (7 <=? length (c_ref c))%nat eqn:E7.
    + unfold ref. rewrite R2, E7. exists x, EREF. repeat split; try reflexivity; apply Nat.le_add_r.
    + apply Nat.leb_gt in E7. rewrite (ref_put x (c_ref c) ch R1 R2 E7 Hg). eexists _, _. split; [reflexivity|]. split; [reflexivity|]. split; [simp; lia|]. split; [reflexivity|].
      exists h, r, es, av. split; [reflexivity|]. split; [repeat split; simp; auto|]. simp. split; [assumption|]. split; [rewrite F6; discriminate|].
      apply (keep s nx c x h r es av); simp; auto; try congruence.
      * unfold zone_of. rewrite F8. rewrite F7 in Hz. assumption.
      * rewrite !app_length, repeat_length. cbn [length]. lia.
      * intros X. apply (h_val _ _ _ _ _ _ _ _ H). auto.
      * intros _. split; [reflexivity|]. split; [reflexivity|]. rewrite app_length. cbn [length]. lia.
  - (* A_refcontent *) destruct Hf as (F1 & F2 & F3 & F4 & F5 & F6 & F7 & F8 & F9 & F10). right. unfold refcontent.
    destruct (h_ref _ _ _ _ _ _ _ _ H F4) as (R1 & R2 & R3). pose proof (refend_ok x (c_ref c) CONTENT R1 R3) as Hre.
    destruct (ref_value (c_ref c)) as [v|]; [|rewrite Hre; exists x, EREF; repeat split; try reflexivity; apply Nat.le_add_r].
    destruct Hre as (Hv & tail & Hlen & ->). destruct (utf8_stored v Hv) as (_ & Hall & Hl1).
    eexists _, _. split; [reflexivity|]. split; [reflexivity|]. split; [simp; lia|]. split; [reflexivity|].
    rewrite F9 in Hz. destruct Hz as [Hz1 Hz2]. destruct (c_frames c) as [|[[n a] k] fs] eqn:Ef; [congruence|].
    destruct (heap_top _ _ _ _ _ _ _ _ Hh) as (e & es' & ks & -> & He & Hi & Ht & Hup).
    destruct (append_ok isspace ks (utf8 v) tail Hspace Ht Hall) as [Ha Ht']; [destruct (utf8 v); [cbn [length] in Hl1; lia|discriminate]|].
    eexists _, _, (e :: es'), _. split.
    { unfold handle. cbn [estack heap root attrvalue parser]. unfold top. cbn [estack heap]. rewrite rev_involutive, He. cbn [obind fst snd ename eattributes eelements]. simp.
      rewrite Ha. cbn [obind]. unfold set_heap. cbn [parser heap root estack attrvalue]. reflexivity. }
    split; [repeat split; simp; auto|]. simp. split; [assumption|]. split; [rewrite F8; discriminate|].
    apply (keep s nx c x h r (e :: es') av); simp; auto; try congruence.
    + unfold zone_of. rewrite F10. split; [discriminate|assumption].
    + rewrite Ef. reflexivity.
    + cbn [add_top]. apply Hup; [now apply items_unit|assumption].
  - (* A_content *) destruct Hf as (F1 & F2 & F3 & F4 & F5 & F6 & F7 & F8 & F9 & F10 & F11). right.
    assert (Hset : setchar ch = ch) by (unfold setchar; apply N.mod_small; unfold good in Hg; lia). rewrite Hset.
    destruct (put_ok x (pre ++ [ch]) CONTENT Hd) as (tail & Hlen & ->); [rewrite app_length; cbn [length]; lia|].
    assert (Hall : Forall good (pre ++ [ch])) by (apply Forall_app; split; [assumption|apply Forall_cons; [assumption|apply Forall_nil]]).
    eexists _, _. split; [reflexivity|]. split; [reflexivity|]. split; [simp; lia|]. split; [reflexivity|].
    rewrite F8 in Hz. destruct Hz as [Hz1 Hz2]. destruct (c_frames c) as [|[[n a] k] fs] eqn:Ef; [congruence|].
    destruct (heap_top _ _ _ _ _ _ _ _ Hh) as (e & es' & ks & -> & He & Hi & Ht & Hup).
    destruct (append_ok isspace ks (pre ++ [ch]) tail Hspace Ht Hall) as [Ha Ht']; [destruct pre; discriminate|].
    eexists _, _, (e :: es'), _. split.
    { unfold handle. cbn [estack heap root attrvalue parser]. unfold top. cbn [estack heap]. rewrite rev_involutive, He. cbn [obind fst snd ename eattributes eelements]. simp.
      rewrite Ha. cbn [obind]. unfold set_heap. cbn [parser heap root estack attrvalue]. reflexivity. }
    split; [repeat split; simp; auto|]. simp. split; [assumption|]. split; [rewrite F7; discriminate|].
    apply (keep s nx c x h r (e :: es') av); simp; auto; try congruence.
    + unfold zone_of. rewrite F9. split; [discriminate|assumption].
    + rewrite Ef. reflexivity.
    + cbn [add_top]. apply Hup; [now apply items_unit|assumption].
  - (* A_skip *) destruct Hf as (F1 & F2 & F3 & F4 & F5 & F6 & F7 & F8). right.
    destruct (put_ok x (pre ++ [setchar ch]) PICONTENT Hd) as (tail & Hlen & ->); [rewrite app_length; cbn [length]; lia|].
    eexists _, _. split; [reflexivity|]. split; [reflexivity|]. split; [simp; lia|]. split; [reflexivity|].
    exists h, r, es, av. split; [reflexivity|]. split; [repeat split; simp; auto|]. simp. split; [assumption|]. split; [rewrite F6; discriminate|].
    apply (keep s nx c x h r es av); simp; auto; try congruence.
    intros X. apply (h_val _ _ _ _ _ _ _ _ H). auto.
  - (* A_pinameend *) destruct Hf as (F1 & F2 & F3 & F4 & F5 & F6 & F7 & F8). right. stk H rest Hm Hl. unfold extra in Hm. rewrite F1 in Hm.
    assert (Fn : naming s <> None) by congruence.
    rewrite (piname_ok x _ _ rest ch Hm (h_pi _ _ _ _ _ _ _ _ H F1) (name_clean _ _ _ _ _ _ _ _ H Fn)).
    eexists _, _. split; [reflexivity|]. split; [reflexivity|]. split; [simp; lia|]. split; [reflexivity|].
    destruct (xml_name (c_name c)); [reflexivity|].
    exists h, r, es, av. split; [reflexivity|]. split; [repeat split; simp; auto|]. simp. split; [assumption|]. split; [rewrite F7; discriminate|].
    apply (keep s nx c x h r es av); simp; auto; try congruence.
  - (* A_pivalend *) destruct Hf as (F1 & F2 & F3 & F4 & F5 & F6 & F7 & F8). right. assert (Fn : naming s <> None) by congruence.
    unfold pivalend. destruct (pop_here _ _ _ _ _ _ _ _ H Fn) as [-> Hle]. cbn [obind].
    eexists _, _. split; [reflexivity|]. split; [reflexivity|]. split; [simp; lia|]. split; [reflexivity|].
    exists h, r, es, av. split; [reflexivity|]. split; [repeat split; simp; auto|]. simp. split; [assumption|]. split; [rewrite F7; discriminate|].
    eapply (popped s nx c x h r es av); simp; auto; try congruence.
  - (* A_piabort *) destruct Hf as (F1 & F2 & F3 & F4 & F5 & F6 & F7 & F8). right. assert (Fn : naming s <> None) by congruence.
    unfold piabort. destruct (pop_here _ _ _ _ _ _ _ _ H Fn) as [-> Hle]. cbn [obind].
    eexists _, _. split; [reflexivity|]. split; [reflexivity|]. split; [simp; lia|]. split; [reflexivity|].
    exists h, r, es, av. split; [reflexivity|]. split; [repeat split; simp; auto|]. simp. split; [assumption|]. split; [rewrite F7; discriminate|].
    eapply (popped s nx c x h r es av); simp; auto; try congruence.
Qed.

Lemma acted_same : forall a c x y h r es av ch res cres, stack y = stack x -> stacklen y = stacklen x -> ignore y = ignore x ->
  acted a c y h r es av ch res cres -> acted a c x h r es av ch res cres.
Proof. intros a c x y h r es av ch res cres E1 E2 E3 H. unfold acted in *. rewrite E1, E2, E3 in H. exact H. Qed.
Lemma holds_same : forall s nx c c' x x' h r es av, Holds s nx c x h r es av ->
  c_frames c' = c_frames c -> c_name c' = c_name c -> c_val c' = c_val c -> c_ref c' = c_ref c -> c_root c' = c_root c ->
  elem x' = elem x -> attr x' = attr x -> pi x' = pi x -> data x' = data x -> stack x' = stack x -> stacklen x' = stacklen x -> reflen x' = reflen x ->
  Holds s nx c' x' h r es av.
Proof.
  intros s nx c c' x x' h r es av [H1 H2 H3 H4 H5 H6 H7 H8 H9 H10 H11 H12 H13] E1 E2 E3 E4 E5 E6 E7 E8 E9 E10 E11 E12.
  constructor; unfold top_name in *; rewrite ?E1, ?E2, ?E3, ?E4, ?E5, ?E6, ?E7, ?E8, ?E9, ?E10, ?E11, ?E12; assumption.
Qed.
Lemma step_ok : forall c x h r es av ch, Rel c x h r es av -> good ch -> acted A_ok c x h r es av ch (switch x ch) (astep c ch).
Proof.
  intros c x h r es av ch ((Es & En & Eq & Er) & Hinv & Hstr & H) Hg. rewrite switch_table. cbv zeta. rewrite Es, Eq. unfold astep. cbv zeta.
  pose proof (table_fits (c_st c) (c_next c) (c_quote c) ch Hinv) as HF. cbv zeta in HF. destruct HF as [Hf Hi].
  set (t := table (c_st c) (c_quote c) ch) in *.
  assert (P : stack (prepare x t ch) = stack x /\ stacklen (prepare x t ch) = stacklen x /\ ignore (prepare x t ch) = ignore x /\ elem (prepare x t ch) = elem x /\
    attr (prepare x t ch) = attr x /\ pi (prepare x t ch) = pi x /\ data (prepare x t ch) = data x /\ reflen (prepare x t ch) = reflen x).
  { unfold prepare. destruct (t_go t), (t_quote t), (t_next t), (t_str t); repeat split. }
  destruct P as (P1 & P2 & P3 & P4 & P5 & P6 & P7 & P8).
  assert (S : Same (aprepare c t ch) (prepare x t ch)).
  { unfold Same, aprepare. cbn [c_st c_next c_quote c_str]. unfold prepare. destruct (t_go t), (t_quote t), (t_next t), (t_str t); cbn; auto 6. }
  apply (acted_same _ _ x (prepare x t ch) _ _ _ _ _ _ _ P1 P2 P3).
  assert (D : t_act t = A_esyn \/ t_act t <> A_esyn) by (destruct (t_act t); first [left; reflexivity|right; discriminate]).
  destruct D as [D|D].
  - rewrite D. cbn [perform aperform]. right. exists (prepare x t ch), ESYN. repeat split; try reflexivity; apply Nat.le_add_r.
  - destruct Hi as [Hi|Hi]; [congruence|].
    assert (A : acted (t_act t) (aprepare c t ch) (prepare x t ch) h r es av ch (perform (prepare x t ch) (t_act t) ch) (aperform (aprepare c t ch) (t_act t) ch)).
    { apply (act_ok _ (t_str t) (c_st c) (c_next c)); auto.
      - eapply holds_same; [exact H|..]; auto.
      - intros X [Y|Y]; rewrite Y in Hf; cbn [fits] in Hf; unfold aprepare; cbn [c_str].
        + destruct Hf as (_ & _ & _ & _ & _ & F & _). specialize (F X). destruct (t_str t); [assumption|contradiction].
        + destruct Hf as (F1 & _ & _ & ->). apply Hstr. rewrite F1. reflexivity. }
    exact A.
Qed.

(** The whole text.  [skip]: the last byte was a carriage return. *)
Hypothesis Hreport : forall m args, report m args = Ok tt.
Fixpoint lines (skip : bool) (s : bytes) : bytes :=
  match s with
  | [] => []
  | b :: s' =>
    if b =? 0 then []
    else if skip && (b =? 10) then lines false s'
    else if b =? 13 then 10 :: lines true s' else b :: lines false s'
  end.
Lemma handle_error : forall s rt, error rt = true \/ rt = ESTACK -> handle isspace report s rt = Ok None.
Proof. intros s rt H. unfold handle. destruct rt; destruct H as [H|H]; try discriminate H; rewrite Hreport; reflexivity. Qed.
Lemma rel_position : forall c x h r es av b t l i, Rel c x h r es av -> Rel c (set_position x b t l i) h r es av.
Proof.
  intros c x h r es av b t l i (S & Hi & Hs & H). split; [exact S|]. split; [exact Hi|]. split; [exact Hs|]. eapply holds_same; [exact H|..]; reflexivity.
Qed.
Definition ended (x : yxml) (h : list element) (r : option nat) : outcome attempt :=
  match eof x with
  | OK => match r with Some e => Ok (Parsed h e) | None => Ok Rejected end
  | _ => do _ <- report text_of_incomplete []; Ok Rejected
  end.
Lemma end_ok : forall c x h r es av, Rel c x h r es av ->
  match arun c [] with
  | Some t => exists h' e, ended x h r = Ok (Parsed h' e) /\ is_tree h' e t
  | None => ended x h r = Ok Rejected
  end.
Proof.
  intros c x h r es av ((Es & _) & _ & _ & H). unfold ended, eof. rewrite Es. cbn [arun].
  pose proof (h_zone _ _ _ _ _ _ _ _ H) as Hz. pose proof (h_heap _ _ _ _ _ _ _ _ H) as Hh.
  destruct (c_st c); try (rewrite Hreport; reflexivity). cbn in Hz. destruct Hz as [Hz1 Hz2]. destruct (c_root c) as [t|]; [|congruence].
  rewrite Hz1 in Hh. destruct Hh as (_ & _ & e & -> & Ht). exists h, e. split; [reflexivity|]. now apply (in_is h []).
Qed.
Lemma loop_ok : forall text c x h r es av (skip : bool), ok text -> Rel c x h r es av -> ignore x = (if skip then 10 else 0) ->
  let s := mkS x h r (rev es) av in
  loop isspace report s text = Ok Again /\ (length (stack x) <= stacklen x + 2 * length text)%nat \/
  match arun c (lines skip text) with
  | Some t => exists h' e, loop isspace report s text = Ok (Parsed h' e) /\ is_tree h' e t
  | None => loop isspace report s text = Ok Rejected
  end.
Proof.
  intros text. induction text as [|b text IH]; intros c x h r es av skip Hok HR Hig; cbv zeta.
  - right. exact (end_ok c x h r es av HR).
  - assert (Hb : b < 256) by now inversion Hok. assert (Hok' : ok text) by now inversion Hok. cbn [lines].
    destruct (b =? 0) eqn:E0.
    { apply N.eqb_eq in E0. subst b. right. exact (end_ok c x h r es av HR). }
    cbn [loop parser root heap estack attrvalue]. rewrite E0. apply N.eqb_neq in E0. unfold parse_byte. cbv zeta. rewrite N.mod_small by assumption.
    replace (b =? 0) with false by lia. rewrite Hig.
    assert (Eig : ((if skip then 10 else 0) =? b) = skip && (b =? 10)) by (destruct skip; lia). rewrite Eig.
    destruct (skip && (b =? 10)) eqn:Esk.
    { cbn [obind fst snd]. unfold handle at 1. cbn [obind].
      destruct (IH c (set_position x (byte x) ((total x + 1) mod 2 ^ 64) (line x) 0) h r es av false Hok' (rel_position _ _ _ _ _ _ _ _ _ _ HR) eq_refl) as [[IH1 IH2]|IH1].
      - left. split; [exact IH1|]. simp. cbn [set_position stack stacklen length] in *. lia.
      - right. exact IH1. }
    (* an ordinary byte, or the end of a line *)
    set (ig := if b =? 13 then 10 else 0). set (x0 := set_position x _ _ _ ig). set (ch := if (b =? 10) || (b =? 13) then 10 else b).
    assert (Hg : good ch) by (unfold ch, good; destruct ((b =? 10) || (b =? 13)); lia).
    assert (Hlines : (if b =? 13 then 10 :: lines true text else b :: lines false text) = ch :: lines (b =? 13) text).
    { unfold ch. destruct (b =? 13) eqn:E13; [rewrite orb_true_r; reflexivity|]. rewrite orb_false_r. destruct (b =? 10) eqn:E10; [apply N.eqb_eq in E10; subst b|]; reflexivity. }
    rewrite Hlines. cbn [arun].
    assert (HR0 : Rel c x0 h r es av) by (unfold x0; now apply rel_position).
    destruct (step_ok c x0 h r es av ch HR0 Hg) as [(x' & -> & Hfull)|(x' & rt & -> & L1 & L2 & L3 & Hst)].
    { left. cbn [obind fst snd]. rewrite handle_error by auto. cbn [obind]. split; [reflexivity|]. change (stack x0) with (stack x) in Hfull. change (stacklen x0) with (stacklen x) in Hfull. cbn [length]. lia. }
    change (stack x0) with (stack x) in L1. change (stacklen x0) with (stacklen x) in L2. change (ignore x0) with ig in L3. cbn [obind fst snd].
    destruct (astep c ch) as [c'|].
    + destruct Hst as (h' & r' & es' & av' & -> & HR'). cbn [obind].
      destruct (IH c' x' h' r' es' av' (b =? 13) Hok' HR' L3) as [[IH1 IH2]|IH1]; [|right; exact IH1].
      left. split; [exact IH1|]. cbn [length]. lia.
    + right. rewrite handle_error by auto. cbn [obind]. destruct rt; try discriminate Hst; reflexivity.
Qed.
Lemma init_ok : forall size, (0 < size)%nat -> exists x, init size = Ok x /\ length (stack x) = size /\ stacklen x = O /\ ignore x = 0 /\ Rel start x [] None [] None.
Proof.
  intros [|size] H; [lia|]. unfold init. cbn [repeat]. change (wrs (None :: repeat None size) 0 0) with (Ok (Some 0 :: repeat None size)). cbn [obind app]. eexists. split; [reflexivity|].
  simp. split; [cbn [length]; now rewrite repeat_length|]. split; [reflexivity|]. split; [reflexivity|].
  split; [repeat split|]. split; [reflexivity|]. split; [discriminate|]. constructor; cbn; try discriminate; auto; try exact Logic.I.
  - exists (repeat None size). reflexivity.
  - repeat split. constructor.
Qed.
Lemma try_ok : forall text size, ok text -> (0 < size)%nat ->
  try_parse isspace report text size = Ok Again /\ (size <= 2 * length text)%nat \/
  match arun start (lines false text) with
  | Some t => exists h e, try_parse isspace report text size = Ok (Parsed h e) /\ is_tree h e t
  | None => try_parse isspace report text size = Ok Rejected
  end.
Proof.
  intros text size Hok Hs. destruct (init_ok size Hs) as (x & E & L1 & L2 & L3 & HR). unfold try_parse. rewrite E. cbn [obind].
  destruct (loop_ok text start x [] None [] None false Hok HR L3) as [[H1 H2]|H1]; [|right; exact H1]. left. split; [exact H1|]. lia.
Qed.
Lemma sizes_ok : forall fuel text size, ok text -> (0 < size)%nat ->
  parse_sizes isspace report fuel text size = NoFuel /\ (size + fuel <= 2 * length text + 1)%nat \/
  match arun start (lines false text) with
  | Some t => exists h e, parse_sizes isspace report fuel text size = Ok (Some (h, e)) /\ is_tree h e t
  | None => parse_sizes isspace report fuel text size = Ok None
  end \/ parse_sizes isspace report fuel text size = NoFuel /\ fuel = O.
Proof.
  induction fuel as [|fuel IH]; intros text size Hok Hs; [auto|]. cbn [parse_sizes].
  destruct (try_ok text size Hok Hs) as [[E Hle]|E].
  - rewrite E. cbn [obind]. destruct (IH text (2 * size)%nat Hok ltac:(lia)) as [[H1 H2]|[H1|[H1 ->]]]; [left; split; [exact H1|lia]|auto|]. left. split; [exact H1|]. lia.
  - right. left. destruct (arun start (lines false text)) as [t|].
    + destruct E as (h & e & -> & Ht). exists h, e. split; [reflexivity|exact Ht].
    + now rewrite E.
Qed.
End Step.
