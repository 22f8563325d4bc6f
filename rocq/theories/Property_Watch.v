(** Proofs about properties: what observers see, and requirements. *)
Require Import Coq.NArith.NArith Coq.ZArith.ZArith Coq.Lists.List Coq.Arith.Arith Coq.Bool.Bool Coq.micromega.Lia.
Require Import Verif.Base Verif.Number_Model Verif.Number_Spec Verif.Property_Model Verif.Property_Spec Verif.Property_Proofs Verif.Property_Access Verif.Property_Steps Verif.Property_Results.
Import ListNotations.
Local Open Scope nat_scope.

Lemma orderly_app a b : orderly a -> orderly b -> orderly (a ++ b).
Proof. intros A B. induction A; cbn [app]; auto; [constructor; auto| |]; rewrite <- app_assoc; cbn [app]; constructor; auto. Qed.
Definition calm (w w' : world) : Prop := memory w' = memory w /\ log w' = log w.
Lemma calm_refl w : calm w w. Proof. split; reflexivity. Qed.
Lemma calm_trans a b c : calm a b -> calm b c -> calm a c. Proof. intros [A B] [C D]. split; congruence. Qed.
Lemma retain_calm w x w' : retain w x = Ok w' -> calm w w'.
Proof. destruct x as [i|]; cbn [retain]; [|intros E; injection E as <-; apply calm_refl]. destruct (get_obj w i); [|discriminate]. destruct (_ =? _); [discriminate|]. intros E. injection E as <-. split; reflexivity. Qed.
Lemma release_calm w x w' : release w x = Ok w' -> calm w w'.
Proof. destruct x as [i|]; cbn [release]; [|intros E; injection E as <-; apply calm_refl]. destruct (get_obj w i); [|discriminate]. destruct (_ =? _); [discriminate|]. intros E. injection E as <-. split; reflexivity. Qed.
Lemma release_all_calm l : forall w w', release_all w l = Ok w' -> calm w w'.
Proof.
  induction l as [|i l IH]; intros w w'; cbn [release_all]; [intros E; injection E as <-; apply calm_refl|].
  destruct (release w (Some i)) as [w1| | |] eqn:R; cbn [obind]; try discriminate. intros E. eapply calm_trans; [eapply release_calm; eauto|eauto].
Qed.
Lemma copy_calm P w x w' y : copy P w x = Ok (w', y) -> calm w w'.
Proof.
  destruct x as [i|]; cbn [copy]; [|intros E; injection E as <- <-; apply calm_refl]. destruct (get_obj w i) as [o|]; [|discriminate]. destruct (_ =? _); [discriminate|].
  destruct (copies P (cls o)) as [c|]; cbn [alloc]; [intros E; injection E as <- <-; split; reflexivity|].
  destruct (retain w (Some i)) as [w1| | |] eqn:R; cbn [obind]; try discriminate. intros E. injection E as <- <-. eapply retain_calm; eauto.
Qed.
Lemma resolve_calm w x w' y : resolve w x = Ok (w', y) -> calm w w'.
Proof.
  destruct x as [i|]; cbn [resolve]; [|intros E; injection E as <- <-; apply calm_refl]. destruct (get_obj w i) as [o|]; [|discriminate]. destruct (_ =? _); [intros E; injection E as <- <-; apply calm_refl|].
  destruct (retain w (Some i)) as [w1| | |] eqn:R; cbn [obind]; try discriminate. intros E. injection E as <- <-. eapply retain_calm; eauto.
Qed.
Lemma auto_calm w x : calm w (autorelease w x). Proof. destruct x; split; reflexivity. Qed.
Lemma alloc_calm w c b : calm w (fst (alloc w c b)). Proof. split; reflexivity. Qed.

(** What a call adds to the log, and the slots it changes. *)
Definition obs (o : nat) (p : property) (w w' : world) : Prop :=
  exists l, log w' = log w ++ l /\ orderly l /\
    ((forall k, find_slot (memory w') k = find_slot (memory w) k) \/
     (forall k, k <> (o, offset p) -> find_slot (memory w') k = find_slot (memory w) k) /\ In (WillWrite o (pname p)) l /\ In (DidWrite o (pname p)) l).
Lemma obs_trans o p a b c : obs o p a b -> obs o p b c -> obs o p a c.
Proof.
  intros (l1 & L1 & O1 & M1) (l2 & L2 & O2 & M2). exists (l1 ++ l2). split; [rewrite L2, L1, app_assoc; reflexivity|]. split; [apply orderly_app; auto|].
  destruct M1 as [M1|(M1 & W1 & D1)], M2 as [M2|(M2 & W2 & D2)].
  - left. intros k. rewrite M2; auto.
  - right. split; [intros k N; rewrite M2; auto|]. rewrite !in_app_iff. auto.
  - right. split; [intros k N; rewrite M2; auto|]. rewrite !in_app_iff. auto.
  - right. split; [intros k N; rewrite M2; auto|]. rewrite !in_app_iff. auto.
Qed.
Lemma calm_obs o p w w' : calm w w' -> obs o p w w'.
Proof. intros [M L]. exists []. rewrite app_nil_r. split; auto. split; [constructor|]. left. rewrite M. auto. Qed.
Lemma warn_obs o p w : obs o p w (note w Warning).
Proof. exists [Warning]. split; auto. split; [repeat constructor|]. left. auto. Qed.
(** Between the announcement and the report. *)
Definition inside (o : nat) (p : property) (w w' : world) : Prop :=
  exists ws, log w' = log w ++ ws /\ warnings ws /\ forall k, k <> (o, offset p) -> find_slot (memory w') k = find_slot (memory w) k.
Lemma inside_calm o p w w' : calm w w' -> inside o p w w'.
Proof. intros [M L]. exists []. rewrite app_nil_r. split; auto. split; [constructor|]. rewrite M. auto. Qed.
Lemma inside_save o p w s : inside o p w (save w o (offset p) s).
Proof. exists []. rewrite app_nil_r. split; auto. split; [constructor|]. intros k N. cbn [save memory with_memory]. apply find_put_other; auto. Qed.
Lemma inside_warn o p w : inside o p w (note w Warning).
Proof. exists [Warning]. split; auto. split; [repeat constructor|]. auto. Qed.
Lemma inside_trans o p a b c : inside o p a b -> inside o p b c -> inside o p a c.
Proof.
  intros (l1 & L1 & O1 & M1) (l2 & L2 & O2 & M2). exists (l1 ++ l2). split; [rewrite L2, L1, app_assoc; reflexivity|]. split; [apply Forall_app; auto|]. intros k N. rewrite M2; auto.
Qed.
Lemma write_obs o p w w' : ww p = true -> dw p = true -> inside o p (will_write w o p) w' -> obs o p w (did_write w' o p).
Proof.
  intros W D (ws & L & O & M). unfold did_write. rewrite D. unfold will_write in L, M. rewrite W in L, M. cbn [note log memory] in *. exists (WillWrite o (pname p) :: ws ++ [DidWrite o (pname p)]).
  split; [cbn [note log]; rewrite L, <- !app_assoc; reflexivity|]. split; [constructor; auto; constructor|]. right. split; [exact M|]. split; [left; auto|]. right. apply in_or_app. right. left. auto.
Qed.
Lemma read_obs o p w w' : wr p = true -> dr p = true -> calm (will_read w o p) w' -> obs o p w (did_read w' o p).
Proof.
  intros W D (M & L). unfold did_read. rewrite D. unfold will_read in L, M. rewrite W in L, M. cbn [note log memory] in *. exists [WillRead o (pname p); DidRead o (pname p)].
  split; [cbn [note log]; rewrite L, <- !app_assoc; reflexivity|]. split; [apply (ord_read o (pname p) [] []); constructor|]. left. cbn [note memory]. rewrite M. auto.
Qed.

Section Watched.
  Variables (o : nat) (p : property).
  Hypotheses (Wr : wr p = true) (Dr : dr p = true) (Ww : ww p = true) (Dw : dw p = true) (Ge : getter p = None) (Se : setter p = None).
  Lemma convert_inside w ts ss src w' ok : convert_in w o p ts ss src = Ok (w', ok) -> inside o p w w'.
  Proof.
    unfold convert_in. destruct (enc p) as [|t s|n]; try (intros E; injection E as <- <-; apply inside_calm, calm_refl).
    destruct (load_bytes _ _ _ _) as [dst| | |]; cbn [obind]; try discriminate. destruct (convert _ _ _ _ _ _) as [r| | |]; cbn [obind]; try discriminate. intros E. injection E as <- <-. apply inside_save.
  Qed.
  Lemma struct_inside w sem b : inside o p w (fst (struct_in w o p sem b)).
  Proof. unfold struct_in. destruct (_ =? _); [destruct (opt_text_eqb _ _)|]; cbn [fst]; auto using inside_save, inside_warn. Qed.
  Lemma store_inside P w x w' : store_object P w o p x = Ok w' -> inside o p w w'.
  Proof.
    unfold store_object. destruct (copied p); [|destruct (weak p)].
    - destruct (copy P w x) as [[w1 c]| | |] eqn:C; cbn [obind]; try discriminate. destruct (load_ref _ _ _) as [old| | |]; cbn [obind]; try discriminate.
      destruct (release w1 old) as [w2| | |] eqn:R; cbn [obind]; try discriminate. intros E. injection E as <-.
      eapply inside_trans; [apply inside_calm; eapply copy_calm; eauto|]. eapply inside_trans; [apply inside_calm; eapply release_calm; eauto|apply inside_save].
    - destruct (load_weak _ _ _) as [old| | |]; cbn [obind]; try discriminate. intros E. injection E as <-. apply inside_save.
    - destruct (retain w x) as [w1| | |] eqn:C; cbn [obind]; try discriminate. destruct (load_ref _ _ _) as [old| | |]; cbn [obind]; try discriminate.
      destruct (release w1 old) as [w2| | |] eqn:R; cbn [obind]; try discriminate. intros E. injection E as <-.
      eapply inside_trans; [apply inside_calm; eapply retain_calm; eauto|]. eapply inside_trans; [apply inside_calm; eapply release_calm; eauto|apply inside_save].
  Qed.
  Lemma converted w ts ss src w' ok : convert_in (will_write w o p) o p ts ss src = Ok (w', ok) -> obs o p w (did_write w' o p).
  Proof. intros E. apply write_obs; auto. eapply convert_inside; eauto. Qed.
  Lemma enum_obs w x w' ok : write_enum w o p x = Ok (w', ok) -> obs o p w w'.
  Proof.
    unfold write_enum. destruct (enumt p) as [e|]; [|intros E; injection E as <- <-; apply calm_obs, calm_refl]. destruct (body_of w x) as [[t|n|s b|]|]; try (intros E; injection E as <- <-; apply calm_obs, calm_refl).
    destruct (convert_in _ _ _ _ _ _) as [[w1 ok1]| | |] eqn:C; cbn [obind]; try discriminate. intros E. injection E as <- <-. eapply converted; eauto.
  Qed.
  Lemma number_obs w x w' ok : write_number w o p x = Ok (w', ok) -> obs o p w w'.
  Proof.
    unfold write_number. destruct (body_of w x) as [[t|n|s b|]|]; try (intros E; injection E as <- <-; apply calm_obs, calm_refl).
    destruct (convert_in _ _ _ _ _ _) as [[w1 ok1]| | |] eqn:C; cbn [obind]; try discriminate. intros E. injection E as <- <-. eapply converted; eauto.
  Qed.
  Lemma struct_obs w x : obs o p w (fst (write_struct w o p x)).
  Proof.
    unfold write_struct. destruct (body_of w x) as [[t|n|s b|]|]; cbn [fst]; try (apply calm_obs, calm_refl).
    pose proof (struct_inside (will_write w o p) s b) as H. destruct (struct_in _ _ _ _ _) as [w1 ok]. cbn [fst] in *. apply write_obs; auto.
  Qed.
  Lemma object_obs P w x w' : write_object P w o p x = Ok w' -> obs o p w w'.
  Proof.
    unfold write_object. rewrite Se. destruct (is_obj (enc p)).
    - destruct (match pred p with Some f => _ | None => _ end); [intros E; injection E as <-; apply warn_obs|].
      destruct (store_object _ _ _ _ _) as [w1| | |] eqn:S; cbn [obind]; try discriminate. intros E. injection E as <-. apply write_obs; auto. eapply store_inside; eauto.
    - destruct (write_enum w o p x) as [[w1 ok1]| | |] eqn:E1; cbn [obind]; try discriminate. apply enum_obs in E1. destruct ok1; [intros E; injection E as <-; auto|].
      destruct (write_number w1 o p x) as [[w2 ok2]| | |] eqn:E2; cbn [obind]; try discriminate. apply number_obs in E2. destruct ok2; [intros E; injection E as <-; eapply obs_trans; eauto|].
      pose proof (struct_obs w2 x) as E3. destruct (write_struct w2 o p x) as [w3 ok3]. cbn [fst] in E3. destruct ok3; intros E; injection E as <-; eapply obs_trans; eauto; eapply obs_trans; eauto.
      eapply obs_trans; [exact E3|apply warn_obs].
  Qed.
  Lemma read_enum_obs w j w' g : read_enum w o p j = Ok (w', g) -> obs o p w w'.
  Proof.
    unfold read_enum. destruct (enumt p) as [e|]; [|intros E; injection E as <- <-; apply calm_obs, calm_refl].
    assert (R: obs o p w (did_read (will_read w o p) o p)) by (apply read_obs; auto using calm_refl).
    destruct (enc p) as [|t s|n]; try (intros E; injection E as <- <-; exact R). cbv zeta.
    destruct (load_bytes _ _ _ _) as [src| | |]; cbn [obind]; try discriminate. destruct (convert _ _ _ _ _ _) as [r| | |]; cbn [obind]; try discriminate.
    destruct (_ =? _); [intros E; injection E as <- <-; exact R|]. destruct (load _ _ _) as [v| | |]; cbn [obind]; try discriminate. intros E. injection E as <- <-. exact R.
  Qed.
  Lemma made_obs w c b x : obs o p w (autorelease (did_read (fst (alloc (will_read w o p) c b)) o p) x).
  Proof. eapply obs_trans; [apply read_obs; auto; apply alloc_calm|apply calm_obs, auto_calm]. Qed.
  Lemma read_object_obs w j w' g : read_object w o p j = Ok (w', g) -> obs o p w w'.
  Proof.
    unfold read_object. rewrite Ge.
    assert (V: forall e, (do (w0, g0) <- read_enum w o p j; match g0 with Some g0 => Ok (w0, g0) | None => match e with
      | ENum t s => let w := will_read w0 o p in do b <- load_bytes w o (offset p) (size t s); let '(w, i) := alloc w number_class (CNum (mkNum t s b)) in Ok (autorelease (did_read w o p) (Some i), GObj i)
      | _ => match semantic p with
             | Some _ => let w := will_read w0 o p in do b <- load_bytes w o (offset p) (esize e); let '(w, i) := alloc w struct_class (CStruct (semantic p) b) in Ok (autorelease (did_read w o p) (Some i), GObj i)
             | None => Ok (note w0 Warning, GNull) end end end) = Ok (w', g) -> obs o p w w').
    { intros e. destruct (read_enum w o p j) as [[w1 g1]| | |] eqn:E1; cbn [obind]; try discriminate. apply read_enum_obs in E1. destruct g1 as [g1|]; [intros E; injection E as <- <-; auto|].
      destruct e as [|t s|n]; [destruct (semantic p)| |destruct (semantic p)]; try (intros E; injection E as <- <-; eapply obs_trans; [exact E1|apply warn_obs]); cbv zeta;
      destruct (load_bytes _ _ _ _) as [b| | |]; cbn [obind]; try discriminate; intros E; injection E as <- <-; (eapply obs_trans; [exact E1|]); first [exact (made_obs w1 number_class _ (Some _)) | exact (made_obs w1 struct_class _ (Some _))]. }
    destruct (enc p) as [|t s|n]; [|apply (V (ENum t s))|apply (V (EBin n))]. clear V. cbv zeta.
    destruct (weak p).
    - destruct (load_weak _ _ _) as [r| | |]; cbn [obind]; try discriminate. destruct (resolve _ _) as [[w1 x]| | |] eqn:R; cbn [obind]; try discriminate. intros E. injection E as <- <-.
      apply read_obs; auto. eapply calm_trans; [eapply resolve_calm; eauto|apply auto_calm].
    - destruct (load_ref _ _ _) as [r| | |]; cbn [obind]; try discriminate. destruct (retain _ _) as [w1| | |] eqn:R; cbn [obind]; try discriminate. intros E. injection E as <- <-.
      apply read_obs; auto. eapply calm_trans; [eapply retain_calm; eauto|apply auto_calm].
  Qed.
End Watched.

Lemma defined P w o n d : definition P w o n = Ok (Some d) -> exists ob, nth_error (heap w) o = Some ob /\ In d (props P (cls ob)) /\ pname d = n.
Proof.
  unfold definition, get_obj. destruct (nth_error (heap w) o) as [ob|] eqn:E; [|discriminate]. destruct (_ =? _); [discriminate|]. intros F. injection F as F. apply find_in in F. eauto.
Qed.
(** The log grows by complete accesses; slots change only when that is announced and reported. *)
Definition announced (P : program) (w w' : world) : Prop :=
  exists l, log w' = log w ++ l /\ orderly l /\
    forall o off, find_slot (memory w') (o, off) <> find_slot (memory w) (o, off) ->
      exists p, has_property P w o p /\ offset p = off /\ In (WillWrite o (pname p)) l /\ In (DidWrite o (pname p)) l.
Lemma calm_announced P w w' : calm w w' -> announced P w w'.
Proof. intros [M L]. exists []. rewrite app_nil_r. split; auto. split; [constructor|]. intros o off H. exfalso. apply H. rewrite M. reflexivity. Qed.
Lemma warn_announced P w : announced P w (note w Warning).
Proof. exists [Warning]. split; auto. split; [repeat constructor|]. intros o off H. exfalso. apply H. reflexivity. Qed.
Lemma obs_announced P w w' o p ob : nth_error (heap w) o = Some ob -> In p (props P (cls ob)) -> obs o p w w' -> announced P w w'.
Proof.
  intros E Ip (l & L & O & M). exists l. split; auto. split; auto. intros o' off H. destruct M as [M|(M & W & D)]; [exfalso; apply H, M|].
  destruct (Nat.eq_dec o' o) as [->|No]; [|exfalso; apply H, M; congruence]. destruct (Nat.eq_dec off (offset p)) as [->|Nf]; [|exfalso; apply H, M; congruence].
  exists p. split; [exists ob; auto|]. auto.
Qed.
Lemma step_announced P w a w' : observed P -> (forall c p, In p (props P c) -> getter p = None /\ setter p = None) -> step P w a = Ok w' -> announced P w w'.
Proof.
  intros Ob Pl. destruct a as [k v|x v|x|x|g n x|g n|g n v|g n t s dst|g n sm bs|g n sm dst|]; cbn [step].
  - intros E. injection E as <-. apply calm_announced. split; reflexivity.
  - destruct (get_obj w x); [|discriminate]. destruct (_ =? _); [discriminate|]. intros E. injection E as <-. apply calm_announced. split; reflexivity.
  - intros E. apply calm_announced. eapply retain_calm; eauto.
  - intros E. apply calm_announced. eapply release_calm; eauto.
  - destruct g as [|o|t]; cbn [set_property]; try (intros E; injection E as <-; auto using calm_announced, calm_refl, warn_announced).
    destruct (definition P w o n) as [[p|]| | |] eqn:D; cbn [obind]; try discriminate; [|intros E; injection E as <-; apply warn_announced]. destruct (defined P w o n p D) as (ob & Eo & Ip & Np).
    destruct (readonly p); [intros E; injection E as <-; apply warn_announced|]. intros E. eapply obs_announced; eauto. destruct (Ob _ _ Ip) as (? & ? & ? & ?), (Pl _ _ Ip). eapply object_obs; eauto.
  - destruct (get_property P w g n zeros4) as [[w1 r]| | |] eqn:G; cbn [obind fst]; try discriminate. intros E. injection E as <-.
    destruct g as [|o|t]; cbn [get_property] in G; try (injection G as <- <-; auto using calm_announced, calm_refl, warn_announced).
    destruct (definition P w o n) as [[p|]| | |] eqn:D; cbn [obind] in G; try discriminate; [|injection G as <- <-; apply warn_announced]. destruct (defined P w o n p D) as (ob & Eo & Ip & Np).
    eapply obs_announced; eauto. destruct (Ob _ _ Ip) as (? & ? & ? & ?), (Pl _ _ Ip). eapply read_object_obs; eauto.
  - destruct g as [|o|t]; cbn [set_number]; try (intros E; injection E as <-; auto using calm_announced, calm_refl, warn_announced).
    destruct (definition P w o n) as [[p|]| | |] eqn:D; cbn [obind]; try discriminate; [|intros E; injection E as <-; apply warn_announced]. destruct (defined P w o n p D) as (ob & Eo & Ip & Np).
    destruct (readonly p); [intros E; injection E as <-; apply warn_announced|]. intros E. eapply obs_announced; eauto. destruct (Ob _ _ Ip) as (? & ? & ? & ?), (Pl _ _ Ip).
    destruct (_ || _)%bool; cbn [alloc] in E.
    + destruct (write_object _ _ _ _ _) as [w2| | |] eqn:W; cbn [obind] in E; try discriminate. apply object_obs in W; auto.
      eapply obs_trans; [apply calm_obs; apply (alloc_calm w number_class (CNum v))|]. eapply obs_trans; [exact W|]. apply calm_obs. eapply release_calm; eauto.
    + destruct (convert_in _ _ _ _ _ _) as [[w2 ok]| | |] eqn:C; cbn [obind] in E; try discriminate. apply converted in C; auto. destruct ok; injection E as <-; auto.
      eapply obs_trans; [exact C|apply warn_obs].
  - destruct (get_number P w g n t s dst zeros4) as [[[w1 r] d]| | |] eqn:G; cbn [obind fst]; try discriminate. intros E. injection E as <-.
    destruct g as [|o|tx]; cbn [get_number] in G; try (injection G as <- <- <-; auto using calm_announced, calm_refl, warn_announced).
    destruct (definition P w o n) as [[p|]| | |] eqn:D; cbn [obind] in G; try discriminate; [|injection G as <- <- <-; apply warn_announced]. destruct (defined P w o n p D) as (ob & Eo & Ip & Np).
    eapply obs_announced; eauto. destruct (Ob _ _ Ip) as (? & ? & ? & ?), (Pl _ _ Ip).
    destruct (_ || _)%bool.
    + destruct (read_object w o p zeros4) as [[w2 g2]| | |] eqn:R; cbn [obind] in G; try discriminate. apply read_object_obs in R; auto.
      destruct (unpack_number _ _ _ _ _) as [r2| | |]; cbn [obind] in G; try discriminate. destruct (_ =? _); injection G as <- <- <-; auto. eapply obs_trans; [exact R|apply warn_obs].
    + cbv zeta in G. assert (R: obs o p w (did_read (will_read w o p) o p)) by (apply read_obs; auto using calm_refl).
      match type of G with obind (obind ?x _) _ = _ => destruct x as [r2| | |]; cbn [obind] in G; try discriminate end. destruct (_ =? _); injection G as <- <- <-; auto. eapply obs_trans; [exact R|apply warn_obs].
  - destruct g as [|o|t]; cbn [set_struct]; try (intros E; injection E as <-; auto using calm_announced, calm_refl, warn_announced).
    destruct (definition P w o n) as [[p|]| | |] eqn:D; cbn [obind]; try discriminate; [|intros E; injection E as <-; apply warn_announced]. destruct (defined P w o n p D) as (ob & Eo & Ip & Np).
    destruct (readonly p); [intros E; injection E as <-; apply warn_announced|]. destruct (semantic_fails p sm); [intros E; injection E as <-; apply warn_announced|].
    intros E. eapply obs_announced; eauto. destruct (Ob _ _ Ip) as (? & ? & ? & ?), (Pl _ _ Ip).
    destruct (_ || _)%bool; cbn [alloc] in E.
    + destruct (write_object _ _ _ _ _) as [w2| | |] eqn:W; cbn [obind] in E; try discriminate. apply object_obs in W; auto.
      eapply obs_trans; [apply calm_obs; apply (alloc_calm w struct_class (CStruct sm bs))|]. eapply obs_trans; [exact W|]. apply calm_obs. eapply release_calm; eauto.
    + destruct (enc p) as [|t s|k]; try (injection E as <-; apply warn_obs). destruct (_ =? _); injection E as <-; [|apply warn_obs]. apply write_obs; auto. apply inside_save.
  - destruct (get_struct P w g n sm dst zeros4) as [[[w1 r] d]| | |] eqn:G; cbn [obind fst]; try discriminate. intros E. injection E as <-.
    destruct g as [|o|tx]; cbn [get_struct] in G; try (injection G as <- <- <-; auto using calm_announced, calm_refl, warn_announced).
    destruct (definition P w o n) as [[p|]| | |] eqn:D; cbn [obind] in G; try discriminate; [|injection G as <- <- <-; apply warn_announced]. destruct (defined P w o n p D) as (ob & Eo & Ip & Np).
    destruct (semantic_fails p sm); [injection G as <- <- <-; apply warn_announced|].
    eapply obs_announced; eauto. destruct (Ob _ _ Ip) as (? & ? & ? & ?), (Pl _ _ Ip).
    assert (Rd: forall w2 r2 d2, obs o p w w2 -> (if negb (r2 =? 0) then Ok (w2, r2, d2) else match enc p with
      | EBin k => if k =? length d2 then let w := will_read w2 o p in do b <- load_bytes w o (offset p) k; Ok (did_read w o p, length d2, b) else Ok (note w2 Warning, 0, d2)
      | _ => Ok (note w2 Warning, 0, d2) end) = Ok (w1, r, d) -> obs o p w w1).
    { intros w2 r2 d2 O2. destruct (negb _); [intros E; injection E as <- <- <-; auto|]. destruct (enc p) as [|t s|k]; try (intros E; injection E as <- <- <-; eapply obs_trans; [exact O2|apply warn_obs]).
      destruct (_ =? _); [|intros E; injection E as <- <- <-; eapply obs_trans; [exact O2|apply warn_obs]]. cbv zeta. destruct (load_bytes _ _ _ _) as [b| | |]; cbn [obind]; try discriminate.
      intros E; injection E as <- <- <-. eapply obs_trans; [exact O2|]. apply read_obs; auto using calm_refl. }
    destruct (_ || _)%bool.
    + destruct (read_object w o p zeros4) as [[w2 g2]| | |] eqn:R; cbn [obind] in G; try discriminate. apply read_object_obs in R; auto.
      destruct (unpack_struct w2 g2 sm dst) as [[w3 r3] d3] eqn:U. cbn [obind] in G. apply (Rd w3 r3 d3); auto. eapply obs_trans; [exact R|].
      unfold unpack_struct in U. destruct g2 as [|i|tx]; [injection U as <- <- <-; apply calm_obs, calm_refl| |injection U as <- <- <-; apply calm_obs, calm_refl].
      destruct (body_of w2 (Some i)) as [[| | |]|]; try (injection U as <- <- <-; apply calm_obs, calm_refl). destruct (_ =? _); [destruct (opt_text_eqb _ _)|]; injection U as <- <- <-; auto using calm_obs, calm_refl, warn_obs.
    + cbn [obind] in G. apply (Rd w 0 dst); auto. apply calm_obs, calm_refl.
  - intros E. apply release_all_calm in E. apply calm_announced. destruct E as [E1 E2]. split; auto.
Qed.
Lemma reaches_announced P w c w' c' l : observed P -> (forall c p, In p (props P c) -> getter p = None /\ setter p = None) -> reaches P w c w' c' l -> orderly (log w) -> orderly (log w').
Proof.
  intros Ob Pl R. induction R as [|w c a w1 l v d Pm E R IH]; auto. intros O. apply IH. destruct (step_announced P w a w1 Ob Pl E) as (l1 & L & O1 & _). rewrite L. apply orderly_app; auto.
Qed.
Lemma watching P w c a w' : sensible P -> observed P -> reachable P w c -> orderly (log w) /\ (step P w a = Ok w' -> announced P w w').
Proof.
  intros SP Ob [l R]. assert (Pl: forall c p, In p (props P c) -> getter p = None /\ setter p = None) by (intros; eapply no_accessors; eauto).
  split; [eapply reaches_announced; eauto; constructor|]. apply step_announced; auto.
Qed.

(** * Requirements *)
Definition ref_of (s : slot) : option nat := match s with SRef r | SWeak r => r | _ => None end.
Lemma write_pred P w f0 o p x cl b w' f : sensible P -> inv P w f0 -> vw w o = Some (cl, b) -> In p (props P cl) -> enc p = EObj -> copied p = false -> pred p = Some f ->
  match x with Some i => 0 < refs_of w i | None => True end -> write_object P w o p x = Ok w' ->
  grows w w' /\ (find_slot (memory w') (o, offset p) = find_slot (memory w) (o, offset p) \/ exists s, find_slot (memory w') (o, offset p) = Some s /\ ref_of s = x /\ f (view w x) = true).
Proof.
  intros SP I V Ip E C Pr A W. unfold write_object in W. destruct (no_accessors P cl p SP Ip) as [_ Se]. rewrite Se, E, Pr in W. cbn [is_obj] in W. destruct (f (view w x)) eqn:Fv; cbn [negb] in W.
  - pose proof (will_write_silent w o p) as S1. destruct (store_ok P (will_write w o p) f0 o p x cl b SP) as (w2 & s & E2 & I2 & G2 & _ & _ & M2 & T2); auto.
    { apply (silent_inv P w); auto. } { rewrite (silent_vw w _ o S1); auto. } { destruct x as [i|]; auto. rewrite (silent_refs w _ i S1). auto. }
    rewrite E2 in W. cbn [obind] in W. injection W as <-. pose proof (did_write_silent w2 o p) as S2. split.
    { eapply grows_trans; [apply silent_grows; exact S1|]. eapply grows_trans; [exact G2|apply silent_grows; exact S2]. }
    right. exists s. destruct S2 as (_ & M3 & _). rewrite M3, M2, find_put_same. split; auto. split; auto. unfold stored in T2. rewrite C in T2. destruct (weak p); subst s; reflexivity.
  - injection W as <-. split; [apply silent_grows, note_silent|]. left. reflexivity.
Qed.
Definition satisfied (P : program) (w : world) : Prop :=
  forall o cl b p f s x, vw w o = Some (cl, b) -> In p (props P cl) -> enc p = EObj -> copied p = false -> pred p = Some f -> by_class p ->
    find_slot (memory w) (o, offset p) = Some s -> ref_of s = Some x -> exists c v, vw w x = Some (c, v) /\ f (Some (c, v)) = true.
Lemma refs_vw w i : 0 < refs_of w i -> exists c v, vw w i = Some (c, v).
Proof. unfold refs_of, vw. destruct (nth_error (heap w) i); [eauto|lia]. Qed.
Lemma satisfied_step P w c a w' : sensible P -> inv P w (times c) -> permitted P w c a -> step P w a = Ok w' -> satisfied P w -> satisfied P w'.
Proof.
  intros SP I Pm St Sat. destruct (step_ok P w c a SP I Pm) as (w2 & E2 & I2 & K & U). rewrite St in E2. injection E2 as <-.
  assert (Kept: forall x cx vx f p, vw w x = Some (cx, vx) -> f (Some (cx, vx)) = true -> pred p = Some f -> by_class p -> exists c v, vw w' x = Some (c, v) /\ f (Some (c, v)) = true).
  { intros x cx vx f p Vx Fx Pr By. destruct (K x cx vx Vx) as (b' & V' & _). exists cx, b'. split; auto. rewrite (By f cx b' vx Pr). auto. }
  intros o cl b p f s x V Ip E C Pr By F Rx.
  assert (Old: exists b0, vw w o = Some (cl, b0) \/ vw w o = None).
  { destruct (vw w o) as [[cl0 b0]|] eqn:V0; [|exists b; auto]. destruct (K o cl0 b0 V0) as (b1 & V1 & _). rewrite V in V1. injection V1 as -> _. eauto. }
  assert (Same: find_slot (memory w') (o, offset p) = find_slot (memory w) (o, offset p) -> exists c0 v, vw w' x = Some (c0, v) /\ f (Some (c0, v)) = true).
  { intros Q. rewrite Q in F. destruct Old as (b0 & [V0|V0]).
    - destruct (Sat o cl b0 p f s x V0 Ip E C Pr By F Rx) as (cx & vx & Vx & Fx). eapply Kept; eauto.
    - destruct (i_typed P w _ I o (offset p) s F) as (c1 & b1 & V1 & _). congruence. }
  destruct Old as (b0 & [V0|V0]).
  2: { apply Same. apply U. intros i n ci bi q T Vi Iq Nq X. injection X as -> X. congruence. }
  assert (Dec: target_of a = Some (o, pname p) \/ target_of a <> Some (o, pname p)).
  { destruct (target_of a) as [[i n]|]; [|right; discriminate]. destruct (Nat.eq_dec i o) as [->|N]; [|right; congruence]. destruct (list_eq_dec N.eq_dec n (pname p)) as [->|N]; [left; auto|right; congruence]. }
  destruct Dec as [T|T].
  2: { apply Same. apply U. intros i n ci bi q T' Vi Iq Nq X. injection X as -> X. rewrite V0 in Vi. injection Vi as <- <-. rewrite (proj1 (proj2 SP) cl p q Ip Iq X) in T. apply T. congruence. }
  assert (Through: forall w1 y w3, inv P w1 (times c) \/ (exists g, inv P w1 g) -> grows w w1 -> memory w1 = memory w -> match y with Some i => 0 < refs_of w1 i | None => True end ->
            write_object P w1 o p y = Ok w3 -> memory w' = memory w3 -> grows w3 w' -> exists c0 v, vw w' x = Some (c0, v) /\ f (Some (c0, v)) = true).
  { intros w1 y w3 I1 G1 M1 Ay W M3 G3. assert (Ix: exists g, inv P w1 g) by (destruct I1; eauto). destruct Ix as [g Ig].
    destruct (write_pred P w1 g o p y cl b0 w3 f SP Ig (G1 _ _ V0) Ip E C Pr Ay W) as (G & [Q|(s' & Q & Rs & Fv)]).
    - apply Same. rewrite M3, Q, M1. reflexivity.
    - rewrite M3, Q in F. injection F as <-. rewrite Rx in Rs. subst y. destruct (refs_vw w1 x Ay) as (cx & vx & Vx). rewrite view_vw, Vx in Fv. exists cx, vx. split; auto. }
  destruct (no_accessors P cl p SP Ip) as [Ge Se].
  destruct a as [| | | |[|i|]| |[|i|]| |[|i|]| |]; cbn [target_of] in T; try discriminate; injection T as -> ->; cbn [step set_property set_number set_struct permitted] in *; destruct Pm as [Al Bl]; apply receiver_alive in Al; cbn [got_alive] in Al;
  destruct (definition_ok P w o (pname p) Al) as (cl' & b' & V' & D); rewrite V0 in V'; injection V' as <- <-; rewrite D, (find_named P cl p SP Ip) in St; cbn [obind] in St;
  (destruct (readonly p); [injection St as <-; apply Same; reflexivity|]).
  - apply opt_alive in Bl. apply (Through w x0 w'); auto using grows_refl.
  - rewrite Se, E in St. cbn [orb is_obj alloc] in St. change (with_heap w (heap w ++ [mkObj number_class (CNum v) 1])) with (fst (alloc w number_class (CNum v))) in St.
    pose proof (alloc_inv P w (times c) number_class (CNum v) I Bl) as I1. destruct (write_object _ _ _ _ _) as [w3| | |] eqn:W; cbn [obind] in St; try discriminate.
    destruct (release_calm _ _ _ St) as [M _]. apply (Through (fst (alloc w number_class (CNum v))) (Some (length (heap w))) w3); eauto.
    + intros i u X. apply vw_alloc_old; auto.
    + rewrite refs_alloc. cbn [one]. rewrite Nat.eqb_refl. lia.
    + cbn [release] in St. destruct (get_obj w3 (length (heap w))) as [ob|] eqn:Q; [|discriminate]. destruct (_ =? _); [discriminate|]. injection St as <-. apply grows_same. intros i. apply upd_vw. exact Q.
  - destruct (semantic_fails p sem); [injection St as <-; apply Same; reflexivity|].
    rewrite Se, E in St. cbn [orb is_obj alloc] in St. change (with_heap w (heap w ++ [mkObj struct_class (CStruct sem b1) 1])) with (fst (alloc w struct_class (CStruct sem b1))) in St.
    pose proof (alloc_inv P w (times c) struct_class (CStruct sem b1) I Bl) as I1. destruct (write_object _ _ _ _ _) as [w3| | |] eqn:W; cbn [obind] in St; try discriminate.
    destruct (release_calm _ _ _ St) as [M _]. apply (Through (fst (alloc w struct_class (CStruct sem b1))) (Some (length (heap w))) w3); eauto.
    + intros i u X. apply vw_alloc_old; auto.
    + rewrite refs_alloc. cbn [one]. rewrite Nat.eqb_refl. lia.
    + cbn [release] in St. destruct (get_obj w3 (length (heap w))) as [ob|] eqn:Q; [|discriminate]. destruct (_ =? _); [discriminate|]. injection St as <-. apply grows_same. intros i. apply upd_vw. exact Q.
Qed.
Lemma satisfied_reaches P w c w' c' l : sensible P -> reaches P w c w' c' l -> inv P w (times c) -> satisfied P w -> satisfied P w'.
Proof.
  intros SP R. induction R as [|w c a w1 l v d Pm E R IH]; auto. intros I Sat. destruct (step_ok P w c a SP I Pm) as (w2 & E2 & I2 & _). rewrite E in E2. injection E2 as <-.
  apply IH; auto. apply (satisfied_step P w c a w1); auto.
Qed.
Lemma requirement P w c o p f j w' x : sensible P -> reachable P w c -> has_property P w o p -> enc p = EObj -> copied p = false -> pred p = Some f -> by_class p -> length j = 4 -> octets j ->
  alive w o -> get_property P w (GObj o) (pname p) j = Ok (w', GObj x) -> exists cl b, is_a w' x cl b /\ f (Some (cl, b)) = true.
Proof.
  intros SP Re H E C Pr By Lj Oj A G. pose proof (reachable_inv P w c SP Re) as I. destruct Re as [l R].
  assert (Sat: satisfied P w). { apply (satisfied_reaches P start [] w c l SP R (start_inv P)). intros o' ? ? ? ? ? ? V. destruct o'; discriminate. }
  rewrite (get_named P w o p j SP H A) in G. destruct (has_vw P w o p H) as (cl & b & V & Ip). destruct (no_accessors P cl p SP Ip) as [Ge _].
  destruct (read_ok P w (times c) o p cl b j SP I V Ip) as (w4 & g & R4 & (_ & Gr & _) & _); [split; auto|]. rewrite G in R4. injection R4 as <- <-.
  assert (X: exists s, find_slot (memory w) (o, offset p) = Some s /\ ref_of s = Some x).
  { unfold read_object in G. rewrite Ge, E in G. cbv zeta in G. pose proof (will_read_silent w o p) as (Hh & Hm & _). unfold load_weak, load_ref in G. rewrite Hm in G. destruct (weak p).
    - destruct (find_slot (memory w) (o, offset p)) as [[r|r|r]|]; cbn [obind] in G; try discriminate. destruct r as [i|]; cbn [resolve obind] in G; [|discriminate].
      destruct (get_obj _ i) as [ob|]; [|discriminate]. destruct (_ =? _); [discriminate|]. destruct (retain _ _) as [w1| | |]; cbn [obind] in G; try discriminate. injection G as _ ->. exists (SWeak (Some x)). auto.
    - destruct (find_slot (memory w) (o, offset p)) as [[r|r|r]|]; cbn [obind] in G; try discriminate. destruct (retain _ _) as [w1| | |]; cbn [obind] in G; try discriminate. destruct r as [i|]; [|discriminate]. injection G as _ ->. exists (SRef (Some x)). auto. }
  destruct X as (s & Fs & Rs). destruct (Sat o cl b p f s x V Ip E C Pr By Fs Rs) as (cx & vx & Vx & Fx). exists cx, vx. split; auto. apply is_a_vw. auto.
Qed.
Lemma unmet P w c o p f x : sensible P -> reachable P w c -> has_property P w o p -> enc p = EObj -> readonly p = false -> pred p = Some f -> alive w o -> ~ accepts p w x -> alive_opt w x ->
  step P w (Set_ (GObj o) (pname p) x) = Ok (note w Warning).
Proof.
  intros SP Re H E Ro Pr A Na Ax. pose proof (reachable_inv P w c SP Re) as I. destruct (has_vw P w o p H) as (cl & b & V & Ip). apply alive_refs in A. cbn [step set_property].
  destruct (definition_ok P w o (pname p) A) as (cl' & b' & V' & D). rewrite V in V'. injection V' as <- <-. rewrite D. cbn [obind]. rewrite (find_named P cl p SP Ip), Ro.
  unfold write_object. destruct (no_accessors P cl p SP Ip) as [_ Se]. rewrite Se, E, Pr. cbn [is_obj]. assert (Q: f (view w x) = false); [|rewrite Q; reflexivity].
  destruct (f (view w x)) eqn:Q; auto. exfalso. apply Na. unfold accepts. rewrite Pr. destruct x as [i|]; [|exact Q]. apply alive_refs in Ax. destruct (refs_vw w i Ax) as (cx & vx & Vx). exists cx, vx. rewrite view_vw, Vx in Q. split; auto. apply is_a_vw. auto.
Qed.
