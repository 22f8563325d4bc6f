(** Proofs about strings as streams. *)
Require Import Coq.ZArith.ZArith Coq.NArith.NArith Coq.Lists.List Coq.Bool.Bool Coq.Arith.Arith Coq.micromega.Lia.
Require Import Verif.Base Verif.Array_Model Verif.Array_Spec Verif.Bytes_Model Verif.Bytes_Spec Verif.Bytes_Proofs Verif.StrStream_Model Verif.StrStream_Spec.
Require Verif.String_Model Verif.StrObj_Spec Verif.StrObj_Proofs.
Import ListNotations.

Definition code_of (l : list byte) : N := StrObj_Spec.poly (StrObj_Spec.cut l).
(** [sure]: the cached hash code is right. *)
Definition trep (s : text) (p : page) (sure : bool) : Prop :=
  drep (body s) (letters p, place p) /\ mut s = free p /\ (sure = true -> code s = 0%N \/ code s = code_of (letters p)).

Lemma known_map : forall l m, known (map Some l ++ m) = l ++ known m.
Proof. induction l as [|b l IH]; intros m; cbn; [reflexivity|]. f_equal. apply IH. Qed.
Lemma strhash_more : forall l m h, In 0%N l -> String_Model.strhash_loop (l ++ m) h = String_Model.strhash_loop l h.
Proof. induction l as [|b l IH]; intros m h H; [contradiction|]. cbn. destruct (b =? 0)%N eqn:E; [reflexivity|]. apply IH. destruct H as [->|H]; [discriminate|exact H]. Qed.
Lemma hash_ok : forall a l, brep a (map Some l) -> String_Model.strhash (known (bcells a)) = Ok (code_of l).
Proof.
  intros a l (_ & (r & H & _) & _). rewrite H, known_map. cbn [terminator app known]. unfold String_Model.strhash.
  change (l ++ 0%N :: 0%N :: 0%N :: 0%N :: known r) with (l ++ [0%N; 0%N; 0%N; 0%N] ++ known r). rewrite app_assoc, strhash_more by (apply in_or_app; cbn; auto).
  change (String_Model.strhash (String_Model.sto l) = Ok (code_of l)). apply StrObj_Proofs.strhash_ok.
Qed.
Lemma step_ok : forall s p sure o, trep s p sure -> top_ok p o -> (sure = true \/ o <> THash) ->
  exists s', text_step s o = Ok (s', snd (page_step p o)) /\ trep s' (fst (page_step p o)) (sure && negb (sets_length o) || match o with TWrite _ _ _ => free p | _ => false end).
Proof.
  intros s [l c m] sure o (D & Hm & Hc) H Hs. cbn [letters place free] in *. destruct o as [off w| |size count|b size count|loc len b|n|]; cbn [text_step top_ok sets_length place letters free] in *.
  - destruct (dstep_ok (body s) (l, c) (DSeek off w) D) as (d' & E & D'); [destruct w; cbn in *; auto|]. cbn [data_step] in E. unfold text_seek. destruct (data_seek (body s) off w) as [d1| | |]; try discriminate. cbn [obind] in *. injection E as -> Er.
    rewrite andb_true_r, orb_false_r. destruct w; cbn [page_step fst snd file_step letters place free] in *; eexists; (split; [reflexivity|]); (split; [exact D'|]); split; auto.
  - exists s. destruct D as (D1 & D2 & D3). cbn [snd fst] in D2. rewrite D2. split; [reflexivity|]. rewrite andb_true_r, orb_false_r. split; [split; auto|]. auto.
  - destruct (dstep_ok (body s) (l, c) (DRead size count) D H) as (d' & E & D'). cbn [data_step] in E. unfold text_read. destruct (data_read (body s) size count) as [d1| | |]; try discriminate. cbn [obind fst snd] in *. injection E as -> Eb En.
    rewrite andb_true_r, orb_false_r. cbn [page_step letters place free fst snd]. rewrite Eb, En. eexists. split; [reflexivity|]. split; [exact D'|]. auto.
  - unfold text_write. rewrite Hm. cbn [page_step free letters place]. rewrite andb_true_r. destruct m.
    + destruct (dstep_ok (body s) (l, c) (DWrite b size count) D H) as (d' & E & D'). cbn [data_step] in E. destruct (data_write (body s) b size count) as [d1| | |]; try discriminate. cbn [obind fst snd] in *. injection E as -> En.
      rewrite En. eexists. split; [reflexivity|]. cbn [file_step fst snd] in D'. unfold trep; cbn [body letters place free mut code].
      rewrite Nat2Z.inj_add, Z2Nat.id in D' by apply limit_bounds. split; [exact D'|]. auto.
    + cbn [obind fst snd]. exists s. split; [reflexivity|]. rewrite orb_false_r. split; [exact D|]. auto.
  - rewrite andb_true_r, orb_false_r. unfold text_edit. destruct D as (B & D2 & D3). cbn [fst snd] in *. rewrite Hm, (brep_len _ _ B). cbn [page_step free letters place]. destruct (m && (loc + len <=? length l)) eqn:E.
    + apply andb_true_iff in E. destruct E as [-> E]. apply Nat.leb_le in E. destruct (breplace_bytes (dbytes (body s)) l loc len b (length b) B E (le_n _)) as (a & Ea & Ba). rewrite Ea. cbn [obind fst snd].
      eexists. split; [reflexivity|]. rewrite firstn_all in Ba. unfold trep; cbn [body letters place free mut code]. split; [split; [exact Ba|auto]|]. auto.
    + cbn [obind]. exists s. split; [reflexivity|]. split; [split; auto|]. auto.
  - rewrite andb_false_r. cbn [orb]. unfold text_set_length. rewrite Hm. cbn [page_step free letters place]. destruct m.
    + destruct (dstep_ok (body s) (l, c) (DSetLength n) D H) as (d' & E & D'). cbn [data_step] in E. destruct (data_set_length (body s) n) as [d1| | |]; try discriminate. cbn [obind fst snd] in *. injection E as ->.
      eexists. split; [reflexivity|]. split; [exact D'|]. split; [reflexivity|discriminate].
    + cbn [obind]. exists s. split; [reflexivity|]. split; [exact D|]. split; [exact Hm|discriminate].
  - destruct Hs as [->|Hs]; [|congruence]. specialize (Hc eq_refl). assert (D2 := D). destruct D as (B & _ & _). cbn [fst snd] in B. cbn [negb andb orb]. unfold text_hash. cbn [page_step letters fst snd]. fold (code_of l).
    destruct (code s =? 0)%N eqn:E.
    + rewrite (brep_len _ _ B). destruct (0 <? length l) eqn:El.
      * rewrite (hash_ok _ _ B). cbn [obind fst snd]. eexists. split; [reflexivity|]. split; [exact D2|]. split; [exact Hm|]. intros _. right. reflexivity.
      * apply Nat.ltb_ge in El. destruct l; [|cbn in El; lia]. cbn [obind fst snd]. exists s. split; [reflexivity|]. split; [exact D2|]. auto.
    + apply N.eqb_neq in E. destruct Hc as [Hc|Hc]; [contradiction|]. cbn [obind fst snd]. exists s. rewrite <- Hc. split; [reflexivity|]. split; [exact D2|]. auto.
Qed.

(** No hash code is asked for once the length was set, unless the string was written or edited. *)
Fixpoint hashes_ok (sure : bool) (f : bool) (os : list top) : bool :=
  match os with
  | [] => true
  | THash :: os' => sure && hashes_ok sure f os'
  | TLength _ :: os' => hashes_ok (negb f && sure) f os'
  | TWrite _ _ _ :: os' => hashes_ok (f || sure) f os'
  | _ :: os' => hashes_ok sure f os'
  end.
Lemma new_ok : forall m b, exists s, text_new m b = Ok s /\ trep s (mkP b 0 m) true.
Proof.
  intros m b. unfold text_new. destruct (dstep_ok data_init ([], 0%Z) (DAppend b) drep_init I) as (d & E & D). cbn [data_step] in E. destruct (data_append data_init b) as [d1| | |]; try discriminate. cbn [obind] in *. injection E as ->.
  eexists. split; [reflexivity|]. split; [exact D|]. auto.
Qed.
Lemma free_kept : forall o p, free (fst (page_step p o)) = free p.
Proof. intros o [l c m]. destruct o as [off [| |]| | | | | |]; cbn; auto; destruct m; cbn; auto; match goal with |- context [if ?e then _ else _] => destruct e end; auto. Qed.
Lemma run_ok : forall os s p sure, trep s p sure -> tops_ok p os -> hashes_ok sure (free p) os = true ->
  exists s' sure', text_run s os = Ok (s', snd (page_run p os)) /\ trep s' (fst (page_run p os)) sure'.
Proof.
  induction os as [|o os IH]; intros s p sure R H Hh; [exists s, sure; auto|]. destruct H as [H1 H2].
  destruct (step_ok s p sure o R H1) as (s1 & E & R1). { destruct o; try (right; discriminate). left. cbn in Hh. now apply andb_true_iff in Hh. }
  assert (exists sure1, trep s1 (fst (page_step p o)) sure1 /\ hashes_ok sure1 (free (fst (page_step p o))) os = true) as (sure1 & R2 & Hh2).
  { rewrite free_kept. destruct o as [off w| |size count|b size count|loc len b|n|]; cbn [hashes_ok sets_length negb] in *; rewrite ?andb_true_r, ?andb_false_r, ?orb_false_r in R1; eauto.
    - exists (free p || sure). split; [now rewrite orb_comm|exact Hh].
    - destruct (free p) eqn:F; cbn [negb andb] in *; [exists false; auto|]. exists sure. split; [|exact Hh]. cbn [page_step]. rewrite F. cbn [fst]. cbn [text_step] in E. unfold text_set_length in E. rewrite (proj1 (proj2 R)), F in E. cbn [obind] in E. injection E as <- _. exact R.
    - apply andb_true_iff in Hh. exists sure. tauto. }
  cbn [text_run page_run]. rewrite E. cbn [obind fst snd]. destruct (page_step p o) as [p1 r1]. cbn [fst snd] in *. destruct (IH s1 p1 sure1 R2 H2 Hh2) as (s2 & sure2 & E2 & R3). rewrite E2. cbn [obind fst snd].
  destruct (page_run p1 os) as [p2 rs]. cbn [fst snd] in *. exists s2, sure2. auto.
Qed.
Theorem stream : forall m b os, tops_ok (mkP b 0 m) os -> hashes_ok true m os = true ->
  exists s s', text_new m b = Ok s /\ text_run s os = Ok (s', snd (page_run (mkP b 0 m) os)) /\ text_shown s' (fst (page_run (mkP b 0 m) os)).
Proof.
  intros m b os H Hh. destruct (new_ok m b) as (s & E & R). destruct (run_ok os s _ true R H Hh) as (s' & sure & E2 & (D & Hm & _)). exists s, s'. split; [exact E|]. split; [exact E2|].
  destruct (drep_shown _ _ D) as [D1 D2]. split; [exact D1|]. split; [exact D2|exact Hm].
Qed.
(** The contents of an immutable string never change. *)
Theorem immutable : forall os b p, letters (fst (page_run (mkP b p false) os)) = b.
Proof.
  induction os as [|o os IH]; intros b p; [reflexivity|]. cbn [page_run]. destruct (page_step (mkP b p false) o) as [p1 r] eqn:E. assert (X : exists q, p1 = mkP b q false) by (destruct o as [off [| |]| | | | | |]; cbn in E; injection E as <- _; eauto).
  destruct X as [q ->]. specialize (IH b q). destruct (page_run (mkP b q false) os). exact IH.
Qed.
Lemma fixed_hashes : forall os, hashes_ok true false os = true.
Proof. induction os as [|o os IH]; [reflexivity|]. destruct o; cbn; exact IH. Qed.
Theorem unchanged : forall b os, tops_ok (mkP b 0 false) os ->
  exists s s' rs, text_new false b = Ok s /\ text_run s os = Ok (s', rs) /\ bytes_shown (dbytes (body s')) (map Some b).
Proof. intros b os H. destruct (stream false b os H (fixed_hashes os)) as (s & s' & E1 & E2 & (B & _)). rewrite immutable in B. eauto 6. Qed.
(** The position is inside unless the string was shortened. *)
Definition inside (p : page) : Prop := (0 <= place p <= Z.of_nat (length (letters p)))%Z.
Definition shortens (o : top) : bool := match o with TEdit _ _ _ | TLength _ => true | _ => false end.
Lemma inside_step : forall o p, inside p -> top_ok p o -> shortens o = false -> inside (fst (page_step p o)).
Proof.
  unfold inside. intros o [l c m] H Ho Hs. destruct o as [off [| |]| |size count|b size count|loc len b|n|]; cbn [page_step letters place free fst shortens top_ok] in *; try discriminate; try assumption; try apply limit_bounds; try lia.
  - pose proof (limit_bounds l c). lia.
  - destruct m; cbn [fst letters place]; [|exact H]. pose proof (limit_bounds l c). rewrite !app_length, !firstn_length, skipn_length. lia.
Qed.
Theorem inside_run : forall os p, inside p -> tops_ok p os -> forallb (fun o => negb (shortens o)) os = true -> inside (fst (page_run p os)).
Proof.
  induction os as [|o os IH]; intros p H Ho Hs; [exact H|]. destruct Ho as [H1 H2]. cbn [forallb] in Hs. apply andb_true_iff in Hs. destruct Hs as [S1 S2]. apply negb_true_iff in S1.
  pose proof (inside_step o p H H1 S1) as Hi. cbn [page_run]. destruct (page_step p o) as [p1 r]. cbn [fst] in *. specialize (IH p1 Hi H2 S2). destruct (page_run p1 os). exact IH.
Qed.
Theorem position : forall m b os, tops_ok (mkP b 0 m) os -> hashes_ok true m os = true -> forallb (fun o => negb (shortens o)) os = true ->
  exists s s' rs c, text_new m b = Ok s /\ text_run s (os ++ [TTell]) = Ok (s', rs ++ [TNum c]) /\ (0 <= c <= Z.of_nat (blen (dbytes (body s'))))%Z.
Proof.
  intros m b os H Hh Hs. assert (P : inside (fst (page_run (mkP b 0 m) os))) by (apply inside_run; auto; unfold inside; cbn; lia).
  destruct (stream m b os H Hh) as (s & s' & E1 & E2 & (B & Ec & _)). exists s, s', (snd (page_run (mkP b 0 m) os)), (dcursor (body s')). split; [exact E1|].
  assert (A : forall os s0 s1 rs, text_run s0 os = Ok (s1, rs) -> text_run s0 (os ++ [TTell]) = Ok (s1, rs ++ [TNum (dcursor (body s1))])).
  { clear. induction os as [|o os IH]; intros s0 s1 rs E; cbn in *; [injection E as <- <-; reflexivity|]. destruct (text_step s0 o) as [[s2 r2]| | |]; try discriminate. cbn [obind fst snd] in *. destruct (text_run s2 os) as [[s3 r3]| | |] eqn:E3; try discriminate. cbn [obind fst snd] in *. injection E as <- <-. rewrite (IH s2 s3 r3 E3). reflexivity. }
  split; [apply A; exact E2|]. rewrite Ec. destruct B as (L & _). rewrite L, map_length. exact P.
Qed.
