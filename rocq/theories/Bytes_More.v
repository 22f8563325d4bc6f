(** More about positions in data: after bytes were removed, and at the end. *)
Require Import Coq.NArith.NArith Coq.ZArith.ZArith Coq.Lists.List Coq.Bool.Bool Coq.micromega.Lia.
Require Import Verif.Base Verif.Bytes_Model Verif.Bytes_Spec Verif.Bytes_Proofs.
Import ListNotations.

Lemma dops_ok_split : forall os1 os2 f, dops_ok f (os1 ++ os2) -> dops_ok f os1 /\ dops_ok (fst (file_run f os1)) os2.
Proof.
  induction os1 as [|o os1 IH]; intros os2 f H; cbn [app dops_ok file_run fst] in *; [auto|]. destruct H as [H H1]. apply IH in H1. destruct (file_step f o) as [f1 r]. cbn [fst] in *. destruct (file_run f1 os1). tauto.
Qed.
Theorem tell_again_in_range : forall os o os', dops_ok ([], 0%Z) (os ++ o :: os') -> forallb stream_op os' = true ->
  match o with DSeek _ _ | DRead _ _ | DWrite _ _ _ => True | _ => False end ->
  exists d rs c, data_run data_init ((os ++ o :: os') ++ [DTell]) = Ok (d, rs ++ [DNum c]) /\ (0 <= c <= Z.of_nat (blen (dbytes d)))%Z.
Proof.
  intros os o os' H Hs Ho. destruct (drun_ok ((os ++ o :: os') ++ [DTell]) _ _ drep_init) as (d & E & R).
  { apply dops_ok_app; auto. cbn. auto. }
  assert (Hb : (0 <= snd (fst (file_run ([], 0%Z) (os ++ o :: os'))) <= Z.of_nat (length (fst (fst (file_run ([], 0%Z) (os ++ o :: os'))))))%Z).
  { apply dops_ok_split in H. destruct H as [_ H]. rewrite file_run_app. cbn [fst]. destruct (file_run ([], 0%Z) os) as [[l c] rs]. cbn [fst] in *. cbn [dops_ok] in H. destruct H as [H1 H2]. cbn [file_run].
    assert (B : (0 <= snd (fst (file_step (l, c) o)) <= Z.of_nat (length (fst (fst (file_step (l, c) o)))))%Z).
    { destruct o; try contradiction; cbn [file_step fst snd dop_ok] in *.
      - destruct w; cbn [fst snd]; try apply limit_bounds. lia.
      - pose proof (limit_bounds l c). lia.
      - pose proof (limit_bounds l c). rewrite !app_length, !firstn_length, skipn_length. lia. }
    destruct (file_step (l, c) o) as [f1 r]. cbn [fst] in *. pose proof (stream_bounds os' f1 B H2 Hs) as X. destruct (file_run f1 os'). exact X. }
  rewrite file_run_app in E, R. destruct (file_run ([], 0%Z) (os ++ o :: os')) as [[l c] rs]. cbn in E, R, Hb.
  exists d, rs, c. split; auto. rewrite (brep_len _ l); [lia|apply R].
Qed.
Theorem seek_end_zero : forall os, dops_ok ([], 0%Z) os ->
  exists d rs c, data_run data_init (os ++ [DSeek 0 SeekEnd; DTell]) = Ok (d, rs ++ [DNum c]) /\ c = Z.of_nat (blen (dbytes d)).
Proof.
  intros os H. destruct (drun_ok (os ++ [DSeek 0 SeekEnd; DTell]) _ _ drep_init) as (d & E & R).
  { apply dops_ok_app; auto. cbn. auto. }
  rewrite file_run_app in E, R. destruct (file_run ([], 0%Z) os) as [[l c] rs]. cbn in E, R.
  exists d, (rs ++ [DDone]), (Z.of_nat (length l)). split; [rewrite <- app_assoc; exact E|]. now rewrite (brep_len _ l) by apply R.
Qed.
