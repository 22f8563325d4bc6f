(** Proofs about loading files. *)
Require Import Coq.ZArith.ZArith Coq.NArith.NArith Coq.Lists.List Coq.Arith.Arith Coq.Bool.Bool Coq.micromega.Lia.
Require Import Verif.Base Verif.Bytes_Model Verif.Bytes_Spec Verif.Bytes_Proofs Verif.File_Model Verif.File_Spec Verif.File_Proofs Verif.Load_Model.
Import ListNotations.

Lemma fill_ok : forall a l b, brep a l -> length b <= length l -> exists a', fill a b = Ok a' /\ brep a' (map Some b ++ skipn (length b) l).
Proof.
  intros a l b (H1 & (r & H2 & H3) & H4) Hb. unfold fill. destruct (Bytes_Proofs.cut _ l (length b) Hb) as (p & q & -> & Lp).
  rewrite H2, <- (app_assoc p q). assert (M : mwrite (p ++ q ++ terminator ++ r) 0 (map Some b) = Ok (map Some b ++ q ++ terminator ++ r)) by (apply (mwrite_ok [] p (q ++ terminator ++ r)); [reflexivity|rewrite map_length; exact Lp]). rewrite M. cbn [obind]. eexists. split; [reflexivity|].
  rewrite skipn_app, skipn_all2 by lia. rewrite Lp, Nat.sub_diag. cbn [skipn app]. rewrite app_length in *. split; [cbn [blen]; rewrite app_length, map_length; lia|]. cbn [bcells bmax bnull].
  split; [|exact H4]. exists r. rewrite app_assoc. split; [reflexivity|]. rewrite app_length, map_length. lia.
Qed.
Theorem contents_ok : forall n b, length b <= n -> exists a junk, contents (Z.of_nat n) b = Ok a /\ bytes_shown a (map Some b ++ junk) /\ length junk = n - length b.
Proof.
  intros n b Hb. unfold contents. destruct (0 <? Z.of_nat n)%Z eqn:E.
  - destruct (set_length_ok barray_init [] n brep_init) as (a & junk & Ea & Lj & B). rewrite Nat2Z.id, Ea. cbn [obind]. rewrite firstn_nil in B. cbn [app length] in *.
    destruct (fill_ok a junk b B ltac:(lia)) as (a' & Ef & B'). exists a', (skipn (length b) junk). split; [exact Ef|]. split; [now apply brep_shown|]. rewrite skipn_length. lia.
  - apply Z.ltb_ge in E. assert (n = 0) by lia. subst n. destruct b; [|cbn in Hb; lia]. exists barray_init, []. split; [reflexivity|]. split; [apply brep_shown, brep_init|reflexivity].
Qed.

Section Loads.
Variable drain : list N -> nat.
Notation step := (step drain).
Notation reach := (reach drain).

(** What is loaded through a file object. *)
Theorem handle : forall w c i s x, reach w c -> In i c -> has w i s -> is_stream w s x -> File_Model.last x <> Wrote ->
  exists w' a junk x', load drain w (Handle i) = Ok (w', a) /\ reach w' c /\ objs w' = objs w /\
    let b := skipn (pos x) (disk x) in
    bytes_shown a (map Some b ++ junk) /\ length junk = length (disk x) - length b /\
    is_stream w' s x' /\ open x' = true /\ disk x' = disk x /\ pos x' = pos x + length b /\ (forall t y, t <> s -> (is_stream w' t y <-> is_stream w t y)).
Proof.
  intros w c i s x H Hi Hh Hx Hl. pose proof (reach_inv drain w c H) as I. assert (Hh2 := Hh). destruct Hh as (f & Hf & Ep).
  destruct (own_stream w c i f s I Hf Ep) as (y & Hy & Ox & Wx & _). pose proof (stream_fun w s x y Hx Hy) as <-. clear Hy. destruct (settled_content x Wx Hl) as [_ Hpe].
  assert (T : forall w0 (none : answer) g, is_file w0 i f -> is_stream w0 s x -> through w0 i none g = g s x) by (intros w0 none g Hf0 Hx0; unfold through; rewrite (get_file w0 i f Hf0); cbn [obind]; rewrite Ep, (get_stream w0 s x Hx0); reflexivity).
  assert (E1 : step w (Length i) = Ok (w, Num (Z.of_nat (length (disk x))))) by (cbn [File_Model.step]; rewrite T by assumption; unfold fsize; rewrite Ox; reflexivity).
  cbn [load]. unfold read_all. rewrite E1. cbn [obind].
  set (b := skipn (pos x) (disk x)). assert (Lb : length b <= length (disk x)) by (unfold b; rewrite skipn_length; lia).
  destruct (0 <? Z.of_nat (length (disk x)))%Z eqn:E.
  - apply Z.ltb_lt in E. destruct (fread_facts x (length (disk x)) Wx Ox Hl) as (x' & Ex & Wx' & Ox' & _ & Cx & Px & Lx). rewrite (proj1 (settled_content x Wx Hl)) in *. fold b in Ex, Px, Lx. rewrite firstn_all2 in Ex, Px, Lx by exact Lb.
    assert (E2 : step w (Read i 1 (Z.to_nat (Z.of_nat (length (disk x))))) = Ok (set_str w s x', Bytes (length b / 1) b)).
    { cbn [File_Model.step]. rewrite T by assumption. rewrite Nat2Z.id. cbn [Nat.eqb orb]. destruct (length (disk x) =? 0) eqn:E0; [apply Nat.eqb_eq in E0; lia|]. rewrite Nat.mul_1_l, Ex. reflexivity. }
    rewrite E2. cbn [obind]. destruct (contents_ok (length (disk x)) b Lb) as (a & junk & Ea & Sa & Lj). rewrite Ea. cbn [obind].
    exists (set_str w s x'), a, junk, x'. split; [reflexivity|]. split.
    { change c with (after c (Read i 1 (Z.to_nat (Z.of_nat (length (disk x))))) (Bytes (length b / 1) b)). refine (by_step drain w c _ _ _ H _ E2). cbn [legal]. split; [exact Hi|].
      intros s2 x2 (f2 & Hf2 & Ep2) Hx2. rewrite (file_fun w i f2 f Hf2 Hf) in Ep2. rewrite Ep in Ep2. injection Ep2 as <-. now rewrite (stream_fun w s x2 x Hx2 Hx). }
    split; [reflexivity|]. cbv zeta. split; [exact Sa|]. split; [exact Lj|]. split; [apply (str_set w s x x' s x' Hx); auto|]. split; [exact Ox'|].
    assert (Dx : disk x' = disk x) by (revert Ex; unfold fread; rewrite Ox; cbn [negb]; destruct (File_Model.last x); try discriminate; intros Z; injection Z as <-; reflexivity).
    split; [exact Dx|]. split; [exact Px|]. intros t y Hn. rewrite (str_set w s x x' t y Hx). tauto.
  - apply Z.ltb_ge in E. assert (D0 : disk x = []) by (destruct (disk x); [reflexivity|cbn in E; lia]). assert (B0 : b = []) by (unfold b; rewrite D0; apply skipn_nil). clearbody b. subst b.
    destruct (contents_ok 0 [] (le_n 0)) as (a & junk & Ea & Sa & Lj). rewrite D0 in *. cbn [length Z.of_nat] in *. rewrite Ea. cbn [obind].
    exists w, a, junk, x. cbn. rewrite Nat.add_0_r. cbn in Sa. repeat (split; [first [reflexivity|assumption]|]). tauto.
Qed.
(** Through a file object that is at its start. *)
Theorem handle_start : forall w c i s x, reach w c -> In i c -> has w i s -> is_stream w s x -> File_Model.last x <> Wrote -> pos x = 0 ->
  exists w' a, load drain w (Handle i) = Ok (w', a) /\ bytes_shown a (map Some (disk x)) /\ reach w' c.
Proof.
  intros w c i s x H Hi Hh Hx Hl Hp. destruct (handle w c i s x H Hi Hh Hx Hl) as (w' & a & junk & x' & E & R & _ & S & Lj & _). rewrite Hp in *. cbn [skipn] in *.
  destruct junk as [|? ?]; [|cbn in Lj; lia]. rewrite app_nil_r in S. exists w', a. auto.
Qed.
(** By name. *)
Theorem named : forall w c d, reach w c ->
  exists w' a, load drain w (Named (Some d)) = Ok (w', a) /\ bytes_shown a (map Some d) /\ reach w' c /\
    (forall i, exists_ w' i <-> exists_ w i) /\ (forall s x, is_stream w s x -> is_stream w' s x) /\ (forall s x, is_stream w' s x -> open x = true -> is_stream w s x).
Proof.
  intros w c d H. cbn [load]. set (i := length (objs w)). set (s := length (streams w)).
  destruct (open_file w d) as [w1 i1] eqn:E. assert (Hi1 : i1 = i) by (unfold open_file in E; injection E as _ <-; reflexivity). subst i1.
  assert (R1 : reach w1 (i :: c)).
  { change (i :: c) with (after c (Open d) (New i)). refine (by_step drain w c (Open d) _ _ H I _). cbn [File_Model.step]. rewrite E. reflexivity. }
  assert (Hf1 : is_file w1 i (mkF 1 (Some s) true)).
  { unfold open_file in E. injection E as <-. split; [|cbn; lia]. cbn [objs]. unfold i. rewrite nth_error_app2, Nat.sub_diag by lia. reflexivity. }
  assert (Hs : forall t y, is_stream w1 t y <-> is_stream w t y \/ (t = s /\ y = new_stream d false)) by (intros t y; unfold open_file in E; injection E as <-; unfold is_stream; cbn [streams]; apply nth_snoc).
  assert (Hx1 : is_stream w1 s (new_stream d false)) by (apply Hs; auto).
  destruct (handle w1 (i :: c) i s (new_stream d false) R1 (or_introl eq_refl) ltac:(exists (mkF 1 (Some s) true); auto) Hx1 ltac:(discriminate)) as (w2 & a & junk & x2 & E2 & R2 & O2 & S2 & L2 & Hx2 & _ & _ & _ & Ot).
  cbn [load] in E2. rewrite E2. cbn [obind fst snd]. cbn [new_stream pos disk skipn] in *. destruct junk as [|? ?]; [|cbn in L2; lia]. rewrite app_nil_r in S2.
  assert (Hf2 : is_file w2 i (mkF 1 (Some s) true)) by (destruct Hf1; split; [rewrite O2; assumption|assumption]).
  destruct (closing drain w2 (i :: c) i _ R2 (or_introl eq_refl) Hf2) as (w3 & r & E3 & C1 & _ & _). specialize (C1 s eq_refl). destruct C1 as (_ & (x3 & Hx3 & O3) & Ot3).
  rewrite E3. cbn [obind fst]. exists w3, a. split; [reflexivity|]. split; [exact S2|].
  assert (R3 : reach w3 c).
  { replace c with (after (i :: c) (Close i) (Num r)) by (cbn [after drop]; now rewrite Nat.eqb_refl). refine (by_step drain w2 _ _ _ _ R2 _ E3). cbn. auto. }
  split; [exact R3|]. split; [intros j; rewrite (proj1 (lifetimes drain w3 c R3) j), (proj1 (lifetimes drain w c H) j); tauto|].
  assert (Old : forall t y, is_stream w t y -> t <> s) by (intros t y Ht; unfold is_stream in Ht; assert (t < length (streams w)) by (apply nth_error_Some; congruence); unfold s; lia).
  split.
  - intros t y Ht. pose proof (Old t y Ht) as Hn. apply Ot3; [exact Hn|]. apply Ot; [exact Hn|]. apply Hs. auto.
  - intros t y Ht Oy. destruct (Nat.eq_dec t s) as [->|Hn]; [rewrite (stream_fun w3 s y x3 Ht Hx3) in Oy; congruence|]. apply Ot3 in Ht; [|exact Hn]. apply Ot in Ht; [|exact Hn]. apply Hs in Ht. destruct Ht as [Ht|[? _]]; [exact Ht|congruence].
Qed.
Theorem missing : forall w, load drain w (Named None) = Ok (w, barray_init) /\ load drain w From_null = Ok (w, barray_init) /\ load drain w Not_file = Ok (w, barray_init) /\ bytes_shown barray_init [].
Proof. intros. repeat (split; [reflexivity|]). apply brep_shown, brep_init. Qed.
End Loads.

(** False for a file that was partly read. *)
Theorem part_read : exists w1 w2 i a, let drain := fun _ => 0 in
  reach drain w1 [i] /\ (exists w0, step drain (mkW [] []) (Open [1; 2; 3; 4; 5; 6]%N) = Ok (w0, New i) /\ step drain w0 (Read i 1 1) = Ok (w1, Bytes 1 [1%N])) /\
  load drain w1 (Handle i) = Ok (w2, a) /\ blen a = 6 /\ firstn 6 (bcells a) = [Some 2; Some 3; Some 4; Some 5; Some 6; None]%N.
Proof.
  set (drain := fun _ : list N => 0).
  set (w0 := fst (open_file (mkW [] []) [1; 2; 3; 4; 5; 6]%N)).
  exists (mkW (objs w0) [mkS true [1; 2; 3; 4; 5; 6]%N [] 1 (Did_read false) false]).
  exists (mkW (objs w0) [mkS true [1; 2; 3; 4; 5; 6]%N [] 6 (Did_read true) false]), 0.
  exists (mkBarray false ([Some 2; Some 3; Some 4; Some 5; Some 6; None; Some 0; Some 0; Some 0; Some 0]%N ++ repeat None 58) 6 64). cbv zeta. split; [|split; [|split; [|split]]].
  - change [0] with (after [0] (Read 0 1 1) (Bytes 1 [1%N])). refine (by_step drain w0 [0] (Read 0 1 1) _ _ _ _ eq_refl).
    + change [0] with (after [] (Open [1; 2; 3; 4; 5; 6]%N) (New 0)). exact (by_step drain (mkW [] []) [] (Open [1; 2; 3; 4; 5; 6]%N) w0 (New 0) (at_start drain) I eq_refl).
    + split; [cbn; auto|]. intros s x (f & (Hf & _) & Ep) Hx. cbn in Hf. injection Hf as <-. cbn in Ep. injection Ep as <-. cbn in Hx. injection Hx as <-. discriminate.
  - exists w0. split; reflexivity.
  - vm_compute. reflexivity.
  - reflexivity.
  - reflexivity.
Qed.
(** A file that gives fewer bytes than its length (a directory, for example), or more (files made
    by the system as they are read, whose length is 0). *)
Theorem short_file : exists a, contents 6 [] = Ok a /\ blen a = 6 /\ firstn 6 (bcells a) = [Some 0; Some 0; Some 0; Some 0; None; None]%N.
Proof. eexists. split; [vm_compute; reflexivity|]. split; reflexivity. Qed.
Theorem long_file : forall b, contents 0 b = Ok barray_init.
Proof. reflexivity. Qed.
