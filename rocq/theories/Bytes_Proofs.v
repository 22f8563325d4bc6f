(** Proofs about byte arrays and data streams. *)
Require Import Coq.ZArith.ZArith Coq.NArith.NArith Coq.Lists.List Coq.Bool.Bool Coq.Arith.Arith Coq.micromega.Lia.
Require Import Verif.Base Verif.Array_Model Verif.Array_Spec Verif.Array_Proofs Verif.Bytes_Model Verif.Bytes_Spec.
Import ListNotations.
Local Open Scope nat_scope.

(** ** Memory *)
Lemma mread_ok : forall p d r off n, off = length p -> n = length d -> mread (p ++ d ++ r) off n = Ok d.
Proof.
  intros p d r off n -> ->. unfold mread. rewrite !app_length.
  replace (length p + length d <=? length p + (length d + length r)) with true by (symmetry; apply Nat.leb_le; lia).
  rewrite skipn_app, skipn_all, Nat.sub_diag. cbn [app skipn]. rewrite firstn_app, firstn_all, Nat.sub_diag, app_nil_r. auto.
Qed.
Lemma mwrite_ok : forall p g r d off, off = length p -> length g = length d ->
  mwrite (p ++ g ++ r) off d = Ok (p ++ d ++ r).
Proof.
  intros p g r d off -> L. unfold mwrite. rewrite !app_length.
  replace (length p + length d <=? length p + (length g + length r)) with true by (symmetry; apply Nat.leb_le; lia).
  rewrite firstn_app, firstn_all, Nat.sub_diag, app_nil_r. do 3 f_equal.
  rewrite skipn_app, skipn_all2 by lia. cbn [app]. replace (length p + length d - length p) with (length g) by lia.
  rewrite skipn_app, skipn_all, Nat.sub_diag. auto.
Qed.
Lemma cut : forall A (l : list A) n, n <= length l -> exists a b, l = a ++ b /\ length a = n.
Proof. intros A l n H. exists (firstn n l), (skipn n l). rewrite firstn_skipn, firstn_length. split; auto. lia. Qed.

(** ** The representation *)
Definition brep (a : barray) (l : list cell) : Prop :=
  blen a = length l /\ (exists r, bcells a = l ++ terminator ++ r /\ length l + length r = bmax a) /\
  (bnull a = true -> bmax a = 0).

Lemma brep_init : brep barray_init [].
Proof. split; auto. split; auto. exists []. auto. Qed.

Lemma brep_shown : forall a l, brep a l -> bytes_shown a l.
Proof.
  intros a l (H1 & (r & H2 & H3) & _). split; auto. split; intros i Hi; rewrite H2.
  - apply nth_error_app1. auto.
  - rewrite nth_error_app2 by lia. replace (length l + i - length l) with i by lia.
    do 4 (destruct i as [|i]; [auto|]). lia.
Qed.

Lemma set_terminator_ok : forall nul m n max l g, m = l ++ g -> n = length l -> length g = max - n + 4 -> n <= max ->
  (nul = true -> max = 0) ->
  exists a, set_terminator (mkBarray nul m n max) = Ok a /\ brep a l /\ bmax a = max /\ bnull a = nul.
Proof.
  intros nul m n max l g -> -> Hg Hn Hnul. unfold set_terminator. cbn [bcells blen bnull bmax].
  destruct (cut _ g 4) as (g1 & g2 & -> & L1); [lia|].
  rewrite (mwrite_ok l g1 g2 terminator); auto. cbn [obind]. eexists. split; [reflexivity|].
  rewrite app_length in Hg. split; [|auto]. split; [auto|]. cbn [bcells bmax]. split; auto. exists g2. split; auto. lia.
Qed.

Lemma reserve_ok : forall a l n, brep a l -> exists a', barray_reserve a n = Ok a' /\ brep a' l /\ n <= bmax a' /\ bmax a <= bmax a'.
Proof.
  intros a l n (H1 & (r & H2 & H3) & H4). unfold barray_reserve. destruct (bmax a <? n) eqn:E.
  2:{ apply Nat.ltb_ge in E. exists a. split; auto. split; [|lia]. split; auto. split; auto. exists r. auto. }
  apply Nat.ltb_lt in E. set (n' := if n <? 64 then 64 else n).
  assert (Hn' : n <= n') by (unfold n'; destruct (n <? 64) eqn:E2; [apply Nat.ltb_lt in E2|]; lia).
  assert (Hm : exists g, length g = n' - length l + 4 /\
    (if negb (bnull a) && (0 <? bmax a) then
       if 0 <? blen a then do d <- mread (bcells a) 0 (blen a); mwrite (repeat None (n' + 4)) 0 d
       else Ok (repeat None (n' + 4))
     else Ok (repeat None (n' + 4))) = Ok (l ++ g)).
  { assert (Hl : length l <= n') by lia.
    destruct (negb (bnull a) && (0 <? bmax a)) eqn:E2.
    - rewrite H1. destruct (0 <? length l) eqn:E3.
      + rewrite H2. rewrite (mread_ok [] l (terminator ++ r)) by auto. cbn [obind].
        destruct (cut _ (repeat (@None N) (n' + 4)) (length l)) as (g1 & g2 & Eg & L1); [rewrite repeat_length; lia|].
        exists g2. rewrite Eg. rewrite (mwrite_ok [] g1 g2 l) by auto. split; auto.
        assert (L := f_equal (@length _) Eg). rewrite repeat_length, app_length in L. lia.
      + apply Nat.ltb_ge in E3. destruct l; [|cbn in E3; lia]. exists (repeat None (n' + 4)). rewrite repeat_length. split; auto. cbn. lia.
    - assert (l = []).
      { destruct (bnull a) eqn:E3; cbn [negb andb] in E2.
        - specialize (H4 eq_refl). destruct l; auto. cbn in H3. lia.
        - apply Nat.ltb_ge in E2. destruct l; auto. cbn in H3. lia. }
      subst l. exists (repeat None (n' + 4)). rewrite repeat_length. split; auto. cbn. lia. }
  destruct Hm as (g & Lg & Hm). rewrite Hm. cbn [obind].
  destruct (set_terminator_ok false (l ++ g) (blen a) n' l g) as (a' & E2 & B & M & _); auto; try lia; try discriminate.
  exists a'. split; auto. split; auto. lia.
Qed.

Lemma set_length_ok : forall a l n, brep a l -> exists a' junk, barray_set_length a n = Ok a' /\ length junk = n - length l /\
  brep a' (firstn n l ++ junk).
Proof.
  intros a l n H. unfold barray_set_length. destruct (reserve_ok a l n H) as (a1 & E & (H1 & (r & H2 & H3) & H4) & Hn & _).
  rewrite E. cbn [obind].
  destruct (cut _ (bcells a1) n) as (p & g & Ep & Lp); [rewrite H2, !app_length; cbn; lia|].
  destruct (set_terminator_ok (bnull a1) (bcells a1) n (bmax a1) p g) as (a2 & E2 & B & _); auto.
  { assert (L := f_equal (@length _) H2). rewrite Ep, !app_length in L. cbn in L. lia. }
  exists a2, (skipn (length l) p). split; auto. split; [rewrite skipn_length; lia|].
  replace (firstn n l ++ skipn (length l) p) with p; auto.
  assert (Ef : firstn n (bcells a1) = p) by (rewrite Ep, firstn_app, Lp, Nat.sub_diag, app_nil_r, <- Lp, firstn_all; auto).
  rewrite H2, firstn_app in Ef. rewrite <- Ef, skipn_app, firstn_length.
  destruct (Nat.le_ge_cases n (length l)).
  - rewrite (proj2 (Nat.sub_0_le n (length l))) by auto. cbn [firstn]. rewrite skipn_nil, !app_nil_r.
    rewrite skipn_all2; [rewrite app_nil_r; auto|]. rewrite firstn_length. lia.
  - rewrite Nat.min_r by auto. rewrite skipn_all2 by (rewrite firstn_length; lia). rewrite Nat.sub_diag. auto.
Qed.

(** ** Replacing *)

(** The bytes of the source: defined for sources other than the array itself. *)
Definition source_bytes (src : source) (n : nat) : list cell :=
  match src with FromNull => repeat (Some 0%N) n | FromBytes d => map Some (firstn n d) | FromSelf _ => [] end.
Definition source_ok (src : source) (n : nat) : Prop :=
  match src with FromNull => True | FromBytes d => n <= length d | FromSelf _ => n = 0 end.

Lemma source_length : forall src n, source_ok src n -> length (source_bytes src n) = n.
Proof.
  intros [|d|o] n H; cbn in *; [apply repeat_length|rewrite map_length, firstn_length; lia|auto].
Qed.

(** The storage after the resize step: prefix, a gap of [n] bytes, suffix. *)
Lemma replace_ok : forall a p m s src n, brep a (p ++ m ++ s) ->
  source_ok src n \/ (exists off, src = FromSelf off /\ off + n <= length p /\ length (p ++ m ++ s) + n - length m < bmax a) ->
  exists a', barray_replace a (length p) (length m) src n = Ok a' /\
    brep a' (p ++ match src with FromSelf off => firstn n (skipn off p) | _ => source_bytes src n end ++ s).
Proof.
  intros a p m s src n (H1 & (r & H2 & H3) & H4) Hsrc. rewrite !app_length in H1, H3. unfold barray_replace.
  rewrite H1. replace (length p + length m <=? length p + (length m + length s)) with true by (symmetry; apply Nat.leb_le; lia).
  cbn [negb]. destruct ((length m =? 0) && (n =? 0)) eqn:E0.
  { apply andb_true_iff in E0. destruct E0 as [Em En]. apply Nat.eqb_eq in Em, En. destruct m; [|discriminate]. subst n.
    exists a. split; auto. cbn [app] in *. 
    replace (match src with FromSelf off => firstn 0 (skipn off p) | _ => source_bytes src 0 end) with (@nil cell) by (destruct src; auto).
    cbn [length app] in *. split; [rewrite app_length; lia|]. split; auto. exists r. rewrite app_length. split; [exact H2|lia]. }
  replace (length p + (length m + length s) - (length p + length m)) with (length s) by lia.
  replace (length p + (length m + length s) + n - length m) with (length p + n + length s) by lia.
  set (newlen := length p + n + length s).
  (* the common end: a gap of n bytes between prefix and suffix *)
  assert (Fin : forall g q max nul mv, length g = n -> length (p ++ g ++ s ++ q) = max + 4 -> newlen <= max ->
    (nul = true -> max = 0) -> (mv = true -> source_ok src n) ->
    exists a', (do m1 <- (if 0 <? n then
               match src with
               | FromNull => mwrite (p ++ g ++ s ++ q) (length p) (repeat (Some 0%N) n)
               | FromBytes data =>
                 if n <=? length data then mwrite (p ++ g ++ s ++ q) (length p) (map Some (firstn n data)) else UB
               | FromSelf off =>
                 if mv then UB
                 else if (off + n <=? length p) || (length p + n <=? off)
                      then do d <- mread (p ++ g ++ s ++ q) off n; mwrite (p ++ g ++ s ++ q) (length p) d
                      else UB
               end
             else Ok (p ++ g ++ s ++ q)); set_terminator (mkBarray nul m1 newlen max)) = Ok a' /\
    brep a' (p ++ match src with FromSelf off => firstn n (skipn off p) | _ => source_bytes src n end ++ s)).
  { intros g q max nul mv Lg Lt Hmax Hnul Hmv. rewrite !app_length in Lt.
    assert (Hw : forall d, length d = n ->
       exists a', set_terminator (mkBarray nul (p ++ d ++ s ++ q) newlen max) = Ok a' /\ brep a' (p ++ d ++ s)).
    { intros d Ld. destruct (set_terminator_ok nul (p ++ d ++ s ++ q) newlen max (p ++ d ++ s) q) as (a' & Ea & B & _); auto.
      - rewrite <- !app_assoc. auto.
      - unfold newlen. rewrite !app_length. lia.
      - lia.
      - eauto. }
    destruct (0 <? n) eqn:En.
    - apply Nat.ltb_lt in En. destruct src as [|data|off].
      + rewrite mwrite_ok by (auto; rewrite repeat_length; auto). cbn [obind]. apply Hw. apply repeat_length.
      + assert (Hd : n <= length data) by (destruct Hsrc as [|(? & ? & _)]; [auto|discriminate]).
        replace (n <=? length data) with true by (symmetry; apply Nat.leb_le; auto).
        rewrite mwrite_ok by (auto; rewrite map_length, firstn_length; lia). cbn [obind source_bytes]. apply Hw.
        rewrite map_length, firstn_length. lia.
      + assert (Hs : off + n <= length p).
        { destruct Hsrc as [Hs|(o & Eo & Hs & _)]; [cbn in Hs; lia|]. inversion Eo; subst. auto. }
        destruct mv; [specialize (Hmv eq_refl); cbn in Hmv; lia|].
        replace (off + n <=? length p) with true by (symmetry; apply Nat.leb_le; auto). cbn [orb].
        destruct (cut _ p off) as (p1 & p2 & Ep & L1); [lia|]. destruct (cut _ p2 n) as (d & p3 & Ep2 & L2); [rewrite Ep, app_length in Hs; lia|].
        assert (Ed : firstn n (skipn off p) = d).
        { rewrite Ep, skipn_app, <- L1, skipn_all, Nat.sub_diag. cbn [app skipn]. rewrite Ep2, firstn_app, <- L2, firstn_all, Nat.sub_diag, app_nil_r. auto. }
        rewrite Ed.
        assert (Er : p ++ g ++ s ++ q = p1 ++ d ++ (p3 ++ g ++ s ++ q)) by (rewrite Ep, Ep2, <- !app_assoc; auto).
        replace (mread (p ++ g ++ s ++ q) off n) with (Ok d) by (rewrite Er; symmetry; apply mread_ok; auto).
        cbn [obind]. rewrite mwrite_ok by (auto; lia). cbn [obind]. apply Hw. auto.
    - apply Nat.ltb_ge in En. assert (n = 0) by lia. subst n. destruct g; [|discriminate]. cbn [obind].
      replace (match src with FromSelf off => firstn (@length cell []) (skipn off p) | _ => source_bytes src (@length cell []) end) with (@nil cell) by (destruct src; auto).
      apply (Hw []). auto. }
  unfold resize. destruct (newlen <? bmax a) eqn:Er.
  - (* the allocation is kept *)
    apply Nat.ltb_lt in Er.
    assert (Hnul : bnull a = false) by (destruct (bnull a); auto; specialize (H4 eq_refl); lia).
    rewrite Hnul. cbn [negb andb].
    assert (Hm : exists g q, (if 0 <? length s then do d <- mread (bcells a) (length p + length m) (length s); mwrite (bcells a) (length p + n) d
                       else Ok (bcells a)) = Ok (p ++ g ++ s ++ q) /\ length g = n /\ length (p ++ g ++ s ++ q) = bmax a + 4).
    { assert (Lc : length (bcells a) = bmax a + 4) by (rewrite H2, !app_length; cbn; lia).
      destruct (0 <? length s) eqn:Es.
      - replace (mread (bcells a) (length p + length m) (length s)) with (Ok s)
          by (rewrite H2; replace ((p ++ m ++ s) ++ terminator ++ r) with ((p ++ m) ++ s ++ terminator ++ r) by (rewrite <- !app_assoc; auto);
              symmetry; apply mread_ok; auto; rewrite app_length; auto).
        cbn [obind].
        destruct (cut _ (bcells a) (length p)) as (p' & x & Ex & Lp'); [lia|].
        assert (p' = p).
        { rewrite H2, <- !app_assoc in Ex. apply (f_equal (firstn (length p))) in Ex.
          rewrite !firstn_app, firstn_all, Lp', Nat.sub_diag in Ex. rewrite <- Lp', firstn_all in Ex. cbn in Ex. rewrite !app_nil_r in Ex. auto. }
        subst p'.
        assert (Lx := Lc). rewrite Ex, app_length in Lx.
        destruct (cut _ x n) as (g & y & -> & Lg); [lia|]. rewrite app_length in Lx.
        destruct (cut _ y (length s)) as (z & q & -> & Lz); [lia|]. rewrite app_length in Lx.
        exists g, q. rewrite Ex.
        replace (p ++ g ++ z ++ q) with ((p ++ g) ++ z ++ q) by (rewrite <- app_assoc; auto).
        rewrite mwrite_ok by (auto; rewrite app_length; lia). rewrite <- app_assoc. split; auto. split; auto.
        rewrite !app_length. lia.
      - apply Nat.ltb_ge in Es. destruct s; [|cbn in Es; lia].
        rewrite H2 in Lc |- *. rewrite app_nil_r in *. rewrite <- app_assoc in *. rewrite app_length in Lc.
        cbn [length] in *. destruct (cut _ (m ++ terminator ++ r) n) as (g & q & Eg & Lg); [lia|].
        exists g, q. rewrite Eg in *. cbn [app]. split; auto. split; auto. rewrite app_length. auto. }
    destruct Hm as (g & q & -> & Lg & Lt). cbn [obind].
    apply (Fin g q (bmax a) false false); auto; try lia; discriminate.
  - (* a new allocation *)
    apply Nat.ltb_ge in Er.
    set (max := if (if bmax a + bmax a / 4 <? newlen then newlen else bmax a + bmax a / 4) <? 64 then 64
                else if bmax a + bmax a / 4 <? newlen then newlen else bmax a + bmax a / 4).
    assert (Hmax : newlen <= max).
    { unfold max. assert (newlen <= (if bmax a + bmax a / 4 <? newlen then newlen else bmax a + bmax a / 4)).
      { destruct (bmax a + bmax a / 4 <? newlen) eqn:E1; [lia|]. apply Nat.ltb_ge in E1. auto. }
      revert H. generalize (if bmax a + bmax a / 4 <? newlen then newlen else bmax a + bmax a / 4) as x. intros x Hx.
      destruct (x <? 64) eqn:E2; [apply Nat.ltb_lt in E2|]; lia. }
    assert (Hs' : source_ok src n) by (destruct Hsrc as [|(o & _ & _ & Hb)]; [auto|rewrite !app_length in Hb; unfold newlen in *; lia]).
    assert (Hm : exists g q, (if negb (bnull a) then
                         do m0 <- (if 0 <? length p then do d <- mread (bcells a) 0 (length p); mwrite (repeat None (max + 4)) 0 d else Ok (repeat None (max + 4)));
                         (if 0 <? length s then do d <- mread (bcells a) (length p + length m) (length s); mwrite m0 (length p + n) d else Ok m0)
                       else Ok (repeat None (max + 4))) = Ok (p ++ g ++ s ++ q) /\ length g = n /\ length (p ++ g ++ s ++ q) = max + 4).
    { assert (Lm : length (repeat (@None N) (max + 4)) = max + 4) by apply repeat_length.
      revert Lm. generalize (repeat (@None N) (max + 4)) as c. intros c Lm.
      assert (Step2 : forall x, length (p ++ x) = max + 4 ->
        exists g q, (if 0 <? length s then do d <- mread (bcells a) (length p + length m) (length s); mwrite (p ++ x) (length p + n) d else Ok (p ++ x))
          = Ok (p ++ g ++ s ++ q) /\ length g = n /\ length (p ++ g ++ s ++ q) = max + 4).
      { intros x Lx. rewrite app_length in Lx. unfold newlen in *.
        destruct (cut _ x n) as (g & y & -> & Lg); [lia|]. rewrite app_length in Lx.
        destruct (cut _ y (length s)) as (z & q & -> & Lz); [lia|]. rewrite app_length in Lx.
        exists g, q. split; [|split; [auto|rewrite !app_length; lia]].
        destruct (0 <? length s) eqn:Es.
        - rewrite H2. replace ((p ++ m ++ s) ++ terminator ++ r) with ((p ++ m) ++ s ++ terminator ++ r) by (rewrite <- !app_assoc; auto).
          rewrite mread_ok by (auto; rewrite app_length; auto). cbn [obind].
          replace (p ++ g ++ z ++ q) with ((p ++ g) ++ z ++ q) by (rewrite <- app_assoc; auto).
          rewrite mwrite_ok by (auto; rewrite app_length; lia). rewrite <- app_assoc. auto.
        - apply Nat.ltb_ge in Es. destruct s; [|cbn in Es; lia]. destruct z; [|discriminate]. auto. }
      destruct (bnull a) eqn:Hnul; cbn [negb].
      - specialize (H4 eq_refl). assert (p = []) by (destruct p; auto; cbn in H3; lia). assert (s = []) by (destruct s; auto; cbn in H3; lia).
        subst p s. destruct (Step2 c Lm) as (g & q & E & L1 & L2). cbn [length Nat.ltb Nat.leb] in E. eauto.
      - destruct (0 <? length p) eqn:Ep.
        + replace (mread (bcells a) 0 (length p)) with (Ok p)
            by (rewrite H2; replace ((p ++ m ++ s) ++ terminator ++ r) with ([] ++ p ++ (m ++ s ++ terminator ++ r)) by (cbn; rewrite <- !app_assoc; auto);
                symmetry; apply mread_ok; auto).
          cbn [obind].
          destruct (cut _ c (length p)) as (c1 & c2 & -> & Lc1); [unfold newlen in *; lia|].
          rewrite (mwrite_ok [] c1 c2 p) by auto. cbn [obind app]. apply Step2. rewrite app_length in *. lia.
        + apply Nat.ltb_ge in Ep. destruct p; [|cbn in Ep; lia]. cbn [obind]. apply (Step2 c Lm). }
    destruct Hm as (g & q & -> & Lg & Lt). cbn [obind].
    apply (Fin g q max false true); auto; try lia; discriminate.
Qed.

(** ** Histories of byte arrays *)
Lemma splice_parts : forall (l : list cell) loc len x, loc + len <= length l ->
  exists p m s, l = p ++ m ++ s /\ length p = loc /\ length m = len /\ splice cell l loc len x = p ++ x ++ s.
Proof.
  intros l loc len x H. destruct (cut _ l loc) as (p & y & -> & L1); [lia|]. rewrite app_length in H.
  destruct (cut _ y len) as (m & s & -> & L2); [lia|]. exists p, m, s. split; auto. split; auto. split; auto.
  unfold splice. rewrite firstn_app, <- L1, firstn_all, Nat.sub_diag, app_nil_r. do 2 f_equal.
  rewrite skipn_app, skipn_all2 by lia. cbn [app]. replace (length p + len - length p) with (length m) by lia.
  rewrite skipn_app, skipn_all, Nat.sub_diag. auto.
Qed.

Lemma replace_splice : forall a l loc len src n, brep a l -> loc + len <= length l -> source_ok src n ->
  exists a', barray_replace a loc len src n = Ok a' /\ brep a' (splice cell l loc len (source_bytes src n)).
Proof.
  intros a l loc len src n B H Hs. destruct (splice_parts l loc len (source_bytes src n) H) as (p & m & s & -> & <- & <- & ->).
  destruct (replace_ok a p m s src n B) as (a' & E & B'); auto. exists a'. split; auto.
  destruct src; auto. cbn in Hs. subst n. auto.
Qed.

Lemma append_ok : forall a l src n, brep a l -> source_ok src n ->
  exists a', barray_append a src n = Ok a' /\ brep a' (l ++ source_bytes src n).
Proof.
  intros a l src n B Hs. destruct (replace_splice a l (length l) 0 src n B) as (a' & E & B'); auto; [lia|].
  exists a'. unfold barray_append. destruct B as (-> & _). split; auto. revert B'. unfold splice.
  rewrite firstn_all, Nat.add_0_r, skipn_all, app_nil_r. auto.
Qed.

Lemma bstep_ok : forall a l o, brep a l -> bop_ok (length l) o ->
  exists a' l', barray_step a o = Ok a' /\ brep a' l' /\ bstep l o l' /\ length l' = blength (length l) o.
Proof.
  intros a l [loc len d|loc len n|d|n|n|k] B H; cbn [bop_ok blength barray_step] in *.
  - destruct (replace_splice a l loc len (FromBytes d) (length d) B H) as (a' & E & B'); [cbn; auto|].
    cbn [source_bytes] in B'. rewrite firstn_all in B'. exists a', (splice cell l loc len (map Some d)). split; auto. split; auto. split; [constructor; auto|].
    unfold splice. rewrite !app_length, firstn_length, skipn_length, map_length. lia.
  - destruct (replace_splice a l loc len FromNull n B H) as (a' & E & B'); [cbn; auto|].
    cbn [source_bytes] in B'. exists a', (splice cell l loc len (repeat (Some 0%N) n)). split; auto. split; auto. split; [constructor; auto|].
    unfold splice. rewrite !app_length, firstn_length, skipn_length, repeat_length. lia.
  - destruct (append_ok a l (FromBytes d) (length d) B) as (a' & E & B'); [cbn; auto|]. cbn [source_bytes] in B'. rewrite firstn_all in B'.
    exists a', (l ++ map Some d). split; auto. split; auto. split; [constructor|]. rewrite app_length, map_length. auto.
  - destruct (set_length_ok a l n B) as (a' & j & E & L & B'). exists a', (firstn n l ++ j). split; auto. split; auto.
    split; [constructor; auto|]. rewrite app_length, firstn_length. lia.
  - destruct (reserve_ok a l n B) as (a' & E & B' & _). exists a', l. split; auto. split; auto. split; [constructor|auto].
  - unfold barray_align. replace (k =? 0) with false by (symmetry; apply Nat.eqb_neq; lia).
    pose proof (proj1 B) as Hl. rewrite Hl.
    pose proof (Nat.mod_upper_bound (length l) k ltac:(lia)) as Hu. pose proof (Nat.div_mod (length l) k ltac:(lia)) as Hdm.
    destruct (length l mod k =? 0) eqn:E0.
    + apply Nat.eqb_eq in E0. rewrite E0. cbn [Nat.ltb Nat.leb obind fst]. exists a, l. split; auto. split; auto. split; auto.
      replace l with (l ++ repeat (Some 0%N) 0) at 2 by (cbn; apply app_nil_r). apply bs_align with (q := length l / k); auto. lia.
    + apply Nat.eqb_neq in E0. replace (0 <? length l mod k) with true by (symmetry; apply Nat.ltb_lt; lia).
      set (pad := k - length l mod k). destruct (append_ok a l FromNull pad B) as (a1 & E & B1); [cbn; auto|]. rewrite E. cbn [obind source_bytes] in *.
      destruct B1 as (L1 & (r & C1 & M1) & N1). rewrite C1. rewrite <- app_assoc, mwrite_ok by auto. cbn [obind fst].
      eexists. exists (l ++ repeat (Some 0%N) pad). split; [reflexivity|]. split; [|split].
      * split; auto. split; auto. exists r. cbn [bcells bmax]. rewrite <- app_assoc. auto.
      * apply bs_align with (q := length l / k + 1); auto; unfold pad; lia.
      * rewrite app_length, repeat_length. auto.
Qed.

Theorem run_ok : forall os a l, brep a l -> bops_ok (length l) os ->
  exists a' l', barray_run a os = Ok a' /\ bsteps l os l' /\ bytes_shown a' l'.
Proof.
  induction os as [|o os IH]; intros a l B H.
  - exists a, l. split; auto. split; [constructor|apply brep_shown; auto].
  - destruct H as [H1 H2]. destruct (bstep_ok a l o B H1) as (a1 & l1 & E & B1 & S & L). cbn [barray_run]. rewrite E. cbn [obind].
    rewrite <- L in H2. destruct (IH a1 l1 B1 H2) as (a' & l' & E' & S' & Sh). exists a', l'. split; auto. split; auto. econstructor; eauto.
Qed.

Theorem byte_array_run : forall os, bops_ok 0 os ->
  exists a l, barray_run barray_init os = Ok a /\ bsteps [] os l /\ bytes_shown a l.
Proof. intros os H. apply (run_ok os barray_init []); auto using brep_init. Qed.

(** ** Aliasing *)
Theorem self_append_partial : forall os n, bops_ok 0 os ->
  exists a l, barray_run barray_init os = Ok a /\ bsteps [] os l /\
    (2 * length l < n -> exists a1 a2, barray_reserve a n = Ok a1 /\ barray_append a1 (FromSelf 0) (blen a1) = Ok a2 /\
       bytes_shown a2 (l ++ l)).
Proof.
  intros os n H.
  assert (G : forall os a l, brep a l -> bops_ok (length l) os -> exists a' l', barray_run a os = Ok a' /\ bsteps l os l' /\ brep a' l').
  { clear. induction os as [|o os IH]; intros a l B H.
    - exists a, l. split; auto. split; [constructor|auto].
    - destruct H as [H1 H2]. destruct (bstep_ok a l o B H1) as (a1 & l1 & E & B1 & S & L). cbn [barray_run]. rewrite E. cbn [obind].
      rewrite <- L in H2. destruct (IH a1 l1 B1 H2) as (a' & l' & E' & S' & Sh). exists a', l'. split; auto. split; auto. econstructor; eauto. }
  destruct (G os barray_init [] brep_init H) as (a & l & E & S & B). exists a, l. split; auto. split; auto.
  intros Hn. destruct (reserve_ok a l n B) as (a1 & E1 & B1 & Hm & _). exists a1.
  assert (Hl := proj1 B1). unfold barray_append. rewrite Hl.
  assert (B1' : brep a1 (l ++ [] ++ [])) by (cbn; rewrite app_nil_r; auto).
  destruct (replace_ok a1 l [] [] (FromSelf 0) (length l) B1') as (a2 & E2 & B2).
  { right. exists 0. split; auto. split; [lia|]. cbn [app length]. rewrite app_nil_r. lia. }
  exists a2. split; auto. split; [exact E2|]. apply brep_shown. cbn [skipn] in B2. rewrite firstn_all, app_nil_r in B2. auto.
Qed.

(** ** Data streams *)
Definition drep (d : data) (f : file) : Prop :=
  brep (dbytes d) (map Some (fst f)) /\ dcursor d = snd f /\ (0 <= snd f)%Z.

Lemma clamp_limit : forall l c, clamp (length l) c = limit l c.
Proof.
  intros. unfold clamp, limit. destruct (c <? 0)%Z eqn:E1.
  - apply Z.ltb_lt in E1. lia.
  - apply Z.ltb_ge in E1. destruct (Z.of_nat (length l) <? c)%Z eqn:E2; [apply Z.ltb_lt in E2|apply Z.ltb_ge in E2]; lia.
Qed.
Lemma limit_bounds : forall l c, (0 <= limit l c <= Z.of_nat (length l))%Z.
Proof. intros. unfold limit. lia. Qed.
Lemma brep_len : forall a (l : list byte), brep a (map Some l) -> blen a = length l.
Proof. intros a l (H & _). rewrite map_length in H. auto. Qed.

Lemma map_firstn : forall A B (f : A -> B) l n, map f (firstn n l) = firstn n (map f l).
Proof. intros. symmetry. apply firstn_map. Qed.
Lemma map_skipn : forall A B (f : A -> B) l n, map f (skipn n l) = skipn n (map f l).
Proof. intros. symmetry. apply skipn_map. Qed.
Lemma map_splice : forall (l new : list byte) loc len,
  splice cell (map Some l) loc len (map Some new) = map Some (splice byte l loc len new).
Proof. intros. unfold splice. rewrite !map_app, map_firstn, map_skipn. auto. Qed.

Lemma bread_ok : forall a (l : list byte) loc n, brep a (map Some l) -> loc + n <= length l ->
  mread (bcells a) loc n = Ok (map Some (part l loc n)).
Proof.
  intros a l loc n (_ & (r & -> & _) & _) H. destruct (cut _ l loc) as (p & y & -> & L1); [lia|]. rewrite app_length in H.
  destruct (cut _ y n) as (m & s & -> & L2); [lia|]. unfold part.
  rewrite skipn_app, <- L1, skipn_all, Nat.sub_diag. cbn [skipn app]. rewrite firstn_app, <- L2, firstn_all, Nat.sub_diag, app_nil_r.
  rewrite !map_app, <- !app_assoc. apply mread_ok; rewrite map_length; auto.
Qed.

Lemma breplace_bytes : forall a (l : list byte) loc len b n, brep a (map Some l) -> loc + len <= length l -> n <= length b ->
  exists a', barray_replace a loc len (FromBytes b) n = Ok a' /\ brep a' (map Some (splice byte l loc len (firstn n b))).
Proof.
  intros a l loc len b n B H Hn. destruct (replace_splice a (map Some l) loc len (FromBytes b) n B) as (a' & E & B'); auto.
  { rewrite map_length. auto. }
  exists a'. split; auto. cbn [source_bytes] in B'. rewrite map_splice in B'. auto.
Qed.
Lemma breplace_zeros : forall a (l : list byte) loc len n, brep a (map Some l) -> loc + len <= length l ->
  exists a', barray_replace a loc len FromNull n = Ok a' /\ brep a' (map Some (splice byte l loc len (repeat 0%N n))).
Proof.
  intros a l loc len n B H. destruct (replace_splice a (map Some l) loc len FromNull n B) as (a' & E & B'); cbn; auto.
  { rewrite map_length. auto. }
  exists a'. split; auto. rewrite <- map_splice. cbn [source_bytes] in B'.
  replace (map Some (repeat 0%N n)) with (repeat (Some 0%N) n); auto. clear. induction n; cbn; auto. f_equal. auto.
Qed.

Lemma transfer_ok : forall size count, (size * count < 2^63)%N -> transfer size count = Some (N.to_nat (size * count)).
Proof.
  intros. unfold transfer. rewrite N.mod_small by (cbn in *; lia). apply N.ltb_lt in H. rewrite H. auto.
Qed.

Lemma splice_end : forall (l x : list byte), splice byte l (length l) 0 x = l ++ x.
Proof. intros. unfold splice. rewrite firstn_all, Nat.add_0_r, skipn_all, app_nil_r. auto. Qed.

Lemma min_if : forall a b, (if a <? b then a else b) = Nat.min b a.
Proof. intros. destruct (a <? b) eqn:E; [apply Nat.ltb_lt in E|apply Nat.ltb_ge in E]; lia. Qed.

Ltac drt := unfold drep, with_bytes in *; cbn [fst snd dbytes dcursor] in *; (split; [|split]); auto; try lia.

Lemma dstep_ok : forall d f o, drep d f -> dop_ok f o ->
  exists d', data_step d o = Ok (d', snd (file_step f o)) /\ drep d' (fst (file_step f o)).
Proof.
  intros d [l c] o (B & Hc & H0) H. cbn [fst snd] in *. assert (L := brep_len _ _ B).
  destruct o as [b|loc len b|n|n|loc len|off w| |size count|b size count]; cbn [dop_ok data_step file_step fst snd] in *.
  - unfold data_append, barray_append. rewrite L. destruct (breplace_bytes (dbytes d) l (length l) 0 b (length b) B) as (a' & E & B'); try lia.
    rewrite E. cbn [obind]. eexists. split; [reflexivity|]. rewrite firstn_all, splice_end in B'. drt.
  - unfold data_replace. rewrite L, (check_range_ok byte) by auto. cbn [obind]. unfold seq_replace.
    destruct (valid_range byte loc len l) eqn:Ev.
    + apply valid_range_facts in Ev. destruct (breplace_bytes (dbytes d) l (Z.to_nat loc) (Z.to_nat len) b (length b) B) as (a' & E & B'); try lia.
      rewrite E. cbn [obind]. eexists. split; [reflexivity|]. rewrite firstn_all in B'. drt.
    + cbn [obind]. exists d. split; [auto|]. drt.
  - unfold data_set_length. rewrite L. destruct (Z.of_nat (length l) <? n)%Z eqn:E1.
    + apply Z.ltb_lt in E1. destruct (breplace_zeros (dbytes d) l (length l) 0 (Z.to_nat n - length l) B) as (a' & E & B'); try lia.
      rewrite E. cbn [obind]. eexists. split; [reflexivity|]. rewrite splice_end in B'. rewrite (firstn_all2 l) by lia. drt.
    + apply Z.ltb_ge in E1. destruct (n <? Z.of_nat (length l))%Z eqn:E2.
      * apply Z.ltb_lt in E2. replace (n <? 0)%Z with false by (symmetry; apply Z.ltb_ge; auto).
        destruct (breplace_zeros (dbytes d) l (Z.to_nat n) (length l - Z.to_nat n) 0 B) as (a' & E & B'); try lia.
        rewrite E. cbn [obind]. eexists. split; [reflexivity|]. replace (Z.to_nat n - length l) with 0 by lia. cbn [repeat].
        unfold splice in B'. cbn [repeat app] in B'. rewrite skipn_all2 in B' by lia. drt.
      * apply Z.ltb_ge in E2. cbn [obind]. exists d. split; auto. rewrite firstn_all2 by lia.
        replace (Z.to_nat n - length l) with 0 by lia. cbn [repeat]. rewrite app_nil_r. drt.
  - unfold data_increase_length. rewrite L. destruct (breplace_zeros (dbytes d) l (length l) 0 n B) as (a' & E & B'); try lia.
    rewrite E. cbn [obind]. eexists. split; [reflexivity|]. rewrite splice_end in B'. drt.
  - unfold data_get_bytes. rewrite L, (check_range_ok byte) by auto. cbn [obind].
    destruct (valid_range byte loc len l) eqn:Ev; cbn [obind].
    + apply valid_range_facts in Ev. destruct (Z.to_nat loc <? length l) eqn:E.
      * rewrite (bread_ok (dbytes d) l) by auto. cbn [obind]. exists d. split; [auto|]. drt.
      * apply Nat.ltb_ge in E. cbn [obind]. exists d. unfold part. rewrite skipn_all2 by auto. rewrite firstn_nil. split; [auto|]. drt.
    + exists d. split; [auto|]. drt.
  - unfold data_seek, set_cursor. destruct w; cbn [obind fst snd dop_ok] in *.
    + rewrite L, clamp_limit. eexists. split; [reflexivity|]. pose proof (limit_bounds l off). drt.
    + rewrite Hc. apply Z.ltb_ge in H. rewrite H. cbn [obind]. rewrite L, clamp_limit. eexists. split; [reflexivity|].
      pose proof (limit_bounds l (c + off)). drt.
    + rewrite L, clamp_limit. eexists. split; [reflexivity|]. drt. unfold limit. lia.
  - exists d. rewrite Hc. split; [auto|]. drt.
  - destruct H as [Hs Hm]. unfold data_read, set_cursor. cbn [dbytes dcursor]. rewrite Hc, L, clamp_limit, transfer_ok by auto.
    pose proof (limit_bounds l c) as Hlim. set (here := limit l c) in *. cbn [dbytes dcursor]. rewrite min_if.
    set (n := Nat.min (N.to_nat (size * count)) (length l - Z.to_nat here)).
    rewrite (bread_ok (dbytes d) l) by (auto; lia). cbn [obind].
    replace (size =? 0)%N with false by (symmetry; apply N.eqb_neq; lia). cbn [obind fst snd].
    replace (Z.min (Z.of_N (size * count)) (Z.of_nat (length l) - here)) with (Z.of_nat n) by (unfold n; lia).
    rewrite Nat2Z.id. eexists. split; [rewrite <- nat_N_Z, N2Z.id; reflexivity|].
    unfold drep; cbn [fst snd dbytes dcursor]. drt.
    rewrite clamp_limit. unfold limit. lia.
  - destruct H as [Hm Hb]. unfold data_write, set_cursor, with_bytes. cbn [dbytes dcursor]. rewrite Hc, L, clamp_limit, transfer_ok by auto.
    pose proof (limit_bounds l c) as Hlim. set (here := limit l c) in *. cbn [dbytes dcursor]. rewrite min_if.
    set (n := N.to_nat (size * count)) in *.
    destruct (breplace_bytes (dbytes d) l (Z.to_nat here) (Nat.min n (length l - Z.to_nat here)) b n B) as (a' & E & B'); try lia.
    rewrite E. cbn [obind fst snd]. eexists. split; [reflexivity|].
    assert (Es : splice byte l (Z.to_nat here) (Nat.min n (length l - Z.to_nat here)) (firstn n b)
               = firstn (Z.to_nat here) l ++ firstn n b ++ skipn (Z.to_nat here + n) l).
    { unfold splice. do 2 f_equal. destruct (Nat.le_ge_cases n (length l - Z.to_nat here)).
      - rewrite Nat.min_l by auto. auto.
      - rewrite Nat.min_r by auto. rewrite !skipn_all2 by lia. auto. }
    rewrite Es in B'. unfold drep; cbn [fst snd dbytes dcursor]. drt.
    rewrite (brep_len _ _ B'), clamp_limit. unfold limit. rewrite !app_length, !firstn_length, skipn_length. lia.
Qed.

Lemma drun_ok : forall os d f, drep d f -> dops_ok f os ->
  exists d', data_run d os = Ok (d', snd (file_run f os)) /\ drep d' (fst (file_run f os)).
Proof.
  induction os as [|o os IH]; intros d f R H.
  - exists d. auto.
  - destruct H as [H1 H2]. destruct (dstep_ok d f o R H1) as (d1 & E & R1). cbn [data_run file_run]. rewrite E. cbn [obind fst snd].
    destruct (file_step f o) as [f1 r] eqn:Ef. cbn [fst snd] in *. destruct (IH d1 f1 R1 H2) as (d2 & E2 & R2).
    rewrite E2. cbn [obind fst snd]. destruct (file_run f1 os) as [f2 rs]. cbn [fst snd] in *. exists d2. split; auto.
Qed.

Lemma drep_init : drep data_init ([], 0%Z).
Proof. split; [apply brep_init|]. cbn. lia. Qed.
Lemma drep_shown : forall d f, drep d f -> data_shown d f.
Proof. intros d f (B & H & _). split; auto. apply brep_shown. auto. Qed.

Theorem data_is_file : forall os, dops_ok ([], 0%Z) os ->
  exists d, data_run data_init os = Ok (d, snd (file_run ([], 0%Z) os)) /\ data_shown d (fst (file_run ([], 0%Z) os)).
Proof. intros os H. destruct (drun_ok os _ _ drep_init H) as (d & E & R). exists d. split; auto. apply drep_shown. auto. Qed.

Lemma file_run_app : forall os1 os2 f, file_run f (os1 ++ os2) =
  (fst (file_run (fst (file_run f os1)) os2), snd (file_run f os1) ++ snd (file_run (fst (file_run f os1)) os2)).
Proof.
  induction os1 as [|o os1 IH]; intros os2 f; cbn [app file_run fst snd].
  - destruct (file_run f os2); auto.
  - destruct (file_step f o) as [f1 r]. rewrite IH. destruct (file_run f1 os1) as [f2 rs]. cbn [fst snd].
    destruct (file_run f2 os2); auto.
Qed.
Lemma dops_ok_app : forall os1 os2 f, dops_ok f os1 -> dops_ok (fst (file_run f os1)) os2 -> dops_ok f (os1 ++ os2).
Proof.
  induction os1 as [|o os1 IH]; intros os2 f H1 H2; cbn [app dops_ok file_run fst snd] in *; auto.
  destruct H1 as [H H1]. split; auto. apply IH; auto. destruct (file_step f o) as [f1 r]. cbn [fst] in *. destruct (file_run f1 os1). auto.
Qed.

Lemma firstn_skipn_mid : forall (p m s : list byte), firstn (length m) (skipn (length p) (p ++ m ++ s)) = m.
Proof. intros. rewrite skipn_app, skipn_all, Nat.sub_diag. cbn [skipn app]. rewrite firstn_app, firstn_all, Nat.sub_diag, app_nil_r. auto. Qed.

Theorem write_read_back : forall os b size count p, dops_ok ([], 0%Z) os ->
  let l := fst (fst (file_run ([], 0%Z) os)) in
  p <= length l -> (0 < size)%N -> (size * count = N.of_nat (length b))%N -> (size * count < 2^63)%N ->
  exists d rs,
    data_run data_init (os ++ [DSeek (Z.of_nat p) SeekSet; DWrite b size count; DTell;
                               DSeek (Z.of_nat p) SeekSet; DRead size count; DTell]) =
      Ok (d, rs ++ [DDone; DNum (Z.of_N count); DNum (Z.of_nat (p + length b));
                    DDone; DReadResult (map Some b) count; DNum (Z.of_nat (p + length b))]) /\
    data_shown d (firstn p l ++ b ++ skipn (p + length b) l, Z.of_nat (p + length b)).
Proof.
  intros os b size count p H l Hp Hs Hb Hm.
  destruct (drun_ok (os ++ [DSeek (Z.of_nat p) SeekSet; DWrite b size count; DTell; DSeek (Z.of_nat p) SeekSet; DRead size count; DTell])
             _ _ drep_init) as (d & E & R).
  { apply dops_ok_app; auto. cbn [dops_ok dop_ok]. repeat split; auto. rewrite Hb. lia. }
  apply drep_shown in R. revert E R. rewrite file_run_app. fold l. unfold l in *. destruct (file_run ([], 0%Z) os) as [[l0 c0] rs].
  clear l. cbn [fst snd] in *. cbn [file_run file_step fst snd].
  assert (E1 : limit l0 (Z.of_nat p) = Z.of_nat p) by (unfold limit; lia). rewrite !E1.
  rewrite Hb, !Nat2N.id, Nat2Z.id, firstn_all.
  set (l1 := firstn p l0 ++ b ++ skipn (p + length b) l0).
  assert (Ll : p + length b <= length l1) by (unfold l1; rewrite !app_length, firstn_length, skipn_length; lia).
  assert (E2 : limit l1 (Z.of_nat p) = Z.of_nat p) by (unfold limit; lia). rewrite !E2.
  replace (Z.min (Z.of_N (N.of_nat (length b))) (Z.of_nat (length l1) - Z.of_nat p)) with (Z.of_nat (length b)) by lia.
  rewrite !Nat2Z.id. replace (part l1 p (length b)) with b.
  2:{ unfold part, l1. assert (Lf : length (firstn p l0) = p) by (rewrite firstn_length; lia). rewrite <- Lf at 3. symmetry. rewrite <- Lf at 1.
      rewrite Lf at 2. apply firstn_skipn_mid. }
  replace (Z.to_N (Z.of_nat (length b)) / size)%N with count.
  2:{ rewrite <- nat_N_Z, N2Z.id, <- Hb, N.mul_comm, N.div_mul by lia. auto. }
  rewrite <- Nat2Z.inj_add. intros E R. exists d, rs. split; auto.
Qed.

Lemma stream_bounds : forall os f, (0 <= snd f <= Z.of_nat (length (fst f)))%Z -> dops_ok f os -> forallb stream_op os = true ->
  (0 <= snd (fst (file_run f os)) <= Z.of_nat (length (fst (fst (file_run f os)))))%Z.
Proof.
  induction os as [|o os IH]; intros f H Hd Hs; cbn [file_run]; auto.
  cbn [forallb] in Hs. apply andb_true_iff in Hs. destruct Hs as [Ho Hs]. destruct Hd as [Hd1 Hd2].
  assert (H1 : (0 <= snd (fst (file_step f o)) <= Z.of_nat (length (fst (fst (file_step f o)))))%Z).
  { destruct f as [l c]. destruct o; cbn [file_step fst snd stream_op dop_ok] in *; try discriminate; try (rewrite ?app_length; lia).
    - destruct w; cbn [fst snd]; try apply limit_bounds. lia.
    - pose proof (limit_bounds l c). lia.
    - pose proof (limit_bounds l c). rewrite !app_length, !firstn_length, skipn_length. lia. }
  destruct (file_step f o) as [f1 r]. cbn [fst snd] in *. specialize (IH f1 H1 Hd2 Hs). destruct (file_run f1 os). auto.
Qed.

Theorem tell_in_range : forall os, dops_ok ([], 0%Z) os -> forallb stream_op os = true ->
  exists d rs c, data_run data_init (os ++ [DTell]) = Ok (d, rs ++ [DNum c]) /\
    (0 <= c <= Z.of_nat (blen (dbytes d)))%Z.
Proof.
  intros os H Hs. destruct (drun_ok (os ++ [DTell]) _ _ drep_init) as (d & E & R).
  { apply dops_ok_app; auto. cbn. auto. }
  pose proof (stream_bounds os ([], 0%Z) ltac:(cbn; lia) H Hs) as Hb.
  rewrite file_run_app in E, R. destruct (file_run ([], 0%Z) os) as [[l c] rs]. cbn in E, R, Hb.
  exists d, rs, c. split; auto. rewrite (brep_len _ l); [lia|apply R].
Qed.

Lemma nth_error_firstn_lt : forall A (l : list A) n i, i < n -> nth_error (firstn n l) i = nth_error l i.
Proof. induction l; intros [|n] [|i] H; cbn; auto; try lia. apply IHl. lia. Qed.

Theorem read_in_range : forall os size count, dops_ok ([], 0%Z) os -> (0 < size)%N -> (size * count < 2^63)%N ->
  exists d rs c out n, data_run data_init (os ++ [DTell; DRead size count]) = Ok (d, rs ++ [DNum c; DReadResult (map Some out) n]) /\
    let l := fst (fst (file_run ([], 0%Z) os)) in
    (forall i, i < length out -> nth_error out i = nth_error l (Z.to_nat c + i)) /\
    (n <= count)%N /\ (n * size <= N.of_nat (length l - Z.to_nat c))%N /\ (n * size <= N.of_nat (length out))%N /\
    ((size * count <= N.of_nat (length l - Z.to_nat c))%N -> n = count).
Proof.
  intros os size count H Hs Hm. destruct (drun_ok (os ++ [DTell; DRead size count]) _ _ drep_init) as (d & E & R).
  { apply dops_ok_app; auto. cbn. auto. }
  assert (Hc : (0 <= snd (fst (file_run ([], 0%Z) os)))%Z).
  { destruct (drun_ok os _ _ drep_init H) as (d0 & _ & (_ & _ & Hc)). auto. }
  rewrite file_run_app in E, R. destruct (file_run ([], 0%Z) os) as [[l c] rs]. cbn [fst snd file_run file_step] in E, R, Hc |- *.
  pose proof (limit_bounds l c) as Hl.
  set (got := Z.min (Z.of_N (size * count)) (Z.of_nat (length l) - limit l c)) in *.
  exists d, rs, c, (part l (Z.to_nat (limit l c)) (Z.to_nat got)), (Z.to_N got / size)%N. split; [exact E|].
  assert (Hg : (0 <= got)%Z) by (unfold got; lia).
  assert (Hlen : length (part l (Z.to_nat (limit l c)) (Z.to_nat got)) = Z.to_nat got).
  { unfold part. rewrite firstn_length, skipn_length. unfold got. lia. }
  assert (Hdiv : (Z.to_N got / size * size <= Z.to_N got)%N) by (rewrite N.mul_comm; apply N.mul_div_le; lia).
  assert (Hrem : (Z.to_nat got <= length l - Z.to_nat c)).
  { unfold got, limit. lia. }
  split; [|split; [|split; [|split]]].
  - rewrite Hlen. intros i Hi. unfold part. assert (Ec : limit l c = c) by (unfold limit, got in *; unfold limit in Hi; lia).
    rewrite Ec. rewrite nth_error_firstn_lt by auto. clear. revert i. generalize (Z.to_nat c) as k. induction l; intros [|k] i; cbn; auto.
    destruct i; auto.
  - apply N.div_le_upper_bound; [lia|]. unfold got. lia.
  - lia.
  - rewrite Hlen. lia.
  - intros Hfull. assert (Eg : Z.to_N got = (size * count)%N) by (unfold got, limit; lia). rewrite Eg, N.mul_comm, N.div_mul; lia.
Qed.

(** ** Comparison *)
Lemma memcmp_spec : forall l1 l2 n, n = Nat.min (length l1) (length l2) ->
  (memcmp l1 l2 n = (-1)%Z /\ bytes_before l1 l2) \/ (memcmp l1 l2 n = 1%Z /\ bytes_before l2 l1) \/
  (memcmp l1 l2 n = 0%Z /\ firstn n l1 = firstn n l2).
Proof.
  induction l1 as [|x l1 IH]; intros [|y l2] n Hn; cbn in Hn; subst n; cbn [memcmp]; auto.
  destruct (x <? y)%N eqn:E1; [left; split; auto; apply bb_here; apply N.ltb_lt; auto|].
  destruct (y <? x)%N eqn:E2; [right; left; split; auto; apply bb_here; apply N.ltb_lt; auto|].
  apply N.ltb_ge in E1, E2. assert (x = y) by lia. subst y.
  destruct (IH l2 _ eq_refl) as [[E B]|[[E B]|[E B]]].
  - left. split; auto. apply bb_later. auto.
  - right. left. split; auto. apply bb_later. auto.
  - right. right. split; auto. cbn [firstn]. f_equal. auto.
Qed.
Lemma before_prefix : forall l1 l2, length l1 < length l2 -> firstn (length l1) l2 = l1 -> bytes_before l1 l2.
Proof.
  induction l1 as [|x l1 IH]; intros [|y l2] H E; cbn in *; try lia; [constructor|].
  inversion E; subst. apply bb_later. rewrite H2. apply IH; auto. lia.
Qed.
Lemma before_irrefl : forall l, ~ bytes_before l l.
Proof. induction l; intros H; inversion H; subst; auto. lia. Qed.
Lemma before_trans : forall a b c, bytes_before a b -> bytes_before b c -> bytes_before a c.
Proof.
  intros a b c H. revert c. induction H; intros c Hc; inversion Hc; subst; first [apply bb_end | apply bb_later; solve [auto] | apply bb_here; lia].
Qed.

Theorem data_compare_spec : forall l1 l2,
  (data_compare l1 l2 = (-1)%Z <-> bytes_before l1 l2) /\
  (data_compare l1 l2 = 1%Z <-> bytes_before l2 l1) /\
  (data_compare l1 l2 = 0%Z <-> l1 = l2) /\
  (data_compare l1 l2 = (-1)%Z \/ data_compare l1 l2 = 0%Z \/ data_compare l1 l2 = 1%Z).
Proof.
  intros l1 l2.
  assert (C : (data_compare l1 l2 = (-1)%Z /\ bytes_before l1 l2) \/ (data_compare l1 l2 = 1%Z /\ bytes_before l2 l1) \/
              (data_compare l1 l2 = 0%Z /\ l1 = l2)).
  { unfold data_compare. set (n := if length l1 <? length l2 then length l1 else length l2).
    assert (Hn : n = Nat.min (length l1) (length l2)) by (unfold n; destruct (length l1 <? length l2) eqn:E; [apply Nat.ltb_lt in E|apply Nat.ltb_ge in E]; lia).
    destruct (memcmp_spec l1 l2 n Hn) as [[E B]|[[E B]|[E B]]]; rewrite E; cbn [Z.eqb]; auto.
    destruct (length l1 <? length l2) eqn:E1.
    - apply Nat.ltb_lt in E1. left. split; auto. apply before_prefix; auto. rewrite Hn, Nat.min_l, firstn_all in B by lia. auto.
    - apply Nat.ltb_ge in E1. destruct (length l2 <? length l1) eqn:E2.
      + apply Nat.ltb_lt in E2. right. left. split; auto. apply before_prefix; auto. rewrite Hn, Nat.min_r, (firstn_all l2) in B by lia. auto.
      + apply Nat.ltb_ge in E2. right. right. split; auto. replace n with (length l1) in B by lia. rewrite firstn_all in B.
        replace (length l1) with (length l2) in B by lia. rewrite firstn_all in B. auto. }
  pose proof (before_irrefl l1). pose proof (before_irrefl l2).
  assert (A : bytes_before l1 l2 -> bytes_before l2 l1 -> False) by (intros; eapply before_irrefl, before_trans; eauto).
  destruct C as [[E B]|[[E B]|[E B]]]; rewrite E; try subst l2; repeat split; intros; auto; try discriminate; try tauto; subst; tauto.
Qed.

Theorem data_compare_three_way : three_way data_compare.
Proof.
  split; [|split].
  - intros x y. destruct (data_compare_spec x y) as (A1 & A2 & A3 & A4), (data_compare_spec y x) as (B1 & B2 & B3 & B4).
    destruct A4 as [E|[E|E]]; rewrite E.
    + rewrite (proj2 B2); [auto|tauto].
    + rewrite (proj2 B3); [auto|symmetry; tauto].
    + rewrite (proj2 B1); [auto|tauto].
  - intros x y. apply data_compare_spec.
  - intros x y z H1 H2. destruct (data_compare_spec x y) as (A1 & A2 & A3 & A4), (data_compare_spec y z) as (B1 & B2 & B3 & B4).
    destruct A4 as [E|[E|E]]; try lia. destruct B4 as [F|[F|F]]; try lia.
    destruct (data_compare_spec x z) as (_ & C2 & _). rewrite (proj2 C2); [lia|]. apply A2 in E. apply B2 in F. eapply before_trans; eauto.
Qed.

Lemma memcmp_same : forall l1 l2, length l1 = length l2 -> memcmp l1 l2 (length l1) = data_compare l1 l2.
Proof.
  intros l1 l2 H. unfold data_compare. rewrite <- H, Nat.ltb_irrefl.
  destruct (memcmp l1 l2 (length l1) =? 0)%Z eqn:E; auto. apply Z.eqb_eq in E. auto.
Qed.

Theorem struct_compare_three_way : forall S (scmp : S -> S -> Z), three_way scmp -> three_way (struct_compare scmp).
Proof.
  intros S scmp (H1 & H2 & H3). destruct data_compare_three_way as (D1 & D2 & D3).
  assert (Sp : forall x y, struct_compare scmp x y =
     (if negb (scmp (fst x) (fst y) =? 0) then scmp (fst x) (fst y) else
      if (length (snd x) <? length (snd y))%nat then 1 else if (length (snd y) <? length (snd x))%nat then -1 else data_compare (snd x) (snd y))%Z).
  { intros [sx x] [sy y]. unfold struct_compare. cbn [fst snd]. destruct (negb _); auto.
    destruct (length x <? length y) eqn:E1; auto. destruct (length y <? length x) eqn:E2; auto.
    apply Nat.ltb_ge in E1, E2. destruct (length x =? 0) eqn:E3.
    - apply Nat.eqb_eq in E3. destruct x; [|discriminate]. destruct y; [auto|cbn in E1; lia].
    - apply memcmp_same. lia. }
  split; [|split].
  - intros [sx x] [sy y]. rewrite !Sp. cbn [fst snd]. pose proof (H1 sx sy) as A. pose proof (D1 x y) as B.
    destruct (scmp sx sy =? 0)%Z eqn:E1.
    + apply Z.eqb_eq in E1. rewrite E1 in A. cbn in A. assert (E2 : scmp sy sx = 0%Z) by lia. rewrite E2. cbn [negb Z.eqb].
      destruct (length x <? length y) eqn:L1, (length y <? length x) eqn:L2; auto.
      apply Nat.ltb_lt in L1, L2. lia.
    + apply Z.eqb_neq in E1. assert (E2 : (scmp sy sx =? 0)%Z = false) by (apply Z.eqb_neq; lia). rewrite E2. cbn [negb]. auto.
  - intros [sx x] [sy y]. rewrite Sp. cbn [fst snd]. destruct (scmp sx sy =? 0)%Z eqn:E1; cbn [negb].
    + apply Z.eqb_eq in E1. apply H2 in E1. subst sy. destruct (length x <? length y) eqn:L1.
      { apply Nat.ltb_lt in L1. split; [discriminate|]. intros E. inversion E. subst. lia. }
      destruct (length y <? length x) eqn:L2.
      { apply Nat.ltb_lt in L2. split; [discriminate|]. intros E. inversion E. subst. lia. }
      rewrite D2. split; [intros ->; auto|intros E; inversion E; auto].
    + apply Z.eqb_neq in E1. split; [tauto|]. intros E. inversion E. subst. exfalso. apply E1, H2. auto.
  - intros [sx x] [sy y] [sz z]. rewrite !Sp. cbn [fst snd].
    pose proof (H3 sx sy sz) as T. pose proof (D3 x y z) as T2. pose proof (H2 sx sy) as A1. pose proof (H2 sy sz) as A2. pose proof (H2 sx sz) as A3.
    destruct (scmp sx sy =? 0)%Z eqn:E1; cbn [negb]; [apply Z.eqb_eq in E1; apply A1 in E1; subst sy|].
    + destruct (scmp sx sz =? 0)%Z; cbn [negb]; [|tauto].
      destruct (length x <? length y) eqn:L1, (length y <? length x) eqn:L2, (length y <? length z) eqn:L3, (length z <? length y) eqn:L4,
        (length x <? length z) eqn:L5, (length z <? length x) eqn:L6;
      rewrite ?Nat.ltb_lt, ?Nat.ltb_ge in *; intros; try lia; auto.
    + destruct (scmp sy sz =? 0)%Z eqn:E2; cbn [negb].
      * apply Z.eqb_eq in E2. apply A2 in E2. subst sz. rewrite E1. cbn [negb]. auto.
      * intros P Q. specialize (T P Q). replace (scmp sx sz =? 0)%Z with false by (symmetry; apply Z.eqb_neq; lia). auto.
Qed.
