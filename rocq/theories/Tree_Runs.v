(** Calls and histories of calls, against the maps of Tree_Spec. *)
Require Import Coq.ZArith.ZArith Coq.Lists.List Coq.Bool.Bool Coq.Arith.Arith Coq.micromega.Lia Coq.Sorting.Sorted.
Require Import Verif.Base Verif.HashTable_Model Verif.Tree_Model Verif.Tree_Spec Verif.Tree_Fun Verif.Tree_Heap Verif.Tree_Proofs.
Import ListNotations.
Local Open Scope Z_scope.

Section Runs.
  Variables K V : Type.
  Variable cmp : K -> K -> Z.
  Hypothesis Hord : ordering K cmp.
  Let crefl : forall a, cmp a a = 0 := proj1 Hord.
  Let cflip : forall a b, cmp a b > 0 <-> cmp b a < 0 := proj1 (proj2 Hord).
  Let cgt1 : forall a b c, cmp a b > 0 -> cmp b c >= 0 -> cmp a c > 0 := proj1 (proj2 (proj2 (proj2 Hord))).
  Notation tree := (tree K V).
  Notation addrs := (addrs K V).
  Notation aa := (aa K V).
  Notation mem := (mem K V).
  Notation next := (next K V).
  Notation root := (root K V).
  Notation count := (count K V).
  Notation size := (size K V).
  Notation height := (height K V).
  Notation ok := (ok K V).
  Notation addr := (addr K V).
  Notation pairs := (pairs K V).
  Notation ord := (ordered K V cmp).
  (** The tree [s] of values in the memory of [t]. *)
  Record good (t : tree) (s : tr K V) : Prop := {
    g_ok : ok (mem t) s; g_root : root t = addr s; g_aa : aa s; g_ord : ord (pairs s);
    g_next : (2 <= next t)%nat; g_below : forall q, In q (addrs s) -> (q < next t)%nat; g_count : count t = Z.of_nat (size s) }.
  Definition holds_map (t : tree) (m : list (K * V)) : Prop := exists s, good t s /\ pairs s = m.

  Lemma init_map : holds_map (init K V) [].
  Proof.
    exists E. split; auto. constructor; auto.
    - apply ok_E. unfold Tree_Heap.null_ok. reflexivity.
    - exact I.
    - constructor.
    - intros q [].
  Qed.
  Lemma size_pairs : forall s : tr K V, size s = length (pairs s).
  Proof. intros s. unfold Tree_Fun.pairs. rewrite map_length. apply size_ents. Qed.
  Lemma in_bounds : forall t s fuel, good t s -> 2 * Z.log2 (count t + 1) < Z.of_nat fuel -> (height s < fuel)%nat.
  Proof. intros t s fuel G H. pose proof (aa_log K V s (g_aa _ _ G)). rewrite (g_count _ _ G) in H. lia. Qed.
  Lemma off1 : forall t s, good t s -> ~ In 1%nat (addrs s).
  Proof. intros t s G. apply one_off with (h := mem t). apply (g_ok _ _ G). Qed.

  Lemma insert_ok : forall t s fuel k v pol, good t s -> (height s < fuel)%nat ->
    exists t' s', insert K V cmp fuel t k v pol = Ok t' /\ good t' s' /\ pairs s' = put K V cmp (pairs s) k v pol.
  Proof.
    intros t s fuel k v pol G Hf. destruct G. destruct (insert_rec_ok K V cmp s t fuel k v pol Hf g_ok0 g_next0 g_below0) as (h' & n' & E1 & E2 & E3 & E4 & E5).
    unfold insert. rewrite g_root0, E1. cbn [obind fst snd Tree_Model.mem Tree_Model.next Tree_Model.count].
    eexists. exists (insert_f K V cmp (next t) s k v pol). split; [reflexivity|]. assert (P : pairs (insert_f K V cmp (next t) s k v pol) = put K V cmp (pairs s) k v pol) by (apply insert_pairs; auto).
    split; auto. constructor; cbn [Tree_Model.mem Tree_Model.next Tree_Model.root Tree_Model.count]; auto.
    - apply insert_aa. auto.
    - rewrite P. apply put_ordered; auto.
    - lia.
    - lia.
  Qed.
  Lemma holds_in : forall h s e x, Tree_Heap.rep K V h s -> In (e, x) (ents K V s) -> holds K V h e x.
  Proof.
    induction s as [|p lv l IHl y r IHr]; intros e x H G; [destruct G|]. cbn [Tree_Heap.rep Tree_Fun.ents] in *. destruct H as (_ & A & B & C). apply in_app_or in G. destruct G as [G|[G|G]]; auto. inversion G; subst. eexists. split; [exact A|auto].
  Qed.
  Lemma remove_ok : forall t s fuel k, good t s -> (height s < fuel)%nat ->
    exists t' s', remove K V cmp fuel t k = Ok t' /\ good t' s' /\ pairs s' = without K V cmp (pairs s) k.
  Proof.
    intros t s fuel k G Hf. pose proof (off1 t s G) as O1. destruct G. unfold remove. rewrite g_root0.
    destruct s as [|p0 lv0 l0 x0 r0] eqn:Es.
    { destruct fuel as [|fuel]; [lia|]. cbn [remove_rec Tree_Heap.addr obind]. unfold null_node. cbn [Nat.eqb obind]. eexists. exists E. split; [reflexivity|]. split; auto. constructor; auto. }
    rewrite <- Es in *. assert (Ne : s <> E) by (subst; discriminate). destruct (bottom_some K V cmp s k Ne) as [[b y] Hb].
    destruct (remove_rec_ok K V cmp s t fuel k NULL null_node b y Hf g_ok0 g_aa0 (or_introl eq_refl) Hb) as [F1 F2].
    unfold null_node in *. set (e := cand K V cmp s k 1) in *. 
    assert (Nd : NoDup (addrs s)) by apply g_ok0.
    assert (Rp : Tree_Heap.rep K V (mem t) s) by apply g_ok0.
    assert (Dec : found K V cmp s k \/ ~ found K V cmp s k /\ (e = 1%nat \/ exists x, holds K V (mem t) e x /\ cmp (fst x) k <> 0)).
    { destruct (cand_in K V cmp s k 1%nat) as [Q|Q].
      - right. split; [|left; exact Q]. intros (x & Hx & _). apply O1. rewrite Q in Hx. apply in_map_iff. exists (1%nat, x). auto.
      - pose proof Q as Q0. apply in_map_iff in Q. destruct Q as ([e' x] & Q1 & Q2). cbn [fst] in Q1. fold e in Q1. subst e'. destruct (Z.eq_dec (cmp (fst x) k) 0) as [Q|Q].
        + left. exists x. auto.
        + right. assert (H : holds K V (mem t) e x) by (eapply holds_in; eauto). split; [|right; exists x; auto]. intros (x' & Hx' & Hc). fold e in Hx'. assert (H' : holds K V (mem t) e x') by (eapply holds_in; eauto).
          destruct H as (n & A1 & A2), H' as (n' & A1' & A2'). congruence. }
    destruct Dec as [Hfd|[Hfd Hno]].
    - pose proof (remove_found K V cmp Hord s k b y g_aa0 g_ord0 Nd O1 Hfd Hb) as P. fold e in P. destruct Hfd as (x & Hx & Hc). fold e in Hx.
      destruct F1 as (h' & -> & A2 & _). { intros Q. apply O1. apply in_map_iff. exists (e, x). rewrite Q in *. auto. } { exists x. split; auto. eapply holds_in; eauto. }
      cbn [obind]. eexists. exists (setkv K V e y (unlink K V cmp s k)). split; [reflexivity|]. split; auto.
      assert (Aa : aa (setkv K V e y (unlink K V cmp s k))).
      { destruct (unlink_good K V cmp s k g_aa0 Ne) as [Q _]. revert Q. generalize (unlink K V cmp s k). clear. induction t as [|p lv l IHl x r IHr]; cbn [Tree_Fun.aa Tree_Fun.setkv]; auto. rewrite !setkv_lev, setkv_rt, setkv_lev. tauto. }
      constructor; cbn [Tree_Model.mem Tree_Model.next Tree_Model.root Tree_Model.count]; auto.
      + rewrite P. apply without_ordered; auto.
      + intros q Q. rewrite setkv_addrs in Q. apply g_below0. eapply unlink_in; eauto.
      + rewrite g_count0, !size_ents. rewrite setkv_ents, map_length. destruct (unlink_ents K V cmp s k g_aa0 (b, y) Hb) as (L & R & Q1 & Q2 & _). rewrite Q1, Q2, !app_length. cbn [length]. lia.
    - destruct (F2 Hno) as (h' & -> & A2). cbn [obind]. eexists. exists s. split; [reflexivity|]. rewrite remove_missing by auto. split; auto. constructor; auto.
      cbn [Tree_Model.mem]. eapply ok_ext; [exact g_ok0| |intros; apply A2]. unfold Tree_Heap.null_ok. rewrite A2. apply g_ok0.
  Qed.
  Lemma lookup_app : forall a b k, Forall (fun y => cmp (fst y) k <> 0) a -> lookup K V cmp (a ++ b) k = lookup K V cmp b k.
  Proof.
    unfold lookup. induction a as [|x a IH]; intros b k H; auto. inversion H; subst. cbn [app List.find]. replace (cmp (fst x) k =? 0) with false by (symmetry; apply Z.eqb_neq; auto). apply IH. auto.
  Qed.
  Lemma lookup_front : forall a b k, Forall (fun y => cmp (fst y) k <> 0) b -> lookup K V cmp (a ++ b) k = lookup K V cmp a k.
  Proof.
    unfold lookup. induction a as [|x a IH]; intros b k H.
    - cbn [app]. rewrite <- (app_nil_r b). change (option_map snd (List.find (fun e => cmp (fst e) k =? 0) (b ++ []))) with (lookup K V cmp (b ++ []) k). rewrite lookup_app; auto.
    - cbn [app List.find]. destruct (cmp (fst x) k =? 0); auto.
  Qed.
  Lemma find_ok : forall s h fuel k, (height s < fuel)%nat -> ok h s -> ord (pairs s) ->
    exists r, find_node K V cmp fuel h (addr s) k = Ok r /\
      match r with None => lookup K V cmp (pairs s) k = None | Some p => exists x, holds K V h p x /\ lookup K V cmp (pairs s) k = Some (snd x) end.
  Proof.
    induction s as [|p lv l IHl x r IHr]; intros h fuel k Hf H Ho; (destruct fuel as [|fuel]; [lia|]); cbn [find_node].
    - exists None. auto.
    - rewrite (addr_ne K V h (T p lv l x r)) by (auto; discriminate). cbn [Tree_Heap.addr]. apply ok_T in H. destruct H as (N & P2 & Hp & Hl & Hr & _). unfold key_of, ld. rewrite Hp. cbn [obind kv left right]. rewrite pairs_T in *. apply (ord_app K V cmp Hord) in Ho. destruct Ho as (A & B & C & D). cbn [Tree_Fun.height] in Hf.
      destruct (cmp (fst x) k <? 0) eqn:E1; [|destruct (0 <? cmp (fst x) k) eqn:E2].
      + apply Z.ltb_lt in E1. rewrite lookup_front; [apply IHl; auto; lia|]. constructor; [lia|]. eapply Forall_impl; [|exact D]. cbv beta. intros y Hy. assert (cmp (fst y) k < 0); [|lia]. apply cflip. apply cgt1 with (fst x); [apply cflip; auto|lia].
      + apply Z.ltb_lt in E2. change (pairs l ++ x :: pairs r) with (pairs l ++ [x] ++ pairs r). rewrite app_assoc, lookup_app; [apply IHr; auto; lia|]. apply Forall_app. split; [|constructor; [lia|constructor]]. eapply Forall_impl; [|exact C]. cbv beta. intros y Hy. assert (cmp (fst y) k > 0); [|lia]. apply cgt1 with (fst x); lia.
      + apply Z.ltb_ge in E1, E2. assert (Ex : cmp (fst x) k = 0) by lia. exists (Some p). split; auto. exists x. split; [eexists; split; [exact Hp|auto]|]. rewrite lookup_app.
        * unfold lookup. cbn [List.find]. rewrite Ex. auto.
        * eapply Forall_impl; [|exact C]. cbv beta. intros y Hy. assert (cmp (fst y) k > 0); [|lia]. apply cgt1 with (fst x); lia.
  Qed.
  Lemma get_ok : forall t s fuel k, good t s -> (height s < fuel)%nat -> get_object K V cmp fuel t k = Ok (lookup K V cmp (pairs s) k).
  Proof.
    intros t s fuel k G Hf. destruct G. unfold get_object. rewrite g_root0. destruct (find_ok s (mem t) fuel k Hf g_ok0 g_ord0) as (r & -> & H). cbn [obind]. destruct r as [p|].
    - destruct H as (x & (n & H1 & H2) & ->). unfold ld. rewrite H1. cbn [obind]. rewrite H2. auto.
    - rewrite H. auto.
  Qed.
  Lemma visited_app : forall St (f : St -> K -> V -> St * Z) a b st, visited K V f st (a ++ b) = let y := visited K V f st a in if snd y =? 0 then visited K V f (fst y) b else y.
  Proof.
    intros St f. induction a as [|[k v] a IH]; intros b st; [reflexivity|]. cbn [app visited]. cbv zeta in *. destruct (snd (f st k v) =? 0) eqn:Q; [apply IH|]. rewrite Q. auto.
  Qed.
  Lemma traverse_rec_ok : forall St (f : St -> K -> V -> St * Z) s h fuel st, (height s < fuel)%nat -> ok h s -> traverse_rec K V St f fuel h (addr s) st = Ok (visited K V f st (pairs s)).
  Proof.
    intros St f. induction s as [|p lv l IHl x r IHr]; intros h fuel st Hf H; (destruct fuel as [|fuel]; [lia|]); cbn [traverse_rec]; auto.
    rewrite (addr_ne K V h (T p lv l x r)) by (auto; discriminate). cbn [Tree_Heap.addr]. apply ok_T in H. destruct H as (N & P2 & Hp & Hl & Hr & _). unfold ld. rewrite Hp. cbn [obind left right kv]. cbn [Tree_Fun.height] in Hf. rewrite IHl by (auto; lia). cbn [obind]. rewrite pairs_T, visited_app. cbv zeta.
    destruct (snd (visited K V f st (pairs l)) =? 0); cbn [negb]; auto. destruct x as [k v]. cbn [visited fst snd]. destruct (snd (f _ k v) =? 0); cbn [negb]; auto. rewrite IHr by (auto; lia). auto.
  Qed.
  Lemma traverse_ok : forall St (f : St -> K -> V -> St * Z) t s fuel st, good t s -> (height s < fuel)%nat -> traverse K V St f fuel t st = Ok (visited K V f st (pairs s)).
  Proof. intros St f t s fuel st G Hf. destruct G. unfold traverse. rewrite g_root0. apply traverse_rec_ok; auto. Qed.
  Lemma all_visited : forall m acc, visited K V (fun st k v => (st ++ [(k, v)], 0)) acc m = (acc ++ m, 0).
  Proof.
    induction m as [|[k v] m IH]; intros acc; cbn [visited]; [rewrite app_nil_r; auto|]. cbn [snd fst Z.eqb]. rewrite IH, <- app_assoc. auto.
  Qed.
  Lemma remove_all_rec_ok : forall s t fuel, (height s < fuel)%nat -> ok (mem t) s ->
    exists h', remove_all_rec K V fuel t (addr s) = Ok (mkTree h' (next t) (root t) (count t - Z.of_nat (size s))) /\ (forall q, ~ In q (addrs s) -> h' q = mem t q).
  Proof.
    induction s as [|p lv l IHl x r IHr]; intros t fuel Hf H; (destruct fuel as [|fuel]; [lia|]); cbn [remove_all_rec].
    - exists (mem t). cbn [Tree_Heap.addr Tree_Fun.size]. unfold null_node. cbn [Nat.eqb]. split; auto. replace (count t - Z.of_nat 0) with (count t) by lia. destruct t; auto.
    - rewrite (addr_ne K V (mem t) (T p lv l x r)) by (auto; discriminate). cbn [Tree_Heap.addr]. apply ok_T in H. destruct H as (N & P2 & Hp & Hl & Hr & _ & Pl & Pr & Dj). unfold ld. rewrite Hp. cbn [obind left right]. cbn [Tree_Fun.height] in Hf.
      destruct (IHl t fuel ltac:(lia) Hl) as (h1 & -> & A). cbn [obind]. unfold free_node, ld. cbn [Tree_Model.mem Tree_Model.next Tree_Model.root Tree_Model.count]. rewrite (A p Pl), Hp. cbn [obind].
      edestruct (IHr (mkTree (set K V h1 p (mkN NULL NULL 0 None)) (next t) (root t) (count t - Z.of_nat (size l) - 1)) fuel ltac:(lia)) as (h2 & F & B).
      { cbn [Tree_Model.mem]. eapply ok_ext; [exact Hr| |].
        - unfold Tree_Heap.null_ok. rewrite set_ne by lia. rewrite A; [exact N|]. apply one_off with (h := mem t). apply Hl.
        - intros q Q. rewrite set_ne by congruence. apply A. intros Q2. eapply Dj; eauto. }
      rewrite F. cbn [Tree_Model.mem Tree_Model.next Tree_Model.root Tree_Model.count] in *. exists h2. split.
      + do 2 f_equal. cbn [Tree_Fun.size]. lia.
      + intros q Q. rewrite addrs_T, in_app_iff in Q. cbn [In] in Q. rewrite B by tauto. rewrite set_ne by (intros ->; tauto). apply A. tauto.
  Qed.
  Lemma remove_all_ok : forall t s fuel, good t s -> (height s < fuel)%nat -> exists t', remove_all K V fuel t = Ok t' /\ good t' E.
  Proof.
    intros t s fuel G Hf. pose proof (off1 t s G) as O1. destruct G. unfold remove_all. rewrite g_root0. destruct (remove_all_rec_ok s t fuel Hf g_ok0) as (h' & -> & A). cbn [obind Tree_Model.mem Tree_Model.next Tree_Model.root Tree_Model.count].
    eexists. split; [reflexivity|]. constructor; cbn [Tree_Model.mem Tree_Model.next Tree_Model.root Tree_Model.count]; auto.
    - apply ok_E. unfold Tree_Heap.null_ok. rewrite A by auto. apply g_ok0.
    - exact I.
    - constructor.
    - intros q [].
    - cbn. lia.
  Qed.

  (** ** Steps and histories *)
  Lemma step_ok : forall t s fuel o, good t s -> (height s < fuel)%nat ->
    exists t' s', tstep K V cmp fuel t o = Ok (t', snd (mstep K V cmp (pairs s) o)) /\ good t' s' /\ pairs s' = fst (mstep K V cmp (pairs s) o).
  Proof.
    intros t s fuel o G Hf. destruct o as [k v pol|k| |k| |]; cbn [tstep mstep fst snd].
    - destruct (insert_ok t s fuel k v pol G Hf) as (t' & s' & -> & A & B). cbn [obind]. eauto.
    - destruct (remove_ok t s fuel k G Hf) as (t' & s' & -> & A & B). cbn [obind]. eauto.
    - destruct (remove_all_ok t s fuel G Hf) as (t' & -> & A). cbn [obind]. exists t', E. auto.
    - rewrite (get_ok t s fuel k G Hf). cbn [obind]. exists t, s. auto.
    - exists t, s. rewrite (g_count _ _ G), size_pairs. auto.
    - rewrite (traverse_ok _ _ t s fuel [] G Hf). cbn [obind]. rewrite all_visited. cbn [app fst]. exists t, s. auto.
  Qed.
  Lemma put_length : forall m k v pol, (length (put K V cmp m k v pol) <= S (length m))%nat.
  Proof. induction m as [|[k' v'] m IH]; intros k v pol; cbn [put]; [destruct pol; cbn; lia|]. specialize (IH k v pol). destruct (cmp k' k <? 0); [destruct pol; cbn; lia|]. destruct (cmp k' k =? 0); [destruct pol; cbn; lia|]. cbn [length]. lia. Qed.
  Lemma mstep_length : forall m o, (length (fst (mstep K V cmp m o)) <= S (length m))%nat.
  Proof.
    intros m [k v pol|k| |k| |]; cbn [mstep fst]; try (cbn; lia).
    - apply put_length.
    - unfold without. induction m as [|a m IH]; cbn [filter length]; [lia|]. destruct (negb _); cbn [length]; lia.
  Qed.
  Lemma run_ok : forall os t s fuel, good t s -> (size s + length os < fuel)%nat ->
    exists t' s', trun K V cmp fuel t os = Ok (t', snd (mrun K V cmp (pairs s) os)) /\ good t' s' /\ pairs s' = fst (mrun K V cmp (pairs s) os).
  Proof.
    induction os as [|o os IH]; intros t s fuel G Hf; cbn [trun mrun].
    - exists t, s. auto.
    - pose proof (height_size K V s). cbn [length] in Hf. destruct (step_ok t s fuel o G ltac:(lia)) as (t1 & s1 & -> & A & B). cbn [obind fst snd]. pose proof (mstep_length (pairs s) o) as L.
      destruct (mstep K V cmp (pairs s) o) as [m1 r1] eqn:Em. cbn [fst snd] in *. rewrite <- B in *. rewrite <- !size_pairs in L. destruct (IH t1 s1 fuel A ltac:(lia)) as (t2 & s2 & -> & C & D). cbn [obind]. destruct (mrun K V cmp (pairs s1) os) as [m2 rs]. cbn [fst snd] in *. eauto.
  Qed.
  Notation reachable := (reachable K V cmp).
  Lemma step_more : forall o t fuel fuel' r, tstep K V cmp fuel t o = Ok r -> (fuel <= fuel')%nat -> tstep K V cmp fuel' t o = Ok r.
  Proof.
    assert (I : forall fuel fuel' t p k v pol r, insert_rec K V cmp fuel t p k v pol = Ok r -> (fuel <= fuel')%nat -> insert_rec K V cmp fuel' t p k v pol = Ok r).
    { induction fuel as [|fuel IH]; intros fuel' t p k v pol r H Hle; [discriminate|]. destruct fuel' as [|fuel']; [lia|]. cbn [insert_rec] in *. destruct (p =? null_node)%nat; auto. destruct (key_of K V (mem t) p) as [pk| | |]; try discriminate. cbn [obind] in *. destruct (ld K V (mem t) p) as [n| | |]; try discriminate. cbn [obind] in *.
      destruct (cmp pk k <? 0); [|destruct (0 <? cmp pk k); auto].
      - destruct (insert_rec K V cmp fuel t (left K V n) k v pol) as [x| | |] eqn:Q; try discriminate. rewrite (IH fuel' _ _ _ _ _ _ Q) by lia. auto.
      - destruct (insert_rec K V cmp fuel t (right K V n) k v pol) as [x| | |] eqn:Q; try discriminate. rewrite (IH fuel' _ _ _ _ _ _ Q) by lia. auto. }
    assert (R : forall fuel fuel' t k p lf er r, remove_rec K V cmp fuel t k p lf er = Ok r -> (fuel <= fuel')%nat -> remove_rec K V cmp fuel' t k p lf er = Ok r).
    { induction fuel as [|fuel IH]; intros fuel' t k p lf er r H Hle; [discriminate|]. destruct fuel' as [|fuel']; [lia|]. cbn [remove_rec] in *. destruct (p =? null_node)%nat; auto. destruct (key_of K V (mem t) p) as [pk| | |]; try discriminate. cbn [obind] in *. destruct (ld K V (mem t) p) as [n| | |]; try discriminate. cbn [obind] in *.
      destruct (cmp pk k <? 0).
      - destruct (remove_rec K V cmp fuel t k (left K V n) p er) as [x| | |] eqn:Q; try discriminate. rewrite (IH fuel' _ _ _ _ _ _ Q) by lia. auto.
      - destruct (remove_rec K V cmp fuel t k (right K V n) p p) as [x| | |] eqn:Q; try discriminate. rewrite (IH fuel' _ _ _ _ _ _ Q) by lia. auto. }
    assert (A : forall fuel fuel' t p r, remove_all_rec K V fuel t p = Ok r -> (fuel <= fuel')%nat -> remove_all_rec K V fuel' t p = Ok r).
    { induction fuel as [|fuel IH]; intros fuel' t p r H Hle; [discriminate|]. destruct fuel' as [|fuel']; [lia|]. cbn [remove_all_rec] in *. destruct (p =? null_node)%nat; auto. destruct (ld K V (mem t) p) as [n| | |]; try discriminate. cbn [obind] in *.
      destruct (remove_all_rec K V fuel t (left K V n)) as [x| | |] eqn:Q; try discriminate. rewrite (IH fuel' _ _ _ Q) by lia. cbn [obind] in *. destruct (free_node K V x p) as [x2| | |]; try discriminate. cbn [obind] in *. apply IH; auto. lia. }
    assert (F : forall fuel fuel' h p k r, find_node K V cmp fuel h p k = Ok r -> (fuel <= fuel')%nat -> find_node K V cmp fuel' h p k = Ok r).
    { induction fuel as [|fuel IH]; intros fuel' h p k r H Hle; [discriminate|]. destruct fuel' as [|fuel']; [lia|]. cbn [find_node] in *. destruct (p =? null_node)%nat; auto. destruct (key_of K V h p) as [pk| | |]; try discriminate. cbn [obind] in *. destruct (ld K V h p) as [n| | |]; try discriminate. cbn [obind] in *.
      destruct (cmp pk k <? 0); [apply IH; auto; lia|]. destruct (0 <? cmp pk k); auto. apply IH; auto; lia. }
    assert (T : forall St f fuel fuel' h p st r, traverse_rec K V St f fuel h p st = Ok r -> (fuel <= fuel')%nat -> traverse_rec K V St f fuel' h p st = Ok r).
    { intros St f. induction fuel as [|fuel IH]; intros fuel' h p st r H Hle; [discriminate|]. destruct fuel' as [|fuel']; [lia|]. cbn [traverse_rec] in *. destruct (p =? null_node)%nat; auto. destruct (ld K V h p) as [n| | |]; try discriminate. cbn [obind] in *.
      destruct (traverse_rec K V St f fuel h (left K V n) st) as [x| | |] eqn:Q; try discriminate. rewrite (IH fuel' _ _ _ _ Q) by lia. cbn [obind] in *. destruct (negb (snd x =? 0)); auto. destruct (kv K V n); auto. destruct (negb _); auto. apply IH; auto. lia. }
    intros o t fuel fuel' r H Hle. destruct o as [k v pol|k| |k| |]; cbn [tstep] in *.
    - unfold insert in *. destruct (insert_rec K V cmp fuel t (root t) k v pol) as [x| | |] eqn:Q; try discriminate. rewrite (I _ _ _ _ _ _ _ _ Q Hle). auto.
    - unfold remove in *. destruct (remove_rec K V cmp fuel t k (root t) NULL null_node) as [x| | |] eqn:Q; try discriminate. rewrite (R _ _ _ _ _ _ _ _ Q Hle). auto.
    - unfold remove_all in *. destruct (remove_all_rec K V fuel t (root t)) as [x| | |] eqn:Q; try discriminate. rewrite (A _ _ _ _ _ Q Hle). auto.
    - unfold get_object in *. destruct (find_node K V cmp fuel (mem t) (root t) k) as [x| | |] eqn:Q; try discriminate. rewrite (F _ _ _ _ _ _ Q Hle). auto.
    - auto.
    - unfold traverse in *. destruct (traverse_rec K V _ _ fuel (mem t) (root t) []) as [x| | |] eqn:Q; try discriminate. rewrite (T _ _ _ _ _ _ _ _ Q Hle). auto.
  Qed.
  Lemma run_more : forall os t fuel fuel' r, trun K V cmp fuel t os = Ok r -> (fuel <= fuel')%nat -> trun K V cmp fuel' t os = Ok r.
  Proof.
    induction os as [|o os IH]; intros t fuel fuel' r H Hle; cbn [trun] in *; auto. destruct (tstep K V cmp fuel t o) as [x| | |] eqn:Q; try discriminate. rewrite (step_more _ _ _ _ _ Q Hle). cbn [obind] in *.
    destruct (trun K V cmp fuel (fst x) os) as [y| | |] eqn:Q2; try discriminate. rewrite (IH _ _ _ _ Q2 Hle). auto.
  Qed.
  Lemma good_init : good (init K V) E.
  Proof.
    constructor; auto.
    - apply ok_E. unfold Tree_Heap.null_ok. reflexivity.
    - exact I.
    - constructor.
    - intros q [].
  Qed.
  Lemma reach_good : forall t m, reachable t m -> exists s, good t s /\ pairs s = m.
  Proof.
    intros t m (fuel & os & rs & H & ->). destruct (run_ok os (init K V) E (fuel + S (length os)) good_init) as (t' & s & A & B & C); [cbn; lia|].
    rewrite (run_more os _ fuel (fuel + S (length os)) _ H) in A by lia. inversion A; subst. exists s. auto.
  Qed.

  (** ** The statements *)
  Theorem run_map : forall os fuel, (length os < fuel)%nat ->
    exists t, trun K V cmp fuel (init K V) os = Ok (t, snd (mrun K V cmp [] os)) /\ reachable t (fst (mrun K V cmp [] os)).
  Proof.
    intros os fuel Hf. destruct (run_ok os (init K V) E fuel good_init) as (t & s & A & B & C); [cbn; lia|]. exists t. split; auto. exists fuel, os, (snd (mrun K V cmp [] os)). auto.
  Qed.
  Theorem in_order : forall t m, reachable t m -> ord m /\
    forall St (f : St -> K -> V -> St * Z) st fuel, 2 * Z.log2 (count t + 1) < Z.of_nat fuel -> traverse K V St f fuel t st = Ok (visited K V f st m).
  Proof.
    intros t m H. destruct (reach_good t m H) as (s & G & <-). split; [apply G|]. intros St f st fuel Hf. apply traverse_ok; auto. eapply in_bounds; eauto.
  Qed.
  Theorem balanced : forall t m fuel o, reachable t m -> 2 * Z.log2 (Z.of_nat (length m) + 1) < Z.of_nat fuel ->
    exists t', tstep K V cmp fuel t o = Ok (t', snd (mstep K V cmp m o)).
  Proof.
    intros t m fuel o H Hf. destruct (reach_good t m H) as (s & G & <-). destruct (step_ok t s fuel o G) as (t' & s' & A & _ & _); [eapply in_bounds; eauto; rewrite (g_count _ _ G), size_pairs; auto|]. eauto.
  Qed.
  Theorem sentinel_kept : forall t m, reachable t m -> mem t null_node = Some (mkN null_node null_node 0 None).
  Proof. intros t m H. destruct (reach_good t m H) as (s & G & _). apply (g_ok _ _ G). Qed.
  Theorem first_diverges : forall t m fuel, reachable t m -> get_first K V fuel t = NoFuel.
  Proof.
    intros t m fuel H. destruct (reach_good t m H) as (s & G & _). unfold get_first. rewrite (g_root _ _ G). pose proof (g_ok _ _ G) as O. revert O. generalize (mem t) as h. clear. 
    revert s. induction fuel as [|fuel IH]; intros s h O; [reflexivity|]. cbn [first_loop]. destruct s as [|p lv l x r].
    - unfold ld. cbn [Tree_Heap.addr]. assert (N : h 1%nat = Some (mkN 1%nat 1%nat 0 None)) by apply O. rewrite N. cbn [obind left]. apply (IH E). auto.
    - apply ok_T in O. destruct O as (N & P2 & Hp & Hl & _). unfold ld. cbn [Tree_Heap.addr]. rewrite Hp. cbn [obind left]. replace (addr l =? NULL)%nat with false; [apply IH; auto|]. symmetry. apply Nat.eqb_neq. unfold NULL. destruct l as [|q lq a y b]; cbn; [lia|]. apply ok_T in Hl. lia.
  Qed.
End Runs.
