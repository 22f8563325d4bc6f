(** Proofs about the references graphs hold: histories. *)
Require Import Coq.Lists.List Coq.Bool.Bool Coq.Arith.Arith Coq.micromega.Lia.
Require Import Verif.Base Verif.Own_Model Verif.Own_Spec Verif.Own_Proofs Verif.Own_Calls Verif.Own_Ends Verif.Own_May Verif.Parsed_Model Verif.Parsed_Proofs Verif.Parsed_Steps Verif.Parsed_Shape Verif.Parsed_Ends Verif.Elem_Proofs Verif.Arcs_Model Verif.Arcs_Spec Verif.Arcs_Proofs Verif.Arcs_Steps.
Import ListNotations.

Section Graph.
Variable keq : nat -> nat -> bool.
Local Notation typed := (Arcs_Proofs.typed keq).
Local Notation T := (Arcs_Proofs.T keq).
Local Notation W := (Arcs_Proofs.W keq).
Lemma start : W init.
Proof. split; [exact init_inv|]. intros y b (n & Q). destruct y; discriminate. Qed.
  Lemma gstep_ok s o : W s -> also_held s o -> exists s', gstep keq s o = Ok s' /\ W s'.
  Proof.
    intros Ws (A & B). pose proof Ws as (I & Ts). destruct o as [| |x|x|d a b both|d a b both|d]; cbn [gstep exists_only] in *.
    - exists (make s Leaf). split; [reflexivity|]. split; [exact (proj1 (make_ok Leaf s eq_refl I))|apply T_make; [exact Ts|exact Logic.I]].
    - exists (make s (Hash [])). split; [reflexivity|]. split; [exact (proj1 (make_ok (Hash []) s eq_refl I))|apply T_make; [exact Ts|split; constructor]].
    - destruct (live_has _ _ A) as (c & Hx). destruct (retain_ref s [] (Some x) I (has_counted s x c I Hx)) as (s1 & E1 & I1 & F1).
      assert (Q: step keq s (Retain x) = Ok (mkS (cells s1) (hands s1 ++ [x]))) by (cbn [step]; rewrite E1; reflexivity). pose proof (may_step keq s (Retain x) I A) as M. rewrite Q in M. exists (mkS (cells s1) (hands s1 ++ [x])). split; [exact Q|]. split; [exact M|].
      apply (T_every s _ [] Ts M). exact (retain_keeps _ _ _ E1).
    - destruct (release_ok [x] (mkS (cells s) (take x (hands s))) []) as (s1 & E1 & I1 & _).
      + split; [exact (proj1 I)|]. intros y. pose proof (proj2 I y) as C. unfold rc in *. cbn [cells hands content] in *. rewrite app_nil_r. pose proof (cnt_take x (hands s) y A). change (content {| cells := cells s; hands := take x (hands s) |}) with (content s). cbn [count_occ] in C. lia.
      + exists s1. split; [exact E1|]. split; [exact I1|]. apply (T_every s s1 [] Ts I1). exact (give_keeps s (Some x) s1 E1).
    - destruct A as (Hd & (n & es & Q) & La & Lb). destruct (add_one_ok keq s d es a b Ws Hd (ex_intro _ n Q) La Lb) as (s1 & -> & W1 & H1 & L1 & (es1 & Hes1)). cbn [obind]. destruct both; [|eauto].
      destruct (add_one_ok keq s1 d es1 b a W1) as (s2 & -> & W2 & _); [rewrite H1; exact Hd|exact Hes1|exact (L1 _ Lb)|exact (L1 _ La)|eauto].
    - destruct A as (Hd & (n & es & Q) & La & Lb). destruct (remove_one_ok keq s d es a b Ws Hd (ex_intro _ n Q) La) as (s1 & -> & W1 & H1 & (es1 & Hes1)). cbn [obind]. destruct both; [|eauto].
      destruct (remove_one_ok keq s1 d es1 b a W1) as (s2 & -> & W2 & _); [rewrite H1; exact Hd|exact Hes1| |eauto]. destruct (inv_owned s1 [] b (proj1 W1)) as (c & Hc); [rewrite H1; exact B|]. exact (has_live _ _ _ Hc).
    - destruct A as (Hd & (n & es & Q)). unfold remove_all. rewrite (body_ok s d (Hash es)) by (exists n; exact Q). cbn [obind]. destruct (cut_keys keq s d es [] (of_entries es) Ws Hd (ex_intro _ n Q)) as (s1 & E1 & W1 & _); [intros e []|intros _; constructor|intros x; reflexivity|eauto].
  Qed.
  Lemma grun_ok : forall os s, W s -> follows also_held keq s os -> exists s', grun keq s os = Ok s' /\ W s'.
  Proof. induction os as [|o os IH]; intros s Ws F; [exists s; split; [reflexivity|exact Ws]|]. destruct F as (A & F). destruct (gstep_ok s o Ws A) as (s1 & E & W1). cbn [grun]. rewrite E. cbn [obind]. exact (IH s1 W1 (F s1 E)). Qed.
  Lemma safe os : follows also_held keq init os -> exists s, grun keq init os = Ok s /\ sound s.
  Proof. intros F. destruct (grun_ok os init start F) as (s & E & (I & _)). exists s. split; [exact E|apply inv_sound, I]. Qed.
  Lemma held_only os s : follows also_held keq init os -> grun keq init os = Ok s -> forall x, live s x <-> exists w, (In w (hands s) \/ chain s w w) /\ (w = x \/ chain s w x).
  Proof. intros F E x. destruct (safe os F) as (s' & E' & S'). rewrite E in E'. injection E' as <-. exact (live_iff s x S'). Qed.
  (** An edge that was added is there. *)
  Lemma find_last s e x to : has s e (Pair x (Some to)) -> forall rs i, typed s (Arr rs) -> exists j e', find s (rs ++ [Some e]) to i = Ok (Some (j, e')).
  Proof.
    intros He. induction rs as [|r rs IH]; intros i Ty; cbn [find app].
    - unfold second. rewrite (body_ok _ _ _ He). cbn [obind same]. rewrite Nat.eqb_refl. eauto.
    - cbn [Arcs_Proofs.typed] in Ty. destruct Ty as (Ty & O). inversion O as [|? ? _ O']; subst. inversion Ty as [|? ? (e1 & x1 & y1 & -> & H1) Ty']; subst. unfold second. rewrite (body_ok _ _ _ H1). cbn [obind]. destruct (same y1 (Some to)); [eauto|]. exact (IH (S i) (conj Ty' O')).
  Qed.
  (** The other edges of the vertex stay. *)
  Lemma keep_cut {A} : forall (rs : list A) i j r, nth_error rs i = Some r -> i <> j -> In r (firstn j rs ++ skipn (j + 1) rs).
  Proof.
    induction rs as [|r0 rs IH]; intros i j r Ni D; [destruct i; discriminate|]. destruct i as [|i], j as [|j]; cbn [nth_error firstn skipn plus app] in *; [congruence|injection Ni as ->; left; reflexivity|exact (nth_error_In _ _ Ni)|right; apply (IH i j r Ni); congruence].
  Qed.
  Lemma get_found s d es from b i e : W s -> has s d (Hash es) -> live s from -> get_edge keq s d from b = Ok (Some (i, e)) ->
    exists k l rs x, find_key keq es from = Some (k, Some l) /\ edges_of keq s d from = Ok (Some l) /\ has s l (Arr rs) /\ nth_error rs i = Some (Some e) /\ has s e (Pair x (Some b)).
  Proof.
    intros Ws Hes Lf G. unfold get_edge in G. destruct (edges_ok keq s d es from Ws Hes Lf) as [(Fk & Ed)|(k & l & rs & Fk & Ed & Hl & Ty)]; rewrite Ed in G; cbn [obind] in G; [discriminate|].
    rewrite (list_ok s l rs) in G by (exists (Arr rs); split; [left; reflexivity|exact Hl]). cbn [obind] in G. destruct (find_ok keq s b rs 0 Ty) as (f & Ef & Bf). rewrite Ef in G. injection G as ->. destruct Bf as (_ & Nj & (x & He)). rewrite Nat.sub_0_r in Nj. exists k, l, rs, x. auto.
  Qed.
  (** Adding an edge loses none. *)
  Definition grows (c c' : body) : Prop := c' = c \/ (exists rs m, c = Arr rs /\ c' = Arr (rs ++ m)) \/ exists es m, c = Hash es /\ c' = Hash (es ++ m).
  Definition grown (s s' : state) : Prop := forall y c, has s y c -> exists c', has s' y c' /\ grows c c'.
  Lemma grown_refl s : grown s s.
  Proof. intros y c H. exists c. split; [exact H|left; reflexivity]. Qed.
  Lemma grown_trans s1 s2 s3 : grown s1 s2 -> grown s2 s3 -> grown s1 s3.
  Proof.
    intros A B y c H. destruct (A y c H) as (c2 & H2 & G2). destruct (B y c2 H2) as (c3 & H3 & G3). exists c3. split; [exact H3|].
    destruct G2 as [->|[(rs & m & -> & ->)|(es & m & -> & ->)]]; [exact G3|destruct G3 as [->|[(rs' & m' & E & ->)|(es' & m' & E & ->)]]..]; try discriminate; right; [left|left|right|right]; eexists; eexists; (split; [reflexivity|]); try reflexivity; injection E as <-; rewrite <- app_assoc; reflexivity.
  Qed.
  Lemma list_grown s s' l rs m : has s l (Arr rs) -> (forall y c, y <> l -> has s y c -> has s' y c) -> has s' l (Arr (rs ++ m)) -> grown s s'.
  Proof. intros Hl F B y c H. destruct (Nat.eq_dec y l) as [->|D]; [pose proof (has_fun' _ _ _ _ H Hl) as X; subst c; eexists; split; [exact B|right; left; eauto]|exists c; split; [exact (F y c D H)|left; reflexivity]]. Qed.
  Lemma table_grown s s' d es m : has s d (Hash es) -> (forall y c, y <> d -> has s y c -> has s' y c) -> has s' d (Hash (es ++ m)) -> grown s s'.
  Proof. intros Hl F B y c H. destruct (Nat.eq_dec y d) as [->|D]; [pose proof (has_fun' _ _ _ _ H Hl) as X; subst c; eexists; split; [exact B|right; right; eauto]|exists c; split; [exact (F y c D H)|left; reflexivity]]. Qed.
  Lemma grown_live s s' x : grown s s' -> live s x -> live s' x.
  Proof. intros G L. destruct (live_has _ _ L) as (c & H). destruct (G x c H) as (c' & H' & _). exact (has_live _ _ _ H'). Qed.
  Lemma add_grown s d es from to s' : W s -> In d (hands s) -> has s d (Hash es) -> live s from -> live s to -> add_one keq s d from to = Ok s' -> grown s s'.
  Proof.
    intros Ws Hd Hes Lf Lt E. unfold add_one in E. destruct (edges_ok keq s d es from Ws Hes Lf) as [(Fk & Ed)|(k & l & rs & Fk & Ed & Hl & Ty)]; rewrite Ed in E; cbn [obind] in E.
    - destruct (new_list_ok keq s d es from Ws Hd Hes Fk Lf) as (s1 & E1 & W1 & H1 & F1 & B1 & A1). rewrite E1 in E. cbn [obind fst snd] in E. pose proof (table_grown _ _ _ _ _ Hes F1 B1) as G1.
      destruct (new_edge_ok s1 (next s) [] from to W1 A1 (grown_live _ _ _ G1 Lf) (grown_live _ _ _ G1 Lt) (fun _ _ (H : In _ []) _ => H)) as (s2 & E2 & W2 & H2 & F2 & B2 & A2). rewrite E2 in E. injection E as <-. exact (grown_trans _ _ _ G1 (list_grown _ _ _ _ _ A1 F2 B2)).
    - rewrite (list_ok s l rs) in E by (exists (Arr rs); split; [left; reflexivity|exact Hl]). cbn [obind] in E. destruct (find_ok keq s to rs 0 Ty) as (f & Ef & Bf). rewrite Ef in E. cbn [obind] in E. destruct f as [(j, e)|]; [injection E as <-; apply grown_refl|]. cbn [obind fst snd] in E.
      destruct (new_edge_ok s l rs from to Ws Hl Lf Lt Bf) as (s2 & E2 & W2 & H2 & F2 & B2 & A2). rewrite E2 in E. injection E as <-. exact (list_grown _ _ _ _ _ Hl F2 B2).
  Qed.
  Lemma find_front es m k r : find_key keq es k = Some r -> find_key keq (es ++ m) k = Some r.
  Proof. induction es as [|e es IH]; cbn [find_key app]; [discriminate|]. destruct (keq (fst e) k); [auto|exact IH]. Qed.
  Lemma kept s s' d es a b i e : W s -> W s' -> grown s s' -> has s d (Hash es) -> live s a -> get_edge keq s d a b = Ok (Some (i, e)) -> exists i' e', get_edge keq s' d a b = Ok (Some (i', e')).
  Proof.
    intros Ws Ws' G Hes La Q. destruct (get_found s d es a b i e Ws Hes La Q) as (k & l & rs & x & Fk & Ed & Hl & Ni & He).
    assert (X: exists m, has s' d (Hash (es ++ m))). { destruct (G d _ Hes) as (c & Hc & [->|[(? & ? & Y & _)|(es0 & m & Y & ->)]]); [exists []; rewrite app_nil_r; exact Hc|discriminate|injection Y as <-; exists m; exact Hc]. } destruct X as (m & Hes').
    assert (X: exists m, has s' l (Arr (rs ++ m))). { destruct (G l _ Hl) as (c & Hc & [->|[(rs0 & m0 & Y & ->)|(? & ? & Y & _)]]); [exists []; rewrite app_nil_r; exact Hc|injection Y as <-; exists m0; exact Hc|discriminate]. } destruct X as (m' & Hl').
    assert (He': has s' e (Pair x (Some b))). { destruct (G e _ He) as (c & Hc & [->|[(? & ? & Y & _)|(? & ? & Y & _)]]); [exact Hc|discriminate|discriminate]. }
    destruct (edges_ok keq s' d _ a Ws' Hes' (grown_live _ _ _ G La)) as [(Fk1 & _)|(k1 & l1 & rs1 & Fk1 & Ed1 & Hl1 & Ty1)]; rewrite (find_front _ m _ _ Fk) in Fk1; [discriminate|]. injection Fk1 as <- <-. pose proof (has_fun' _ _ _ _ Hl' Hl1) as X. injection X as <-.
    unfold get_edge. rewrite Ed1. cbn [obind]. rewrite (list_ok s' l _) by (eexists; split; [left; reflexivity|exact Hl']). cbn [obind]. destruct (find_ok keq s' b _ 0 Ty1) as (f1 & Ef1 & Bf1). rewrite Ef1. destruct f1 as [(j1, e1)|]; [eauto|exfalso]. exact (Bf1 e x (in_or_app _ _ _ (or_introl (nth_error_In _ _ Ni))) He').
  Qed.
  Lemma kept_after os s d from to both s' d' a b i e : follows also_held keq init os -> grun keq init os = Ok s -> exists_only s (AddEdge d from to both) -> gstep keq s (AddEdge d from to both) = Ok s' ->
    is_graph s d' -> live s a -> get_edge keq s d' a b = Ok (Some (i, e)) -> exists i' e', get_edge keq s' d' a b = Ok (Some (i', e')).
  Proof.
    intros F E (Hd & (n & es & Q) & La & Lb) G (n' & es' & Q') La' Gs. destruct (grun_ok os init start F) as (s0 & E' & Ws). rewrite E in E'. injection E' as <-. cbn [gstep] in G.
    destruct (add_one_ok keq s d es from to Ws Hd (ex_intro _ n Q) La Lb) as (s1 & E1 & W1 & H1 & L1 & (es1 & Hes1)). pose proof (add_grown s d es from to s1 Ws Hd (ex_intro _ n Q) La Lb E1) as G1. rewrite E1 in G. cbn [obind] in G. destruct both.
    - assert (Hd1: In d (hands s1)) by (rewrite H1; exact Hd). destruct (add_one_ok keq s1 d es1 to from W1 Hd1 Hes1 (L1 _ Lb) (L1 _ La)) as (s2 & E2 & W2 & _). pose proof (add_grown s1 d es1 to from s2 W1 Hd1 Hes1 (L1 _ Lb) (L1 _ La) E2) as G2. rewrite E2 in G. injection G as <-. exact (kept s s2 d' es' a b i e Ws W2 (grown_trans _ _ _ G1 G2) (ex_intro _ n' Q') La' Gs).
    - injection G as <-. exact (kept s s1 d' es' a b i e Ws W1 G1 (ex_intro _ n' Q') La' Gs).
  Qed.
  Hypothesis Refl : forall x, keq x x = true.
  Lemma find_added es k v : find_key keq es k = None -> find_key keq (es ++ [(k, v)]) k = Some (k, v).
  Proof. induction es as [|e es IH]; cbn [find_key app fst]; [rewrite Refl; reflexivity|]. destruct (keq (fst e) k); [discriminate|exact IH]. Qed.
  Lemma typed_front s rs r : typed s (Arr (rs ++ [r])) -> typed s (Arr rs).
  Proof. cbn [Arcs_Proofs.typed]. intros (F & O). apply Forall_app in F. split; [apply F|exact (apart_front s rs r O)]. Qed.
  Lemma added s d es from to s' : W s -> In d (hands s) -> has s d (Hash es) -> live s from -> live s to -> add_one keq s d from to = Ok s' -> exists i e, get_edge keq s' d from to = Ok (Some (i, e)).
  Proof.
    intros Ws Hd Hes Lf Lt E. unfold add_one in E. destruct (edges_ok keq s d es from Ws Hes Lf) as [(Fk & Ed)|(k & l & rs & Fk & Ed & Hl & Ty)]; rewrite Ed in E; cbn [obind] in E.
    - destruct (new_list_ok keq s d es from Ws Hd Hes Fk Lf) as (s1 & E1 & W1 & H1 & F1 & B1 & A1). rewrite E1 in E. cbn [obind fst snd] in E.
      assert (L1: forall x, live s x -> live s1 x). { intros x Lx. destruct (live_has _ _ Lx) as (b & Hx). destruct (Nat.eq_dec x d) as [->|D]; [exact (has_live _ _ _ B1)|exact (has_live _ _ _ (F1 _ _ D Hx))]. }
      destruct (new_edge_ok s1 (next s) [] from to W1 A1 (L1 _ Lf) (L1 _ Lt) (fun _ _ (H : In _ []) _ => H)) as (s2 & E2 & W2 & H2 & F2 & B2 & A2). rewrite E2 in E. injection E as <-.
      assert (B3: has s2 d (Hash (es ++ [(from, Some (next s))]))) by (apply F2; [pose proof (has_below _ _ _ Hes); lia|exact B1]).
      unfold get_edge, edges_of. rewrite (body_ok _ _ _ B3). cbn [obind]. assert (Lf2: exists c, has s2 from c) by (apply (member_lives keq s2 [] d _ from (proj1 W2) B3); cbn [members]; apply (in_fst from (Some (next s))), in_or_app; right; left; reflexivity). destruct Lf2 as (c & Hc). rewrite (body_ok _ _ _ Hc). cbn [obind]. rewrite (find_added _ _ _ Fk). cbn [obind].
      rewrite (list_ok s2 (next s) ([] ++ [Some (next s1)])) by (eexists; split; [left; reflexivity|exact B2]). cbn [obind]. apply (find_last s2 (next s1) (Some from) to A2 []). split; constructor.
    - rewrite (list_ok s l rs) in E by (exists (Arr rs); split; [left; reflexivity|exact Hl]). cbn [obind] in E. destruct (find_ok keq s to rs 0 Ty) as (f & Ef & Bf). rewrite Ef in E. cbn [obind] in E. destruct f as [(j, e)|].
      + injection E as <-. exists j, e. unfold get_edge. rewrite Ed. cbn [obind]. rewrite (list_ok s l rs) by (exists (Arr rs); split; [left; reflexivity|exact Hl]). exact Ef.
      + cbn [obind fst snd] in E. destruct (new_edge_ok s l rs from to Ws Hl Lf Lt Bf) as (s2 & E2 & W2 & H2 & F2 & B2 & A2). rewrite E2 in E. injection E as <-.
        assert (B3: has s2 d (Hash es)) by (apply F2; [intros ->; pose proof (has_fun' _ _ _ _ Hl Hes); discriminate|exact Hes]). assert (Lf2: exists c, has s2 from c). { destruct (live_has _ _ Lf) as (b & Hx). destruct (Nat.eq_dec from l) as [->|D]; [eauto|exists b; exact (F2 _ _ D Hx)]. }
        unfold get_edge, edges_of. rewrite (body_ok _ _ _ B3). cbn [obind]. destruct Lf2 as (c & Hc). rewrite (body_ok _ _ _ Hc). cbn [obind]. rewrite Fk. cbn [obind]. rewrite (list_ok s2 l (rs ++ [Some (next s)])) by (eexists; split; [left; reflexivity|exact B2]). cbn [obind].
        apply (find_last s2 (next s) (Some from) to A2 rs 0). apply (typed_front s2 rs (Some (next s))). exact (proj2 W2 l _ B2).
  Qed.
  Lemma added_after os s d from to s' : follows also_held keq init os -> grun keq init os = Ok s -> exists_only s (AddEdge d from to false) -> gstep keq s (AddEdge d from to false) = Ok s' -> exists i e, get_edge keq s' d from to = Ok (Some (i, e)).
  Proof.
    intros F E (Hd & (n & es & Q) & La & Lb) G. destruct (grun_ok os init start F) as (s0 & E' & Ws). rewrite E in E'. injection E' as <-. cbn [gstep] in G. apply bind_ok in G. destruct G as (s1 & G & X). injection X as ->. exact (added s d es from to s' Ws Hd (ex_intro _ n Q) La Lb G).
  Qed.
  (** An edge that was removed is not. *)
  Hypothesis Sym : forall x y, keq x y = true -> keq y x = true.
  Hypothesis Trans : forall x y z, keq x y = true -> keq y z = true -> keq x z = true.
  Lemma find_absent es k : (forall e, In e es -> keq (fst e) k = false) -> find_key keq es k = None.
  Proof. induction es as [|e es IH]; intros A; [reflexivity|]. cbn [find_key]. rewrite (A e) by (left; reflexivity). apply IH. intros e' H. apply A. right. exact H. Qed.
  Lemma find_removed es k : ForallOrdPairs (fun e e' : nat * Own_Model.ref => keq (fst e) (fst e') = false) es -> find_key keq (remove_key keq es k) k = None.
  Proof.
    induction es as [|e es IH]; intros O; [reflexivity|]. inversion O as [|? ? B O']; subst. cbn [remove_key]. destruct (keq (fst e) k) eqn:Ek; [|cbn [find_key]; rewrite Ek; exact (IH O')].
    apply find_absent. intros e' H. rewrite Forall_forall in B. specialize (B e' H). destruct (keq (fst e') k) eqn:E'; [|reflexivity]. rewrite (Trans _ _ _ Ek (Sym _ _ E')) in B. discriminate.
  Qed.
  Lemma apart_other s : forall rs i r r', ForallOrdPairs (apart s) rs -> nth_error rs i = Some r -> In r' (firstn i rs ++ skipn (i + 1) rs) -> apart s r r' \/ apart s r' r.
  Proof.
    induction rs as [|r0 rs IH]; intros i r r' O Ni H; [destruct i; discriminate|]. inversion O as [|? ? B O']; subst. rewrite Forall_forall in B. destruct i as [|i]; cbn [nth_error firstn skipn plus app] in *.
    - injection Ni as <-. left. exact (B r' H).
    - destruct H as [<-|H]; [right; exact (B r (nth_error_In _ _ Ni))|exact (IH i r r' O' Ni H)].
  Qed.
  Lemma edge_none s d es from to : has s d (Hash es) -> live s from -> find_key keq es from = None -> get_edge keq s d from to = Ok None.
  Proof. intros H Lf F. unfold get_edge, edges_of. rewrite (body_ok _ _ _ H). cbn [obind]. destruct (live_has _ _ Lf) as (c & Hc). rewrite (body_ok _ _ _ Hc). cbn [obind]. rewrite F. reflexivity. Qed.
  Lemma removed s d es from to s' : W s -> In d (hands s) -> has s d (Hash es) -> live s from -> remove_one keq s d from to = Ok s' -> live s' from -> get_edge keq s' d from to = Ok None.
  Proof.
    intros Ws Hd Hes Lf E Lf'. pose proof (proj2 Ws d _ Hes) as (_ & Ord). unfold remove_one in E. destruct (edges_ok keq s d es from Ws Hes Lf) as [(Fk & Ed)|(k & l & rs & Fk & Ed & Hl & Ty)]; rewrite Ed in E; cbn [obind] in E.
    - injection E as <-. exact (edge_none s d es from to Hes Lf Fk).
    - assert (Ls: list_of s l = Ok rs) by (apply (list_ok s l rs); exists (Arr rs); split; [left; reflexivity|exact Hl]). rewrite Ls in E. cbn [obind] in E. destruct (find_ok keq s to rs 0 Ty) as (f & Ef & Bf). rewrite Ef in E. cbn [obind] in E. destruct f as [(j, e)|].
      + destruct Bf as (Bj & Nj & (x & He)). rewrite Nat.sub_0_r in Nj. destruct (length rs =? 1).
        * unfold remove in E. rewrite (body_ok _ _ _ Hes) in E. cbn [obind] in E. destruct (live_has _ _ Lf) as (c & Hc). rewrite (body_ok _ _ _ Hc) in E. cbn [obind] in E. rewrite Fk in E.
          destruct (cut_keys keq s d es (remove_key keq es from) (k :: somes [Some l]) Ws Hd Hes) as (s1 & E1 & W1 & H1 & B1); [apply remove_keys|apply remove_ord|intros y; exact (cnt_remove keq es from k (Some l) y Fk)|]. pose proof (eq_trans (eq_sym E1) E) as X. injection X as <-. exact (edge_none s1 d _ from to B1 Lf' (find_removed es from Ord)).
        * destruct (cut_list keq s l rs j Ws Hl) as (s1 & E1 & W1 & H1 & C1 & K1); [lia|]. rewrite E1 in E. injection E as <-.
          assert (Dl: d <> l) by (intros ->; pose proof (has_fun' _ _ _ _ Hl Hes); discriminate).
          assert (Hes1: has s1 d (Hash es)). { destruct (inv_owned s1 [] d (proj1 W1)) as (b & B); [rewrite H1; exact Hd|]. pose proof (has_fun' _ _ _ _ (keeps_has _ _ _ _ _ K1 Dl B) Hes) as X. subst b. exact B. }
          destruct (edges_ok keq s1 d es from W1 Hes1 Lf') as [(Fk1 & _)|(k1 & l1 & rs1 & Fk1 & Ed1 & Hl1 & Ty1)]; [congruence|]. rewrite Fk in Fk1. injection Fk1 as <- <-. pose proof (C1 _ Hl1) as X. injection X as ->.
          unfold get_edge. rewrite Ed1. cbn [obind]. rewrite (list_ok s1 l _) by (eexists; split; [left; reflexivity|exact Hl1]). cbn [obind]. destruct (find_ok keq s1 to _ 0 Ty1) as (f1 & Ef1 & Bf1). rewrite Ef1. destruct f1 as [(j1, e1)|]; [exfalso|reflexivity].
          destruct Bf1 as (_ & Nj1 & (x1 & He1)). rewrite Nat.sub_0_r in Nj1. assert (He1': has s e1 (Pair x1 (Some to))). { apply (keeps_has _ _ _ _ _ K1); [|exact He1]. intros ->. pose proof (has_fun' _ _ _ _ Hl1 He1). discriminate. }
          destruct (apart_other s rs j _ _ (proj2 Ty) Nj (nth_error_In _ _ Nj1)) as [A|A]; [exact (A _ _ _ _ _ eq_refl eq_refl He He1')|exact (A _ _ _ _ _ eq_refl eq_refl He1' He)].
      + injection E as <-. unfold get_edge. rewrite Ed. cbn [obind]. rewrite Ls. cbn [obind]. exact Ef.
  Qed.
  Lemma removed_after os s d from to s' : follows also_held keq init os -> grun keq init os = Ok s -> exists_only s (RemoveEdge d from to false) -> gstep keq s (RemoveEdge d from to false) = Ok s' -> live s' from -> get_edge keq s' d from to = Ok None.
  Proof.
    intros F E (Hd & (n & es & Q) & La & Lb) G. destruct (grun_ok os init start F) as (s0 & E' & Ws). rewrite E in E'. injection E' as <-. cbn [gstep] in G. apply bind_ok in G. destruct G as (s1 & G & X). injection X as ->. exact (removed s d es from to s' Ws Hd (ex_intro _ n Q) La G).
  Qed.
End Graph.

(** ** Examples *)
Lemma follows_cons (P : state -> gop -> Prop) keq s o os : P s o -> (forall s', gstep keq s o = Ok s' -> follows P keq s' os) -> follows P keq s (o :: os).
Proof. intros A B. split; assumption. Qed.
Ltac follow := repeat match goal with |- follows _ _ _ [] => exact Logic.I | |- follows _ _ _ (_ :: _) => apply follows_cons; [|let s0 := fresh "s" in let E0 := fresh "E" in intros s0 E0; vm_compute in E0; injection E0 as <-] end.
Ltac allowed_now := cbv; repeat split; first [exact Logic.I|solve [eauto]|eexists; eexists; reflexivity|tauto].
Definition some_calls : list gop := [Vertex; Vertex; Vertex; Graph; AddEdge 3 0 1 true; AddEdge 3 1 2 false; AddEdge 3 0 1 false; Leave 0; RemoveEdge 3 1 2 true; Leave 2; Leave 1].
Lemma some_case :
  follows also_held Nat.eqb init some_calls /\
  grun Nat.eqb init some_calls = Ok (mkS [Live 3 Leaf; Live 3 Leaf; Freed; Live 1 (Hash [(0, Some 4); (1, Some 6)]); Live 1 (Arr [Some 5]); Live 1 (Pair (Some 0) (Some 1)); Live 1 (Arr [Some 7]); Live 1 (Pair (Some 1) (Some 0)); Freed] [3]) /\
  grun Nat.eqb init (some_calls ++ [Leave 3]) = Ok (mkS [Freed; Freed; Freed; Freed; Freed; Freed; Freed; Freed; Freed] []).
Proof. split; [unfold some_calls; follow; allowed_now|]. split; vm_compute; reflexivity. Qed.
Lemma some_removal :
  exists s s', follows also_held Nat.eqb init (firstn 7 some_calls) /\ grun Nat.eqb init (firstn 7 some_calls) = Ok s /\ exists_only s (RemoveEdge 3 1 0 false) /\ gstep Nat.eqb s (RemoveEdge 3 1 0 false) = Ok s' /\ live s' 1 /\
    get_edge Nat.eqb s 3 1 0 = Ok (Some (0, 7)) /\ get_edge Nat.eqb s 3 1 2 = Ok (Some (1, 8)) /\ get_edge Nat.eqb s' 3 1 0 = Ok None /\ get_edge Nat.eqb s' 3 1 2 = Ok (Some (0, 8)).
Proof.
  eexists. eexists. split; [unfold some_calls; cbn [firstn]; follow; allowed_now|]. split; [vm_compute; reflexivity|]. split; [allowed_now|]. split; [vm_compute; reflexivity|]. split; [allowed_now|]. repeat split; vm_compute; reflexivity.
Qed.
Definition two_graphs : list gop := [Vertex; Vertex; Graph; Graph; AddEdge 2 0 1 false; AddEdge 3 0 1 false].
Lemma two_case :
  exists s s1 s2, follows also_held Nat.eqb init two_graphs /\ grun Nat.eqb init two_graphs = Ok s /\ exists_only s (AddEdge 3 1 0 false) /\ gstep Nat.eqb s (AddEdge 3 1 0 false) = Ok s1 /\ is_graph s 3 /\ live s 0 /\ get_edge Nat.eqb s 3 0 1 = Ok (Some (0, 7)) /\ get_edge Nat.eqb s1 3 0 1 = Ok (Some (0, 7)) /\
    exists_only s (RemoveAll 2) /\ gstep Nat.eqb s (RemoveAll 2) = Ok s2 /\ In 3 (hands s) /\ live s2 0 /\ get_edge Nat.eqb s 2 0 1 = Ok (Some (0, 5)) /\ get_edge Nat.eqb s2 2 0 1 = Ok None /\ get_edge Nat.eqb s2 3 0 1 = Ok (Some (0, 7)).
Proof.
  eexists. eexists. eexists. split; [unfold two_graphs; follow; allowed_now|]. split; [vm_compute; reflexivity|]. split; [allowed_now|]. split; [vm_compute; reflexivity|]. split; [allowed_now|]. split; [allowed_now|]. split; [vm_compute; reflexivity|]. split; [vm_compute; reflexivity|].
  split; [allowed_now|]. split; [vm_compute; reflexivity|]. split; [allowed_now|]. split; [allowed_now|]. repeat split; vm_compute; reflexivity.
Qed.
Definition last_edge : list gop := [Vertex; Vertex; Graph; AddEdge 2 0 1 false; Leave 0; Leave 1; RemoveEdge 2 0 1 true].
Lemma unsafe : exists keq os, follows exists_only keq init os /\ grun keq init os = UB.
Proof. exists Nat.eqb, last_edge. split; [unfold last_edge|vm_compute; reflexivity]. repeat match goal with |- follows _ _ _ [] => exact Logic.I | |- follows _ _ _ (_ :: _) => apply follows_cons; [|let s0 := fresh "s" in let E0 := fresh "E" in intros s0 E0; vm_compute in E0; first [discriminate E0|injection E0 as <-]] end; allowed_now. Qed.
