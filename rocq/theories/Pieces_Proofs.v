(** Proofs about the objects that splitting strings makes. *)
Require Import Coq.NArith.NArith Coq.Lists.List Coq.Bool.Bool Coq.Arith.Arith Coq.micromega.Lia.
Require Import Verif.Base Verif.JSON_Model Verif.Own_Model Verif.Own_Spec Verif.Own_Proofs Verif.Own_Calls Verif.Own_Ends Verif.Parsed_Model Verif.Parsed_Spec Verif.Parsed_Proofs Verif.Parsed_Steps Verif.Parsed_Shape Verif.Parsed_Ends Verif.Pieces_Spec.
Require Verif.HashTable_Model Verif.JSON_Parse Verif.String_Model Verif.Query_Model Verif.Pieces_Model.
Import ListNotations.

(** ** Lists of pieces *)
Definition strings (s : state) (a : nat) (l : list (list N)) : Prop := exists n rs, nth_error (cells s) a = Some (Live n (Arr rs)) /\ Forall2 (fun _ r => exists x, r = Some x /\ leaf s x) l rs.
Lemma f2_snoc {A B} (P : A -> B -> Prop) l l' a b : Forall2 P l l' -> P a b -> Forall2 P (l ++ [a]) (l' ++ [b]).
Proof. intros F H. apply Forall2_app; [exact F|]. constructor; [exact H|constructor]. Qed.
Lemma f2_in {A B} (P Q : A -> B -> Prop) l l' : Forall2 P l l' -> (forall a b, In b l' -> P a b -> Q a b) -> Forall2 Q l l'.
Proof. intros F. induction F as [|a b l l' H F IH]; intros X; constructor; [apply X; [left; reflexivity|exact H]|]. apply IH. intros a' b' I'. apply X. right. exact I'. Qed.
Lemma pieces_ok base : Inv base [] -> forall l done s, inside is_arr base [] s -> strings s (next base) done -> exists s', Pieces_Model.pieces l (next base) s = Ok s' /\ inside is_arr base [] s' /\ strings s' (next base) (done ++ l).
Proof.
  intros IB. induction l as [|c l IH]; intros done s D Hs; cbn [Pieces_Model.pieces]; [exists s; rewrite app_nil_r; auto|]. pose proof D as (I & L & _).
  destruct (inner is_arr base [] s (RVal JNull (Some (next s))) (make s Leaf) D (make_good JNull Leaf s eq_refl I)) as (D1 & R1). cbn [refs app] in *. destruct (make_ok Leaf s eq_refl I) as (_ & _ & B0 & _ & N0).
  destruct (append_step base (Some (next s)) (make s Leaf) IB R1 D1) as (s2 & E2 & D2). rewrite E2. cbn [obind]. destruct (give_ok is_arr base (Some (next s)) [] s2 IB R1) as (s3 & E3 & D3); [rewrite app_nil_r; exact D2|]. rewrite E3. cbn [obind].
  destruct (IH (done ++ [c]) s3 D3) as (s4 & E4 & D4 & S4); [|exists s4; split; [exact E4|]; split; [exact D4|]; rewrite <- app_assoc in S4; exact S4].
  destruct Hs as (n & rs & HN & F). rewrite <- B0 in HN by exact L. destruct (append_cells _ _ _ _ _ _ HN E2) as (K2 & m & M2). pose proof (give_keeps _ _ _ E3) as K3. destruct (kind_of _ _ _ _ D3) as (m3 & b3 & M3 & _). destruct (K3 _ _ _ Logic.I M3) as (m2 & M2'). rewrite M2 in M2'. injection M2' as _ <-.
  exists m3, (rs ++ [Some (next s)]). split; [exact M3|]. pose proof D3 as (I3 & _). pose proof (keeps_trans _ _ _ _ K2 (other_every _ _ _ K3)) as K.
  assert (Lf: forall x, next base < x -> In (Some x) (rs ++ [Some (next s)]) -> leaf (make s Leaf) x -> leaf s3 x).
  { intros x X Ix (q & Q). destruct (members_live s3 _ _ _ x I3 M3 (in_somes _ _ Ix)) as (k & b & Z). destruct (K x k b) with (2 := Z) as (k' & Z'); [unfold other; lia|]. rewrite Q in Z'. injection Z' as _ <-. exists k. exact Z. }
  pose proof (proj1 (proj1 (proj2 (proj2 (proj2 D3))) _ _ _ (Nat.le_refl _) M3)) as Up. cbn [members] in Up. rewrite Forall_forall in Up.
  assert (G: forall x, In (Some x) (rs ++ [Some (next s)]) -> leaf (make s Leaf) x -> leaf s3 x) by (intros x Ix Q; apply Lf; [apply Up, in_somes, Ix|exact Ix|exact Q]).
  apply f2_snoc; [|exists (next s); split; [reflexivity|]; apply G; [apply in_or_app; right; left; reflexivity|exists 1; exact N0]].
  refine (f2_in _ _ _ _ F _). intros a r Ir (x & -> & q & Q). exists x. split; [reflexivity|]. apply G; [apply in_or_app; left; exact Ir|exists q; rewrite B0; [exact Q|exact (nth_len _ _ _ Q)]].
Qed.
Lemma split_ok text sep l s : Inv s [] -> String_Model.split text sep = Ok l -> exists s', Pieces_Model.split text sep s = Ok (l, next s, s') /\ good s (RVal JNull (Some (next s))) s' /\ strings s' (next s) l.
Proof.
  intros I E. unfold Pieces_Model.split. rewrite E. cbn [obind]. assert (D: inside is_arr s [] (make s (Arr []))) by (apply make_inside; [reflexivity|exists []; reflexivity|exact I]).
  destruct (pieces_ok s I l [] _ D) as (s' & E' & D' & S').
  - exists 1, []. split; [exact (proj2 (proj2 (proj2 (proj2 (make_ok (Arr []) s eq_refl I)))))|constructor].
  - rewrite E'. cbn [obind]. exists s'. split; [reflexivity|]. split; [exact (finished _ _ _ _ D')|exact S'].
Qed.

(** ** Dictionaries of parameters *)
Definition val (o : option (list N)) : json := match o with Some t => JStr t | None => JNull end.
Definition shown (p : list N * option (list N)) : list N * json := (fst p, val (snd p)).
Lemma fresh_for base K s ks l k : inside is_hash base K s -> hash_for base s ks l -> hash_for base (make s Leaf) ((next s, k) :: ks) l.
Proof.
  intros D Hf. pose proof D as (I & L & _). destruct (make_ok Leaf s eq_refl I) as (_ & _ & B0 & _ & _). destruct (hash_mono base s _ ks l B0 L Hf) as (n & es & HN & A). exists n, es. split; [exact HN|].
  destruct Hf as (n0 & es0 & N0' & A0). assert (es0 = es) by (rewrite B0 in HN by exact L; rewrite HN in N0'; congruence). subst es0. clear - A A0. revert A. induction A0 as [|p e l es (_ & (q & Q) & _) A0 IH]; intros A; [constructor|].
  inversion A as [|? ? ? ? (T1 & T2 & T3) A']; subst. constructor; [|exact (IH A')]. split; [|split; assumption]. rewrite text_fresh; [exact T1|]. apply nth_len in Q. unfold next. lia.
Qed.
Lemma put_for base K s ks l k x v r : Inv base [] -> inside is_hash base K s -> hash_for base s ((x, k) :: ks) l -> leaf s x -> stands_for s v r -> In x K -> next base < x -> ref_in (fun y => In y K /\ next base < y) r ->
  exists s', put (key_eq ((x, k) :: ks)) s (next base) x r HashTable_Model.InsertAlways = Ok s' /\ inside is_hash base K s' /\ hash_for base s' ((x, k) :: ks) (dict_set l k v).
Proof.
  intros IB D (n & es & HN & A) Lx Sr Ix X Ir. pose proof D as (I & L & B & U & H).
  destruct (put_fine (key_eq ((x, k) :: ks)) s (next base) n es x r I HN) as (s1 & E1 & I1 & H1 & T1).
  - rewrite H. apply in_or_app. right. left. reflexivity.
  - rewrite H. apply in_or_app. right. right. exact Ix.
  - destruct r as [y|]; [|exact Logic.I]. cbn [ref_in]. red. rewrite H. apply in_or_app. right. right. exact (proj1 Ir).
  - exact X.
  - destruct r as [y|]; [exact (proj2 Ir)|exact Logic.I].
  - exact U.
  - pose proof (later_inside is_hash base _ _ _ s1 D I1 (eq_trans H1 H) T1) as D1. exists s1. split; [exact E1|]. split; [exact D1|].
    destruct (kind_of _ _ _ _ D1) as (m & b & M & _). destruct (put_cells _ _ _ _ _ _ _ _ HN (ex_intro _ m (ex_intro _ b M)) E1) as (K1 & m1 & M1). rewrite M in M1. injection M1 as _ ->. eexists m, _. split; [exact M|].
    pose proof (own_members _ _ _ _ _ _ D1 M) as F. cbn [members] in F. pose proof D1 as (_ & _ & _ & U1 & _).
    apply (entries_frame is_hash (next base) s s1 _ _ _ I1 U1) with (3 := F); [exact (lt_other _ _ _ K1)|].
    apply entered_for; [cbn [text_of]; rewrite Nat.eqb_refl; reflexivity| |exact A| |].
    + clear - A. induction A as [|p e l es (T1 & _) A IH]; [constructor|]. constructor; [exact T1|exact IH].
    + intros p e (T1' & T2 & _) _. split; [exact T1'|]. split; [exact T2|exact Sr].
    + split; [cbn [text_of fst]; rewrite Nat.eqb_refl; reflexivity|]. split; [exact Lx|exact Sr].
Qed.
Section Query.
  Variable fuel : nat.
  Lemma pair_ok base c p K s ks l : Inv base [] -> inside is_hash base K s -> hash_for base s ks l -> Query_Model.query_pair fuel c = Ok p ->
    exists K' s' ks', Pieces_Model.pair fuel (next base) c s ks = Ok (s', ks') /\ inside is_hash base (K ++ K') s' /\ Forall (lt (next base)) K' /\ hash_for base s' ks' (dict_set l (fst p) (val (snd p))).
  Proof.
    intros IB D Hf E. unfold Query_Model.query_pair in E. apply bind_ok in E. destruct E as (ps & Es & E). pose proof D as (I & L & _).
    destruct (split_ok _ _ _ s I Es) as (s1 & E1 & G1 & _). destruct (inner _ _ _ _ _ _ D G1) as (D1 & R1). cbn [refs somes app] in D1, R1. assert (R1': next base < next s) by (inversion R1; assumption). unfold Pieces_Model.pair. rewrite E1. cbn [obind]. assert (Hf1: hash_for base s1 ks l) by (apply (hash_mono base s); [apply G1|exact L|exact Hf]).
    destruct ps as [|k ps]; [discriminate|]. apply bind_ok in E. destruct E as (key & Ek & E). rewrite Ek. cbn [obind]. cbv zeta. pose proof D1 as (I1 & L1 & _).
    pose proof (fresh_for base _ s1 ks l key D1 Hf1) as Hf2. destruct (inner _ _ _ _ _ _ D1 (make_good JNull Leaf s1 eq_refl I1)) as (D2 & _). cbn [refs somes app] in D2. destruct (make_ok Leaf s1 eq_refl I1) as (I2 & L2 & B2 & H2 & N2).
    destruct ps as [|v ps].
    - injection E as <-. destruct (put_for base _ (make s1 Leaf) ks l key (next s1) JNull None IB D2 Hf2) as (s3 & E3 & D3 & Hf3); [exists 1; exact N2|reflexivity|apply in_or_app; right; left; reflexivity|exact L1|exact Logic.I|].
      cbv [Pieces_Model.split] in *. rewrite E3. cbn [obind]. exists [next s; next s1], s3, ((next s1, key) :: ks). split; [reflexivity|]. split; [rewrite <- app_assoc in D3; exact D3|]. split; [repeat (apply Forall_cons; [lia|]); apply Forall_nil|exact Hf3].
    - apply bind_ok in E. destruct E as (value & Ev & E). injection E as <-. rewrite Ev. cbn [obind].
      destruct (inner _ _ _ _ _ _ D2 (make_good JNull Leaf (make s1 Leaf) eq_refl I2)) as (D3 & _). cbn [refs somes app] in D3. destruct (make_ok Leaf (make s1 Leaf) eq_refl I2) as (I3 & L3 & B3 & H3 & N3).
      destruct (put_for base _ (make (make s1 Leaf) Leaf) ks l key (next s1) (JStr value) (Some (next (make s1 Leaf))) IB D3) as (s4 & E4 & D4 & Hf4).
      + apply (hash_mono base (make s1 Leaf)); [exact B3|lia|exact Hf2].
      + exists 1. rewrite B3 by lia. exact N2.
      + exists (next (make s1 Leaf)). split; [reflexivity|]. exists 1. exact N3.
      + apply in_or_app. left. apply in_or_app. right. left. reflexivity.
      + exact L1.
      + split; [apply in_or_app; right; left; reflexivity|lia].
      + rewrite E4. cbn [obind]. exists [next s; next s1; next (make s1 Leaf)], s4, ((next s1, key) :: ks). split; [reflexivity|]. split; [rewrite <- !app_assoc in D4; exact D4|]. split; [repeat (apply Forall_cons; [lia|]); apply Forall_nil|exact Hf4].
  Qed.
  Lemma pairs_ok base : Inv base [] -> forall cs ps K s ks l, inside is_hash base K s -> hash_for base s ks l -> Query_Model.query_pairs fuel cs = Ok ps ->
    exists K' s' ks', Pieces_Model.pairs fuel (next base) cs s ks = Ok (s', ks') /\ inside is_hash base (K ++ K') s' /\ Forall (lt (next base)) K' /\ hash_for base s' ks' (fold_left (fun l p => dict_set l (fst p) (val (snd p))) ps l).
  Proof.
    intros IB. induction cs as [|c cs IH]; intros ps K s ks l D Hf E; cbn [Query_Model.query_pairs Pieces_Model.pairs] in *.
    - injection E as <-. exists [], s, ks. rewrite app_nil_r. repeat (split; [try reflexivity; try assumption|]); [constructor|exact Hf].
    - apply bind_ok in E. destruct E as (p & Ep & E). apply bind_ok in E. destruct E as (ps' & Eps & E). injection E as <-.
      destruct (pair_ok base c p K s ks l IB D Hf Ep) as (K1 & s1 & ks1 & E1 & D1 & F1 & Hf1). rewrite E1. cbn [obind fst snd].
      destruct (IH ps' _ s1 ks1 _ D1 Hf1 Eps) as (K2 & s2 & ks2 & E2 & D2 & F2 & Hf2). exists (K1 ++ K2), s2, ks2. split; [exact E2|]. split; [rewrite app_assoc; exact D2|]. split; [apply Forall_app; auto|exact Hf2].
  Qed.
  Lemma query_ok text ps s : Inv s [] -> Query_Model.split_query fuel text = Ok (Some ps) ->
    exists K s' ks, Pieces_Model.split_query fuel text s = Ok (Some (next s), s') /\ inside is_hash s K s' /\ Forall (lt (next s)) K /\ hash_for s s' ks (fold_left (fun l p => dict_set l (fst p) (val (snd p))) ps []).
  Proof.
    intros I E. destruct text as [|t text]; [discriminate|]. unfold Query_Model.split_query in E. apply bind_ok in E. destruct E as (cs & Ec & E). apply bind_ok in E. destruct E as (ps' & Ep & E). injection E as ->.
    unfold Pieces_Model.split_query. cbv zeta. assert (D: inside is_hash s [] (make s (Hash []))) by (apply make_inside; [reflexivity|exists []; reflexivity|exact I]). pose proof D as (I0 & L0 & _). destruct (make_ok (Hash []) s eq_refl I) as (_ & _ & _ & _ & N0).
    destruct (split_ok _ _ _ (make s (Hash [])) I0 Ec) as (s1 & E1 & G1 & _). destruct (inner _ _ _ _ _ _ D G1) as (D1 & R1). rewrite E1. cbn [obind].
    destruct (pairs_ok s I cs ps _ s1 [] [] D1) with (2 := Ep) as (K2 & s2 & ks2 & E2 & D2 & F2 & Hf2).
    - apply (hash_mono s (make s (Hash []))); [apply G1|exact L0|]. exists 1, []. split; [exact N0|constructor].
    - rewrite E2. cbn [obind fst]. exists ([] ++ refs (RVal JNull (Some (next (make s (Hash []))))) ++ K2), s2, ks2. split; [reflexivity|]. split; [exact D2|]. split; [|exact Hf2]. cbn [app]. apply Forall_app. split; [exact R1|exact F2].
  Qed.
End Query.
