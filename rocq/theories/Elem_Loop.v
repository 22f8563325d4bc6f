(** Proofs about the objects that parsing XML makes: the loop. *)
Require Import Coq.ZArith.ZArith Coq.NArith.NArith Coq.Lists.List Coq.Bool.Bool Coq.Arith.Arith Coq.micromega.Lia.
Require Import Verif.Base Verif.Own_Model Verif.Own_Spec Verif.Own_Proofs Verif.Own_Calls Verif.Own_Ends Verif.Parsed_Model Verif.Parsed_Spec Verif.Parsed_Proofs Verif.Parsed_Steps Verif.Parsed_Shape Verif.Elem_Model Verif.Elem_Spec Verif.Elem_Phase Verif.Elem_Proofs Verif.Elem_Steps Verif.Elem_Events Verif.Elem_Tokens Verif.Elem_Close.
Require Verif.HashTable_Model Verif.XML_Model Verif.JSON_Parse Verif.Stream_Model.
Import ListNotations.

(** After parsing: nothing that was there is changed, and there is one more reference, to a new object. *)
Definition done (base : Own_Model.state) (r : option nat) (s : Own_Model.state) : Prop :=
  Inv s [] /\ below base s /\ up any (next base) s /\ next base <= next s /\ hands s = hands base ++ somes [r] /\ Forall (le (next base)) (somes [r]).
Lemma done_trans s s' r s'' : done s None s' -> done s' r s'' -> done s r s''.
Proof.
  intros (I & B & U & L & H & _) (I' & B' & U' & L' & H' & R'). split; [exact I'|]. split; [intros y Y; rewrite B', B by lia; reflexivity|]. split; [|split; [lia|split; [rewrite H', H; cbn [somes flat_map app]; rewrite app_nil_r; reflexivity|apply Forall_impl with (2 := R'); intros; lia]]].
  intros y n b Y N. split; [|intros; exact Logic.I]. destruct (Nat.lt_ge_cases y (next s')) as [J|J]; [rewrite B' in N by exact J; exact (proj1 (U y n b Y N))|exact (proj1 (U' y n b J N))].
Qed.
Lemma in_one (r : option nat) x : In x (somes [r]) -> r = Some x.
Proof. destruct r; cbn; [intros [->|[]]; reflexivity|intros []]. Qed.
Section Finish.
  Variables base s : Own_Model.state.
  Variable h : list element.
  Variable rs : option nat.
  Variable es : list nat.
  Variables rt av : option nat.
  Variable ks : list (nat * list N).
  Variable ids : nat -> nat.
  Hypothesis IB : Inv base [].
  Hypothesis Hw : W base s h rs es rt av ks ids.
  Lemma root_new x : rt = Some x -> next base < x /\ has s x (parts x).
  Proof.
    intros E. destruct (w_root _ _ _ _ _ _ _ _ _ Hw) as [(_ & _ & Z)|(_ & L & Z)]; [congruence|]. assert (x = ids 0) by congruence. subst x. split; [exact (w_new _ _ _ _ _ _ _ _ _ Hw 0 L)|].
    destruct (nth_error h 0) as [y|] eqn:N; [|apply nth_error_None in N; lia]. exact (proj1 (w_reps _ _ _ _ _ _ _ _ _ Hw 0 y N)).
  Qed.
  Lemma not_old x l : next base <= x -> ~ In x l -> ~ In x (hands base ++ l).
  Proof. intros X L J. apply in_app_or in J. destruct J as [J|J]; [apply (hands_live _ _ IB) in J; lia|exact (L J)]. Qed.
  (** A reference that the parser has is given up. *)
  Lemma give_step s1 l l' r : Inv s1 [] -> up any (next base) s1 -> hands s1 = hands base ++ l ++ somes [r] ++ l' -> (forall x, r = Some x -> next base <= x /\ ~ In x l) ->
    exists s2, give_up s1 r = Ok s2 /\ Inv s2 [] /\ hands s2 = hands base ++ l ++ l' /\ later any (next base) s1 s2.
  Proof.
    intros I U H X. destruct r as [x|]; cbn [give_up]; [|exists s1; split; [reflexivity|]; split; [exact I|]; split; [exact H|apply later_refl, U]]. destruct (X x eq_refl) as (X1 & X2). cbn [somes flat_map app] in H.
    destruct (release_one (fun _ _ => false) any (next base) s1 x I) as (s2 & E & I2 & H2 & T); [rewrite H; apply in_or_app; right; apply in_or_app; right; left; reflexivity|exact X1|exact U|]. exists s2. split; [exact E|]. split; [exact I2|]. split; [|exact T].
    rewrite H2, H, app_assoc, take_mid by (apply not_old; assumption). rewrite <- app_assoc. reflexivity.
  Qed.
  Lemma later_done s1 s2 r : below base s1 -> next base < next s1 -> later any (next base) s1 s2 -> Inv s2 [] -> hands s2 = hands base ++ somes [r] -> Forall (le (next base)) (somes [r]) -> done base r s2.
  Proof. intros B L (T & T' & U) I H R. split; [exact I|]. split; [intros y Y; rewrite T', B by exact Y; reflexivity|]. split; [exact U|]. split; [unfold next in *; lia|]. split; [exact H|exact R]. Qed.
  Lemma accept_ok : exists s1 s2, give_up s (Some (next base)) = Ok s1 /\ give_up s1 av = Ok s2 /\ done base rt s2 /\ forall i el, nth_error h i = Some el -> element_for s2 ids el (ids i).
  Proof.
    pose proof (w_hands _ _ _ _ _ _ _ _ _ Hw) as H.
    destruct (give_step s [] (somes [rt] ++ somes [av]) (Some (next base)) (w_inv _ _ _ _ _ _ _ _ _ Hw) (w_up _ _ _ _ _ _ _ _ _ Hw) H) as (s1 & E1 & I1 & H1 & T1); [intros x Q; injection Q as <-; split; [lia|intros []]|].
    destruct (give_step s1 (somes [rt]) [] av I1 (proj2 (proj2 T1))) as (s2 & E2 & I2 & H2 & T2); [rewrite app_nil_r; exact H1| |].
    { intros v V. destruct (w_at _ _ _ _ _ _ _ _ _ Hw v V) as (V1 & V2 & _). split; [lia|]. intros J. apply in_one in J. destruct (root_new v J) as (_ & Z). pose proof (has_fun _ _ _ _ V2 Z). discriminate. }
    rewrite app_nil_r in H2. assert (Fr: Forall (le (next base)) (somes [rt])) by (apply Forall_forall; intros x X; apply in_one in X; destruct (root_new x X); lia). exists s1, s2. split; [exact E1|]. split; [exact E2|]. split; [exact (later_done s s2 rt (w_below _ _ _ _ _ _ _ _ _ Hw) (w_next _ _ _ _ _ _ _ _ _ Hw) (later_trans _ _ _ _ _ T1 T2) I2 H2 Fr)|].
    pose proof (keeps_trans _ _ _ _ (give_keeps _ _ _ E1) (give_keeps _ _ _ E2)) as K. intros i el N. apply (rep_spec s2 ks). apply (settle (has s) ks ids h s2 I2); [| |apply Hw|apply Hw|exact N].
    - intros y b Hy (m & c & M). destruct (K y m c Logic.I M) as (m' & M'). rewrite (has_fun _ _ _ _ Hy (ex_intro _ m' M')). exists m. exact M.
    - intros L. rewrite H2. destruct (w_root _ _ _ _ _ _ _ _ _ Hw) as [(_ & Z & _)|(_ & _ & ->)]; [rewrite Z in L; cbn in L; lia|]. apply in_or_app. right. left. reflexivity.
  Qed.
  Lemma reject_ok : exists s1 s2 s3, give_up s rt = Ok s1 /\ give_up s1 (Some (next base)) = Ok s2 /\ give_up s2 av = Ok s3 /\ done base None s3.
  Proof.
    pose proof (w_hands _ _ _ _ _ _ _ _ _ Hw) as H.
    destruct (give_step s [next base] (somes [av]) rt (w_inv _ _ _ _ _ _ _ _ _ Hw) (w_up _ _ _ _ _ _ _ _ _ Hw) H) as (s1 & E1 & I1 & H1 & T1); [intros x Q; destruct (root_new x Q); split; [lia|intros [J|[]]; lia]|].
    destruct (give_step s1 [] (somes [av]) (Some (next base)) I1 (proj2 (proj2 T1)) H1) as (s2 & E2 & I2 & H2 & T2); [intros x Q; injection Q as <-; split; [lia|intros []]|].
    destruct (give_step s2 [] [] av I2 (proj2 (proj2 T2))) as (s3 & E3 & I3 & H3 & T3); [rewrite app_nil_r; exact H2|intros v V; destruct (w_at _ _ _ _ _ _ _ _ _ Hw v V) as (V1 & _); split; [lia|intros []]|].
    exists s1, s2, s3. split; [exact E1|]. split; [exact E2|]. split; [exact E3|]. exact (later_done s s3 None (w_below _ _ _ _ _ _ _ _ _ Hw) (w_next _ _ _ _ _ _ _ _ _ Hw) (later_trans _ _ _ _ _ T1 (later_trans _ _ _ _ _ T2 T3)) I3 H3 (Forall_nil _)).
  Qed.
End Finish.

(** ** A token *)
Definition J (base : Own_Model.state) (ps : XML_Model.parsing) (o : objects) (ids : nat -> nat) : Prop :=
  W base (heap o) (XML_Model.heap ps) (XML_Model.root ps) (XML_Model.estack ps) (root o) (value o) (texts o) ids /\ pile o = next base /\
  valued (XML_Model.nextst (XML_Model.parser ps)) = false /\ (if valued (XML_Model.st (XML_Model.parser ps)) then exists v, value o = Some v else value o = None).
Section Loop.
  Variable isspace : Z -> outcome bool.
  Variable report : list N -> list Stream_Model.arg -> outcome unit.
  Lemma token base ps o ids b x r ps' : Inv base [] -> J base ps o ids -> XML_Model.parse_byte (XML_Model.parser ps) b = Ok (x, r) ->
    XML_Model.handle isspace report (XML_Model.mkS x (XML_Model.heap ps) (XML_Model.root ps) (XML_Model.estack ps) (XML_Model.attrvalue ps)) r = Ok (Some ps') ->
    exists o' ids', effect isspace x r o = Ok o' /\ J base ps' o' ids'.
  Proof.
    intros IB (Hw & Pi & Nx & Ph) P E. destruct (byte_phase _ _ _ _ Nx P) as (Nx' & Ph'). destruct ps as [p0 h rs es at0], o as [s pl rt av ks]. cbn [XML_Model.parser XML_Model.heap XML_Model.root XML_Model.estack XML_Model.attrvalue heap root value texts pile] in *. subst pl.
    assert (Err: forall m l, (do _ <- report m l; Ok None) = Ok (Some ps') -> False) by (intros m l Q; apply bind_ok in Q; destruct Q as (? & _ & Q); discriminate).
    assert (Un: forall at1, valued (XML_Model.st x) = valued (XML_Model.st p0) -> J base (XML_Model.mkS x h rs es at1) (mkO s (next base) rt av ks) ids) by (intros at1 Q; split; [exact Hw|]; split; [reflexivity|]; split; [exact Nx'|]; cbn [XML_Model.parser value]; rewrite Q; exact Ph).
    destruct r; cbn [XML_Model.handle effect XML_Model.parser XML_Model.heap XML_Model.root XML_Model.estack XML_Model.attrvalue heap root value texts pile] in *; try (exfalso; exact (Err _ _ E)).
    - injection E as <-. eexists. exists ids. split; [reflexivity|]. apply Un, Ph'.
    - destruct Ph' as (Q1 & Q2). rewrite Q1 in Ph. subst av. apply bind_ok in E. destruct E as (n & _ & E). destruct rs as [r0|].
      + apply bind_ok in E. destruct E as ((p & el) & T & E). apply top_split in T. cbn [XML_Model.estack XML_Model.heap] in T. destruct T as (es0 & -> & Np). cbn [fst snd] in E. injection E as <-.
        destruct (w_root _ _ _ _ _ _ _ _ _ Hw) as [(Z & _)|(Z & Z1 & ->)]; [discriminate|]. destruct (child_step base s h es0 p el r0 ks ids n Hw Np) as (s1 & s2 & s3 & E0 & E1 & E2 & E3 & W3). rewrite E0. cbn [obind]. rewrite E1. cbn [obind]. rewrite E2. cbn [obind]. rewrite E3. cbn [obind].
        eexists. eexists. split; [reflexivity|]. split; [exact W3|]. split; [reflexivity|]. split; [exact Nx'|]. cbn [XML_Model.parser value]. rewrite Q2. reflexivity.
      + injection E as <-. destruct (w_root _ _ _ _ _ _ _ _ _ Hw) as [(_ & _ & ->)|(Z & _)]; [|discriminate]. destruct (first_step base s h es n ks ids Hw) as (s1 & E1 & W1). rewrite E1. cbn [obind].
        eexists. eexists. split; [reflexivity|]. split; [exact W1|]. split; [reflexivity|]. split; [exact Nx'|]. cbn [XML_Model.parser value]. rewrite Q2. reflexivity.
    - apply bind_ok in E. destruct E as ((p & el) & T & E). apply top_split in T. cbn [XML_Model.estack XML_Model.heap] in T. destruct T as (es0 & -> & Np). cbn [fst snd] in E. apply bind_ok in E. destruct E as (els & T & E). injection E as <-.
      destruct (content_step isspace base s h rs es0 rt av ks ids p el els _ Hw Np T) as (s1 & E1 & W1). pose proof (w_pile _ _ _ _ _ _ _ _ _ Hw) as Pl. rewrite map_app in Pl. rewrite (proj2 (part_has _ _ _ _ Pl (proj1 (w_reps _ _ _ _ _ _ _ _ _ Hw p el Np)))). cbn [obind]. rewrite E1. cbn [obind].
      eexists. exists ids. split; [reflexivity|]. split; [exact W1|]. split; [reflexivity|]. split; [exact Nx'|]. cbn [XML_Model.set_heap XML_Model.parser value]. rewrite Ph'. exact Ph.
    - injection E as <-. destruct (end_step base s h rs es rt av ks ids Hw) as (s1 & E1 & W1). rewrite E1. cbn [obind]. eexists. exists ids. split; [reflexivity|]. split; [exact W1|]. split; [reflexivity|]. split; [exact Nx'|]. cbn [XML_Model.parser value]. rewrite Ph'. exact Ph.
    - injection E as <-. destruct Ph' as (Q1 & Q2). rewrite Q1 in Ph. subst av. eexists. exists ids. split; [reflexivity|]. split; [exact (attr_start _ _ _ _ _ _ _ _ Hw)|]. split; [reflexivity|]. split; [exact Nx'|]. cbn [XML_Model.parser value]. rewrite Q2. eauto.
    - apply bind_ok in E. destruct E as (d & _ & E). injection E as <-. eexists. exists ids. split; [reflexivity|]. apply Un, Ph'.
    - destruct Ph' as (Q1 & Q2). rewrite Q1 in Ph. destruct Ph as (v & ->). apply bind_ok in E. destruct E as ((p & el) & T & E). apply top_split in T. cbn [XML_Model.estack XML_Model.heap] in T. destruct T as (es0 & -> & Np). cbn [fst snd] in E. apply bind_ok in E. destruct E as (n & En & E). destruct at0 as [t|]; [|discriminate]. injection E as <-.
      destruct (attr_end base s h rs es0 rt v ks ids p el n t IB Hw Np) as (s1 & s2 & s3 & E0 & E1 & E2 & E3 & W3). rewrite E0. cbn [obind]. rewrite En. cbn [obind]. rewrite E1. cbn [obind]. rewrite E2. cbn [obind]. rewrite E3. cbn [obind].
      eexists. exists ids. split; [reflexivity|]. split; [exact W3|]. split; [reflexivity|]. split; [exact Nx'|]. cbn [XML_Model.parser value]. rewrite Q2. reflexivity.
    - injection E as <-. eexists. exists ids. split; [reflexivity|]. apply Un, Ph'.
    - injection E as <-. eexists. exists ids. split; [reflexivity|]. apply Un, Ph'.
    - injection E as <-. eexists. exists ids. split; [reflexivity|]. apply Un, Ph'.
  Qed.

  (** ** The loop *)
  Definition comes (base : Own_Model.state) (a : XML_Model.attempt) (r : option nat) (s : Own_Model.state) : Prop :=
    done base r s /\ match a with XML_Model.Parsed h e => exists ids, r = Some (ids e) /\ forall i el, nth_error h i = Some el -> element_for s ids el (ids i) | _ => r = None end.
  Lemma finish_ok base ps o ids a : Inv base [] -> J base ps o ids ->
    (match XML_Model.eof (XML_Model.parser ps) with
     | XML_Model.OK => match XML_Model.root ps with Some e => Ok (XML_Model.Parsed (XML_Model.heap ps) e) | None => Ok XML_Model.Rejected end
     | _ => do _ <- report XML_Model.text_of_incomplete []; Ok XML_Model.Rejected
     end) = Ok a ->
    exists r s, (match XML_Model.eof (XML_Model.parser ps) with
     | XML_Model.OK => do h <- accept o; Ok (match XML_Model.root ps with Some e => XML_Model.Parsed (XML_Model.heap ps) e | None => XML_Model.Rejected end, root o, h)
     | _ => do _ <- report XML_Model.text_of_incomplete []; do h <- reject o; Ok (XML_Model.Rejected, None, h)
     end) = Ok (a, r, s) /\ comes base a r s.
  Proof.
    intros IB (Hw & Pi & _) E. destruct (accept_ok _ _ _ _ _ _ _ _ _ IB Hw) as (s1 & s2 & E1 & E2 & D & El). destruct (reject_ok _ _ _ _ _ _ _ _ _ IB Hw) as (t1 & t2 & t3 & T1 & T2 & T3 & D').
    assert (Ra: accept o = Ok s2) by (unfold accept; rewrite Pi, E1; exact E2). assert (Rr: reject o = Ok t3) by (unfold reject; rewrite T1; cbn [obind]; rewrite Pi, T2; exact T3).
    assert (Rj: (do _ <- report XML_Model.text_of_incomplete []; Ok XML_Model.Rejected) = Ok a -> exists r s, (do _ <- report XML_Model.text_of_incomplete []; do h <- reject o; Ok (XML_Model.Rejected, None, h)) = Ok (a, r, s) /\ comes base a r s).
    { intros Q. apply bind_ok in Q. destruct Q as (u & Q & Q'). injection Q' as <-. rewrite Q. cbn [obind]. rewrite Rr. cbn [obind]. exists None, t3. split; [reflexivity|]. split; [exact D'|reflexivity]. }
    destruct (XML_Model.eof (XML_Model.parser ps)); try exact (Rj E). rewrite Ra. cbn [obind]. exists (root o), s2. destruct (w_root _ _ _ _ _ _ _ _ _ Hw) as [(Z & _ & Z')|(Z & _ & Z')]; rewrite Z in *; injection E as <-; (split; [reflexivity|]); (split; [exact D|]).
    - exact Z'.
    - exists ids. split; [exact Z'|exact El].
  Qed.
  Lemma loop_ok base : Inv base [] -> forall text ps o ids a, J base ps o ids -> XML_Model.loop isspace report ps text = Ok a -> exists r s, loop isspace report ps o text = Ok (a, r, s) /\ comes base a r s.
  Proof.
    intros IB. induction text as [|b text IH]; intros ps o ids a Hj E; cbn [XML_Model.loop loop] in *; cbv zeta in *; [exact (finish_ok base ps o ids a IB Hj E)|]. destruct (b =? 0)%N; [exact (finish_ok base ps o ids a IB Hj E)|].
    apply bind_ok in E. destruct E as ((x & r) & P & E). rewrite P. cbn [obind fst snd] in *. apply bind_ok in E. destruct E as (ps' & Hd & E). rewrite Hd. cbn [obind]. destruct ps' as [ps'|].
    - destruct (token base ps o ids b x r ps' IB Hj P Hd) as (o' & ids' & Ef & Hj'). rewrite Ef. cbn [obind]. exact (IH ps' o' ids' a Hj' E).
    - injection E as <-. destruct Hj as (Hw & Pi & _). destruct (reject_ok _ _ _ _ _ _ _ _ _ IB Hw) as (t1 & t2 & t3 & T1 & T2 & T3 & D'). assert (Rr: reject o = Ok t3) by (unfold reject; rewrite T1; cbn [obind]; rewrite Pi, T2; exact T3).
      rewrite Rr. cbn [obind]. exists None, t3. split; [reflexivity|]. split; [exact D'|]. destruct r; reflexivity.
  Qed.
  Lemma try_ok base text size a : Inv base [] -> XML_Model.try_parse isspace report text size = Ok a -> exists r s, try_parse isspace report text size base = Ok (a, r, s) /\ comes base a r s.
  Proof.
    intros IB E. unfold XML_Model.try_parse in E. apply bind_ok in E. destruct E as (x & Ix & E). unfold try_parse. rewrite Ix. cbn [obind]. unfold XML_Model.init in Ix. apply bind_ok in Ix. destruct Ix as (q & _ & Ix). injection Ix as Ix.
    refine (loop_ok base IB text _ _ (fun _ => 0) a _ E). destruct (make_ok (Arr []) base eq_refl IB) as (I0 & L0 & B0 & H0 & N0). split; [|split; [reflexivity|rewrite <- Ix; split; reflexivity]]. cbn [heap root value texts XML_Model.heap XML_Model.root XML_Model.estack].
    constructor; try assumption.
    - apply make_up; [reflexivity|exact Logic.I].
    - lia.
    - exists 1. exact N0.
    - left. auto.
    - cbn. intros. lia.
    - cbn. intros. lia.
    - constructor.
    - intros i Hi Hi'. cbn in Hi'. lia.
    - intros [|i] el j Z; discriminate.
    - intros [|i] el Z; discriminate.
    - discriminate.
  Qed.
  Lemma done_inv base r s : done base r s -> Inv s [].
  Proof. intros (I & _). exact I. Qed.
  Lemma sizes_ok text : forall fuel size base v, Inv base [] -> XML_Model.parse_sizes isspace report fuel text size = Ok v -> exists r s, parse_sizes isspace report fuel text size base = Ok (v, r, s) /\ done base r s /\
    match v with Some (h, e) => exists ids, r = Some (ids e) /\ forall i el, nth_error h i = Some el -> element_for s ids el (ids i) | None => r = None end.
  Proof.
    induction fuel as [|fuel IH]; intros size base v IB E; cbn [XML_Model.parse_sizes parse_sizes] in *; [discriminate|]. apply bind_ok in E. destruct E as (a & Ta & E). destruct (try_ok base text size a IB Ta) as (r & s & Tr & (D & C)). rewrite Tr. cbn [obind]. destruct a as [h e| |].
    - injection E as <-. exists r, s. split; [reflexivity|]. split; [exact D|exact C].
    - injection E as <-. exists r, s. split; [reflexivity|]. split; [exact D|exact C].
    - subst r. destruct (IH (2 * size) s v (done_inv _ _ _ D) E) as (r & s' & E' & D' & C'). exists r, s'. split; [exact E'|]. split; [exact (done_trans _ _ _ _ D D')|exact C'].
  Qed.
  Lemma parse_ok fuel text base v : Inv base [] -> XML_Model.parse isspace report fuel text = Ok v -> exists r s, parse isspace report fuel text base = Ok (v, r, s) /\ done base r s /\
    match v with Some (h, e) => exists ids, r = Some (ids e) /\ forall i el, nth_error h i = Some el -> element_for s ids el (ids i) | None => r = None end.
  Proof.
    intros IB E. unfold XML_Model.parse in E. unfold parse. destruct text as [|b text]; [|exact (sizes_ok _ fuel _ base v IB E)]. injection E as <-. exists None, base. split; [reflexivity|]. split; [|reflexivity].
    split; [exact IB|]. split; [intros y Y; reflexivity|]. split; [|split; [lia|split; [cbn; rewrite app_nil_r; reflexivity|constructor]]]. intros y n c Y N. exfalso. apply nth_len in N. unfold next in Y. lia.
  Qed.
End Loop.
