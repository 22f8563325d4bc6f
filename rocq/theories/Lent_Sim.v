(** Proofs about lent memory: the model follows the specification. *)
Require Import Coq.Arith.Arith Coq.ZArith.ZArith Coq.NArith.NArith Coq.Lists.List Coq.Bool.Bool Coq.micromega.Lia.
Require Import Verif.Base Verif.Lent_Model Verif.Lent_Spec Verif.Lent_Proofs.
Require Verif.String_Model Verif.StrObj_Spec.
Import ListNotations.

(** ** Text *)
Lemma cut_stop l r : cut (l ++ 0%N :: r) = cut l.
Proof. induction l as [|b l IH]; [reflexivity|]. unfold cut in *. cbn [app StrObj_Spec.cut]. destruct (b =? 0)%N; [reflexivity|]. now rewrite IH. Qed.
Lemma cut_le l : length (cut l) <= length l.
Proof. induction l as [|b l IH]; [cbn; lia|]. unfold cut in *. cbn [StrObj_Spec.cut]. destruct (b =? 0)%N; cbn [length]; lia. Qed.
Lemma cut_first l : firstn (length (cut l)) l = cut l.
Proof. induction l as [|b l IH]; [reflexivity|]. unfold cut in *. cbn [StrObj_Spec.cut]. destruct (b =? 0)%N; [reflexivity|]. cbn [length firstn]. now rewrite IH. Qed.
Lemma cut_cut l : cut (cut l) = cut l.
Proof. induction l as [|b l IH]; [reflexivity|]. unfold cut in *. cbn [StrObj_Spec.cut]. destruct (b =? 0)%N eqn:E; [reflexivity|]. cbn [StrObj_Spec.cut]. rewrite E. now rewrite IH. Qed.
Lemma strhash_any l r : String_Model.strhash (l ++ 0%N :: r) = Ok (poly (cut l)).
Proof.
  assert (G : forall h, String_Model.strhash_loop (l ++ 0%N :: r) h = Ok (fold_left (fun h b => (31 * h + (if b <? 128 then b else b + (2^64 - 256))) mod 2^64)%N (cut l) h)); [|exact (G 0%N)].
  induction l as [|b l IH]; intros h; [reflexivity|]. unfold cut in *. cbn [app String_Model.strhash_loop StrObj_Spec.cut]. destruct (b =? 0)%N; [reflexivity|]. rewrite IH. reflexivity.
Qed.
Lemma strlen_any l r : strlen (l ++ 0%N :: r) = Ok (length (cut l)).
Proof. induction l as [|b l IH]; [reflexivity|]. unfold cut in *. cbn [app strlen StrObj_Spec.cut]. destruct (b =? 0)%N; [reflexivity|]. rewrite IH. reflexivity. Qed.
Definition same (t u : list N) : bool := if list_eq_dec N.eq_dec t u then true else false.
Lemma same_nil_cons x u : same [] (x :: u) = false.
Proof. unfold same. destruct (list_eq_dec _ _ _); [discriminate|reflexivity]. Qed.
Lemma same_cons_nil x u : same (x :: u) [] = false.
Proof. unfold same. destruct (list_eq_dec _ _ _); [discriminate|reflexivity]. Qed.
Lemma same_cons x t u : same (x :: t) (x :: u) = same t u.
Proof. unfold same. destruct (list_eq_dec _ (x :: t) _), (list_eq_dec _ t u); try reflexivity; congruence. Qed.
Lemma same_ne x y t u : x <> y -> same (x :: t) (y :: u) = false.
Proof. unfold same. intros H. destruct (list_eq_dec _ _ _); [congruence|reflexivity]. Qed.
Lemma same_refl t : same t t = true.
Proof. unfold same. destruct (list_eq_dec _ _ _); congruence. Qed.
Lemma same_cstr_any l r l' r' : same_cstr (l ++ 0%N :: r) (l' ++ 0%N :: r') = Ok (same (cut l) (cut l')).
Proof.
  revert l'. induction l as [|x l IH]; intros [|y l']; unfold cut in *; cbn [app same_cstr StrObj_Spec.cut].
  - reflexivity.
  - destruct (N.eqb_spec 0 y) as [<-|E]; [reflexivity|]. destruct (N.eqb_spec y 0) as [->|E']; [congruence|]. now rewrite same_nil_cons.
  - destruct (N.eqb_spec x 0) as [->|E]; [reflexivity|]. now rewrite same_cons_nil.
  - destruct (N.eqb_spec x y) as [<-|E].
    + destruct (x =? 0)%N; [reflexivity|]. rewrite same_cons. apply IH.
    + destruct (N.eqb_spec x 0) as [->|E1], (N.eqb_spec y 0) as [->|E2]; try congruence; [now rewrite same_nil_cons|now rewrite same_cons_nil|now rewrite same_ne].
Qed.

(** ** The invariant *)
Definition rep (strict : bool) (h : heap) (ln : list nat) (s : spec) (x : obj) (y : sobj) : Prop :=
  class x = scls y /\
  match sbody y with
  | Shows k n => exists b, nth_error ln k = Some b /\ arr x = init_external (PBlk b) n /\ extra x = None /\ mutable (scls y) = false /\
      forall c, buffer s k = Some c -> n <= length c /\ (strict = true -> is_string (scls y) = true -> n = length (cut c))
  | Has bs => (holds h (arr x) bs /\ extra x = None) \/
      exists b, arr x = init_external (PBlk b) (length bs) /\ nth_error h b = Some (mkB true (Some (bs ++ zeros))) /\ extra x = Some b /\ mutable (scls y) = false
  end /\
  (strict = true -> is_string (scls y) = true -> hash x = 0%N \/ hashed y = true /\ forall t, text s y = Some t -> hash x = poly t).
Definition owns (x : obj) : option nat := match extra x with Some b => Some b | None => if (0 <? maxl (arr x))%Z then block_of (arr x) else None end.
Definition look (m : state) (o : nat) : option obj := match nth_error (objs m) o with Some x => x | None => None end.
Definition lends (h : heap) (ln : list nat) (s : spec) : Prop :=
  length ln = length (bufs s) /\ NoDup ln /\ forall k b, nth_error ln k = Some b -> nth_error h b = Some (mkB false (option_map (fun c => c ++ [0%N]) (buffer s k))).
Record inv (strict : bool) (m : state) (s : spec) : Prop := mkInv {
  i_lends : lends (hp m) (lent m) s;
  i_len : length (objs m) = length (sobjs s);
  i_rep : forall o, match look m o, object s o with Some x, Some y => rep strict (hp m) (lent m) s x y | None, None => True | _, _ => False end;
  i_dis : forall i j x y b, look m i = Some x -> look m j = Some y -> owns x = Some b -> owns y = Some b -> i = j;
  i_kept : forall b d, nth_error (hp m) b = Some (mkB true (Some d)) -> exists o x, look m o = Some x /\ owns x = Some b }.

Lemma rep_owns strict h ln s x y b : rep strict h ln s x y -> owns x = Some b -> exists d, nth_error h b = Some (mkB true (Some d)).
Proof.
  intros (_ & R & _) O. unfold owns in O. destruct (sbody y) as [k n|bs].
  - destruct R as (c & _ & A & E & _). rewrite E, A in O. cbn in O. discriminate O.
  - destruct R as [(H & E)|(c & A & B & E & _)]; rewrite E in O.
    + destruct H as [(A & _)|(c & m & j & A & B & M & _)]; rewrite A in O; cbn in O; [discriminate O|]. apply Z.ltb_lt in M. rewrite M in O. injection O as <-. eauto.
    + injection O as <-. eauto.
Qed.
(** An object is untouched by what happens elsewhere. *)
Lemma rep_frame strict h ln s h' ln' s' x y : rep strict h ln s x y ->
  (forall k b, nth_error ln k = Some b -> nth_error ln' k = Some b) ->
  (forall b, owns x = Some b -> nth_error h' b = nth_error h b) ->
  (forall k n c', sbody y = Shows k n -> k < length ln -> buffer s' k = Some c' -> exists c, buffer s k = Some c /\ length c' = length c /\
     (strict = true -> is_string (scls y) = true -> length (cut c') = length (cut c) /\ (hashed y = true -> c' = c))) ->
  rep strict h' ln' s' x y.
Proof.
  intros (C & R & H) L F B. split; [exact C|]. unfold owns in F. split.
  - destruct (sbody y) as [k n|bs] eqn:Y.
    + destruct R as (b & K & A & E & M & T). exists b. split; [auto|]. split; [exact A|]. split; [exact E|]. split; [exact M|]. intros c' Bc. destruct (B k n c' eq_refl (nth_lt _ _ _ K) Bc) as (c & Bc0 & Lc & S0). destruct (T c Bc0) as [T1 T2].
      split; [lia|]. intros S1 S2. destruct (S0 S1 S2) as [-> _]. auto.
    + destruct R as [(Ho & E)|(b & A & Bl & E & M)]; rewrite E in F.
      * left. split; [|exact E]. destruct Ho as [Ho|(b & m & j & A & Bl & M & Lm)]; [left; exact Ho|]. right. exists b, m, j. split; [exact A|]. split; [|auto]. rewrite F; [exact Bl|]. rewrite A. cbn. apply Z.ltb_lt in M. now rewrite M.
      * right. exists b. split; [exact A|]. split; [|auto]. rewrite F; [exact Bl|reflexivity].
  - intros S1 S2. destruct (H S1 S2) as [Z0|[Hy T]]; [left; exact Z0|]. right. split; [exact Hy|]. intros t. unfold text in *. destruct (sbody y) as [k n|bs] eqn:Y; [|exact (T t)].
    destruct R as (b & K & _). destruct (buffer s' k) as [c'|] eqn:Bc; [|discriminate]. destruct (B k n c' eq_refl (nth_lt _ _ _ K) Bc) as (c & Bc0 & _ & S0). destruct (S0 S1 S2) as [_ E]. rewrite (E Hy). intros Q. apply T. rewrite Bc0. exact Q.
Qed.
Lemma rep_same strict h ln s h' x y : rep strict h ln s x y -> (forall b, owns x = Some b -> nth_error h' b = nth_error h b) -> rep strict h' ln s x y.
Proof. intros R F. eapply rep_frame; [exact R|auto|exact F|]. intros k n c' _ _ B. exists c'. auto. Qed.
Lemma lends_frame h ln s h' : lends h ln s -> (forall b, (forall d, nth_error h b <> Some (mkB true (Some d))) -> b < length h -> nth_error h' b = nth_error h b) -> lends h' ln s.
Proof. intros (L & N & K) F. split; [exact L|]. split; [exact N|]. intros k b E. pose proof (K k b E) as B. rewrite F; [exact B| |exact (nth_lt _ _ _ B)]. intros d D. congruence. Qed.

Lemma look_upd m h o x i : o < length (objs m) -> look (set_obj m h o x) i = if (i =? o)%nat then x else look m i.
Proof.
  intros L. unfold look, set_obj. cbn [objs]. destruct (Nat.eqb_spec i o) as [->|E]; [now rewrite upd_eq|]. rewrite upd_neq by auto. reflexivity.
Qed.
Lemma object_put s o x i : o < length (sobjs s) -> object (with_obj s o x) i = if (i =? o)%nat then x else object s i.
Proof. intros L. unfold object, with_obj. cbn [sobjs]. rewrite put_upd. destruct (Nat.eqb_spec i o) as [->|E]; [now rewrite upd_eq|]. rewrite upd_neq by auto. reflexivity. Qed.
Lemma look_add m h x i : look (add_obj m h x) i = if (i =? length (objs m))%nat then Some x else look m i.
Proof.
  unfold look, add_obj. cbn [objs]. destruct (Nat.eqb_spec i (length (objs m))) as [->|E]; [rewrite nth_error_app2, Nat.sub_diag by lia; reflexivity|].
  destruct (Nat.lt_ge_cases i (length (objs m))); [now rewrite nth_error_app1|]. rewrite (proj2 (nth_error_None _ _)) by (rewrite app_length; cbn; lia). now rewrite (proj2 (nth_error_None _ _)).
Qed.
Lemma object_more s x i : object (more s x) i = if (i =? length (sobjs s))%nat then Some x else object s i.
Proof.
  unfold object, more. cbn [sobjs]. destruct (Nat.eqb_spec i (length (sobjs s))) as [->|E]; [rewrite nth_error_app2, Nat.sub_diag by lia; reflexivity|].
  destruct (Nat.lt_ge_cases i (length (sobjs s))); [now rewrite nth_error_app1|]. rewrite (proj2 (nth_error_None _ _)) by (rewrite app_length; cbn; lia). now rewrite (proj2 (nth_error_None _ _)).
Qed.
Lemma look_lt m o x : look m o = Some x -> o < length (objs m).
Proof. unfold look. destruct (nth_error (objs m) o) eqn:E; [|discriminate]. intros _. exact (nth_lt _ _ _ E). Qed.
Lemma find_look m o x : look m o = Some x -> find_obj m o = Ok x.
Proof. unfold look, find_obj. destruct (nth_error (objs m) o) as [[y|]|]; congruence. Qed.
Lemma inv_find strict m s o y : inv strict m s -> object s o = Some y -> exists x, look m o = Some x /\ rep strict (hp m) (lent m) s x y.
Proof. intros I E. pose proof (i_rep _ _ _ I o) as R. rewrite E in R. destruct (look m o) as [x|]; [|contradiction]. eauto. Qed.

(** ** One object changes, or appears *)
Definition opt_rep strict h ln s (x : option obj) (y : option sobj) : Prop := match x, y with Some x, Some y => rep strict h ln s x y | None, None => True | _, _ => False end.
Lemma inv_set strict m s o x h' x' y' : inv strict m s -> look m o = Some x ->
  (forall b, owns x <> Some b -> b < length (hp m) -> nth_error h' b = nth_error (hp m) b) ->
  opt_rep strict h' (lent m) s x' y' ->
  (forall z b, x' = Some z -> owns z = Some b -> owns x = Some b \/ length (hp m) <= b) ->
  (forall b d, nth_error h' b = Some (mkB true (Some d)) -> (exists z, x' = Some z /\ owns z = Some b) \/ (owns x <> Some b /\ b < length (hp m))) ->
  inv strict (set_obj m h' o x') (with_obj s o y').
Proof.
  intros I E F R O W. pose proof (look_lt _ _ _ E) as Lo. assert (Lo' : o < length (sobjs s)) by (rewrite <- (i_len _ _ _ I); exact Lo).
  assert (Rx : exists y, rep strict (hp m) (lent m) s x y) by (pose proof (i_rep _ _ _ I o) as Q; rewrite E in Q; destruct (object s o) as [y|]; [eauto|contradiction]). destruct Rx as [y Rx].
  assert (Ow : forall i z, i <> o -> look m i = Some z -> forall b, owns z = Some b -> b < length (hp m) /\ owns x <> Some b).
  { intros i z Ni Ez b Ob. pose proof (i_rep _ _ _ I i) as Q. rewrite Ez in Q. destruct (object s i) as [w|]; [|contradiction]. destruct (rep_owns _ _ _ _ _ _ _ Q Ob) as [d D]. split; [exact (nth_lt _ _ _ D)|]. intros Ox. apply Ni. eapply (i_dis _ _ _ I); eauto. }
  constructor; cbn [set_obj hp lent].
  - apply (lends_frame (hp m)); [exact (i_lends _ _ _ I)|]. intros b Nb Lb. apply F; [|exact Lb]. intros Ob. destruct (rep_owns _ _ _ _ _ _ _ Rx Ob) as [d D]. exact (Nb d D).
  - cbn [set_obj with_obj objs sobjs]. change (put (sobjs s) o y') with (Lent_Model.upd (sobjs s) o y'). rewrite !upd_len by auto. exact (i_len _ _ _ I).
  - intros i. rewrite look_upd, object_put by auto. destruct (Nat.eqb_spec i o) as [->|Ni]; [exact R|]. pose proof (i_rep _ _ _ I i) as Q. destruct (look m i) as [z|] eqn:Ez, (object s i) as [w|]; try exact Q.
    change (rep strict h' (lent m) s z w). eapply rep_same; [exact Q|]. intros b Ob. destruct (Ow i z Ni Ez b Ob) as [A B]. apply F; auto.
  - intros i j z w b. rewrite !look_upd by auto. destruct (Nat.eqb_spec i o) as [->|Ni], (Nat.eqb_spec j o) as [->|Nj]; intros A B Oa Ob; auto.
    + exfalso. destruct (Ow j w Nj B b Ob) as [P1 P2]. destruct (O z b A Oa) as [Q|Q]; [auto|lia].
    + exfalso. destruct (Ow i z Ni A b Oa) as [P1 P2]. destruct (O w b B Ob) as [Q|Q]; [auto|lia].
    + eapply (i_dis _ _ _ I); eauto.
  - intros b d D. destruct (W b d D) as [(z & Ez & Oz)|[Nb Lb]].
    + exists o, z. rewrite look_upd by auto. rewrite Nat.eqb_refl. auto.
    + rewrite F in D by auto. destruct (i_kept _ _ _ I b d D) as (i & z & Ez & Oz). exists i, z. rewrite look_upd by auto. destruct (Nat.eqb_spec i o) as [->|]; [congruence|auto].
Qed.
Lemma inv_add strict m s h' x' y' : inv strict m s ->
  (forall b, b < length (hp m) -> nth_error h' b = nth_error (hp m) b) -> rep strict h' (lent m) s x' y' -> (forall b, owns x' = Some b -> length (hp m) <= b) ->
  (forall b d, nth_error h' b = Some (mkB true (Some d)) -> owns x' = Some b \/ b < length (hp m)) ->
  inv strict (add_obj m h' x') (more s y').
Proof.
  intros I F R O W.
  assert (Ow : forall i z, look m i = Some z -> forall b, owns z = Some b -> b < length (hp m)).
  { intros i z Ez b Ob. pose proof (i_rep _ _ _ I i) as Q. rewrite Ez in Q. destruct (object s i) as [w|]; [|contradiction]. destruct (rep_owns _ _ _ _ _ _ _ Q Ob) as [d D]. exact (nth_lt _ _ _ D). }
  constructor; cbn [add_obj hp lent].
  - apply (lends_frame (hp m)); [exact (i_lends _ _ _ I)|]. intros b _ Lb. auto.
  - cbn [add_obj more objs sobjs]. rewrite !app_length, (i_len _ _ _ I). reflexivity.
  - intros i. rewrite look_add, object_more, (i_len _ _ _ I). destruct (Nat.eqb_spec i (length (sobjs s))) as [->|Ni]; [exact R|]. pose proof (i_rep _ _ _ I i) as Q. destruct (look m i) as [z|] eqn:Ez, (object s i) as [w|]; try exact Q.
    change (rep strict h' (lent m) s z w). eapply rep_same; [exact Q|]. intros b Ob. apply F. eauto.
  - intros i j z w b. rewrite !look_add. destruct (Nat.eqb_spec i (length (objs m))) as [->|Ni], (Nat.eqb_spec j (length (objs m))) as [->|Nj]; intros A B Oa Ob; auto.
    + exfalso. injection A as <-. pose proof (O b Oa). pose proof (Ow j w B b Ob). lia.
    + exfalso. injection B as <-. pose proof (O b Ob). pose proof (Ow i z A b Oa). lia.
    + eapply (i_dis _ _ _ I); eauto.
  - intros b d D. destruct (W b d D) as [Ob|Lb].
    + exists (length (objs m)), x'. rewrite look_add, Nat.eqb_refl. auto.
    + rewrite F in D by auto. destruct (i_kept _ _ _ I b d D) as (i & z & Ez & Oz). exists i, z. rewrite look_add. destruct (Nat.eqb_spec i (length (objs m))) as [->|]; [apply look_lt in Ez; lia|auto].
Qed.

(** ** Reading *)
Lemma rep_get strict h ln s x y bs : lends h ln s -> rep strict h ln s x y -> contents s y = Some bs ->
  exists d, get h (bytes (arr x)) = Ok d /\ len (arr x) = length bs /\ len (arr x) <= length d /\ firstn (len (arr x)) d = bs /\ (forall b, bytes (arr x) = PBlk b -> b < length h).
Proof.
  intros (_ & _ & K) (_ & R & _) C. unfold contents in C. destruct (sbody y) as [k n|bs'].
  - destruct R as (b & E & A & _ & _ & T). destruct (buffer s k) as [c|] eqn:Bc; [|discriminate C]. pose proof (f_equal (fun o => match o with Some z => z | None => [] end) C) as C'. cbn in C'. subst bs. pose proof (K k b E) as B. rewrite Bc in B. cbn in B. destruct (T c eq_refl) as [Ln _]. rewrite A. cbn [bytes init_external len get]. rewrite B.
    exists (c ++ [0%N]). split; [reflexivity|]. split; [rewrite firstn_length; lia|]. split; [rewrite app_length; cbn; lia|]. split; [apply firstn_bs; exact Ln|]. intros b' Eb. injection Eb as <-. exact (nth_lt _ _ _ B).
  - injection C as ->. destruct R as [([(A & ->)|(b & m & j & A & B & _ & _)] & _)|(b & A & B & _)]; rewrite A; cbn [bytes init init_external len get].
    + exists [0; 0; 0; 0]%N. split; [reflexivity|]. split; [reflexivity|]. split; [cbn; lia|]. split; [reflexivity|]. intros b' Eb. discriminate Eb.
    + rewrite B. exists (bs ++ zeros ++ j). split; [reflexivity|]. split; [reflexivity|]. split; [rewrite app_length; lia|]. split; [rewrite firstn_bs by lia; apply firstn_all|]. intros b' Eb. injection Eb as <-. exact (nth_lt _ _ _ B).
    + rewrite B. exists (bs ++ zeros). split; [reflexivity|]. split; [reflexivity|]. split; [rewrite app_length; lia|]. split; [rewrite firstn_bs by lia; apply firstn_all|]. intros b' Eb. injection Eb as <-. exact (nth_lt _ _ _ B).
Qed.
Lemma rep_text strict h ln s x y t : lends h ln s -> rep strict h ln s x y -> is_string (scls y) = true -> text s y = Some t ->
  exists l r, get h (bytes (arr x)) = Ok (l ++ 0%N :: r) /\ cut l = t /\ (strict = true -> len (arr x) = 0 -> t = []).
Proof.
  intros (_ & _ & K) (_ & R & _) Y C. unfold text in C. destruct (sbody y) as [k n|bs'].
  - destruct R as (b & E & A & _ & _ & T). destruct (buffer s k) as [c|] eqn:Bc; [|discriminate C]. injection C as <-. pose proof (K k b E) as B. rewrite Bc in B. cbn in B. destruct (T c eq_refl) as [Ln Ls]. rewrite A. cbn [bytes init_external len get]. rewrite B.
    exists c, []. split; [reflexivity|]. split; [reflexivity|]. intros S1 Z0. specialize (Ls S1 Y). destruct (cut c); [reflexivity|cbn in Ls; lia].
  - injection C as <-. destruct R as [([(A & ->)|(b & m & j & A & B & _ & _)] & _)|(b & A & B & _)]; rewrite A; cbn [bytes init init_external len get].
    + exists [], [0; 0; 0]%N. repeat split.
    + rewrite B. exists bs', ([0; 0; 0]%N ++ j). split; [reflexivity|]. split; [reflexivity|]. intros _ Z0. destruct bs'; [reflexivity|discriminate Z0].
    + rewrite B. exists bs', [0; 0; 0]%N. split; [reflexivity|]. split; [reflexivity|]. intros _ Z0. destruct bs'; [reflexivity|discriminate Z0].
Qed.
Lemma hash_ok strict h ln s x y t : lends h ln s -> rep strict h ln s x y -> is_string (scls y) = true -> text s y = Some t ->
  exists v, let x' := mkO (class x) (arr x) v (extra x) in update_hash h x = Ok x' /\ rep strict h ln s x' (mark y) /\ (strict = true -> v = poly t).
Proof.
  intros L R Y T. destruct (rep_text _ _ _ _ _ _ _ L R Y T) as (l & r & G & <- & Z0). destruct R as (C & R & H).
  assert (N0 : poly [] = 0%N) by reflexivity.
  assert (Q : forall v, (strict = true -> v = poly (cut l)) -> rep strict h ln s (mkO (class x) (arr x) v (extra x)) (mark y)).
  { intros v V. split; [exact C|]. split; [exact R|]. intros S1 S2. right. split; [reflexivity|]. intros t. change (text s (mark y)) with (text s y). rewrite T. intros E. injection E as <-. exact (V S1). }
  unfold update_hash. destruct (N.eqb_spec (hash x) 0) as [Hz|Hz].
  - destruct (Nat.ltb_spec 0 (len (arr x))) as [Ln|Ln].
    + rewrite G. cbn [obind]. rewrite strhash_any. cbn [obind]. exists (poly (cut l)). split; [reflexivity|]. split; [apply Q; auto|auto].
    + assert (V : strict = true -> hash x = poly (cut l)) by (intros S1; rewrite (Z0 S1 ltac:(lia)), Hz; reflexivity). exists (hash x). split; [destruct x; reflexivity|]. split; [apply Q; auto|exact V].
  - assert (V : strict = true -> hash x = poly (cut l)) by (intros S1; destruct (H S1 Y) as [Q0|[_ Q0]]; [congruence|exact (Q0 _ T)]). exists (hash x). split; [destruct x; reflexivity|]. split; [apply Q; auto|exact V].
Qed.

(** ** Copies *)
Lemma holds_init h : holds h init [].
Proof. left. auto. Qed.
Lemma get_more h p d z : get h p = Ok d -> get (h ++ [z]) p = Ok d.
Proof. destruct p as [|b]; [auto|]. cbn [get]. destruct (nth_error h b) as [[l [e|]]|] eqn:E; try discriminate. rewrite nth_error_app1 by exact (nth_lt _ _ _ E). rewrite E. auto. Qed.
Lemma copy_ok strict h ln s x y bs c : lends h ln s -> rep strict h ln s x y -> contents s y = Some bs -> is_string c = is_string (scls y) ->
  exists h' x', copy_as h c x = Ok (h', x') /\ (forall b, b < length h -> nth_error h' b = nth_error h b) /\ rep strict h' ln s x' (mkX c (Has bs) (hashed y)) /\ (forall b, owns x' = Some b -> length h <= b) /\ forall b d, nth_error h' b = Some (mkB true (Some d)) -> owns x' = Some b \/ b < length h.
Proof.
  intros L R C Y. destruct (rep_get _ _ _ _ _ _ _ L R C) as (d & G & Ll & Ld & Fd & _).
  assert (HH : strict = true -> is_string c = true -> hash x = 0%N \/ hashed y = true /\ forall t, text s (mkX c (Has bs) (hashed y)) = Some t -> hash x = poly t).
  { destruct R as (_ & R & H). intros S1 S2. rewrite Y in S2. destruct (H S1 S2) as [Z0|[Z1 Z2]]; [left; exact Z0|]. right. split; [exact Z1|]. intros t E. assert (t = cut bs) by (unfold text in E; cbn [sbody] in E; congruence). subst t. apply Z2. unfold contents in C. unfold text. destruct (sbody y) as [k n|bs'].
    - destruct R as (b & _ & _ & _ & _ & T). destruct (buffer s k) as [c'|]; [|discriminate C]. cbn [option_map] in *. destruct (T c' eq_refl) as [_ Tn]. rewrite (Tn S1 S2) in C. rewrite cut_first in C. assert (Eb : bs = cut c') by congruence. rewrite Eb, cut_cut. reflexivity.
    - congruence. }
  assert (Ld0 : load h (bytes (arr x)) 0 (len (arr x)) = Ok bs) by (unfold load; rewrite G; cbn [obind]; apply Nat.leb_le in Ld; cbn [Nat.add]; rewrite Ld, skipn_O, Fd; reflexivity).
  assert (Gen : c <> Imm -> exists h' x', (do d <- load h (bytes (arr x)) 0 (len (arr x)); do r <- replace h init 0 0 d; Ok (fst r, mkO c (snd r) (if is_string c then hash x else 0%N) None)) = Ok (h', x') /\ (forall b, b < length h -> nth_error h' b = nth_error h b) /\ rep strict h' ln s x' (mkX c (Has bs) (hashed y)) /\ (forall b, owns x' = Some b -> length h <= b) /\ forall b d, nth_error h' b = Some (mkB true (Some d)) -> owns x' = Some b \/ b < length h).
  { intros _. rewrite Ld0. cbn [obind]. destruct (replace_ok h init [] 0 0 bs (holds_init h) ltac:(cbn; lia)) as (h' & a' & E & Ho & F & O & _ & W). rewrite E. cbn [obind fst snd]. unfold splice in Ho. cbn [firstn skipn app] in Ho. rewrite app_nil_r in Ho.
    eexists _, _. split; [reflexivity|]. split; [intros b Lb; apply F; [discriminate|exact Lb]|]. split; [|split].
    - split; [reflexivity|]. split; [left; split; [exact Ho|reflexivity]|]. intros S1 S2. cbn [hash scls hashed] in *. rewrite S2. apply HH; auto.
    - intros b. unfold owns. cbn [extra arr]. destruct (0 <? maxl a')%Z; [|discriminate]. intros Eb. destruct O as [O|O]; [rewrite O in Eb; discriminate Eb|apply O; exact Eb].
    - intros b d' D. destruct (W b d' D) as [Q|[_ Q]]; [left|auto]. unfold owns. cbn [extra arr]. destruct Ho as [(-> & _)|(b1 & m1 & j1 & -> & _ & M1 & _)]; [discriminate Q|]. cbn [maxl]. apply Z.ltb_lt in M1. rewrite M1. exact Q. }
  destruct c; try (apply Gen; discriminate). clear Gen. unfold copy_as, copy_substring. destruct (Nat.eqb_spec (len (arr x)) 0) as [Z0|Z0].
  - cbn [obind fst snd arr extra]. eexists _, _. split; [reflexivity|]. split; [auto|]. split; [|split; [intros b Eb; discriminate Eb|intros b d' D; right; exact (nth_lt _ _ _ D)]]. split; [reflexivity|]. split; [|exact HH]. cbn [sbody]. left. split; [|reflexivity]. left. split; [reflexivity|]. destruct bs; [reflexivity|cbn in Ll; lia].
  - cbn [malloc]. set (z := mkB true (Some (repeat 205%N (len (arr x) + 4)))). unfold load. rewrite (get_more _ _ _ z G). cbn [obind]. cbn [Nat.add]. pose proof Ld as Ld'. apply Nat.leb_le in Ld'. rewrite Ld', skipn_O, Fd. cbn [obind].
    assert (LH : length h < length (h ++ [z])) by (rewrite app_length; cbn; lia). assert (B : nth_error (h ++ [z]) (length h) = Some z) by (rewrite nth_error_app2, Nat.sub_diag by lia; reflexivity).
    rewrite (store_ok _ _ _ _ _ _ B) by (rewrite repeat_length; lia). cbn [obind]. set (d1 := over (repeat 205%N (len (arr x) + 4)) 0 bs).
    assert (L1 : length d1 = len (arr x) + 4) by (unfold d1; rewrite over_len; rewrite repeat_length; lia).
    assert (B1 : nth_error (Lent_Model.upd (h ++ [z]) (length h) (mkB true (Some d1))) (length h) = Some (mkB true (Some d1))) by (apply upd_eq; lia).
    rewrite (store_ok _ _ _ _ _ _ B1) by (cbn [length]; lia). cbn [obind fst snd arr extra].
    destruct (fill [] bs [] (repeat 205%N (len (arr x) + 4)) eq_refl ltac:(cbn [length]; rewrite repeat_length; lia)) as (jk & J1 & J2). cbn [length app Nat.add] in J1, J2. rewrite over_nil in J1. rewrite repeat_length in J2. destruct jk; [|cbn in J2; lia].
    eexists _, _. split; [reflexivity|]. split; [|split; [|split]].
    + intros b Lb. rewrite upd_neq, upd_neq by (try rewrite upd_len; lia). now rewrite nth_error_app1 by lia.
    + split; [reflexivity|]. split; [|exact HH]. cbn [sbody]. right. exists (length h). cbn [arr extra]. split; [f_equal; exact Ll|]. split; [|split; reflexivity]. rewrite upd_eq by (rewrite upd_len; lia). do 3 f_equal. rewrite !app_nil_r in J1. rewrite <- J1. unfold d1, zeros. f_equal. lia.
    + intros b Eb. cbn in Eb. injection Eb as <-. lia.
    + intros b d' D. pose proof (nth_lt _ _ _ D) as Lb. rewrite !upd_len in Lb by (try rewrite upd_len; lia). rewrite app_length in Lb. cbn [length] in Lb. destruct (Nat.eq_dec b (length h)) as [->|]; [left; reflexivity|right; lia].
Qed.
