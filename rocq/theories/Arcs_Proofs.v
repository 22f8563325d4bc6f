(** Proofs about the references graphs hold. *)
Require Import Coq.Lists.List Coq.Bool.Bool Coq.Arith.Arith Coq.micromega.Lia.
Require Import Verif.Base Verif.Own_Model Verif.Own_Spec Verif.Own_Proofs Verif.Own_Calls Verif.Own_Ends Verif.Own_May Verif.Parsed_Model Verif.Parsed_Spec Verif.Parsed_Proofs Verif.Parsed_Steps Verif.Parsed_Shape Verif.Parsed_Ends Verif.Elem_Proofs Verif.Arcs_Model Verif.Arcs_Spec.
Require Verif.HashTable_Model.
Import ListNotations.

Section Typed.
Variable keq : nat -> nat -> bool.
(** No two edges of a list have the same second vertex. *)
Definition apart (s : state) (r r' : Own_Model.ref) : Prop := forall e e' x x' y, r = Some e -> r' = Some e' -> has s e (Pair x y) -> has s e' (Pair x' y) -> False.
Definition typed (s : state) (b : body) : Prop :=
  match b with
  | Leaf | Pair _ _ => True
  | Arr rs => Forall (fun r => exists e x y, r = Some e /\ has s e (Pair x y)) rs /\ ForallOrdPairs (apart s) rs
  | Hash es => Forall (fun e => exists l rs, snd e = Some l /\ has s l (Arr rs)) es /\ ForallOrdPairs (fun e e' => keq (fst e) (fst e') = false) es
  | _ => False
  end.
Definition T (s : state) : Prop := forall y b, has s y b -> typed s b.
Definition W (s : state) : Prop := Inv s [] /\ T s.
Definition kin (b b' : body) : Prop := match b, b' with Arr _, Arr _ | Hash _, Hash _ => True | _, _ => False end.

Lemma has_fun' s y b b' : has s y b -> has s y b' -> b = b'.
Proof. intros (n & E) (m & E'). rewrite E in E'. injection E' as _ ->. reflexivity. Qed.
(** The edges of a list stay apart when they stay what they are. *)
Lemma apart_step s s' rs : Forall (fun r => exists e x y, r = Some e /\ has s e (Pair x y) /\ has s' e (Pair x y)) rs -> ForallOrdPairs (apart s) rs -> ForallOrdPairs (apart s') rs.
Proof.
  induction rs as [|r rs IH]; intros F O; [constructor|]. inversion F as [|? ? (e & x & y & -> & H & H') F']; subst. inversion O as [|? ? A O']; subst. constructor; [|exact (IH F' O')].
  rewrite Forall_forall in *. intros r' R. specialize (A r' R). destruct (F' r' R) as (e2 & x2 & y2 & -> & G & G'). intros e0 e' x0 x' y0 E0 E1 P Q. injection E0 as <-. injection E1 as <-. pose proof (has_fun' _ _ _ _ H' P) as X. injection X as <- <-. pose proof (has_fun' _ _ _ _ G' Q) as X. injection X as <- <-. exact (A _ _ _ _ _ eq_refl eq_refl H G).
Qed.
Lemma apart_end s rs r : ForallOrdPairs (apart s) rs -> (forall r', In r' rs -> apart s r' r) -> ForallOrdPairs (apart s) (rs ++ [r]).
Proof.
  induction rs as [|r0 rs IH]; intros O A; [repeat constructor|]. inversion O as [|? ? B O']; subst. cbn [app]. constructor; [|apply IH; [exact O'|intros r' R; apply A; right; exact R]].
  apply Forall_app. split; [exact B|]. constructor; [apply A; left; reflexivity|constructor].
Qed.
Lemma apart_front s rs r : ForallOrdPairs (apart s) (rs ++ [r]) -> ForallOrdPairs (apart s) rs.
Proof. induction rs as [|r0 rs IH]; intros O; [constructor|]. cbn [app] in O. inversion O as [|? ? B O']; subst. apply Forall_app in B. constructor; [apply B|exact (IH O')]. Qed.
Lemma apart_cut s : forall rs i, ForallOrdPairs (apart s) rs -> ForallOrdPairs (apart s) (firstn i rs ++ skipn (i + 1) rs).
Proof.
  induction rs as [|r rs IH]; intros i O; [rewrite firstn_nil, skipn_nil; constructor|]. inversion O as [|? ? B O']; subst. destruct i as [|i]; [exact O'|]. cbn [firstn skipn plus app]. constructor; [|exact (IH i O')].
  rewrite Forall_forall in *. intros r' R. apply B. apply in_app_or in R. rewrite <- (firstn_skipn i rs). apply in_or_app. destruct R as [R|R]; [left; exact R|right]. replace (i + 1) with (1 + i) in R by lia. rewrite <- (firstn_skipn 1 (skipn i rs)). apply in_or_app. right. rewrite skip_skip. replace (i + 1) with (1 + i) by lia. exact R.
Qed.
Lemma member_lives s e y b x : Inv s e -> has s y b -> In x (members b) -> exists c, has s x c.
Proof. intros I H M. destruct (inv_live s e x I) as (n & c & Q); [pose proof (member_counted s e y b x H M); unfold counted in *; lia|]. exists c. exists (S n). exact Q. Qed.
Lemma in_fst k v (es : list (nat * Own_Model.ref)) : In (k, v) es -> In k (of_entries es).
Proof. intros H. unfold of_entries. apply in_flat_map. exists (k, v). split; [exact H|left; reflexivity]. Qed.
Lemma in_snd k x (es : list (nat * Own_Model.ref)) : In (k, Some x) es -> In x (of_entries es).
Proof. intros H. unfold of_entries. apply in_flat_map. exists (k, Some x). split; [exact H|right; left; reflexivity]. Qed.
(** What holds only live objects stays typed when they keep their kinds. *)
Lemma typed_step s s' e y b : Inv s' e -> has s' y b -> typed s b -> (forall x c, has s x c -> (exists c', has s' x c') -> exists c', has s' x c' /\ (c' = c \/ kin c c')) -> typed s' b.
Proof.
  intros I H Ty K. destruct b as [|rs|rs|es|es|x0 y0]; try exact Ty; cbn [typed] in *.
  - destruct Ty as (Ty & O). assert (X: Forall (fun r => exists e x y, r = Some e /\ has s e (Pair x y) /\ has s' e (Pair x y)) rs).
    { apply Forall_forall. intros r R. rewrite Forall_forall in Ty. destruct (Ty r R) as (z & p & q & -> & Hz). destruct (K z _ Hz (member_lives s' e y _ z I H (in_somes _ _ R))) as (c' & Hc & [->|C]); [exists z, p, q; auto|destruct C]. }
    split; [|exact (apart_step s s' rs X O)]. revert X. apply Forall_impl. intros r (z & p & q & -> & _ & G). exists z, p, q. auto.
  - destruct Ty as (Ty & O). split; [|exact O]. apply Forall_forall. intros (k, v) R. rewrite Forall_forall in Ty. destruct (Ty _ R) as (l & rs & E & Hl). cbn [snd] in E. subst v. destruct (K l _ Hl (member_lives s' e y _ l I H (in_snd _ _ _ R))) as (c' & Hc & [->|C]); [exists l, rs; auto|]. destruct c'; try destruct C. exists l, l0. auto.
Qed.
Lemma keeps_has Q s s' y b : Parsed_Shape.keeps Q s s' -> Q y -> has s' y b -> has s y b.
Proof. intros K Y (n & E). destruct (K y n b Y E) as (m & M). exists m. exact M. Qed.
Lemma T_set s s' e a b b' : T s -> Inv s' e -> Parsed_Shape.keeps (other a) s s' -> has s a b -> (forall c, has s' a c -> c = b') -> kin b b' -> typed s b' -> T s'.
Proof.
  intros Ts I K Ha Hb Ki Tb y c H. assert (Tc: typed s c). { destruct (Nat.eq_dec y a) as [->|D]; [rewrite (Hb c H); exact Tb|]. apply (Ts y). exact (keeps_has _ _ _ _ _ K D H). }
  apply (typed_step s s' e y c I H Tc). intros x d Hx (d' & Hd). exists d'. split; [exact Hd|]. destruct (Nat.eq_dec x a) as [->|D]; [right; rewrite (has_fun' _ _ _ _ Hx Ha), (Hb d' Hd); exact Ki|left]. exact (has_fun' _ _ _ _ (keeps_has _ _ _ _ _ K D Hd) Hx).
Qed.
Lemma T_every s s' e : T s -> Inv s' e -> Parsed_Shape.keeps every s s' -> T s'.
Proof.
  intros Ts I K y c H. apply (typed_step s s' e y c I H (Ts y c (keeps_has _ _ _ _ _ K Logic.I H))). intros x d Hx (d' & Hd). exists d'. split; [exact Hd|left]. exact (has_fun' _ _ _ _ (keeps_has _ _ _ _ _ K Logic.I Hd) Hx).
Qed.
Lemma make_has s b y c : has (make s b) y c -> has s y c \/ (y = next s /\ c = b).
Proof.
  intros (n & E). unfold make, add in E. cbn [cells] in E. destruct (Nat.lt_ge_cases y (next s)) as [L|L]; [left; exists n; rewrite nth_error_app1 in E by exact L; exact E|right].
  rewrite nth_error_app2 in E by exact L. destruct (y - length (cells s)) as [|k] eqn:D; [|destruct k; discriminate]. cbn in E. injection E as _ <-. unfold next in *. split; [lia|reflexivity].
Qed.
Lemma has_make s b y c : has s y c -> has (make s b) y c.
Proof. intros (n & E). exists n. unfold make, add. cbn [cells]. rewrite nth_error_app1; [exact E|exact (nth_len _ _ _ E)]. Qed.
Lemma has_new s b : has (make s b) (next s) b.
Proof. exists 1. unfold make, add, next. cbn [cells]. rewrite nth_error_app2, Nat.sub_diag by lia. reflexivity. Qed.
Lemma typed_make s b c : typed s c -> typed (make s b) c.
Proof.
  destruct c as [|rs|rs|es|es|x0 y0]; cbn [typed]; auto; [|intros (F & O); split; [|exact O]; revert F; apply Forall_impl; intros e (l & rs & E & H); exists l, rs; split; [exact E|apply has_make, H]].
  intros (F & O). assert (X: Forall (fun r => exists e x y, r = Some e /\ has s e (Pair x y) /\ has (make s b) e (Pair x y)) rs) by (revert F; apply Forall_impl; intros r (e & x & y & -> & H); exists e, x, y; split; [reflexivity|]; split; [exact H|apply has_make, H]).
  split; [|exact (apart_step _ _ rs X O)]. revert X. apply Forall_impl. intros r (z & p & q & -> & _ & G). exists z, p, q. auto.
Qed.
Lemma T_make s b : T s -> typed s b -> T (make s b).
Proof. intros Ts Tb y c H. apply typed_make. destruct (make_has _ _ _ _ H) as [H'|(-> & ->)]; [exact (Ts y c H')|exact Tb]. Qed.

End Typed.
Arguments typed_step {keq}. Arguments T_set {keq}. Arguments T_every {keq}. Arguments typed_make {keq}. Arguments T_make {keq}.

(** ** Releasing what something else holds *)
Lemma release_shared s x e : Inv s (x :: e) -> counted s e x -> exists s', release s [x] = Ok s' /\ Inv s' e /\ hands s' = hands s /\ (forall y c, has s y c -> has s' y c) /\ Parsed_Shape.keeps every s s'.
Proof.
  intros I C. destruct (release_ok [x] s e I) as (s' & E & I' & (H & _)). exists s'. split; [exact E|]. split; [exact I'|]. split; [exact H|]. split; [|exact (release_keeps _ _ _ E)].
  intros y c (n & N). unfold release in E. cbn [length plus drop cells] in E. pose proof (proj2 I x) as Cx. unfold rc in Cx. unfold counted in C. rewrite cnt_cons in Cx. cbn [count_occ] in Cx. destruct (Nat.eq_dec x x) as [_|D]; [|congruence].
  destruct (nth_error (cells s) x) as [[[|[|k]] b|]|] eqn:Nx; try discriminate; try lia. rewrite drop_nil in E. injection E as <-. destruct (Nat.eq_dec x y) as [->|D].
  - rewrite N in Nx. injection Nx as -> ->. exists (S k). cbn [set_cell cells]. apply nth_error_upd_eq. exact (nth_len _ _ _ N).
  - exists n. cbn [set_cell cells]. rewrite nth_error_upd_neq by exact D. exact N.
Qed.
Lemma give_shared s x : Inv s [] -> In x (hands s) -> In x (content s) -> exists s', give_up s (Some x) = Ok s' /\ Inv s' [] /\ hands s' = take x (hands s) /\ (forall y c, has s y c -> has s' y c) /\ Parsed_Shape.keeps every s s'.
Proof.
  intros I H C. cbn [give_up step]. destruct (release_shared (mkS (cells s) (take x (hands s))) x []) as (s' & E & I' & Hs & F & K).
  - split; [exact (proj1 I)|]. intros y. pose proof (proj2 I y) as Cy. unfold rc in *. cbn [cells hands content] in *. pose proof (cnt_take x (hands s) y H). change (content {| cells := cells s; hands := take x (hands s) |}) with (content s). cbn [count_occ] in *. destruct (Nat.eq_dec x y); lia.
  - unfold counted. cbn [hands count_occ]. change (content {| cells := cells s; hands := take x (hands s) |}) with (content s). apply cnt_in in C. lia.
  - exists s'. split; [exact E|]. split; [exact I'|]. split; [exact Hs|]. split; [exact F|exact K].
Qed.
