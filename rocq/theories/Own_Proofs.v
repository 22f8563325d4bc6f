(** Proofs about what keeps objects alive. *)
Require Import Coq.Lists.List Coq.Bool.Bool Coq.Arith.Arith Coq.micromega.Lia.
Require Import Verif.Base Verif.Own_Model Verif.Own_Spec.
Require Verif.HashTable_Model.
Import ListNotations.

Notation cnt l x := (count_occ Nat.eq_dec l x).
Definition held_by (c : cell) : list nat := match c with Live _ b => members b | Freed => [] end.
Definition content (s : state) : list nat := concat (map held_by (cells s)).
Definition rc (s : state) (x : nat) : nat := match nth_error (cells s) x with Some (Live n _) => n | _ => 0 end.
Definition positive (s : state) : Prop := forall x n b, nth_error (cells s) x = Some (Live n b) -> 0 < n.
(** [e] are references that are neither in the hands of the program nor in a collection. *)
Definition Inv (s : state) (e : list nat) : Prop :=
  positive s /\ forall x, rc s x = cnt e x + cnt (hands s) x + cnt (content s) x.

Lemma cnt_app (l l' : list nat) x : cnt (l ++ l') x = cnt l x + cnt l' x.
Proof. apply count_occ_app. Qed.
Lemma cnt_cons y l x : cnt (y :: l) x = cnt [y] x + cnt l x.
Proof. apply (cnt_app [y] l). Qed.
Lemma cnt_in l x : 0 < cnt l x <-> In x l.
Proof. symmetry. apply count_occ_In. Qed.
Lemma bind_ok {A B} (x : outcome A) (f : A -> outcome B) b : obind x f = Ok b -> exists a, x = Ok a /\ f a = Ok b.
Proof. destruct x; cbn [obind]; intros E; try discriminate. eauto. Qed.

(** ** Changing one cell *)
Lemma content_upd cs y c c' x : nth_error cs y = Some c -> cnt (concat (map held_by (upd cs y c'))) x + cnt (held_by c) x = cnt (concat (map held_by cs)) x + cnt (held_by c') x.
Proof.
  revert y. induction cs as [|d cs IH]; intros [|y] E; try discriminate; cbn [nth_error] in E; cbn [upd map concat]; rewrite !cnt_app.
  - injection E as ->. lia.
  - specialize (IH _ E). lia.
Qed.
Lemma set_cell_content s y c c' x : nth_error (cells s) y = Some c -> cnt (content (set_cell s y c')) x + cnt (held_by c) x = cnt (content s) x + cnt (held_by c') x.
Proof. apply content_upd. Qed.
Lemma nth_len {A} (l : list A) i c : nth_error l i = Some c -> i < length l.
Proof. intros E. apply nth_error_Some. congruence. Qed.
Lemma set_cell_same s y c c' : nth_error (cells s) y = Some c -> nth_error (cells (set_cell s y c')) y = Some c'.
Proof. intros E. apply nth_error_upd_eq. apply (nth_len _ _ _ E). Qed.
Lemma set_cell_other s y c' z : y <> z -> nth_error (cells (set_cell s y c')) z = nth_error (cells s) z.
Proof. intros NE. apply nth_error_upd_neq. exact NE. Qed.
Lemma set_cell_inv s e e' y n b c' :
  Inv s e -> nth_error (cells s) y = Some (Live n b) -> (match c' with Live n' _ => 0 < n' | Freed => True end) ->
  (forall x, cnt e' x + cnt (held_by c') x + (if Nat.eq_dec y x then n else 0) = cnt e x + cnt (members b) x + (if Nat.eq_dec y x then match c' with Live n' _ => n' | Freed => 0 end else 0)) ->
  Inv (set_cell s y c') e'.
Proof.
  intros (P & C) E Q H. split.
  - intros x m d X. destruct (Nat.eq_dec y x) as [->|NE].
    + rewrite (set_cell_same _ _ _ _ E) in X. injection X as ->. exact Q.
    + rewrite set_cell_other in X by exact NE. exact (P _ _ _ X).
  - intros x. specialize (C x). specialize (H x). pose proof (set_cell_content s y _ c' x E) as K. cbn [held_by] in K.
    change (hands (set_cell s y c')) with (hands s). unfold rc in *. destruct (Nat.eq_dec y x) as [->|NE].
    + rewrite (set_cell_same _ _ _ _ E). rewrite E in C. destruct c' as [n' b'|]; cbn [held_by] in *; lia.
    + rewrite set_cell_other by exact NE. lia.
Qed.

(** ** Retaining and releasing *)
Lemma inv_live s e x : Inv s e -> 0 < cnt e x + cnt (hands s) x + cnt (content s) x -> exists n b, nth_error (cells s) x = Some (Live (S n) b).
Proof.
  intros (P & C) L. specialize (C x). unfold rc in C. destruct (nth_error (cells s) x) as [[n b|]|] eqn:E; try lia.
  destruct n as [|n]; [pose proof (P _ _ _ E); lia|]. eauto.
Qed.
(** The collections of the program and their contents stay when others are released. *)
Definition frame (P : nat -> Prop) (s s' : state) : Prop :=
  hands s' = hands s /\ forall y, P y -> forall n b, nth_error (cells s) y = Some (Live n b) -> exists n', nth_error (cells s') y = Some (Live n' b).
Lemma frame_refl P s : frame P s s.
Proof. split; [reflexivity|]. eauto. Qed.
Lemma frame_trans P s s' s'' : frame P s s' -> frame P s' s'' -> frame P s s''.
Proof. intros (H & F) (H' & F'). split; [congruence|]. intros y Y n b E. destruct (F y Y n b E) as (n' & E'). exact (F' y Y n' b E'). Qed.
Lemma frame_in (P : nat -> Prop) s x n b n' : nth_error (cells s) x = Some (Live n b) -> frame P s (set_cell s x (Live n' b)).
Proof.
  intros E. split; [reflexivity|]. intros y _ m d Y. destruct (Nat.eq_dec x y) as [->|NE].
  - rewrite (set_cell_same _ _ _ _ E). assert (d = b) by congruence. subst d. eauto.
  - rewrite set_cell_other by exact NE. eauto.
Qed.
Lemma frame_freed (P : nat -> Prop) s x : ~ P x -> frame P s (set_cell s x Freed).
Proof. intros NP. split; [reflexivity|]. intros y Y m d E. rewrite set_cell_other by (intros ->; contradiction). eauto. Qed.
Lemma retain_ok P s e x : Inv s e -> 0 < cnt e x + cnt (hands s) x + cnt (content s) x -> exists s', retain s (Some x) = Ok s' /\ Inv s' (x :: e) /\ frame P s s' /\ content s' = content s.
Proof.
  intros I L. destruct (inv_live s e x I L) as (n & b & E). cbn [retain]. rewrite E. eexists. split; [reflexivity|]. split; [|split].
  - apply (set_cell_inv s e _ x (S n) b _ I E); [lia|]. intros y. rewrite (cnt_cons x e). cbn [count_occ held_by]. destruct (Nat.eq_dec x y); lia.
  - apply frame_in with (n := S n). exact E.
  - unfold content. cbn [set_cell cells]. clear -E. revert x E. induction (cells s) as [|d cs IH]; intros [|x] E; try discriminate; cbn [nth_error] in E; cbn [upd map concat].
    + injection E as ->. reflexivity.
    + rewrite (IH _ E). reflexivity.
Qed.
Lemma weight_upd s y c c' : nth_error (cells s) y = Some c -> weight (set_cell s y c') + length (held_by c) = weight s + length (held_by c').
Proof.
  unfold weight. cbn [set_cell cells]. revert y. induction (cells s) as [|d cs IH]; intros [|y] E; try discriminate; cbn [nth_error] in E; cbn [upd map fold_right].
  - injection E as ->. destruct c, c'; cbn [held_by length]; lia.
  - specialize (IH _ E). lia.
Qed.
Lemma drop_ok : forall fuel xs s e, Inv s (xs ++ e) -> length xs + weight s <= fuel ->
  exists s', drop fuel s xs = Ok s' /\ Inv s' e /\ frame (fun y => In y (hands s) \/ In y e) s s'.
Proof.
  induction fuel as [|f IH]; intros [|x xs] s e I W; cbn [drop].
  - exists s. split; [reflexivity|]. split; [exact I|apply frame_refl].
  - cbn [length] in W. lia.
  - exists s. split; [reflexivity|]. split; [exact I|apply frame_refl].
  - destruct (inv_live s _ x I) as (n & b & E). { cbn [app]. rewrite cnt_cons. cbn [count_occ]. destruct (Nat.eq_dec x x); [lia|contradiction]. }
    rewrite E. destruct n as [|n].
    + destruct (IH (members b ++ xs) (set_cell s x Freed) e) as (s' & D & I' & F).
      * apply (set_cell_inv s ((x :: xs) ++ e) _ x 1 b Freed I E); [exact Logic.I|]. intros y. cbn [held_by app]. rewrite <- app_assoc, (cnt_app (members b)).
        rewrite (cnt_cons x (xs ++ e)), cnt_app. cbn [count_occ]. destruct (Nat.eq_dec x y); lia.
      * rewrite app_length. pose proof (weight_upd s x _ Freed E). cbn [held_by length] in *. lia.
      * exists s'. split; [exact D|]. split; [exact I'|]. refine (frame_trans _ _ _ _ _ F). apply frame_freed.
        intros Y. cbn beta in Y. cbn [hands set_cell] in Y. assert (L : 0 < cnt (hands s) x + cnt e x). { destruct Y as [Y|Y]; apply cnt_in in Y; lia. }
        destruct I as (_ & C). specialize (C x). unfold rc in C. rewrite E in C. cbn [app] in C. rewrite cnt_cons, cnt_app in C. cbn [count_occ] in C. destruct (Nat.eq_dec x x); [lia|contradiction].
    + destruct (IH xs (set_cell s x (Live (S n) b)) e) as (s' & D & I' & F).
      * apply (set_cell_inv s ((x :: xs) ++ e) _ x (S (S n)) b (Live (S n) b) I E); [lia|]. intros y. cbn [held_by app]. rewrite (cnt_cons x (xs ++ e)). cbn [count_occ]. destruct (Nat.eq_dec x y); lia.
      * pose proof (weight_upd s x _ (Live (S n) b) E). cbn [held_by length] in *. lia.
      * exists s'. split; [exact D|]. split; [exact I'|]. refine (frame_trans _ _ _ _ _ F). exact (frame_in _ s x _ b (S n) E).
Qed.
Lemma release_ok xs s e : Inv s (xs ++ e) -> exists s', release s xs = Ok s' /\ Inv s' e /\ frame (fun y => In y (hands s) \/ In y e) s s'.
Proof. intros I. apply drop_ok; [exact I|]. apply Nat.le_refl. Qed.
