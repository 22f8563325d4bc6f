(** Proofs about what keeps objects alive: who holds what is left, and programs that break it. *)
Require Import Coq.Lists.List Coq.Bool.Bool Coq.Arith.Arith Coq.micromega.Lia.
Require Import Verif.Base Verif.Own_Model Verif.Own_Spec Verif.Own_Proofs Verif.Own_Calls.
Require Verif.HashTable_Model.
Import ListNotations.

Lemma init_inv : Inv init [].
Proof. split; [intros [|x] n b E; discriminate E|]. intros [|x]; reflexivity. Qed.
Lemma in_content s x : In x (content s) <-> exists y, holds s y x.
Proof.
  unfold content. rewrite in_concat. split.
  - intros (l & L & X). apply in_map_iff in L. destruct L as (c & <- & C). apply In_nth_error in C. destruct C as (y & Y). destruct c as [n b|]; [|destruct X]. exists y, n, b. auto.
  - intros (y & n & b & Y & X). exists (members b). split; [|exact X]. change (members b) with (held_by (Live n b)). apply in_map. exact (nth_error_In _ _ Y).
Qed.
Lemma inv_sound s : Inv s [] -> sound s.
Proof.
  intros (P & C). split.
  - intros x. split.
    + intros (n & b & E). specialize (C x). unfold rc in C. rewrite E in C. pose proof (P _ _ _ E) as Q. cbn [count_occ plus] in C.
      destruct (cnt (hands s) x) eqn:H; [|left; apply cnt_in; lia]. right. apply in_content, cnt_in. lia.
    + intros H. destruct (inv_live s [] x (conj P C)) as (n & b & E); [|exists (S n), b; exact E].
      destruct H as [H|H]; [apply cnt_in in H|apply in_content, cnt_in in H]; lia.
  - intros x n b E. specialize (C x). unfold rc in C. rewrite E in C. rewrite C. symmetry. apply cnt_app.
Qed.
Lemma history_ok keq os : obeys (careful keq) keq init os -> run keq init os = Fatal \/ exists s, run keq init os = Ok s /\ sound s.
Proof. intros O. destruct (run_ok keq os init init_inv O) as [F|(s & E & I)]; [left; exact F|right]. exists s. split; [exact E|apply inv_sound, I]. Qed.
(** ** What is never freed *)
Lemma holder_live s y x : holds s y x -> live s y.
Proof. intros (n & b & E & _). exists n, b. exact E. Qed.
Lemma chain_trans s x y z : chain s x y -> chain s y z -> chain s x z.
Proof. intros H K. induction H; [eapply More|eapply More]; eauto. Qed.
Lemma chain_held s y x : chain s y x -> held s x.
Proof. intros H. induction H as [y x H|]; [right; eauto|assumption]. Qed.
(** A path upwards from [x], latest first. *)
Lemma climb s x : sound s -> forall k y p, length (cells s) <= k + length (y :: p) -> NoDup (y :: p) -> Forall (live s) (y :: p) -> (forall z, In z (y :: p) -> z = y \/ chain s y z) -> In x (y :: p) ->
  exists w, (In w (hands s) \/ chain s w w) /\ (w = x \/ chain s w x).
Proof.
  intros (S1 & _). induction k as [|k IH]; intros y p B N L U X.
  - assert (Ly : live s y) by (inversion L; assumption). pose proof (proj1 (S1 y) Ly) as [H|(z & Z)].
    + exists y. split; [left; exact H|]. destruct (U x X) as [->|C]; auto.
    + assert (I : In z (y :: p)).
      { destruct (in_dec Nat.eq_dec z (y :: p)) as [I|NI]; [exact I|exfalso].
        assert (Q : incl (z :: y :: p) (seq 0 (length (cells s)))).
        { intros w W. apply in_seq. assert (Lw : live s w) by (destruct W as [<-|W]; [exact (holder_live s z y Z)|rewrite Forall_forall in L; exact (L w W)]). destruct Lw as (n & b & E). apply nth_len in E. lia. }
        apply NoDup_incl_length in Q; [|constructor; assumption]. rewrite seq_length in Q. cbn [length] in *. lia. }
      exists z. assert (Zz : chain s z z). { destruct (U z I) as [->|C]; [exact (Link s y y Z)|exact (More s z y z Z C)]. }
      split; [right; exact Zz|]. right. destruct (U x X) as [->|C]; [exact (Link s z y Z)|exact (More s z y x Z C)].
  - assert (Ly : live s y) by (inversion L; assumption). pose proof (proj1 (S1 y) Ly) as [H|(z & Z)].
    + exists y. split; [left; exact H|]. destruct (U x X) as [->|C]; auto.
    + destruct (in_dec Nat.eq_dec z (y :: p)) as [I|NI].
      * exists z. assert (Zz : chain s z z). { destruct (U z I) as [->|C]; [exact (Link s y y Z)|exact (More s z y z Z C)]. }
        split; [right; exact Zz|]. right. destruct (U x X) as [->|C]; [exact (Link s z y Z)|exact (More s z y x Z C)].
      * apply (IH z (y :: p)).
        -- cbn [length] in *. lia.
        -- constructor; assumption.
        -- constructor; [exact (holder_live s z y Z)|exact L].
        -- intros w [<-|W]; [left; reflexivity|right]. destruct (U w W) as [->|C]; [exact (Link s z y Z)|exact (More s z y w Z C)].
        -- right. exact X.
Qed.
Lemma live_iff s x : sound s -> (live s x <-> exists w, (In w (hands s) \/ chain s w w) /\ (w = x \/ chain s w x)).
Proof.
  intros H. split.
  - intros L. apply (climb s x H (length (cells s)) x []).
    + cbn [length]. lia.
    + constructor; [intros []|constructor].
    + constructor; [exact L|constructor].
    + intros z [<-|[]]. left. reflexivity.
    + left. reflexivity.
  - intros (w & R & C). apply (proj1 H). destruct C as [->|C]; [|exact (chain_held s w x C)]. destruct R as [R|R]; [left; exact R|exact (chain_held s x x R)].
Qed.

(** ** Checking what a program is allowed *)
Definition live_b (s : state) (x : nat) : bool := match nth_error (cells s) x with Some (Live _ _) => true | _ => false end.
Definition ref_b (P : nat -> bool) (r : ref) : bool := match r with Some x => P x | None => true end.
Definition own_b (s : state) (x : nat) : bool := existsb (Nat.eqb x) (hands s).
Definition allowed_b (s : state) (o : op) : bool :=
  match o with
  | New _ => true
  | NewPair a b => ref_b (live_b s) a && ref_b (live_b s) b
  | Retain x => live_b s x
  | Release x => own_b s x
  | Splice a _ _ xs => own_b s a && forallb (ref_b (live_b s)) xs
  | SpliceAll a _ _ c => own_b s a && live_b s c && negb (a =? c)
  | Put d k v _ => own_b s d && live_b s k && ref_b (live_b s) v
  | Remove d k => own_b s d && live_b s k
  | RemoveAll d => own_b s d
  end.
Definition owned_b (s : state) (o : op) : bool :=
  match o with
  | Splice _ _ _ xs => forallb (ref_b (own_b s)) xs
  | SpliceAll _ _ _ c => own_b s c
  | Put _ _ v _ => ref_b (own_b s) v
  | _ => true
  end.
Lemma live_t s x : live_b s x = true -> live s x.
Proof. unfold live_b, live. destruct (nth_error (cells s) x) as [[n b|]|]; try discriminate. eauto. Qed.
Lemma own_t s x : own_b s x = true -> In x (hands s).
Proof. unfold own_b. intros H. apply existsb_exists in H. destruct H as (y & Y & E). apply Nat.eqb_eq in E. subst y. exact Y. Qed.
Lemma ref_t (P : nat -> bool) (Q : nat -> Prop) r : (forall x, P x = true -> Q x) -> ref_b P r = true -> ref_in Q r.
Proof. intros H. destruct r; cbn; auto. Qed.
Lemma refs_t (P : nat -> bool) (Q : nat -> Prop) l : (forall x, P x = true -> Q x) -> forallb (ref_b P) l = true -> Forall (ref_in Q) l.
Proof. intros H F. rewrite forallb_forall in F. apply Forall_forall. intros r R. exact (ref_t P Q r H (F r R)). Qed.
Lemma allowed_t s o : allowed_b s o = true -> allowed s o.
Proof.
  destruct o; cbn [allowed allowed_b]; rewrite ?andb_true_iff; intros H;
    repeat match goal with H : _ /\ _ |- _ => destruct H | |- _ /\ _ => split end; eauto using live_t, own_t, ref_t, refs_t.
  apply Nat.eqb_neq, negb_true_iff. assumption.
Qed.
Lemma owned_t s o : owned_b s o = true -> owned s o.
Proof. destruct o; cbn [owned owned_b]; intros H; eauto using own_t, ref_t, refs_t. exact (refs_t _ _ _ (own_t s) H). exact (own_t s _ H). exact (ref_t _ _ _ (own_t s) H). Qed.
Fixpoint obeys_b (P : state -> op -> bool) (keq : nat -> nat -> bool) (s : state) (os : list op) : bool :=
  match os with [] => true | o :: os' => P s o && match step keq s o with Ok s' => obeys_b P keq s' os' | _ => true end end.
Lemma obeys_t (P : state -> op -> bool) (Q : state -> op -> Prop) keq : (forall s o, P s o = true -> Q s o) -> forall os s, obeys_b P keq s os = true -> obeys Q keq s os.
Proof.
  intros H. induction os as [|o os IH]; intros s B; cbn [obeys obeys_b] in *; [exact I|]. apply andb_true_iff in B. destruct B as (B & C). split; [apply H, B|].
  intros s' E. rewrite E in C. apply IH, C.
Qed.
Lemma allowed_run keq os s : obeys_b allowed_b keq s os = true -> obeys allowed keq s os.
Proof. apply obeys_t, allowed_t. Qed.
Lemma careful_run keq os s : obeys_b (fun s o => allowed_b s o && owned_b s o) keq s os = true -> obeys (careful keq) keq s os.
Proof. apply obeys_t. intros t o H. apply andb_true_iff in H. destruct H as (A & B). split; [apply allowed_t, A|intros _; apply owned_t, B]. Qed.
