(** Shared vocabulary of the model: outcomes of C code. *)
Require Import Coq.Lists.List Coq.micromega.Lia.
Import ListNotations.

(** What running a C function can do.  [Ok v] is a normal return.  [UB] is any
    behaviour the C standard leaves undefined (out-of-bounds access, NULL
    dereference, use after free, read of an uninitialised variable).  [Fatal]
    is an abort through DKRequire / DKFatalError (Source/DKPlatform.h, these
    stay enabled in release builds).  [NoFuel] is the exhaustion of a model-only
    recursion bound: it stands for "still running", and theorems always exclude
    it explicitly. *)
Inductive outcome (A : Type) : Type :=
| Ok (a : A)
| UB
| Fatal
| NoFuel.
Arguments Ok {A} _.
Arguments UB {A}.
Arguments Fatal {A}.
Arguments NoFuel {A}.

Definition obind {A B} (x : outcome A) (f : A -> outcome B) : outcome B :=
  match x with
  | Ok a => f a
  | UB => UB
  | Fatal => Fatal
  | NoFuel => NoFuel
  end.

Notation "'do' x <- e ; f" := (obind e (fun x => f))
  (at level 200, x pattern, e at level 100, f at level 200).

Lemma obind_ok : forall A B (x : outcome A) (f : A -> outcome B) b,
  obind x f = Ok b -> exists a, x = Ok a /\ f a = Ok b.
Proof. intros A B x f b H; destruct x; simpl in H; try discriminate; eauto. Qed.

(** Replace the [n]-th element of a list (no change when out of range; callers
    in the model check the range first). *)
Fixpoint upd {A} (l : list A) (n : nat) (a : A) : list A :=
  match l, n with
  | [], _ => []
  | _ :: l', O => a :: l'
  | x :: l', S n' => x :: upd l' n' a
  end.

Lemma upd_length : forall A (l : list A) n a, length (upd l n a) = length l.
Proof. induction l; destruct n; simpl; intros; auto. Qed.

Lemma nth_error_upd_eq : forall A (l : list A) n a,
  n < length l -> nth_error (upd l n a) n = Some a.
Proof.
  induction l; destruct n; simpl; intros; auto; try lia.
  apply IHl. lia.
Qed.

Lemma nth_error_upd_neq : forall A (l : list A) n m a,
  n <> m -> nth_error (upd l n a) m = nth_error l m.
Proof.
  induction l; destruct n, m; simpl; intros; auto; try congruence.
Qed.

Lemma upd_split : forall A (l : list A) n a x,
  nth_error l n = Some x ->
  exists l1 l2, l = l1 ++ x :: l2 /\ length l1 = n /\ upd l n a = l1 ++ a :: l2.
Proof.
  induction l; destruct n; simpl; intros; try discriminate.
  - inversion H; subst. exists [], l. auto.
  - destruct (IHl _ a0 _ H) as (l1 & l2 & ? & ? & ?). subst.
    exists (a :: l1), l2. simpl. rewrite H2. auto.
Qed.

Lemma NoDup_map_in : forall A B (f : A -> B) (l : list A),
  (forall a b, In a l -> In b l -> f a = f b -> a = b) -> NoDup l -> NoDup (map f l).
Proof.
  induction l; simpl; intros Hinj Hnd; [constructor|].
  inversion Hnd; subst. constructor.
  - intros Hin. apply in_map_iff in Hin. destruct Hin as (x & Hx & Hin).
    assert (x = a) by auto. subst. contradiction.
  - apply IHl; auto.
Qed.
