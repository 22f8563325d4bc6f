(** Specification of arrays: edits of a plain sequence. *)
Require Import Coq.ZArith.ZArith Coq.Lists.List Coq.Bool.Bool.
Require Import Verif.Base Verif.Array_Model.
Import ListNotations.

Section Spec.
  Variable A : Type.

  (** Replace [len] elements from position [loc] by [new]. *)
  Definition splice (l : list A) (loc len : nat) (new : list A) : list A :=
    firstn loc l ++ new ++ skipn (loc + len) l.

  Definition valid_range (loc len : Z) (l : list A) : bool :=
    ((0 <=? loc) && (0 <=? len) && (loc + len <=? Z.of_nat (length l)))%Z.

  (** An edit with an invalid range is refused. *)
  Definition seq_replace (l : list A) (loc len : Z) (new : list A) : list A :=
    if valid_range loc len l then splice l (Z.to_nat loc) (Z.to_nat len) new else l.

  Definition seq_step (l : list A) (o : aop A) : list A * ares A :=
    match o with
    | AAppend new => (l ++ new, ANone)
    | AReplaceRange loc len new => (seq_replace l loc len new, ANone)
    | AReplaceRangeC loc len new => (seq_replace l loc len new, ANone)
    | ASet i x => (seq_replace l i 1 [x], ANone)
    | AInsert i x => (seq_replace l i 0 [x], ANone)
    | ARemoveAt i => (seq_replace l i 1 [], ANone)
    | ARemoveRange loc len => (seq_replace l loc len [], ANone)
    | ARemoveAll => ([], ANone)
    | AGet i => (l, AObj (if (0 <=? i)%Z then nth_error l (Z.to_nat i) else None))
    | AGetRange loc len =>
        (l, AObjs (if valid_range loc len l
                   then Some (firstn (Z.to_nat len) (skipn (Z.to_nat loc) l)) else None))
    | ACount => (l, ANum (length l))
    end.

  Fixpoint seq_run (l : list A) (os : list (aop A)) : list A * list (ares A) :=
    match os with
    | [] => (l, [])
    | o :: os' =>
        let (l1, r) := seq_step l o in
        let (l2, rs) := seq_run l1 os' in
        (l2, r :: rs)
    end.

  (** The end of every range passed in, and every length, is a 64-bit integer. *)
  Definition op_fits (o : aop A) : Prop :=
    match o with
    | AReplaceRange loc len _ | AReplaceRangeC loc len _ | ARemoveRange loc len | AGetRange loc len =>
        (loc + len <= INT64_MAX)%Z
    | ASet i _ | AInsert i _ | ARemoveAt i => (i + 1 <= INT64_MAX)%Z
    | _ => True
    end.

  Fixpoint fits (l : list A) (os : list (aop A)) : Prop :=
    (Z.of_nat (length l) <= INT64_MAX)%Z /\
    match os with
    | [] => True
    | o :: os' => op_fits o /\ fits (fst (seq_step l o)) os'
    end.
End Spec.

(** What a reader of the array observes: its count, and the object at every
    index (None is the checked error for an index outside the array). *)
Definition shows {A} (a : garray A) (l : list A) : Prop :=
  glen a = length l /\
  forall i, array_get A a i = Ok (if (0 <=? i)%Z then nth_error l (Z.to_nat i) else None).
