Require Import Coq.ZArith.ZArith Coq.NArith.NArith Coq.Lists.List Coq.Bool.Bool Coq.Arith.Arith Coq.Sorting.Permutation Lia.
Require Import Verif.Base Verif.HashTable_Model Verif.SetDict_Model Verif.SelfSet_Model Verif.HashTable_Spec Verif.SetDict_Spec Verif.HashTable_Proofs Verif.SetDict_Proofs.
Import ListNotations.

Section Proofs.
  Variable K : Type.
  Variable hash : K -> N.
  Variable keq : K -> K -> bool.
  Hypothesis Heq : equivalence K keq.
  Hypothesis Hhash : hash_respects K keq hash.
  Let refl := proj1 Heq.
  Let sym := proj1 (proj2 Heq).
  Let trans := proj2 (proj2 Heq).
  Notation refines := (refines K K hash keq).
  Notation diag := (diag K keq).

  Lemma active_in : forall (rs : list (row K K)) n k x, nth_error rs n = Some (Active k x) -> In (k, x) (active_rows rs).
  Proof.
    induction rs as [|r rs IH]; intros n k x H; [destruct n; discriminate|]. destruct n as [|n]; cbn [nth_error] in H.
    - inversion H; subst. left. reflexivity.
    - specialize (IH n k x H). destruct r; cbn [active_rows]; auto. right. exact IH.
  Qed.
  Lemma row_in : forall t rs i k x m, refines t m -> rows t = Some rs -> row_at K K rs i = Some (Active k x) -> In (k, x) m.
  Proof. intros t rs i k x m (_ & Q) E H. apply (Permutation_in _ Q). unfold enumerate. rewrite E. eapply active_in. exact H. Qed.

  Lemma union_rows : forall fuel t i t' m, refines t m -> diag m -> each_row K fuel (set_add K hash keq) t i = Ok t' -> refines t' m.
  Proof.
    induction fuel as [|fuel IH]; intros t i t' m R D H; cbn [each_row] in H; (destruct (rowCount t <=? i)%N; [inversion H; subst; exact R|]); [discriminate|].
    destruct (rows t) as [rs|] eqn:E; [|discriminate]. destruct (row_at K K rs i) as [[| |k x]|] eqn:Q; try discriminate; try (eapply IH; eauto; fail).
    destruct (set_add K hash keq t x) as [t1| | |] eqn:S; try discriminate. cbn [obind] in H. apply (IH t1 _ _ m) in H; auto.
    unfold set_add in S. destruct (insert K K hash keq t x x InsertIfNotFound) as [[t2 b]| | |] eqn:S2; try discriminate. cbn [obind fst] in S. inversion S; subst.
    destruct (insert_refines K K hash keq Heq Hhash _ _ _ _ _ _ _ R S2) as (R1 & _). cbn [amap_insert] in R1. unfold amap_add in R1. pose proof (row_in _ _ _ _ _ _ R E Q) as I.
    destruct (amap_get K K keq m x) eqn:G; [exact R1|]. unfold amap_get in G. apply (find_none _ _ G) in I. specialize (D _ (row_in _ _ _ _ _ _ R E Q)). cbn [fst snd] in *. congruence.
  Qed.

  (** No object is in a row before [i]. *)
  Definition passed (t : table K K) (i : N) : Prop := forall rs j k x, rows t = Some rs -> (j < i)%N -> row_at K K rs j <> Some (Active k x).
  Lemma remove_passed : forall t m k t' i, refines t m -> remove K K hash keq t k = Ok t' -> passed t i -> passed t' i /\ rowCount t' = rowCount t.
  Proof.
    intros t m k t' i R H Pa. unfold remove in H. destruct (0 <? activeCount t)%N; [|inversion H; subst; auto]. destruct (rows t) as [rs|] eqn:E; [|discriminate].
    destruct (find K K hash keq rs (rowCount t) k) as [[x st]| | |] eqn:F; try discriminate. cbn [obind fst snd] in H. destruct st; try (inversion H; subst; auto; fail). inversion H; subst. split; [|reflexivity].
    intros rs' j k' x' E' Hj. cbn [rows] in E'. inversion E'; subst. destruct (N.eq_dec x j) as [->|N].
    - unfold row_at, write_row. intros C. assert (L : (N.to_nat j < length rs)%nat). { rewrite <- (upd_length _ rs (N.to_nat j) Deleted). apply nth_error_Some. rewrite C. discriminate. }
      destruct (nth_error rs (N.to_nat j)) eqn:G; [|apply nth_error_None in G; lia]. change (row_at K K (write_row K K rs j Deleted) j = Some (Active k' x')) in C. rewrite (row_at_write_eq K K rs j Deleted _ G) in C. discriminate.
    - rewrite row_at_write_neq by exact N. apply (Pa rs j k' x' E Hj).
  Qed.
  Lemma minus_rows : forall fuel t i t' m, refines t m -> diag m -> passed t i -> each_row K fuel (set_remove K hash keq) t i = Ok t' -> exists m', refines t' m' /\ passed t' (rowCount t').
  Proof.
    induction fuel as [|fuel IH]; intros t i t' m R D Pa H; cbn [each_row] in H; (destruct (N.leb_spec (rowCount t) i); [inversion H; subst; exists m; split; [exact R|]; intros rs j k x E Hj; apply (Pa rs j k x E); lia|]); [discriminate|].
    destruct (rows t) as [rs|] eqn:E; [|discriminate]. destruct (row_at K K rs i) as [r|] eqn:Q; [|discriminate].
    assert (Next : (forall k x, r <> Active k x) -> passed t (i + 1)%N).
    { intros N rs' j k x E' Hj. rewrite E in E'. inversion E'; subst. destruct (N.eq_dec j i) as [->|]; [rewrite Q; intros C; inversion C; subst; eapply N; eauto|]. apply (Pa rs' j k x E). lia. }
    destruct r as [| |k x].
    1,2: apply (IH t (i + 1)%N t' m R D); [apply Next; intros; discriminate|exact H].
    unfold set_remove in H at 1. destruct (remove K K hash keq t x) as [t1| | |] eqn:S; try discriminate. cbn [obind] in H.
    pose proof (remove_refines K K hash keq Heq Hhash _ _ _ _ R S) as R1. destruct (remove_passed t m x t1 i R S Pa) as (P1 & C1).
    apply (IH t1 (i + 1)%N t' (amap_remove K K keq m x) R1); [| |exact H].
    - intros e He. apply filter_In in He. apply D. apply He.
    - intros rs' j k' x' E' Hj C. destruct (N.eq_dec j i) as [->|]; [|apply (P1 rs' j k' x' E' ltac:(lia) C)].
      (* The row would still have an object; it is the one that was removed. *)
      assert (SAME : k' = k /\ x' = x).
      { unfold remove in S. destruct (0 <? activeCount t)%N; [|inversion S; subst; rewrite E in E'; inversion E'; subst; rewrite Q in C; inversion C; auto]. rewrite E in S.
        destruct (find K K hash keq rs (rowCount t) x) as [[y st]| | |] eqn:F; try discriminate. cbn [obind fst snd] in S.
        destruct st; inversion S; subst; cbn [rows] in E'; try (rewrite E in E'; inversion E'; subst; rewrite Q in C; inversion C; auto; fail).
        inversion E'; subst. destruct (N.eq_dec y i) as [->|N]; [rewrite (row_at_write_eq K K rs i Deleted _ Q) in C; discriminate|]. rewrite row_at_write_neq in C by exact N. rewrite Q in C. inversion C; auto. }
      destruct SAME as (-> & ->). pose proof (row_in _ _ _ _ _ _ R1 E' C) as I. apply filter_In in I. destruct I as (I & N). cbn [fst] in N. pose proof (D _ (row_in _ _ _ _ _ _ R E Q)) as DD. cbn [fst snd] in DD. rewrite DD in N. discriminate.
  Qed.
  Lemma no_active : forall rs : list (row K K), (forall n k x, nth_error rs n <> Some (Active k x)) -> active_rows rs = [].
  Proof.
    induction rs as [|r rs IH]; intros H; [reflexivity|]. destruct r as [| |k x]; cbn [active_rows]; [| |exfalso; apply (H 0%nat k x); reflexivity]; apply IH; intros n k x C; apply (H (S n) k x C).
  Qed.
  Theorem self : forall e t fuel t', build K hash keq e = Ok t ->
    (self_union K hash keq fuel t = Ok t' -> Permutation (set_objects t') (set_objects t) /\ count t' = count t) /\
    (self_minus K hash keq fuel t = Ok t' -> set_objects t' = [] /\ count t' = 0%N).
  Proof.
    intros e t fuel t' B. destruct (build_ok K hash keq Heq Hhash e t B) as (m & R & D & _). split; intros H.
    - pose proof (union_rows fuel t 0 t' m R D H) as R'. split; [|rewrite (count_refines K K hash keq t m R), (count_refines K K hash keq t' m R'); reflexivity].
      unfold set_objects. apply Permutation_map. rewrite (proj2 R'). symmetry. apply R.
    - destruct (minus_rows fuel t 0 t' m R D) as (m' & R' & Pa); [intros rs j k x _ Hj; lia|exact H|].
      assert (E : enumerate t' = []).
      { unfold enumerate. destruct (rows t') as [rs|] eqn:Er; [|reflexivity]. apply no_active. intros n k x C. destruct R' as ([->|rs' I _] & _); [discriminate|]. destruct I as [I1 I2 _ _ _]. rewrite I1 in Er. inversion Er; subst.
        destruct I2 as (L & _). assert (n < length rs)%nat by (apply nth_error_Some; rewrite C; discriminate). apply (Pa rs (N.of_nat n) k x I1); [lia|]. unfold row_at. rewrite Nat2N.id. exact C. }
      unfold set_objects. rewrite E. split; [reflexivity|]. rewrite (count_refines K K hash keq t' m' R'). unfold amap_count. rewrite <- (Permutation_length (proj2 R')), E. reflexivity.
  Qed.
End Proofs.

Require Import Verif.Array_Model.
Require Verif.Tree_Model.
Definition ncmp (a b : N) : Z := (Z.of_N b - Z.of_N a)%Z.
Lemma hash_set :
  let e := SAdd (SRemove (SAdd (SAdd (SAdd SEmpty 5%N) 7%N) 20%N) 7%N) 31%N in
  exists t t1 t2, build N (fun k => k) N.eqb e = Ok t /\ count t = 3%N /\ self_union N (fun k => k) N.eqb 100 t = Ok t1 /\ count t1 = 3%N /\ self_minus N (fun k => k) N.eqb 100 t = Ok t2 /\ count t2 = 0%N.
Proof.
  intros e. destruct (build N (fun k => k) N.eqb e) as [t| | |] eqn:E; [|vm_compute in E; discriminate..]. exists t.
  destruct (self_union N (fun k => k) N.eqb 100 t) as [t1| | |] eqn:E1; [|vm_compute in E; inversion E; subst; vm_compute in E1; discriminate..].
  destruct (self_minus N (fun k => k) N.eqb 100 t) as [t2| | |] eqn:E2; [|vm_compute in E; inversion E; subst; vm_compute in E2; discriminate..].
  exists t1, t2. vm_compute in E. inversion E; subst. vm_compute in E1, E2. inversion E1; inversion E2; subst. repeat split.
Qed.
Lemma array_refuted : exists a a', array_run N 0%N array_init [AAppend [1; 2; 3]%N] = Ok (a, [ANone]) /\ array_self_minus N 0%N N.eqb 10 a = Ok a' /\ glen a' = 1%nat /\ array_get N a' 0 = Ok (Some 2%N).
Proof. eexists _, _. split; [vm_compute; reflexivity|]. split; [vm_compute; reflexivity|]. split; vm_compute; reflexivity. Qed.
Lemma tree_refuted : exists t, Tree_Model.trun N N ncmp 10 (Tree_Model.init N N) [Tree_Model.TInsert N N 1%N 1%N HashTable_Model.InsertIfNotFound] = Ok (t, [Tree_Model.TUnit N N]) /\
    tree_self_minus N ncmp 10 t (Tree_Model.root N N t) = UB.
Proof. eexists. split; [reflexivity|]. vm_compute. reflexivity. Qed.
