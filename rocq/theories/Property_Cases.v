(** A program with properties of every kind, for the examples. *)
Require Import Coq.NArith.NArith Coq.ZArith.ZArith Coq.Lists.List Coq.Arith.Arith Coq.Bool.Bool Coq.micromega.Lia.
Require Import Verif.Base Verif.Number_Model Verif.Number_Spec Verif.Property_Model Verif.Property_Spec.
Import ListNotations.
Local Open Scope nat_scope.

Definition colours : list (text * Z) := [([103%N], 1%Z); ([114%N], (-2)%Z); ([122%N], 0%Z)].
Definition base (n : N) (off : nat) (e : encoding) : property := mkP [n] None false false false off e None None None None true true true true.
Definition p_strong := base 97 0 EObj.
Definition p_weak := mkP [98%N] None false true false 8 EObj None None None None true true true true.
Definition p_copy := mkP [99%N] None false false true 16 EObj None None None None true true true true.
Definition p_num := base 100 24 (ENum (mkI true 2) (Vec 1)).
Definition p_struct := mkP [101%N] (Some [120%N]) false false false 32 (EBin 3) None None None None true true true true.
Definition p_enum := mkP [102%N] None false false false 40 (ENum (mkI true 1) (Vec 1)) (Some colours) None None None true true true true.
Definition p_read := mkP [103%N] None true false false 48 EObj None None None None true true true true.
(** Only mutable strings, of class 3. *)
Definition only3 (v : option (nat * content)) : bool := match v with Some (3, _) => true | _ => false end.
Definition p_only := mkP [104%N] None false false false 56 EObj None (Some only3) None None true true true true.
Definition p_only_copy := mkP [105%N] None false false true 64 EObj None (Some only3) None None true true true true.
(** Class 2 has the properties; copies of class 3 are of class 4. *)
Definition demo : program :=
  mkProg (fun c => if c =? 2 then [p_strong; p_weak; p_copy; p_num; p_struct; p_enum; p_read; p_only; p_only_copy] else []) (fun c => if c =? 3 then Some 4 else None).
Ltac member := match goal with H : In _ (props demo ?c) |- _ => cbn [props demo] in H; destruct (Nat.eqb_spec c 2); [subst|destruct H]; cbn [In] in H end.
Ltac each H := repeat (destruct H as [H|H]); [subst..|destruct H].
Lemma demo_plain : forall c p, In p (props demo c) -> plain p.
Proof. intros c p H. member. each H; (split; [reflexivity|]); (split; [reflexivity|]); cbn; (split; [intros; discriminate|]); cbn; auto 10. Qed.
Lemma demo_sensible : sensible demo.
Proof.
  split; [exact demo_plain|]. split; intros c p q H H'; member; cbn [props demo Nat.eqb] in H'; cbn [In] in H'; each H; each H'; cbn; intros E; try reflexivity; discriminate.
Qed.
Lemma demo_observed : observed demo.
Proof. intros c p H. member. each H; auto. Qed.
(** Histories of the program. *)
Ltac lives := eexists; split; [vm_compute; reflexivity|discriminate].
Ltac small := try (exact Logic.I); try lives; try (repeat constructor; lia); try (vm_compute; tauto).
Ltac allowed := cbn [permitted receiver_ok alive_opt value_ok]; repeat (match goal with |- _ /\ _ => split end); small.
Ltac steps := repeat (eapply r_step; [allowed|vm_compute; reflexivity|]); apply r_here.
Definition thing : list op := [New 2 COther; New 3 (CText [104; 105]%N)].
Lemma start_demo : exists w, reaches demo start [] w [1; 0] thing /\ alive w 0 /\ alive w 1 /\ is_a w 1 3 (CText [104; 105]%N).
Proof.
  eexists. split; [steps|]. split; [lives|]. split; [lives|]. eexists. reflexivity.
Qed.
