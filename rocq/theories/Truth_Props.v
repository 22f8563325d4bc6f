(** Properties C180, C181: truth values and values of enumerations as properties. *)
Require Import Coq.NArith.NArith Coq.ZArith.ZArith Coq.Lists.List Coq.Arith.Arith Coq.Bool.Bool Coq.micromega.Lia.
Require Import Verif.Base Verif.Number_Model Verif.Number_Spec Verif.Property_Model Verif.Property_Spec Verif.Property_Cases Verif.Truth_Model Verif.Truth_Spec Verif.Truth_Proofs.
Import ListNotations.
Local Open Scope nat_scope.

(** C180: a truth value written to a property that holds objects is read back ... *)
Theorem C180_objects_partial : forall P w c o p yes no b w1 l w2 c2 junk junk',
  sensible P -> told P w c o p yes no b w1 l w2 c2 -> enc p = EObj -> accepts p w (Some (truth yes no b)) -> length junk' = 4 -> octets junk' ->
  exists w3, get_bool P w2 (GObj o) (pname p) yes no junk junk' = Ok (w3, b).
Proof. exact object_truth. Qed.
Print Assumptions C180_objects_partial.
(** ... and so is one written to a property that holds an integer of any size without an
    enumeration.  Missing: properties with an enumeration, where it is false; floating point
    numbers, vectors, and accessors of their own. *)
Theorem C180_numbers_partial : forall P w c o p t yes no b w1 l w2 c2 junk junk',
  sensible P -> told P w c o p yes no b w1 l w2 c2 -> enc p = ENum t (Vec 1) -> enumt p = None -> length junk = 4 -> octets junk ->
  exists w3, get_bool P w2 (GObj o) (pname p) yes no junk junk' = Ok (w3, b).
Proof. exact number_truth. Qed.
Print Assumptions C180_numbers_partial.
Definition three : list op := [New 2 COther; New 5 (boolean true); New 5 (boolean false)].
Ltac told_case := eexists; eexists; eexists; eexists; constructor;
  [exists three; steps|eexists; split; [reflexivity|cbn; auto 10]|reflexivity|lives
  |split; [discriminate|]; exists 5; repeat match goal with |- _ /\ _ => split end; first [reflexivity|lives|eexists; reflexivity]
  |vm_compute; reflexivity|steps|repeat (apply Forall_cons; [cbn; try tauto; intros [_ ?]; discriminate|]); apply Forall_nil|lives|lives|lives].
Example C180_case : (exists w w1 w2 c2, told demo w [2; 1; 0] 0 p_strong 1 2 true w1 [Set_ (GObj 0) [98%N] (Some 2); Get_ (GObj 0) [97%N]; Drain] w2 c2) /\
  (exists w w1 w2 c2, told demo w [2; 1; 0] 0 p_weak 1 2 true w1 [Drain] w2 c2) /\
  (exists w w1 w2 c2, told demo w [2; 1; 0] 0 p_copy 1 2 false w1 [] w2 c2) /\
  (exists w w1 w2 c2, told demo w [2; 1; 0] 0 p_num 1 2 true w1 [Get_ (GObj 0) [100%N]; Drain] w2 c2).
Proof. split; [|split; [|split]]; told_case. Qed.
(** C180 is false for a property with an enumeration: it is read as the name of the value, and
    a name is true when it starts like a number other than 0, true or yes. *)
Definition switch : list (text * Z) := [([111; 102; 102]%N, 0%Z); ([111; 110]%N, 1%Z)].
Definition p_switch : property := mkP [97%N] None false false false 0 (ENum (mkI true 4) (Vec 1)) (Some switch) None None None true true true true.
Definition switches : program := mkProg (fun c => if c =? 2 then [p_switch] else []) (fun _ => None).
Lemma switches_sensible : sensible switches.
Proof.
  assert (Only: forall c p, In p (props switches c) -> p = p_switch). { intros c p H. cbn [props switches] in H. destruct (c =? 2); [|destruct H]. destruct H as [<-|[]]. reflexivity. }
  split; [|split].
  - intros c p H. apply Only in H. subst p. split; [reflexivity|]. split; [reflexivity|]. cbn. split; [intros; discriminate|]. cbn. auto 10.
  - intros c p q H H' _. apply Only in H. apply Only in H'. congruence.
  - intros c p q H H' _. apply Only in H. apply Only in H'. congruence.
Qed.
Theorem C180_enumeration_refuted : exists P w c o p yes no w1 w3, sensible P /\ told P w c o p yes no true w1 [] w1 c /\ enc p = ENum (mkI true 4) (Vec 1) /\
  get_bool P w1 (GObj o) (pname p) yes no zeros4 zeros4 = Ok (w3, false).
Proof.
  exists switches. eexists. exists [2; 1; 0], 0, p_switch, 1, 2. eexists. eexists. split; [exact switches_sensible|]. split.
  { constructor; [exists three; steps|eexists; split; [reflexivity|cbn; auto 10]|reflexivity|lives
    |split; [discriminate|]; exists 5; repeat match goal with |- _ /\ _ => split end; first [reflexivity|lives|eexists; reflexivity]
    |vm_compute; reflexivity|steps|apply Forall_nil|lives|lives|lives]. }
  split; [reflexivity|]. vm_compute. reflexivity.
Qed.
Print Assumptions C180_enumeration_refuted.

(** C181: a value of an enumeration written to a property as a number is read as its name ... *)
Theorem C181_number_then_name : forall P w c o p e s z t w1 l w2 c2 j, sensible P -> reachable P w c -> has_property P w o p -> enc p = ENum t (Vec 1) -> readonly p = false -> enumt p = Some e -> proper e -> In (s, z) e ->
  holds int32 z -> holds t z -> alive w o -> set_enum P w (GObj o) (pname p) z = Ok w1 -> reaches P w1 c w2 c2 l -> Forall (fun a => ~ writes a o (pname p)) l -> alive w2 o -> length j = 4 -> octets j ->
  exists w3, get_property P w2 (GObj o) (pname p) j = Ok (w3, GText s).
Proof. exact number_then_name. Qed.
Print Assumptions C181_number_then_name.
(** ... and as the number, whether the enumeration has a name for it or not ... *)
Theorem C181_number_then_number : forall P w c o p z t w1 l w2 c2 j j', sensible P -> reachable P w c -> has_property P w o p -> enc p = ENum t (Vec 1) -> readonly p = false ->
  holds int32 z -> holds t z -> alive w o -> set_enum P w (GObj o) (pname p) z = Ok w1 -> reaches P w1 c w2 c2 l -> Forall (fun a => ~ writes a o (pname p)) l -> alive w2 o -> length j = 4 -> octets j ->
  exists w3, get_enum P w2 (GObj o) (pname p) j j' = Ok (w3, z).
Proof. exact number_then_number. Qed.
Print Assumptions C181_number_then_number.
(** ... and one written as a name is read as the number. *)
Theorem C181_name_then_number : forall P w c o p t e x cl s v w1 l w2 c2 j j', sensible P -> reachable P w c -> has_property P w o p -> enc p = ENum t (Vec 1) -> readonly p = false -> enumt p = Some e -> proper e -> In (s, v) e ->
  holds t v -> holds int32 v -> alive w o -> alive w x -> is_a w x cl (CText s) -> set_property P w (GObj o) (pname p) (Some x) = Ok w1 ->
  reaches P w1 c w2 c2 l -> Forall (fun a => ~ writes a o (pname p)) l -> alive w2 o -> length j = 4 -> octets j ->
  exists w3, get_enum P w2 (GObj o) (pname p) j j' = Ok (w3, v).
Proof. exact name_then_number. Qed.
Print Assumptions C181_name_then_number.
Example C181_case : exists w w1 w2 w3, reachable demo w [1; 0] /\ has_property demo w 0 p_enum /\ alive w 0 /\ proper colours /\ In ([114%N], (-2)%Z) colours /\ is_a w 1 3 (CText [114%N]) /\
  set_enum demo w (GObj 0) [102%N] (-2) = Ok w1 /\ get_property demo w1 (GObj 0) [102%N] zeros4 = Ok (w2, GText [114%N]) /\
  set_property demo w (GObj 0) [102%N] (Some 1) = Ok w3 /\ exists w4, get_enum demo w3 (GObj 0) [102%N] [7; 7; 7; 7]%Z zeros4 = Ok (w4, (-2)%Z).
Proof.
  eexists. eexists. eexists. eexists. split; [exists [New 2 COther; New 3 (CText [114%N])]; steps|]. split; [eexists; split; [reflexivity|cbn; auto 10]|]. split; [lives|].
  split; [split; repeat constructor; cbn; intuition discriminate|]. split; [cbn; auto|]. split; [eexists; reflexivity|].
  split; [vm_compute; reflexivity|]. split; [vm_compute; reflexivity|]. split; [vm_compute; reflexivity|]. eexists. vm_compute. reflexivity.
Qed.
