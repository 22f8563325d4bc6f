(** Properties C106-C115: the properties of objects. *)
Require Import Coq.NArith.NArith Coq.ZArith.ZArith Coq.Lists.List Coq.Arith.Arith Coq.Bool.Bool Coq.micromega.Lia.
Require Import Verif.Base Verif.Number_Model Verif.Number_Spec Verif.Property_Model Verif.Property_Spec Verif.Property_Steps Verif.Property_Results Verif.Property_Values Verif.Property_Watch Verif.Property_Paths Verif.Property_Cases.
Require Verif.Utf8_Spec.
Import ListNotations.
Local Open Scope nat_scope.

(** C106 for sensible programs: whatever a client that keeps to the rules does, every counted
    reference belongs to the client, the pool or a property, and nothing is undefined.  Not
    covered: properties with accessors of their own, matrices and floating point numbers. *)
Theorem C106_ownership_partial : forall P w c a, sensible P -> reachable P w c ->
  accounted w c /\ (permitted P w c a -> exists w', step P w a = Ok w' /\ reachable P w' (owns w c a)).
Proof. exact ownership. Qed.
Print Assumptions C106_ownership_partial.
Example C106_case : sensible demo /\ exists w l, reaches demo start [] w [0] l /\ permitted demo w [0] Drain /\ in_memory (memory w) 1 = 2 /\ pool w = [1].
Proof.
  split; [exact demo_sensible|]. eexists. exists (thing ++ [Set_ (GObj 0) [97%N] (Some 1); Set_ (GObj 0) [104%N] (Some 1); Set_ (GObj 0) [98%N] (Some 1); Get_ (GObj 0) [98%N]; Release 1]).
  split; [|split; [exact Logic.I|]]; [cbn [app thing]; eapply r_step; [allowed|vm_compute; reflexivity|]; cbn [owns start heap length]|].
  - eapply r_step; [allowed|vm_compute; reflexivity|]. cbn [owns heap length]. do 4 (eapply r_step; [allowed|vm_compute; reflexivity|]; cbn [owns]). eapply r_step; [left; reflexivity|vm_compute; reflexivity|]. apply r_here.
  - split; reflexivity.
Qed.
(** C106 is false for a property that is both copied and weak: reading it takes the object for a
    weak reference. *)
Definition odd : property := mkP [97%N] None false true true 0 EObj None None None None true true true true.
Definition odd_program : program := mkProg (fun _ => [odd]) (fun _ => None).
Theorem C106_copied_weak_refuted : exists P w c o n, reachable P w c /\ permitted P w c (Get_ (GObj o) n) /\ step P w (Get_ (GObj o) n) = UB.
Proof.
  exists odd_program. eexists. exists [1; 0], 0, [97%N].
  split; [exists [New 2 COther; New 3 COther; Set_ (GObj 0) [97%N] (Some 1)]; steps|]. split; [lives|vm_compute; reflexivity].
Qed.
Print Assumptions C106_copied_weak_refuted.

(** C107: reading an object property gives the object last stored ... *)
Theorem C107_strong : forall P w c o p x w1 l w2 c2 j, sensible P -> after_set P w c o p x w1 l w2 c2 -> copied p = false -> weak p = false ->
  exists w3, get_property P w2 (GObj o) (pname p) j = Ok (w3, got_of x).
Proof. exact strong_result. Qed.
Print Assumptions C107_strong.
(** ... from a weak property, as long as it lives; then nothing ... *)
Theorem C107_weak : forall P w c o p x w1 l w2 c2 j, sensible P -> after_set P w c o p x w1 l w2 c2 -> copied p = false -> weak p = true ->
  (alive_opt w2 x -> exists w3, get_property P w2 (GObj o) (pname p) j = Ok (w3, got_of x)) /\
  (~ alive_opt w2 x -> exists w3, get_property P w2 (GObj o) (pname p) j = Ok (w3, GNull)).
Proof. exact weak_result. Qed.
Print Assumptions C107_weak.
(** ... from a copied property, an object of its own with the value at the time. *)
Theorem C107_copied : forall P w c o p x w1 l w2 c2 j, sensible P -> length j = 4 -> octets j -> after_set P w c o p x w1 l w2 c2 -> copied p = true ->
  match x with
  | None => exists w3, get_property P w2 (GObj o) (pname p) j = Ok (w3, GNull)
  | Some i => exists cl b, is_a w i cl b /\
      match copies P cl with
      | None => exists w3, get_property P w2 (GObj o) (pname p) j = Ok (w3, GObj i)
      | Some cl' => exists k w3, nth_error (heap w) k = None /\ get_property P w2 (GObj o) (pname p) j = Ok (w3, GObj k) /\ (Forall (fun a => ~ mutates a k) l -> is_a w3 k cl' b)
      end
  end.
Proof. exact copy_result. Qed.
Print Assumptions C107_copied.
Definition stored_in (p : property) (l : list op) : Prop :=
  exists w w1 w2 c2, after_set demo w [1; 0] 0 p (Some 1) w1 l w2 c2.
Ltac stored_case := unfold stored_in; eexists; eexists; eexists; eexists; constructor;
  [exists thing; steps|eexists; split; [reflexivity|cbn; auto 10]|reflexivity|reflexivity|exact Logic.I
  |allowed|vm_compute; reflexivity|cbn [app]; repeat (eapply r_step; [first [left; reflexivity|allowed]|vm_compute; reflexivity|]; cbn [owns without Nat.eqb]); apply r_here
  |repeat (apply Forall_cons; [cbn; try tauto; intros [_ H]; discriminate|]); apply Forall_nil|lives].
Example C107_case : stored_in p_strong [Release 1; Set_ (GObj 0) [98%N] None; Drain] /\ stored_in p_weak [Release 1] /\ stored_in p_copy [Mutate 1 (CText [97%N]); Release 1; Get_ (GObj 0) [99%N]].
Proof.
  split; [|split]; stored_case.
Qed.

(** C108: a number property gives back the numbers stored, converted to any type that holds them. *)
Theorem C108_numbers : forall P w c o p tv k vs m t t' w1 l w2 c2 dst j, sensible P -> reachable P w c -> has_property P w o p -> enc p = ENum t (Vec k) -> readonly p = false -> 0 < k ->
  is_number (mkNum tv (Vec k) m) tv (Vec k) vs -> Forall (holds t) vs -> permitted P w c (SetNum (GObj o) (pname p) (mkNum tv (Vec k) m)) -> step P w (SetNum (GObj o) (pname p) (mkNum tv (Vec k) m)) = Ok w1 ->
  reaches P w1 c w2 c2 l -> Forall (fun a => ~ writes a o (pname p)) l -> alive w2 o -> integer_type t' -> Forall (holds t') vs -> length dst = size t' (Vec k) -> octets dst ->
  exists w3, get_number P w2 (GObj o) (pname p) t' (Vec k) dst j = Ok (w3, k, flat_map (le (width t')) vs).
Proof. exact number_result. Qed.
Print Assumptions C108_numbers.
Theorem C108_integer : forall P w c o p z t w1 l w2 c2 j j', sensible P -> reachable P w c -> has_property P w o p -> enc p = ENum t (Vec 1) -> readonly p = false ->
  (- 2 ^ 63 <= z < 2 ^ 63)%Z -> holds t z -> alive w o -> set_integer P w (GObj o) (pname p) z = Ok w1 ->
  reaches P w1 c w2 c2 l -> Forall (fun a => ~ writes a o (pname p)) l -> alive w2 o -> length j = 8 -> octets j ->
  exists w3, get_integer P w2 (GObj o) (pname p) j j' = Ok (w3, z).
Proof. exact integer_result. Qed.
Print Assumptions C108_integer.
Example C108_case : exists w w1, reachable demo w [1; 0] /\ has_property demo w 0 p_num /\ alive w 0 /\ holds (mkI true 2) (-300) /\
  set_integer demo w (GObj 0) [100%N] (-300) = Ok w1 /\ alive w1 0 /\ exists w2, get_integer demo w1 (GObj 0) [100%N] (repeat 7%Z 8) zeros4 = Ok (w2, (-300)%Z).
Proof.
  eexists. eexists. split; [exists thing; steps|]. split; [eexists; split; [reflexivity|cbn; auto 10]|]. split; [lives|]. split; [cbn; lia|].
  split; [vm_compute; reflexivity|]. split; [lives|]. eexists. vm_compute. reflexivity.
Qed.

(** C109: a structure property gives back the bytes stored, and refuses another semantic. *)
Theorem C109_structures : forall P w c o p sem bs w1 l w2 c2 sem' dst j, sensible P -> reachable P w c -> has_property P w o p -> enc p = EBin (length bs) -> readonly p = false ->
  semantic p = None \/ semantic p = sem -> semantic p = None \/ semantic p = sem' -> permitted P w c (SetStruct (GObj o) (pname p) sem bs) -> step P w (SetStruct (GObj o) (pname p) sem bs) = Ok w1 ->
  reaches P w1 c w2 c2 l -> Forall (fun a => ~ writes a o (pname p)) l -> alive w2 o -> length dst = length bs ->
  exists w3, get_struct P w2 (GObj o) (pname p) sem' dst j = Ok (w3, length bs, bs).
Proof. exact struct_result. Qed.
Print Assumptions C109_structures.
Theorem C109_semantic : forall P w c o p sem bs, sensible P -> reachable P w c -> alive w o -> has_property P w o p -> readonly p = false -> semantic p <> None -> semantic p <> sem ->
  step P w (SetStruct (GObj o) (pname p) sem bs) = Ok (note w Warning).
Proof. exact refused_semantic. Qed.
Print Assumptions C109_semantic.
Example C109_case : exists w w1, reachable demo w [1; 0] /\ has_property demo w 0 p_struct /\ permitted demo w [1; 0] (SetStruct (GObj 0) [101%N] (Some [120%N]) [1; 2; 255]%Z) /\
  step demo w (SetStruct (GObj 0) [101%N] (Some [120%N]) [1; 2; 255]%Z) = Ok w1 /\ alive w1 0 /\ semantic p_struct <> Some [121%N].
Proof.
  eexists. eexists. split; [exists thing; steps|]. split; [eexists; split; [reflexivity|cbn; auto 10]|]. split; [allowed|]. split; [vm_compute; reflexivity|]. split; [lives|discriminate].
Qed.

(** C110 for names of the enumeration, whose names and values are distinct. *)
Theorem C110_names_partial : forall P w c o p t e x cl s v w1 l w2 c2 j, sensible P -> reachable P w c -> has_property P w o p -> enc p = ENum t (Vec 1) -> readonly p = false -> enumt p = Some e ->
  NoDup (map fst e) -> NoDup (map snd e) -> In (s, v) e -> holds t v -> holds int32 v -> is_a w x cl (CText s) ->
  permitted P w c (Set_ (GObj o) (pname p) (Some x)) -> step P w (Set_ (GObj o) (pname p) (Some x)) = Ok w1 ->
  reaches P w1 c w2 c2 l -> Forall (fun a => ~ writes a o (pname p)) l -> alive w2 o -> length j = 4 -> octets j ->
  exists w3, get_property P w2 (GObj o) (pname p) j = Ok (w3, GText s).
Proof. exact enum_result. Qed.
Print Assumptions C110_names_partial.
Example C110_case : exists w w1, reachable demo w [1; 0] /\ has_property demo w 0 p_enum /\ NoDup (map fst colours) /\ NoDup (map snd colours) /\ is_a w 1 3 (CText [114%N]) /\
  permitted demo w [1; 0] (Set_ (GObj 0) [102%N] (Some 1)) /\ step demo w (Set_ (GObj 0) [102%N] (Some 1)) = Ok w1 /\ alive w1 0.
Proof.
  eexists. eexists. split; [exists (thing ++ [Mutate 1 (CText [114%N])]); cbn [app thing]; steps|]. split; [eexists; split; [reflexivity|cbn; auto 10]|].
  split; [repeat constructor; cbn; intuition discriminate|]. split; [repeat constructor; cbn; intuition discriminate|]. split; [eexists; reflexivity|]. split; [allowed|]. split; [vm_compute; reflexivity|lives].
Qed.
(** C110 is false for other names: they are taken for the value 0, without a warning. *)
Theorem C110_unknown_refuted : exists P w c o n x s w1 w2 s', sensible P /\ reachable P w c /\ is_a w x 3 (CText s) /\ permitted P w c (Set_ (GObj o) n (Some x)) /\
  step P w (Set_ (GObj o) n (Some x)) = Ok w1 /\ ~ In Warning (log w1) /\ get_property P w1 (GObj o) n zeros4 = Ok (w2, GText s') /\ s' <> s.
Proof.
  exists demo. eexists. exists [1; 0], 0, [102%N], 1, [104; 105]%N. eexists. eexists. exists [122%N]. split; [exact demo_sensible|]. split; [exists thing; steps|].
  split; [eexists; reflexivity|]. split; [allowed|]. split; [vm_compute; reflexivity|]. split; [vm_compute; intuition discriminate|]. split; [vm_compute; reflexivity|discriminate].
Qed.
Print Assumptions C110_unknown_refuted.

(** C111: writing a property that is read-only, or not defined, only warns. *)
Theorem C111_refused : forall P w c o n a, sensible P -> reachable P w c -> alive w o ->
  (forall cl b p, is_a w o cl b -> In p (props P cl) -> pname p = n -> readonly p = true) ->
  forall x v sem bs, a = Set_ (GObj o) n x \/ a = SetNum (GObj o) n v \/ a = SetStruct (GObj o) n sem bs -> step P w a = Ok (note w Warning).
Proof. exact refused. Qed.
Print Assumptions C111_refused.
Example C111_case : exists w, reachable demo w [1; 0] /\ alive w 0 /\ has_property demo w 0 p_read /\
  forall n, n = [103%N] \/ n = [120%N] -> forall cl b p, is_a w 0 cl b -> In p (props demo cl) -> pname p = n -> readonly p = true.
Proof.
  eexists. split; [exists thing; steps|]. split; [lives|]. split; [eexists; split; [reflexivity|cbn; auto 10]|].
  intros n Hn cl b p (k & E) H. cbn in E. injection E as <- _ _. cbn [props demo Nat.eqb] in H. cbn [In] in H. each H; destruct Hn; subst; cbn; auto; discriminate.
Qed.

(** C112: with all four observers, accesses are announced and reported one after another, and
    the memory of a property changes only when a write of it was announced and reported. *)
Theorem C112_observers : forall P w c a w', sensible P -> observed P -> reachable P w c -> orderly (log w) /\
  (step P w a = Ok w' -> exists l, log w' = log w ++ l /\ orderly l /\
    forall o off, find_slot (memory w') (o, off) <> find_slot (memory w) (o, off) -> exists p, has_property P w o p /\ offset p = off /\ In (WillWrite o (pname p)) l /\ In (DidWrite o (pname p)) l).
Proof. exact watching. Qed.
Print Assumptions C112_observers.
Example C112_case : sensible demo /\ observed demo /\ exists w w', reachable demo w [1; 0] /\ step demo w (Set_ (GObj 0) [97%N] (Some 1)) = Ok w' /\
  find_slot (memory w') (0, 0) <> find_slot (memory w) (0, 0) /\ log w = [WillRead 0 [97%N]; DidRead 0 [97%N]] /\ log w' = log w ++ [WillWrite 0 [97%N]; DidWrite 0 [97%N]].
Proof.
  split; [exact demo_sensible|]. split; [exact demo_observed|]. eexists. eexists. split; [exists (thing ++ [Get_ (GObj 0) [97%N]]); cbn [app thing]; steps|].
  split; [vm_compute; reflexivity|]. split; [discriminate|]. split; reflexivity.
Qed.

(** C113 for properties that are not copied and requirements on the class: what is read meets the
    requirement, and an object that does not is refused. *)
Theorem C113_requirement_partial : forall P w c o p f j w' x, sensible P -> reachable P w c -> has_property P w o p -> enc p = EObj -> copied p = false -> pred p = Some f -> by_class p -> length j = 4 -> octets j ->
  alive w o -> get_property P w (GObj o) (pname p) j = Ok (w', GObj x) -> exists cl b, is_a w' x cl b /\ f (Some (cl, b)) = true.
Proof. exact requirement. Qed.
Print Assumptions C113_requirement_partial.
Theorem C113_refused : forall P w c o p f x, sensible P -> reachable P w c -> has_property P w o p -> enc p = EObj -> readonly p = false -> pred p = Some f -> alive w o -> ~ accepts p w x -> alive_opt w x ->
  step P w (Set_ (GObj o) (pname p) x) = Ok (note w Warning).
Proof. exact unmet. Qed.
Print Assumptions C113_refused.
Example C113_case : by_class p_only /\ exists w w', reachable demo w [1; 0] /\ has_property demo w 0 p_only /\ alive w 0 /\ get_property demo w (GObj 0) [104%N] zeros4 = Ok (w', GObj 1) /\ ~ accepts p_only w (Some 0).
Proof.
  split. { intros f c b b' E. injection E as <-. destruct c as [|[|[|[|c]]]]; reflexivity. }
  eexists. eexists. split; [exists (thing ++ [Set_ (GObj 0) [104%N] (Some 1)]); cbn [app thing]; steps|]. split; [eexists; split; [reflexivity|cbn; auto 10]|]. split; [lives|]. split; [vm_compute; reflexivity|].
  intros (c & b & (k & E) & H). cbn in E. injection E as <- <- _. discriminate.
Qed.
(** C113 is false for copied properties: the copy of a mutable string is of another class. *)
Theorem C113_copied_refuted : exists P w c o p f w' x cl b, sensible P /\ reachable P w c /\ has_property P w o p /\ pred p = Some f /\ by_class p /\
  get_property P w (GObj o) (pname p) zeros4 = Ok (w', GObj x) /\ is_a w' x cl b /\ f (Some (cl, b)) = false.
Proof.
  exists demo. eexists. exists [1; 0], 0, p_only_copy, only3. eexists. eexists. eexists. eexists. split; [exact demo_sensible|].
  split; [exists (thing ++ [Set_ (GObj 0) [105%N] (Some 1)]); cbn [app thing]; steps|]. split; [eexists; split; [reflexivity|cbn; auto 10]|]. split; [reflexivity|].
  split. { intros f c b b' E. injection E as <-. destruct c as [|[|[|[|c]]]]; reflexivity. }
  split; [vm_compute; reflexivity|]. split; [eexists; reflexivity|reflexivity].
Qed.
Print Assumptions C113_copied_refuted.

(** C114: reading a key path is reading its keys one after another, and writing one is reading
    all keys but the last and writing that. *)
Theorem C114_get : forall P w g ks j, Forall key_text ks -> ks <> [] -> get_path P w g (Utf8_Spec.encode (dotted ks)) j = walk P w g (map Utf8_Spec.encode ks) j.
Proof. exact get_path_walk. Qed.
Print Assumptions C114_get.
Theorem C114_set : forall P w g ks k x j, Forall key_text (ks ++ [k]) ->
  set_path P w g (Utf8_Spec.encode (dotted (ks ++ [k]))) x j = match walk P w g (map Utf8_Spec.encode ks) j with Ok (w', o) => set_property P w' o (Utf8_Spec.encode k) x | UB => UB | Fatal => Fatal | NoFuel => NoFuel end.
Proof. exact set_path_walk. Qed.
Print Assumptions C114_set.
Example C114_case : Forall key_text [[97%N]; [97%N]; [233; 98]%N] /\ dotted [[97%N]; [97%N]; [233; 98]%N] = [97; 46; 97; 46; 233; 98]%N /\ exists w w' w'', reachable demo w [0] /\
  get_path demo w (GObj 0) [97; 46; 97]%N zeros4 = Ok (w', GObj 0) /\ set_path demo w (GObj 0) [98; 46; 97]%N None zeros4 = Ok w''.
Proof.
  split; [repeat apply Forall_cons; try apply Forall_nil; (split; [repeat (apply Forall_cons; [cbv; intuition discriminate|]); apply Forall_nil|]); split; try discriminate; cbn; intuition discriminate|]. split; [reflexivity|]. eexists. eexists. eexists. split; [exists [New 2 COther; Set_ (GObj 0) [97%N] (Some 0)]; steps|].
  split; vm_compute; reflexivity.
Qed.

(** C115 for properties installed before the subclass is made: a class has the properties
    installed in it last, and otherwise those its superclass had when it was made. *)
Theorem C115_inherited_partial : forall h c n, find_property (nth c (class_run (rev h)) []) n = inherited h c n.
Proof. exact inheritance. Qed.
Print Assumptions C115_inherited_partial.
Example C115_case : let h := [Install 1 p_strong; NewClass (Some 0); Install 0 p_weak; Install 0 (base 97 64 EObj); NewClass None] in
  inherited h 1 [97%N] = Some p_strong /\ inherited h 1 [98%N] = Some p_weak /\ inherited h 0 [97%N] = Some (base 97 64 EObj).
Proof. vm_compute. auto. Qed.
(** C115 is false for properties installed later: the subclass does not get them. *)
Theorem C115_late_refuted : exists l p, In (NewClass (Some 0)) l /\ find_property (nth 0 (class_run l) []) (pname p) = Some p /\ find_property (nth 1 (class_run l) []) (pname p) = None.
Proof. exists [NewClass None; NewClass (Some 0); Install 0 p_strong], p_strong. vm_compute. auto. Qed.
Print Assumptions C115_late_refuted.
