(** Proofs about the descriptions of objects. *)
Require Import Coq.Strings.String Coq.Strings.Ascii Coq.ZArith.ZArith Coq.NArith.NArith Coq.Lists.List Coq.Bool.Bool Coq.micromega.Lia.
Require Import Verif.Base Verif.Strtonum_Model Verif.JSON_Model Verif.Predicate_Model Verif.Describe_Model Verif.Describe_Spec.
Import ListNotations.
Local Open Scope N_scope.

Lemma bind_ok {A B} (x : outcome A) (f : A -> outcome B) b : obind x f = Ok b -> exists a, x = Ok a /\ f a = Ok b.
Proof. destruct x; cbn [obind]; intros E; try discriminate. eauto. Qed.
Lemma ok_inj {A} (a b : A) : Ok a = Ok b -> a = b.
Proof. intros E. injection E as E. exact E. Qed.
Ltac open H := let a := fresh "a" in let E := fresh "E" in apply bind_ok in H; destruct H as (a & E & H).

(** ** Depth *)
Lemma members_more d d' : (forall r t, d r = Ok t -> d' r = Ok t) -> forall h l n t, print_members h d n l = Ok t -> print_members h d' n l = Ok t.
Proof.
  intros M h l. induction l as [|r l IH]; intros n t E; cbn [print_members] in *; [exact E|].
  open E. open E. rewrite (M _ _ E0). cbn [obind]. rewrite (IH _ _ E1). exact E.
Qed.
Lemma entries_more d d' : (forall r t, d r = Ok t -> d' r = Ok t) -> forall h l n t, print_entries h d n l = Ok t -> print_entries h d' n l = Ok t.
Proof.
  intros M h l. induction l as [|[k x] l IH]; intros n t E; cbn [print_entries] in *; [exact E|].
  open E. open E. open E. rewrite (M _ _ E0). cbn [obind]. rewrite (M _ _ E1). cbn [obind]. rewrite (IH _ _ E2). exact E.
Qed.
Lemma operand_more d d' : (forall r t, d r = Ok t -> d' r = Ok t) -> forall r k t, operand d r k = Ok t -> operand d' r k = Ok t.
Proof. intros M r k t E. unfold operand in *. destruct r; [|exact E]. open E. rewrite (M _ _ E0). exact E. Qed.
Lemma describe_succ va h f : forall r t, describe va h f r = Ok t -> describe va h (S f) r = Ok t.
Proof.
  induction f as [|f IH]; intros r t E; [discriminate|]. cbn [describe] in E.
  remember (S f) as f' eqn:Ef. cbn [describe]. destruct r as [p|]; [|exact E]. destruct (nth_error h p) as [o|]; [|exact E].
  destruct o as [s|l|b|cls n|cls s|cls|o a ka b kb|cls l|cls l]; try exact E.
  - open E. rewrite (operand_more _ _ IH _ _ _ E0). cbn [obind].
    destruct o; try exact E; open E; rewrite (operand_more _ _ IH _ _ _ E1); exact E.
  - open E. rewrite E0. cbn [obind]. open E. rewrite (members_more _ _ IH _ _ _ _ E1). exact E.
  - open E. rewrite E0. cbn [obind]. open E. rewrite (entries_more _ _ IH _ _ _ _ E1). exact E.
Qed.
Lemma describe_more va h f f' r t : (f <= f')%nat -> describe va h f r = Ok t -> describe va h f' r = Ok t.
Proof. induction 1 as [|f' L IH]; intros E; [exact E|]. apply describe_succ, IH, E. Qed.
Lemma describe_fun va h f f' r t t' : describe va h f r = Ok t -> describe va h f' r = Ok t' -> t = t'.
Proof.
  intros E E'. pose proof (describe_more va h f (f + f') r t ltac:(lia) E) as A.
  pose proof (describe_more va h f' (f + f') r t' ltac:(lia) E') as B. congruence.
Qed.

(** ** When a description ends *)
Lemma members_parts d h : forall l n t, print_members h d n l = Ok t -> forall r, In r l -> exists u, d r = Ok u.
Proof.
  induction l as [|x l IH]; intros n t E r I; [destruct I|]. cbn [print_members] in E. open E. open E.
  destruct I as [->|I]; [eauto|]. eapply IH; eassumption.
Qed.
Lemma entries_parts d h : forall l n t, print_entries h d n l = Ok t -> forall r, In r (map fst l ++ map snd l) -> exists u, d r = Ok u.
Proof.
  induction l as [|[k x] l IH]; intros n t E r I; [destruct I|]. cbn [print_entries] in E. open E. open E. open E.
  cbn [map fst snd] in I. destruct I as [<-|I]; [eauto|]. apply in_app_or in I. destruct I as [I|[<-|I]]; eauto using in_or_app.
Qed.
Lemma operand_parts d r k t : operand d (Some r) k = Ok t -> exists u, d (Some r) = Ok u.
Proof. intros E. unfold operand in E. open E. eauto. Qed.
Lemma describe_parts va h f p t : describe va h (S f) (Some p) = Ok t -> forall q, part h q p -> exists u, describe va h f (Some q) = Ok u.
Proof.
  intros E q (o & N & I). cbn [describe] in E. rewrite N in E.
  destruct o as [s|l|b|cls n|cls s|cls|o a ka b kb|cls l|cls l]; cbn [parts] in I; try contradiction.
  - open E. destruct (unary o) eqn:U.
    + destruct I as [->|[]]. eapply operand_parts; eassumption.
    + assert (B : exists tb, operand (describe va h f) b kb = Ok tb) by (destruct o; try discriminate; open E; eauto).
      destruct I as [->|[->|[]]]; [|destruct B as (tb & B)]; eapply operand_parts; eassumption.
  - open E. open E. eapply members_parts; eassumption.
  - open E. open E. eapply entries_parts; eassumption.
Qed.
Lemma ends_acc va h : forall f p t, describe va h f (Some p) = Ok t -> Acc (part h) p.
Proof.
  induction f as [|f IH]; intros p t E; [discriminate|]. constructor. intros q Q.
  destruct (describe_parts va h f p t E q Q) as (u & U). eapply IH, U.
Qed.

Section Total.
  Variable va : Z -> outcome Z.
  Variable w : Z -> Z.
  Hypothesis vaw : forall z, va z = Ok (w z).
  Variable h : heap.
  Hypothesis C : closed h.
  Definition good (r : ref) : Prop := exists f t, describe va h f r = Ok t.
  Lemma good_all l : Forall good l -> exists f, Forall (fun r => exists t, describe va h f r = Ok t) l.
  Proof.
    induction 1 as [|r l (f & t & E) _ (f' & F)]; [exists 0%nat; constructor|].
    exists (f + f')%nat. constructor; [exists t; eapply describe_more; [|exact E]; lia|].
    apply (Forall_impl _) with (2 := F). intros r' (t' & E'). exists t'. eapply describe_more; [|exact E']. lia.
  Qed.
  Lemma members_good d l : Forall (fun r => exists t, d r = Ok t) l -> forall n, exists t, print_members h d n l = Ok t.
  Proof.
    induction 1 as [|r l (t & E) _ IH]; intros n; cbn [print_members]; [eauto|]. rewrite E. cbn [obind].
    destruct (IH (S n)) as (u & U). rewrite U. cbn [obind]. eauto.
  Qed.
  Lemma entries_good d l : Forall (fun r => exists t, d r = Ok t) (map fst l) -> Forall (fun r => exists t, d r = Ok t) (map snd l) -> forall n, exists t, print_entries h d n l = Ok t.
  Proof.
    induction l as [|[k x] l IH]; intros K X n; cbn [print_entries]; [eauto|]. inversion K as [|? ? (a & A) K']; inversion X as [|? ? (b & B) X']; subst.
    cbn [fst snd] in *. rewrite A. cbn [obind]. rewrite B. cbn [obind]. destruct (IH K' X' (S n)) as (u & U). rewrite U. cbn [obind]. eauto.
  Qed.
  Lemma good_null : good None.
  Proof. exists 1%nat. eexists. reflexivity. Qed.
  Lemma good_parts p o : nth_error h p = Some o -> (forall q, part h q p -> good (Some q)) -> Forall good (parts o).
  Proof.
    intros N IH. apply Forall_forall. intros [q|] I; [|apply good_null]. apply IH. exists o. eauto.
  Qed.
  Lemma operand_good d r k : (exists t, d r = Ok t) -> exists t, operand d r k = Ok t.
  Proof. intros (t & E). unfold operand. destruct r; [rewrite E|]; cbn [obind]; eauto. Qed.
  Lemma acc_ends p : (p < length h)%nat -> Acc (part h) p -> good (Some p).
  Proof.
    intros L A. revert L. induction A as [p _ IH]; intros L.
    destruct (nth_error h p) as [o|] eqn:N; [|apply nth_error_None in N; lia].
    assert (V : Forall (valid h) (parts o)).
    { apply nth_error_In in N. unfold closed in C. rewrite Forall_forall in C. exact (C _ N). }
    assert (G : Forall good (parts o)).
    { apply (good_parts p); [exact N|]. intros q (o' & N' & I). assert (o' = o) by congruence. subst o'. apply IH; [exists o; eauto|].
      rewrite Forall_forall in V. exact (V _ I). }
    destruct (good_all _ G) as (f & F). exists (S f). cbn [describe]. rewrite N.
    destruct o as [s|l|b|cls n|cls s|cls|o a ka b kb|cls l|cls l]; cbn [parts] in F; eauto.
    - destruct (operand_good (describe va h f) a ka) as (ta & TA). { destruct (unary o); inversion F; assumption. }
      rewrite TA. cbn [obind]. destruct o; eauto; cbn [unary] in F; inversion F as [|? ? _ F']; inversion F' as [|? ? B _]; subst;
        destruct (operand_good (describe va h f) b kb B) as (tb & TB); rewrite TB; cbn [obind]; eauto.
    - unfold header. rewrite vaw. cbn [obind]. destruct (members_good _ _ F 0) as (t & T). rewrite T. cbn [obind]. eauto.
    - unfold header. rewrite vaw. cbn [obind]. apply Forall_app in F. destruct F as (F1 & F2). destruct (entries_good _ _ F1 F2 0) as (t & T). rewrite T. cbn [obind]. eauto.
  Qed.
End Total.
Lemma lower_half_ok z : lower_half z = Ok ((z + 2^31) mod 2^32 - 2^31)%Z.
Proof. reflexivity. Qed.
Lemma ends_iff h p : closed h -> (p < length h)%nat -> ((exists fuel t, describe lower_half h fuel (Some p) = Ok t) <-> Acc (part h) p).
Proof.
  intros C L. split.
  - intros (f & t & E). exact (ends_acc _ _ _ _ _ E).
  - intros A. exact (acc_ends lower_half _ lower_half_ok h C p L A).
Qed.

(** ** What it says *)
Lemma lower_half_small n : (0 <= n < 2^31)%Z -> lower_half n = Ok n.
Proof. intros L. unfold lower_half. f_equal. rewrite Z.mod_small; lia. Qed.
Lemma format_join l : format_nums [32] l = join [32] (map print_num l).
Proof. induction l as [|x l IH]; [reflexivity|]. cbn [format_nums map join]. destruct l; [apply app_nil_r|]. rewrite IH. reflexivity. Qed.
Lemma shown_quoted h r t : quoted h r t = shown h r t.
Proof. reflexivity. Qed.
Definition tail (ls : list bytes) : bytes := concat (map (fun x => (ascii "," ++ new_line) ++ x) ls).
Lemma join_tail sep x ls : join sep (x :: ls) = x ++ concat (map (fun y => sep ++ y) ls).
Proof.
  revert x. induction ls as [|y ls IH]; intros x; cbn [join map concat]; [symmetry; apply app_nil_r|]. f_equal. change (match ls with [] => y | _ => y ++ sep ++ join sep ls end) with (join sep (y :: ls)).
  rewrite IH. rewrite <- app_assoc. reflexivity.
Qed.
Lemma members_text h d (D : ref -> bytes -> Prop) : (forall r t, d r = Ok t -> D r t) -> forall l n t, print_members h d (S n) l = Ok t ->
  exists ls, Forall2 (fun r line => exists u, D r u /\ line = shown h r u) l ls /\ t = tail ls.
Proof.
  intros M. induction l as [|r l IH]; intros n t E; cbn [print_members] in E.
  - injection E as <-. exists []. split; [constructor|reflexivity].
  - open E. open E. injection E as <-. destruct (IH _ _ E1) as (ls & F & ->). exists (shown h r a :: ls). split.
    + constructor; [exists a; split; [apply M; exact E0|reflexivity]|exact F].
    + unfold tail. cbn [map concat]. rewrite <- app_assoc. reflexivity.
Qed.
Lemma members_listing h d (D : ref -> bytes -> Prop) : (forall r t, d r = Ok t -> D r t) -> forall l t, print_members h d 0 l = Ok t ->
  exists ls, Forall2 (fun r line => exists u, D r u /\ line = shown h r u) l ls /\ t = listing ls.
Proof.
  intros M [|r l] t E; cbn [print_members] in E.
  - injection E as <-. exists []. split; [constructor|reflexivity].
  - open E. open E. injection E as <-. destruct (members_text h d D M _ _ _ E1) as (ls & F & ->). exists (shown h r a :: ls). split.
    + constructor; [exists a; split; [apply M; exact E0|reflexivity]|exact F].
    + unfold listing. rewrite join_tail. reflexivity.
Qed.
Lemma entries_text h d (D : ref -> bytes -> Prop) : (forall r t, d r = Ok t -> D r t) -> forall l n t, print_entries h d (S n) l = Ok t ->
  exists ls, Forall2 (fun e line => exists u v, D (fst e) u /\ D (snd e) v /\ line = shown h (fst e) u ++ ascii " = " ++ shown h (snd e) v) l ls /\ t = tail ls.
Proof.
  intros M. induction l as [|[k x] l IH]; intros n t E; cbn [print_entries] in E.
  - injection E as <-. exists []. split; [constructor|reflexivity].
  - open E. open E. open E. injection E as <-. destruct (IH _ _ E2) as (ls & F & ->). exists ((shown h k a ++ ascii " = " ++ shown h x a0) :: ls). split.
    + constructor; [exists a, a0; split; [apply M; exact E0|]; split; [apply M; exact E1|reflexivity]|exact F].
    + unfold tail. cbn [map concat]. rewrite <- !app_assoc. reflexivity.
Qed.
Lemma entries_listing h d (D : ref -> bytes -> Prop) : (forall r t, d r = Ok t -> D r t) -> forall l t, print_entries h d 0 l = Ok t ->
  exists ls, Forall2 (fun e line => exists u v, D (fst e) u /\ D (snd e) v /\ line = shown h (fst e) u ++ ascii " = " ++ shown h (snd e) v) l ls /\ t = listing ls.
Proof.
  intros M [|[k x] l] t E; cbn [print_entries] in E.
  - injection E as <-. exists []. split; [constructor|reflexivity].
  - open E. open E. open E. injection E as <-. destruct (entries_text h d D M _ _ _ E2) as (ls & F & ->). exists ((shown h k a ++ ascii " = " ++ shown h x a0) :: ls). split.
    + constructor; [exists a, a0; split; [apply M; exact E0|]; split; [apply M; exact E1|reflexivity]|exact F].
    + unfold listing. rewrite join_tail, !shown_quoted. unfold prefix. fold new_line. rewrite <- !app_assoc. reflexivity.
Qed.
Lemma operand_text h d : (forall r t, d r = Ok t -> described h r t) -> forall r k t, operand d r k = Ok t -> exists u, operand_described h r u /\ t = u ++ keyed_text k.
Proof.
  intros M r k t E. unfold operand in E. open E. injection E as <-. exists a. split; [|reflexivity].
  destruct r as [p|]; [constructor; apply M; exact E0|injection E0 as <-; constructor].
Qed.
Lemma describe_described h (SM : small h) : forall f r t, describe lower_half h f r = Ok t -> described h r t.
Proof.
  induction f as [|f IH]; intros r t E; [discriminate|]. cbn [describe] in E. destruct r as [p|]; [|injection E as <-; constructor].
  destruct (nth_error h p) as [o|] eqn:N; [|discriminate].
  assert (S : match o with Collection _ l => (Z.of_nat (length l) < 2^31)%Z | Keyed _ l => (Z.of_nat (length l) < 2^31)%Z | _ => True end).
  { pose proof (nth_error_In _ _ N) as I. unfold small in SM. rewrite Forall_forall in SM. exact (SM _ I). }
  destruct o as [s|l|b|cls n|cls s|cls|o a ka b kb|cls l|cls l].
  - injection E as <-. apply D_text; exact N.
  - injection E as <-. rewrite format_join. apply D_number; exact N.
  - injection E as <-. apply D_boolean; exact N.
  - injection E as <-. apply (D_data h p cls n); exact N.
  - injection E as <-. apply (D_struct h p cls s); exact N.
  - injection E as <-. apply D_plain; exact N.
  - open E. destruct (operand_text h _ IH _ _ _ E0) as (u & U & ->). destruct (unary o) eqn:Un.
    + assert (E' : Ok (op_text o ++ ascii " " ++ u ++ keyed_text ka) = Ok t) by (destruct o; try discriminate; exact E). injection E' as <-. eapply D_unary; eassumption.
    + assert (E' : (do tb <- operand (describe lower_half h f) b kb; Ok ((u ++ keyed_text ka) ++ ascii " " ++ op_text o ++ ascii " " ++ tb)) = Ok t) by (destruct o; try discriminate; exact E).
      open E'. destruct (operand_text h _ IH _ _ _ E1) as (v & V & ->). injection E' as <-. eapply D_binary; eassumption.
  - open E. unfold header in E0. rewrite lower_half_small in E0 by lia. cbn [obind] in E0. apply ok_inj in E0. rewrite <- E0 in E. clear E0. open E. apply ok_inj in E. rewrite <- E. clear E.
    destruct (members_listing h _ _ IH _ _ E0) as (ls & F & ->). rewrite <- !app_assoc. apply (D_collection h p cls l ls); assumption.
  - open E. unfold header in E0. rewrite lower_half_small in E0 by lia. cbn [obind] in E0. apply ok_inj in E0. rewrite <- E0 in E. clear E0. open E. apply ok_inj in E. rewrite <- E. clear E.
    destruct (entries_listing h _ _ IH _ _ E0) as (ls & F & ->). rewrite <- !app_assoc. apply (D_keyed h p cls l ls); assumption.
Qed.
Lemma says h r f t : small h -> describe lower_half h f r = Ok t -> described h r t /\ forall f' t', describe lower_half h f' r = Ok t' -> t' = t.
Proof. intros S E. split; [exact (describe_described h S f r t E)|]. intros f' t' E'. exact (describe_fun _ _ _ _ _ _ _ E' E). Qed.
Lemma undefined h p o f : nth_error h p = Some o -> match o with Collection _ _ | Keyed _ _ => True | _ => False end -> describe strict h (S f) (Some p) = UB.
Proof. intros N K. cbn [describe]. rewrite N. destruct o; try contradiction; reflexivity. Qed.
(** 2^31 times NULL. *)
Lemma members_nulls h d : d None = Ok (ascii "null") -> forall k n, exists t, print_members h d n (repeat None k) = Ok t.
Proof. intros E k. induction k as [|k IH]; intros n; cbn [repeat print_members]; [eauto|]. rewrite E. cbn [obind]. destruct (IH (S n)) as (t & T). rewrite T. cbn [obind]. eauto. Qed.
Lemma many_described cls k : (Z.of_nat k = 2^31)%Z -> exists t, describe lower_half [Collection cls (repeat None k)] 2 (Some 0%nat) = Ok (cls ++ ascii ", -2147483648 objects = (" ++ t).
Proof.
  intros K. remember 1%nat as f1 eqn:Ef. cbn [describe nth_error]. unfold header. rewrite repeat_length, K.
  replace (lower_half (2^31)) with (Ok (-2147483648)%Z) by reflexivity. cbn [obind].
  replace (print_int (-2147483648)) with (ascii "-2147483648") by (vm_compute; reflexivity).
  destruct (members_nulls [Collection cls (repeat None k)] (describe lower_half [Collection cls (repeat None k)] f1) ltac:(subst f1; reflexivity) k 0) as (t & T).
  rewrite T. cbn [obind]. exists (t ++ ascii (String "010" ")")). f_equal. rewrite <- !app_assoc. reflexivity.
Qed.
Lemma count_wrong cls : exists l, (Z.of_nat (length l) = 2^31)%Z /\ exists fuel t, describe lower_half [Collection cls l] fuel (Some 0%nat) = Ok (cls ++ ascii ", -2147483648 objects = (" ++ t).
Proof.
  assert (K : exists k, (Z.of_nat k = 2^31)%Z). { exists (Z.to_nat (2^31)). apply Z2Nat.id. discriminate. }
  destruct K as (k & K). exists (repeat None k). rewrite repeat_length. split; [exact K|]. exists 2%nat. apply many_described, K.
Qed.
(** ** Cases *)
Lemma itself cls : forall fuel, describe lower_half [Collection cls [Some 0%nat]] fuel (Some 0%nat) = NoFuel.
Proof. induction fuel as [|f IH]; [reflexivity|]. cbn [describe nth_error length]. unfold header. rewrite lower_half_ok. cbn [obind print_members]. rewrite IH. reflexivity. Qed.
(** A string holding a quote, a comma, the start of a line and a quote, between two letters. *)
Definition tricky (a b : N) : bytes := a :: ascii """," ++ new_line ++ ascii """" ++ [b].
Definition tricky_heap : heap := [Collection (ascii "DKArray") [Some 2%nat; Some 3%nat]; Collection (ascii "DKArray") [Some 4%nat; Some 5%nat];
  Text (tricky 97 98); Text [99]; Text [97]; Text (tricky 98 99)].
Lemma tricky_same : exists t, describe lower_half tricky_heap 2 (Some 0%nat) = Ok t /\ describe lower_half tricky_heap 2 (Some 1%nat) = Ok t.
Proof. eexists. split; vm_compute; reflexivity. Qed.
(** Comparing the substituted object with a number, and the string of one star. *)
Definition star_heap : heap := [Text (ascii "*"); Predicate EQ (Some 0%nat) None None None; Predicate EQ None None (Some 0%nat) None].
Lemma star_same : describe lower_half star_heap 2 (Some 1%nat) = Ok (ascii "* EQ *") /\ describe lower_half star_heap 2 (Some 2%nat) = Ok (ascii "* EQ *").
Proof. split; vm_compute; reflexivity. Qed.
