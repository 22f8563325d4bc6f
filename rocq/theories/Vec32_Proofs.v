(** Proofs about JSON with vectors of 32 bit numbers: the two parsers run side by side. *)
Require Import Coq.ZArith.ZArith Coq.QArith.QArith Coq.QArith.Qabs Coq.NArith.NArith Coq.Lists.List Coq.Bool.Bool Coq.micromega.Lia.
Require Import Verif.Base Verif.Strtonum_Model Verif.JSON_Model Verif.Vec32_Model Verif.Vec32_Spec.
Require Verif.Number_Model Verif.Number_Spec Verif.Number_Proofs Verif.Real_Model Verif.Real_Spec Verif.Real_Proofs Verif.Real_Meaning Verif.Real_Conv Verif.Real_Round.
Import ListNotations.
Local Open Scope Z_scope.

Definition orel {A B} (R : A -> B -> Prop) (x : outcome A) (y : outcome B) : Prop :=
  match x, y with Ok a, Ok b => R a b | UB, UB | Fatal, Fatal | NoFuel, NoFuel => True | _, _ => False end.
Lemma orel_same {A B C} (R : B -> C -> Prop) (x : outcome A) f g : (forall a, orel R (f a) (g a)) -> orel R (obind x f) (obind x g).
Proof. intros H. destruct x; cbn; auto. Qed.
Lemma orel_bind {A B C D} (S : A -> B -> Prop) (R : C -> D -> Prop) x y f g : orel S x y -> (forall a b, S a b -> orel R (f a) (g b)) -> orel R (obind x f) (obind y g).
Proof. intros H F. destruct x, y; cbn in *; try contradiction; auto. Qed.

(** ** Elements *)
Lemma int32_type : Number_Spec.integer_type Number_Model.int32.
Proof. unfold Number_Spec.integer_type. cbn. tauto. Qed.
Lemma int64_type : Number_Spec.integer_type Number_Model.int64.
Proof. unfold Number_Spec.integer_type. cbn. tauto. Qed.
Lemma cast_fits z : - 2 ^ 31 <= z < 2 ^ 31 -> Number_Model.cast Number_Model.int32 z = z.
Proof. intros H. apply Number_Proofs.cast_id; [exact int32_type|]. exact H. Qed.
Lemma of_int_rounded z : - 2 ^ 31 <= z < 2 ^ 31 -> Real_Spec.rounded Real_Spec.float (inject_Z z) (Real_Model.of_int Real_Model.Single z).
Proof.
  intros H. destruct (Real_Round.int_rounded Real_Model.Single Number_Model.int32 z int32_type H) as (b & E & R & _). cbn [Real_Model.cast] in E.
  assert (Y : Real_Model.of_int Real_Model.Single z = b) by congruence. rewrite Y. exact R.
Qed.
Lemma mul_pattern x y : Real_Spec.pattern Real_Spec.double (Real_Model.mul x y).
Proof.
  assert (I : 0 <= 0 <= Real_Model.inf Real_Model.Double) by (split; [lia|vm_compute; discriminate]). assert (J : 0 <= Real_Model.inf Real_Model.Double <= Real_Model.inf Real_Model.Double) by (split; [vm_compute; discriminate|lia]).
  assert (N : Real_Spec.pattern Real_Spec.double (Real_Model.nan Real_Model.Double)) by (split; [vm_compute; discriminate|vm_compute; reflexivity]).
  assert (M : forall z n m, Real_Model.decode Real_Model.Double z = Real_Model.Fin n m -> 0 <= m).
  { intros z n m. unfold Real_Model.decode. cbv zeta. destruct (_ <? _); [|destruct (_ =? _); discriminate]. intros E. injection E as _ <-. apply Real_Proofs.mag_pos. apply Z.mod_pos_bound. reflexivity. }
  unfold Real_Model.mul. destruct (Real_Model.decode Real_Model.Double x) as [|a|a m] eqn:X, (Real_Model.decode Real_Model.Double y) as [|b|b n] eqn:Y; try exact N;
    try (apply (Real_Meaning.with_sign_pattern Real_Model.Double); exact J).
  - destruct (n =? 0); [exact N|]. apply (Real_Meaning.with_sign_pattern Real_Model.Double); exact J.
  - destruct (m =? 0); [exact N|]. apply (Real_Meaning.with_sign_pattern Real_Model.Double); exact J.
  - apply (Real_Meaning.with_sign_pattern Real_Model.Double). apply Real_Proofs.round_pos; [|exact Real_Proofs.one_pos]. apply Z.mul_nonneg_nonneg; eauto.
Qed.
Lemma real_pattern pow10 sign ipart fs exp : Real_Spec.pattern Real_Spec.double (Real_Model.real pow10 sign ipart fs exp).
Proof. unfold Real_Model.real. cbv zeta. destruct exp; apply mul_pattern. Qed.

Section Sim.
Context (pow10 : Z -> Z).
Notation single z := (Real_Model.of_int Real_Model.Single z).
Notation word z := (Number_Model.cast Number_Model.int32 z).
Notation narrow sign ipart fs exp := (Real_Model.to_fmt Real_Model.Single (Real_Model.decode Real_Model.Double (Real_Model.real pow10 sign ipart fs exp))).
(** What an element of the buffer is. *)
Definition elt (fl : bool) (n : jnum) (w : Z) : Prop :=
  match fl, n with
  | false, NInt z => w = word z
  | false, NReal _ _ _ _ => False
  | true, NInt z => w = single (word z) \/ w = single z
  | true, NReal sign ipart fs exp => w = narrow sign ipart fs exp
  end.
Lemma elt_ok fl n w : elt fl n w -> fits n -> element32 pow10 fl n w.
Proof.
  destruct fl, n as [z|sign ipart fs exp]; cbn [elt fits element32]; intros E F; auto.
  - rewrite (cast_fits z F) in E. destruct E as [->| ->]; apply of_int_rounded, F.
  - intros q Q L. destruct (Real_Round.narrow_rounded _ q (real_pattern pow10 sign ipart fs exp) Q L) as (c & E' & R). cbn [Real_Model.cast Real_Model.same_fmt] in E'.
    rewrite E. assert (Y : narrow sign ipart fs exp = c) by congruence. rewrite Y. exact R.
  - rewrite E. apply cast_fits, F.
Qed.
Lemma push_ok fl buf ws n : Forall2 (elt fl) buf ws ->
  fst (push pow10 (fl, ws) n) = fl || match n with NInt _ => false | NReal _ _ _ _ => true end /\
  Forall2 (elt (fst (push pow10 (fl, ws) n))) (buf ++ [n]) (snd (push pow10 (fl, ws) n)).
Proof.
  intros H. destruct n as [z|sign ipart fs exp]; cbn [push].
  - destruct fl; cbn [fst snd]; (split; [reflexivity|]); apply Forall2_app; auto; constructor; [right; reflexivity|constructor|reflexivity|constructor].
  - cbn [fst snd]. split; [destruct fl; reflexivity|]. apply Forall2_app; [|constructor; [reflexivity|constructor]]. destruct fl; [exact H|].
    induction H as [|m w buf' ws' E _ IH]; cbn [map]; constructor; auto. destruct m; cbn [elt] in *; [|contradiction]. left. now rewrite E.
Qed.
Lemma Forall2_firstn {A B} (R : A -> B -> Prop) : forall k l m, Forall2 R l m -> Forall2 R (firstn k l) (firstn k m).
Proof. induction k as [|k IH]; intros l m H; cbn; [constructor|]. destruct H; constructor; auto. Qed.
Lemma Forall2_len {A B} (R : A -> B -> Prop) l m : Forall2 R l m -> length l = length m.
Proof. induction 1; cbn; congruence. Qed.
Lemma vector_as fl buf ws : Forall2 (elt fl) buf ws -> as32 pow10 fits (new_vector fl buf) (new_vector32 (fl, ws)).
Proof.
  intros H. unfold new_vector, new_vector32. cbn [fst snd]. rewrite <- (Forall2_len _ _ _ H).
  pose proof (Forall2_firstn (elt fl) (N.to_nat (N.of_nat (length buf) mod 2 ^ 24)) _ _ H) as G. revert G. generalize (N.to_nat (N.of_nat (length buf) mod 2 ^ 24)) as k. intros k G.
  assert (V : forall l m, Forall2 (elt fl) l m -> as32 pow10 fits (JVec fl l) (VVec (Real_Model.mkR (elem_type fl) m))).
  { intros l m X. apply (a_vec pow10 fits fl). induction X as [|x y l' m' E _ IH]; constructor; auto. intros F. now apply elt_ok. }
  destruct (firstn k buf) as [|x [|y l]] eqn:E1; try (apply V; exact G).
  inversion G as [|? w ? ? E R]; subst. inversion R; subst. apply (a_one pow10 fits fl). intros F. now apply elt_ok.
Qed.

(** ** Tokens *)
Definition osim (o : option json) (p : option json32) : Prop :=
  match o, p with None, None => True | Some v, Some v' => as32 pow10 fits v v' | _, _ => False end.
Definition tsim (a : token * option json * list N) (b : token * option json32 * list N) : Prop :=
  fst (fst a) = fst (fst b) /\ osim (snd (fst a)) (snd (fst b)) /\ snd a = snd b.
Definition vsim (a : option json * list N) (b : option json32 * list N) : Prop := osim (fst a) (fst b) /\ snd a = snd b.
Lemma t_none t cur : orel tsim (Ok (t, None, cur)) (Ok (t, None, cur)).
Proof. repeat split. Qed.
Lemma v_none cur : orel vsim (Ok (None, cur)) (Ok (None, cur)).
Proof. repeat split. Qed.
Lemma scan_sim : forall fuel,
  (forall want cur, orel tsim (scan_token fuel true want cur) (scan_token32 pow10 fuel want cur)) /\
  (forall want cur fl buf ws, Forall2 (elt fl) buf ws -> orel vsim (scan_vector fuel true want cur fl buf) (scan_vector32 pow10 fuel want cur (fl, ws))).
Proof.
  induction fuel as [|fuel [IHt IHv]]; [split; intros; exact I|]. split.
  - intros want cur. cbn [scan_token scan_token32]. apply orel_same. intros [[ch n] s]. destruct (n =? 0)%nat; [apply t_none|]. destruct (ch =? 34).
    + apply orel_same. intros [len buf]. split; [reflexivity|]. split; [|reflexivity]. destruct want; cbn; [constructor|exact I].
    + rewrite andb_true_r. destruct (ch =? 35).
      * apply orel_same. intros r. destruct (fst r =? 91); [|apply t_none]. eapply orel_bind; [apply IHv; constructor|].
        intros [o c] [o' c'] [O C]. cbn [fst snd] in *. subst c'. split; [reflexivity|]. split; [exact O|reflexivity].
      * apply orel_same. intros b. destruct (special (Z.of_N b)); [apply t_none|]. apply orel_same. intros len. apply t_none.
  - intros want cur fl buf ws H. cbn [scan_vector scan_vector32]. eapply orel_bind; [apply IHt|]. intros [[t o] c] [[t' o'] c'] (A & _ & B). cbn [fst snd] in *. subst t' c'.
    apply orel_same. intros b. apply orel_same. intros g. destruct g; [|apply v_none]. apply orel_same. intros x. cbv zeta. destruct (push_ok fl buf ws (fst x) H) as (F & G).
    destruct (push pow10 (fl, ws) (fst x)) as [fl' ws'] eqn:P. cbn [fst snd] in F, G. rewrite <- F.
    eapply orel_bind; [apply IHt|]. intros [[t1 o1] c1] [[t1' o1'] c1'] (A & _ & B). cbn [fst snd] in *. subst t1' c1'. apply orel_same. intros b1.
    destruct (b1 =? 44)%N; [apply IHv; exact G|]. destruct (b1 =? 93)%N; [|apply v_none]. split; [|reflexivity]. destruct want; cbn; [apply vector_as; exact G|exact I].
Qed.

(** ** Objects *)
Definition psim (a : pres * list N) (b : pres32 * list N) : Prop :=
  match fst a, fst b with PVal v, QVal v' => as32 pow10 fits v v' | PClose x, QClose y => x = y | PFail, QFail => True | _, _ => False end /\ snd a = snd b.
Lemma p_fail c : orel psim (Ok (PFail, c)) (Ok (QFail, c)). Proof. split; exact I || reflexivity. Qed.
Lemma p_val v v' c : as32 pow10 fits v v' -> orel psim (Ok (PVal v, c)) (Ok (QVal v', c)). Proof. intros H. split; [exact H|reflexivity]. Qed.
Lemma p_close b c : orel psim (Ok (PClose b, c)) (Ok (QClose b, c)). Proof. split; reflexivity. Qed.
Definition members (l : list (list N * json)) (m : list (list N * json32)) : Prop := Forall2 (fun p q => fst p = fst q /\ as32 pow10 fits (snd p) (snd q)) l m.
Lemma dict_set_ok k v v' : as32 pow10 fits v v' -> forall l m, members l m -> members (dict_set l k v) (dict_set32 m k v').
Proof.
  intros V l m H. induction H as [|[k1 v1] [k2 v2] l m (E & S) H IH]; cbn [dict_set dict_set32]; [constructor; [split; [reflexivity|exact V]|constructor]|].
  cbn [fst snd] in *. subst k2. destruct (same_bytes k k1); constructor; cbn [fst snd]; auto; exact H || exact IH.
Qed.
Lemma parse_sim : forall fuel,
  (forall cur, orel psim (parse_object fuel true cur) (parse_object32 pow10 fuel cur)) /\
  (forall cur l m, Forall2 (as32 pow10 fits) l m -> orel psim (array_loop fuel true cur l) (array_loop32 pow10 fuel cur m)) /\
  (forall cur l m, members l m -> orel psim (object_loop fuel true cur l) (object_loop32 pow10 fuel cur m)).
Proof.
  induction fuel as [|fuel (IHo & IHa & IHm)]; [repeat split; intros; exact I|]. split; [|split].
  - intros cur. cbn [parse_object parse_object32]. eapply orel_bind; [apply scan_sim|]. intros [[t o] c] [[t' o'] c'] (A & O & B). cbn [fst snd] in *. subst t' c'.
    destruct (tlen t =? 0); [apply p_fail|]. apply orel_same. intros ch. destruct o as [v|], o' as [v'|]; cbn [osim] in O; try contradiction; [apply p_val; exact O|].
    destruct (ch =? 91)%N; [apply IHa; constructor|]. destruct (ch =? 93)%N; [apply p_close|]. destruct (ch =? 123)%N; [apply IHm; constructor|]. destruct (ch =? 125)%N; [apply p_close|].
    apply orel_same. intros g. destruct g; [apply orel_same; intros x; apply p_val; constructor|]. apply orel_same. intros b1. destruct b1; [apply p_val; constructor|].
    apply orel_same. intros b2. destruct b2; [apply p_val; constructor|]. apply orel_same. intros b3. destruct b3; [apply p_val; constructor|apply p_fail].
  - intros cur l m H. cbn [array_loop array_loop32]. eapply orel_bind; [apply IHo|]. intros [p c] [p' c'] (P & B). cbn [fst snd] in *. subst c'.
    destruct p as [v|b|], p' as [v'|b'|]; try contradiction; [| |apply p_fail].
    + eapply orel_bind; [apply scan_sim|]. intros [[t o] c1] [[t' o'] c1'] (A & _ & B). cbn [fst snd] in *. subst t' c1'. apply orel_same. intros ch.
      assert (Y : Forall2 (as32 pow10 fits) (l ++ [v]) (m ++ [v'])) by (apply Forall2_app; auto).
      destruct (ch =? 93)%N; [apply p_val; constructor; exact Y|]. destruct (ch =? 44)%N; [apply IHa; exact Y|apply p_fail].
    + subst b'. destruct (b =? 93)%N; [apply p_val; constructor; exact H|apply p_fail].
  - intros cur l m H. cbn [object_loop object_loop32]. eapply orel_bind; [apply IHo|]. intros [p c] [p' c'] (P & B). cbn [fst snd] in *. subst c'.
    destruct p as [v|b|], p' as [v'|b'|]; try contradiction; [| |apply p_fail].
    + destruct P; try apply p_fail. rename s into k. eapply orel_bind; [apply scan_sim|]. intros [[t o] c1] [[t' o'] c1'] (A & _ & B). cbn [fst snd] in *. subst t' c1'. apply orel_same. intros ch.
      destruct (ch =? 58)%N; [|apply p_fail]. eapply orel_bind; [apply IHo|]. intros [p c2] [p' c2'] (P & B). cbn [fst snd] in *. subst c2'.
      destruct p as [v|b|], p' as [v'|b'|]; try contradiction; try apply p_fail. cbv zeta.
      eapply orel_bind; [apply scan_sim|]. intros [[t1 o1] c3] [[t1' o1'] c3'] (A & _ & B). cbn [fst snd] in *. subst t1' c3'. apply orel_same. intros ch1.
      pose proof (dict_set_ok k v v' P l m H) as Y. destruct (ch1 =? 125)%N; [apply p_val; constructor; exact Y|]. destruct (ch1 =? 44)%N; [apply IHm; exact Y|apply p_fail].
    + subst b'. destruct (b =? 125)%N; [apply p_val; constructor; exact H|apply p_fail].
Qed.
Lemma json_sim t : orel (as32 pow10 fits) (json_parse true t) (json_parse32 pow10 t).
Proof.
  unfold json_parse, json_parse32. eapply orel_bind; [apply parse_sim|]. intros [p c] [p' c'] (P & _). cbn [fst snd] in *.
  destruct p, p'; try contradiction; cbn [orel]; auto; constructor.
Qed.
Lemma json_ok t v : json_parse true t = Ok v -> exists v', json_parse32 pow10 t = Ok v' /\ as32 pow10 fits v v'.
Proof. intros E. pose proof (json_sim t) as H. rewrite E in H. destruct (json_parse32 pow10 t); cbn in H; try contradiction. eauto. Qed.
Lemma json_back t v' : json_parse32 pow10 t = Ok v' -> exists v, json_parse true t = Ok v /\ as32 pow10 fits v v'.
Proof. intros E. pose proof (json_sim t) as H. rewrite E in H. destruct (json_parse true t); cbn in H; try contradiction. eauto. Qed.
End Sim.
