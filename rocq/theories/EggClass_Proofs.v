(** Proofs about the archives of library objects. *)
Require Import Coq.ZArith.ZArith Coq.NArith.NArith Coq.Lists.List Coq.Arith.Arith Coq.Bool.Bool Coq.micromega.Lia Coq.Sorting.Permutation Coq.Sorting.Sorted.
Require Import Verif.Base Verif.Encoding_Model Verif.Egg_Model Verif.Egg_Spec Verif.Egg_Proofs Verif.Egg_Final.
Require Import Verif.Utf8_Spec Verif.EggClass_Model Verif.EggClass_Spec.
Require Verif.HashTable_Model Verif.HashTable_Spec Verif.HashTable_Probe Verif.Tree_Model Verif.Tree_Spec Verif.Tree_Runs Verif.Enum_Model Verif.Enum_Spec Verif.Enum_Proofs.
Require Verif.Compare_Model Verif.String_Model Verif.Utf8_Strings.
Import ListNotations.
Local Open Scope nat_scope.

(** ** Numbers in memory *)
Lemma numbers_length big w n : forall b, length (numbers big w n b) = n.
Proof. induction n as [|n IH]; intros b; cbn; auto. Qed.
Lemma of_le_lt : forall l, Forall (fun b => (b < 256)%N) l -> (of_le l < 256 ^ N.of_nat (length l))%N.
Proof.
  induction 1 as [|b l Hb _ IH]; [cbn; lia|]. cbn [of_le length]. rewrite Nat2N.inj_succ, N.pow_succ_r'. lia.
Qed.
Lemma of_bytes_lt big l : Forall (fun b => (b < 256)%N) l -> (of_bytes big l < 256 ^ N.of_nat (length l))%N.
Proof.
  intros H. unfold of_bytes. destruct big; [|now apply of_le_lt]. rewrite <- (rev_length l). apply of_le_lt. now apply Forall_rev.
Qed.
Lemma Forall_firstn {A} (P : A -> Prop) n : forall l, Forall P l -> Forall P (firstn n l).
Proof. induction n as [|n IH]; intros l H; [constructor|]. destruct H; cbn; [constructor|]. constructor; auto. Qed.
Lemma Forall_skipn {A} (P : A -> Prop) n : forall l, Forall P l -> Forall P (skipn n l).
Proof. induction n as [|n IH]; intros l H; auto. destruct H; cbn; [constructor|]; auto. Qed.
Lemma numbers_lt big w n : forall b, Forall (fun x => (x < 256)%N) b -> n * w <= length b -> Forall (fun x => (x < 256 ^ N.of_nat w)%N) (numbers big w n b).
Proof.
  induction n as [|n IH]; intros b H L; cbn [numbers]; constructor.
  - replace w with (length (firstn w b)) at 2 by (rewrite firstn_length; lia). apply of_bytes_lt. now apply Forall_firstn.
  - apply IH; [now apply Forall_skipn|]. rewrite skipn_length. lia.
Qed.
Lemma numbers_group bw br w n : forall b, Forall (fun x => (x < 256)%N) b -> n * w = length b ->
  let b' := concat (map (int_bytes br w) (numbers bw w n b)) in length b' = length b /\ same_numbers bw br w b b'.
Proof.
  induction n as [|n IH]; intros b H L b'.
  - unfold b'. cbn [numbers map concat]. split; [cbn in *; lia|]. intros i Hi. destruct b; [|cbn in L; discriminate]. cbn [length] in Hi.
    assert (w = 0) by lia. subst w. cbn [firstn]. unfold of_bytes. destruct bw, br; reflexivity.
  - unfold b'. cbn [numbers map concat]. destruct (IH (skipn w b)) as [L1 S1]; [now apply Forall_skipn|rewrite skipn_length; lia|].
    assert (Lw: length (firstn w b) = w) by (rewrite firstn_length; lia).
    assert (Lx: (of_bytes bw (firstn w b) < 256 ^ N.of_nat w)%N) by (rewrite <- Lw at 2; apply of_bytes_lt; now apply Forall_firstn).
    split; [rewrite app_length, int_length, L1, skipn_length; lia|]. intros i Hi. destruct i as [|i].
    + cbn [Nat.mul skipn]. rewrite firstn_app, int_length, Nat.sub_diag. cbn [firstn]. rewrite app_nil_r, (firstn_all2 (int_bytes br w _)) by (rewrite int_length; lia).
      symmetry. now apply of_int.
    + replace (S i * w) with (w + i * w) by lia. rewrite skipn_app, int_length.
      replace (w + i * w - w) with (i * w) by lia. rewrite (skipn_all2 (int_bytes br w _)) by (rewrite int_length; lia). cbn [app].
      assert (E: skipn (w + i * w) b = skipn (i * w) (skipn w b)).
      { clear. rewrite <- (firstn_skipn w b) at 1. rewrite skipn_app. destruct (Nat.le_gt_cases w (length b)).
        - rewrite (skipn_all2 (firstn w b)) by (rewrite firstn_length; lia). rewrite firstn_length, Nat.min_l by lia. cbn [app]. f_equal. lia.
        - rewrite !(skipn_all2 (n := w)) by lia. rewrite !skipn_nil. rewrite skipn_all2 by (rewrite firstn_length; lia). auto. }
      rewrite E. apply S1. rewrite skipn_length. lia.
Qed.

(** ** Classes and fields *)
Lemma class_found o : List.find (fun c => list_eqb (class_name c) (class_name (class_of o))) classes = Some (class_of o).
Proof. destruct o as [[]|[]| |[]| |[][]|[]|[]| |]; vm_compute; reflexivity. Qed.
Lemma class_listed o : In (class_name (class_of o), schema (class_of o)) library.
Proof. unfold library. apply (in_map (fun c => (class_name c, schema c))). destruct o as [[]|[]| |[]| |[][]|[]|[]| |]; cbn; tauto. Qed.
Lemma data_kind big t b : kind_of (data_value big t b) = KData.
Proof. unfold data_value. now destruct (number_type t). Qed.
Lemma fields_shape big consts o : shape (to_fields big consts o) = schema (class_of o).
Proof. destruct o; try reflexivity. cbn. now rewrite data_kind. Qed.
Ltac distinct_keys := vm_compute; repeat constructor; cbn; intros X; decompose [or] X; try discriminate; auto.
Lemma fields_distinct big consts o : NoDup (map (fun f => hash32 0 (fst f)) (to_fields big consts o)).
Proof.
  replace (map _ _) with (map (fun f : list N * kind => hash32 0 (fst f)) (schema (class_of o))) by (destruct o; reflexivity).
  destruct o; distinct_keys.
Qed.
Lemma op_string op : Enum_Model.string_from_op op = Some (op_name op).
Proof. destruct op; vm_compute; reflexivity. Qed.

(** ** References *)
Lemma olist_one o : olist o = one o.
Proof. reflexivity. Qed.
Lemma data_refs big t b : refs (data_value big t b) = [].
Proof. unfold data_value. now destruct (number_type t). Qed.
Lemma refs_refers big consts o j : (exists key v, In (key, v) (to_fields big consts o) /\ In j (refs v)) <-> In j (refers consts o).
Proof.
  assert (G: (exists key v, In (key, v) (to_fields big consts o) /\ In j (refs v)) <-> In j (flat_map (fun f => refs (snd f)) (to_fields big consts o))).
  { rewrite in_flat_map. split; [intros (k & v & H & J); exists (k, v); auto|intros ([k v] & H & J); eauto]. }
  rewrite G. clear G. destruct o; cbn [to_fields flat_map snd refs refers app]; rewrite ?app_nil_r; try reflexivity.
  - now rewrite data_refs.
  - rewrite op_string. cbn [option_map olist app]. reflexivity.
Qed.
Section Graph.
Context (bw : bool) (consts : list N -> nat) (objs : list dk) (root : nat).
Let nodes := map (to_node bw consts) objs.
Lemma node_at i : nth_error nodes i = option_map (to_node bw consts) (nth_error objs i).
Proof. apply nth_error_map. Qed.
Lemma reach_within i : reach nodes [root] i -> within consts objs root i.
Proof.
  induction 1 as [j J|i n key v j _ IH E F J]; [destruct J as [<-|[]]; constructor|]. rewrite node_at in E. destruct (nth_error objs i) as [o|] eqn:Eo; [|discriminate].
  injection E as <-. apply (within_ref _ _ _ i o); auto. apply (refs_refers bw). eauto.
Qed.
Lemma within_reach i : within consts objs root i -> reach nodes [root] i.
Proof.
  induction 1 as [|i o j _ IH E J]; [apply reach_root; now left|]. apply (refs_refers bw) in J. destruct J as (key & v & F & J).
  apply (reach_field _ _ i (to_node bw consts o) key v); auto. rewrite node_at, E. reflexivity.
Qed.
End Graph.

Lemma oref_one root o : (forall j, In j (one o) -> j <> root) -> oref_ok (Some root) o.
Proof. destruct o as [j|]; cbn; auto. intros H [= E]. apply (H j); auto. Qed.
Lemma data_storable g root first big t b : Forall (fun x => (x < 256)%N) b -> (N.of_nat (length b) <= max_count)%N ->
  (t = 0 \/ number_type t = true /\ 0 < type_size t /\ exists n, N.of_nat (length b) = n * type_size t)%N -> storable g root first (data_value big t b).
Proof.
  intros B L T. unfold data_value. destruct T as [->|(T & Z & n & E)]; [cbn; auto|]. rewrite T. cbn [storable]. rewrite numbers_length.
  set (w := N.to_nat (type_size t)) in *. assert (W: 0 < w) by (unfold w; lia).
  assert (D: length b / w * w <= length b) by (rewrite Nat.mul_comm; apply Nat.mul_div_le; lia).
  split; [|right; split; auto; split; auto].
  - assert (length b / w <= length b) by (apply Nat.div_le_upper_bound; nia). lia.
  - replace (256 ^ type_size t)%N with (256 ^ N.of_nat w)%N by (unfold w; now rewrite N2Nat.id). now apply numbers_lt.
Qed.
Lemma fields_storable g big consts objs root first o : proper consts objs o -> ~ In root (refers consts o) ->
  Forall (fun f => storable g (Some root) first (snd f)) (to_fields big consts o).
Proof.
  intros P R. assert (R': forall j, In j (refers consts o) -> j <> root) by (intros j J ->; auto). clear R.
  destruct o; cbn [to_fields]; repeat (apply Forall_cons; [cbn [snd]|]); try apply Forall_nil; cbn [refers proper] in *; try apply oref_one.
  - exact P.
  - exact P.
  - cbn. repeat split; try reflexivity. constructor; [|constructor]. destruct b; reflexivity.
  - destruct P as (B & L & T). now apply data_storable.
  - intros j J. apply R'. apply in_or_app. auto.
  - intros j J. apply R'. apply in_or_app. auto.
  - destruct P as [L N]. cbn. split; [|split; auto].
    + apply Forall_forall. intros o J. apply oref_one. intros j Jj. apply R'. apply in_flat_map. eauto.
    + destruct N as [N|N]; auto. right. apply Forall_forall. intros o J ->. auto.
  - destruct P as [L _]. cbn. split; auto. apply Forall_forall. intros p J. split; [|apply oref_one].
    + intros [= E]. apply (R' (fst p)); auto. apply in_flat_map. exists p. split; [|left]; auto.
    + intros j Jj. apply R'. apply in_flat_map. exists p. split; [|right]; auto.
  - destruct P as [L _]. cbn. split; auto. apply Forall_forall. intros p J. split; [|apply oref_one].
    + intros [= E]. apply (R' (fst p)); auto. apply in_flat_map. exists p. split; [|left]; auto.
    + intros j Jj. apply R'. apply in_flat_map. exists p. split; [|right]; auto.
  - intros j J. apply R'. auto.
  - apply P.
  - rewrite op_string. intros j [<-|[]]. apply R'. now left.
  - intros j J. apply R'. right. rewrite !in_app_iff. tauto.
  - intros j J. apply R'. right. rewrite !in_app_iff. tauto.
  - intros j J. apply R'. right. rewrite !in_app_iff. tauto.
  - intros j J. apply R'. right. rewrite !in_app_iff. tauto.
Qed.
Lemma graph_nodes g bw consts objs root n : incl library (rclasses g) -> graph consts objs root ->
  graph_ok g (map (to_node bw consts) objs) [root] (Some root) n.
Proof.
  intros I G i R. apply reach_within in R. destruct (G i R) as (o & E & P & Nr). exists (to_node bw consts o). split; [rewrite node_at, E; reflexivity|].
  split; [|split].
  - cbn [to_node ncls nfields]. rewrite fields_shape. apply I, class_listed.
  - apply fields_distinct.
  - cbn [to_node nfields]. now apply (fields_storable _ _ _ objs).
Qed.

(** ** Dictionaries *)
Section Dict.
Context (h : heap).
Lemma key_equiv : HashTable_Spec.equivalence nat (key_equal h).
Proof.
  unfold key_equal. split; [|split].
  - intros a. now apply list_eqb_eq.
  - intros a b. apply eq_true_iff_eq. rewrite !list_eqb_eq. split; auto.
  - intros a b c. rewrite !list_eqb_eq. congruence.
Qed.
Lemma key_respects : HashTable_Spec.hash_respects nat (key_equal h) (key_hash h).
Proof. intros a b. unfold key_equal, key_hash. rewrite list_eqb_eq. now intros ->. Qed.

Definition sets (ps : list (nat * option nat)) := map (fun p => HashTable_Model.OpSet (fst p) (snd p)) ps.
Lemma amap_sets : forall ps m, StronglySorted (fun p q => key_text h (fst p) <> key_text h (fst q)) ps ->
  (forall p q, In p m -> In q ps -> key_text h (fst p) <> key_text h (fst q)) ->
  fst (HashTable_Spec.amap_run nat (option nat) (key_equal h) m (sets ps)) = rev ps ++ m.
Proof.
  induction ps as [|[k v] ps IH]; intros m S D; [reflexivity|]. inversion S as [|? ? S' F]; subst. cbn [sets map HashTable_Spec.amap_run HashTable_Spec.amap_step fst snd].
  assert (E: HashTable_Spec.amap_set nat (option nat) (key_equal h) m k v = (k, v) :: m).
  { unfold HashTable_Spec.amap_set. replace (HashTable_Spec.amap_get nat (option nat) (key_equal h) m k) with (@None (nat * option nat)); auto.
    unfold HashTable_Spec.amap_get. destruct (find _ m) as [p|] eqn:F0; auto. apply find_some in F0. destruct F0 as [J Q]. exfalso.
    unfold key_equal in Q. apply list_eqb_eq in Q. exact (D p (k, v) J (or_introl eq_refl) Q). }
  rewrite E. specialize (IH ((k, v) :: m) S'). fold (sets ps). destruct (HashTable_Spec.amap_run nat (option nat) (key_equal h) ((k, v) :: m) (sets ps)) as [m2 rest] eqn:R.
  cbn [fst] in *. rewrite IH; [cbn [rev]; now rewrite <- app_assoc|]. intros p q [<-|J] K; [|apply D; auto; now right].
  cbn [fst]. rewrite Forall_forall in F. exact (F q K).
Qed.
Lemma table_ok ps : are_keys h ps = true -> StronglySorted (fun p q => key_text h (fst p) <> key_text h (fst q)) ps ->
  match new_table h ps with Ok qs => Permutation ps qs | NoFuel => False | _ => 10 < length ps end.
Proof.
  intros K S. unfold new_table. rewrite K. fold (sets ps).
  destruct (HashTable_Probe.probe_partial nat (option nat) (key_hash h) (key_equal h) key_equiv key_respects) as (T & _ & _ & F & _).
  specialize (T (sets ps)). specialize (F (sets ps)). 
  assert (Lf: length (filter (fun o : HashTable_Model.op nat (option nat) => match o with HashTable_Model.OpSet _ _ | HashTable_Model.OpAdd _ _ | HashTable_Model.OpReplace _ _ => true | _ => false end) (sets ps)) <= length ps).
  { clear. induction ps as [|p ps IH]; [apply Nat.le_refl|]. cbn [sets map filter length]. apply le_n_S. exact IH. }
  destruct (HashTable_Model.run nat (option nat) (key_hash h) (key_equal h) HashTable_Model.table_init (sets ps)) as [[t rs]| | |] eqn:R; cbn [obind].
  - destruct (HashTable_Probe.dict_map nat (option nat) (key_hash h) (key_equal h) key_equiv key_respects _ _ _ R) as [_ P].
    rewrite amap_sets in P by (auto; intros ? ? []). rewrite app_nil_r in P. cbn [fst]. symmetry. rewrite P. symmetry. apply Permutation_rev.
  - destruct (Nat.le_gt_cases (length ps) 10) as [L|]; auto. destruct F as [r X]; [lia|discriminate X].
  - destruct (Nat.le_gt_cases (length ps) 10) as [L|]; auto. destruct F as [r X]; [lia|discriminate X].
  - now apply T.
Qed.

Lemma key_text_cstring i : cstring (key_text h i).
Proof.
  unfold key_text, key_at. destruct (nth_error h i) as [[c [|[k []] [|]]]|]; try (split; [constructor|intros []]).
  destruct ((list_eqb c _ || list_eqb c _) && forallb _ s) eqn:E; [|split; [constructor|intros []]]. apply andb_prop in E. destruct E as [_ E].
  rewrite forallb_forall in E. split; [apply Forall_forall; intros b J; specialize (E b J); cbv beta in E; apply andb_prop in E; destruct E as [_ E]; now apply N.ltb_lt in E|].
  intros J. specialize (E _ J). discriminate E.
Qed.
Lemma compare_text i j : exists c, Compare_Model.string_compare (key_text h i) (key_text h j) = Ok c /\ key_compare h i j = c.
Proof.
  destruct (Utf8_Strings.compare_laws _ _ _ (key_text_cstring i) (key_text_cstring j) (key_text_cstring j) [0; 0; 0]%N [0; 0; 0]%N [0; 0; 0]%N) as (_ & (x & E & _) & _).
  exists x. unfold key_compare, Compare_Model.string_compare, String_Model.sto. split; [exact E|]. now rewrite E.
Qed.
Lemma key_ordering : Tree_Spec.ordering nat (key_compare h).
Proof.
  assert (L: forall a b c, key_compare h a a = 0%Z /\ key_compare h b a = (- key_compare h a b)%Z /\ (0 <= key_compare h a b -> 0 <= key_compare h b c -> 0 <= key_compare h a c)%Z).
  { intros a b c. destruct (Utf8_Strings.compare_laws _ _ _ (key_text_cstring a) (key_text_cstring b) (key_text_cstring c) [0; 0; 0]%N [0; 0; 0]%N [0; 0; 0]%N) as (E0 & (x & E1 & E2) & (y & z & w & E3 & E4 & E5 & T)).
    unfold key_compare, Compare_Model.string_compare, String_Model.sto. rewrite E0, E1, E2, E4, E5. rewrite E1 in E3. injection E3 as <-. auto. }
  assert (L1: forall a, key_compare h a a = 0%Z) by (intros a; apply (L a a a)).
  assert (L2: forall a b, key_compare h b a = (- key_compare h a b)%Z) by (intros a b; apply (L a b b)).
  assert (L3: forall a b c, (0 <= key_compare h a b -> 0 <= key_compare h b c -> 0 <= key_compare h a c)%Z) by (intros a b c; apply (L a b c)).
  clear L. split; [auto|]. split; [intros a b; rewrite (L2 a b); lia|]. split; [intros a b c H1 H2; apply Z.le_ge, (L3 a b c); lia|]. split; intros a b c H1 H2.
  - destruct (Z.lt_ge_cases 0 (key_compare h a c)) as [|G]; [lia|]. pose proof (L3 b c a ltac:(lia) ltac:(rewrite L2; lia)). rewrite L2 in H. lia.
  - destruct (Z.lt_ge_cases 0 (key_compare h a c)) as [|G]; [lia|]. pose proof (L3 c a b ltac:(rewrite L2; lia) ltac:(lia)). rewrite L2 in H. lia.
Qed.
Definition inserts (ps : list (nat * option nat)) := map (fun p => Tree_Model.TInsert nat (option nat) (fst p) (snd p) HashTable_Model.InsertAlways) ps.
Lemma put_last : forall m k v, Forall (fun p => (key_compare h (fst p) k > 0)%Z) m ->
  Tree_Spec.put nat (option nat) (key_compare h) m k v HashTable_Model.InsertAlways = m ++ [(k, v)].
Proof.
  induction 1 as [|[k' v'] m H _ IH]; [reflexivity|]. cbn [Tree_Spec.put app fst] in *.
  replace (key_compare h k' k <? 0)%Z with false by (symmetry; apply Z.ltb_ge; lia). replace (key_compare h k' k =? 0)%Z with false by (symmetry; apply Z.eqb_neq; lia). now rewrite IH.
Qed.
Lemma mrun_app K V cmp : forall os os' m, Tree_Spec.mrun K V cmp m (os ++ os') =
  let (m1, rs) := Tree_Spec.mrun K V cmp m os in let (m2, rs') := Tree_Spec.mrun K V cmp m1 os' in (m2, rs ++ rs').
Proof.
  induction os as [|o os IH]; intros os' m; cbn [app Tree_Spec.mrun]; [destruct (Tree_Spec.mrun K V cmp m os'); auto|].
  destruct (Tree_Spec.mstep K V cmp m o) as [m1 r]. rewrite IH. destruct (Tree_Spec.mrun K V cmp m1 os) as [m2 rs]. destruct (Tree_Spec.mrun K V cmp m2 os'); auto.
Qed.
Lemma mrun_inserts : forall ps m, StronglySorted (fun p q => (key_compare h (fst p) (fst q) > 0)%Z) (m ++ ps) ->
  fst (Tree_Spec.mrun nat (option nat) (key_compare h) m (inserts ps)) = m ++ ps.
Proof.
  induction ps as [|[k v] ps IH]; intros m S; [now rewrite app_nil_r|]. cbn [inserts map Tree_Spec.mrun Tree_Spec.mstep fst snd].
  rewrite put_last.
  - fold (inserts ps). specialize (IH (m ++ [(k, v)])). rewrite <- app_assoc in IH. cbn [app] in IH. specialize (IH S).
    destruct (Tree_Spec.mrun _ _ _ _ (inserts ps)). exact IH.
  - clear IH. induction m as [|p m IHm]; [constructor|]. cbn [app] in S. inversion S as [|? ? S' F]; subst. constructor; [|auto].
    rewrite Forall_forall in F. apply (F (k, v)). apply in_or_app. right. now left.
Qed.
Lemma last_app {A} (l : list A) x d : last (l ++ [x]) d = x.
Proof. induction l as [|a l IH]; auto. cbn [app]. destruct (l ++ [x]) eqn:E; [destruct l; discriminate|]. cbn in *. rewrite <- IH. reflexivity. Qed.
Lemma tree_ok ps : are_keys h ps = true -> StronglySorted (fun p q => (key_compare h (fst p) (fst q) > 0)%Z) ps -> new_tree h ps = Ok ps.
Proof.
  intros K Sd. unfold new_tree. rewrite K. fold (inserts ps).
  destruct (Tree_Runs.run_map nat (option nat) (key_compare h) key_ordering (inserts ps ++ [Tree_Model.TAll _ _]) (S (S (length ps)))) as (t & E & _).
  { rewrite app_length. unfold inserts. rewrite map_length. cbn. lia. }
  rewrite E. cbn [obind snd]. rewrite mrun_app. pose proof (mrun_inserts ps [] Sd) as M. cbn [app] in M.
  destruct (Tree_Spec.mrun nat (option nat) (key_compare h) [] (inserts ps)) as [m rs]. cbn [fst] in M. subst m. cbn [Tree_Spec.mrun Tree_Spec.mstep snd].
  now rewrite last_app.
Qed.
End Dict.

(** ** Reading what was written *)
Section Copy.
Context (bw br : bool) (consts : list N -> nat) (objs : list dk) (root : nat) (known : list N -> bool) (h' : heap) (phi : nat -> nat).
Context (Copies : forall i o, within consts objs root i -> nth_error objs i = Some o ->
  nth_error h' (phi i) = Some (mkN (class_name (class_of o)) (map_fields phi (to_fields bw consts o)))).
Lemma key_found i s : within consts objs root i -> is_key objs i s -> key_at h' (phi i) = Some s.
Proof.
  intros W (k & E & K & B & Z). unfold key_at. rewrite (Copies i _ W E). cbn [class_of to_fields map_fields map fst snd map_value].
  replace (forallb (fun b => (0 <? b)%N && (b <? 256)%N) s) with true.
  - destruct k; try contradiction; reflexivity.
  - symmetry. apply forallb_forall. intros b J. apply andb_true_intro. unfold bytes_ok in B. rewrite Forall_forall in B. split; apply N.ltb_lt; [|auto].
    destruct b; [contradiction|reflexivity].
Qed.
Lemma key_texts ps : (forall p, In p ps -> within consts objs root (fst p)) -> keys objs ps ->
  are_keys h' (copied phi ps) = true /\ forall p, In p ps -> exists s, is_key objs (fst p) s /\ key_text h' (phi (fst p)) = s.
Proof.
  intros W K. unfold keys in K. rewrite Forall_forall in K. split.
  - unfold are_keys. apply forallb_forall. intros q J. unfold copied in J. apply in_map_iff in J. destruct J as (p & <- & J). cbn [fst].
    destruct (K p J) as [s Hs]. now rewrite (key_found _ s (W p J) Hs).
  - intros p J. destruct (K p J) as [s Hs]. exists s. split; auto. unfold key_text. now rewrite (key_found _ s (W p J) Hs).
Qed.
Lemma sorted_copied (R R' : nat * option nat -> nat * option nat -> Prop) ps :
  (forall p q, In p ps -> In q ps -> R p q -> R' (phi (fst p), option_map phi (snd p)) (phi (fst q), option_map phi (snd q))) ->
  StronglySorted R ps -> StronglySorted R' (copied phi ps).
Proof.
  intros H S. induction S as [|p ps S IH F]; [constructor|]. cbn [copied map]. fold (copied phi ps). constructor.
  - apply IH. intros a b Ja Jb. apply H; now right.
  - apply Forall_forall. intros q J. unfold copied in J. apply in_map_iff in J. destruct J as (q0 & <- & J). rewrite Forall_forall in F. apply H; [now left|now right|auto].
Qed.
Lemma node_read i o : within consts objs root i -> nth_error objs i = Some o -> proper consts objs o ->
  match of_node br known h' (mkN (class_name (class_of o)) (map_fields phi (to_fields bw consts o))) with
  | Ok o' => alike bw br phi o o' | NoFuel => False | _ => exists m ps, o = DTable m ps /\ 10 < length ps end.
Proof.
  intros W E P. unfold of_node. cbn [ncls nfields]. rewrite class_found. unfold map_fields. rewrite map_map. cbn [snd].
  assert (Kp: forall ps p, In p ps -> (forall j, In j (flat_map (fun p => fst p :: one (snd p)) ps) -> In j (refers consts o)) -> within consts objs root (fst p)).
  { intros ps p J H. apply (within_ref _ _ _ i o); auto. apply H. apply in_flat_map. exists p. split; [auto|now left]. }
  destruct o; cbn [class_of to_fields map snd map_value of_fields].
  - destruct k; cbn [init_string].
    + destruct s; constructor; split; discriminate.
    + constructor. tauto.
    + destruct (known s); [|destruct s]; constructor; split; discriminate.
  - constructor.
  - destruct b; constructor.
  - destruct P as (B & L & T). unfold data_value. destruct T as [->|(T & Z & n & En)].
    + cbn. constructor.
    + rewrite T. cbn [map_value]. rewrite T. set (w := N.to_nat (type_size t)).
      assert (W0: 0 < w) by (unfold w; lia). assert (Ew: length b / w * w = length b).
      { assert (Eb: length b = N.to_nat n * w) by (unfold w; rewrite <- N2Nat.inj_mul, <- En; lia). rewrite Eb, Nat.div_mul by lia. reflexivity. }
      destruct (numbers_group bw br w (length b / w) b B Ew) as [X Y]. apply al_numbers; auto.
  - constructor.
  - constructor.
  - destruct P as (L & K & D). fold (copied phi ps).
    destruct (key_texts ps) as [A T]; [intros p J; apply (Kp ps); auto|auto|].
    pose proof (table_ok h' (copied phi ps) A) as X. destruct (new_table h' (copied phi ps)) as [qs| | |]; cbn [obind].
    + constructor. apply X. apply (sorted_copied (fun p q => forall s t, is_key objs (fst p) s -> is_key objs (fst q) t -> s <> t)); [|exact D].
      intros p q Jp Jq R. cbn [fst]. destruct (T p Jp) as (s & Hs & ->). destruct (T q Jq) as (t & Ht & ->). auto.
    + exists mutable, ps. split; auto. rewrite <- (map_length (fun p => (phi (fst p), option_map phi (snd p))) ps). apply X.
      apply (sorted_copied (fun p q => forall s t, is_key objs (fst p) s -> is_key objs (fst q) t -> s <> t)); [|exact D].
      intros p q Jp Jq R. cbn [fst]. destruct (T p Jp) as (s & Hs & ->). destruct (T q Jq) as (t & Ht & ->). auto.
    + exists mutable, ps. split; auto. rewrite <- (map_length (fun p => (phi (fst p), option_map phi (snd p))) ps). apply X.
      apply (sorted_copied (fun p q => forall s t, is_key objs (fst p) s -> is_key objs (fst q) t -> s <> t)); [|exact D].
      intros p q Jp Jq R. cbn [fst]. destruct (T p Jp) as (s & Hs & ->). destruct (T q Jq) as (t & Ht & ->). auto.
    + apply X. apply (sorted_copied (fun p q => forall s t, is_key objs (fst p) s -> is_key objs (fst q) t -> s <> t)); [|exact D].
      intros p q Jp Jq R. cbn [fst]. destruct (T p Jp) as (s & Hs & ->). destruct (T q Jq) as (t & Ht & ->). auto.
  - destruct P as (L & K & D). fold (copied phi ps).
    destruct (key_texts ps) as [A T]; [intros p J; apply (Kp ps); auto|auto|].
    rewrite (tree_ok h' (copied phi ps) A); [cbn [obind]; constructor|].
    apply (sorted_copied (fun p q => forall s t, is_key objs (fst p) s -> is_key objs (fst q) t -> exists c, Compare_Model.string_compare s t = Ok c /\ (0 < c)%Z)); [|exact D].
    intros p q Jp Jq R. cbn [fst]. destruct (T p Jp) as (s & Hs & Es). destruct (T q Jq) as (t & Ht & Et). destruct (R s t Hs Ht) as (c & Ec & Pc).
    unfold key_compare. rewrite Es, Et, Ec. lia.
  - destruct P as [Nb L]. destruct b; [contradiction|]. constructor.
  - cbn [proper] in P. rewrite op_string. cbn [option_map]. unfold text_at.
    rewrite (Copies _ _ (within_ref _ _ _ i _ _ W E (or_introl eq_refl)) P). cbn [class_of to_fields map_fields map fst snd map_value].
    unfold op_name at 1. rewrite (Enum_Proofs.op_written op) by (left; reflexivity). cbn [obind]. constructor.
Qed.
End Copy.

Lemma object_round_trip bw consts objs root g : registry_ok g -> incl library (rclasses g) -> graph consts objs root -> (N.of_nat (length objs) + 1 < 2 ^ 32)%N ->
  exists l, save bw (map (to_node bw consts) objs) root = Ok l /\ ((N.of_nat (length l) < 2 ^ 32)%N -> forall br known rest, exists h' phi,
    load br g l = Ok (Some (h', Some (phi root))) /\ load_stream br g (l ++ rest) = Ok (Some (h', Some (phi root), rest)) /\
    forall i o, within consts objs root i -> nth_error objs i = Some o -> exists n, nth_error h' (phi i) = Some n /\
      match of_node br known h' n with
      | Ok o' => alike bw br phi o o' | NoFuel => False | _ => exists m ps, o = DTable m ps /\ 10 < length ps end).
Proof.
  intros Rok I G L. destruct (G root (within_root _ _ _)) as (o & Eo & Po & No).
  destruct (round_trip bw g (map (to_node bw consts) objs) root (to_node bw consts o)) as (l & S & H); auto.
  - rewrite node_at, Eo. reflexivity.
  - now apply graph_nodes.
  - now rewrite map_length.
  - exists l. split; auto. intros F br known rest. destruct (H F br rest) as (h' & phi & L1 & L2 & C1 & C2 & C3). exists h', phi. split; [auto|]. split; [auto|].
    assert (Cp: forall i o, within consts objs root i -> nth_error objs i = Some o ->
      nth_error h' (phi i) = Some (mkN (class_name (class_of o)) (map_fields phi (to_fields bw consts o)))).
    { intros i o0 W E. apply (C1 i (to_node bw consts o0)); [now apply within_reach|]. rewrite node_at, E. reflexivity. }
    intros i o0 W E. eexists. split; [exact (Cp i o0 W E)|].
    destruct (G i W) as (o1 & E1 & P1 & _). rewrite E in E1. injection E1 as <-. now apply (node_read bw br consts objs root known h' phi Cp i).
Qed.
