(** The relation between the parser with its memory and the machine on names and trees. *)
Require Import Coq.ZArith.ZArith Coq.NArith.NArith Coq.Lists.List Coq.Bool.Bool Coq.micromega.Lia Coq.micromega.ZifyBool Coq.micromega.ZifyN.
Require Import Verif.Base Verif.XML_Model Verif.XML_Spec Verif.XML_Machine Verif.XML_Forward Verif.XML_Forward2 Verif.XML_Backward Verif.XML_Memory.
Import ListNotations.
Local Open Scope N_scope.

(** Trees of elements that are not among [bad]. *)
Inductive tree_in (h : list element) (bad : list nat) : nat -> tree -> Prop :=
| in_elem e n a ks k : ~ In e bad -> nth_error h e = Some (mkE n a ks) -> items_in h bad ks k -> tree_in h bad e (Elem n a k)
with items_in (h : list element) (bad : list nat) : list child -> list item -> Prop :=
| in_none : items_in h bad [] []
| in_text s ks k : items_in h bad ks k -> items_in h bad (CText s :: ks) (Text s :: k)
| in_sub e t ks k : tree_in h bad e t -> items_in h bad ks k -> items_in h bad (CElement e :: ks) (Sub t :: k).
Scheme tree_in_min := Minimality for tree_in Sort Prop with items_in_min := Minimality for items_in Sort Prop.
Combined Scheme tree_items_min from tree_in_min, items_in_min.

Lemma in_mono : forall h bad h' bad', (forall e, ~ In e bad -> (e < length h)%nat -> nth_error h' e = nth_error h e /\ ~ In e bad') ->
  (forall e t, tree_in h bad e t -> tree_in h' bad' e t) /\ (forall ks k, items_in h bad ks k -> items_in h' bad' ks k).
Proof.
  intros h bad h' bad' H. apply tree_items_min.
  - intros e n a ks k Hb He _ IH. destruct (H e Hb) as (E & Hb'). { apply nth_error_Some. congruence. }
    econstructor; [assumption| |exact IH]. now rewrite E.
  - constructor.
  - intros. now constructor.
  - intros. now constructor.
Qed.
Lemma in_is : forall h bad, (forall e t, tree_in h bad e t -> is_tree h e t) /\ (forall ks k, items_in h bad ks k -> are_items h ks k).
Proof.
  intros h bad. apply tree_items_min; [intros; econstructor; eassumption|constructor|intros; now constructor|intros; now constructor].
Qed.
Definition child_in (h : list element) (bad : list nat) (c : child) (i : item) : Prop :=
  match c, i with CText s, Text s' => s = s' | CElement e, Sub t => tree_in h bad e t | _, _ => False end.
Lemma items_app : forall h bad ks ks' k k', items_in h bad ks k -> items_in h bad ks' k' -> items_in h bad (ks ++ ks') (k ++ k').
Proof.
  intros h bad ks. induction ks as [|c ks IH]; intros ks' k k' H H'; inversion H; subst; [assumption| |]; cbn [app]; constructor; auto.
Qed.
Lemma items_snoc : forall h bad ks c k, items_in h bad (ks ++ [c]) k -> exists k0 i, k = k0 ++ [i] /\ items_in h bad ks k0 /\ child_in h bad c i.
Proof.
  intros h bad ks. induction ks as [|c0 ks IH]; intros c k H.
  - cbn [app] in H. inversion H as [|s ks k' H1|e t ks k' H1 H2]; subst.
    + inversion H1; subst. exists [], (Text s). repeat split; [constructor].
    + inversion H2; subst. exists [], (Sub t). repeat split; [constructor|assumption].
  - cbn [app] in H. inversion H as [|s ks' k' H1|e t ks' k' H1 H2]; subst.
    + destruct (IH _ _ H1) as (k0 & i & -> & H3 & H4). exists (Text s :: k0), i. repeat split; [now constructor|assumption].
    + destruct (IH _ _ H2) as (k0 & i & -> & H3 & H4). exists (Sub t :: k0), i. repeat split; [now constructor|assumption].
Qed.
Lemma items_byte : forall h bad kp ks k b, items_in h bad ks k -> items_in h bad (add_child_byte kp ks b) (add_byte kp k b).
Proof.
  intros h bad kp ks k b H. destruct ks as [|c ks _] using rev_ind.
  - inversion H; subst. unfold add_child_byte, add_byte. cbn [rev]. destruct (add_to kp [] b); [constructor|]. cbn [app]. constructor. constructor.
  - destruct (items_snoc _ _ _ _ _ H) as (k0 & i & -> & H1 & H2). unfold add_child_byte, add_byte. rewrite !rev_app_distr. cbn [rev app].
    destruct c as [t|e], i as [t'|t']; cbn in H2; try contradiction.
    + subst t'. rewrite !rev_involutive. apply items_app; [assumption|]. constructor. constructor.
    + destruct (add_to kp [] b); [assumption|]. apply items_app; [assumption|]. constructor. constructor.
Qed.
Lemma items_unit : forall h bad ks k u, items_in h bad ks k -> items_in h bad (add_child_unit ks u) (add_unit k u).
Proof.
  intros h bad ks k u H. unfold add_child_unit, add_unit. destruct u as [|b r]; [assumption|]. destruct (blank b); [now apply items_byte|].
  assert (G : forall r ks k, items_in h bad ks k -> items_in h bad (fold_left (add_child_byte true) r ks) (fold_left (add_byte true) r k)).
  { clear. induction r as [|b r IH]; intros ks k H; cbn [fold_left]; [assumption|]. apply IH. now apply items_byte. }
  apply G. now apply items_byte.
Qed.

(** The open elements, innermost first; each but the innermost ends with the next one. *)
Definition link (above : option nat) : list child := match above with Some c => [CElement c] | None => [] end.
Fixpoint frames_rel (h : list element) (bad : list nat) (above : option nat) (es : list nat) (fs : list frame) : Prop :=
  match es, fs with
  | [], [] => True
  | e :: es', (n, a, k) :: fs' =>
    (exists ks, nth_error h e = Some (mkE n a (ks ++ link above)) /\ items_in h bad ks k /\ text_good ks) /\ frames_rel h bad (Some e) es' fs'
  | _, _ => False
  end.
Lemma frames_mono : forall h bad h' bad' es, (forall e, In e es -> nth_error h' e = nth_error h e) ->
  (forall e, ~ In e bad -> (e < length h)%nat -> nth_error h' e = nth_error h e /\ ~ In e bad') ->
  forall above fs, frames_rel h bad above es fs -> frames_rel h' bad' above es fs.
Proof.
  intros h bad h' bad' es He Hb. induction es as [|e es IH]; intros above [|[[n a] k] fs] H; cbn [frames_rel] in *; try assumption.
  destruct H as [(ks & H1 & H2 & H3) H4]. split; [|apply IH; [intros; apply He; now right|assumption]].
  exists ks. split; [rewrite He by (now left); assumption|]. split; [|assumption]. now apply (in_mono h bad h' bad').
Qed.
Definition heap_rel (fs : list frame) (rt : option tree) (h : list element) (rootid : option nat) (es : list nat) : Prop :=
  NoDup es /\ frames_rel h es None es fs /\
  match fs with
  | [] => match rt with None => rootid = None | Some t => exists e, rootid = Some e /\ tree_in h [] e t end
  | _ => rt = None /\ rootid = Some (last es O)
  end.
Lemma nth_upd_neq : forall A (l : list A) n m a, n <> m -> nth_error (upd l n a) m = nth_error l m.
Proof. intros. apply nth_error_upd_neq. assumption. Qed.
Lemma nth_upd_eq : forall A (l : list A) n a x, nth_error l n = Some x -> nth_error (upd l n a) n = Some a.
Proof. intros A l n a x H. apply nth_error_upd_eq. apply nth_error_Some. congruence. Qed.

(** Changing the innermost open element. *)
Lemma heap_top : forall n a k fs rt h r es, heap_rel ((n, a, k) :: fs) rt h r es ->
  exists e es' ks, es = e :: es' /\ nth_error h e = Some (mkE n a ks) /\ items_in h es ks k /\ text_good ks /\
    forall a' ks' k', items_in h es ks' k' -> text_good ks' -> heap_rel ((n, a', k') :: fs) rt (upd h e (mkE n a' ks')) r es.
Proof.
  intros n a k fs rt h r es (Hd & Hf & Hr). destruct es as [|e es]; [destruct Hf|]. cbn [frames_rel] in Hf. destruct Hf as [(ks & H1 & H2 & H3) H4].
  cbn [link] in H1. rewrite app_nil_r in H1. exists e, es, ks. split; [reflexivity|]. split; [assumption|]. split; [assumption|]. split; [assumption|].
  intros a' ks' k' Hi Ht. pose proof (proj1 (NoDup_cons_iff _ _) Hd) as [Hn Hd']. unfold heap_rel. split; [assumption|]. split; [|assumption]. cbn [frames_rel].
  assert (Hm : forall e0, ~ In e0 (e :: es) -> (e0 < length h)%nat -> nth_error (upd h e (mkE n a' ks')) e0 = nth_error h e0 /\ ~ In e0 (e :: es)).
  { intros e0 He0 _. split; [|assumption]. apply nth_upd_neq. intros ->. apply He0. now left. }
  split.
  - exists ks'. cbn [link]. rewrite app_nil_r. split; [eapply nth_upd_eq; eassumption|]. split; [|assumption]. now apply (in_mono h (e :: es) _ (e :: es) Hm).
  - eapply frames_mono; [|exact Hm|exact H4]. intros e0 He0. apply nth_upd_neq. intros ->. contradiction.
Qed.
(** Opening an element. *)
Lemma heap_open : forall n fs h r es, heap_rel fs None h r es ->
  match fs with
  | [] => r = None /\ heap_rel [(n, [], [])] None (h ++ [mkE n [] []]) (Some (length h)) [length h]
  | _ => exists e es' x, r <> None /\ es = e :: es' /\ nth_error h e = Some x /\
    heap_rel ((n, [], []) :: fs) None (upd (h ++ [mkE n [] []]) e (mkE (ename x) (eattributes x) (eelements x ++ [CElement (length h)]))) r (length h :: es)
  end.
Proof.
  intros n fs h r es H. destruct fs as [|[[n0 a0] k0] fs].
  - destruct H as (Hd & Hf & Hr). destruct es as [|e es]; [|destruct Hf]. split; [assumption|]. unfold heap_rel.
    split; [constructor; [intros []|constructor]|]. split; [|auto]. cbn [frames_rel]. split; [|exact Logic.I].
    exists []. rewrite nth_error_app2, Nat.sub_diag by lia. repeat split; constructor.
  - destruct H as (Hd & Hf & _ & Hr). destruct es as [|e es]; [destruct Hf|]. cbn [frames_rel] in Hf. destruct Hf as [(ks & H1 & H2 & H3) H4].
    cbn [link] in H1. rewrite app_nil_r in H1. exists e, es, (mkE n0 a0 ks). split; [congruence|]. split; [reflexivity|]. split; [assumption|].
    cbn [ename eattributes eelements]. set (h' := upd _ _ _).
    assert (Hlt : (e < length h)%nat) by (apply nth_error_Some; congruence).
    assert (Hbelow : forall e0, e0 <> e -> (e0 < length h)%nat -> nth_error h' e0 = nth_error h e0).
    { intros e0 Hne Hl. unfold h'. rewrite nth_upd_neq by auto. now apply nth_error_app1. }
    assert (Hm : forall e0, ~ In e0 (e :: es) -> (e0 < length h)%nat -> nth_error h' e0 = nth_error h e0 /\ ~ In e0 (length h :: e :: es)).
    { intros e0 He0 Hl. split; [apply Hbelow; [intros ->; apply He0; now left|assumption]|]. intros [<-|Hi]; [lia|auto]. }
    assert (Hes : forall e0, In e0 (e :: es) -> (e0 < length h)%nat).
    { assert (G : forall above es fs, frames_rel h (e :: es) above es fs -> forall e0, In e0 es -> (e0 < length h)%nat).
      { clear. intros above es. generalize (e :: es) as bad. intros bad. revert above. induction es as [|e1 es IH]; intros above [|[[n a] k] fs] H e0 Hi; cbn [frames_rel] in H; try contradiction.
        destruct H as [(ks & H1 & _) H2]. destruct Hi as [<-|Hi]; [apply nth_error_Some; congruence|]. eapply IH; eassumption. }
      intros e0 [<-|Hi]; [assumption|]. eapply G; eassumption. }
    pose proof (proj1 (NoDup_cons_iff _ _) Hd) as [Hn Hd']. unfold heap_rel. split.
    { constructor; [|assumption]. intros Hi. apply Hes in Hi. lia. }
    split; [|split; [reflexivity|rewrite Hr; reflexivity]]. cbn [frames_rel]. split; [|split].
    + exists []. unfold h'. rewrite nth_upd_neq by lia. rewrite nth_error_app2, Nat.sub_diag by lia. repeat split; constructor.
    + exists ks. cbn [link]. split; [unfold h'; eapply nth_upd_eq; rewrite nth_error_app1 by assumption; eassumption|].
      split; [|assumption]. now apply (in_mono h (e :: es) _ _ Hm).
    + eapply frames_mono; [|exact Hm|exact H4]. intros e0 He0. apply Hbelow; [intros ->; contradiction|apply Hes; now right].
Qed.
(** Closing an element. *)
Lemma heap_close : forall n a k fs rt h r es, heap_rel ((n, a, k) :: fs) rt h r es -> exists e es', es = e :: es' /\
  match fs with
  | [] => heap_rel [] (Some (Elem n a k)) h r es'
  | (n', a', k') :: fs' => heap_rel ((n', a', k' ++ [Sub (Elem n a k)]) :: fs') rt h r es'
  end.
Proof.
  intros n a k fs rt h r es (Hd & Hf & Ht & Hr). destruct es as [|e es]; [destruct Hf|]. cbn [frames_rel] in Hf. destruct Hf as [(ks & H1 & H2 & H3) H4].
  cbn [link] in H1. rewrite app_nil_r in H1. exists e, es. split; [reflexivity|]. pose proof (proj1 (NoDup_cons_iff _ _) Hd) as [Hn Hd'].
  assert (Hm : forall e0, ~ In e0 (e :: es) -> (e0 < length h)%nat -> nth_error h e0 = nth_error h e0 /\ ~ In e0 es).
  { intros e0 He0 _. split; [reflexivity|]. intros Hi. apply He0. now right. }
  assert (Htree : tree_in h es e (Elem n a k)).
  { econstructor; [assumption|eassumption|]. now apply (in_mono h (e :: es) h es Hm). }
  destruct fs as [|[[n' a'] k'] fs].
  - destruct es as [|e' es]; [|destruct H4]. split; [assumption|]. split; [exact Logic.I|]. exists e. split; [exact Hr|assumption].
  - destruct es as [|e' es]; [destruct H4|]. cbn [frames_rel] in H4. destruct H4 as [(ks' & H5 & H6 & H7) H8]. cbn [link] in H5.
    split; [assumption|]. split; [|split; [assumption|]].
    + cbn [frames_rel]. split.
      * exists (ks' ++ [CElement e]). cbn [link]. rewrite app_nil_r. split; [assumption|]. split.
        -- apply items_app; [now apply (in_mono h (e :: e' :: es) h (e' :: es) Hm)|]. constructor; [assumption|constructor].
        -- apply Forall_app. split; [assumption|]. repeat constructor.
      * eapply frames_mono; [reflexivity|exact Hm|exact H8].
    + rewrite Hr. reflexivity.
Qed.

(** Classes of states. *)
Definition naming (s : ystate) : option kind :=
  match s with
  | S_elem0 => Some K_elem
  | S_attr0 | S_attr1 | S_attr2 | S_attr3 | S_attr4 => Some K_attr
  | S_pi1 | S_pi2 | S_pi3 | S_pi4 | S_xmldecl0 | S_xmldecl1 | S_xmldecl2 => Some K_pi
  | _ => None
  end.
Definition valued (s : ystate) : bool := match s with S_attr1 | S_attr2 | S_attr3 | S_attr4 => true | _ => false end.
Definition refing (s : ystate) : bool := match s with S_attr4 | S_misc2a => true | _ => false end.
Definition matching (s : ystate) : bool := match s with S_etag1 => true | _ => false end.
Definition stringing (s : ystate) : bool := match s with S_string => true | _ => false end.
Definition declaring (s : ystate) : bool := match s with S_xmldecl0 | S_xmldecl1 | S_xmldecl2 => true | _ => false end.
Inductive zone : Type := Pro | Ele | Epi | Any | Via.
Definition base (s : ystate) : zone :=
  match s with
  | S_attr0 | S_attr1 | S_attr2 | S_attr3 | S_attr4 | S_cd0 | S_cd1 | S_cd2 | S_elem1 | S_elem2 | S_elem3
  | S_etag0 | S_etag1 | S_etag2 | S_le2 | S_lee2 | S_misc2 | S_misc2a => Ele
  | S_elem0 => Any
  | S_misc3 | S_le3 => Epi
  | S_string | S_dt1 | S_comment0 | S_comment1 | S_comment2 | S_comment3 | S_comment4 | S_pi0 | S_pi1 | S_pi2 | S_pi3 | S_pi4
  | S_xmldecl0 | S_xmldecl1 | S_xmldecl2 => Via
  | _ => Pro
  end.
Definition zone_of (s nx : ystate) : zone := match base s with Via => base nx | z => z end.
Definition zoned (z : zone) (fs : list frame) (rt : option tree) : Prop :=
  match z with
  | Pro => fs = [] /\ rt = None
  | Ele => fs <> [] /\ rt = None
  | Epi => fs = [] /\ rt <> None
  | Any => rt = None
  | Via => False
  end.
Definition plain (s : ystate) : bool :=
  match naming s, base s with
  | None, Pro | None, Ele | None, Epi => negb (valued s) && negb (refing s) && negb (matching s) && negb (stringing s) && negb (declaring s)
  | _, _ => false
  end.
Definition inv (s nx : ystate) : bool :=
  match base s with Via => plain nx | _ => true end && (if declaring s then match nx with S_misc1 => true | _ => false end else true).
Definition good_string (l : list N) : bool := match rev l with 0 :: ((_ :: _) as r) => forallb (fun b => negb (b =? 0)) r | _ => false end.

(** What the transitions of the table keep. *)
Definition fits (a : act) (sr : option (list N)) (s nx s' nx' : ystate) : Prop :=
  match a with
  | A_esyn => True
  | A_ok => naming s' = naming s /\ (valued s' = true -> valued s = true) /\ refing s' = false /\ matching s' = false /\ matching s = false /\
    (stringing s' = true -> match sr with Some l => good_string l = true | None => False end) /\ zone_of s' nx' = zone_of s nx
  | A_string => s = S_string /\ s' = S_string /\ nx' = nx /\ sr = None
  | A_start k => naming s = None /\ matching s = false /\ naming s' = Some k /\ valued s' = false /\ refing s' = false /\ matching s' = false /\ stringing s' = false /\
    match k with K_elem => (zone_of s nx = Pro \/ zone_of s nx = Ele) /\ zone_of s' nx' = Any | _ => zone_of s' nx' = zone_of s nx end
  | A_name => naming s' = naming s /\ naming s <> None /\ matching s = false /\ valued s' = false /\ refing s' = false /\ matching s' = false /\ stringing s' = false /\ zone_of s' nx' = zone_of s nx
  | A_elemnameend => naming s = Some K_elem /\ naming s' = None /\ valued s' = false /\ refing s' = false /\ matching s' = false /\ stringing s' = false /\ zone_of s nx = Any /\ zone_of s' nx' = Ele
  | A_selfclose => naming s = None /\ matching s = false /\ naming s' = None /\ valued s' = false /\ refing s' = false /\ matching s' = false /\ stringing s' = false /\ zone_of s nx = Ele /\ base s' = Ele
  | A_elemclose => naming s = None /\ naming s' = None /\ matching s' = true /\ valued s' = false /\ refing s' = false /\ stringing s' = false /\ zone_of s nx = Ele /\ base s' = Ele
  | A_elemcloseend => naming s = None /\ matching s = true /\ naming s' = None /\ valued s' = false /\ refing s' = false /\ matching s' = false /\ stringing s' = false /\ zone_of s nx = Ele /\ base s' = Ele
  | A_attrnameend => naming s = Some K_attr /\ naming s' = Some K_attr /\ refing s' = false /\ matching s = false /\ matching s' = false /\ stringing s' = false /\ zone_of s nx = Ele /\ base s' = Ele
  | A_attval => naming s = Some K_attr /\ naming s' = Some K_attr /\ valued s = true /\ refing s' = false /\ matching s = false /\ matching s' = false /\ stringing s' = false /\ zone_of s nx = Ele /\ base s' = Ele
  | A_attrvalend => naming s = Some K_attr /\ naming s' = None /\ valued s = true /\ valued s' = false /\ refing s' = false /\ matching s = false /\ matching s' = false /\ stringing s' = false /\ zone_of s nx = Ele /\ base s' = Ele
  | A_refattrval => naming s = Some K_attr /\ naming s' = Some K_attr /\ valued s = true /\ refing s = true /\ refing s' = false /\ matching s = false /\ matching s' = false /\ stringing s' = false /\ zone_of s nx = Ele /\ base s' = Ele
  | A_refstart => naming s' = naming s /\ (valued s' = true -> valued s = true) /\ matching s = false /\ matching s' = false /\ stringing s' = false /\ zone_of s nx = Ele /\ base s' = Ele
  | A_ref => naming s' = naming s /\ (valued s' = true -> valued s = true) /\ refing s = true /\ matching s = false /\ matching s' = false /\ stringing s' = false /\ zone_of s nx = Ele /\ base s' = Ele
  | A_refcontent => naming s = None /\ naming s' = None /\ valued s' = false /\ refing s = true /\ refing s' = false /\ matching s = false /\ matching s' = false /\ stringing s' = false /\ zone_of s nx = Ele /\ base s' = Ele
  | A_content p => naming s = None /\ naming s' = None /\ valued s' = false /\ refing s' = false /\ matching s = false /\ matching s' = false /\ stringing s' = false /\ zone_of s nx = Ele /\ base s' = Ele /\
    Forall good p /\ (length p <= 2)%nat
  | A_skip p => naming s' = naming s /\ (valued s' = true -> valued s = true) /\ refing s' = false /\ matching s = false /\ matching s' = false /\ stringing s' = false /\ zone_of s' nx' = zone_of s nx /\
    (length p <= 2)%nat
  | A_pinameend => naming s = Some K_pi /\ naming s' = Some K_pi /\ valued s' = false /\ refing s' = false /\ matching s = false /\ matching s' = false /\ stringing s' = false /\ zone_of s' nx' = zone_of s nx
  | A_pivalend | A_piabort => naming s = Some K_pi /\ naming s' = None /\ valued s' = false /\ refing s' = false /\ matching s = false /\ matching s' = false /\ stringing s' = false /\ zone_of s' nx' = zone_of s nx
  end.
Definition new_state (t : trans) (s nx : ystate) : ystate := match t_go t with Stay => s | Goto s => s | Next => nx end.
Definition new_next (t : trans) (nx : ystate) : ystate := match t_next t with Some s => s | None => nx end.
Ltac fits_now :=
  split; [|first [left; reflexivity|right; reflexivity]];
  cbv beta iota delta [fits naming valued refing matching stringing zone_of base];
  repeat split; try discriminate; auto; try (cbn; lia);
  try (repeat (apply Forall_cons; [unfold good; lia|]); apply Forall_nil).
Lemma table_fits : forall s nx q ch, inv s nx = true ->
  let t := table s q ch in fits (t_act t) (t_str t) s nx (new_state t s nx) (new_next t nx) /\ (t_act t = A_esyn \/ inv (new_state t s nx) (new_next t nx) = true).
Proof.
  intros s nx q ch H. destruct s; cbv beta iota zeta delta [table];
    repeat match goal with |- context [if ?c then T _ _ _ _ _ else _] => destruct c end;
    cbv beta iota zeta delta [t_act t_str t_go t_next new_state new_next].
  all: first [solve [split; [exact Logic.I|left; reflexivity]]|solve [fits_now]|destruct nx; try discriminate H; solve [fits_now]].
Qed.
