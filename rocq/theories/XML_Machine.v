(** The transitions of yxml as a table, and a machine with the same transitions on names and
    trees in the place of memory. *)
Require Import Coq.ZArith.ZArith Coq.NArith.NArith Coq.Lists.List Coq.Bool.Bool.
Require Import Verif.Base Verif.XML_Model Verif.XML_Spec.
Import ListNotations.
Local Open Scope N_scope.

Inductive kind : Type := K_elem | K_attr | K_pi.
Inductive act : Type :=
| A_ok | A_esyn | A_string | A_start (k : kind) | A_name | A_elemnameend | A_selfclose | A_elemclose | A_elemcloseend
| A_attrnameend | A_attval | A_attrvalend | A_refattrval | A_refstart | A_ref | A_refcontent
| A_content (pre : list N) | A_skip (pre : list N) | A_pinameend | A_pivalend | A_piabort.
Inductive go : Type := Stay | Goto (s : ystate) | Next.
Record trans : Type := T { t_go : go; t_next : option ystate; t_quote : bool; t_str : option (list N); t_act : act }.

Definition table (s : ystate) (q ch : N) : trans :=
  match s with
  | S_string => T Stay None false None A_string
  | S_attr0 =>
    if is_name ch then T Stay None false None A_name
    else if is_sp ch then T (Goto S_attr1) None false None A_attrnameend
    else if (ch =? 61) then T (Goto S_attr2) None false None A_attrnameend
    else T Stay None false None A_esyn
  | S_attr1 =>
    if is_sp ch then T Stay None false None A_ok
    else if (ch =? 61) then T (Goto S_attr2) None false None A_ok
    else T Stay None false None A_esyn
  | S_attr2 =>
    if is_sp ch then T Stay None false None A_ok
    else if (ch =? 39) || (ch =? 34) then T (Goto S_attr3) None true None A_ok
    else T Stay None false None A_esyn
  | S_attr3 =>
    if (negb (ch =? q) && negb (ch =? 60) && negb (ch =? 38)) then T Stay None false None A_attval
    else if (ch =? 38) then T (Goto S_attr4) None false None A_refstart
    else if (q =? ch) then T (Goto S_elem2) None false None A_attrvalend
    else T Stay None false None A_esyn
  | S_attr4 =>
    if is_ref ch then T Stay None false None A_ref
    else if (ch =? 59) then T (Goto S_attr3) None false None A_refattrval
    else T Stay None false None A_esyn
  | S_cd0 =>
    if (ch =? 93) then T (Goto S_cd1) None false None A_ok
    else T Stay None false None (A_content [])
  | S_cd1 =>
    if (ch =? 93) then T (Goto S_cd2) None false None A_ok
    else T (Goto S_cd0) None false None (A_content [93])
  | S_cd2 =>
    if (ch =? 93) then T Stay None false None (A_content [])
    else if (ch =? 62) then T (Goto S_misc2) None false None A_ok
    else T (Goto S_cd0) None false None (A_content [93; 93])
  | S_comment0 =>
    if (ch =? 45) then T (Goto S_comment1) None false None A_ok
    else T Stay None false None A_esyn
  | S_comment1 =>
    if (ch =? 45) then T (Goto S_comment2) None false None A_ok
    else T Stay None false None A_esyn
  | S_comment2 =>
    if (ch =? 45) then T (Goto S_comment3) None false None A_ok
    else T Stay None false None A_ok
  | S_comment3 =>
    if (ch =? 45) then T (Goto S_comment4) None false None A_ok
    else T (Goto S_comment2) None false None A_ok
  | S_comment4 =>
    if (ch =? 62) then T Next None false None A_ok
    else T Stay None false None A_esyn
  | S_dt0 =>
    if (ch =? 62) then T (Goto S_misc1) None false None A_ok
    else if (ch =? 39) || (ch =? 34) then T (Goto S_dt1) (Some S_dt0) true None A_ok
    else if (ch =? 60) then T (Goto S_dt2) None false None A_ok
    else T Stay None false None A_ok
  | S_dt1 =>
    if (q =? ch) then T Next None false None A_ok
    else T Stay None false None A_ok
  | S_dt2 =>
    if (ch =? 63) then T (Goto S_pi0) (Some S_dt0) false None A_ok
    else if (ch =? 33) then T (Goto S_dt3) None false None A_ok
    else T Stay None false None A_esyn
  | S_dt3 =>
    if (ch =? 45) then T (Goto S_comment1) (Some S_dt0) false None A_ok
    else T (Goto S_dt4) None false None A_ok
  | S_dt4 =>
    if (ch =? 39) || (ch =? 34) then T (Goto S_dt1) (Some S_dt4) true None A_ok
    else if (ch =? 62) then T (Goto S_dt0) None false None A_ok
    else T Stay None false None A_ok
  | S_elem0 =>
    if is_name ch then T Stay None false None A_name
    else if is_sp ch then T (Goto S_elem1) None false None A_elemnameend
    else if (ch =? 47) then T (Goto S_elem3) None false None A_elemnameend
    else if (ch =? 62) then T (Goto S_misc2) None false None A_elemnameend
    else T Stay None false None A_esyn
  | S_elem1 =>
    if is_sp ch then T Stay None false None A_ok
    else if (ch =? 47) then T (Goto S_elem3) None false None A_ok
    else if (ch =? 62) then T (Goto S_misc2) None false None A_ok
    else if is_namestart ch then T (Goto S_attr0) None false None (A_start K_attr)
    else T Stay None false None A_esyn
  | S_elem2 =>
    if is_sp ch then T (Goto S_elem1) None false None A_ok
    else if (ch =? 47) then T (Goto S_elem3) None false None A_ok
    else if (ch =? 62) then T (Goto S_misc2) None false None A_ok
    else T Stay None false None A_esyn
  | S_elem3 =>
    if (ch =? 62) then T (Goto S_misc2) None false None A_selfclose
    else T Stay None false None A_esyn
  | S_enc0 =>
    if is_sp ch then T Stay None false None A_ok
    else if (ch =? 61) then T (Goto S_enc1) None false None A_ok
    else T Stay None false None A_esyn
  | S_enc1 =>
    if is_sp ch then T Stay None false None A_ok
    else if (ch =? 39) || (ch =? 34) then T (Goto S_enc2) None true None A_ok
    else T Stay None false None A_esyn
  | S_enc2 =>
    if is_alpha ch then T (Goto S_enc3) None false None A_ok
    else T Stay None false None A_esyn
  | S_enc3 =>
    if is_encname ch then T Stay None false None A_ok
    else if (q =? ch) then T (Goto S_xmldecl6) None false None A_ok
    else T Stay None false None A_esyn
  | S_etag0 =>
    if is_namestart ch then T (Goto S_etag1) None false None A_elemclose
    else T Stay None false None A_esyn
  | S_etag1 =>
    if is_name ch then T Stay None false None A_elemclose
    else if is_sp ch then T (Goto S_etag2) None false None A_elemcloseend
    else if (ch =? 62) then T (Goto S_misc2) None false None A_elemcloseend
    else T Stay None false None A_esyn
  | S_etag2 =>
    if is_sp ch then T Stay None false None A_ok
    else if (ch =? 62) then T (Goto S_misc2) None false None A_ok
    else T Stay None false None A_esyn
  | S_init =>
    if (ch =? 239) then T (Goto S_string) (Some S_misc0) false (Some [187; 191; 0]) A_ok
    else if is_sp ch then T (Goto S_misc0) None false None A_ok
    else if (ch =? 60) then T (Goto S_le0) None false None A_ok
    else T Stay None false None A_esyn
  | S_le0 =>
    if (ch =? 33) then T (Goto S_lee1) None false None A_ok
    else if (ch =? 63) then T (Goto S_leq0) None false None A_ok
    else if is_namestart ch then T (Goto S_elem0) None false None (A_start K_elem)
    else T Stay None false None A_esyn
  | S_le1 =>
    if (ch =? 33) then T (Goto S_lee1) None false None A_ok
    else if (ch =? 63) then T (Goto S_pi0) (Some S_misc1) false None A_ok
    else if is_namestart ch then T (Goto S_elem0) None false None (A_start K_elem)
    else T Stay None false None A_esyn
  | S_le2 =>
    if (ch =? 33) then T (Goto S_lee2) None false None A_ok
    else if (ch =? 63) then T (Goto S_pi0) (Some S_misc2) false None A_ok
    else if (ch =? 47) then T (Goto S_etag0) None false None A_ok
    else if is_namestart ch then T (Goto S_elem0) None false None (A_start K_elem)
    else T Stay None false None A_esyn
  | S_le3 =>
    if (ch =? 33) then T (Goto S_comment0) (Some S_misc3) false None A_ok
    else if (ch =? 63) then T (Goto S_pi0) (Some S_misc3) false None A_ok
    else T Stay None false None A_esyn
  | S_lee1 =>
    if (ch =? 45) then T (Goto S_comment1) (Some S_misc1) false None A_ok
    else if (ch =? 68) then T (Goto S_string) (Some S_dt0) false (Some [79; 67; 84; 89; 80; 69; 0]) A_ok
    else T Stay None false None A_esyn
  | S_lee2 =>
    if (ch =? 45) then T (Goto S_comment1) (Some S_misc2) false None A_ok
    else if (ch =? 91) then T (Goto S_string) (Some S_cd0) false (Some [67; 68; 65; 84; 65; 91; 0]) A_ok
    else T Stay None false None A_esyn
  | S_leq0 =>
    if (ch =? 120) then T (Goto S_xmldecl0) (Some S_misc1) false None (A_start K_pi)
    else if is_namestart ch then T (Goto S_pi1) (Some S_misc1) false None (A_start K_pi)
    else T Stay None false None A_esyn
  | S_misc0 =>
    if is_sp ch then T Stay None false None A_ok
    else if (ch =? 60) then T (Goto S_le0) None false None A_ok
    else T Stay None false None A_esyn
  | S_misc1 =>
    if is_sp ch then T Stay None false None A_ok
    else if (ch =? 60) then T (Goto S_le1) None false None A_ok
    else T Stay None false None A_esyn
  | S_misc2 =>
    if (ch =? 60) then T (Goto S_le2) None false None A_ok
    else if (ch =? 38) then T (Goto S_misc2a) None false None A_refstart
    else T Stay None false None (A_content [])
  | S_misc2a =>
    if is_ref ch then T Stay None false None A_ref
    else if (ch =? 59) then T (Goto S_misc2) None false None A_refcontent
    else T Stay None false None A_esyn
  | S_misc3 =>
    if is_sp ch then T Stay None false None A_ok
    else if (ch =? 60) then T (Goto S_le3) None false None A_ok
    else T Stay None false None A_esyn
  | S_pi0 =>
    if is_namestart ch then T (Goto S_pi1) None false None (A_start K_pi)
    else T Stay None false None A_esyn
  | S_pi1 =>
    if is_name ch then T Stay None false None A_name
    else if (ch =? 63) then T (Goto S_pi4) None false None A_pinameend
    else if is_sp ch then T (Goto S_pi2) None false None A_pinameend
    else T Stay None false None A_esyn
  | S_pi2 =>
    if (ch =? 63) then T (Goto S_pi3) None false None A_ok
    else T Stay None false None (A_skip [])
  | S_pi3 =>
    if (ch =? 62) then T Next None false None A_pivalend
    else T (Goto S_pi2) None false None (A_skip [63])
  | S_pi4 =>
    if (ch =? 62) then T Next None false None A_pivalend
    else T Stay None false None A_esyn
  | S_std0 =>
    if is_sp ch then T Stay None false None A_ok
    else if (ch =? 61) then T (Goto S_std1) None false None A_ok
    else T Stay None false None A_esyn
  | S_std1 =>
    if is_sp ch then T Stay None false None A_ok
    else if (ch =? 39) || (ch =? 34) then T (Goto S_std2) None true None A_ok
    else T Stay None false None A_esyn
  | S_std2 =>
    if (ch =? 121) then T (Goto S_string) (Some S_std3) false (Some [101; 115; 0]) A_ok
    else if (ch =? 110) then T (Goto S_string) (Some S_std3) false (Some [111; 0]) A_ok
    else T Stay None false None A_esyn
  | S_std3 =>
    if (q =? ch) then T (Goto S_xmldecl8) None false None A_ok
    else T Stay None false None A_esyn
  | S_ver0 =>
    if is_sp ch then T Stay None false None A_ok
    else if (ch =? 61) then T (Goto S_ver1) None false None A_ok
    else T Stay None false None A_esyn
  | S_ver1 =>
    if is_sp ch then T Stay None false None A_ok
    else if (ch =? 39) || (ch =? 34) then T (Goto S_string) (Some S_ver2) true (Some [49; 46; 0]) A_ok
    else T Stay None false None A_esyn
  | S_ver2 =>
    if is_num ch then T (Goto S_ver3) None false None A_ok
    else T Stay None false None A_esyn
  | S_ver3 =>
    if is_num ch then T Stay None false None A_ok
    else if (q =? ch) then T (Goto S_xmldecl4) None false None A_ok
    else T Stay None false None A_esyn
  | S_xmldecl0 =>
    if (ch =? 109) then T (Goto S_xmldecl1) None false None A_name
    else if is_name ch then T (Goto S_pi1) None false None A_name
    else if (ch =? 63) then T (Goto S_pi4) None false None A_pinameend
    else if is_sp ch then T (Goto S_pi2) None false None A_pinameend
    else T Stay None false None A_esyn
  | S_xmldecl1 =>
    if (ch =? 108) then T (Goto S_xmldecl2) None false None A_name
    else if is_name ch then T (Goto S_pi1) None false None A_name
    else if (ch =? 63) then T (Goto S_pi4) None false None A_pinameend
    else if is_sp ch then T (Goto S_pi2) None false None A_pinameend
    else T Stay None false None A_esyn
  | S_xmldecl2 =>
    if is_sp ch then T (Goto S_xmldecl3) None false None A_piabort
    else if is_name ch then T (Goto S_pi1) None false None A_name
    else T Stay None false None A_esyn
  | S_xmldecl3 =>
    if is_sp ch then T Stay None false None A_ok
    else if (ch =? 118) then T (Goto S_string) (Some S_ver0) false (Some [101; 114; 115; 105; 111; 110; 0]) A_ok
    else T Stay None false None A_esyn
  | S_xmldecl4 =>
    if is_sp ch then T (Goto S_xmldecl5) None false None A_ok
    else if (ch =? 63) then T (Goto S_xmldecl9) None false None A_ok
    else T Stay None false None A_esyn
  | S_xmldecl5 =>
    if is_sp ch then T Stay None false None A_ok
    else if (ch =? 63) then T (Goto S_xmldecl9) None false None A_ok
    else if (ch =? 101) then T (Goto S_string) (Some S_enc0) false (Some [110; 99; 111; 100; 105; 110; 103; 0]) A_ok
    else if (ch =? 115) then T (Goto S_string) (Some S_std0) false (Some [116; 97; 110; 100; 97; 108; 111; 110; 101; 0]) A_ok
    else T Stay None false None A_esyn
  | S_xmldecl6 =>
    if is_sp ch then T (Goto S_xmldecl7) None false None A_ok
    else if (ch =? 63) then T (Goto S_xmldecl9) None false None A_ok
    else T Stay None false None A_esyn
  | S_xmldecl7 =>
    if is_sp ch then T Stay None false None A_ok
    else if (ch =? 63) then T (Goto S_xmldecl9) None false None A_ok
    else if (ch =? 115) then T (Goto S_string) (Some S_std0) false (Some [116; 97; 110; 100; 97; 108; 111; 110; 101; 0]) A_ok
    else T Stay None false None A_esyn
  | S_xmldecl8 =>
    if is_sp ch then T Stay None false None A_ok
    else if (ch =? 63) then T (Goto S_xmldecl9) None false None A_ok
    else T Stay None false None A_esyn
  | S_xmldecl9 =>
    if (ch =? 62) then T (Goto S_misc1) None false None A_ok
    else T Stay None false None A_esyn
  end.

(** The concrete machine follows the table. *)
Definition prepare (x : yxml) (t : trans) (ch : N) : yxml :=
  let x := match t_go t with Stay => x | Goto s => to_state x s | Next => to_next x end in
  let x := if t_quote t then set_quote x ch else x in
  let x := match t_next t with Some s => set_next x s | None => x end in
  match t_str t with Some s => set_string x s | None => x end.
Definition perform (x : yxml) (a : act) (ch : N) : result :=
  match a with
  | A_ok => Ok (x, OK)
  | A_esyn => Ok (x, ESYN)
  | A_string =>
    do b <- Verif.Utf8_Model.rd (str x) 0;
    if ch =? b then
      let x := set_string x (skipn 1 (str x)) in
      do b <- Verif.Utf8_Model.rd (str x) 0;
      Ok (if b =? 0 then to_next x else x, OK)
    else Ok (x, ESYN)
  | A_start k => pushstack x (match k with K_elem => set_elem | K_attr => set_attr | K_pi => set_pi end) ch
  | A_name => pushstackc x ch
  | A_elemnameend => elemnameend x ch
  | A_selfclose => selfclose x ch
  | A_elemclose => elemclose x ch
  | A_elemcloseend => elemcloseend x ch
  | A_attrnameend => attrnameend x ch
  | A_attval => dataattr x ch
  | A_attrvalend => attrvalend x ch
  | A_refattrval => refattrval x ch
  | A_refstart => refstart x ch
  | A_ref => ref x ch
  | A_refcontent => refcontent x ch
  | A_content pre => put_data x (pre ++ [setchar ch]) CONTENT
  | A_skip pre => put_data x (pre ++ [setchar ch]) PICONTENT
  | A_pinameend => pinameend x ch
  | A_pivalend => pivalend x ch
  | A_piabort => piabort x ch
  end.
Lemma switch_table : forall x ch, switch x ch = let t := table (st x) (quote x) ch in perform (prepare x t ch) (t_act t) ch.
Proof.
  intros [e a p d b t l s k n r q nx ig sr] ch. unfold switch, is_attvalue. cbn [st quote].
  destruct s; cbn [table];
    repeat match goal with |- context [if ?c then T _ _ _ _ _ else _] => destruct c end; reflexivity.
Qed.

(** The machine on names and trees.  [name] is the name being read, or in an end tag the part
    of the name that was matched. *)
Notation frame := (bytes * list (bytes * bytes) * list item)%type.
Record cfg : Type := mkC {
  c_st : ystate; c_next : ystate; c_quote : N; c_str : bytes; c_frames : list frame;
  c_name : bytes; c_val : bytes; c_ref : bytes; c_root : option tree }.

Definition aprepare (c : cfg) (t : trans) (ch : N) : cfg :=
  mkC (match t_go t with Stay => c_st c | Goto s => s | Next => c_next c end)
      (match t_next t with Some s => s | None => c_next c end)
      (if t_quote t then ch else c_quote c)
      (match t_str t with Some s => s | None => c_str c end)
      (c_frames c) (c_name c) (c_val c) (c_ref c) (c_root c).
Definition with_state (c : cfg) (s : ystate) : cfg :=
  mkC s (c_next c) (c_quote c) (c_str c) (c_frames c) (c_name c) (c_val c) (c_ref c) (c_root c).
Definition with_str (c : cfg) (s : bytes) : cfg :=
  mkC (c_st c) (c_next c) (c_quote c) s (c_frames c) (c_name c) (c_val c) (c_ref c) (c_root c).
Definition with_frames (c : cfg) (f : list frame) : cfg :=
  mkC (c_st c) (c_next c) (c_quote c) (c_str c) f (c_name c) (c_val c) (c_ref c) (c_root c).
Definition with_name (c : cfg) (n : bytes) : cfg :=
  mkC (c_st c) (c_next c) (c_quote c) (c_str c) (c_frames c) n (c_val c) (c_ref c) (c_root c).
Definition with_val (c : cfg) (v : bytes) : cfg :=
  mkC (c_st c) (c_next c) (c_quote c) (c_str c) (c_frames c) (c_name c) v (c_ref c) (c_root c).
Definition with_ref (c : cfg) (r : bytes) : cfg :=
  mkC (c_st c) (c_next c) (c_quote c) (c_str c) (c_frames c) (c_name c) (c_val c) r (c_root c).
Definition with_root (c : cfg) (t : tree) : cfg :=
  mkC (c_st c) (c_next c) (c_quote c) (c_str c) (c_frames c) (c_name c) (c_val c) (c_ref c) (Some t).

(** The character that a reference names, if the parser accepts it. *)
Definition ref_value (r : bytes) : option N :=
  match ref_char (r ++ repeat 0 (8 - length r)) with
  | Ok ch => if bad_char ch then None else Some ch
  | _ => None
  end.
(** The first byte of a unit decides whether it is a blank. *)
Definition add_unit (k : list item) (u : bytes) : list item :=
  match u with [] => k | b :: r => if blank b then add_byte false k b else fold_left (add_byte true) r (add_byte true k b) end.
Definition add_top (fs : list frame) (u : bytes) : list frame :=
  match fs with (n, a, k) :: fs' => (n, a, add_unit k u) :: fs' | [] => [] end.
Definition close (c : cfg) : option cfg :=
  match c_frames c with
  | [] => None
  | [(n, a, k)] => Some (with_state (with_root (with_frames (with_name c []) []) (Elem n a k)) S_misc3)
  | (n, a, k) :: (n', a', k') :: fs => Some (with_frames (with_name c []) ((n', a', k' ++ [Sub (Elem n a k)]) :: fs))
  end.
Definition beqb (a b : bytes) : bool := if list_eq_dec N.eq_dec a b then true else false.
Definition top_name (c : cfg) : bytes := match c_frames c with (n, _, _) :: _ => n | [] => [] end.
Definition xml_name (n : bytes) : bool :=
  match n with
  | [x; m; l] => (N.lor x 32 =? 120) && (N.lor m 32 =? 109) && (N.lor l 32 =? 108)
  | _ => false
  end.

Definition aperform (c : cfg) (a : act) (ch : N) : option cfg :=
  match a with
  | A_ok => Some c
  | A_esyn => None
  | A_string =>
    match c_str c with
    | b :: b' :: s => if ch =? b then Some (let c := with_str c (b' :: s) in if b' =? 0 then with_state c (c_next c) else c) else None
    | _ => None
    end
  | A_start _ => Some (with_name c [ch])
  | A_name => Some (with_name c (c_name c ++ [ch]))
  | A_elemnameend => Some (with_frames (with_name c []) ((c_name c, [], []) :: c_frames c))
  | A_selfclose => close c
  | A_elemclose =>
    match nth_error (top_name c) (length (c_name c)) with
    | Some b => if b =? ch then Some (with_name c (c_name c ++ [ch])) else None
    | None => None
    end
  | A_elemcloseend => if (length (c_name c) =? length (top_name c))%nat then close c else None
  | A_attrnameend => Some (with_val c [])
  | A_attval => Some (with_val c (c_val c ++ [as_space ch]))
  | A_attrvalend =>
    match c_frames c with
    | (n, a, k) :: fs => Some (with_frames (with_name c []) ((n, assign a (c_name c) (c_val c), k) :: fs))
    | [] => None
    end
  | A_refattrval => match ref_value (c_ref c) with Some v => Some (with_val c (c_val c ++ utf8 v)) | None => None end
  | A_refstart => Some (with_ref c [])
  | A_ref => if (7 <=? length (c_ref c))%nat then None else Some (with_ref c (c_ref c ++ [ch]))
  | A_refcontent => match ref_value (c_ref c) with Some v => Some (with_frames c (add_top (c_frames c) (utf8 v))) | None => None end
  | A_content pre => Some (with_frames c (add_top (c_frames c) (pre ++ [ch])))
  | A_skip _ => Some c
  | A_pinameend => if xml_name (c_name c) then None else Some c
  | A_pivalend => Some (with_name c [])
  | A_piabort => Some (with_name c [])
  end.
Definition astep (c : cfg) (ch : N) : option cfg :=
  let t := table (c_st c) (c_quote c) ch in aperform (aprepare c t ch) (t_act t) ch.
Fixpoint arun (c : cfg) (s : bytes) : option tree :=
  match s with
  | [] => match c_st c with S_misc3 => c_root c | _ => None end
  | b :: s' => match astep c b with Some c' => arun c' s' | None => None end
  end.
Definition start : cfg := mkC S_init S_string 0 [] [] [] [] [] None.
