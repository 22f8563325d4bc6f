(** What a string used as a stream is: its bytes and a position. *)
Require Import Coq.ZArith.ZArith Coq.NArith.NArith Coq.Lists.List Coq.Bool.Bool Coq.Arith.Arith.
Require Import Verif.Base Verif.Array_Model Verif.Bytes_Model Verif.Bytes_Spec Verif.StrStream_Model.
Require Verif.StrObj_Spec.
Import ListNotations.

(** The bytes [l] with the position [p], in an object that can be changed or not. *)
Record page := mkP { letters : list byte; place : Z; free : bool }.
Definition page_step (s : page) (o : top) : page * tres :=
  let l := letters s in
  let here := limit l (place s) in
  match o with
  | TSeek off SeekSet => (mkP l (limit l off) (free s), TDone)
  | TSeek off SeekCur => (mkP l (limit l (place s + off)) (free s), TDone)
  | TSeek off SeekEnd => (mkP l (Z.of_nat (length l)) (free s), TDone)      (* the offset is ignored *)
  | TTell => (s, TNum (place s))
  | TRead size count =>
    let got := Z.min (Z.of_N (size * count)) (Z.of_nat (length l) - here) in
    (mkP l (here + got) (free s), TGot (map Some (part l (Z.to_nat here) (Z.to_nat got))) (Z.to_N got / size))
  | TWrite b size count =>
    if free s then
      let n := N.to_nat (size * count) in
      (mkP (firstn (Z.to_nat here) l ++ firstn n b ++ skipn (Z.to_nat here + n) l) (here + Z.of_nat n) true, TNum (Z.of_N count))
    else (s, TNum 0)
  | TEdit loc len b =>
    if free s && (loc + len <=? length l)%nat then (mkP (firstn loc l ++ b ++ skipn (loc + len) l) (place s) true, TDone) else (s, TDone)
  | TLength n => if free s then (mkP (firstn (Z.to_nat n) l ++ repeat 0%N (Z.to_nat n - length l)) (place s) true, TDone) else (s, TDone)
  | THash => (s, TCode (StrObj_Spec.poly (StrObj_Spec.cut l)))
  end.
Fixpoint page_run (s : page) (os : list top) : page * list tres :=
  match os with
  | [] => (s, [])
  | o :: os' => let '(s1, r) := page_step s o in let '(s2, rs) := page_run s1 os' in (s2, r :: rs)
  end.
(** What callers must see to: as for data objects. *)
Definition top_ok (s : page) (o : top) : Prop :=
  match o with
  | TSeek off SeekCur => (place s + off <= INT64_MAX)%Z
  | TRead size count => (0 < size)%N /\ (size * count < 2^63)%N
  | TWrite b size count => (size * count < 2^63)%N /\ (N.to_nat (size * count) <= length b)%nat
  | TLength n => (0 <= n)%Z
  | _ => True
  end.
Fixpoint tops_ok (s : page) (os : list top) : Prop :=
  match os with
  | [] => True
  | o :: os' => top_ok s o /\ tops_ok (fst (page_step s o)) os'
  end.
Definition sets_length (o : top) : bool := match o with TLength _ => true | _ => false end.
Definition text_shown (s : text) (p : page) : Prop := bytes_shown (dbytes (body s)) (map Some (letters p)) /\ dcursor (body s) = place p /\ mut s = free p.
