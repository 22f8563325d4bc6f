(** What properties should do: who owns the objects they hold, what reading gives after writing,
    which writes are refused, and what observers see. *)
Require Import Coq.NArith.NArith Coq.ZArith.ZArith Coq.Lists.List Coq.Arith.Arith Coq.Bool.Bool.
Require Import Verif.Base Verif.Number_Model Verif.Number_Spec Verif.Property_Model.
Require Verif.String_Spec.
Import ListNotations.
Local Open Scope nat_scope.

(** * Sensible definitions of properties *)
Definition octets (b : list Z) : Prop := Forall (fun z => (0 <= z < 256)%Z) b.
(** No accessors of its own; not both weak and copied; numbers are vectors of integers. *)
Definition plain (p : property) : Prop :=
  getter p = None /\ setter p = None /\ (copied p = true -> weak p = true -> False) /\
  match enc p with ENum t s => integer_type t /\ is_mat s = false | _ => True end.
Definition sensible (P : program) : Prop :=
  (forall c p, In p (props P c) -> plain p) /\
  (forall c p q, In p (props P c) -> In q (props P c) -> offset p = offset q -> p = q) /\
  (forall c p q, In p (props P c) -> In q (props P c) -> pname p = pname q -> p = q).
(** Values: numbers and structures have the bytes they should. *)
Definition value_ok (b : content) : Prop := match b with CNum n => well_sized n | CStruct _ b => octets b | _ => True end.

(** * References *)
Definition alive (w : world) (x : nat) : Prop := exists o, nth_error (heap w) x = Some o /\ refs o <> 0.
Definition alive_opt (w : world) (x : option nat) : Prop := match x with None => True | Some i => alive w i end.
Definition receiver_ok (w : world) (g : got) : Prop := match g with GObj i => alive w i | _ => True end.
Definition is_ref (s : slot) (x : nat) : nat := match s with SRef (Some y) => if y =? x then 1 else 0 | _ => 0 end.
(** How many strong references to [x] the memory of all objects holds. *)
Fixpoint in_memory (m : list ((nat * nat) * slot)) (x : nat) : nat := match m with [] => 0 | (_, s) :: m' => is_ref s x + in_memory m' x end.
Definition times (l : list nat) (x : nat) : nat := count_occ Nat.eq_dec l x.
(** Every reference that is counted is owned by the client, by the pool or by a property. *)
Definition accounted (w : world) (owned : list nat) : Prop :=
  forall x, match nth_error (heap w) x with
            | Some o => refs o = times owned x + times (pool w) x + in_memory (memory w) x
            | None => times owned x + times (pool w) x + in_memory (memory w) x = 0
            end.

(** What a client may do, who owns the references [owned], and what it owns afterwards. *)
Definition permitted (P : program) (w : world) (owned : list nat) (a : op) : Prop :=
  match a with
  | New _ b => value_ok b
  | Mutate x b => alive w x /\ value_ok b
  | Retain x => alive w x
  | Release x => In x owned
  | Set_ g _ x => receiver_ok w g /\ alive_opt w x
  | Get_ g _ => receiver_ok w g
  | SetNum g _ v => receiver_ok w g /\ well_sized v
  | GetNum g _ t s dst => receiver_ok w g /\ integer_type t /\ is_mat s = false /\ length dst = size t s /\ octets dst
  | SetStruct g _ _ b => receiver_ok w g /\ octets b
  | GetStruct g _ _ _ => receiver_ok w g
  | Drain => True
  end.
Fixpoint without (l : list nat) (x : nat) : list nat := match l with [] => [] | y :: l' => if y =? x then l' else y :: without l' x end.
Definition owns (w : world) (owned : list nat) (a : op) : list nat :=
  match a with New _ _ => length (heap w) :: owned | Retain x => x :: owned | Release x => without owned x | _ => owned end.
(** The states a client that keeps to the rules can reach. *)
Inductive reaches (P : program) : world -> list nat -> world -> list nat -> list op -> Prop :=
| r_here w c : reaches P w c w c []
| r_step w c a w' l v d : permitted P w c a -> step P w a = Ok w' -> reaches P w' (owns w c a) v d l -> reaches P w c v d (a :: l).
Definition reachable (P : program) (w : world) (c : list nat) : Prop := exists l, reaches P start [] w c l.

(** * Properties of an object *)
Definition has_property (P : program) (w : world) (o : nat) (p : property) : Prop :=
  exists ob, nth_error (heap w) o = Some ob /\ In p (props P (cls ob)).
Definition writes (a : op) (o : nat) (n : text) : Prop :=
  match a with Set_ (GObj i) m _ | SetNum (GObj i) m _ | SetStruct (GObj i) m _ _ => i = o /\ m = n | _ => False end.
Definition mutates (a : op) (x : nat) : Prop := match a with Mutate y _ => y = x | _ => False end.
(** The class and the value of an object. *)
Definition is_a (w : world) (x : nat) (c : nat) (b : content) : Prop := exists n, nth_error (heap w) x = Some (mkObj c b n).
(** The requirement of a property. *)
Definition accepts (p : property) (w : world) (x : option nat) : Prop :=
  match pred p with
  | None => True
  | Some f => match x with
              | None => f None = true
              | Some i => exists c b, is_a w i c b /\ f (Some (c, b)) = true
              end
  end.
(** A requirement that only looks at the class. *)
Definition by_class (p : property) : Prop := forall f c b b', pred p = Some f -> f (Some (c, b)) = f (Some (c, b')).

(** The situation: [x] was stored in the property, and then other things happened. *)
Record after_set (P : program) (w : world) (c : list nat) (o : nat) (p : property) (x : option nat) (w1 : world) (l : list op) (w2 : world) (c2 : list nat) : Prop := {
  a_reach : reachable P w c; a_has : has_property P w o p; a_obj : enc p = EObj; a_rw : readonly p = false; a_accepts : accepts p w x;
  a_permitted : permitted P w c (Set_ (GObj o) (pname p) x); a_step : step P w (Set_ (GObj o) (pname p) x) = Ok w1;
  a_then : reaches P w1 c w2 c2 l; a_others : Forall (fun a => ~ writes a o (pname p)) l; a_alive : alive w2 o }.

(** * Observers *)
Definition observed (P : program) : Prop := forall c p, In p (props P c) -> wr p = true /\ dr p = true /\ ww p = true /\ dw p = true.
(** Accesses one after another, each announced and then reported; warnings can come anywhere. *)
Definition warnings (l : list event) : Prop := Forall (fun e => e = Warning) l.
Inductive orderly : list event -> Prop :=
| ord_nil : orderly []
| ord_warning l : orderly l -> orderly (Warning :: l)
| ord_read o n ws l : warnings ws -> orderly l -> orderly (WillRead o n :: ws ++ DidRead o n :: l)
| ord_write o n ws l : warnings ws -> orderly l -> orderly (WillWrite o n :: ws ++ DidWrite o n :: l).

(** * Key paths *)
(** A key in code points: some text without a full stop; keys put together with full stops. *)
Definition key_text (k : list N) : Prop := String_Spec.text k /\ k <> [] /\ ~ In 46%N k.
Fixpoint dotted (ks : list (list N)) : list N := match ks with [] => [] | [k] => k | k :: ks' => k ++ 46%N :: dotted ks' end.
(** Reading the properties one after another. *)
Fixpoint walk (P : program) (w : world) (g : got) (keys : list text) (junk : list Z) : outcome (world * got) :=
  match keys with
  | [] => Ok (w, g)
  | k :: ks => match get_property P w g k junk with Ok (w', g') => walk P w' g' ks junk | UB => UB | Fatal => Fatal | NoFuel => NoFuel end
  end.

(** * Inheritance, from the history of installations, the last first *)
Fixpoint classes (h : list class_op) : nat := match h with [] => 0 | NewClass _ :: h' => S (classes h') | Install _ _ :: h' => classes h' end.
Fixpoint inherited (h : list class_op) (c : nat) (n : text) : option property :=
  match h with
  | [] => None
  | Install c' p :: h' => if (c' =? c) && (c' <? classes h') && text_eqb (pname p) n then Some p else inherited h' c n
  | NewClass s :: h' => if c =? classes h' then match s with Some s => inherited h' s n | None => None end else inherited h' c n
  end.
