(** The integer a text begins with. *)
Require Import Coq.ZArith.ZArith Coq.NArith.NArith Coq.Lists.List.
Import ListNotations.
Local Open Scope N_scope.

Definition digit (b : N) : Prop := 48 <= b <= 57.
Definition white (b : N) : Prop := b = 32 \/ 9 <= b <= 13.
(** The value of a string of digits: each counts by its place. *)
Fixpoint value (ds : list N) : Z :=
  match ds with [] => 0 | d :: ds' => (Z.of_N d - 48) * 10 ^ Z.of_nat (length ds') + value ds' end%Z.
Inductive sign : Type := Plus | Minus | Absent.
Definition sign_text (g : sign) : list N := match g with Plus => [43] | Minus => [45] | Absent => [] end.
Definition signed (g : sign) (v : Z) : Z := match g with Minus => (- v)%Z | _ => v end.
Definition no_digit (rest : list N) : Prop := match rest with b :: _ => ~ digit b | [] => True end.
(** After any white space, the text begins with a number, [z]. *)
Definition stands_for (t : list N) (z : Z) : Prop :=
  exists ws g ds rest, t = ws ++ sign_text g ++ ds ++ rest /\ Forall white ws /\ Forall digit ds /\ ds <> [] /\ no_digit rest /\ z = signed g (value ds).
(** After any white space, it does not. *)
Definition no_number (t : list N) : Prop :=
  exists ws g rest, t = ws ++ sign_text g ++ rest /\ Forall white ws /\ no_digit rest /\
    (g = Absent -> match rest with b :: _ => ~ white b /\ b <> 43 /\ b <> 45 | [] => True end).
(** The member of a range that is nearest to an integer. *)
Definition nearest (lo hi z r : Z) : Prop := (lo <= r <= hi /\ forall r', lo <= r' <= hi -> Z.abs (z - r) <= Z.abs (z - r'))%Z.
