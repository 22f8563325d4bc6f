(** Decimal numbers as text. *)
Require Import Coq.ZArith.ZArith Coq.NArith.NArith Coq.Lists.List.
Import ListNotations.
Local Open Scope N_scope.

Definition digit (b : N) : Prop := 48 <= b <= 57.
(** The value of a string of digits. *)
Definition value (ds : list N) : Z := fold_left (fun v b => (10 * v + (Z.of_N b - 48))%Z) ds 0%Z.
Definition sign_text (neg : bool) : list N := if neg then [45] else [].
Definition signed (neg : bool) (v : Z) : Z := if neg then (- v)%Z else v.
(** [ds] is the decimal representation of [n]: digits without leading zeros. *)
Definition decimal (ds : list N) (n : Z) : Prop := Forall digit ds /\ value ds = n /\ (ds = [48] \/ exists d ds', ds = d :: ds' /\ d <> 48).
(** The number ends here: what follows does not begin with a digit, a point or an exponent. *)
Definition ends (rest : list N) : Prop := match rest with [] => False | b :: _ => ~ digit b /\ b <> 46 /\ b <> 101 /\ b <> 69 end.
Definition white (b : N) : Prop := b = 32 \/ 9 <= b <= 13.
