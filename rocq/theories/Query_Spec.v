(** What query parameters and CSS styles look like. *)
Require Import Coq.ZArith.ZArith Coq.NArith.NArith Coq.Lists.List.
Require Import Verif.Base Verif.String_Spec.
Import ListNotations.
Local Open Scope N_scope.

(** A parameter: [key] or [key=value]; the parameters of a query are separated by [&]. *)
Definition parameter (e : list N * option (list N)) : list N :=
  match snd e with Some v => fst e ++ [61] ++ v | None => fst e end.
Definition query (es : list (list N * option (list N))) : list N := join [38] (map parameter es).
(** The strings of an entry. *)
Definition strings (e : list N * option (list N)) : list (list N) := fst e :: match snd e with Some v => [v] | None => [] end.
(** A string without characters that mean something in a query. *)
Definition simple (s : list N) : Prop := ascii s /\ s <> [] /\ ~ In 37 s /\ ~ In 38 s /\ ~ In 61 s.
(** One that comes back from percent escapes (C33): it has none of
    [= > ? @ } { | ~ [ \ space ] ^ # $ %]. *)
Definition escapable (s : list N) : Prop :=
  s <> [] /\ Forall (fun c => 0 < c < 128 /\ ~ In c [61; 62; 63; 64; 125; 123; 124; 126; 91; 92; 32; 93; 94; 35; 36; 37]) s.

(** A piece of a style text: a declaration [key:value], or anything without colon. *)
Inductive piece := Declaration (k v : list N) | Other (c : list N).
Definition piece_ok (p : piece) : Prop :=
  match p with
  | Declaration k v => text k /\ text v /\ k <> [] /\ v <> [] /\ ~ In 58 k /\ ~ In 58 v /\ ~ In 59 k /\ ~ In 59 v
  | Other c => text c /\ c <> [] /\ ~ In 58 c /\ ~ In 59 c
  end.
Definition written (p : piece) : list N := match p with Declaration k v => k ++ [58] ++ v | Other c => c end.
(** The pieces with a semicolon between them, or after each. *)
Inductive style_text (ps : list piece) : list N -> Prop :=
| between : style_text ps (join [59] (map written ps))
| after_each : style_text ps (flat_map (fun p => written p ++ [59]) ps).
(** The declarations, without the white space around keys and values. *)
Inductive declared (space : N -> bool) : list piece -> list (list N * list N) -> Prop :=
| none_declared : declared space [] []
| one_declared : forall k v ps k' v' es, trimmed space k k' -> trimmed space v v' -> declared space ps es -> declared space (Declaration k v :: ps) ((k', v') :: es)
| not_declared : forall c ps es, declared space ps es -> declared space (Other c :: ps) es.
