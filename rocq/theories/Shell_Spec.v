(** Shell segments. *)
Require Import Coq.ZArith.ZArith Coq.NArith.NArith Coq.Lists.List.
Require Import Verif.Base Verif.Utf8_Spec Verif.Strtonum_Spec Verif.Stream_Model Verif.Shell_Model.
Import ListNotations.
Local Open Scope N_scope.

(** A content type: one line, without blanks at its start, which is in ASCII. *)
Definition type_ok (ct : list N) : Prop :=
  cstring ct /\ ~ In 10 ct /\ match ct with [] => True | b :: _ => b < 128 /\ ~ white b end.
(** An annotation: one line, not empty. *)
Definition note_ok (ann : list N) : Prop := cstring ann /\ ~ In 10 ann /\ ~ In 13 ann /\ ann <> [].
(** The object that holds the data of a segment: a string for a text type, else data. *)
Definition of_type (ct data : list N) (o : obj) : Prop :=
  ((exists r, ct = [116; 101; 120; 116] ++ r) /\ o = Text data) \/ (~ (exists r, ct = [116; 101; 120; 116] ++ r) /\ o = Binary data).
(** [o] is sent as the bytes [data] and received as [o']: without a codec for the content
    type the data is all that is sent; a codec gives back the object. *)
Inductive delivers (reg : registry) (auto : bool) (ct : list N) : obj -> list N -> obj -> Prop :=
| dl_raw : forall o data o', auto = false \/ reg ct = None -> buffer o = Some data -> of_type ct data o' -> delivers reg auto ct o data o'
| dl_codec : forall c o data raw, auto = true -> reg ct = Some c -> buffer (enc c o) = Some data -> of_type ct data raw -> dec c raw = Some o ->
    delivers reg auto ct o data o.
(** The C library prints %zu in decimal. *)
Definition prints_decimal (cprintf : list N -> arg -> list N) : Prop :=
  forall z, (0 <= z < 2^64)%Z -> decimal (cprintf [37; 122; 117] (ALong z)) z.

(** A segment to write, and the object received in its place. *)
Record segment : Type := mkSeg { sobj : obj; stype : list N; snote : list N; sdata : list N; sgot : obj }.
Definition segment_ok (reg : registry) (auto : bool) (g : segment) : Prop :=
  type_ok (stype g) /\ note_ok (snote g) /\ delivers reg auto (stype g) (sobj g) (sdata g) (sgot g) /\
  sdata g <> [] /\ N.of_nat (length (sdata g)) < 2^63.
Definition expected (g : segment) : result := mkR true (Some (sgot g)) (Some (stype g)) (Some (snote g)).

(** Writing segments one after another. *)
Inductive writes_all (cprintf : list N -> arg -> list N) (reg : registry) (auto : bool) : list segment -> list N -> Prop :=
| wa_end : writes_all cprintf reg auto [] []
| wa_next : forall g gs w ws, shell_write cprintf reg auto (sobj g) (stype g) (snote g) = Ok (w, true) ->
    writes_all cprintf reg auto gs ws -> writes_all cprintf reg auto (g :: gs) (w ++ ws).
(** Reading segments until a read fails, which it does at the end of the stream. *)
Inductive reads_all (reg : registry) (auto : bool) : list N -> list result -> Prop :=
| ra_end : forall s, shell_read reg auto s = Ok (mkR false None None None, []) -> s = [] -> reads_all reg auto s []
| ra_next : forall s r s' rs, shell_read reg auto s = Ok (r, s') -> ok r = true -> reads_all reg auto s' rs -> reads_all reg auto s (r :: rs).

(** A stream whose content lengths are plain: blanks, at most 18 digits, the end of the line. *)
Definition lengths_plain (s : list N) : Prop := forall a b, s = a ++ length_name ++ b ->
  exists ws ds c, b = ws ++ ds ++ c /\ Forall (fun x => x = 32 \/ x = 9) ws /\ Forall digit ds /\ (length ds <= 18)%nat /\ (c = [] \/ exists c', c = 10 :: c').
