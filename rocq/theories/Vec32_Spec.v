(** What a JSON text with vectors of 32 bit numbers stands for, given what it stands for otherwise. *)
Require Import Coq.ZArith.ZArith Coq.QArith.QArith Coq.QArith.Qabs Coq.NArith.NArith Coq.Lists.List.
Require Import Verif.Base Verif.Strtonum_Model Verif.JSON_Model Verif.Vec32_Model.
Require Verif.Number_Model Verif.Number_Spec Verif.Real_Model Verif.Real_Spec.
Import ListNotations.

(** An integer of 32 bits. *)
Definition fits (n : jnum) : Prop := match n with NInt z => (- 2 ^ 31 <= z < 2 ^ 31)%Z | NReal _ _ _ _ => True end.
Section Spec.
Context (pow10 : Z -> Z).
(** The element of the vector that a number becomes: the integer, or else the float nearest to it, or
    nearest to the double that the number would be on its own. *)
Definition element32 (floats : bool) (n : jnum) (w : Z) : Prop :=
  match floats, n with
  | false, NInt z => w = z
  | false, NReal _ _ _ _ => False
  | true, NInt z => Real_Spec.rounded Real_Spec.float (inject_Z z) w
  | true, NReal sign ipart fs exp =>
    forall q, Real_Spec.meaning Real_Spec.double (Real_Model.real pow10 sign ipart fs exp) = Real_Spec.Real q -> (Qabs q <= Real_Spec.largest Real_Spec.float)%Q ->
      Real_Spec.rounded Real_Spec.float q w
  end.
Definition type32 (floats : bool) : Real_Model.nty := if floats then Real_Model.TF Real_Model.Single else Real_Model.TI Number_Model.int32.
(** The elements [ok] are read right.  A vector of one number is a number. *)
Inductive as32 (ok : jnum -> Prop) : json -> json32 -> Prop :=
| a_null : as32 ok JNull VNull
| a_bool : forall b, as32 ok (JBool b) (VBool b)
| a_num : forall n, as32 ok (JNum n) (VNum n)
| a_one : forall fl n w, (ok n -> element32 fl n w) -> as32 ok (JNum n) (VVec (Real_Model.mkR (type32 fl) [w]))
| a_vec : forall fl l ws, Forall2 (fun n w => ok n -> element32 fl n w) l ws -> as32 ok (JVec fl l) (VVec (Real_Model.mkR (type32 fl) ws))
| a_str : forall s, as32 ok (JStr s) (VStr s)
| a_arr : forall l l', Forall2 (as32 ok) l l' -> as32 ok (JArr l) (VArr l')
| a_obj : forall l l', Forall2 (fun p q => fst p = fst q /\ as32 ok (snd p) (snd q)) l l' -> as32 ok (JObj l) (VObj l').
End Spec.
