(** What an archive has to preserve, and the object graphs that it can hold. *)
Require Import Coq.NArith.NArith Coq.Lists.List.
Require Import Verif.Base Verif.Encoding_Model Verif.Egg_Model.
Import ListNotations.
Local Open Scope N_scope.

(** The objects that a value refers to, and the objects reachable from some roots. *)
Definition olist (o : option nat) : list nat := match o with Some j => [j] | None => [] end.
Definition refs (v : value) : list nat :=
  match v with
  | VObj o => olist o
  | VColl l => flat_map olist l
  | VKeyed l => flat_map (fun p => fst p :: olist (snd p)) l
  | _ => []
  end.
Inductive reach (h : heap) (roots : list nat) : nat -> Prop :=
| reach_root j : In j roots -> reach h roots j
| reach_field i n key v j : reach h roots i -> nth_error h i = Some n -> In (key, v) (nfields n) -> In j (refs v) -> reach h roots j.

(** The same value with every object replaced by its copy. *)
Definition map_value (phi : nat -> nat) (v : value) : value :=
  match v with
  | VObj o => VObj (option_map phi o)
  | VColl l => VColl (map (option_map phi) l)
  | VKeyed l => VKeyed (map (fun p => (phi (fst p), option_map phi (snd p))) l)
  | _ => v
  end.
Definition map_fields (phi : nat -> nat) (fs : list (list N * value)) : list (list N * value) :=
  map (fun f => (fst f, map_value phi (snd f))) fs.
(** [h'] holds a copy of every object of [h] that is reachable: same class, same keys, same
    values up to the copies.  Different objects have different copies, and an object has one
    copy however many times it is referred to.  There are no other objects. *)
Definition copies (h : heap) (roots : list nat) (h' : heap) (phi : nat -> nat) : Prop :=
  (forall i n, reach h roots i -> nth_error h i = Some n -> nth_error h' (phi i) = Some (mkN (ncls n) (map_fields phi (nfields n)))) /\
  (forall i j, reach h roots i -> reach h roots j -> phi i = phi j -> i = j) /\
  (forall k, (k < length h')%nat -> exists i, reach h roots i /\ phi i = k).

(** Class and selector names. *)
Definition name_ok (s : list N) : Prop := Forall (fun b => b <> 0) s /\ N.of_nat (length s) < max_count.
Definition registry_ok (g : registry) : Prop := NoDup (map fst (rclasses g)) /\ Forall name_ok (map fst (rclasses g)) /\ Forall name_ok (rsels g).

(** What an attribute holds. *)
Definition kind_of (v : value) : kind :=
  match v with VObj _ | VClass _ | VSel _ => KObj | VColl _ => KColl | VKeyed _ => KKeyed | VText _ => KText | VBin _ => KBin | VNum _ _ => KNum | VStr _ => KStr | VData _ _ => KData end.
Definition shape (fs : list (list N * value)) : list (list N * kind) := map (fun f => (fst f, kind_of (snd f))) fs.

(** The values that an archive can hold.  [root] is the object that is archived first, if the
    archive has a root, and [first] the first symbol of the archive, that is the class of the
    root: references to either are lost. *)
Definition ref_ok (root : option nat) (j : nat) : Prop := root <> Some j.
Definition oref_ok (root : option nat) (o : option nat) : Prop := match o with Some j => ref_ok root j | None => True end.
Definition storable (g : registry) (root : option nat) (first : list N) (v : value) : Prop :=
  match v with
  | VObj o => oref_ok root o
  | VClass s => s <> first /\ In s (map fst (rclasses g))
  | VSel s => s <> first /\ In s (rsels g)
  | VColl l => Forall (oref_ok root) l /\ N.of_nat (length l) <= max_count /\ (length l = 1%nat \/ Forall (fun o => o <> None) l)
  | VKeyed l => Forall (fun p => ref_ok root (fst p) /\ oref_ok root (snd p)) l /\ N.of_nat (length l) <= max_count
  | VText s => N.of_nat (length s) < max_count
  | VBin s => N.of_nat (length s) <= max_count
  | VNum e l => e < 2 ^ 32 /\ is_number e = true /\ 0 < get_type_size e /\ N.of_nat (length l) = get_count e /\ Forall (fun x => x < 256 ^ get_type_size e) l
  | VStr s => N.of_nat (length s) < max_count
  | VData t l =>
    N.of_nat (length l) <= max_count /\
    (t = 0 \/ number_type t = true /\ 0 < type_size t /\ Forall (fun x => x < 256 ^ type_size t) l)
  end.
(** Keys whose hashes differ, and values that can be stored. *)
Definition fields_ok (g : registry) (root : option nat) (first : list N) (fs : list (list N * value)) : Prop :=
  NoDup (map (fun f => hash32 0 (fst f)) fs) /\ Forall (fun f => storable g root first (snd f)) fs.
(** An object of a class that reads what the object writes. *)
Definition node_ok (g : registry) (root : option nat) (first : list N) (n : node) : Prop :=
  In (ncls n, shape (nfields n)) (rclasses g) /\ fields_ok g root first (nfields n).
(** Every reachable object exists and can be archived. *)
Definition graph_ok (g : registry) (h : heap) (roots : list nat) (root : option nat) (first : list N) : Prop :=
  forall i, reach h roots i -> exists n, nth_error h i = Some n /\ node_ok g root first n.

(** A stream from which some graphs are read, one after the other, and what is left of it. *)
Fixpoint load_all (br : bool) (g : registry) (l : list N) (gs : list (heap * nat)) (rest : list N) : Prop :=
  match gs with
  | [] => l = rest
  | (h, root) :: gs' => exists h' phi l', load_stream br g l = Ok (Some (h', Some (phi root), l')) /\ copies h [root] h' phi /\ load_all br g l' gs' rest
  end.
