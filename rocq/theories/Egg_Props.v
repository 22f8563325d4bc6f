(** The properties of archives. *)
Require Import Coq.NArith.NArith Coq.Lists.List Coq.micromega.Lia.
Require Import Verif.Base Verif.Encoding_Model Verif.Egg_Model Verif.Egg_Spec Verif.Egg_Final Verif.Egg_More.
Import ListNotations.
Local Open Scope N_scope.

(** C40, the part that holds: an object graph is read back as a copy, on a machine of either
    byte order, from data and from a stream.  Missing: references to the root, its class as
    the value of an attribute, NULL in collections, and keys with the same hash. *)
Theorem C40_round_trip_partial : forall bw g h root n, registry_ok g -> nth_error h root = Some n -> graph_ok g h [root] (Some root) (ncls n) -> N.of_nat (length h) + 1 < 2 ^ 32 ->
  exists l, save bw h root = Ok l /\ (N.of_nat (length l) < 2 ^ 32 -> forall br rest, exists h' phi,
    load br g l = Ok (Some (h', Some (phi root))) /\ load_stream br g (l ++ rest) = Ok (Some (h', Some (phi root), rest)) /\ copies h [root] h' phi).
Proof. exact round_trip. Qed.
Print Assumptions C40_round_trip_partial.
(** The same for archives without a root object: each value that the program added is read
    under its key. *)
Theorem C40_rootless_partial : forall bw g h fs, registry_ok g -> let roots := flat_map (fun f => refs (snd f)) fs in
  graph_ok g h roots None anonymous -> fields_ok g None anonymous fs -> N.of_nat (length h) + 1 < 2 ^ 32 ->
  exists l, save_fields bw h fs = Ok l /\ (N.of_nat (length l) < 2 ^ 32 -> forall br, exists h' phi,
    load_fields br g l (shape fs) = Ok (Some (h', map_fields phi fs)) /\ copies h roots h' phi).
Proof. exact round_trip_fields. Qed.
Print Assumptions C40_rootless_partial.

(** A root with a collection that names an object twice, a keyed collection and a text, and two
    objects that refer to each other and hold numbers, a class, a selector and bytes. *)
Definition case_registry : registry :=
  mkR [([82], [([97], KColl); ([98], KKeyed); ([99], KText)]); ([65], [([97], KObj); ([98], KNum); ([99], KObj); ([100], KBin)])] [[115]].
Definition case_heap : heap :=
  [mkN [82] [([97], VColl [Some 1; Some 2; Some 1]%nat); ([98], VKeyed [(2, Some 1)%nat; (1%nat, None)]); ([99], VText [104; 105])];
   mkN [65] [([97], VObj (Some 2%nat)); ([98], VNum (encode 11 2) [258; 772]); ([99], VClass [65]); ([100], VBin [0; 1])];
   mkN [65] [([97], VObj (Some 1%nat)); ([98], VNum (encode 11 2) [1; 2]); ([99], VSel [115]); ([100], VBin [])]].
Lemma case_reach i : reach case_heap [0%nat] i -> (i < 3)%nat.
Proof.
  intros R. induction R as [j [<-|[]]|i n key v j R IH E J Jr]; [lia|]. destruct i as [|[|[|i]]]; [| | |lia]; injection E as <-; cbn [nfields] in J;
    repeat (destruct J as [J|J]; [injection J as <- <-; cbn [refs flat_map olist app fst snd] in Jr; repeat (destruct Jr as [Jr|Jr]; [subst j; lia|]); destruct Jr|]); destruct J.
Qed.
Example C40_case : registry_ok case_registry /\ graph_ok case_registry case_heap [0%nat] (Some 0%nat) [82] /\
  forall br, match save false case_heap 0 with Ok l => load br case_registry l = Ok (Some (case_heap, Some 0%nat)) | _ => False end.
Proof.
  split; [|split].
  - split; [|split].
    + repeat constructor; cbn; intros X; decompose [or] X; try discriminate; auto.
    + repeat (apply Forall_cons; [split; [repeat constructor; discriminate|reflexivity]|]). constructor.
    + repeat (apply Forall_cons; [split; [repeat constructor; discriminate|reflexivity]|]). constructor.
  - assert (N4: NoDup [3001; 3002; 3003; 3004]) by (repeat constructor; cbn; lia).
    intros i R. apply case_reach in R. destruct i as [|[|[|i]]]; [| | |lia]; eexists; (split; [reflexivity|]); (split; [cbn; auto|]); split.
    + vm_compute. repeat constructor; cbn; intros X; decompose [or] X; try discriminate; auto.
    + repeat (apply Forall_cons; [|]); [| | |constructor].
      * split; [|split; [vm_compute; discriminate|right; repeat (apply Forall_cons; [discriminate|]); constructor]]. repeat (apply Forall_cons; [cbn; unfold ref_ok; discriminate|]). constructor.
      * split; [|vm_compute; discriminate]. repeat (apply Forall_cons; [cbn; unfold ref_ok; split; [discriminate|first [exact Logic.I|discriminate]]|]). constructor.
      * vm_compute. reflexivity.
    + vm_compute. repeat constructor; cbn; intros X; decompose [or] X; try discriminate; auto.
    + repeat (apply Forall_cons; [|]); [| | | |constructor].
      * cbn. unfold ref_ok. discriminate.
      * split; [reflexivity|]. split; [reflexivity|]. split; [reflexivity|]. split; [reflexivity|]. repeat (apply Forall_cons; [reflexivity|]). constructor.
      * split; [discriminate|]. cbn. auto.
      * vm_compute. discriminate.
    + vm_compute. repeat constructor; cbn; intros X; decompose [or] X; try discriminate; auto.
    + repeat (apply Forall_cons; [|]); [| | | |constructor].
      * cbn. unfold ref_ok. discriminate.
      * split; [reflexivity|]. split; [reflexivity|]. split; [reflexivity|]. split; [reflexivity|]. repeat (apply Forall_cons; [reflexivity|]). constructor.
      * split; [discriminate|]. cbn. auto.
      * vm_compute. discriminate.
  - intros br. destruct br; vm_compute; reflexivity.
Qed.
(** C40 is false: the elements of a collection after a NULL move, and the class of the root is
    lost when it is the value of an attribute. *)
Theorem C40_refuted :
  (exists l, save false [mkN [82] [([97], VColl [Some 1; None; Some 2]%nat); ([98], VKeyed []); ([99], VText [])]; mkN [65] []; mkN [65] []] 0 = Ok l /\
    load false (mkR [([82], [([97], KColl); ([98], KKeyed); ([99], KText)]); ([65], [])] []) l =
      Ok (Some ([mkN [82] [([97], VColl [Some 1; Some 2; None]%nat); ([98], VKeyed []); ([99], VText [])]; mkN [65] []; mkN [65] []], Some 0%nat))) /\
  (exists l, save false [mkN [65] [([97], VClass [65])]] 0 = Ok l /\ load false (mkR [([65], [([97], KObj)])] []) l = Ok (Some ([mkN [65] [([97], VObj None)]], Some 0%nat))).
Proof. split; eexists; split; vm_compute; reflexivity. Qed.
Print Assumptions C40_refuted.

(** C41, the part that holds: each object has one copy wherever it is referred to from, and
    different objects have different copies, cycles included.  Missing: references back to the
    root. *)
Theorem C41_sharing_partial : forall bw g h root n, registry_ok g -> nth_error h root = Some n -> graph_ok g h [root] (Some root) (ncls n) -> N.of_nat (length h) + 1 < 2 ^ 32 ->
  exists l, save bw h root = Ok l /\ (N.of_nat (length l) < 2 ^ 32 -> forall br, exists h' phi,
    load br g l = Ok (Some (h', Some (phi root))) /\
    (forall i j, reach h [root] i -> reach h [root] j -> phi i = phi j -> i = j) /\
    (forall i m key j, reach h [root] i -> nth_error h i = Some m -> In (key, VObj (Some j)) (nfields m) ->
      exists m', nth_error h' (phi i) = Some m' /\ In (key, VObj (Some (phi j))) (nfields m'))).
Proof. exact sharing. Qed.
Print Assumptions C41_sharing_partial.
(** C41 is false: an object that refers to itself, or to the root, is read with NULL instead. *)
Theorem C41_root_refuted : let g := mkR [([65], [([97], KObj)])] [] in
  (exists l, save false [mkN [65] [([97], VObj (Some 0%nat))]] 0 = Ok l /\ load false g l = Ok (Some ([mkN [65] [([97], VObj None)]], Some 0%nat))) /\
  (exists l, save false [mkN [65] [([97], VObj (Some 1%nat))]; mkN [65] [([97], VObj (Some 0%nat))]] 0 = Ok l /\
    load false g l = Ok (Some ([mkN [65] [([97], VObj (Some 1%nat))]; mkN [65] [([97], VObj None)]], Some 0%nat))).
Proof. cbn zeta. split; eexists; split; vm_compute; reflexivity. Qed.
Print Assumptions C41_root_refuted.

(** C42, the part that holds: keys with different hashes. *)
Theorem C42_distinct_partial : forall bw g fs, registry_ok g -> NoDup (map (fun f => hash32 0 (fst f)) fs) -> Forall (fun f => exists s, snd f = VText s /\ N.of_nat (length s) < max_count) fs ->
  exists l, save_fields bw [] fs = Ok l /\ (N.of_nat (length l) < 2 ^ 32 -> forall br, load_fields br g l (map (fun f => (fst f, KText)) fs) = Ok (Some ([], fs))).
Proof. exact distinct_keys. Qed.
Print Assumptions C42_distinct_partial.
Example C42_case : NoDup (map (fun f : list N * value => hash32 0 (fst f)) [([97], VText [1]); ([97; 98], VText []); ([], VText [2])]).
Proof. vm_compute. repeat constructor; cbn; intros X; decompose [or] X; try discriminate; auto. Qed.
(** C42 is false: the value of Aa is read for BB. *)
Theorem C42_refuted : exists l, save_fields false [] [([65; 97], VText [1]); ([66; 66], VText [2])] = Ok l /\
  load_fields false (mkR [] []) l [([65; 97], KText); ([66; 66], KText)] = Ok (Some ([], [([65; 97], VText [1]); ([66; 66], VText [1])])).
Proof. eexists; split; vm_compute; reflexivity. Qed.
Print Assumptions C42_refuted.

(** C89: the machine that reads may have another byte order than the machine that wrote. *)
Theorem C89_byte_order : forall bw g h root n, registry_ok g -> nth_error h root = Some n -> graph_ok g h [root] (Some root) (ncls n) -> N.of_nat (length h) + 1 < 2 ^ 32 ->
  exists l, save bw h root = Ok l /\ (N.of_nat (length l) < 2 ^ 32 -> forall br, exists h' phi, load br g l = Ok (Some (h', Some (phi root))) /\ copies h [root] h' phi).
Proof. exact either_order. Qed.
Print Assumptions C89_byte_order.

(** C90: archives in a stream, one after the other. *)
Theorem C90_streams : forall g (gs : list (bool * heap * nat)), registry_ok g ->
  Forall (fun x => let '(bw, h, root) := x in (exists n, nth_error h root = Some n /\ graph_ok g h [root] (Some root) (ncls n)) /\ N.of_nat (length h) + 1 < 2 ^ 32) gs ->
  exists ls, Forall2 (fun x l => let '(bw, h, root) := x in save bw h root = Ok l) gs ls /\
    (Forall (fun l => N.of_nat (length l) < 2 ^ 32) ls -> forall br rest, load_all br g (concat ls ++ rest) (map (fun x => let '(bw, h, root) := x in (h, root)) gs) rest).
Proof. exact streams. Qed.
Print Assumptions C90_streams.

(** C91: a part of an archive is not opened. *)
Theorem C91_truncated : forall bw h root l, save bw h root = Ok l -> N.of_nat (length l) < 2 ^ 32 ->
  forall br p, (p < length l)%nat -> open_data br (firstn p l) = Ok None /\ open_stream br (firstn p l) = Ok None.
Proof. exact cut_ok. Qed.
Print Assumptions C91_truncated.
Theorem C91_truncated_rootless : forall bw h fs l, save_fields bw h fs = Ok l -> N.of_nat (length l) < 2 ^ 32 ->
  forall br p, (p < length l)%nat -> open_data br (firstn p l) = Ok None /\ open_stream br (firstn p l) = Ok None.
Proof. exact cut_fields_ok. Qed.
Print Assumptions C91_truncated_rootless.
Example C91_case : exists l, save true case_heap 0 = Ok l /\ (length l > 200)%nat /\ N.of_nat (length l) < 2 ^ 32.
Proof. eexists. split; [vm_compute; reflexivity|]. split; [cbn; lia|reflexivity]. Qed.

(** C92, the part that holds: opening any data is safe. *)
Theorem C92_open_partial : forall br l, exists r, open_data br l = Ok r.
Proof. exact open_total. Qed.
Print Assumptions C92_open_partial.
(** C92 is false: a header that counts an object the data does not have, and a header in a
    stream that says the archive is shorter than a header. *)
Theorem C92_refuted :
  load false (mkR [] []) (prefix_text ++ [0; 0; 0; 1; 1; 2; 0] ++ int_bytes false 4 48 ++ int_bytes false 4 1 ++ int_bytes false 4 48 ++ int_bytes false 4 0 ++ int_bytes false 4 48 ++ int_bytes false 4 0) = UB /\
  load_stream false (mkR [] []) (prefix_text ++ [0; 0; 0; 1; 1; 2; 0] ++ int_bytes false 4 48 ++ int_bytes false 4 0 ++ int_bytes false 4 48 ++ int_bytes false 4 0 ++ int_bytes false 4 0 ++ int_bytes false 4 0 ++ [7]) = UB.
Proof. split; vm_compute; reflexivity. Qed.
Print Assumptions C92_refuted.

(** C93 is false: the length of a text is one too small, and the length of the empty text wraps
    around. *)
Theorem C93_refuted : exists l e, save_fields false [] [([97], VText [104; 105]); ([98], VText [])] = Ok l /\ open_data false l = Ok (Some e) /\
  get_text_data false e [0%nat] [97] = Ok ([104; 105], 1) /\ get_text_data false e [0%nat] [98] = Ok ([], 2 ^ 64 - 1).
Proof. eexists. eexists. split; [vm_compute; reflexivity|]. split; [vm_compute; reflexivity|]. split; vm_compute; reflexivity. Qed.
Print Assumptions C93_refuted.
(** The text is copied, and the result is one less than its length. *)
Theorem C93_copied_partial : forall bw g fs, registry_ok g -> NoDup (map (fun f => hash32 0 (fst f)) fs) -> Forall (fun f => exists s, snd f = VText s /\ N.of_nat (length s) < max_count) fs ->
  exists l, save_fields bw [] fs = Ok l /\ (N.of_nat (length l) < 2 ^ 32 -> forall br, exists e, open_data br l = Ok (Some e) /\
    forall k s, In (k, VText s) fs -> s <> [] -> get_text_data br e [0%nat] k = Ok (s, N.of_nat (length s) - 1)).
Proof. exact text_copied. Qed.
Print Assumptions C93_copied_partial.
