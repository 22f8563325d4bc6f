(** Model of Source/DKGenericHashTable.c and of the row callbacks of
    Source/DKHashTable.c.

    Simplifications (valid for the whole file):
    - keys and objects are abstract values; reference counting of keys and
      objects is not modelled here;
    - a key is never NULL (INTERNAL_DKHashTableInsertObject and
      INTERNAL_DKHashTableAddObjectToSet DKRequire it, DKHashTable.c 719, 785);
      objects are values of an arbitrary type [V] (use [option] for NULL);
    - the key stored is the key passed in (DKCopy of a key is an equal key);
    - allocation never fails. *)
Require Import Coq.NArith.NArith Coq.Lists.List Coq.Bool.Bool.
Require Import Verif.Base.
Import ListNotations.
Local Open Scope N_scope.

(** DKGenericHashTable.c 36-125: struct HashTableSize and the table
    HashTableSizes, as (rowCount, maxActive). *)
Definition hash_table_sizes : list (N * N) :=
  [ (11, 5); (17, 8); (25, 12); (61, 30); (127, 63); (191, 95); (509, 254);
    (1021, 510); (1531, 765); (2297, 1148); (3583, 1791); (5623, 2811);
    (8447, 4223); (12799, 6399); (19447, 9723); (29179, 14589);
    (44029, 22014); (66047, 33023); (99317, 49658); (148991, 74495);
    (223711, 111855); (335609, 167804); (503551, 251775); (755449, 377724);
    (1133303, 566651); (1700087, 850043); (2550269, 1275134);
    (3825649, 1912824); (5738743, 2869371); (8608247, 4304123);
    (12912379, 6456189); (19368703, 9684351); (29053181, 14526590);
    (43579873, 21789936); (65369851, 32684925); (98054897, 49027448);
    (147082471, 73541235); (220623863, 110311931); (330936049, 165468024);
    (496404217, 248202108); (744606449, 372303224); (1116909791, 558454895);
    (1675364863, 837682431) ].

(** DKGenericHashTable.c 201-213, NextHashTableSize: first size larger than
    the current row count; DKFatalError when there is none. *)
Fixpoint next_size_in (sizes : list (N * N)) (rowCount : N) : option (N * N) :=
  match sizes with
  | [] => None
  | s :: rest => if rowCount <? fst s then Some s else next_size_in rest rowCount
  end.

Definition next_hash_table_size (rowCount : N) : outcome (N * N) :=
  match next_size_in hash_table_sizes rowCount with
  | Some s => Ok s
  | None => Fatal
  end.

(** DKRuntime.h DKInsertPolicy. *)
Inductive insert_policy := InsertAlways | InsertIfFound | InsertIfNotFound.

Section HashTable.
  Variables K V : Type.
  Variable hash : K -> N.          (* rowHash: DKHash( row->key ), DKHashTable.c 247-251 *)
  Variable keq : K -> K -> bool.   (* rowEqual: DKEqual on the keys, DKHashTable.c 253-259 *)

  (** A row: DKHashTable.c RowStatus 241-245 reads the status off the key
      field, which holds a sentinel for empty and deleted rows. *)
  Inductive row :=
  | Empty
  | Deleted
  | Active (k : K) (v : V).

  (** DKGenericHashTable.h struct DKGenericHashTable; [rows = None] is the NULL
      pointer of a table not yet allocated. *)
  Record table := mkTable {
    rows : option (list row);
    activeCount : N;
    deletedCount : N;
    rowCount : N;
    maxActive : N
  }.

  (** DKGenericHashTableInit, DKGenericHashTable.c 336-349. *)
  Definition table_init : table := mkTable None 0 0 0 0.

  (** The row at address rows + x * rowSize; [None] is an out-of-bounds read. *)
  Definition row_at (rs : list row) (x : N) : option row := nth_error rs (N.to_nat x).

  (** One step of quadratic probing, DKGenericHashTable.c 315-320:
      i++; x += 2*i - 1; if( x >= rowCount ) x -= rowCount.  (No 64-bit
      overflow: i is at most rowCount + 1.) *)
  Definition probe_next (rc : N) (xi : N * N) : N * N :=
    let '(x, i) := xi in
    let i' := i + 1 in
    let x' := x + (2 * i' - 1) in
    (if rc <=? x' then x' - rc else x', i').

  Inductive find_status := FEmpty | FDeleted | FActive.

  (** The while( 1 ) loop of Find, DKGenericHashTable.c 279-325. *)
  Fixpoint find_loop (fuel : nat) (rs : list row) (rc : N) (k : K)
           (firstDeleted : option N) (xi : N * N) : outcome (N * find_status) :=
    match fuel with
    | O => NoFuel
    | S fuel' =>
      let x := fst xi in
      match row_at rs x with
      | None => UB
      | Some Empty =>
          match firstDeleted with
          | Some d => Ok (d, FDeleted)
          | None => Ok (x, FEmpty)
          end
      | Some (Active k' _) =>
          if keq k' k then Ok (x, FActive)
          else find_loop fuel' rs rc k firstDeleted (probe_next rc xi)
      | Some Deleted =>
          let fd := match firstDeleted with None => Some x | Some d => Some d end in
          find_loop fuel' rs rc k fd (probe_next rc xi)
      end
    end.

  (** Find, DKGenericHashTable.c 268-330.  The fuel is a bound on the number of
      probes after which the index must have left the table
      (theorem [find_no_nofuel]); rowCount = 0 is a division by zero. *)
  Definition find (rs : list row) (rc : N) (k : K) : outcome (N * find_status) :=
    if rc =? 0 then UB
    else find_loop (N.to_nat rc + 2) rs rc k None (hash k mod rc, 0).

  (** DKHashTable.c RowUpdate 269-284: a sentinel row takes the key and the
      object; an active row keeps its key and takes the object. *)
  Definition row_update (r : row) (k : K) (v : V) : row :=
    match r with
    | Active k' _ => Active k' v
    | Empty | Deleted => Active k v
    end.

  Definition write_row (rs : list row) (x : N) (r : row) : list row :=
    upd rs (N.to_nat x) r.

  (** The reinsertion loop of ResizeAndRehash, DKGenericHashTable.c 245-258;
      [ins] is the (recursive) call DKGenericHashTableInsert( .., DKInsertAlways ). *)
  Fixpoint reinsert (ins : table -> K -> V -> insert_policy -> outcome (table * bool))
           (old : list row) (t : table) : outcome table :=
    match old with
    | [] => Ok t
    | Active k v :: old' =>
        do tb <- ins t k v InsertAlways;
        reinsert ins old' (fst tb)
    | _ :: old' => reinsert ins old' t
    end.

  (** ResizeAndRehash, DKGenericHashTable.c 219-262. *)
  Definition resize_and_rehash (ins : table -> K -> V -> insert_policy -> outcome (table * bool))
             (t : table) : outcome table :=
    if activeCount t + deletedCount t <? maxActive t then Ok t
    else
      do size <- (if (rowCount t =? 0) || (deletedCount t <? activeCount t)
                  then next_hash_table_size (rowCount t)
                  else Ok (rowCount t, maxActive t));
      let '(rc, ma) := size in
      let t' := mkTable (Some (repeat Empty (N.to_nat rc))) 0 0 rc ma in
      match rows t with
      | None => Ok t'
      | Some old => reinsert ins old t'
      end.

  (** DKGenericHashTableInsert, DKGenericHashTable.c 391-424.  [depth] bounds
      the nesting of insert -> resize -> insert; [insert] below uses 2 and
      [insert_no_nofuel] shows that is enough. *)
  Fixpoint insert_depth (depth : nat) (t : table) (k : K) (v : V) (p : insert_policy)
    : outcome (table * bool) :=
    match depth with
    | O => NoFuel
    | S d =>
      do t1 <- (match rows t with
                | None => resize_and_rehash (insert_depth d) t
                | Some _ => Ok t
                end);
      match rows t1 with
      | None => UB
      | Some rs =>
        do xs <- find rs (rowCount t1) k;
        let '(x, st) := xs in
        match row_at rs x with
        | None => UB
        | Some r =>
          match st with
          | FActive =>
              match p with
              | InsertIfNotFound => Ok (t1, false)
              | _ => Ok (mkTable (Some (write_row rs x (row_update r k v)))
                                 (activeCount t1) (deletedCount t1)
                                 (rowCount t1) (maxActive t1), true)
              end
          | _ =>
              match p with
              | InsertIfFound => Ok (t1, false)
              | _ =>
                let dc := match st with
                          | FDeleted => deletedCount t1 - 1
                          | _ => deletedCount t1
                          end in
                let t2 := mkTable (Some (write_row rs x (row_update r k v)))
                                  (activeCount t1 + 1) dc
                                  (rowCount t1) (maxActive t1) in
                do t3 <- resize_and_rehash (insert_depth d) t2;
                Ok (t3, true)
              end
          end
        end
      end
    end.

  Definition insert := insert_depth 2.

  (** DKGenericHashTableFind, DKGenericHashTable.c 373-385, with the object
      read of INTERNAL_DKHashTableGetObject, DKHashTable.c 597-609: the stored
      row of an equal key. *)
  Definition lookup (t : table) (k : K) : outcome (option (K * V)) :=
    if 0 <? activeCount t then
      match rows t with
      | None => UB
      | Some rs =>
        do xs <- find rs (rowCount t) k;
        match snd xs with
        | FActive =>
            match row_at rs (fst xs) with
            | Some (Active k' v) => Ok (Some (k', v))
            | _ => UB
            end
        | _ => Ok None
        end
      end
    else Ok None.

  (** DKGenericHashTableRemove, DKGenericHashTable.c 430-444. *)
  Definition remove (t : table) (k : K) : outcome table :=
    if 0 <? activeCount t then
      match rows t with
      | None => UB
      | Some rs =>
        do xs <- find rs (rowCount t) k;
        match snd xs with
        | FActive =>
            Ok (mkTable (Some (write_row rs (fst xs) Deleted))
                        (activeCount t - 1) (deletedCount t + 1)
                        (rowCount t) (maxActive t))
        | _ => Ok t
        end
      end
    else Ok t.

  (** DKGenericHashTableRemoveAll, DKGenericHashTable.c 450-466. *)
  Definition remove_all (t : table) : table :=
    mkTable (match rows t with
             | None => None
             | Some rs => Some (map (fun _ => Empty) rs)
             end) 0 0 (rowCount t) (maxActive t).

  (** DKHashTableApplyFunction, DKHashTable.c 615-637 (and
      DKGenericHashTableForeachRow 472-483): the sequence of (key, object)
      pairs passed to a callback that never stops the enumeration. *)
  Fixpoint active_rows (rs : list row) : list (K * V) :=
    match rs with
    | [] => []
    | Active k v :: rs' => (k, v) :: active_rows rs'
    | _ :: rs' => active_rows rs'
    end.

  Definition enumerate (t : table) : list (K * V) :=
    match rows t with
    | None => []
    | Some rs => active_rows rs
    end.

  (** DKHashTableApplyFunction with a stopping callback: [cb] folds a state and
      a non-zero result stops (DKHashTable.c 630-631). *)
  Fixpoint apply_rows {S : Type} (cb : S -> K -> V -> S * bool) (s : S) (rs : list row) : S * bool :=
    match rs with
    | [] => (s, false)
    | Active k v :: rs' =>
        let '(s', stop) := cb s k v in
        if stop then (s', true) else apply_rows cb s' rs'
    | _ :: rs' => apply_rows cb s rs'
    end.

  Definition apply_function {S : Type} (cb : S -> K -> V -> S * bool) (s : S) (t : table) : S * bool :=
    match rows t with
    | None => (s, false)
    | Some rs => apply_rows cb s rs
    end.

  (** DKHashTableGetCount, DKHashTable.c 577-580. *)
  Definition count (t : table) : N := activeCount t.

  (** The mutable dictionary API: DKDictionary.c 212-310 dispatches to
      DKHashTable.c insertObject / removeObject / removeAllObjects / getObject /
      getCount with the policies below (Set = DKInsertAlways, Add =
      DKInsertIfNotFound, Replace = DKInsertIfFound). *)
  Inductive op :=
  | OpSet (k : K) (v : V)
  | OpAdd (k : K) (v : V)
  | OpReplace (k : K) (v : V)
  | OpRemove (k : K)
  | OpRemoveAll
  | OpGet (k : K)
  | OpCount.

  Inductive result :=
  | RUnit
  | RGet (r : option (K * V))
  | RCount (n : N).

  Definition step (t : table) (o : op) : outcome (table * result) :=
    match o with
    | OpSet k v => do tb <- insert t k v InsertAlways; Ok (fst tb, RUnit)
    | OpAdd k v => do tb <- insert t k v InsertIfNotFound; Ok (fst tb, RUnit)
    | OpReplace k v => do tb <- insert t k v InsertIfFound; Ok (fst tb, RUnit)
    | OpRemove k => do t' <- remove t k; Ok (t', RUnit)
    | OpRemoveAll => Ok (remove_all t, RUnit)
    | OpGet k => do r <- lookup t k; Ok (t, RGet r)
    | OpCount => Ok (t, RCount (count t))
    end.

  (** A history: run the operations in order, collecting the results; stops at
      the first operation that does not return. *)
  Fixpoint run (t : table) (os : list op) : outcome (table * list result) :=
    match os with
    | [] => Ok (t, [])
    | o :: os' =>
        do tr <- step t o;
        do tr' <- run (fst tr) os';
        Ok (fst tr', snd tr :: snd tr')
    end.
End HashTable.

Arguments Empty {K V}.
Arguments Deleted {K V}.
Arguments Active {K V} k v.
Arguments table_init {K V}.
Arguments rows {K V} t.
Arguments activeCount {K V} t.
Arguments deletedCount {K V} t.
Arguments rowCount {K V} t.
Arguments maxActive {K V} t.
Arguments mkTable {K V}.
Arguments OpSet {K V} k v.
Arguments OpAdd {K V} k v.
Arguments OpReplace {K V} k v.
Arguments OpRemove {K V} k.
Arguments OpRemoveAll {K V}.
Arguments OpGet {K V} k.
Arguments OpCount {K V}.
Arguments RUnit {K V}.
Arguments RGet {K V} r.
Arguments RCount {K V} n.
Arguments enumerate {K V} t.
Arguments active_rows {K V} rs.
Arguments count {K V} t.
Arguments remove_all {K V} t.
