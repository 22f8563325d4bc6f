# Formal model of hurlybird/Duck — design

## 1. Approach

The model is written in Rocq/Coq 8.16.1 under `rocq/theories`. Each part of
the library gets up to four kinds of file:

* `X_Model.v`  – total, executable Gallina definitions that follow the C code
  function by function; each definition cites the file and lines it models and
  names its simplifications.
* `X_Spec.v`   – the independent, small mathematical specification (finite map,
  sequence, order, reachable set...), with no reference to model helpers.
* `X_Proofs.v` – lemmas.
* `X_Props.v`  – only the property theorems (`Cnn_...`), each closed with
  `exact lemma`, followed by `Print Assumptions`, plus the `Example`s showing that the
  hypotheses are met by non-trivial concrete cases.

Undefined behaviour (out of bounds access, NULL dereference, use after free,
uninitialised reads), fatal errors (`DKRequire`/`DKFatalError`) and exhausted
fuel are distinct outcomes, never ordinary values. `DKAssert` is compiled out
in release builds and is modelled as absent; `DKCheck*`, `DKRequire` are
modelled.

Concurrency is modelled as a labelled transition system whose steps are the
atomic accesses of the code (atomic ops, lock acquire/release, critical section
bodies), executed in any order by any number of threads (sequential
consistency).

Naming: `Cnn_<what>` full property; `_partial` part of it; `_refuted`
counterexample showing that the code as it stands violates the property.

## 2. Plan per property

| id | model | proof |
|----|-------|-------|
| C01-C03 | DKGenericHashTable + DKHashTable rows, probing, growth, rehash (HashTable) | refinement to a finite map for every history; termination/in-bounds for prime sizes; counterexample at size 25; enumeration = bindings |
| C04-C07 | DKSet/DKDictionary algorithms over hash tables | corollaries of the refinement; counterexamples for intersects/intersect/NULL values |
| C08-C11 | DKBinaryTree AA tree with mutable sentinel (heap) | refinement to sorted association lists, AA invariant by induction, height bound, divergence of get-first |
| C12 | DKGenericArray buffer with capacity and uninitialised slots, DKArray | refinement to list splice |
| C13 | insertion sort, median of three, Hoare partition, quicksort with in-bounds checks | permutation + sortedness for all total preorders |
| C14, C15 | shuffle over a random stream, reverse | permutation; last element fixed (refutation); `rev` |
| C16, C17 | DKLinkedList nodes with prev/next links and cursor | representation invariant, refinement to list |
| C18, C19 | DKList generic algorithms | direct induction; counterexample for compare |
| C20, C21 | DKByteArray storage with terminator, aliasing source | refinement to list splice; use-after-free witness |
| C22 | DKData stream | invariant + read-back theorem |
| C23-C28 | U8_NEXT/U8_APPEND, DKUnicode | arithmetic case analysis, induction over code point lists |
| C29-C33 | DKString edit functions | induction; counterexamples |
| C34-C36 | DKEncoding, DKNumber compare/hash, dk_strtonum | bit arithmetic, induction on digits |
| C37-C39 | DKJSON writer, scanner, parser | round trip by induction over trees; counterexamples |
| C40-C42 | DKEgg archiver and unarchiver tables | worklist invariant; counterexamples |
| C43, C44 | refcount word, metadata, weak lock; step per atomic access | inductive invariant over all interleavings; race witness |
| C45, C46 | autorelease stack with re-entrant finalizers | history invariant |
| C47 | class chain | induction on the chain |
| C48 | selector cache lines + interface table | refinement to latest-install map |
| C49-C53 | thread pool queues, workers, clients | inductive invariants over interleavings; race witnesses |
| C54, C55 | thread state, semaphore | invariants; race witness |
| C56, C57 | graph traversal worklist | invariant + termination measure; diamond counterexample |
| C58 | predicate evaluator | structural induction vs. truth tables; counterexample |
| C59 | bit list words | bit arithmetic; counterexamples |
| C60 | node pool free list | invariant |
| C61, C62 | interning table, double-checked creation | interleaving invariant |
| C63 | memcmp based comparison | order laws; sign convention counterexample |
| C64, C65 | edits of arrays and linked lists with themselves as source, shuffling (Array, LinkedList) | evaluation of the actual loops for all lists; counterexamples |
| C66, C67 | DKData stream position and seek (Bytes) | invariant over histories; counterexamples |
| C68-C71 | character search, filter, path components, word wrapping (String) | induction over characters and components; counterexamples |
| C72 | autorelease pools with re-entrant finalizers (Pool) | invariant for balanced use; storage version shows use after free |
| C73-C75 | real-time scheduling (TPoolRT), stopping (TPool) | invariant over interleavings; lost wake-up and standby witnesses |
| C76 | thread join (Thread) | witness |
| C77, C78, C80 | interface installation, static cache (Runtime) | refinement to the latest-install map; witnesses |
| C79 | object lock, lazily made metadata (Shared) | interleaving invariant |
| C81, C82 | graph edges, shortest path (Graph) | refinement to a map; divergence via C11 |
| C83-C85 | DKNumber conversion and enumeration (Number) | index arithmetic; witnesses |
| C86 | dk_strtonum fractions and exponents (Strtonum) | induction on digits; witnesses |
| C87, C88 | JSON reading, strict and lenient grammars (JSON, JSON_Lax) | grammar-directed induction; witnesses |
| C89-C93 | byte order, streams, truncation, hostile archives, text lengths (Egg) | the invariant of C40; witnesses |
| C94-C99 | DKSPrintf, lines, characters (Stream) | induction over pieces of the format; witnesses |
| C100-C102 | DKShell segments (Shell) | round trip by induction; witnesses |
| C103-C105 | DKEqual, DKHash, DKCompare over object trees (Compare) | structural induction; witnesses |
| C106-C115 | DKRuntime+Properties (Property) | ownership invariant over histories, read-back theorems; witnesses |
| C116-C123 | yxml state machine and DKXML (XML) | soundness and completeness against a declarative grammar; witnesses |
| C124-C127 | classes as counted objects, name table (Class) | ownership invariant over histories; witnesses |
| C128, C129 | DKEnum and operator names on the hash table (Enum) | refinement to a finite map; witness through C02 |
| C130, C131 | DKFile over C library streams with arbitrary buffering (File) | ownership invariant, refinement to bytes with a position; witnesses |
| C132, C133 | query parameters, CSS styles (Query) | round trip by induction on entries; witnesses |
| C134 | DKReadWriteLock, POSIX and Windows (Lock) | counting invariant over interleavings; two-writer witness on Windows |
| C135-C138 | byte swaps, spin locks, reading of identifiers, deadlines of conditions (Platform) | bit arithmetic; counting invariant; case analysis; integer arithmetic with any rounding; witnesses |
| C139 | archives of library objects (EggClass): contents to fields and back, on the round trip of C40, the finite maps of C01 and the ordered maps of C08 | the copies of C40 composed with each class's methods; witnesses |
| C140-C142 | conversion between integers, float and double (Real): bit patterns, values counted in units of 2^-1074, against the formula of IEEE 754 | rounding lemma: nearest, even of two, exact, monotone; witnesses |
| C143-C144 | comparison of floating point numbers and of numbers of different types (Real) | induction over the elements; witnesses |
| C145-C146 | reading of decimal fractions and printing with %f (Real), with the reader of C86 and the printer of C94 | induction over the digits with a bound for the error of each step; exactness for whole numbers; witnesses |
| C147-C148 | strings and data made of the contents of files (Load), on the files of C130-C131 and the byte arrays of C20 | invariant of files; storage of the byte array; witnesses |
| C149-C150 | strings as streams with cursor and cached hash code (StrStream), on the data streams of C22 | refinement to bytes and position, induction over histories; witnesses |
| C151-C152 | the clocks of POSIX systems and Windows (Clock), with the arithmetic of double of C140 | error bounds of the rounding; witnesses |
| C153 | dk_ustrlwr, dk_ustrupr (Case) | induction over the text; witnesses |
| C154-C157, C159 | expressions of conversions between the four classes of collections, on the models of C01, C09, C11, C15 (Convert) | induction over the expression: every collection made is valid and enumerates what the specification says; witnesses |
| C158 | enumeration of a set that the callback changes (SelfSet) | hash table: invariant of rows before the cursor; witnesses for arrays and trees |
| C160-C163 | contexts of any number of threads in thread-local storage, with the pools of C45 (Context) | invariant: each context and thread object belongs to one thread, references balance; induction over interleavings; witnesses |
| C164-C166 | DKGetDescription over a heap of objects (Describe) | ends iff the relation of parts is well-founded from the object; refinement to a relational specification; injectivity by what may follow a description; witnesses |
| C167-C169 | reference counts and the references held by arrays, linked lists, tables, trees and pairs (Own) | invariant: each count is the number of references in hands, in collections and in the running call; induction over histories; a path upwards from any living object ends at the program or in a circle; witnesses |
| C170-C171 | strings read as integers and truth values, with strtol as in the C standard (Scalar) | the value by places against the value by accumulation, by induction on the digits; every string has or has not a number; witnesses |
| C172 | the JSON parser with 32 bit vectors beside the one without (Vec32) | simulation of the two parsers, by induction on the fuel; rounding from Real; witnesses |
| C173-C175 | byte arrays with their pointers, strings and data over a heap of blocks of the caller and of the library (Lent) | refinement to objects that have or show bytes; invariant: each block of the library belongs to one object; induction over histories; witnesses |
| C176-C177 | DKStringHasPathExtension beside the path functions of C70 (Ext) | the last period and the last separator of a text: cases on their order; witness |
| C178 | DKListRemoveObject and DKEqual over the objects of C167 (Gone) | induction over the loop with the invariant of reference counts; induction over histories; witness |
| C179 | DKSetUnion and DKSetMinus for lists over the objects of C167 (Less) | the loop of C178 for each member; invariant: the other collection holds its members; witnesses |
| C180 | DKSetBoolProperty, DKGetBoolProperty over the properties of C106-C115 and the conversions of C85 and C171 (Truth) | the frame lemma of C107/C108 for the steps in between; conversion of 0 and 1 between integer types; witness |
| C181 | DKSetEnumProperty, DKGetEnumProperty over the same (Truth) | the same with the lookup lemmas of C110 |
| C182 | DKArrayInitWithCArrayNoCopy and the copies of arrays over the objects of C167, with blocks of the caller (Show) | invariant of reference counts over histories; frame: no other call changes the copy; witness |
| C183 | the settings of messages and DKPrintf, DKLog, DKWarning, DKError, DKFatalError with the places they print to (Report) | invariant: the variables are what the history says; induction over histories; witness |
| C184 | DKEncodingGetDescription over the words of C34 (Label) | the name has no bracket and the digits no closing one, so the parts can be read back; a word is its parts, bit by bit; witness |
| C185 | ParseObject and DKJSONParse with the objects they make and release, over the objects of C167 and the scanner of C37 (Parsed) | simulation of the parser of C37; invariants: reference counts (C167), everything made before the value is as it was, collections hold only what was made after them; what is freed is not in what was made, so that the objects for the values stay |
| C186 | INTERNAL_DKXMLParse, DKXMLAppendTextContent and DKXMLParse with the objects they make and release, over the objects of C167 and the parser of C116 (Elem) | simulation of the parser of C116 by an invariant of each token: reference counts (C167), every element is held by one before it or is the first, the stack shows the open elements, and a value is held exactly in the states of yxml inside an attribute |
| C187 | DKStringSplit and DKStringSplitQueryParameters with the objects they make, release and leave to the pool, over the objects of C167 and the texts of String_Model and Query_Model (Pieces) | simulation of the models of the texts; the invariants of C185, with the dictionary made first and all references of the pool to what was made after it; induction over the references the pool releases |
| C188 | FindEdge, RemoveEdge, DKGraphAddEdge, DKGraphRemoveEdge, DKGraphRemoveAllEdges over the objects and references of C167 (Arcs) | invariant over histories: reference counts (C167), dictionaries hold lists, no list twice, and lists hold pairs with distinct second vertices; false where the graph has the last reference to the second vertex: `_refuted` by a run |

## 3. Trusted base

* Coq 8.16.1 kernel (and `vm_compute`, which is part of it).
* `Print Assumptions` stands beneath each theorem and prints "Closed under the
  global context" for every one of them. No axiom of the standard library is
  used in any property theorem. (`coqchk -o` over all loaded libraries also lists axioms
  of libraries that are merely loaded; none is reached by a theorem of the
  manifest.)
* Faithfulness of the model to the C text, by reading only (nothing is run).
* The C library, the operating system and the compiler: what they are taken to do is
  said in the models (locks and conditions as in POSIX, `FILE` streams as in
  section 7.21 of the C standard, `isspace`, one conversion of `printf`, buffering
  and the choice of threads as parameters).

### Modelled

| code | model |
|------|-------|
| DKGenericHashTable.c, DKHashTable.c | HashTable |
| DKSet.c, DKDictionary.c | SetDict |
| DKGenericArray.c, DKArray.c | Array, Sort |
| DKLinkedList.c, DKNodePool.c | LinkedList, NodePool |
| DKList.c | List |
| DKBinaryTree.c | Tree |
| DKByteArray.c, DKData.c | Bytes |
| DKUnicode.c, icu utf8.h, utf_impl.c | Utf8 |
| DKString.c | String, StrObj, Query |
| DKEncoding.h/.c, DKNumber.c | Encoding, Number, Real (float and double) |
| DKPlatform.c (dk_strtonum, dk_strhash32) | Strtonum, Real (the floating point result), Egg |
| DKJSON.c | JSON, Vec32 |
| DKEgg.c | Egg |
| the Egg interfaces of DKString.c, DKNumber.c, DKBoolean.c, DKData.c, DKPair.c, DKArray.c, DKLinkedList.c, DKHashTable.c, DKBinaryTree.c, DKStruct.c, DKPredicate.c | EggClass |
| DKXML.c, yxml.c | XML |
| DKStream.c, DKShell.c, DKFile.c | Stream, Shell, File |
| DKComparison.c, DKPair.c, DKStruct.c | Compare |
| DKPredicate.c, DKEnum.c | Predicate, Enum |
| DKGraph.c | Graph |
| DKBitList.c | BitList |
| DKRuntime.c, +Reflection, +RefCount, +Metadata, +Interfaces, +Properties | Runtime, Class, RefCount, Pool, Shared, Property, Truth |
| DKThread.c, DKSemaphore.c, DKThreadPool.c, DKReadWriteLock.c | Thread, Context, TPool, TPoolRT, Lock |
| DKPlatform.h (byte swaps, spin locks), DKPlatform.c (identifiers), DKCondition.c (deadlines) | Platform |
| DKData.c and DKString.c (loading from files), DKString.c (stream interface) | Load, StrStream |
| initialisers, copies and conversions of DKArray.c, DKLinkedList.c, DKHashTable.c, DKBinaryTree.c, DKCollection.c, DKDictionary.c, DKSet.c, DKList.c | Convert, SelfSet |
| DKDescription.c, DKCollection.c and DKPredicate.c (descriptions) | Describe |
| DKString.c (DKStringGetBool, GetInt32, GetInt64) | Scalar |
| DKString.c (DKStringHasPathExtension) | Ext |
| DKByteArray.c, DKString.c, DKData.c (memory of the caller, ownership of blocks) | Lent |
| DKArray.c (C arrays of the caller) | Show |
| the references held by DKArray.c, DKLinkedList.c, DKHashTable.c, DKBinaryTree.c, DKPair.c | Own, Gone, Less |
| DKPlatform.c (messages: 38-247) | Report |
| DKEncoding.c (descriptions) | Label |
| DKJSON.c (objects made and released by the parser) | Parsed |
| DKXML.c (objects made and released by the parser) | Elem |
| DKString.c (objects made by splitting strings and query parameters) | Pieces |
| DKGraph.c (references) | Arcs |
| DKPlatform.c (dk_datetime, dk_localtime), DKUnicode.c (dk_ustrlwr, dk_ustrupr) | Clock, Case |

### Not modelled

* Allocation failure, the depth of the C stack, signed overflow of `DKIndex`
  lengths, weak memory ordering. Floating point arithmetic is modelled in Real, for exponents of
  decimal numbers only up to the value of `pow`, which is a parameter.
* DKAllocation.c, DKCopying.c, DKConversion.c, DKLocking.c: dispatch
  to an interface and nothing else. DKMutex.c: a call of the platform each.
* DKBuffer.c, DKRuntime+Symbols.c, the tools and tests of the repository.
* The list, dictionary and property interfaces of numbers, dictionaries and XML elements where they
  only forward; wide character variants of strings.
* Mutable arrays made with external storage, which an assertion of debug builds forbids.
* Simplifications within a modelled function stand in the comment of its definition.

## 4. Findings

What the code does and a user would not expect. Those with a number are shown by a theorem
ending in `_refuted`, or described in the note of the manifest; the others were seen while reading.

* DKGraphRemoveEdge in both directions, on the only edge of two vertices that only the graph holds, frees
  them with the first direction and then looks the second vertex up (C188).
* Hash tables of 25 rows: the probe runs past the end (C02). After the runtime has started the
  table of class names has 25 rows with ten names, so the next class reaches that state; it is only
  the places of those ten names in the table that keep every search inside it (C125).
* Set intersection and the test for it are wrong (C06); `DKBinaryTreeGetFirst…` never returns (C11),
  nor do shortest paths (C82).
* Shuffling an array never moves the last element (C14); shuffling a linked list crashes (C65).
* Self-append of byte arrays uses freed memory (C21); edits of a list with itself (C64).
* Strings: character positions used as byte positions (C29, C71), `isspace` of wide characters (C32),
  percent escapes applied twice (C33, C132), cached hash kept after SetByteLength (C27).
* Archives: NULL in collections, references to the root and colliding keys (C40-C42), no checks of indices (C92).
  `DKEggGetTextData` returns the length minus one (C93). Data types are lost, and some dictionaries of twelve
  entries cannot be read (C139).
* Weak references (C44), pools pushed eight deep (C46), pools used by finalizers (C72).
* Thread pools: stopping may hang (C74), restarting real-time pools (C75), removal while a task runs (C53). Joining a
  detached thread (C76).
* Interfaces: root classes (C77, C78), stale cache entries (C80).
* JSON and numbers: signed exponents (C86), keys not escaped (C38), reads past the terminator (C39).
* Numbers of different types are compared in the type of the first, so 1 equals 1.5 and 1.5 does not equal 1 (C144); NaN equals
  everything (C143); 0.15 is read as a neighbour of the nearest double (C145); 10^-7 is printed as 0.0 and 10^113 overflows
  the buffer (C146).
* `DKSPrintf`: `%c` not counted (C95), buffers on the stack (C96).
* Properties: copied and weak (C106); the predicate sees the object given, the copy is stored (C113);
  `DKPropertyFinalize` does not release the enumeration; the definition returned by
  `DKGetPropertyDefinition` is not retained after the lock is released; an object string printed with `%s`.
* XML: end tag of the root (C116), range of references (C120), no escapes in descriptions (C123).
* Classes: releasing a class without a name (C127); `DKRuntimeInit` never names the static selector for locking; the result of
  `DKClassFromString` is not retained.
* `DKEnumFromString64` reads through a NULL enumeration where `DKStringFromEnum64` does not.
* `DKFileGetLength` leaves out what is buffered (C131).
* Loading from an open file reads from its current position but expects its whole length (C148). A string used as a stream:
  offsets from the end are ignored, the position told goes stale when bytes are removed, elements of size zero divide by zero (C150).
* The clock on Windows counts all of the time again as its fraction (C151). Local time is moved away from universal time in the
  wrong direction (C152). Changing letter case overruns a buffer of size zero and may cut a character (C153).
* Sets made with a NULL member count it but do not contain it; a list class as the default set class never returns (C155). A set
  subtracted from itself: arrays keep every second member, trees read the links of removed nodes (C158). Copies of linked lists
  lose the priorities (C159).
* `DKThreadExit` in a thread of the library ends the process; when a thread returns, its dictionary is released without a context;
  objects autoreleased without a pool are lost (C161). Freeing the current context as the header asks frees it twice (C163).
* The description of a collection that contains itself never ends (C164); the count in descriptions is printed with %d
  although it is a DKIndex (C165); quotes in strings are not escaped there (C166).
* DKHashTable releases the old value before it retains the new one, DKLinkedList removes before it inserts, and DKArray
  replaces one by one: each can free what is being put there (C167). Collections that hold each other in a circle are never freed (C169).
* CSS values with a colon are dropped (C133).
* Read-write locks on Windows: a failed attempt to lock for writing answers true (C134).
* `DKConditionTimedWait` with a negative fraction of seconds gives a negative number of nanoseconds, which POSIX refuses (C138).
* DKPlatform.h: `DKSwapInt64` for compilers other than GCC and clang, 764-770 (C135), and `DKAtomicOr64` for Windows, 699,
  do not do what their names say.
* `DKStringGetInt32` drops the upper half of a number that does not fit, so that 2147483648 becomes negative, while
  `DKStringGetInt64` saturates (C170); `DKStringGetBool` is false for every negative number (C171).
* `ScanVectorToken32` drops the upper half of integers before it converts them to floats, but only of those before the first
  number with a fraction (C172).
* `DKStringGetMutableBytePtr` does not forget the hash code, so that a string changed through it is not equal to one with the
  same text (C175). `DKDataInitWithBytesNoCopy` of a mutable object would free the caller's memory with the first edit; only an
  assertion in debug builds prevents it.
* The extension of a path that ends with a separator is empty, although its last component has one (C177).
* `DKListRemoveObject` compares the object with the rest of the list after the list has released it: an object that only the list
  held is used after it is freed (C178). `DKSetMinus` of a linked list and itself does the same (C179).
* `DKGetBoolProperty` of a property with an enumeration gives whether the name of the value looks like yes: after
  `DKSetBoolProperty` with true, a property with the names off and on is read as false (C180).
* `DKCopy` of an array that shows a C array of the caller is the array itself: it changes with the C array and does not keep
  its objects (C182).
- A message with a zero in its text is cut off there (C183).
- Encodings of reserved, invalid and unknown types share descriptions (C184).

## 5. Wrong programs

`seeded/LOG.jsonl` has a line for each edit of a model that was tried in a copy: what was edited, the claim it
breaks, which theorems failed, and which were tightened because none did.
