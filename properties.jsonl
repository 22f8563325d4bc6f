{"id": "C01", "title": "Dictionary behaves as a finite map over every history", "statement": "Starting from an empty hash-based dictionary, after any sequence of set / add-if-absent / replace-if-present / remove / remove-all / get / count calls, every call that returns gives exactly what a finite map keyed by the key equality would give: get returns the object stored by the latest effective insertion under an equal key, or NULL if there is none; add never overwrites, replace never creates, count is the number of distinct keys; a stored key keeps its first spelling.", "quantifier": "all finite histories of dictionary operations, all keys, objects and hash functions that agree with key equality, across all table growth, tombstone and rehash events", "why_tests_cant": "growth, tombstone reuse and same-size rehash interact with the history; a test samples a handful of histories and hash values", "anchors": ["Source/DKGenericHashTable.c:DKGenericHashTableInsert", "Source/DKGenericHashTable.c:Find", "Source/DKGenericHashTable.c:ResizeAndRehash", "Source/DKGenericHashTable.c:DKGenericHashTableRemove", "Source/DKHashTable.c:DKHashTableInsertObject", "Source/DKHashTable.c:DKHashTableGetObject"]}
{"id": "C02", "title": "Hash lookups, insertions and removals never walk outside the table", "statement": "No dictionary or set operation ever reads or writes a row outside its table, and every one of them terminates, whatever keys are present and whatever key is looked up.", "quantifier": "all reachable tables of any size, all keys and hash values", "why_tests_cant": "needs a particular set of residues modulo the current table size; random tests essentially never hit it", "anchors": ["Source/DKGenericHashTable.c:DKGenericHashTableInsert", "Source/DKGenericHashTable.c:Find", "Source/DKGenericHashTable.c:ResizeAndRehash", "Source/DKGenericHashTable.c:DKGenericHashTableRemove", "Source/DKGenericHashTable.c:HashTableSizes"]}
{"id": "C03", "title": "Enumeration of a dictionary or set visits every live entry exactly once", "statement": "For every history, enumerating a dictionary or set calls the callback exactly once for each key currently in it, with that key's current object, and for nothing else; the number of callbacks of a full enumeration equals the reported count.", "quantifier": "all histories and hash functions", "why_tests_cant": "depends on leftover tombstones and rehash order, which tests cannot cover", "anchors": ["Source/DKGenericHashTable.c:DKGenericHashTableForeachRow", "Source/DKHashTable.c:DKHashTableApplyFunction", "Source/DKGenericHashTable.c:DKGenericHashTableInsert"]}
{"id": "C04", "title": "Set membership, subset and equality are the mathematical ones", "statement": "For sets built by any histories, contains / is-subset-of / equal agree with membership, inclusion and extensional equality of the underlying mathematical sets (up to key equality); set equality is an equivalence relation.", "quantifier": "all pairs of sets built by any histories", "why_tests_cant": "a relation between two arbitrary sets; tests sample pairs", "anchors": ["Source/DKSet.c:DKSetContainsObject", "Source/DKSet.c:DKSetIsSubsetOfSet", "Source/DKSet.c:DKSetEqualToSet"]}
{"id": "C05", "title": "Set union and difference are the mathematical ones", "statement": "After union the receiver contains exactly the members of both sets; after minus it contains exactly its members that are not members of the other; the argument is unchanged.", "quantifier": "all pairs of sets built by any histories", "why_tests_cant": "as C04", "anchors": ["Source/DKSet.c:DKSetUnion", "Source/DKSet.c:DKSetMinus"]}
{"id": "C06", "title": "Set intersection and the intersects test are the mathematical ones", "statement": "IntersectsSet returns true iff the two sets have a common member, and IntersectSet leaves in the receiver exactly the common members.", "quantifier": "all pairs of sets built by any histories", "why_tests_cant": "as C04", "anchors": ["Source/DKSet.c:DKSetIntersectsSet", "Source/DKSet.c:DKSetIntersect"]}
{"id": "C07", "title": "Dictionary equality is extensional", "statement": "Two dictionaries compare equal iff they have the same keys and equal objects under every key; contains-key is true iff the key is present.", "quantifier": "all pairs of dictionaries built by any histories", "why_tests_cant": "relation over arbitrary pairs, including stored NULL objects", "anchors": ["Source/DKDictionary.c:DKDictionaryEqual", "Source/DKDictionary.c:DKDictionaryIsSubsetOfDictionary", "Source/DKDictionary.c:DKDictionaryContainsKey"]}
{"id": "C08", "title": "Binary tree behaves as a finite map over every history", "statement": "After any sequence of insert (always / if-absent / if-present), remove, remove-all, get and count on a tree dictionary, each result is what a finite map keyed by the comparison's equivalence would give.", "quantifier": "all histories, all keys, all total-order comparison functions", "why_tests_cant": "rebalancing after removal depends on the whole shape; tests cover few shapes", "anchors": ["Source/DKBinaryTree.c:Insert", "Source/DKBinaryTree.c:Remove", "Source/DKBinaryTree.c:FindNode", "Source/DKBinaryTree.c:Skew", "Source/DKBinaryTree.c:Split"]}
{"id": "C09", "title": "Binary tree enumeration is in sorted key order", "statement": "Enumerating a binary tree visits every entry exactly once, in strictly increasing key order, stopping early iff the callback asks to.", "quantifier": "all histories and comparison functions, all callbacks", "why_tests_cant": "as C08", "anchors": ["Source/DKBinaryTree.c:TraverseInOrder", "Source/DKBinaryTree.c:DKBinaryTreeApplyFunction"]}
{"id": "C10", "title": "Binary tree stays balanced", "statement": "After any history a tree holding n entries has height at most 2*log2(n+1), so lookups, insertions and removals take logarithmically many comparisons and the shared sentinel node is never corrupted.", "quantifier": "all histories", "why_tests_cant": "a bound over every reachable shape", "anchors": ["Source/DKBinaryTree.c:Skew", "Source/DKBinaryTree.c:Split", "Source/DKBinaryTree.c:Remove"]}
{"id": "C11", "title": "Fetching the first object of a binary tree returns the smallest entry", "statement": "On a non-empty tree, get-first-object terminates and returns the entry with the smallest key.", "quantifier": "all non-empty trees", "why_tests_cant": "termination claim over all trees", "anchors": ["Source/DKBinaryTree.c:DKBinaryTreeGetFirstObject"]}
{"id": "C12", "title": "Array behaves as a sequence over every history", "statement": "After any sequence of append / insert / replace-range / remove-range / truncate / get calls with valid ranges, the array contents equal the same edits applied to a plain sequence: replaced ranges become exactly the new elements, and everything before and after the range is preserved in order; every internal copy stays inside the allocation and no uninitialised slot becomes visible.", "quantifier": "all histories, lengths, ranges and element values; all growth events", "why_tests_cant": "reallocation thresholds and overlapping moves depend on the history", "anchors": ["Source/DKGenericArray.c:DKGenericArrayReplaceElements", "Source/DKGenericArray.c:ResizeArray", "Source/DKArray.c:DKArrayReplaceRangeWithCArray"]}
{"id": "C13", "title": "Sorting returns an ordered permutation", "statement": "Sorting an array or list with any consistent comparison function terminates, never touches memory outside the array, leaves a permutation of the original elements, and puts them in order.", "quantifier": "all arrays of any length, all comparison functions that are total preorders", "why_tests_cant": "quicksort boundary conditions over all inputs and orders", "anchors": ["Source/DKGenericArray.c:QuickSort", "Source/DKGenericArray.c:QuickSortPartition", "Source/DKGenericArray.c:QuickSortPivot", "Source/DKGenericArray.c:InsertionSort"]}
{"id": "C14", "title": "Shuffling permutes and can move every element", "statement": "Shuffling leaves a permutation of the original elements, and every position can receive a different element for some random sequence.", "quantifier": "all arrays and all random number streams", "why_tests_cant": "a claim about all outcomes of a random generator", "anchors": ["Source/DKGenericArray.c:DKGenericArrayShuffle", "Source/DKGenericArray.c:Shuffle64"]}
{"id": "C15", "title": "Reversing an array reverses it", "statement": "Reverse produces exactly the elements in opposite order, for every length (odd, even, empty), and reversing twice restores the array.", "quantifier": "all arrays", "why_tests_cant": "all lengths", "anchors": ["Source/DKGenericArray.c:DKGenericArrayReverse", "Source/DKGenericArray.c:Reverse64"]}
{"id": "C16", "title": "Linked list behaves as a sequence over every history", "statement": "After any sequence of insertions, removals, replacements and reads at valid indices, a linked list shows exactly the contents of a plain sequence with the same edits; forward and backward links stay consistent and the cached cursor never changes what is read.", "quantifier": "all histories and indices, all cursor positions", "why_tests_cant": "the cached cursor makes results history-dependent", "anchors": ["Source/DKLinkedList.c:MoveCursor", "Source/DKLinkedList.c:InsertObject", "Source/DKLinkedList.c:RemoveRange", "Source/DKLinkedList.c:DKLinkedListGetObjectAtIndex"]}
{"id": "C17", "title": "Priority insertion keeps the list ordered and stable", "statement": "After any sequence of insert-with-priority calls, each object occurs once, priorities are non-increasing along the list, and among equal priorities earlier insertions come first.", "quantifier": "all histories of prioritised insertions", "why_tests_cant": "ordering over all histories", "anchors": ["Source/DKLinkedList.c:DKLinkedListInsertObjectWithPriority"]}
{"id": "C18", "title": "List searching and removal by value", "statement": "First-index / last-index / count-of-object / contains agree with the positions of equal elements, and remove-object removes all equal elements and nothing else, preserving the order of the rest.", "quantifier": "all lists and objects, any equality relation on objects", "why_tests_cant": "all lists", "anchors": ["Source/DKList.c:DKListGetFirstIndexOfObject", "Source/DKList.c:DKListGetLastIndexOfObject", "Source/DKList.c:DKListGetCountOfObject", "Source/DKList.c:DKListRemoveObject"]}
{"id": "C19", "title": "List equality and ordering are coherent", "statement": "Two lists are equal iff they have the same length and pairwise equal elements; compare returns zero exactly for equal lists, is antisymmetric, and never reads outside either list.", "quantifier": "all pairs of lists", "why_tests_cant": "relation over arbitrary pairs", "anchors": ["Source/DKList.c:DKListEqual", "Source/DKList.c:DKListCompare"]}
{"id": "C20", "title": "Byte buffers are sequences of bytes followed by a terminator", "statement": "After any sequence of append / replace / set-length / reserve on a byte buffer the bytes equal those of the same edits on a plain byte sequence, and the storage always holds a NUL terminator immediately after the last byte.", "quantifier": "all histories, ranges and byte values (source not aliasing the buffer)", "why_tests_cant": "terminator placement depends on growth history", "anchors": ["Source/DKByteArray.c:DKByteArrayReplaceBytes", "Source/DKByteArray.c:SetNullTerminator", "Source/DKByteArray.c:ResizeArray"]}
{"id": "C21", "title": "Appending a buffer's own bytes is safe", "statement": "Replacing or appending bytes taken from the buffer itself behaves as if they had been copied out first.", "quantifier": "all buffers and ranges of the same buffer", "why_tests_cant": "needs the source to alias the destination at the moment of reallocation", "anchors": ["Source/DKByteArray.c:DKByteArrayReplaceBytes", "Source/DKString.c:DKStringAppendString", "Source/DKData.c:DKDataAppendData"]}
{"id": "C22", "title": "Data streams read back what was written", "statement": "After any sequence of seek/write/read on a data stream: tell is always between 0 and the length, write then seek back then read returns the written bytes, bytes outside the written range are unchanged, read never returns more elements than remain.", "quantifier": "all histories of seek, read and write with any sizes", "why_tests_cant": "cursor/length interplay over histories", "anchors": ["Source/DKData.c:DKDataSeek", "Source/DKData.c:DKDataRead", "Source/DKData.c:DKDataWrite", "Source/DKData.c:DKDataTell"]}
{"id": "C23", "title": "UTF-8 encode/decode round trip", "statement": "Writing any Unicode scalar value and scanning the result returns the same value and consumes exactly the bytes written; distinct scalars have distinct encodings; surrogates and values above 10FFFF are rejected by the writer.", "quantifier": "all 32-bit code values", "why_tests_cant": "1.1 million code points times surrounding context", "anchors": ["Source/DKUnicode.c:dk_ustrscan", "Source/DKUnicode.c:dk_ustrwrite", "ThirdParty/icu/unicode/utf8.h:U8_NEXT", "ThirdParty/icu/utf_impl.c:utf8_nextCharSafeBody"]}
{"id": "C24", "title": "Scanning arbitrary bytes is safe and makes progress", "statement": "Scanning a NUL-terminated byte string, well-formed or not, never reads beyond the terminator, consumes at least one byte per character unless at the end, and only ever yields -1 or a Unicode scalar value; so every string traversal terminates.", "quantifier": "all byte strings", "why_tests_cant": "all malformed inputs", "anchors": ["Source/DKUnicode.c:dk_ustrscan", "Source/DKUnicode.c:dk_ustrlen", "ThirdParty/icu/utf_impl.c:utf8_nextCharSafeBody"]}
{"id": "C25", "title": "String length, indexing and bounded length count characters", "statement": "For a string encoding scalars c1..cn: length is n, character-at-index i is c(i+1), the byte offset of index i is the size of the first i characters, and a substring by character range is exactly those characters.", "quantifier": "all scalar sequences and all indices", "why_tests_cant": "all strings", "anchors": ["Source/DKUnicode.c:dk_ustrlen", "Source/DKUnicode.c:dk_ustridx", "Source/DKString.c:DKStringGetCharacterAtIndex", "Source/DKString.c:DKStringCopySubstring"]}
{"id": "C26", "title": "String comparison is the code point order and agrees with equality", "statement": "Comparing two strings gives the lexicographic code point order (positive when the first sorts first), is zero iff the strings are equal, antisymmetric and transitive.", "quantifier": "all pairs and triples of strings", "why_tests_cant": "a law over all triples", "anchors": ["Source/DKUnicode.c:dk_ustrcmp", "Source/DKString.c:DKStringCompare", "Source/DKString.c:DKStringEqual"]}
{"id": "C27", "title": "Equal strings have equal hashes after any edits", "statement": "After any sequence of string mutations, two strings with equal contents report equal, and equal strings have equal hash codes, so a mutated string still works as a dictionary key by value.", "quantifier": "all histories of mutating calls on two strings", "why_tests_cant": "stale cached hashes appear only after particular mutation histories", "anchors": ["Source/DKString.c:UpdateHash", "Source/DKString.c:DKStringHash", "Source/DKString.c:TestEquality", "Source/DKString.c:DKStringSetByteLength"]}
{"id": "C28", "title": "Substring search finds the leftmost occurrence", "statement": "Search reports not-found iff the pattern does not occur, and otherwise the leftmost occurrence as a range of character positions.", "quantifier": "all well-formed texts and non-empty patterns", "why_tests_cant": "all text/pattern pairs incl. overlapping partial matches", "anchors": ["Source/DKUnicode.c:dk_ustrstr", "Source/DKUnicode.c:dk_ustrstr_range", "Source/DKString.c:DKStringGetRangeOfString"]}
{"id": "C29", "title": "Replacing occurrences substitutes exactly the leftmost non-overlapping matches", "statement": "Replace-occurrences rewrites a string to the result of replacing leftmost non-overlapping matches of the pattern and leaves everything else unchanged.", "quantifier": "all texts, patterns and replacements", "why_tests_cant": "all triples", "anchors": ["Source/DKString.c:DKStringReplaceOccurrencesOfString", "Source/DKString.c:DKStringReplaceSubstring"]}
{"id": "C30", "title": "Splitting and joining strings are inverse", "statement": "Splitting the join of non-empty components gives back the components, provided the separator does not occur in a component followed by the separator before its end; joining the split of a string gives back the string.", "quantifier": "all component lists and separators, all strings", "why_tests_cant": "all strings", "anchors": ["Source/DKString.c:DKStringSplit", "Source/DKString.c:DKStringCombine"]}
{"id": "C31", "title": "Path standardisation is idempotent and canonical", "statement": "Standardising a path yields a path with no doubled separators and no trailing separator problem, keeps its non-empty components in order, keeps absolute/relative, and doing it twice changes nothing more.", "quantifier": "all paths", "why_tests_cant": "all strings", "anchors": ["Source/DKString.c:DKStringStandardizePath"]}
{"id": "C32", "title": "Trimming removes exactly the outer whitespace", "statement": "Trim removes the maximal whitespace prefix and suffix, keeps everything between, and is idempotent.", "quantifier": "all strings", "why_tests_cant": "all strings", "anchors": ["Source/DKString.c:DKStringByTrimmingWhitespace"]}
{"id": "C33", "title": "Percent escaping round trips", "statement": "Unescaping the percent-escaped form of any string returns the original string.", "quantifier": "all strings", "why_tests_cant": "depends on the order in which replacement patterns are applied, i.e. on hash table layout", "anchors": ["Source/DKString.c:DKStringByAddingURLPercentEscapes", "Source/DKString.c:DKStringByRemovingURLPercentEscapes"]}
{"id": "C34", "title": "Number encodings pack and unpack", "statement": "The packed type-and-count code of a value unpacks to the same type and count (rows and columns for matrices) for every count below 2^24 (dimensions below 2^12), and the reported byte size is element size times count.", "quantifier": "all types and counts", "why_tests_cant": "2^24 counts per type", "anchors": ["Source/DKEncoding.h:DKEncode", "Source/DKEncoding.h:DKEncodingGetCount", "Source/DKEncoding.c:DKEncodingGetSize"]}
{"id": "C35", "title": "Number equality, ordering and hashing are coherent", "statement": "Equal numbers have equal hash codes, comparison is antisymmetric, transitive and zero exactly on equal numbers, whatever the stored integer types.", "quantifier": "all pairs and triples of integer-typed numbers", "why_tests_cant": "cross-type pairs", "anchors": ["Source/DKNumber.c:DKNumberEqual", "Source/DKNumber.c:DKNumberCompare", "Source/DKNumber.c:DKNumberHash"]}
{"id": "C36", "title": "Reading decimal integers", "statement": "Parsing the decimal representation of any 64-bit signed integer other than the most negative one yields that integer, consumes exactly the digits, and ends at the first non-numeric character.", "quantifier": "all 64-bit integers, any following text", "why_tests_cant": "2^64 values", "anchors": ["Source/DKPlatform.c:dk_strtonum"]}
{"id": "C37", "title": "JSON round trip", "statement": "Writing a value tree (null, booleans, integers, strings, arrays, dictionaries with plain keys, arbitrarily nested) as compact or pretty JSON and parsing the text gives back an equal tree and consumes the whole text.", "quantifier": "all value trees of any depth and size, both output styles", "why_tests_cant": "unbounded trees and strings", "anchors": ["Source/DKJSON.c:DKJSONWrite", "Source/DKJSON.c:DKJSONParse", "Source/DKJSON.c:WriteObject", "Source/DKJSON.c:ParseObject"]}
{"id": "C38", "title": "JSON string escaping round trips for every string, including keys", "statement": "For every string of Unicode characters, used as a value or as a dictionary key, the written JSON parses back to the same string.", "quantifier": "all strings", "why_tests_cant": "all strings; keys need characters that require escaping", "anchors": ["Source/DKJSON.c:WriteEscapedString", "Source/DKJSON.c:ScanStringToken", "Source/DKJSON.c:WriteKeyAndObject"]}
{"id": "C39", "title": "JSON parsing of arbitrary text is memory safe", "statement": "Parsing any NUL-terminated text, valid JSON or not, terminates and never reads beyond the terminator or uses uninitialised memory.", "quantifier": "all byte strings", "why_tests_cant": "all malformed inputs", "anchors": ["Source/DKJSON.c:DKJSONParse", "Source/DKJSON.c:ScanToken", "Source/DKJSON.c:ScanStringToken", "Source/DKJSON.c:ScanUnicodeCodePoint"]}
{"id": "C40", "title": "Archive round trip", "statement": "Archiving an object graph and unarchiving it reproduces every object's class, attributes, text, binary and numeric payloads and collection elements.", "quantifier": "all finite object graphs of any shape with distinct attribute key hashes", "why_tests_cant": "unbounded graphs", "anchors": ["Source/DKEgg.c:DKEggArchiverInitWithObject", "Source/DKEgg.c:DKEggGetObject", "Source/DKEgg.c:AddObject", "Source/DKEgg.c:DKEggUnarchiverGetObject"]}
{"id": "C41", "title": "Archived sharing and cycles are preserved", "statement": "References to the same object archived from several places unarchive to one object, including references back to the root and cycles.", "quantifier": "all object graphs with arbitrary sharing", "why_tests_cant": "unbounded graphs", "anchors": ["Source/DKEgg.c:AddObject", "Source/DKEgg.c:DKEggUnarchiverGetObject"]}
{"id": "C42", "title": "Attributes with distinct keys never collide in an archive", "statement": "Reading an attribute returns the value written under that same key, whatever other keys were written on the object.", "quantifier": "all sets of attribute keys", "why_tests_cant": "needs two keys with the same 32-bit hash", "anchors": ["Source/DKEgg.c:GetAttribute", "Source/DKEgg.c:AddAttribute", "Source/DKPlatform.c:dk_strhash32"]}
{"id": "C43", "title": "Reference counting finalizes exactly once, at the last release", "statement": "Under any interleaving of retain and release calls in which every thread releases only references it owns, the object is never finalized while some reference is outstanding, and is finalized exactly once when the last is released.", "quantifier": "all interleavings of any number of threads", "why_tests_cant": "interleavings", "anchors": ["Source/DKRuntime+RefCount.c:DKRetain", "Source/DKRuntime+RefCount.c:DKRelease", "Source/DKRuntime+RefCount.c:DKTryRelease"]}
{"id": "C44", "title": "Weak references never resolve to a dead object", "statement": "Resolving a weak reference returns either NULL or a retained, not yet finalized object, under any interleaving of retain, release, weak-retain and resolve.", "quantifier": "all interleavings of any number of threads", "why_tests_cant": "a race window between reading the count and decrementing it", "anchors": ["Source/DKRuntime+RefCount.c:DKResolveWeak", "Source/DKRuntime+RefCount.c:DKRetainWeak", "Source/DKRuntime+RefCount.c:DKRelease"]}
{"id": "C45", "title": "Autorelease pools release each object exactly once, at the right pop", "statement": "For any well-nested sequence of push / autorelease / pop / drain, including objects autoreleased while others are being released, each autorelease causes exactly one release, performed by the first pop or drain of the pool it was added to, and objects of outer pools are not touched.", "quantifier": "all well-nested histories up to the documented nesting depth, all finalizer behaviours that only autorelease", "why_tests_cant": "re-entrancy during drain", "anchors": ["Source/DKRuntime+RefCount.c:INTERNAL_DKDrainAutoreleasePool", "Source/DKRuntime+RefCount.c:DKPushAutoreleasePool", "Source/DKRuntime+RefCount.c:DKPopAutoreleasePool", "Source/DKRuntime+RefCount.c:DKAutorelease"]}
{"id": "C46", "title": "Every autorelease pool that can be pushed can be drained", "statement": "Whenever push succeeds, a subsequent drain of that pool succeeds.", "quantifier": "all nesting depths and histories", "why_tests_cant": "boundary of the nesting limit", "anchors": ["Source/DKRuntime+RefCount.c:DKDrainAutoreleasePool", "Source/DKRuntime+RefCount.c:DKPushAutoreleasePool"]}
{"id": "C47", "title": "Objects are initialised root-first and finalized leaf-first", "statement": "Finalizing an object runs the finalizers of its class and all superclasses exactly once each, most derived first; initialisation stops at, and unwinds from, the class whose initialiser fails.", "quantifier": "all class hierarchies of any depth", "why_tests_cant": "any depth", "anchors": ["Source/DKRuntime.c:DKFinalize", "Source/DKRuntime.c:DKInit", "Source/DKRuntime.c:DKSuperInit"]}
{"id": "C48", "title": "Interface lookup returns the most recently installed implementation", "statement": "For any sequence of class creations and interface installations, looking up a selector on a class returns the interface last installed for it on that class, else the one its superclass had when the class was created; caching never changes the answer.", "quantifier": "all histories of class creation, installation and lookup", "why_tests_cant": "cache state depends on the lookup history", "anchors": ["Source/DKRuntime+Interfaces.c:DKInterfaceTableInsert", "Source/DKRuntime+Interfaces.c:DKInterfaceTableFind", "Source/DKRuntime+Interfaces.c:DKInterfaceTableInit"]}
{"id": "C49", "title": "Thread pool runs every task exactly once, in order", "statement": "Tasks added to a thread pool are each started at most once, in the order they were added within their group, and no task is lost while the pool runs.", "quantifier": "all interleavings of any number of workers and clients", "why_tests_cant": "interleavings", "anchors": ["Source/DKThreadPool.c:DKThreadPoolGetNextTask", "Source/DKThreadPool.c:DKThreadPoolScheduleTask", "Source/DKThreadPool.c:DKThreadPoolExec"]}
{"id": "C50", "title": "Completions run after all tasks of their group", "statement": "A completion scheduled for a group starts only after every task added to the group before it has completed.", "quantifier": "all interleavings", "why_tests_cant": "interleavings", "anchors": ["Source/DKThreadPool.c:DKThreadPoolAddCompletion", "Source/DKThreadPool.c:DKThreadPoolGetNextTask", "Source/DKThreadPool.c:DKThreadPoolCompleteTask"]}
{"id": "C51", "title": "Waiting for a task group waits for all its tasks", "statement": "Wait-for-tasks on a group returns only when every task of the group has completed.", "quantifier": "all interleavings", "why_tests_cant": "interleavings", "anchors": ["Source/DKThreadPool.c:DKThreadPoolWaitForTasks", "Source/DKThreadPool.c:DKThreadPoolCompleteTask"]}
{"id": "C52", "title": "An idle thread pool has no work", "statement": "Is-idle / wait-until-idle report idle only when no task is queued or running.", "quantifier": "all interleavings", "why_tests_cant": "window between queueing and wake-up", "anchors": ["Source/DKThreadPool.c:DKThreadPoolIsIdle", "Source/DKThreadPool.c:DKThreadPoolWaitUntilIdle"]}
{"id": "C53", "title": "Removing all tasks while tasks run is safe", "statement": "Remove-all-tasks may be called at any time; running tasks finish normally.", "quantifier": "all interleavings", "why_tests_cant": "window while a task runs", "anchors": ["Source/DKThreadPool.c:DKThreadPoolRemoveAllTasks", "Source/DKThreadPool.c:DKThreadPoolCompleteTask"]}
{"id": "C54", "title": "Cancelling a started thread is not lost", "statement": "Once cancel has been called on a started thread, is-cancelled stays true for it.", "quantifier": "all interleavings of start, cancel and the thread's own start-up", "why_tests_cant": "race with thread start-up", "anchors": ["Source/DKThread.c:DKThreadExec", "Source/DKThread.c:DKThreadCancel"]}
{"id": "C55", "title": "Semaphore counter never goes negative and waiters see the exact value", "statement": "Under any interleaving the semaphore's counter equals increments minus decrements, is never negative, and a wait returns only at a moment when the counter equals the requested value.", "quantifier": "all interleavings", "why_tests_cant": "interleavings", "anchors": ["Source/DKSemaphore.c:DKSemaphoreIncrement", "Source/DKSemaphore.c:DKSemaphoreDecrement", "Source/DKSemaphore.c:DKSemaphoreWait"]}
{"id": "C56", "title": "Graph traversal reaches exactly the reachable vertices and terminates", "statement": "Traversing a graph from a vertex terminates and calls the callback for exactly the vertices reachable from it.", "quantifier": "all finite graphs including cycles", "why_tests_cant": "all graphs", "anchors": ["Source/DKGraph.c:DKGraphTraverse"]}
{"id": "C57", "title": "Graph traversal visits each vertex once", "statement": "Traversing a graph from a vertex calls the callback at most once per vertex.", "quantifier": "all finite graphs", "why_tests_cant": "all graphs", "anchors": ["Source/DKGraph.c:DKGraphTraverse"]}
{"id": "C58", "title": "Predicates evaluate as boolean logic", "statement": "A predicate tree of and/or/not/any/all/none and comparisons evaluates, for every pair of operands, to the value of the corresponding logical formula; two-key predicates use the first key on the first operand and the second key on the second.", "quantifier": "all predicate trees and operands", "why_tests_cant": "unbounded trees", "anchors": ["Source/DKPredicate.c:DKPredicateEvaluate", "Source/DKPredicate.c:DKPredicateEvaluateWithObject"]}
{"id": "C59", "title": "Bit lists behave as arrays of booleans", "statement": "After any history of set / clear / flip, testing bit i gives the last value written to i and no other bit changes; counts and first-set/first-clear searches agree with the bits.", "quantifier": "all lengths, histories and indices", "why_tests_cant": "all lengths (not multiples of the word size)", "anchors": ["Source/DKBitList.c:DKBitListSetBit", "Source/DKBitList.c:DKBitListCountSetBits", "Source/DKBitList.c:DKBitListGetFirstSetBit"]}
{"id": "C60", "title": "Pooled nodes are never handed out twice", "statement": "A node obtained from a node pool is zeroed, and is not handed out again until it has been freed, over any history of allocations and frees.", "quantifier": "all histories", "why_tests_cant": "free-list state over histories", "anchors": ["Source/DKNodePool.c:DKNodePoolAlloc", "Source/DKNodePool.c:DKNodePoolFree", "Source/DKNodePool.c:AllocBlock"]}
{"id": "C61", "title": "Constant strings are interned uniquely", "statement": "Requests for a constant string with the same contents, from any threads in any order, return the same object with those contents.", "quantifier": "all histories and interleavings of requests", "why_tests_cant": "races on first use", "anchors": ["Source/DKString.c:__DKStringGetConstantString"]}
{"id": "C62", "title": "Lazily created shared objects are created once", "statement": "The lazily initialised class / selector / shared-object accessors run their initialiser exactly once and every caller gets the same fully initialised object, under any interleaving.", "quantifier": "all interleavings of any number of threads", "why_tests_cant": "races on first use", "anchors": ["Source/DKRuntime.h:DKThreadSafeSharedObjectInit"]}
{"id": "C63", "title": "Data and struct ordering follow the library's comparison convention", "statement": "Comparing byte data (and structs) is antisymmetric, transitive, zero iff the bytes are equal, and uses the same sign convention as strings and numbers (positive when the first sorts first).", "quantifier": "all pairs and triples of byte strings", "why_tests_cant": "relation over arbitrary pairs", "anchors": ["Source/DKData.c:DKDataCompare", "Source/DKStruct.c:DKStructCompare"]}
{"id": "C64", "title": "A list may be the source of its own edit", "statement": "Replacing a range of a list with the objects of a collection also works when that collection is the list itself: the contents become the original sequence with the range replaced by a copy of the original sequence, and no memory outside the list is touched.", "quantifier": "all lists, ranges and contents", "why_tests_cant": "aliasing between source and destination appears only in this call pattern", "anchors": ["Source/DKArray.c:INTERNAL_DKArrayReplaceRangeWithCollection", "Source/DKLinkedList.c:INTERNAL_DKLinkedListReplaceRangeWithCollection"]}
{"id": "C65", "title": "Shuffling a linked list", "statement": "Shuffling a linked list rearranges its objects: afterwards the list holds the same objects with the same multiplicities.", "quantifier": "all linked lists and random sequences", "why_tests_cant": "must hold for every length", "anchors": ["Source/DKLinkedList.c:DKLinkedListShuffle"]}
{"id": "C66", "title": "The stream position stays inside the data", "statement": "After any sequence of operations on a data object, including those that shorten it, tell returns a position between 0 and the length.", "quantifier": "all histories of seeks, reads, writes, set-length and replacements", "why_tests_cant": "appears only when shortening follows a seek", "anchors": ["Source/DKData.c:DKDataSetLength", "Source/DKData.c:DKDataTell"]}
{"id": "C67", "title": "Seeking relative to the end", "statement": "Seeking by an offset relative to the end of a data object moves the position to the length plus the offset (limited to the data).", "quantifier": "all data objects and offsets", "why_tests_cant": "relation over all offsets", "anchors": ["Source/DKData.c:DKDataSeek"]}
{"id": "C68", "title": "Searching a string for a character returns the position of its first occurrence", "statement": "dk_ustrchr returns a pointer to the first occurrence of the character in the string, as dk_ustrrchr does for the last one, or NULL when it does not occur.", "quantifier": "all well-formed strings and characters", "why_tests_cant": "relation over all strings and characters", "anchors": ["Source/DKUnicode.c:dk_ustrchr", "Source/DKUnicode.c:dk_ustrrchr"]}
{"id": "C69", "title": "Filtering a string calls the filter once per character, in order, and keeps what it keeps", "statement": "Filtering calls the callback on every character in order, with its position and the position it would get in the result, until the callback stops; the result consists of exactly the kept characters in order.", "quantifier": "all well-formed texts and all (stateful) callbacks", "why_tests_cant": "all texts and all callback behaviours", "anchors": ["Source/DKString.c:DKStringByFilteringString"]}
{"id": "C70", "title": "Path component and extension functions act on the components of a path", "statement": "Appending a path adds its components at the end; the last component is the last component of the path however many separators are doubled or trailing; deleting it leaves the path of the remaining components; adding an extension, reading it back and deleting it are consistent.", "quantifier": "all paths, components and extensions without separators or dots", "why_tests_cant": "all strings", "anchors": ["Source/DKString.c:DKStringAppendPathComponent", "Source/DKString.c:DKStringGetLastPathComponent", "Source/DKString.c:DKStringDeleteLastPathComponent", "Source/DKString.c:DKStringAppendPathExtension", "Source/DKString.c:DKStringGetPathExtension", "Source/DKString.c:DKStringDeletePathExtension"]}
{"id": "C71", "title": "Word wrapping keeps the words and respects the line length", "statement": "The lines contain the words of the text in order and no others, and a line is longer than the requested number of characters only if it is a single word.", "quantifier": "all texts and line lengths", "why_tests_cant": "all texts", "anchors": ["Source/DKString.c:DKStringWrap"]}
{"id": "C72", "title": "A finalizer may use an autorelease pool of its own", "statement": "While a pool is popped or drained, releasing an object may run a finalizer that pushes a pool, autoreleases objects and pops it again, or drains the current pool; the remaining objects are still released exactly once and no freed memory is used.", "quantifier": "all finalizer behaviours with balanced pushes and pops", "why_tests_cant": "re-entrancy combined with growth of the pool", "anchors": ["Source/DKRuntime+RefCount.c:INTERNAL_DKDrainAutoreleasePool"]}
{"id": "C73", "title": "Real-time thread pools start tasks once, in order, as soon as a worker is free", "statement": "With real-time scheduling every task is started once, in the order tasks were added, and a queued task is taken by a worker that is free.", "quantifier": "all interleavings of any number of workers and clients", "why_tests_cant": "interleavings of the standby hand-over", "anchors": ["Source/DKThreadPool.c:DKThreadPoolExecRealTime", "Source/DKThreadPool.c:DKThreadPoolAddTask"]}
{"id": "C74", "title": "Stopping a thread pool always returns", "statement": "After stop has been called every worker ends, whatever it was doing, so that stop returns.", "quantifier": "all interleavings of any number of workers with the call of stop", "why_tests_cant": "window between the test for cancellation and the wait", "anchors": ["Source/DKThreadPool.c:DKThreadPoolStop", "Source/DKThreadPool.c:DKThreadPoolExec"]}
{"id": "C75", "title": "A real-time thread pool can be stopped and started again", "statement": "Tasks added to a real-time thread pool that was stopped and started again are executed.", "quantifier": "all interleavings", "why_tests_cant": "history dependence of the standby state", "anchors": ["Source/DKThreadPool.c:DKThreadPoolExecRealTime", "Source/DKThreadPool.c:DKThreadPoolStart"]}
{"id": "C76", "title": "Joining a thread waits for its end", "statement": "Joining a thread that was started returns when the thread has finished.", "quantifier": "all interleavings of the thread with its creator", "why_tests_cant": "undefined behaviour that may appear to work", "anchors": ["Source/DKThread.c:DKThreadJoin", "Source/DKThread.c:DKThreadStart"]}
{"id": "C77", "title": "Interfaces can be installed on any class", "statement": "Installing an interface for a selector on a class makes a lookup on this class find it, for root classes as well as for their subclasses.", "quantifier": "all classes and interfaces, after any history of creations, installations and lookups", "why_tests_cant": "depends on the hierarchy and on earlier installations", "anchors": ["Source/DKRuntime+Interfaces.c:DKInstallInterface", "Source/DKRuntime+Interfaces.c:DKInterfaceInheritMethods"]}
{"id": "C78", "title": "The fast lookup of static interfaces agrees with the lookup", "statement": "For a selector with a reserved cache line the fast lookup finds the interface the normal lookup finds.", "quantifier": "all classes, after any history of creations, installations and lookups", "why_tests_cant": "the cache depends on the history", "anchors": ["Source/DKRuntime.h:DKGetStaticInterfaceFastUnsafe", "Source/DKRuntime+Interfaces.c:DKInterfaceTableInit"]}
{"id": "C79", "title": "Locking an object excludes other threads", "statement": "Between locking and unlocking an object no other thread has the lock of this object, also if several threads lock it for the first time at the same time; a waiting thread gets the lock when it is free.", "quantifier": "all interleavings of any number of threads", "why_tests_cant": "races on first use", "anchors": ["Source/DKRuntime.c:DKLockObject", "Source/DKRuntime.c:DKUnlockObject", "Source/DKRuntime+Metadata.c:DKMetadataFindOrInsert"]}
{"id": "C80", "title": "Lookups may overlap with installations", "statement": "A lookup that begins after the installation of an interface has returned finds this interface or one installed later, whatever other threads do.", "quantifier": "all interleavings of lookups and installations", "why_tests_cant": "window between reading the table and writing the cache", "anchors": ["Source/DKRuntime+Interfaces.c:DKInterfaceTableFind", "Source/DKRuntime+Interfaces.c:DKInterfaceTableInsert"]}
{"id": "C81", "title": "Graph edges form a finite map in insertion order", "statement": "After any sequence of adding edges (one way or both ways), removing edges, setting an edge's user info and removing everything, the edges from a vertex are exactly those added and not removed since, in the order in which they were added, at most one per target, each with the user info set last; a vertex without edges has no edge list.", "quantifier": "all sequences of graph operations over all vertices", "why_tests_cant": "all histories", "anchors": ["Source/DKGraph.c:DKGraphAddEdge", "Source/DKGraph.c:DKGraphRemoveEdge", "Source/DKGraph.c:DKGraphGetEdges", "Source/DKGraph.c:DKGraphGetEdge"]}
{"id": "C82", "title": "Shortest path queries return", "statement": "Asking a graph for the shortest path between two vertices returns, whatever the graph and the cost functions.", "quantifier": "all graphs, vertices and cost functions", "why_tests_cant": "divergence cannot be tested", "anchors": ["Source/DKGraph.c:DKGraphGetShortestPath", "Source/DKBinaryTree.c:DKBinaryTreeGetFirstObject"]}
{"id": "C83", "title": "Number conversion copies exactly the common values", "statement": "Assigning or casting one number to another replaces the values both have in common (rows and columns both have in common if both are matrices) by the same values in the destination's type, reports how many, and changes nothing else in or outside the destination.", "quantifier": "all integer-typed numbers, vectors and matrices of any size", "why_tests_cant": "all pairs of types and shapes; memory corruption may go unnoticed", "anchors": ["Source/DKNumber.c:DKNumberConvert", "Source/DKNumber.c:DKNumberCastValue", "Source/DKNumber.c:DKNumberSetValue"]}
{"id": "C84", "title": "Enumerating numbers yields every element at its place", "statement": "Enumerating a number yields each value once, in order, with its index; enumerating a matrix yields each element once with its row and column.", "quantifier": "all integer-typed numbers of any shape", "why_tests_cant": "all shapes; out-of-bounds reads may go unnoticed", "anchors": ["Source/DKNumber.c:DKNumberEnumerateValue", "Source/DKNumber.c:DKNumberEnumerateMatrixValue"]}
{"id": "C85", "title": "Reading numbers as integers and truth values", "statement": "Reading a number as an integer gives its first value, wrapped to the width asked for, and zero if it has none; its truth value is true exactly if the first value is not zero.", "quantifier": "all integer-typed numbers", "why_tests_cant": "2^64 values", "anchors": ["Source/DKNumber.c:DKNumberGetInt32", "Source/DKNumber.c:DKNumberGetInt64", "Source/DKNumber.c:DKNumberGetBool"]}
{"id": "C86", "title": "Reading decimal fractions and exponents", "statement": "A decimal number with a fraction, an exponent or both, with or without signs, is read as this number, and the reading ends behind it; numbers that do not fit are rejected or rounded.", "quantifier": "all decimal numbers with fractions and exponents of any length", "why_tests_cant": "unbounded digits and exponents", "anchors": ["Source/DKPlatform.c:dk_strtonum"]}
{"id": "C87", "title": "Valid JSON texts are read as the values they stand for", "statement": "Parsing a valid JSON text, with any white space, escapes, nesting and repeated keys, yields the value it stands for (of repeated keys, the last value) and consumes the whole text.", "quantifier": "all valid JSON texts", "why_tests_cant": "unbounded nesting, all escapes and number formats", "anchors": ["Source/DKJSON.c:DKJSONParse", "Source/DKJSON.c:ParseObject", "Source/DKJSON.c:ScanToken"]}
{"id": "C88", "title": "Invalid JSON texts are rejected", "statement": "Parsing a text that is not valid JSON yields no value.", "quantifier": "all texts that are not JSON", "why_tests_cant": "all invalid texts", "anchors": ["Source/DKJSON.c:DKJSONParse", "Source/DKJSON.c:ParseObject"]}
{"id": "C89", "title": "Archives can be read on machines of either byte order", "statement": "An archive written on a machine of one byte order reads as the same objects on a machine of the other byte order.", "quantifier": "all graphs that can be archived, all pairs of byte orders", "why_tests_cant": "unbounded graphs, and tests run on one machine", "anchors": ["Source/DKEgg.c:SwizzleEggHeader", "Source/DKEgg.c:DKEggGetNumberData", "Source/DKEgg.c:DKEggUnarchiverInitWithData"]}
{"id": "C90", "title": "Archives follow each other in a stream", "statement": "Reading an archive from a stream consumes exactly that archive, so archives and other data written one after the other are read in order.", "quantifier": "all sequences of archives and what follows them", "why_tests_cant": "unbounded sequences", "anchors": ["Source/DKEgg.c:DKEggUnarchiverInitWithStream", "Source/DKEgg.c:DKEggArchiverWriteToStream"]}
{"id": "C91", "title": "A truncated archive is not opened", "statement": "Opening a proper prefix of an archive, from data or from a stream, yields no unarchiver.", "quantifier": "all archives and all places to cut them", "why_tests_cant": "every crash point while writing", "anchors": ["Source/DKEgg.c:DKEggUnarchiverInitWithStream", "Source/DKEgg.c:DKEggUnarchiverInitWithData"]}
{"id": "C92", "title": "Unarchiving any data is memory safe", "statement": "Opening and reading data that is not an archive, or a damaged one, never reads or writes outside of the data.", "quantifier": "all byte sequences", "why_tests_cant": "all inputs", "anchors": ["Source/DKEgg.c:DKEggUnarchiverInitWithStream", "Source/DKEgg.c:DKEggUnarchiverInitWithData", "Source/DKEgg.c:DKEggUnarchiverGetObject", "Source/DKEgg.c:GetAttribute"]}
{"id": "C93", "title": "Reading a text from an archive returns its length", "statement": "The function that copies a text attribute returns the number of bytes of the text.", "quantifier": "all texts", "why_tests_cant": "all lengths, including 0", "anchors": ["Source/DKEgg.c:DKEggGetTextData"]}
{"id": "C94", "title": "Formatted printing writes every piece of the format", "statement": "Printing a format with its arguments writes, in this order and without anything else, its literal text, a percent sign for each %%, each string argument ((null) if it is NULL), the description of each object, each character, and each number as the C library prints it, with the trailing zeroes of a plain %f removed.", "quantifier": "all formats of complete conversions, all arguments", "why_tests_cant": "unbounded formats and arguments", "anchors": ["Source/DKStream.c:DKVSPrintf", "Source/DKStream.c:DKSPrintf", "Source/DKStream.c:CopyFormat"]}
{"id": "C95", "title": "Formatted printing returns the number of bytes written", "statement": "The result of formatted printing is the number of bytes written to the stream, and %n stores the number of bytes written so far.", "quantifier": "all formats and arguments", "why_tests_cant": "all formats", "anchors": ["Source/DKStream.c:DKVSPrintf", "Source/DKStream.c:DKPutc"]}
{"id": "C96", "title": "Formatted printing is memory safe", "statement": "Formatted printing never reads past the end of the format, never takes an argument that the format does not ask for or of another type, and never writes outside of its buffers, whatever the flags, widths and precisions.", "quantifier": "all formats that C's printf accepts, and all arguments", "why_tests_cant": "memory corruption may go unnoticed", "anchors": ["Source/DKStream.c:DKVSPrintf", "Source/DKStream.c:CopyFormat"]}
{"id": "C97", "title": "Trimming zeroes does not change a printed number", "statement": "Removing the trailing zeroes of a printed decimal fraction leaves a text that stands for the same number and still has a digit behind its point; a text without a point is left unchanged.", "quantifier": "all printed numbers", "why_tests_cant": "unbounded digits", "anchors": ["Source/DKStream.c:TrimZeroes"]}
{"id": "C98", "title": "Lines written to a stream are read back", "statement": "Reading line by line what was written returns the lines in order, without their line feeds, and then the text behind the last line feed; each call consumes its line and nothing else.", "quantifier": "all texts", "why_tests_cant": "unbounded texts", "anchors": ["Source/DKStream.c:DKGets", "Source/DKStream.c:DKPuts"]}
{"id": "C99", "title": "A character written to a stream is read back", "statement": "Reading a character after writing it returns the same character, and only the end of the stream is reported as the end.", "quantifier": "all 256 characters", "why_tests_cant": "the values above 127 depend on the sign of char", "anchors": ["Source/DKStream.c:DKPutc", "Source/DKStream.c:DKGetc"]}
{"id": "C100", "title": "A shell segment reads back as it was written", "statement": "Reading a segment that was written yields the same content type, annotation and object.", "quantifier": "all content types, annotations and objects", "why_tests_cant": "unbounded texts and data", "anchors": ["Source/DKShell.c:DKShellRead", "Source/DKShell.c:DKShellWrite"]}
{"id": "C101", "title": "Shell segments may be concatenated", "statement": "Segments written one after the other are read in order, each read consuming exactly one segment.", "quantifier": "all sequences of segments", "why_tests_cant": "unbounded sequences", "anchors": ["Source/DKShell.c:DKShellRead", "Source/DKShell.c:DKShellWrite"]}
{"id": "C102", "title": "Reading any stream as a shell is safe", "statement": "Reading a stream that is not a shell file, or a damaged one, neither crashes nor touches memory out of bounds.", "quantifier": "all byte sequences", "why_tests_cant": "all inputs", "anchors": ["Source/DKShell.c:DKShellRead", "Source/DKShell.c:GetHeaderValue"]}
{"id": "C103", "title": "Objects are equal exactly if their contents are", "statement": "Two objects of any classes are equal exactly if they have the same contents, recursively; equality is reflexive, symmetric and transitive, and comparing any two objects for equality is safe.", "quantifier": "all objects, nested to any depth", "why_tests_cant": "unbounded nesting, all pairs of classes", "anchors": ["Source/DKComparison.c:DKEqual", "Source/DKStruct.c:DKStructEqual", "Source/DKPair.c:DKPairEqual", "Source/DKList.c:DKListEqual", "Source/DKDictionary.c:DKDictionaryEqual", "Source/DKData.c:DKDataEqual"]}
{"id": "C104", "title": "Equal objects have equal hash codes", "statement": "Objects that are equal have the same hash code, so that any object can be a key of a dictionary or a member of a set.", "quantifier": "all objects, nested to any depth", "why_tests_cant": "unbounded nesting, all pairs of classes", "anchors": ["Source/DKComparison.c:DKHash", "Source/DKPair.c:DKPairHash", "Source/DKArray.c:DKArrayClass", "Source/DKHashTable.c:DKHashTableClass"]}
{"id": "C105", "title": "Comparison of objects is an order", "statement": "Comparing objects of any classes is a total order that agrees with equality, so that lists of any objects can be sorted and trees can have any keys.", "quantifier": "all triples of objects, nested to any depth", "why_tests_cant": "unbounded nesting, all triples of classes", "anchors": ["Source/DKComparison.c:DKCompare", "Source/DKPair.c:DKPairCompare", "Source/DKNumber.c:DKNumberCompare", "Source/DKString.c:DKStringCompare"]}
{"id": "C106", "title": "Properties neither leak nor lose the objects they hold", "statement": "Whatever sequence of property accesses a client performs, each reference counted on an object belongs to the client, to the autorelease pool or to a property that holds it: objects held by properties stay alive, objects replaced in a property are released exactly once, and no access uses a dead object.", "quantifier": "all histories of creating, retaining, releasing, writing and reading properties; all sets of property definitions", "why_tests_cant": "unbounded histories", "anchors": ["Source/DKRuntime+Properties.c:DKWritePropertyObject", "Source/DKRuntime+Properties.c:DKReadPropertyObject", "Source/DKRuntime+Properties.c:DKSetNumberProperty", "Source/DKRuntime+Properties.c:DKSetStructProperty"]}
{"id": "C107", "title": "A property gives back the object stored last", "statement": "Reading an object property returns the object stored last, whatever happened since then other than writes to the same property of the same object. A weak property returns it as long as it is alive and NULL afterwards; a copied property returns a copy with the contents at the time of writing, unaffected by later changes to the original.", "quantifier": "all histories in between; properties without accessors of their own", "why_tests_cant": "unbounded histories", "anchors": ["Source/DKRuntime+Properties.c:DKTrySetProperty", "Source/DKRuntime+Properties.c:DKTryGetProperty", "Source/DKRuntime+Properties.c:DKWritePropertyObject", "Source/DKRuntime+Properties.c:DKReadPropertyObject"]}
{"id": "C108", "title": "A number property gives back the number stored last", "statement": "Numbers stored in a property of an integer type that holds them are read back unchanged, in any type that holds them, whatever happened since then other than writes to the same property of the same object.", "quantifier": "all integer types, vector lengths, values and histories in between", "why_tests_cant": "all values, unbounded histories", "anchors": ["Source/DKRuntime+Properties.c:DKSetNumberProperty", "Source/DKRuntime+Properties.c:DKGetNumberProperty", "Source/DKRuntime+Properties.c:DKSetIntegerProperty", "Source/DKRuntime+Properties.c:DKGetIntegerProperty"]}
{"id": "C109", "title": "A structure property gives back the bytes stored last", "statement": "A structure stored in a property of its size and semantic is read back byte for byte, whatever happened since then other than writes to the same property of the same object; a structure of another semantic is refused and changes nothing.", "quantifier": "all sizes, bytes, semantics and histories in between", "why_tests_cant": "unbounded sizes and histories", "anchors": ["Source/DKRuntime+Properties.c:DKSetStructProperty", "Source/DKRuntime+Properties.c:DKGetStructProperty"]}
{"id": "C110", "title": "An enumeration property gives back the name stored last", "statement": "A name of the enumeration stored in a property is read back as the same name, and a string that is not a name of the enumeration is refused.", "quantifier": "all enumerations with distinct names and values, all strings, all histories in between", "why_tests_cant": "unbounded enumerations and histories", "anchors": ["Source/DKRuntime+Properties.c:DKWritePropertyObject", "Source/DKRuntime+Properties.c:DKReadPropertyObject", "Source/DKEnum.c:DKEnumFromString64", "Source/DKEnum.c:DKStringFromEnum64"]}
{"id": "C111", "title": "Writing a read-only or undefined property changes nothing", "statement": "Setting a property that is read-only or that the object does not have, as an object, a number or a structure, reports a warning and changes neither memory nor references.", "quantifier": "all objects, names and values", "why_tests_cant": "all states", "anchors": ["Source/DKRuntime+Properties.c:DKTrySetProperty", "Source/DKRuntime+Properties.c:DKSetNumberProperty", "Source/DKRuntime+Properties.c:DKSetStructProperty"]}
{"id": "C112", "title": "Observers see every access to a property", "statement": "Every read and every write of a property with observers is announced before and reported after, in pairs, and the memory of a property never changes outside of an announced write of that property.", "quantifier": "all histories of accesses; properties with all four observers and no accessors of their own", "why_tests_cant": "unbounded histories", "anchors": ["Source/DKRuntime+Properties.c:DKWillReadProperty", "Source/DKRuntime+Properties.c:DKDidReadProperty", "Source/DKRuntime+Properties.c:DKWillWriteProperty", "Source/DKRuntime+Properties.c:DKDidWriteProperty"]}
{"id": "C113", "title": "A property holds only what its predicate allows", "statement": "Reading an object property with a predicate returns only objects that satisfy the predicate, and storing an object that does not satisfy it is refused.", "quantifier": "all predicates on the class, all histories of accesses", "why_tests_cant": "unbounded histories", "anchors": ["Source/DKRuntime+Properties.c:DKWritePropertyObject", "Source/DKRuntime+Properties.c:FailedPredicate"]}
{"id": "C114", "title": "A key path is the composition of its keys", "statement": "Reading a key path returns what reading its keys one after another returns, and writing one writes the last key of the object that the keys before lead to; a NULL on the way is harmless.", "quantifier": "all paths of keys without full stops, all objects", "why_tests_cant": "unbounded paths", "anchors": ["Source/DKRuntime+Properties.c:DKResolveTargetForKeyPath", "Source/DKRuntime+Properties.c:DKTryGetPropertyForKeyPath", "Source/DKRuntime+Properties.c:DKTrySetPropertyForKeyPath"]}
{"id": "C115", "title": "Properties are inherited", "statement": "A class has the property of a name that was installed last in it, or else the one its superclass has.", "quantifier": "all histories of making classes and installing properties", "why_tests_cant": "unbounded histories", "anchors": ["Source/DKRuntime+Properties.c:DKInstallProperty", "Source/DKRuntime+Properties.c:DKCopyPropertiesTable", "Source/DKRuntime.c:DKNewClass"]}
{"id": "C116", "title": "XML documents are read exactly", "statement": "Parsing accepts a text if and only if it is a well-formed XML document, and the element returned has the names, attributes, texts and children that the document denotes.", "quantifier": "all texts, of any length and nesting depth", "why_tests_cant": "unbounded texts and depth", "anchors": ["Source/DKXML.c:DKXMLParse", "Source/DKXML.c:DKXMLAppendTextContent", "ThirdParty/yxml/yxml.c:yxml_parse"]}
{"id": "C117", "title": "The XML buffer size does not matter", "statement": "What parsing a document returns does not depend on the size of the buffer of the parser; a document that does not fit is parsed again with a larger one until it fits.", "quantifier": "all texts and all buffer sizes", "why_tests_cant": "unbounded sizes", "anchors": ["Source/DKXML.c:DKXMLParse", "ThirdParty/yxml/yxml.c:yxml_pushstack", "ThirdParty/yxml/yxml.c:yxml_pushstackc"]}
{"id": "C118", "title": "Parsing XML is memory safe", "statement": "Parsing any bytes ends, and never reads or writes outside the memory of the parser.", "quantifier": "all sequences of bytes", "why_tests_cant": "adversarial inputs of any length", "anchors": ["Source/DKXML.c:DKXMLParse", "ThirdParty/yxml/yxml.c:yxml_parse", "ThirdParty/yxml/yxml.c:yxml_popstack", "ThirdParty/yxml/yxml.c:yxml_selfclose"]}
{"id": "C119", "title": "Line ends in XML do not matter", "statement": "Texts that differ only in using CR, CR LF or LF as their line ends are parsed to equal elements, or none is accepted.", "quantifier": "all pairs of texts", "why_tests_cant": "unbounded texts", "anchors": ["ThirdParty/yxml/yxml.c:yxml_parse", "Source/DKXML.c:DKXMLParse"]}
{"id": "C120", "title": "XML character references", "statement": "In values and texts a reference stands for the character it names, encoded in UTF-8, and anything else between an ampersand and a semicolon is refused.", "quantifier": "all references to all characters", "why_tests_cant": "all of Unicode, all spellings", "anchors": ["ThirdParty/yxml/yxml.c:yxml_refend", "ThirdParty/yxml/yxml.c:yxml_ref", "ThirdParty/yxml/yxml.c:yxml_setutf8"]}
{"id": "C121", "title": "XML elements are well shaped", "statement": "In every element returned by the parser, at any depth, names are XML names, no attribute occurs twice, no text is empty or starts with white space and no two texts follow each other.", "quantifier": "all texts accepted", "why_tests_cant": "unbounded texts and depth", "anchors": ["Source/DKXML.c:DKXMLParse", "Source/DKXML.c:DKXMLAppendTextContent"]}
{"id": "C122", "title": "White space in XML texts is collapsed", "statement": "In the texts of the elements returned each run of white space has become one space.", "quantifier": "all texts accepted", "why_tests_cant": "unbounded texts", "anchors": ["Source/DKXML.c:DKXMLAppendTextContent", "ThirdParty/yxml/yxml.c:yxml_datacd1"]}
{"id": "C123", "title": "XML descriptions are read back", "statement": "Parsing the description of an element gives an equal element.", "quantifier": "all elements of any depth", "why_tests_cant": "unbounded trees", "anchors": ["Source/DKXML.c:DKXMLElementGetDescription", "Source/DKXML.c:DKXMLParse"]}
{"id": "C124", "title": "Objects exist exactly as long as they are held", "statement": "After any history of making classes, allocating, retaining and releasing, an object exists if and only if the client or the runtime has a reference to it, it is the class of an object or the superclass of a class that exists, or its references are not counted; the class of an object and the superclass of a class are always existing classes.", "quantifier": "all histories in which a client releases only what it holds, all trees of classes", "why_tests_cant": "unbounded histories and class trees", "anchors": ["Source/DKRuntime.c:DKNewClass", "Source/DKRuntime.c:DKClassFinalize", "Source/DKRuntime.c:DKAllocObject", "Source/DKRuntime.c:DKDeallocObject", "Source/DKRuntime+RefCount.c:DKRelease"]}
{"id": "C125", "title": "Classes are found by their names", "statement": "DKClassFromString returns a class if and only if it exists and has that name; no two classes that exist have the same name, making one with a name in use or from a superclass that prevents it is refused, and any other is made.", "quantifier": "all histories, all names", "why_tests_cant": "unbounded histories and names, all collisions", "anchors": ["Source/DKRuntime+Reflection.c:DKClassFromString", "Source/DKRuntime+Reflection.c:DKNameDatabaseInsertClass", "Source/DKRuntime+Reflection.c:DKNameDatabaseRemoveClass", "Source/DKRuntime.c:DKNewClass"]}
{"id": "C126", "title": "Kinds follow the superclasses", "statement": "DKIsKindOfClass and DKIsSubclass end and say whether the class is reached by going up through superclasses; this is a partial order in which the ancestors of a class are in a line, and it does not change while the objects exist. The class, class name, superclass and mutability told for an object are those of its class; for a class the name told is its own.", "quantifier": "all histories, all objects and classes", "why_tests_cant": "unbounded depth of class trees", "anchors": ["Source/DKRuntime+Reflection.c:DKIsKindOfClass", "Source/DKRuntime+Reflection.c:DKIsSubclass"]}
{"id": "C127", "title": "Retaining, releasing and allocating are safe", "statement": "Retaining or allocating from what exists and releasing what is held never uses an object that is gone, whatever this frees; allocating gives a new instance, or is refused for an abstract class.", "quantifier": "all histories", "why_tests_cant": "unbounded histories and chains of releases", "anchors": ["Source/DKRuntime+RefCount.c:DKRetain", "Source/DKRuntime+RefCount.c:DKRelease", "Source/DKRuntime.c:DKAllocObject", "Source/DKRuntime.c:DKClassFinalize"]}
{"id": "C128", "title": "Enumerations translate names and values", "statement": "An enumeration made from names and values gives for a name the value given last with it, and 0 for any other string or NULL; for a value it gives a name that has this value, and NULL exactly if there is none; reading the name of a value gives the value. Making and asking one never reads outside its memory.", "quantifier": "all lists of names and values, all strings and values asked for, all hash functions", "why_tests_cant": "the table behind an enumeration has a state that depends on the hashes of all names", "anchors": ["Source/DKEnum.c:DKEnumInitWithCStringsAndValues", "Source/DKEnum.c:DKEnumInitWithCStringsAndValues64", "Source/DKEnum.c:DKEnumFromString64", "Source/DKEnum.c:DKStringFromEnum64"]}
{"id": "C129", "title": "Names of predicate operators", "statement": "Every operator of predicates has its name as string; the name, and each of its symbols, is read as that operator, and every other string and NULL as the unspecified one.", "quantifier": "all operators and strings", "why_tests_cant": "there are infinitely many strings that are not operators", "anchors": ["Source/DKPredicate.c:DKStringFromPredicateOp", "Source/DKPredicate.c:DKPredicateOpFromString"]}
{"id": "C130", "title": "Lifetimes of files and their streams", "statement": "However files are opened, made of streams, retained, released, closed and used: a file is there as long as it is held and never uses a closed stream; its stream is closed by DKFileClose or, if the file owns it, by the last release, and never otherwise or twice; after closing, a file that is still held answers every call with an error; using a file affects no other file.", "quantifier": "all histories of calls on any number of files", "why_tests_cant": "unbounded histories", "anchors": ["Source/DKFile.c:DKFileOpen", "Source/DKFile.c:DKFileInitWithStreamPtr", "Source/DKFile.c:DKFileFinalize", "Source/DKFile.c:DKFileClose"]}
{"id": "C131", "title": "A file is a sequence of bytes with a position", "statement": "Reading, writing, seeking, and asking for the position and length of a file answer, in any order, as for a sequence of bytes with a position; when it is closed the file has the bytes of the sequence.", "quantifier": "all contents and histories of calls, and all ways the C library buffers", "why_tests_cant": "unbounded histories; how much is buffered differs between platforms", "anchors": ["Source/DKFile.c:DKFileSeek", "Source/DKFile.c:DKFileTell", "Source/DKFile.c:DKFileGetLength", "Source/DKFile.c:DKFileRead", "Source/DKFile.c:DKFileWrite"]}
{"id": "C132", "title": "Query parameters come back from the text made of them", "statement": "Combining the entries of a dictionary of strings (some without a value) to a query text and splitting the text gives the same entries; a query text of plain keys and values is split into these.", "quantifier": "all dictionaries of strings, of any number and length", "why_tests_cant": "every character may need an escape, alone or next to others, in keys and values of any number", "anchors": ["Source/DKString.c:DKStringSplitQueryParameters", "Source/DKString.c:DKStringCombineQueryParameters", "Source/DKString.c:DKStringByAddingURLPercentEscapes"]}
{"id": "C133", "title": "CSS styles are read as their declarations", "statement": "Splitting a text of CSS declarations gives every key with its value, without the white space around them, and nothing else.", "quantifier": "all texts of declarations and pieces that are none, with any white space", "why_tests_cant": "texts of any number of pieces; keys and values of any characters", "anchors": ["Source/DKString.c:DKStringSplitCSSStyles"]}
{"id": "C134", "title": "A read-write lock has one writer or any number of readers", "statement": "Whatever the schedule, when a thread has locked a lock for writing no other has it; readers share it; unlocking always releases what was locked; trying to lock answers true only when the lock was taken; when nobody has the lock whoever waits can take it.", "quantifier": "all histories of any number of threads on one lock, all interleavings", "why_tests_cant": "interleavings cannot be enumerated by running the code", "anchors": ["Source/DKReadWriteLock.c:DKReadWriteLockLock", "Source/DKReadWriteLock.c:DKReadWriteLockTryLock", "Source/DKReadWriteLock.c:DKReadWriteLockUnlock"]}
{"id": "C135", "title": "Swapping byte orders reverses the bytes", "statement": "Swapping the byte order of a number of 16, 32 or 64 bits reverses its bytes, so that swapping twice changes nothing.", "quantifier": "all numbers of each size, on compilers with and without a swap of their own", "why_tests_cant": "2^32 and 2^64 numbers; the portable versions are not compiled on the usual machines", "anchors": ["Source/DKPlatform.h:DKSwapInt16", "Source/DKPlatform.h:DKSwapInt32", "Source/DKPlatform.h:DKSwapInt64"]}
{"id": "C136", "title": "A spin lock admits one thread", "statement": "At most one thread is between locking a spin lock and unlocking it, and when there is none any thread that spins can get in.", "quantifier": "all histories of any number of threads, all interleavings", "why_tests_cant": "interleavings cannot be enumerated by running the code", "anchors": ["Source/DKPlatform.h:DKSpinLockLock", "Source/DKPlatform.h:DKSpinLockUnlock"]}
{"id": "C137", "title": "Universal identifiers are read from their text", "statement": "A universal identifier generated from the text that the system provides has the bytes the text shows, and a missing or short text does no harm.", "quantifier": "all texts of identifiers, with digits of either case", "why_tests_cant": "the system's texts are random, and failures cannot be produced at will", "anchors": ["Source/DKPlatform.c:dk_uuid_generate", "Source/DKPlatform.c:dk_uuid_readbyte"]}
{"id": "C138", "title": "Timed waits end at the right time", "statement": "The deadline of a timed wait on a condition is a valid time that differs from the present time plus the timeout by less than a nanosecond.", "quantifier": "all times of the clock and all timeouts that are finite", "why_tests_cant": "the clock cannot be set, and there are 2^64 timeouts", "anchors": ["Source/DKCondition.c:DKConditionTimedWait"]}
{"id": "C139", "title": "The library's objects are read from an archive as they were written", "statement": "Strings, numbers, booleans, data, pairs, arrays, linked lists, dictionaries, trees, structures and predicates that are archived and read back have the same contents, refer to the copies of what they referred to, and are mutable if they were.", "quantifier": "all graphs of such objects, of any size, shared and cyclic, with machines of either byte order", "why_tests_cant": "graphs and contents of any size; dictionaries are rebuilt by inserting, in another order than they were made", "anchors": ["Source/DKEgg.c:DKEggUnarchiverGetObject", "Source/DKData.c:DKDataAddToEgg", "Source/DKHashTable.c:DKHashTableInitWithEgg", "Source/DKBinaryTree.c:DKBinaryTreeInitWithEgg", "Source/DKString.c:DKStringInitWithEgg", "Source/DKPredicate.c:DKPredicateInitWithEgg"]}
{"id": "C140", "title": "Integers become the nearest floating point number", "statement": "Taking an integer number of any type as float or double gives the value of that type that is nearest to it (of two equally near, the one with an even fraction), the integer itself if it has at most 24 or 53 significant bits; a larger integer never becomes a smaller number.", "quantifier": "all integers of all eight integer types, float and double", "why_tests_cant": "2^64 integers; only few of them are rounded to the even neighbour", "anchors": ["Source/DKNumber.c:DKNumberConvert", "Source/DKNumber.c:DKNumberGetFloat", "Source/DKNumber.c:DKNumberGetDouble"]}
{"id": "C141", "title": "Floating point numbers are truncated to integers", "statement": "Taking a floating point number as an integer gives its value without the fraction, whatever the value, and as a truth value whether it is not zero.", "quantifier": "all float and double values, all eight integer types", "why_tests_cant": "2^64 values; out of range the result differs between machines", "anchors": ["Source/DKNumber.c:DKNumberConvert", "Source/DKNumber.c:DKNumberGetInt32", "Source/DKNumber.c:DKNumberGetInt64", "Source/DKNumber.c:DKNumberGetBool"]}
{"id": "C142", "title": "Numbers come back from the type they were converted to", "statement": "A number converted to a type with at least as many bits and back to its own type is the same number; a double converted to float is the nearest float.", "quantifier": "all values of all ten types", "why_tests_cant": "2^64 values of every pair of types", "anchors": ["Source/DKNumber.c:DKNumberConvert"]}
{"id": "C143", "title": "Floating point numbers are ordered by their values", "statement": "Two numbers, vectors or matrices of the same floating point type and size are compared by the first elements that differ; they are equal if and only if all elements have the same value, and equal numbers have the same hash code.", "quantifier": "all floats and doubles, infinities and NaN included, and vectors of any number of them", "why_tests_cant": "2^128 pairs; special values", "anchors": ["Source/DKNumber.c:DKNumberCompare", "Source/DKNumber.c:DKNumberEqual", "Source/DKNumber.c:DKNumberHash"]}
{"id": "C144", "title": "Numbers of different types are ordered by their values", "statement": "Comparing an integer with a floating point number, or a float with a double, answers by their values; so the answer does not depend on which comes first, and equality is transitive.", "quantifier": "all pairs of numbers of any of the ten types", "why_tests_cant": "2^128 pairs of values for each of a hundred pairs of types", "anchors": ["Source/DKNumber.c:DKNumberCompare", "Source/DKNumber.c:DKNumberEqual"]}
{"id": "C145", "title": "Decimal fractions are read as the nearest double", "statement": "A number with digits after the point in a text is read as the double that is nearest to it.", "quantifier": "all numbers with up to 19 digits before and 17 after the point, in any text", "why_tests_cant": "the error of the sum depends on every digit", "anchors": ["Source/DKPlatform.c:dk_strtonum", "Source/DKJSON.c:DKJSONParse"]}
{"id": "C146", "title": "A floating point number comes back from its text", "statement": "The text of a float or double is read as the same number.", "quantifier": "all floats and doubles", "why_tests_cant": "2^64 values; the text is rounded, and reading it rounds again", "anchors": ["Source/DKNumber.c:DKNumberFormatString", "Source/DKStream.c:DKVSPrintf", "Source/DKPlatform.c:dk_strtonum"]}
{"id": "C147", "title": "Loading a file gives its bytes", "statement": "A string or data object made of the contents of a regular file given by name holds exactly the bytes of the file, followed by the terminator; nothing stays open. Made of a name that is not there, of NULL or of an object that is not a file, it is empty.", "quantifier": "all contents of files, all states of the other files", "why_tests_cant": "contents of any length; what stays open shows only in the state of all files", "anchors": ["Source/DKString.c:DKStringInitWithContentsOfFile", "Source/DKData.c:DKDataInitWithContentsOfFile"]}
{"id": "C148", "title": "Loading an open file gives its bytes", "statement": "A string or data object made of an open file or of any file that can be opened holds the bytes of the file, and no others.", "quantifier": "all files, all positions", "why_tests_cant": "the length is taken from the file system and the bytes from the position of the stream", "anchors": ["Source/DKString.c:DKStringInitWithContentsOfFile", "Source/DKData.c:DKDataInitWithContentsOfFile", "Source/DKFile.c:DKFileGetLength"]}
{"id": "C149", "title": "A string is a stream of its bytes", "statement": "Reading, writing and seeking in a string act on its bytes as on a file, together with edits; the hash code is that of the bytes at that time; an immutable string is never changed.", "quantifier": "all histories of seeks, reads, writes, edits and hash codes", "why_tests_cant": "histories; the cached hash code and the position are hidden state", "anchors": ["Source/DKString.c:DKStringSeek", "Source/DKString.c:DKStringRead", "Source/DKString.c:DKStringWrite", "Source/DKString.c:DKStringHash"]}
{"id": "C150", "title": "The stream position of a string", "statement": "The position of a string used as a stream is always inside the string, a seek relative to the end moves it to the length plus the offset, and reading items of size zero reads nothing.", "quantifier": "all histories of seeks, reads, writes and edits", "why_tests_cant": "histories", "anchors": ["Source/DKString.c:DKStringSeek", "Source/DKString.c:DKStringTell", "Source/DKString.c:DKStringSetCursor"]}
{"id": "C151", "title": "The date and time is that of the system", "statement": "The date and time is the system's time in seconds since 2001 with an error of less than half a microsecond, so that times that differ by a microsecond or more are shown in their order.", "quantifier": "all times within 136 years of 2001, in microseconds", "why_tests_cant": "the error of floating point sums depends on the time", "anchors": ["Source/DKPlatform.c:dk_datetime", "Source/DKPlatform.c:dk_systemtime"]}
{"id": "C152", "title": "Local time", "statement": "The local time is the date and time plus the distance of the time zone to universal time.", "quantifier": "all times and time zones", "why_tests_cant": "the time zone of the machine that runs the tests may be that of universal time", "anchors": ["Source/DKPlatform.c:dk_localtime"]}
{"id": "C153", "title": "Conversion to small and capital letters", "statement": "Converting a text to small or capital letters changes the letters of the Latin alphabet and no other character, writes only inside the buffer, terminates the result, and the result is a text again.", "quantifier": "all texts, all buffer sizes", "why_tests_cant": "texts of any length with characters of any number of bytes; all sizes including zero", "anchors": ["Source/DKUnicode.c:dk_ustrlwr", "Source/DKUnicode.c:dk_ustrupr"]}
{"id": "C154", "title": "A list made of a collection has its objects", "statement": "An array or linked list made of any collection (array, linked list, hash table or tree, itself made in any of these ways) has exactly the objects that enumerating the collection shows, in that order, and their number as its count; made of a C array it has the elements of the array, and made of arguments those before the first NULL.", "quantifier": "all collections of the four classes, after any history of operations and conversions of any depth", "why_tests_cant": "chains of conversions of any length; all collections", "anchors": ["Source/DKArray.c:DKArrayInitWithCollection", "Source/DKArray.c:DKArrayInitWithCArray", "Source/DKArray.c:DKArrayInitWithVAObjects", "Source/DKLinkedList.c:DKLinkedListInitWithCollection", "Source/DKLinkedList.c:DKLinkedListInitWithCArray", "Source/DKCollection.c:DKForeachObject"]}
{"id": "C155", "title": "A set made of a collection has its members once", "statement": "A set made of any collection has the objects of the collection, one for all that are equal, counts them and says of every object whether it is one of them; a tree enumerates them in order. The same holds for a list from which a set is asked.", "quantifier": "all collections, all equality and compare functions, all default classes", "why_tests_cant": "duplicates at any position; the class of a collection is chosen at run time", "anchors": ["Source/DKHashTable.c:DKHashTableInitWithCollection", "Source/DKBinaryTree.c:DKBinaryTreeInitWithCollection", "Source/DKSet.c:DKSetDefaultSetClass", "Source/DKList.c:DKListGetSet"]}
{"id": "C156", "title": "A dictionary made of a dictionary has its entries", "statement": "A hash table or tree made of another dictionary, and a copy of a dictionary, has the same keys with the same objects, the same count and the same answer to every lookup.", "quantifier": "all dictionaries of both classes after any history", "why_tests_cant": "all histories; probing and rotation differ between source and copy", "anchors": ["Source/DKHashTable.c:DKHashTableInitWithDictionary", "Source/DKBinaryTree.c:DKBinaryTreeInitWithDictionary", "Source/DKHashTable.c:DKHashTableCopy", "Source/DKBinaryTree.c:DKBinaryTreeCopy"]}
{"id": "C157", "title": "The lists of keys and of objects of a dictionary", "statement": "The list of all keys and the list of all objects of a dictionary are as long as its count and stand in the same order; no two keys are equal; looking up each key gives the object at its index; an object is contained if and only if that very object is in the list.", "quantifier": "all dictionaries of both classes", "why_tests_cant": "every dictionary; the two lists are made by separate enumerations", "anchors": ["Source/DKDictionary.c:DKDictionaryGetAllKeys", "Source/DKDictionary.c:DKDictionaryGetAllObjects", "Source/DKDictionary.c:DKDictionaryContainsObject"]}
{"id": "C158", "title": "A set joined with itself or taken from itself", "statement": "Adding a set to itself changes nothing, and subtracting a set from itself leaves it empty.", "quantifier": "all sets of all classes that can be used as sets", "why_tests_cant": "the set is changed while it is enumerated; what happens depends on its layout", "anchors": ["Source/DKSet.c:DKSetUnionCollection", "Source/DKSet.c:DKSetMinusCollection", "Source/DKCollection.c:DKForeachObject"]}
{"id": "C159", "title": "A copy of a linked list keeps the priorities", "statement": "A copy of a linked list that is used as a queue with priorities has the same objects with the same priorities.", "quantifier": "all linked lists", "why_tests_cant": "the priorities show only in later insertions", "anchors": ["Source/DKLinkedList.c:DKLinkedListCopy", "Source/DKLinkedList.c:DKLinkedListMutableCopy"]}
{"id": "C160", "title": "Every thread has a dictionary of its own", "statement": "What a thread looks up in its thread dictionary is what it put there last itself, whatever other threads do meanwhile; the dictionary of a new thread is empty.", "quantifier": "all interleavings of the calls of any number of threads, whether made by the library or by the platform", "why_tests_cant": "every schedule; contexts are kept in thread-local storage", "anchors": ["Source/DKThread.c:DKGetCurrentThreadDictionary", "Source/DKThread.c:DKGetCurrentThreadContext", "Source/DKThread.c:DKThreadExec"]}
{"id": "C161", "title": "Nothing a thread was given is lost at its end", "statement": "Every reference that was put into the dictionary or the autorelease pools of a thread is released exactly once, at the latest when the thread ends, however it ends; its thread object exists while it runs and is not held afterwards.", "quantifier": "all interleavings of the calls of any number of threads; all ways to end a thread; all finalizers", "why_tests_cant": "leaks and references to freed contexts depend on the way a thread ends and on finalizers", "anchors": ["Source/DKThread.c:DKThreadContextFinalize", "Source/DKThread.c:DKThreadExec", "Source/DKThread.c:DKThreadExit", "Source/DKThread.c:DKThreadContextDestructor"]}
{"id": "C162", "title": "The current thread", "statement": "Asking for the current thread gives every thread an object of its own, the same one each time, and only the main thread is told that it is the main thread.", "quantifier": "all interleavings of any number of threads", "why_tests_cant": "every schedule", "anchors": ["Source/DKThread.c:DKThreadGetCurrentThread", "Source/DKThread.c:DKThreadIsMainThread"]}
{"id": "C163", "title": "A thread that was not made by the library may free its context", "statement": "A thread made by the platform that allocates a context, sets it, uses the library and frees the context has freed it exactly once when it has ended.", "quantifier": "all histories of such threads", "why_tests_cant": "the second time is after the last statement of the thread", "anchors": ["Source/DKThread.c:DKAllocThreadContext", "Source/DKThread.c:DKFreeThreadContext", "Source/DKThread.c:DKThreadContextDestructor"]}
{"id": "C164", "title": "The description of every object ends", "statement": "DKGetDescription returns for every object, however collections, their members and predicates refer to each other.", "quantifier": "all graphs of objects", "why_tests_cant": "the graphs a program builds at run time are unbounded and may have cycles", "anchors": ["Source/DKCollection.c:DKCollectionGetDescription", "Source/DKCollection.c:DKKeyedCollectionGetDescription", "Source/DKDescription.c:DKGetDescription", "Source/DKPredicate.c:DKPredicateGetDescription"]}
{"id": "C165", "title": "A description says what is there", "statement": "The description of a collection is the name of its class, the number of its members and the description of each, in the order of enumeration, strings in quotes; the description of a predicate names its operator, its operands and their keys; and it is always the same text.", "quantifier": "all graphs of objects, all sizes of collections", "why_tests_cant": "all contents and sizes", "anchors": ["Source/DKCollection.c:DKCollectionGetDescription", "Source/DKCollection.c:PrintDescriptionCallback", "Source/DKCollection.c:PrintKeyedDescriptionCallback", "Source/DKPredicate.c:DKPredicateGetDescription"]}
{"id": "C166", "title": "Descriptions tell collections apart", "statement": "Two collections whose descriptions are equal have the same structure and members with equal descriptions.", "quantifier": "all pairs of graphs of objects", "why_tests_cant": "it is about every pair of contents", "anchors": ["Source/DKCollection.c:DKCollectionGetDescription", "Source/DKCollection.c:DKKeyedCollectionGetDescription"]}
{"id": "C167", "title": "Calls on collections never use a freed object", "statement": "Whatever references a program takes, gives up and stores, as long as it only changes collections it has a reference to, gives up only references it has and passes only objects that exist, no call on an array, linked list, dictionary, set, tree or pair touches an object after it was freed; in particular an object may be replaced by something it holds itself, by itself or by its neighbour.", "quantifier": "all histories of calls on any number of collections nested in each other in any way", "why_tests_cant": "it is about every order of taking and giving up references and every nesting", "anchors": ["Source/DKHashTable.c:RowUpdate", "Source/DKArray.c:INTERNAL_DKArrayReplaceRangeWithCArray", "Source/DKArray.c:INTERNAL_DKArrayReplaceRangeWithCollection", "Source/DKLinkedList.c:INTERNAL_DKLinkedListReplaceRangeWithCArray", "Source/DKBinaryTree.c:InsertRecursive", "Source/DKRuntime+RefCount.c:DKRelease"]}
{"id": "C168", "title": "An object is freed exactly when nobody holds it", "statement": "After any history of calls, an object exists if and only if the program or a collection that exists holds it, and its reference count is the number of references to it.", "quantifier": "all histories of calls, all nestings of collections", "why_tests_cant": "a leaked or missing reference can be in any order of calls", "anchors": ["Source/DKArray.c:DKArrayFinalize", "Source/DKLinkedList.c:FreeNode", "Source/DKHashTable.c:RowDelete", "Source/DKBinaryTree.c:FreeNode", "Source/DKPair.c:DKPairFinalize", "Source/DKRuntime+RefCount.c:DKRelease"]}
{"id": "C169", "title": "In the end everything is freed", "statement": "When a program has given up all its references, every object it made has been freed.", "quantifier": "all histories of calls", "why_tests_cant": "it is about all graphs that can be built", "anchors": ["Source/DKRuntime+RefCount.c:DKRelease", "Source/DKArray.c:DKArrayFinalize"]}
{"id": "C170", "title": "Strings are read as the integers they begin with", "statement": "A string that begins with an integer, after white space and with or without a sign, is read as this integer, or as the nearest one that the type asked for can hold; a string that does not begin with one is read as zero; the text of an integer is read as that integer.", "quantifier": "all strings, all integers", "why_tests_cant": "it is about every string", "anchors": ["Source/DKString.c:DKStringGetInt32", "Source/DKString.c:DKStringGetInt64", "Source/DKPlatform.h:dk_strtoi32"]}
{"id": "C171", "title": "The truth value of an object and of its text agree", "statement": "The text of a boolean object or of an integer, read as a truth value, is true if and only if the object is true, and the integer is not zero.", "quantifier": "all booleans and integers", "why_tests_cant": "it is about every integer", "anchors": ["Source/DKString.c:DKStringGetBool", "Source/DKConversion.c:DKGetBool"]}
{"id": "C172", "title": "Vectors of 32 bit numbers are read like others", "statement": "A JSON text is read with the option for 32 bit vectors if and only if it is read without, as the same value, but that each vector has 32 bit elements: integers if all its numbers are integers, floats otherwise, each of them the number in the text or the nearest float, whatever stands beside it.", "quantifier": "all JSON texts, all vectors in them", "why_tests_cant": "it is about every text and every mixture of numbers", "anchors": ["Source/DKJSON.c:ScanVectorToken32", "Source/DKJSON.c:ScanVectorToken64", "Source/DKJSON.c:DKJSONParse"]}
{"id": "C173", "title": "Strings and data that show memory of the caller leave it alone", "statement": "A string or data object made without copying shows the bytes of the caller as they are when it is asked; a copy shows for good what was there when it was made, whatever is done to the memory or to other objects after that; no call writes to the memory of the caller or frees it, and it can be given back before the object is released, if the object is not asked any more.", "quantifier": "all histories of calls on any number of objects, mixed with the caller's own changes to the memory", "why_tests_cant": "it is about all orders of edits, copies and releases", "anchors": ["Source/DKString.c:DKStringInitWithCStringNoCopy", "Source/DKData.c:DKDataInitWithBytesNoCopy", "Source/DKByteArray.c:DKByteArrayReplaceBytes", "Source/DKByteArray.c:DKByteArrayFinalize"]}
{"id": "C174", "title": "Strings and data give back all memory", "statement": "When every string and data object was released, all memory allocated for them was freed, each block once.", "quantifier": "all histories of calls", "why_tests_cant": "it is about all orders of edits, copies and releases", "anchors": ["Source/DKByteArray.c:DKByteArrayFinalize", "Source/DKString.c:DKStringFinalize", "Source/DKData.c:DKDataFinalize"]}
{"id": "C175", "title": "Hash codes and equality of strings follow their text", "statement": "The hash code of a string, and whether two strings are equal, are those of the text they show at that time, however it came to be there: by edits, by writing through the pointer that the library gives for this, or because the memory shown changed.", "quantifier": "all histories of calls, mixed with the caller's own changes to the memory", "why_tests_cant": "it is about all orders of edits and questions", "anchors": ["Source/DKString.c:DKStringGetMutableBytePtr", "Source/DKString.c:DKStringHash", "Source/DKString.c:DKStringEqual"]}
{"id": "C176", "title": "A path has the extension that is read from it and no other", "statement": "Asking whether a path has an extension answers yes for the extension that is read from it and no for every other one, and that extension is what follows the last period of what follows the last separator, nothing if there is none.", "quantifier": "all paths and extensions in any characters", "why_tests_cant": "it is about every path", "anchors": ["Source/DKString.c:DKStringHasPathExtension", "Source/DKString.c:DKStringGetPathExtension"]}
{"id": "C177", "title": "The extension of a path is the extension of its last component", "statement": "Reading the extension of a path and reading the extension of its last component give the same.", "quantifier": "all paths with a component", "why_tests_cant": "it is about every path", "anchors": ["Source/DKString.c:DKStringGetPathExtension", "Source/DKString.c:DKStringGetLastPathComponent"]}
{"id": "C178", "title": "An object can be removed from a list that alone holds it", "statement": "Removing an object that exists from a mutable list the program has, by value, takes out the elements that are equal to the object, leaves the others in their order and every other collection as it was, and uses no object that was freed, whoever holds the object.", "quantifier": "all programs of calls on lists, dictionaries, sets and pairs, all lists, objects and equalities", "why_tests_cant": "it depends on who holds the object and on what is left of the list after it", "anchors": ["Source/DKList.c:DKListRemoveObject", "Source/DKSet.c:DKSetRemoveObject", "Source/DKComparison.c:DKEqual"]}
{"id": "C179", "title": "Union and difference of lists used as sets, whoever holds the members", "statement": "Adding the members of a collection to a list used as a set appends those that are equal to none that is there, in order; taking them from it removes the elements that are equal to one of them. The collection may be the list itself, and whoever holds the members, no object is used after it was freed.", "quantifier": "all programs of calls on lists, dictionaries, sets and pairs, all lists, collections and equalities", "why_tests_cant": "it depends on who holds the members, and the enumerated collection may be the one that is changed", "anchors": ["Source/DKSet.c:DKSetUnion", "Source/DKSet.c:DKSetMinus", "Source/DKList.c:DKListAddObjectToSet", "Source/DKList.c:DKListRemoveObject", "Source/DKLinkedList.c:DKLinkedListApplyFunction"]}
{"id": "C180", "title": "A truth value written to a property is read back", "statement": "After a truth value is written to a writable property of an object, reading the property as a truth value gives it, until the property is written again, whatever else is done in between and however the property holds its value.", "quantifier": "all sensible programs of classes and properties, all histories of calls, both truth values", "why_tests_cant": "it depends on how the property holds its value and on everything done between writing and reading", "anchors": ["Source/DKRuntime+Properties.c:DKSetBoolProperty", "Source/DKRuntime+Properties.c:DKGetBoolProperty", "Source/DKBoolean.c:DKTrue", "Source/DKNumber.c:DKNumberGetBool", "Source/DKString.c:DKStringGetBool"]}
{"id": "C181", "title": "Names and numbers of enumeration properties agree", "statement": "A value of an enumeration that is written to a property as a number is read as its name and as the number, and one that is written as a name is read as the number of the name, until the property is written again.", "quantifier": "all sensible programs of classes and properties, all enumerations without repeated names or values, all histories of calls, all integer types that hold the value", "why_tests_cant": "it is about every enumeration, value and history", "anchors": ["Source/DKRuntime+Properties.c:DKSetEnumProperty", "Source/DKRuntime+Properties.c:DKGetEnumProperty", "Source/DKEnum.c:DKStringFromEnum64", "Source/DKEnum.c:DKEnumFromString64"]}
{"id": "C182", "title": "An array that shows a C array of the caller, and its copies", "statement": "An array made of a C array without copying has the objects that are in the C array at the moment, and neither keeps them alive nor releases them. A copy of it has the objects of the moment it was made and keeps them, whatever becomes of the C array.", "quantifier": "all programs of calls on lists, dictionaries, sets and pairs and of changes to C arrays, all C arrays and indices", "why_tests_cant": "it depends on what becomes of the C array and its objects between making, copying and reading", "anchors": ["Source/DKArray.c:DKArrayInitWithCArrayNoCopy", "Source/DKArray.c:DKArrayFinalize", "Source/DKArray.c:DKArrayMutableCopy", "Source/DKCopying.c:DKCopy", "Source/DKGenericArray.c:DKGenericArrayInitWithExternalStorage"]}
{"id": "C183", "title": "Every message reaches the one place it was sent to", "statement": "A printed text, a log message, a warning, an error and a fatal error is given once, in order and whole, to the callback last set for its kind, or to standard output or standard error if there is none, between the prefix and the suffix last set for its kind. A fatal error stops the program, an error does if that was asked for last, and nothing is printed after that.", "quantifier": "all histories of settings and messages, all texts, prefixes, suffixes and callbacks", "why_tests_cant": "it depends on the whole history of settings before the message", "anchors": ["Source/DKPlatform.c:_DKPrintfInternal", "Source/DKPlatform.c:_DKLog", "Source/DKPlatform.c:_DKError", "Source/DKPlatform.c:_DKFatalError", "Source/DKPlatform.c:DKSetLogFormat", "Source/DKPlatform.c:DKSetAbortOnErrors"]}
{"id": "C184", "title": "The description of an encoding identifies it", "statement": "Two encodings have the same description only if they are the same encoding, with the same type, count, rows and columns.", "quantifier": "all pairs of 32 bit words", "why_tests_cant": "there are 2^64 pairs of encodings", "anchors": ["Source/DKEncoding.c:DKEncodingGetDescription", "Source/DKEncoding.c:DKEncodingGetTypeName"]}
{"id": "C185", "title": "Parsing JSON makes the objects of the value and nothing else", "statement": "Parsing a text leaves the objects that were there as they were. If it is accepted, the program has one more reference, to the object for the value: lists hold the objects for their values, in order, and dictionaries one for each key. Of the objects that were made exactly this one and those in it are left. If it is rejected, wherever that is, none of them is left. When the reference is released all of them are freed.", "quantifier": "all histories of calls before, all texts (of which parsing is defined), accepted or not", "why_tests_cant": "a text can be rejected at any place while any number of collections and keys are unfinished, and keys can be repeated", "anchors": ["Source/DKJSON.c:DKJSONParse", "Source/DKJSON.c:ParseObject", "Source/DKHashTable.c:DKHashTableInsertObject"]}
{"id": "C186", "title": "Parsing XML makes the objects of the document and nothing else", "statement": "Parsing an XML text leaves the objects that were there as they were. If it is accepted, the program has one more reference, to the first element: each element has a name, one string for each of its attributes and, in order, the objects for the texts and elements in it. Of the objects that were made exactly this element and those in it are left. If it is rejected, wherever that is, or parsed again with a larger buffer, none of what was made for it is left. When the reference is released all of them are freed.", "quantifier": "all histories of calls before, all texts (of which parsing is defined), accepted or not, and all numbers of attempts", "why_tests_cant": "a text can be rejected at any byte while any number of elements and an attribute are unfinished, attributes can be repeated, and the buffer can be too small at any place", "anchors": ["Source/DKXML.c:INTERNAL_DKXMLParse", "Source/DKXML.c:DKXMLAppendTextContent", "Source/DKXML.c:DKXMLElementFinalize"]}
{"id": "C187", "title": "Splitting text makes the list or the dictionary and nothing else", "statement": "Splitting a string leaves the objects that were there as they were, and gives a list with one string for each piece, in order. Of the objects that were made exactly the list and its strings are left, and when it is released all of them are freed. Splitting query parameters gives a dictionary with an entry for each key, with a string for the last value given to it, or NULL if that had no value. When the autorelease pool is popped, everything that was made on the way is freed, and the dictionary as well unless it was retained; if it was, exactly it, its keys and its values are left.", "quantifier": "all histories of calls before, all texts and separators (of which splitting is defined)", "why_tests_cant": "the number of pieces, lists and strings made on the way depends on the text, keys can be repeated and unescaped to the same key, and all of it is left to the pool", "anchors": ["Source/DKString.c:DKStringSplit", "Source/DKString.c:DKStringSplitQueryParameters", "Source/DKString.c:DKStringByRemovingURLPercentEscapes"]}
{"id": "C188", "title": "Graph calls use no freed vertices, and graphs keep no others", "statement": "Adding and removing the edges of graphs uses no object that was freed, and every count is the number of references there are: the vertices of an edge exist as long as it is in a graph, and a vertex, edge or list that nothing refers to any more is freed. An edge that was added is found until it is removed; one that was removed is not, and neither call changes which other edges are found.", "quantifier": "all histories of making and releasing vertices and graphs, adding edges, removing them and removing all of them, and all ways vertices can be equal", "why_tests_cant": "an edge shares its vertices with any number of others, lists come and go with their first and last edges, and the graph can have the last reference to a vertex that a call names", "anchors": ["Source/DKGraph.c:FindEdge", "Source/DKGraph.c:RemoveEdge", "Source/DKGraph.c:DKGraphAddEdge", "Source/DKGraph.c:DKGraphRemoveEdge", "Source/DKGraph.c:DKGraphRemoveAllEdges"]}
