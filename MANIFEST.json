{
 "claims": [
  {
   "property": "C01",
   "status": "proved",
   "theorems": [
    "C01_dictionary_is_finite_map"
   ],
   "note": "refinement of every history to an association-list map"
  },
  {
   "property": "C02",
   "status": "partial",
   "theorems": [
    "C02_probes_stay_inside_partial",
    "C02_probes_stay_inside_refuted"
   ],
   "note": "The code violates it: the 25-row table size is not prime and with 11 rows in use a probe can run past the end (refuted with a concrete history). Proved: termination of every history, safety of every step outside that state, of all histories with at most ten insertions, and of all tables past 25 rows."
  },
  {
   "property": "C03",
   "status": "proved",
   "theorems": [
    "C03_enumeration_exactly_once"
   ],
   "note": "full and stopping enumerations"
  },
  {
   "property": "C04",
   "status": "proved",
   "theorems": [
    "C04_set_relations"
   ],
   "note": "for calls that return (see C02)"
  },
  {
   "property": "C05",
   "status": "proved",
   "theorems": [
    "C05_union_minus"
   ],
   "note": "for calls that return; receiver and argument are different sets"
  },
  {
   "property": "C06",
   "status": "partial",
   "theorems": [
    "C06_intersection_partial",
    "C06_intersection_refuted"
   ],
   "note": "The code violates it: the intersects test is negated and IntersectSet removes nothing; both actual behaviours are proved for all sets."
  },
  {
   "property": "C07",
   "status": "partial",
   "theorems": [
    "C07_dictionary_equality_partial",
    "C07_dictionary_equality_refuted"
   ],
   "note": "False for dictionaries holding NULL objects; proved for all others."
  },
  {
   "property": "C08",
   "status": "proved",
   "theorems": [
    "C08_tree_is_a_map"
   ],
   "note": ""
  },
  {
   "property": "C09",
   "status": "proved",
   "theorems": [
    "C09_in_order"
   ],
   "note": ""
  },
  {
   "property": "C10",
   "status": "proved",
   "theorems": [
    "C10_balanced",
    "C10_sentinel_kept"
   ],
   "note": "height stated as recursion depth of every call"
  },
  {
   "property": "C100",
   "status": "partial",
   "theorems": [
    "C100_round_trip_partial",
    "C100_annotation_refuted",
    "C100_other_data_refuted",
    "C100_empty_refuted",
    "C100_type_refuted"
   ],
   "note": "False without an annotation (the blank line that ends it is not written), for an object without bytes (read as NULL) and for content types of several lines. Proved for all others, for data of any size."
  },
  {
   "property": "C101",
   "status": "partial",
   "theorems": [
    "C101_sequence_partial"
   ],
   "note": "Under the conditions of C100."
  },
  {
   "property": "C102",
   "status": "partial",
   "theorems": [
    "C102_any_stream_partial",
    "C102_length_refuted",
    "C102_bytes_refuted"
   ],
   "note": "False: Content-Length is not checked, and isspace() is called with negative values. Proved for ASCII headers with plain lengths."
  },
  {
   "property": "C103",
   "status": "partial",
   "theorems": [
    "C103_contents_partial",
    "C103_equivalence_partial",
    "C103_struct_refuted"
   ],
   "note": "False for structures without semantic (never equal, and a crash when compared with one that has a semantic). Proved for strings, data, numbers of one integer type, structures with semantic, and pairs, lists and dictionaries of these, nested to any depth."
  },
  {
   "property": "C104",
   "status": "partial",
   "theorems": [
    "C104_hash_partial",
    "C104_refuted"
   ],
   "note": "False: lists and dictionaries are equal by contents but hashed by address. Proved for all objects without them."
  },
  {
   "property": "C105",
   "status": "partial",
   "theorems": [
    "C105_order_partial",
    "C105_refuted",
    "C105_dictionary_refuted",
    "C105_number_refuted"
   ],
   "note": "False: strings and other objects can come before each other in a circle, equal dictionaries do not compare as equal, and comparing a number with another object reads it as a number. Proved for objects of one kind, with pairs nested to any depth."
  },
  {
   "property": "C106",
   "status": "partial",
   "theorems": [
    "C106_ownership_partial",
    "C106_copied_weak_refuted"
   ],
   "note": "False for properties that are both copied and weak: a strong reference is stored and read as a weak one. Proved for all other properties of objects, structures and integer vectors without accessors of their own."
  },
  {
   "property": "C107",
   "status": "proved",
   "theorems": [
    "C107_strong",
    "C107_weak",
    "C107_copied"
   ],
   "note": "For properties without accessors of their own."
  },
  {
   "property": "C108",
   "status": "proved",
   "theorems": [
    "C108_numbers",
    "C108_integer"
   ],
   "note": "Stored with as many components as the property has."
  },
  {
   "property": "C109",
   "status": "proved",
   "theorems": [
    "C109_structures",
    "C109_semantic"
   ],
   "note": "The text of the warning is not modelled: it prints the property's name, a string object, as a C string."
  },
  {
   "property": "C11",
   "status": "partial",
   "theorems": [
    "C11_first_never_returns_refuted"
   ],
   "note": "False: the loop ends at a NULL left child and the sentinel is its own left child, so the call never returns, for any reachable tree."
  },
  {
   "property": "C110",
   "status": "partial",
   "theorems": [
    "C110_names_partial",
    "C110_unknown_refuted"
   ],
   "note": "False: a string that is not a name is stored as 0 without a warning. Proved for names."
  },
  {
   "property": "C111",
   "status": "proved",
   "theorems": [
    "C111_refused"
   ],
   "note": "For objects without a Property interface of their own, which dictionaries have."
  },
  {
   "property": "C112",
   "status": "proved",
   "theorems": [
    "C112_observers"
   ],
   "note": ""
  },
  {
   "property": "C113",
   "status": "partial",
   "theorems": [
    "C113_requirement_partial",
    "C113_refused",
    "C113_copied_refuted"
   ],
   "note": "False for copied properties: the predicate is evaluated for the object given, but its copy is stored, which may be of another class. Proved for all others, with predicates on the class, and that objects are refused."
  },
  {
   "property": "C114",
   "status": "proved",
   "theorems": [
    "C114_get",
    "C114_set"
   ],
   "note": ""
  },
  {
   "property": "C115",
   "status": "partial",
   "theorems": [
    "C115_inherited_partial",
    "C115_late_refuted"
   ],
   "note": "False for properties installed after the subclass was made: the table is copied once. Proved: a class has what was installed in it, and otherwise what its superclass had when it was made."
  },
  {
   "property": "C116",
   "status": "partial",
   "theorems": [
    "C116_exact_partial",
    "C116_sound_partial",
    "C116_small_partial",
    "C116_space_refuted",
    "C116_unclosed_refuted",
    "C116_twice_refuted"
   ],
   "note": "False as said of XML: the end tag of the outermost element may not have a space before its '>' and may have one in its place, and an attribute may occur twice. Proved: exactness for a declarative grammar with these differences (and those of C120), for every text, if isspace has a result for every char and reports return; soundness for any report; and completeness for any report below 8192 bytes."
  },
  {
   "property": "C117",
   "status": "partial",
   "theorems": [
    "C117_size_partial",
    "C117_message_refuted"
   ],
   "note": "False because the message given when the buffer is too small has an invalid format. Proved otherwise."
  },
  {
   "property": "C118",
   "status": "partial",
   "theorems": [
    "C118_safe_partial",
    "C118_isspace_refuted",
    "C118_message_refuted"
   ],
   "note": "False as written in C: isspace is given negative chars and the messages have formats of other types than their arguments. Proved for every byte sequence if isspace has a result for every char and reports return."
  },
  {
   "property": "C119",
   "status": "partial",
   "theorems": [
    "C119_lines_partial"
   ],
   "note": "Proved if isspace has a result for every char and reports return; see C118."
  },
  {
   "property": "C12",
   "status": "proved",
   "theorems": [
    "C12_array_is_sequence",
    "C12_array_enumeration"
   ],
   "note": "for ranges and lengths that are 64-bit integers"
  },
  {
   "property": "C120",
   "status": "partial",
   "theorems": [
    "C120_value_partial",
    "C120_text_partial",
    "C120_accepted_partial",
    "C120_surrogate_refuted",
    "C120_private_refuted",
    "C120_long_refuted"
   ],
   "note": "False for 0xD800-0xDFFE, which are accepted, 0xDFFF-0xE7FD, which are refused, and references of more than seven characters, which are refused. Proved for all others."
  },
  {
   "property": "C121",
   "status": "proved",
   "theorems": [
    "C121_shape"
   ],
   "note": ""
  },
  {
   "property": "C122",
   "status": "partial",
   "theorems": [
    "C122_collapsed_partial",
    "C122_bracket_refuted"
   ],
   "note": "False in CDATA sections: a blank after a closing bracket is kept as it is. Proved for texts in which no blank follows a closing bracket."
  },
  {
   "property": "C123",
   "status": "partial",
   "theorems": [
    "C123_described_partial",
    "C123_again_partial",
    "C123_text_refuted",
    "C123_escape_refuted"
   ],
   "note": "False: texts gain a space at their end, and markup is not escaped. Proved for elements without characters that need escapes, up to those spaces, and that writing and reading again gives the same tree."
  },
  {
   "property": "C124",
   "status": "proved",
   "theorems": [
    "C124_lifetimes",
    "C124_classes"
   ],
   "note": "Sequential; interfaces, properties and weak references are left out."
  },
  {
   "property": "C125",
   "status": "proved",
   "theorems": [
    "C125_found",
    "C125_unique",
    "C125_refused",
    "C125_search",
    "C125_making"
   ],
   "note": "With the hash function of the library the names of the runtime's own classes lie in the table so that no search leaves it, although it has 25 rows (C02). For any other hash function: C125_search_any_hash and C125_making_any_hash, outside the state of C02. Making a class also stops the program when the table has its maximum size of 1675364863 rows."
  },
  {
   "property": "C126",
   "status": "proved",
   "theorems": [
    "C126_kind",
    "C126_subclass",
    "C126_order",
    "C126_stable",
    "C126_told",
    "C126_name"
   ],
   "note": ""
  },
  {
   "property": "C127",
   "status": "partial",
   "theorems": [
    "C127_retain",
    "C127_alloc",
    "C127_release_partial",
    "C127_nameless_refuted"
   ],
   "note": "False: releasing a class that was made without a name compares its name with others. Proved if all classes have names."
  },
  {
   "property": "C128",
   "status": "partial",
   "theorems": [
    "C128_values",
    "C128_ints",
    "C128_round",
    "C128_safe_partial",
    "C128_refuted"
   ],
   "note": "False for eleven names: the table of names then has 25 rows of which 11 are not empty (C02), and asking for another name may read outside it. Everything else is proved."
  },
  {
   "property": "C129",
   "status": "proved",
   "theorems": [
    "C129_names",
    "C129_read",
    "C129_others",
    "C129_null"
   ],
   "note": ""
  },
  {
   "property": "C13",
   "status": "proved",
   "theorems": [
    "C13_sort"
   ],
   "note": "any consistent comparison, termination and in-bounds access included"
  },
  {
   "property": "C130",
   "status": "proved",
   "theorems": [
    "C130_safe",
    "C130_held",
    "C130_owned",
    "C130_closed",
    "C130_released",
    "C130_apart"
   ],
   "note": "One thread; the streams of the C library are modelled after the C standard, without errors of the medium."
  },
  {
   "property": "C131",
   "status": "partial",
   "theorems": [
    "C131_history_partial",
    "C131_goes_on",
    "C131_length_refuted",
    "C131_turn_refuted"
   ],
   "note": "False: the length told after writing, before a seek, leaves out what is buffered, and reading directly after writing is not defined. Proved for all other histories."
  },
  {
   "property": "C132",
   "status": "partial",
   "theorems": [
    "C132_round_trip_partial",
    "C132_read_partial",
    "C132_round_trip_refuted",
    "C132_quotes_refuted"
   ],
   "note": "False: empty values and keys, the empty dictionary and the characters escaped before the percent sign do not come back; %22 is read as bytes that are not text. Proved for non-empty strings without these characters."
  },
  {
   "property": "C133",
   "status": "partial",
   "theorems": [
    "C133_styles_partial",
    "C133_colon_refuted"
   ],
   "note": "False: a declaration whose value has a colon is dropped. Proved for texts of other declarations."
  },
  {
   "property": "C134",
   "status": "partial",
   "theorems": [
    "C134_exclusion_partial",
    "C134_race_partial",
    "C134_safe_partial",
    "C134_enters_partial",
    "C134_try_partial",
    "C134_readers",
    "C134_try_refuted"
   ],
   "note": "False on Windows: a failed attempt to lock for writing answers true. Proved on POSIX without condition and on Windows for histories where no such attempt fails."
  },
  {
   "property": "C135",
   "status": "partial",
   "theorems": [
    "C135_swap16_partial",
    "C135_swap32_partial",
    "C135_twice_partial",
    "C135_swap64_refuted"
   ],
   "note": "False for 64 bits where the compiler has no swap of its own: the halves are not shifted. Proved for 16 and 32 bits."
  },
  {
   "property": "C136",
   "status": "proved",
   "theorems": [
    "C136_exclusion",
    "C136_enters"
   ],
   "note": "Sequentially consistent interleavings."
  },
  {
   "property": "C137",
   "status": "partial",
   "theorems": [
    "C137_read_partial",
    "C137_missing_refuted"
   ],
   "note": "False when the file is missing or too short, which is not checked. Proved for all texts of identifiers. Only the reading on Android is code of this library."
  },
  {
   "property": "C138",
   "status": "partial",
   "theorems": [
    "C138_deadline_partial",
    "C138_negative_refuted"
   ],
   "note": "False for negative timeouts, which can give negative nanoseconds, and for 2^63 seconds and more. Proved for all others on POSIX, for any rounding that keeps the order and integers."
  },
  {
   "property": "C139",
   "status": "partial",
   "theorems": [
    "C139_objects_partial",
    "C139_data_refuted",
    "C139_tree_refuted",
    "C139_class_refuted",
    "C139_table_refuted"
   ],
   "note": "False for data whose type is not one of numbers (the type is lost), with bytes left over (lost) or of a reserved type (division by zero), for trees with their own comparison (reordered), for classes that the reading program has not used (lost), and for some dictionaries of twelve entries, whose reading leaves the memory of the table. Proved for all other graphs, the order of dictionaries aside, with the limits of C40: references to the root and NULL among several elements."
  },
  {
   "property": "C14",
   "status": "partial",
   "theorems": [
    "C14_shuffle_partial",
    "C14_shuffle_refuted",
    "C14_shuffle_last_fixed"
   ],
   "note": "The code never moves the last element; permutation and reachability of all other positions are proved."
  },
  {
   "property": "C140",
   "status": "proved",
   "theorems": [
    "C140_integer_to_real",
    "C140_order"
   ],
   "note": "Conversion by IEEE 754, rounding to nearest."
  },
  {
   "property": "C141",
   "status": "partial",
   "theorems": [
    "C141_truncate_partial",
    "C141_refuted"
   ],
   "note": "False for values that the integer type cannot hold and for NaN, which are undefined behaviour, and for truth values of numbers between -1 and 1, which are taken as zero. Proved for all others."
  },
  {
   "property": "C142",
   "status": "partial",
   "theorems": [
    "C142_integer_back_partial",
    "C142_float_back_partial",
    "C142_nearest_float_partial",
    "C142_refuted"
   ],
   "note": "False for 64 bit integers with more than 53 significant bits (one that is rounded up to 2^63 cannot be taken back at all). Proved for all other integers, for floats taken as double, and the nearest float for doubles."
  },
  {
   "property": "C143",
   "status": "partial",
   "theorems": [
    "C143_order_partial",
    "C143_refuted"
   ],
   "note": "False for NaN, which equals every number, and for the hash codes of 0 and -0. Proved for the order and equality of all other numbers, vectors and matrices."
  },
  {
   "property": "C144",
   "status": "partial",
   "theorems": [
    "C144_mixed_partial",
    "C144_refuted"
   ],
   "note": "The second number is converted to the type of the first: 1 equals 1.5 but 1.5 does not equal 1, a double out of range is undefined behaviour, and 2^53 and 2^53 + 1 equal the same double. Proved if the type of the first number has every value of the second."
  },
  {
   "property": "C145",
   "status": "partial",
   "theorems": [
    "C145_read_partial",
    "C145_refuted"
   ],
   "note": "False for 0.15, which is read as a neighbour of the nearest double. Proved: a bound for the error, for all numbers with up to 17 digits after the point, without exponent."
  },
  {
   "property": "C146",
   "status": "partial",
   "theorems": [
    "C146_print_partial",
    "C146_near_partial",
    "C146_whole_partial",
    "C146_refuted"
   ],
   "note": "False for numbers with more than six digits after the point (10^-7 is printed as 0.0), from 2^63, whose text is undefined behaviour to read, from about 10^112, whose text does not fit into the buffer, and for NaN and infinity. Proved: the text is the nearest number with six digits, it is read as a double within a bound, and whole numbers below 2^63 come back bit by bit."
  },
  {
   "property": "C147",
   "status": "proved",
   "theorems": [
    "C147_load",
    "C147_nothing"
   ],
   "note": "On the files of C130 and C131 (regular files, no errors of the medium)."
  },
  {
   "property": "C148",
   "status": "partial",
   "theorems": [
    "C148_handle_partial",
    "C148_anywhere_partial",
    "C148_part_read_refuted",
    "C148_length_told_wrong_refuted"
   ],
   "note": "False for an open file that is not at its start: the bytes from the position on are loaded, followed by indeterminate ones; false for files whose length is not what can be read (directories, files of the system). Proved: what is loaded from any position, hence the bytes of the file from its start."
  },
  {
   "property": "C149",
   "status": "proved",
   "theorems": [
    "C149_stream",
    "C149_immutable"
   ],
   "note": "Hash codes after the byte length was set are excluded; for them see C27."
  },
  {
   "property": "C15",
   "status": "proved",
   "theorems": [
    "C15_reverse"
   ],
   "note": ""
  },
  {
   "property": "C150",
   "status": "partial",
   "theorems": [
    "C150_position_partial",
    "C150_removal_refuted",
    "C150_from_end_refuted",
    "C150_size_zero_refuted"
   ],
   "note": "False after bytes were removed, for offsets from the end, which are ignored, and for items of size zero (division by zero). Proved for histories without edits."
  },
  {
   "property": "C151",
   "status": "partial",
   "theorems": [
    "C151_shows_time_partial",
    "C151_in_order_partial",
    "C151_windows_refuted"
   ],
   "note": "False on Windows, where the fraction is taken from all of the time and the clock runs about twice as fast. Proved for the other platforms, with the rounding of double."
  },
  {
   "property": "C152",
   "status": "partial",
   "theorems": [
    "C152_local_partial",
    "C152_refuted"
   ],
   "note": "False for every time zone other than universal time: the minutes west are added instead of subtracted (on both platforms). Proved: what is shown, hence the property for universal time."
  },
  {
   "property": "C153",
   "status": "partial",
   "theorems": [
    "C153_fits_partial",
    "C153_text_partial",
    "C153_no_room_refuted",
    "C153_cut_refuted"
   ],
   "note": "False for a buffer of size 0, which is overrun, and for a text that does not fit, which may be cut within a character. Proved for all texts that fit, and byte by byte for all others."
  },
  {
   "property": "C154",
   "status": "proved",
   "theorems": [
    "C154_lists_made",
    "C154_lists_given"
   ],
   "note": ""
  },
  {
   "property": "C155",
   "status": "partial",
   "theorems": [
    "C155_sets_made_partial",
    "C155_sets_given",
    "C155_null_members_refuted",
    "C155_default_class_refuted"
   ],
   "note": "False for NULL members, which a hash set counts and enumerates but says not to contain, and which a tree drops; false if the default set class is a list class, which makes the initialisers call each other for ever. Proved for everything else."
  },
  {
   "property": "C156",
   "status": "proved",
   "theorems": [
    "C156_dictionaries_made"
   ],
   "note": "Trees: keys other than NULL, which their compare functions need."
  },
  {
   "property": "C157",
   "status": "proved",
   "theorems": [
    "C157_keys_and_objects"
   ],
   "note": ""
  },
  {
   "property": "C158",
   "status": "partial",
   "theorems": [
    "C158_self_partial",
    "C158_array_refuted",
    "C158_tree_refuted"
   ],
   "note": "False for arrays used as sets (1, 2, 3 less itself leaves 2) and for trees (the links of a removed node are followed). Proved for hash sets. For linked lists used as sets see C179."
  },
  {
   "property": "C159",
   "status": "partial",
   "theorems": [
    "C154_lists_made",
    "C159_copies_keep_priorities_refuted"
   ],
   "note": "False: the copy has the same objects in the same order, but every priority is 0."
  },
  {
   "property": "C16",
   "status": "proved",
   "theorems": [
    "C16_linked_list_is_sequence",
    "C16_linked_list_enumeration"
   ],
   "note": "pointer-level model with cursor, node pool and all edits; sorting moves objects but leaves priorities in place, which the specification records"
  },
  {
   "property": "C160",
   "status": "proved",
   "theorems": [
    "C160_own_dictionary"
   ],
   "note": "For threads that keep to the rules of Context_Spec.vstep (a context before any call, pools popped after they were pushed)."
  },
  {
   "property": "C161",
   "status": "partial",
   "theorems": [
    "C161_nothing_lost_partial",
    "C161_exit_refuted",
    "C161_finalizer_refuted",
    "C161_unpooled_refuted"
   ],
   "note": "False: DKThreadExit ends the process in a thread of the library; finalizers that autorelease run without a context when a thread returns; objects autoreleased without a pool are lost. Proved for all other histories."
  },
  {
   "property": "C162",
   "status": "proved",
   "theorems": [
    "C162_current_thread"
   ],
   "note": "Same rules as C160. Addresses of thread objects that were freed may come back in C; in the model numbers do not."
  },
  {
   "property": "C163",
   "status": "partial",
   "theorems": [
    "C161_nothing_lost_partial",
    "C163_freed_twice_refuted"
   ],
   "note": "False if the context is freed while it is set, which is what DKThread.h asks for. Proved if it is unset first or left to the end of the thread."
  },
  {
   "property": "C164",
   "status": "partial",
   "theorems": [
    "C164_ends_partial",
    "C164_itself_refuted"
   ],
   "note": "False: the description of a list that contains itself never ends. Proved: it ends exactly if following the references ends."
  },
  {
   "property": "C165",
   "status": "partial",
   "theorems": [
    "C165_says_partial",
    "C165_undefined_refuted",
    "C165_count_refuted"
   ],
   "note": "False: the count is passed as a DKIndex and printed with %d, which the C standard leaves undefined and which truncates. Proved for fewer than 2^31 members where the lower half is read. XML elements are left out; floating point numbers are printed as in C146."
  },
  {
   "property": "C166",
   "status": "partial",
   "theorems": [
    "C166_tells_apart_partial",
    "C166_quotes_refuted",
    "C166_star_refuted"
   ],
   "note": "False for strings, whose quotes are not escaped, and for predicates. Proved for all other graphs."
  },
  {
   "property": "C167",
   "status": "partial",
   "theorems": [
    "C167_safe_partial",
    "C167_value_refuted",
    "C167_itself_refuted",
    "C167_exchange_refuted",
    "C167_flatten_refuted"
   ],
   "note": "False when something is replaced by an object that only the replaced one keeps alive: a value of a hash table by one of its own elements (the old value is released before the new one is retained), an element of a linked list by itself, two elements of an array by each other, a list in a list by its own elements. Proved for all histories in which the program has a reference of its own to what it puts in the place of something else; inserting, replacing one element of an array and putting into a tree need no such reference."
  },
  {
   "property": "C168",
   "status": "proved",
   "theorems": [
    "C168_freed",
    "C168_count"
   ],
   "note": "For all histories in which only existing objects are passed, up to the first use of a freed object (C167)."
  },
  {
   "property": "C169",
   "status": "partial",
   "theorems": [
    "C169_all_freed_partial",
    "C169_alive_partial",
    "C169_circle_refuted"
   ],
   "note": "False for collections that hold themselves. Proved: everything else is freed, and what stays alive is exactly what can be reached from the program's references or from a circle."
  },
  {
   "property": "C17",
   "status": "proved",
   "theorems": [
    "C17_priority_insertion"
   ],
   "note": "for priorities that are not NaN"
  },
  {
   "property": "C170",
   "status": "partial",
   "theorems": [
    "C170_int64_partial",
    "C170_any_partial",
    "C170_int32_partial",
    "C170_printed_partial",
    "C170_int32_refuted"
   ],
   "note": "False for 32 bits: the number is read with strtol and its upper half is dropped, so 2147483648 is read as a negative number. Proved: 64 bits in full, 32 bits where the number fits."
  },
  {
   "property": "C171",
   "status": "partial",
   "theorems": [
    "C171_boolean_partial",
    "C171_number_partial",
    "C171_negative_refuted"
   ],
   "note": "False of every negative number: only the first character is looked at, and it is the sign. Proved for booleans and for all numbers that are not negative."
  },
  {
   "property": "C172",
   "status": "partial",
   "theorems": [
    "C172_text_partial",
    "C172_any_partial",
    "C172_only_partial",
    "C172_big_refuted",
    "C172_order_refuted"
   ],
   "note": "False of integers that do not fit into 32 bits: their upper half is dropped, even in a vector of floats, if a number with a fraction comes after and not before them. Proved for all texts and all other elements."
  },
  {
   "property": "C173",
   "status": "proved",
   "theorems": [
    "C173_shown_and_untouched"
   ],
   "note": "For every history in which the caller does not use memory or objects that are gone. That only immutable objects are made without copying is checked by an assertion in debug builds, and taken for granted."
  },
  {
   "property": "C174",
   "status": "proved",
   "theorems": [
    "C174_given_back"
   ],
   "note": "That no block is freed twice is part of C173: it would be undefined."
  },
  {
   "property": "C175",
   "status": "partial",
   "theorems": [
    "C175_answers_partial",
    "C175_pointer_refuted",
    "C175_shown_refuted"
   ],
   "note": "False of strings whose bytes are written to directly after the hash code was computed: it is kept. Proved for all histories without that."
  },
  {
   "property": "C176",
   "status": "proved",
   "theorems": [
    "C176_has",
    "C176_get"
   ],
   "note": "For all paths and extensions that are UTF-8."
  },
  {
   "property": "C177",
   "status": "partial",
   "theorems": [
    "C177_component_partial",
    "C177_separator_refuted"
   ],
   "note": "False of paths that end with a separator: the last component of b.c/ is b.c, but the path has no extension. Proved for all others."
  },
  {
   "property": "C178",
   "status": "partial",
   "theorems": [
    "C178_safe_partial",
    "C178_removed_partial",
    "C178_only_holder_refuted"
   ],
   "note": "False of an object that only the list holds if elements follow it: the list releases it and then compares it with them. Proved when the program or another collection it has keeps the object, or when at most the last element is equal to it."
  },
  {
   "property": "C179",
   "status": "partial",
   "theorems": [
    "C179_others_partial",
    "C179_itself_partial",
    "C179_itself_refuted",
    "C179_array_refuted"
   ],
   "note": "False of a linked list less itself that alone holds its members (used after they are freed) and of an array less itself (every second stays). Proved for two collections the program has, whoever holds the members, for the union of a list with itself, and for a linked list less itself whose members the program has."
  },
  {
   "property": "C18",
   "status": "proved",
   "theorems": [
    "C18_array_search_and_remove",
    "C18_linked_list_search_and_remove",
    "C18_array_ends_and_member",
    "C18_linked_list_ends_and_member"
   ],
   "note": "arrays and linked lists with any history"
  },
  {
   "property": "C180",
   "status": "partial",
   "theorems": [
    "C180_objects_partial",
    "C180_numbers_partial",
    "C180_enumeration_refuted"
   ],
   "note": "False of a property with an enumeration: it is read as the name of the value, which is true only if it starts with a digit other than 0, t or y. Proved for properties that hold objects (strong, weak or copied) and integers of any type. Not covered: floating point numbers, vectors, accessors of their own."
  },
  {
   "property": "C181",
   "status": "proved",
   "theorems": [
    "C181_number_then_name",
    "C181_number_then_number",
    "C181_name_then_number"
   ],
   "note": "Properties that hold integers without accessors of their own; values that fit int and the type of the property."
  },
  {
   "property": "C182",
   "status": "partial",
   "theorems": [
    "C182_shows_partial",
    "C182_safe_partial",
    "C182_release_partial",
    "C182_copy_partial",
    "C182_same_refuted"
   ],
   "note": "False of DKCopy: the copy of an immutable array is the array itself, so that it changes with the C array and its objects can be freed. Proved for what the array shows, for references, and for mutable copies."
  },
  {
   "property": "C183",
   "status": "partial",
   "theorems": [
    "C183_messages_partial",
    "C183_zero_refuted"
   ],
   "note": "False of a text with a zero in it (as DKLog of %c with 0 makes): it is cut off there, as are prefixes and suffixes. Proved for all histories of texts without one; the formatting of the text, Windows and assertions are not in it, and a callback is taken to print what it is given."
  },
  {
   "property": "C184",
   "status": "partial",
   "theorems": [
    "C184_tells_apart_partial",
    "C184_unknown_refuted"
   ],
   "note": "False of types that are reserved, invalid or out of range: the names void and invalid stand for several. Proved for all words with types a program can name."
  },
  {
   "property": "C185",
   "status": "proved",
   "theorems": [
    "C185_made",
    "C185_stands",
    "C185_released"
   ],
   "note": "For all histories of calls on collections before and all texts of which parsing is defined (C39). The default classes of lists and dictionaries; strings and numbers are objects without members, what is in them is C37; the two booleans are not counted by the code."
  },
  {
   "property": "C186",
   "status": "proved",
   "theorems": [
    "C186_made",
    "C186_elements",
    "C186_released"
   ],
   "note": "For all histories of calls on collections before and all texts of which parsing is defined (C118). The default classes of lists and dictionaries; strings are objects without members, what is in them is C116."
  },
  {
   "property": "C187",
   "status": "proved",
   "theorems": [
    "C187_split",
    "C187_list_released",
    "C187_query",
    "C187_popped",
    "C187_kept"
   ],
   "note": "For all histories of calls on collections before and all texts of which splitting is defined. The pool is a list of references that are released in their order (C45); the default classes of lists and dictionaries; strings are objects without members, what is in them is as in String_Model and Query_Model."
  },
  {
   "property": "C188",
   "status": "partial",
   "theorems": [
    "C188_safe_partial",
    "C188_held",
    "C188_added",
    "C188_kept",
    "C188_removed",
    "C188_others",
    "C188_none_made",
    "C188_none_left",
    "C188_cleared",
    "C188_both",
    "C188_neither",
    "C188_refuted"
   ],
   "note": "The full statement is false (C188_refuted): DKGraphRemoveEdge in both directions on the only edge of vertices that only the graph holds frees them and then looks the second one up. Proved for all histories where a program that removes an edge in both directions has a reference to the second vertex. The graph and its dictionary are one object; edges have no user info; that an edge is found after it was added is for vertices that equal themselves, that it is not after it was removed and all others are for an equality that is an equivalence; that the others stay then is for graphs the program has."
  },
  {
   "property": "C19",
   "status": "partial",
   "theorems": [
    "C19_array_equality_partial",
    "C19_linked_list_equality_partial",
    "C19_mixed_equality",
    "C19_list_compare_refuted"
   ],
   "note": "DKListCompare reads both counts from the first list; equality and same-length comparison are proved."
  },
  {
   "property": "C20",
   "status": "proved",
   "theorems": [
    "C20_byte_array_is_sequence"
   ],
   "note": "arrays owning their storage; growth by set-length leaves the new bytes unspecified"
  },
  {
   "property": "C21",
   "status": "partial",
   "theorems": [
    "C21_self_append_partial",
    "C21_self_append_refuted"
   ],
   "note": "False: the source is freed when the array is reallocated before the copy. Proved when more than twice the length is reserved."
  },
  {
   "property": "C22",
   "status": "proved",
   "theorems": [
    "C22_data_is_file",
    "C22_write_read_back",
    "C22_tell_in_range",
    "C22_read_in_range"
   ],
   "note": "element size positive and transfers below 2^63 bytes; element size 0 divides by zero"
  },
  {
   "property": "C23",
   "status": "proved",
   "theorems": [
    "C23_write_then_scan",
    "C23_encodings_distinct",
    "C23_writer_rejects",
    "C23_writer_in_bounds"
   ],
   "note": "NUL is written but never scanned, as it ends the string"
  },
  {
   "property": "C24",
   "status": "proved",
   "theorems": [
    "C24_scan_step",
    "C24_traversals"
   ],
   "note": "all byte strings with a terminator, whatever follows it; strings shorter than 2^31 bytes"
  },
  {
   "property": "C25",
   "status": "proved",
   "theorems": [
    "C25_length_and_index",
    "C25_last_character",
    "C25_string_length",
    "C25_string_character",
    "C25_string_substring",
    "C25_string_substring_from",
    "C25_string_substring_to"
   ],
   "note": "C-string functions and string objects. Strings no longer than INT64_MAX bytes; the substring functions return NULL for an empty string."
  },
  {
   "property": "C26",
   "status": "partial",
   "theorems": [
    "C26_compare_partial",
    "C26_compare_laws",
    "C26_compare_illformed_refuted"
   ],
   "note": "Proved for well-formed strings; the order laws hold for all strings. False for ill-formed strings: all invalid sequences compare equal."
  },
  {
   "property": "C27",
   "status": "partial",
   "theorems": [
    "C27_hash_and_equality_partial",
    "C27_history_partial",
    "C27_set_length_refuted",
    "C27_shared_empty_refuted"
   ],
   "note": "Proved for all histories of creating, copying, editing, hashing and comparing strings. False once DKStringSetByteLength is used: it does not reset the cached hash, and copying such a string can put a wrong hash on the shared empty string."
  },
  {
   "property": "C28",
   "status": "partial",
   "theorems": [
    "C28_search_leftmost",
    "C28_string_range",
    "C28_string_prefix",
    "C28_string_substring",
    "C28_string_suffix",
    "C28_start_beyond_end_refuted",
    "C28_empty_prefix_refuted"
   ],
   "note": "Proved for well-formed text, non-empty pattern and a start position within the text. A start position beyond the end reads through a NULL pointer; the empty string counts as neither prefix nor suffix."
  },
  {
   "property": "C29",
   "status": "partial",
   "theorems": [
    "C29_replace_partial",
    "C29_replaced_unique",
    "C29_misses_refuted",
    "C29_damages_refuted",
    "C29_nonterminating_refuted"
   ],
   "note": "Proved for ASCII. False for other text: character positions are used as byte positions, so occurrences are missed, characters are cut, or the loop goes on until memory is exhausted."
  },
  {
   "property": "C30",
   "status": "partial",
   "theorems": [
    "C30_split_of_join",
    "C30_separable",
    "C30_join_of_split_partial",
    "C30_last_separator_refuted",
    "C30_adjacent_separators_refuted"
   ],
   "note": "Split of join proved. Join of split proved up to one lost separator at the end, and is false in general for that reason; adjacent separators leave a separator in a component."
  },
  {
   "property": "C31",
   "status": "proved",
   "theorems": [
    "C31_standardize",
    "C31_reading",
    "C31_idempotent",
    "C31_same_path"
   ],
   "note": "all NUL-free byte strings"
  },
  {
   "property": "C32",
   "status": "partial",
   "theorems": [
    "C32_trim_partial",
    "C32_latin",
    "C32_trim_undefined_refuted"
   ],
   "note": "Proved for texts on which isspace is defined. Characters above 255 are passed to isspace, which is undefined behaviour."
  },
  {
   "property": "C33",
   "status": "partial",
   "theorems": [
    "C33_percent_partial",
    "C33_percent_refuted"
   ],
   "note": "Proved for ASCII text without sixteen characters that the hash table places before '%'. False for those: they are escaped twice but unescaped once."
  },
  {
   "property": "C34",
   "status": "proved",
   "theorems": [
    "C34_vector",
    "C34_matrix",
    "C34_integers"
   ],
   "note": ""
  },
  {
   "property": "C35",
   "status": "partial",
   "theorems": [
    "C35_numbers",
    "C35_same_type_partial",
    "C35_scalars_partial",
    "C35_vectors_partial",
    "C35_compare_refuted",
    "C35_hash_refuted",
    "C35_bytes_refuted"
   ],
   "note": "False across types: values are converted to the type of the first number before they are compared, hashes depend on the type, and numbers of different counts with equal bytes are equal. Proved within one type, and for values that both types hold. Floating point types are not modelled."
  },
  {
   "property": "C36",
   "status": "proved",
   "theorems": [
    "C36_decimal",
    "C36_printed",
    "C36_integer"
   ],
   "note": "For all 64 bit integers but the most negative one, which the statement leaves out (see C86)."
  },
  {
   "property": "C37",
   "status": "proved",
   "theorems": [
    "C37_round_trip",
    "C37_text"
   ],
   "note": "Without floating point numbers, which the writer prints with printf."
  },
  {
   "property": "C38",
   "status": "partial",
   "theorems": [
    "C38_values_partial",
    "C38_keys_refuted"
   ],
   "note": "False for keys, which are written without escapes. Proved for values."
  },
  {
   "property": "C39",
   "status": "partial",
   "theorems": [
    "C39_tame_partial",
    "C39_text_partial",
    "C39_refuted"
   ],
   "note": "False: reads past the terminator, an uninitialised buffer, overflow and isspace of wide characters. Proved for texts of values and for all ASCII texts, valid or not, with complete escapes and without 18 digits in a row."
  },
  {
   "property": "C40",
   "status": "partial",
   "theorems": [
    "C40_round_trip_partial",
    "C40_rootless_partial",
    "C40_refuted"
   ],
   "note": "False: NULL in a collection moves the elements after it, and the root's class as an attribute is lost. Proved for graphs of any size and shape without these, without references to the root, with keys whose hashes differ, for archives with and without a root, less than 4 GB."
  },
  {
   "property": "C41",
   "status": "partial",
   "theorems": [
    "C41_sharing_partial",
    "C41_root_refuted"
   ],
   "note": "False for references back to the root, which are read as NULL. Proved for all other sharing and cycles."
  },
  {
   "property": "C42",
   "status": "partial",
   "theorems": [
    "C42_distinct_partial",
    "C40_rootless_partial",
    "C42_refuted"
   ],
   "note": "False: keys are compared by their 32-bit hashes only. Proved for keys whose hashes differ."
  },
  {
   "property": "C43",
   "status": "proved",
   "theorems": [
    "C43_counting",
    "C43_counting_with_weak",
    "C43_calls_can_return"
   ],
   "note": "Sequentially consistent interleavings of any number of threads, fewer than 2^28 references."
  },
  {
   "property": "C44",
   "status": "partial",
   "theorems": [
    "C44_weak_partial",
    "C44_weak_refuted",
    "C44_finalized_twice_refuted",
    "C44_freed_refuted"
   ],
   "note": "False in general: a release that has read the count without the metadata bit does not clear the weak target if the first weak reference is made before its decrement. Proved for all runs without that race."
  },
  {
   "property": "C45",
   "status": "proved",
   "theorems": [
    "C45_pools",
    "C45_pools_return",
    "C45_once"
   ],
   "note": ""
  },
  {
   "property": "C46",
   "status": "partial",
   "theorems": [
    "C46_push_drain_partial",
    "C46_push_drain_refuted"
   ],
   "note": "False at the eighth push, where drain is a fatal error. Proved below that depth."
  },
  {
   "property": "C47",
   "status": "proved",
   "theorems": [
    "C47_init",
    "C47_finalize",
    "C47_line"
   ],
   "note": "Initialisers follow the library's convention of calling the initialiser of the superclass first."
  },
  {
   "property": "C48",
   "status": "proved",
   "theorems": [
    "C48_lookup"
   ],
   "note": "Sequential; see C80 for overlapping installations."
  },
  {
   "property": "C49",
   "status": "proved",
   "theorems": [
    "C49_tasks",
    "C49_no_task_lost",
    "C49_parallel"
   ],
   "note": "Default scheduling. Runs in which all tasks are removed only while no task is being executed (see C53)."
  },
  {
   "property": "C50",
   "status": "proved",
   "theorems": [
    "C50_completions"
   ],
   "note": "Default scheduling, same runs as C49."
  },
  {
   "property": "C51",
   "status": "proved",
   "theorems": [
    "C51_wait",
    "C51_wait_ends"
   ],
   "note": "All tasks are done when the wait returns; completions have been started. That waits end is proved for runs without removal of all tasks."
  },
  {
   "property": "C52",
   "status": "partial",
   "theorems": [
    "C52_idle_partial",
    "C52_idle_refuted"
   ],
   "note": "False: the pool reports to be idle between the queueing of a task and the wake-up of a worker. Proved: nothing is being executed."
  },
  {
   "property": "C53",
   "status": "partial",
   "theorems": [
    "C53_remove_partial",
    "C53_remove_refuted"
   ],
   "note": "False while a task is being executed: its worker dereferences the NULL queue afterwards. Proved for removals at other times."
  },
  {
   "property": "C54",
   "status": "partial",
   "theorems": [
    "C54_cancel_partial",
    "C54_cancel_refuted"
   ],
   "note": "False for a thread that was started but has not begun to run. Proved for one that runs."
  },
  {
   "property": "C55",
   "status": "proved",
   "theorems": [
    "C55_semaphore",
    "C55_large_refuted"
   ],
   "note": "For amounts that do not add up to 2^31; beyond that the 32-bit counter wraps, which C55_large_refuted shows."
  },
  {
   "property": "C56",
   "status": "proved",
   "theorems": [
    "C56_traverse"
   ],
   "note": "For a callback that may stop the traversal at any vertex and a graph that the callback does not change."
  },
  {
   "property": "C57",
   "status": "partial",
   "theorems": [
    "C57_once_partial",
    "C57_once_refuted"
   ],
   "note": "False: vertices are marked when they leave the queue, so a vertex queued twice is visited twice. Proved where the reachable part is a tree."
  },
  {
   "property": "C58",
   "status": "partial",
   "theorems": [
    "C58_evaluate_partial",
    "C58_logic",
    "C58_keys_refuted",
    "C58_contains_refuted",
    "C58_itself_refuted"
   ],
   "note": "False: the second operand is read with the first key; CONTAINS takes a collection for a string when it is asked for a string; a predicate with an open operand does not return when evaluated for itself. Proved for every other predicate over objects with an antisymmetric order."
  },
  {
   "property": "C59",
   "status": "partial",
   "theorems": [
    "C59_bits",
    "C59_search_partial",
    "C59_count_partial",
    "C59_count_refuted",
    "C59_count_clear_refuted",
    "C59_first_refuted",
    "C59_merge_refuted"
   ],
   "note": "Setting, clearing, flipping, testing and merging (of lists of equal length) are proved. Counts and failing searches are false in general, because 32 times too many words are allocated and looked at; proved where the padding does not interfere."
  },
  {
   "property": "C60",
   "status": "proved",
   "theorems": [
    "C60_nodes",
    "C60_finalize"
   ],
   "note": "For nodes of at least the size of a pointer."
  },
  {
   "property": "C61",
   "status": "proved",
   "theorems": [
    "C61_constant_strings"
   ],
   "note": "any number of threads, any interleaving of the locked sections; runs in which the hash table itself is memory safe (C02)"
  },
  {
   "property": "C62",
   "status": "proved",
   "theorems": [
    "C62_once",
    "C62_returns",
    "C62_progress"
   ],
   "note": "Sequentially consistent interleavings; the create function returns an object and does not call its own accessor."
  },
  {
   "property": "C63",
   "status": "partial",
   "theorems": [
    "C63_data_order_partial",
    "C63_struct_order_partial",
    "C63_convention_refuted"
   ],
   "note": "Order laws proved; the sign is opposite to that of strings and numbers."
  },
  {
   "property": "C64",
   "status": "partial",
   "theorems": [
    "C64_self_insertion_partial",
    "C64_self_insertion_refuted",
    "C64_linked_list_self_insertion_partial"
   ],
   "note": "False for every non-empty array; a linked list inserted into itself anywhere but at its start never ends. The actual behaviour is proved for all arrays and linked lists."
  },
  {
   "property": "C65",
   "status": "partial",
   "theorems": [
    "C65_linked_list_shuffle_refuted"
   ],
   "note": "The code dereferences NULL for every list of two or more objects (Reserve where SetLength is needed), proved for all such lists."
  },
  {
   "property": "C66",
   "status": "partial",
   "theorems": [
    "C66_tell_partial",
    "C66_tell_after_truncation_refuted"
   ],
   "note": "Tell returns the stale position after shortening; after any seek, read or write the position reported is in range, whatever happened before and as long as only stream operations follow."
  },
  {
   "property": "C67",
   "status": "partial",
   "theorems": [
    "C67_seek_end_partial",
    "C67_seek_end_offset_refuted"
   ],
   "note": "Seeking to the end with offset zero is proved after every history. The offset is ignored for SEEK_END; C22_data_is_file proves the actual behaviour for all offsets."
  },
  {
   "property": "C68",
   "status": "partial",
   "theorems": [
    "C68_first_character_partial",
    "C68_first_character_refuted"
   ],
   "note": "False: the result points after the character. Proved: which character is found and what is returned."
  },
  {
   "property": "C69",
   "status": "proved",
   "theorems": [
    "C69_filter"
   ],
   "note": ""
  },
  {
   "property": "C70",
   "status": "partial",
   "theorems": [
    "C70_append_component",
    "C70_last_component",
    "C70_delete_last_component",
    "C70_delete_root",
    "C70_extension",
    "C70_root_component_refuted"
   ],
   "note": "Proved for all paths with at least one component, and for deleting and appending at the root. False for the last component of a root written with several separators."
  },
  {
   "property": "C71",
   "status": "partial",
   "theorems": [
    "C71_wrap_partial",
    "C71_return_refuted",
    "C71_multibyte_refuted"
   ],
   "note": "Proved for ASCII without carriage returns. False otherwise: a carriage return joins words, and lengths in characters are used as lengths in bytes."
  },
  {
   "property": "C72",
   "status": "partial",
   "theorems": [
    "C72_pool_in_finalizer_refuted",
    "C72_drain_in_finalizer_refuted"
   ],
   "note": "False: the drain re-reads its pointer only if the length changed, so storage that grew during a balanced push and pop is used after being freed; a drain from a finalizer releases the current object again."
  },
  {
   "property": "C73",
   "status": "partial",
   "theorems": [
    "C73_realtime_partial",
    "C73_realtime_refuted"
   ],
   "note": "Order and uniqueness hold, and some worker can always take a task. False: a free worker may sleep while a task is queued, until the worker that is executing a task returns."
  },
  {
   "property": "C74",
   "status": "partial",
   "theorems": [
    "C74_stop_partial",
    "C74_stop_refuted"
   ],
   "note": "False: cancelling and broadcasting happen without the mutex, so a worker between its test and its wait misses the wake-up. Proved for stops when no worker is in that window."
  },
  {
   "property": "C75",
   "status": "partial",
   "theorems": [
    "C75_restart_refuted"
   ],
   "note": "False: a standby worker that stops leaves its standby mark behind, so after a restart every worker waits for ever."
  },
  {
   "property": "C76",
   "status": "partial",
   "theorems": [
    "C76_join_refuted"
   ],
   "note": "False: threads are created detached, so joining one is undefined."
  },
  {
   "property": "C77",
   "status": "partial",
   "theorems": [
    "C77_install_partial",
    "C77_root_refuted"
   ],
   "note": "False for classes without superclass: DKInstallInterface dereferences the NULL superclass. Proved for all other classes."
  },
  {
   "property": "C78",
   "status": "partial",
   "theorems": [
    "C78_fast_partial",
    "C78_fast_refuted"
   ],
   "note": "False: interfaces of root classes bypass the cache, so the fast lookup returns NULL for them. Proved: what it finds is right."
  },
  {
   "property": "C79",
   "status": "proved",
   "theorems": [
    "C79_exclusion",
    "C79_progress",
    "C79_no_way_back"
   ],
   "note": "Sequentially consistent interleavings; the object is alive."
  },
  {
   "property": "C80",
   "status": "partial",
   "theorems": [
    "C80_separate_partial",
    "C80_race_refuted"
   ],
   "note": "False: a lookup that overlaps with an installation can write the old interface back to the cache, where it stays although it is freed. Proved if no lookup overlaps with an installation."
  },
  {
   "property": "C81",
   "status": "proved",
   "theorems": [
    "C81_edges"
   ],
   "note": "Vertices are objects equal only to themselves."
  },
  {
   "property": "C82",
   "status": "partial",
   "theorems": [
    "C82_path_refuted"
   ],
   "note": "False for every graph: the search asks the binary tree for its first object, which never returns (C11)."
  },
  {
   "property": "C83",
   "status": "partial",
   "theorems": [
    "C83_vector_partial",
    "C83_matrix_partial",
    "C83_width_refuted"
   ],
   "note": "False for matrices of different sizes and element widths: the rows of the destination are located with the width of the source. Proved for all others."
  },
  {
   "property": "C84",
   "status": "partial",
   "theorems": [
    "C84_values",
    "C84_matrix_partial",
    "C84_matrix_refuted"
   ],
   "note": "False for matrices that are not square: the index is row * rows + column. Proved for vectors, square matrices and single rows."
  },
  {
   "property": "C85",
   "status": "partial",
   "theorems": [
    "C85_integer",
    "C85_truth_partial",
    "C85_truth_refuted"
   ],
   "note": "The truth value is read from the low 32 bits, so 2^32 is false. The rest is proved."
  },
  {
   "property": "C86",
   "status": "partial",
   "theorems": [
    "C86_fraction_partial",
    "C86_exponent_partial",
    "C86_sign_refuted",
    "C86_long_refuted",
    "C86_range_refuted"
   ],
   "note": "False: the sign of an exponent ends the number, 18 digits after the point and integers that do not fit overflow. Proved for fractions of less than 18 digits and exponents without sign."
  },
  {
   "property": "C87",
   "status": "partial",
   "theorems": [
    "C87_text_partial",
    "C87_refuted"
   ],
   "note": "False for signed exponents, surrogate pairs and numbers that do not fit. Proved for all others."
  },
  {
   "property": "C88",
   "status": "partial",
   "theorems": [
    "C88_lax_partial",
    "C88_rejected_partial",
    "C88_refuted"
   ],
   "note": "For ASCII texts what is accepted is exactly bounded by a lenient grammar, and lists that are not closed or stray brackets are rejected. The full property is false: trailing commas, strings that do not end, and words that only begin like a value are accepted."
  },
  {
   "property": "C89",
   "status": "proved",
   "theorems": [
    "C89_byte_order"
   ],
   "note": "For the graphs that an archive can hold (see C40). Byte swapping of integers in the tables and of numbers in the data is modelled."
  },
  {
   "property": "C90",
   "status": "proved",
   "theorems": [
    "C90_streams"
   ],
   "note": "For the graphs that an archive can hold (see C40)."
  },
  {
   "property": "C91",
   "status": "proved",
   "theorems": [
    "C91_truncated",
    "C91_truncated_rootless"
   ],
   "note": "For every archive of less than 4 GB."
  },
  {
   "property": "C92",
   "status": "partial",
   "theorems": [
    "C92_open_partial",
    "C92_refuted"
   ],
   "note": "False: indices and lengths in the archive are not checked when it is read, nor a length below the header's in a stream. Proved: opening any data is safe."
  },
  {
   "property": "C93",
   "status": "partial",
   "theorems": [
    "C93_copied_partial",
    "C93_refuted"
   ],
   "note": "Every nonempty text of a saved archive is copied exactly and the result is its length minus one. The property itself is false: the result is one too small, and 2^64 - 1 for the empty text."
  },
  {
   "property": "C94",
   "status": "proved",
   "theorems": [
    "C94_formatted_text"
   ],
   "note": "For every format made of complete conversions that fit the function's buffers (others: C96). The C library's printing of one conversion is a parameter."
  },
  {
   "property": "C95",
   "status": "partial",
   "theorems": [
    "C95_count_partial",
    "C95_char_refuted"
   ],
   "note": "False: a written %c is not counted, because DKPutc's result is compared with the wrong value. Proved for all formats without %c."
  },
  {
   "property": "C96",
   "status": "partial",
   "theorems": [
    "C94_formatted_text",
    "C96_unfinished_refuted",
    "C96_overflow_refuted",
    "C96_width_refuted",
    "C96_pointer_refuted"
   ],
   "note": "False: a format that ends inside a conversion is read past its end, conversions of 8 or more characters and wide fields overflow buffers on the stack, and %p takes an int. C94_formatted_text shows that all others are printed without undefined behaviour."
  },
  {
   "property": "C97",
   "status": "proved",
   "theorems": [
    "C97_trimmed_value",
    "C97_no_point"
   ],
   "note": ""
  },
  {
   "property": "C98",
   "status": "partial",
   "theorems": [
    "C98_lines",
    "C98_last_line",
    "C98_consumes_line_partial",
    "C98_nul_refuted"
   ],
   "note": "False for texts that contain a NUL. Proved for all others, and that a call consumes no more than a line in any case."
  },
  {
   "property": "C99",
   "status": "partial",
   "theorems": [
    "C99_char_partial",
    "C99_char_refuted"
   ],
   "note": "False where char is signed: 255 reads as the end of the stream and other characters above 127 as negative values. Proved for characters up to 127."
  }
 ]
}