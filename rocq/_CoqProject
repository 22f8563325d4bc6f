-Q theories Verif
theories/Base.v
theories/HashTable_Model.v
theories/HashTable_Spec.v
theories/HashTable_Proofs.v
theories/HashTable_Probe.v
theories/SetDict_Model.v
theories/SetDict_Spec.v
theories/SetDict_Proofs.v
theories/HashTable_Props.v
theories/SetDict_Props.v
theories/Array_Model.v
theories/Sort_Model.v
theories/Array_Spec.v
theories/Array_Proofs.v
theories/Sort_Spec.v
theories/Sort_Proofs.v
theories/Sort_Props.v
theories/List_Model.v
theories/List_Spec.v
theories/List_Proofs.v
theories/Array_Props.v
theories/LinkedList_Model.v
theories/LinkedList_Spec.v
theories/LinkedList_Proofs.v
theories/LinkedList_Lists.v
theories/LinkedList_Props.v
theories/Bytes_Model.v
theories/Bytes_Spec.v
theories/Bytes_Proofs.v
theories/Bytes_Props.v
theories/Utf8_Model.v
theories/Utf8_Spec.v
theories/Utf8_Proofs.v
theories/Utf8_Strings.v
theories/Utf8_Props.v
theories/String_Model.v
theories/String_Spec.v
theories/String_Proofs.v
theories/String_Lists.v
theories/String_Wrap.v
theories/String_Path.v
theories/String_Escape.v
theories/StrObj_Model.v
theories/StrObj_Spec.v
theories/StrObj_Proofs.v
theories/String_Cases.v
theories/String_Props.v
theories/Tree_Model.v
theories/Tree_Spec.v
theories/Tree_Fun.v
theories/Tree_Heap.v
theories/Tree_Proofs.v
theories/Tree_Runs.v
theories/Tree_Props.v
theories/RefCount_Model.v
theories/RefCount_Spec.v
theories/RefCount_Proofs.v
theories/RefCount_Steps.v
theories/RefCount_Runs.v
theories/RefCount_Props.v
theories/Pool_Model.v
theories/Pool_Spec.v
theories/Pool_Proofs.v
theories/Pool_Props.v
theories/TPool_Model.v
theories/TPool_Spec.v
theories/TPool_Proofs.v
theories/TPool_Sync.v
theories/TPool_Progress.v
theories/TPool_Final.v
theories/TPoolRT_Model.v
theories/TPoolRT_Proofs.v
theories/TPool_Props.v
theories/Thread_Model.v
theories/Thread_Spec.v
theories/Thread_Proofs.v
theories/Thread_Props.v
theories/BitList_Model.v
theories/BitList_Spec.v
theories/BitList_Proofs.v
theories/BitList_Props.v
theories/NodePool_Model.v
theories/NodePool_Spec.v
theories/NodePool_Proofs.v
theories/NodePool_Props.v
theories/Runtime_Model.v
theories/Runtime_Spec.v
theories/Runtime_Proofs.v
theories/Runtime_Props.v
theories/Shared_Model.v
theories/Shared_Spec.v
theories/Shared_Proofs.v
theories/Shared_Props.v
theories/Graph_Model.v
theories/Graph_Spec.v
theories/Graph_Proofs.v
theories/Graph_Props.v
theories/Predicate_Model.v
theories/Predicate_Spec.v
theories/Predicate_Proofs.v
theories/Predicate_Props.v
theories/Encoding_Model.v
theories/Encoding_Spec.v
theories/Encoding_Proofs.v
theories/Encoding_Props.v
theories/Number_Model.v
theories/Number_Spec.v
theories/Number_Proofs.v
theories/Number_Props.v
theories/Strtonum_Model.v
theories/Strtonum_Spec.v
theories/Strtonum_Proofs.v
theories/Strtonum_Props.v
theories/JSON_Model.v
theories/JSON_Spec.v
theories/JSON_Proofs.v
theories/JSON_Parse.v
theories/JSON_Write.v
theories/JSON_Safe.v
theories/JSON_Lax_Spec.v
theories/JSON_Lax.v
theories/JSON_Props.v
theories/Egg_Model.v
theories/Egg_Spec.v
theories/Egg_Proofs.v
theories/Egg_Archive.v
theories/Egg_Read.v
theories/Egg_Final.v
theories/Egg_Props.v
theories/Stream_Model.v
theories/Stream_Spec.v
theories/Stream_Proofs.v
theories/Stream_Props.v
theories/Shell_Model.v
theories/Shell_Spec.v
theories/Shell_Proofs.v
theories/Shell_Props.v
theories/Compare_Model.v
theories/Compare_Spec.v
theories/Compare_Proofs.v
theories/Compare_Props.v
theories/Property_Model.v
theories/Property_Spec.v
theories/Property_Proofs.v
theories/Property_Access.v
theories/Property_Steps.v
theories/Property_Results.v
theories/Property_Values.v
theories/Property_Watch.v
theories/Property_Paths.v
theories/Property_Cases.v
theories/Property_Props.v
theories/XML_Model.v
theories/XML_Spec.v
theories/XML_Machine.v
theories/XML_Forward.v
theories/XML_Forward2.v
theories/XML_Backward.v
theories/XML_Backward2.v
theories/XML_Memory.v
theories/XML_Relation.v
theories/XML_Simulates.v
theories/XML_Final.v
theories/XML_Describe.v
theories/XML_Final2.v
theories/XML_Props_Lemmas.v
theories/XML_Large.v
theories/XML_Props.v
theories/Class_Model.v
theories/Class_Spec.v
theories/Class_Proofs.v
theories/Class_Steps.v
theories/Class_Cases.v
theories/Class_More.v
theories/Class_Anchor.v
theories/Class_Props.v
theories/Bytes_More.v
theories/Egg_More.v
theories/Enum_Model.v
theories/Enum_Spec.v
theories/Enum_Proofs.v
theories/Enum_Props.v
theories/File_Model.v
theories/File_Spec.v
theories/File_Proofs.v
theories/File_Props.v
theories/Query_Model.v
theories/Query_Spec.v
theories/Query_Proofs.v
theories/Query_Props.v
theories/Lock_Model.v
theories/Lock_Spec.v
theories/Lock_Proofs.v
theories/Lock_Props.v
theories/Platform_Model.v
theories/Platform_Spec.v
theories/Platform_Proofs.v
theories/Platform_Props.v
theories/EggClass_Model.v
theories/EggClass_Spec.v
theories/EggClass_Proofs.v
theories/EggClass_Props.v
theories/Real_Model.v
theories/Real_Spec.v
theories/Real_Proofs.v
theories/Real_Meaning.v
theories/Real_Conv.v
theories/Real_Order.v
theories/Real_Round.v
theories/Real_Read.v
theories/Real_Text.v
theories/Real_Print.v
theories/Real_Cases.v
theories/Real_Props.v
theories/Load_Model.v
theories/Load_Proofs.v
theories/StrStream_Model.v
theories/StrStream_Spec.v
theories/StrStream_Proofs.v
theories/Load_Props.v
theories/Clock_Model.v
theories/Clock_Proofs.v
theories/Case_Model.v
theories/Case_Proofs.v
theories/Clock_Props.v
theories/Convert_Model.v
theories/Convert_Spec.v
theories/Convert_Proofs.v
theories/Convert_Results.v
theories/Convert_Props.v
theories/SelfSet_Model.v
theories/SelfSet_Proofs.v
theories/SelfSet_Props.v
theories/Context_Model.v
theories/Context_Spec.v
theories/Context_Proofs.v
theories/Context_Steps.v
theories/Context_Calls.v
theories/Context_Results.v
theories/Context_Props.v
theories/Describe_Model.v
theories/Describe_Spec.v
theories/Describe_Proofs.v
theories/Describe_Alike.v
theories/Describe_Props.v
theories/Own_Model.v
theories/Own_Spec.v
theories/Own_Proofs.v
theories/Own_Calls.v
theories/Own_Ends.v
theories/Own_May.v
theories/Own_Props.v
theories/Scalar_Model.v
theories/Scalar_Spec.v
theories/Scalar_Proofs.v
theories/Scalar_Props.v
theories/Vec32_Model.v
theories/Vec32_Spec.v
theories/Vec32_Proofs.v
theories/Vec32_Props.v
theories/Lent_Model.v
theories/Lent_Spec.v
theories/Lent_Proofs.v
theories/Lent_Sim.v
theories/Lent_Run.v
theories/Lent_Props.v
theories/Ext_Model.v
theories/Ext_Spec.v
theories/Ext_Proofs.v
theories/Ext_Props.v
theories/Gone_Model.v
theories/Gone_Spec.v
theories/Gone_Proofs.v
theories/Gone_Props.v
theories/Less_Model.v
theories/Less_Spec.v
theories/Less_Proofs.v
theories/Less_Props.v
theories/Truth_Model.v
theories/Truth_Spec.v
theories/Truth_Proofs.v
theories/Truth_Props.v
theories/Show_Model.v
theories/Show_Spec.v
theories/Show_Len.v
theories/Show_Proofs.v
theories/Show_Props.v
theories/Report_Model.v
theories/Report_Spec.v
theories/Report_Proofs.v
theories/Report_Props.v
theories/Label_Model.v
theories/Label_Spec.v
theories/Label_Proofs.v
theories/Label_Props.v
theories/Parsed_Model.v
theories/Parsed_Spec.v
theories/Parsed_Proofs.v
theories/Parsed_Steps.v
theories/Parsed_Ends.v
theories/Parsed_Shape.v
theories/Parsed_Props.v
theories/Elem_Model.v
theories/Elem_Spec.v
theories/Elem_Phase.v
theories/Elem_Proofs.v
theories/Elem_Steps.v
theories/Elem_Events.v
theories/Elem_Tokens.v
theories/Elem_Close.v
theories/Elem_Loop.v
theories/Elem_Ends.v
theories/Elem_Props.v
theories/Pieces_Model.v
theories/Pieces_Spec.v
theories/Pieces_Proofs.v
theories/Pieces_Ends.v
theories/Pieces_Props.v
theories/Arcs_Model.v
theories/Arcs_Spec.v
theories/Arcs_Proofs.v
theories/Arcs_Steps.v
theories/Arcs_Ends.v
theories/Arcs_Lists.v
theories/Arcs_Props.v
