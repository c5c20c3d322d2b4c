-Q theories Verif
theories/Base.v
theories/ToText_Model.v
theories/ToText_Spec.v
theories/ToText_Proofs.v
theories/ToText_Proofs2.v
theories/AsString_Model.v
theories/AsString_Spec.v
theories/AsString_Proofs.v
theories/ToText_Props.v
theories/Sort_Model.v
theories/Sort_Spec.v
theories/Sort_Proofs.v
theories/Sort_Props.v
theories/Heap_Model.v
theories/Heap_Spec.v
theories/Heap_Proofs.v
theories/Heap_Props.v
theories/Bulk_Model.v
theories/Bulk_Spec.v
theories/Bulk_Proofs.v
theories/Bulk_Props.v
theories/Bitset_Model.v
theories/Bitset_Spec.v
theories/Bitset_Props.v
theories/Bits.v
theories/Hash_Model.v
theories/Hash_Spec.v
theories/Hash_Proofs.v
theories/Hash_Props.v
theories/Primes.v
theories/Orbit.v
theories/Random_Model.v
theories/Random_Spec.v
theories/Xoroshiro_Proofs.v
theories/Random_Proofs.v
theories/Random_Props.v
theories/RandomOut_Props.v
theories/RandomPairs_Props.v
theories/Base64_Model.v
theories/Base64_Spec.v
theories/Base64_Props.v
theories/Lziii_Model.v
theories/Lziii_Spec.v
theories/Lziii_Props.v
theories/Zorder_Model.v
theories/Zorder_Spec.v
theories/Zorder_Proofs.v
theories/Zorder_Near.v
theories/Zorder_Stack.v
theories/Zorder_Props.v
theories/Dictionary_Model.v
theories/Dictionary_Spec.v
theories/Dictionary_Props.v
theories/Pool_Model.v
theories/Pool_Spec.v
theories/Pool_Proofs.v
theories/Pool_Props.v
theories/Clock_Model.v
theories/Clock_Spec.v
theories/Clock_Props.v
theories/Sequence_Model.v
theories/Sequence_Props.v
theories/Vec_Model.v
theories/Vec_Spec.v
theories/Vec_Props.v
theories/Math_Model.v
theories/Math_Spec.v
theories/Math_Proofs.v
theories/Math_Props.v
theories/Cordic_Model.v
theories/Cordic_Atan.v
theories/Cordic_Proofs.v
theories/Cordic_Vector.v
theories/Cordic_Spec.v
theories/Cordic_Props.v
theories/Sqrt_Model.v
theories/Sqrt_Spec.v
theories/Sqrt_Proofs.v
theories/Sqrt_Props.v
theories/Os_Model.v
theories/Os_Spec.v
theories/Os_Props.v
theories/Nameof_Model.v
theories/Nameof_Spec.v
theories/Nameof_Props.v
theories/Names_Model.v
theories/Names_Spec.v
theories/Names_Proofs.v
theories/Names_Props.v
theories/Io_Model.v
theories/Io_Spec.v
theories/Io_Props.v
theories/Atomic_Model.v
theories/Atomic_Spec.v
theories/Atomic_Proofs.v
theories/Atomic_Props.v
theories/Cdt_Model.v
theories/Cdt_Geom.v
theories/Cdt_Mesh.v
theories/Cdt_Flip.v
theories/Cdt_Circle.v
theories/Cdt_Insert.v
theories/Cdt_OnEdge.v
theories/Cdt_Walk.v
theories/Cdt_Edge.v
theories/Cdt_Spec.v
theories/Cdt_Tile.v
theories/Cdt_Reset.v
theories/Cdt_Fill.v
theories/Cdt_Locate.v
theories/Cdt_History.v
theories/Cdt_Props.v
theories/Cdt_Planar.v
theories/Cdt_EdgeSpec.v
theories/Cdt_Steps.v
theories/Cdt_Follow.v
theories/Cdt_Fuel.v
theories/Cdt_Edge_Props.v
theories/Cdt_View_Model.v
theories/Cdt_View_Props.v
theories/Cdt_Star.v
theories/Cdt_Delaunay.v
theories/Cdt_Global.v
theories/Cdt_Ends.v
theories/Cdt_Delaunay_Props.v
theories/Cdt_Cycle_Props.v
theories/Cdt_Search_Model.v
theories/Cdt_Search.v
theories/Cdt_Cover.v
theories/Cdt_Bound.v
theories/Cdt_Search_Props.v
theories/Cdt_Debug_Model.v
theories/Cdt_Debug.v
theories/Cdt_Debug_Props.v
theories/Tso_Model.v
theories/Tso_Spec.v
theories/Tso.v
theories/Tso_Run.v
theories/Tso_Props.v
theories/Interlocked_Model.v
theories/Interlocked_Spec.v
theories/Interlocked.v
theories/Interlocked_Props.v
theories/VecOps_Model.v
theories/VecOps_Spec.v
theories/VecOps_Props.v
theories/Mapping_Spec.v
theories/Mapping_Props.v
theories/Normal_Model.v
theories/Normal_Spec.v
theories/Normal_Proofs.v
theories/Normal_Props.v
theories/Cdt_Vert_Props.v
theories/Traits_Model.v
theories/Traits_Props.v
theories/Cdt_Unique.v
theories/Cdt_Unique_Props.v
theories/VecFloat_Model.v
theories/VecFloat_Spec.v
theories/VecFloat_Proofs.v
theories/VecFloat_Props.v
theories/Tuple_Model.v
theories/Tuple_Props.v
theories/Log_Model.v
theories/Log_Spec.v
theories/Log_Props.v
theories/Cdt_Refine_Props.v
theories/Mat_Model.v
theories/Mat_Props.v
theories/Alias_Model.v
theories/Alias_Props.v
theories/Cdt_Winding.v
theories/Cdt_Winding_Props.v
theories/Cdt_Info.v
theories/Cdt_Info_Props.v
theories/Cdt_Existing.v
theories/Cdt_Existing_Props.v
theories/Cost_Model.v
theories/Cost_Spec.v
theories/Cost_Proofs.v
theories/Cost_Props.v
theories/Crc_Spec.v
theories/Crc_Proofs.v
theories/Crc_Props.v
theories/Cdt_Graph.v
theories/Cdt_Graph_Props.v
theories/Calls_Model.v
theories/Calls_Spec.v
theories/Calls_Proofs.v
theories/Calls_Props.v
theories/Residue_Props.v
theories/Repo_Tests.v
theories/Cordic_Turns_Props.v
theories/Atomic_Fair_Props.v
theories/Atomic_Bound_Props.v
theories/Interlocked_Wait_Props.v
theories/Tso_Fair_Props.v
theories/Compose_Props.v
theories/Embed_Props.v
theories/RandomRepeat_Props.v
theories/Cdt_Optimal_Props.v
theories/Zorder_Block_Props.v
