-Q theories Verif
theories/Base.v
theories/Policy_Model.v
theories/Policy_Spec.v
theories/Policy_Proofs.v
theories/Policy_Props.v
theories/Atomic_Model.v
theories/Atomic_Spec.v
theories/Atomic_Proofs.v
theories/Atomic_Props.v
theories/StepName_Model.v
theories/StepName_Spec.v
theories/StepName_Proofs.v
theories/StepName_Props.v
theories/Manager_Model.v
theories/Manager_Spec.v
theories/Manager_Proofs.v
theories/Manager_Props.v
theories/ManagerAsync_Model.v
theories/ManagerAsync_Spec.v
theories/ManagerAsync_Proofs.v
theories/ManagerAsync_Props.v
theories/Deleter_Model.v
theories/Deleter_Spec.v
theories/Deleter_Proofs.v
theories/Deleter_Props.v
theories/Chunk_Model.v
theories/Chunk_Spec.v
theories/Chunk_Proofs.v
theories/Chunk_Props.v
theories/Nd_Model.v
theories/Fragment_Model.v
theories/Fragment_Spec.v
theories/Fragment_Proofs.v
theories/Fragment_Props.v
theories/Slice_Model.v
theories/Slice_Spec.v
theories/Slice_Proofs.v
theories/Slice_Props.v
theories/Replica_Model.v
theories/Replica_Spec.v
theories/Replica_Proofs.v
theories/Replica_Props.v
theories/Reshard_Model.v
theories/Reshard_Spec.v
theories/Reshard_Proofs.v
theories/Reshard_Props.v
theories/Limiter_Model.v
theories/Limiter_Spec.v
theories/Limiter_Proofs.v
theories/Limiter_Props.v
theories/Batch_Model.v
theories/Batch_Spec.v
theories/Batch_Proofs.v
theories/Batch_Props.v
theories/Async_Model.v
theories/Async_Spec.v
theories/Async_Proofs.v
theories/Async_Props.v
theories/Commit_Model.v
theories/Commit_Spec.v
theories/Commit_Proofs.v
theories/Commit_Props.v
theories/Future_Model.v
theories/Future_Spec.v
theories/Future_Proofs.v
theories/Future_Props.v
theories/Signal_Model.v
theories/Signal_Spec.v
theories/Signal_Proofs.v
theories/Signal_Props.v
theories/Lock_Model.v
theories/Lock_Spec.v
theories/Lock_Proofs.v
theories/Lock_Props.v
theories/Tree_Model.v
theories/Tree_Spec.v
theories/Tree_Proofs.v
theories/Tree_Props.v
theories/Parts_Model.v
theories/Parts_Spec.v
theories/Parts_Proofs.v
theories/Parts_Props.v
theories/Diff_Model.v
theories/Diff_Spec.v
theories/Diff_Proofs.v
theories/Diff_Props.v
theories/Trim_Model.v
theories/Trim_Spec.v
theories/Trim_Proofs.v
theories/Trim_Props.v
theories/Transform_Model.v
theories/Transform_Spec.v
theories/Transform_Proofs.v
theories/Transform_Props.v
theories/MemReg_Model.v
theories/MemReg_Spec.v
theories/MemReg_Proofs.v
theories/MemReg_Props.v
theories/Wait_Model.v
theories/Wait_Spec.v
theories/Wait_Proofs.v
theories/Wait_Props.v
theories/Merge_Model.v
theories/Merge_Spec.v
theories/Merge_Proofs.v
theories/Merge_Props.v
theories/Mesh_Model.v
theories/Mesh_Spec.v
theories/Mesh_Proofs.v
theories/Mesh_Props.v
theories/Emergency_Model.v
theories/Emergency_Spec.v
theories/Emergency_Proofs.v
theories/Emergency_Props.v
theories/Broadcast_Model.v
theories/Broadcast_Spec.v
theories/Broadcast_Proofs.v
theories/Broadcast_Props.v
theories/Peer_Model.v
theories/Peer_Spec.v
theories/Peer_Proofs.v
theories/Peer_Props.v
theories/Transfer_Model.v
theories/Transfer_Spec.v
theories/Transfer_Proofs.v
theories/Transfer_Props.v
theories/Backend_Model.v
theories/Backend_Spec.v
theories/Backend_Proofs.v
theories/Backend_Props.v
theories/Tiering_Model.v
theories/Tiering_Spec.v
theories/Tiering_Proofs.v
theories/Tiering_Props.v
theories/RichMeta_Model.v
theories/RichMeta_Spec.v
theories/RichMeta_Proofs.v
theories/RichMeta_Props.v
theories/TreeMeta_Model.v
theories/TreeMeta_Spec.v
theories/TreeMeta_Proofs.v
theories/TreeMeta_Props.v
theories/Partial_Model.v
theories/Partial_Spec.v
theories/Partial_Proofs.v
theories/Partial_Props.v
theories/PartialFs_Model.v
theories/PartialFs_Spec.v
theories/PartialFs_Proofs.v
theories/PartialFs_Props.v
theories/ArrayMeta_Model.v
theories/ArrayMeta_Spec.v
theories/ArrayMeta_Proofs.v
theories/ArrayMeta_Props.v
theories/Composite_Model.v
theories/Composite_Spec.v
theories/Composite_Proofs.v
theories/Composite_Props.v
theories/MetaStore_Model.v
theories/MetaStore_Spec.v
theories/MetaStore_Proofs.v
theories/MetaStore_Props.v
theories/StepMeta_Model.v
theories/StepMeta_Spec.v
theories/StepMeta_Proofs.v
theories/StepMeta_Props.v
theories/Surgery_Model.v
theories/Surgery_Spec.v
theories/Surgery_Proofs.v
theories/Surgery_Props.v
theories/Safetensors_Model.v
theories/Safetensors_Spec.v
theories/Safetensors_Proofs.v
theories/Safetensors_Props.v
theories/Registry_Model.v
theories/Registry_Spec.v
theories/Registry_Proofs.v
theories/Registry_Props.v
theories/Layout_Model.v
theories/Layout_Spec.v
theories/Layout_Proofs.v
theories/Layout_Props.v
theories/Topology_Model.v
theories/Topology_Spec.v
theories/Topology_Proofs.v
theories/Topology_Props.v
theories/Handoff_Model.v
theories/Handoff_Spec.v
theories/Handoff_Proofs.v
theories/Handoff_Props.v
theories/Replicator_Model.v
theories/Replicator_Spec.v
theories/Replicator_Proofs.v
theories/Replicator_Props.v
theories/SaveAll_Model.v
theories/SaveAll_Spec.v
theories/SaveAll_Proofs.v
theories/SaveAll_Live.v
theories/SaveAll_Props.v
theories/Train_Model.v
theories/Train_Spec.v
theories/Train_Proofs.v
theories/Train_Disk.v
theories/Train_Live.v
theories/Train_Props.v
theories/Sharding_Model.v
theories/Sharding_Spec.v
theories/Sharding_Proofs.v
theories/Sharding_Props.v
theories/Restore_Model.v
theories/Restore_Spec.v
theories/Restore_Proofs.v
theories/Restore_Props.v
theories/Mtc_Model.v
theories/Mtc_Spec.v
theories/Mtc_Proofs.v
theories/Mtc_Props.v
theories/Leaf_Model.v
theories/Leaf_Spec.v
theories/Leaf_Proofs.v
theories/Leaf_Props.v
theories/Msgpack_Model.v
theories/Msgpack_Spec.v
theories/Msgpack_Proofs.v
theories/Msgpack_Props.v
theories/Validate_Model.v
theories/Validate_Spec.v
theories/Validate_Proofs.v
theories/Validate_Props.v
theories/Export_Model.v
theories/Export_Spec.v
theories/Export_Proofs.v
theories/Export_Props.v
theories/Colocated_Model.v
theories/Colocated_Spec.v
theories/Colocated_Proofs.v
theories/Colocated_Props.v
theories/Dtensor_Model.v
theories/Dtensor_Spec.v
theories/Dtensor_Proofs.v
theories/Dtensor_Props.v
theories/Runner_Model.v
theories/Runner_Spec.v
theories/Runner_Proofs.v
theories/Runner_Props.v
theories/Dispatch_Model.v
theories/Dispatch_Spec.v
theories/Dispatch_Proofs.v
theories/Dispatch_Props.v
theories/Snap_Model.v
theories/Snap_Spec.v
theories/Snap_Proofs.v
theories/Snap_Props.v
theories/Gcs_Model.v
theories/Gcs_Spec.v
theories/Gcs_Proofs.v
theories/Gcs_Props.v
theories/Format_Model.v
theories/Format_Spec.v
theories/Format_Proofs.v
theories/Format_Props.v
theories/Auth_Model.v
theories/Auth_Spec.v
theories/Auth_Proofs.v
theories/Auth_Props.v
