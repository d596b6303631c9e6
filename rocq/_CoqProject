-Q theories Verif
theories/Base.v
theories/Base64_Model.v
theories/Base64_Proofs.v
theories/Base64_Props.v
theories/CRC32_Model.v
theories/CRC32_Props.v
theories/Chunk_Model.v
theories/Chunk_Props.v
theories/Chunk_Spec.v
theories/Claire_Model.v
theories/Claire_Proofs.v
theories/Claire_Proofs2.v
theories/Claire_Proofs3.v
theories/Claire_Props.v
theories/Claire_Props2.v
theories/Claire_Props3.v
theories/Claire_Props4.v
theories/Claire_Spec.v
theories/Codec.v
theories/CompactTSV_Model.v
theories/CompactTSV_Proofs.v
theories/CompactTSV_Props.v
theories/Config_Model.v
theories/Config_Proofs.v
theories/Config_Props.v
theories/Config_Spec.v
theories/Csv_Model.v
theories/Csv_Props.v
theories/Csv_Spec.v
theories/Date_Model.v
theories/Date_Proofs.v
theories/Date_Proofs2.v
theories/Date_Props.v
theories/Date_Spec.v
theories/Dec.v
theories/Deleter_Model.v
theories/Deleter_Proofs.v
theories/Deleter_Props.v
theories/Deleter_Spec.v
theories/EditDistance_Model.v
theories/EditDistance_Props.v
theories/FilePersister_Model.v
theories/FilePersister_Proofs.v
theories/FilePersister_Proofs2.v
theories/FilePersister_Proofs3.v
theories/FilePersister_Props.v
theories/FilePersister_Spec.v
theories/Flags_Model.v
theories/Flags_Proofs.v
theories/Flags_Props.v
theories/Flags_Spec.v
theories/Flip_Model.v
theories/Flip_Proofs.v
theories/Flip_Proofs2.v
theories/Flip_Proofs3.v
theories/Flip_Proofs4.v
theories/Flip_Props.v
theories/Flip_Spec.v
theories/FncasCalculus_Proofs.v
theories/FncasMemory_Proofs.v
theories/FncasReal_Proofs.v
theories/FncasReal_Props.v
theories/FncasReal_Spec.v
theories/FncasShape_Proofs.v
theories/Fncas_Model.v
theories/Fncas_Proofs.v
theories/Fncas_Props.v
theories/Fncas_Spec.v
theories/Graphviz_Model.v
theories/Graphviz_Props.v
theories/Graphviz_Spec.v
theories/Headers_Model.v
theories/Headers_Proofs.v
theories/Headers_Props.v
theories/Headers_Spec.v
theories/Http_Model.v
theories/Http_Proofs.v
theories/Http_Proofs2.v
theories/Http_Props.v
theories/Http_Spec.v
theories/Infer_Model.v
theories/Infer_Proofs.v
theories/Infer_Proofs2.v
theories/Infer_Proofs3.v
theories/Infer_Props.v
theories/Infer_Spec.v
theories/Jit_Model.v
theories/Jit_Process.v
theories/Jit_Proofs.v
theories/Jit_Props.v
theories/Jit_Spec.v
theories/Json_Model.v
theories/Json_Proofs.v
theories/Json_Proofs2.v
theories/Json_Props.v
theories/Json_Spec.v
theories/KarlView_Model.v
theories/KarlView_Proofs.v
theories/KarlView_Props.v
theories/KarlView_Spec.v
theories/Karl_Model.v
theories/Karl_Proofs.v
theories/Karl_Props.v
theories/Karl_Spec.v
theories/MMQ_Model.v
theories/MMQ_Proofs.v
theories/MMQ_Props.v
theories/MMQ_Spec.v
theories/Nlp_Model.v
theories/Nlp_Props.v
theories/Nlp_Props2.v
theories/Nlp_Props3.v
theories/Nlp_Spec.v
theories/OT_Model.v
theories/OT_Props.v
theories/OT_Spec.v
theories/Optimize_Arith.v
theories/Optimize_Model.v
theories/Optimize_Proofs.v
theories/Optimize_Props.v
theories/Optimize_Spec.v
theories/Optional_Model.v
theories/Optional_Proofs.v
theories/Optional_Props.v
theories/Optional_Props2.v
theories/Optional_Spec.v
theories/Owned_Model.v
theories/Owned_Proofs.v
theories/Owned_Props.v
theories/Owned_Spec.v
theories/Pages_Model.v
theories/Pages_Proofs.v
theories/Pages_Props.v
theories/Pages_Spec.v
theories/Persister_Model.v
theories/Persister_Proofs.v
theories/Persister_Props.v
theories/Persister_Spec.v
theories/Profiler_Model.v
theories/Profiler_Props.v
theories/Profiler_Props2.v
theories/Profiler_Spec.v
theories/Progress_Model.v
theories/Progress_Props.v
theories/Progress_Props2.v
theories/Progress_Spec.v
theories/PubSub_Model.v
theories/PubSub_Proofs.v
theories/PubSub_Proofs10.v
theories/PubSub_Proofs2.v
theories/PubSub_Proofs3.v
theories/PubSub_Proofs4.v
theories/PubSub_Proofs5.v
theories/PubSub_Proofs6.v
theories/PubSub_Proofs7.v
theories/PubSub_Proofs8.v
theories/PubSub_Proofs9.v
theories/PubSub_Props.v
theories/PubSub_Spec.v
theories/Publisher_Model.v
theories/Publisher_Props.v
theories/Reconnect_Model.v
theories/Reconnect_Proofs.v
theories/Reconnect_Proofs2.v
theories/Reconnect_Props.v
theories/Reconnect_Spec.v
theories/Redirect_Model.v
theories/Redirect_Props.v
theories/Redirect_Spec.v
theories/Reflection_Model.v
theories/Reflection_Proofs.v
theories/Reflection_Proofs2.v
theories/Reflection_Proofs3.v
theories/Reflection_Props.v
theories/Reflection_Spec.v
theories/Regex_Model.v
theories/Regex_Props.v
theories/Regex_Spec.v
theories/Replicator_Model.v
theories/Replicator_Proofs.v
theories/Replicator_Proofs2.v
theories/Replicator_Props.v
theories/Replicator_Spec.v
theories/RipCurrent_Model.v
theories/RipCurrent_Proofs.v
theories/RipCurrent_Proofs2.v
theories/RipCurrent_Proofs3.v
theories/RipCurrent_Proofs4.v
theories/RipCurrent_Proofs5.v
theories/RipCurrent_Proofs6.v
theories/RipCurrent_Proofs7.v
theories/RipCurrent_Props.v
theories/RipCurrent_Spec.v
theories/Rounding_Model.v
theories/Rounding_Props.v
theories/Rounding_Props2.v
theories/Rounding_Spec.v
theories/Routing_Model.v
theories/Routing_Proofs.v
theories/Routing_Props.v
theories/Routing_Spec.v
theories/Sha256_Model.v
theories/Sha256_Proofs.v
theories/Sha256_Proofs2.v
theories/Sha256_Proofs3.v
theories/Sha256_Props.v
theories/Sha256_Spec.v
theories/StorageContainers_Model.v
theories/StorageContainers_Proofs.v
theories/StorageContainers_Props.v
theories/StorageContainers_Spec.v
theories/StorageFile_Model.v
theories/StorageFile_Proofs.v
theories/StorageFile_Props.v
theories/StorageFile_Spec.v
theories/StorageRest_Model.v
theories/StorageRest_Proofs.v
theories/StorageRest_Proofs2.v
theories/StorageRest_Props.v
theories/StorageRest_Props2.v
theories/StorageRest_Spec.v
theories/StorageTxn_Model.v
theories/StorageTxn_Proofs.v
theories/StorageTxn_Props.v
theories/StorageTxn_Spec.v
theories/Stream_Model.v
theories/Stream_Proofs.v
theories/Stream_Proofs2.v
theories/Stream_Props.v
theories/Stream_Spec.v
theories/Strings_Model.v
theories/Strings_Props.v
theories/Tcp_Model.v
theories/Tcp_Proofs.v
theories/Tcp_Proofs2.v
theories/Tcp_Proofs3.v
theories/Tcp_Props.v
theories/Tcp_Spec.v
theories/TermSignal_Model.v
theories/TermSignal_Props.v
theories/TermSignal_Spec.v
theories/Time_Model.v
theories/Time_Props.v
theories/Url_Model.v
theories/Url_Proofs.v
theories/Url_Props.v
theories/Utf8_Props.v
theories/Variant_Model.v
theories/Variant_Props.v
theories/Variant_Spec.v
theories/WaitableAtomic_Model.v
theories/WaitableAtomic_Props.v
theories/WaitableAtomic_Spec.v
theories/X64_Spec.v
