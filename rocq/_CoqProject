-Q theories Verif
theories/Base.v
theories/Base_Proofs.v
theories/Codec_Model.v
theories/Codec_Spec.v
theories/Codec_Proofs.v
theories/Codec2_Proofs.v
theories/Block_Model.v
theories/Block_Spec.v
theories/Codec3_Proofs.v
theories/Codec_Props.v
theories/LVec_Model.v
theories/LVec_Proofs.v
theories/LVec_Props.v
theories/Merkle_Model.v
theories/Merkle_Spec.v
theories/Merkle_Proofs.v
theories/Merkle_Props.v
theories/Shuffle_Model.v
theories/Shuffle_Spec.v
theories/Shuffle_Proofs.v
theories/Shuffle_Props.v
theories/Safrole_Model.v
theories/Safrole_Spec.v
theories/Safrole_Proofs.v
theories/Safrole_Props.v
theories/RingCache_Model.v
theories/RingCache_Proofs.v
theories/RingCache_Props.v
theories/Queue_Model.v
theories/Queue_Spec.v
theories/Queue_Proofs.v
theories/Queue_Props.v
theories/Gas_Model.v
theories/Gas_Spec.v
theories/Gas_Proofs.v
theories/Gas_Props.v
theories/Disputes_Model.v
theories/Disputes_Spec.v
theories/Disputes_Proofs.v
theories/Disputes_Props.v
theories/Reports_Model.v
theories/Reports_Spec.v
theories/Reports_Proofs.v
theories/Reports_Props.v
theories/Preimages_Model.v
theories/Preimages_Spec.v
theories/Preimages_Proofs.v
theories/Preimages_Props.v
theories/Import_Model.v
theories/Import_Spec.v
theories/Import_Proofs.v
theories/Import_Props.v
theories/PvmMem_Model.v
theories/PvmMem_Spec.v
theories/PvmMem_Proofs.v
theories/PvmMem_Props.v
theories/PvmProg_Model.v
theories/PvmStep_Model.v
theories/PvmStep_Spec.v
theories/PvmAlu_Proofs.v
theories/PvmProg_Spec.v
theories/PvmProg_Proofs.v
theories/PvmProg_Props.v
theories/PvmRun_Spec.v
theories/PvmStep_Proofs.v
theories/PvmStep2_Proofs.v
theories/PvmRun_Proofs.v
theories/PvmUniq_Proofs.v
theories/PvmRun_Props.v
theories/PvmInit_Model.v
theories/PvmInit_Spec.v
theories/PvmInit_Proofs.v
theories/PvmInit_Props.v
theories/Trie_Model.v
theories/Trie_Spec.v
theories/TrieCodec_Proofs.v
theories/TrieShape_Proofs.v
theories/Trie_Proofs.v
theories/Trie2_Proofs.v
theories/Trie3_Proofs.v
theories/Trie4_Proofs.v
theories/TrieBind_Proofs.v
theories/Trie_Props.v
theories/StateKeys_Model.v
theories/StateKeys_Spec.v
theories/StateKeys_Proofs.v
theories/StateKeys_Props.v
theories/CachedDb_Model.v
theories/CachedDb_Spec.v
theories/CachedDb_Proofs.v
theories/CachedDb_Props.v
theories/StateCache_Model.v
theories/StateCache_Spec.v
theories/StateCache_Proofs.v
theories/StateCache_Props.v
theories/Sandbox_Model.v
theories/Sandbox_Spec.v
theories/Sandbox_Proofs.v
theories/Sandbox_Props.v
theories/Host_Model.v
theories/Host_Spec.v
theories/Host_Proofs.v
theories/Host2_Proofs.v
theories/Host3_Proofs.v
theories/Host4_Proofs.v
theories/Host5_Proofs.v
theories/Acc_Model.v
theories/Acc_Spec.v
theories/Acc_Proofs.v
theories/Host6_Proofs.v
theories/Host7_Proofs.v
theories/Acc2_Proofs.v
theories/Host_Props.v
theories/Acc_Props.v
theories/Round_Model.v
theories/Round_Spec.v
theories/Round1_Proofs.v
theories/Round2_Proofs.v
theories/Round3_Proofs.v
theories/Round2_Spec.v
theories/Round4_Proofs.v
theories/Round5_Proofs.v
theories/Round6_Proofs.v
theories/Round9_Proofs.v
theories/Round7_Proofs.v
theories/Round8_Proofs.v
theories/Round10_Proofs.v
theories/Delta_Model.v
theories/Delta_Spec.v
theories/Delta_Proofs.v
theories/Delta2_Proofs.v
theories/Delta3_Proofs.v
theories/Delta4_Proofs.v
theories/Delta5_Proofs.v
theories/Finite_Proofs.v
theories/Round11_Proofs.v
theories/Delta6_Proofs.v
theories/Town_Model.v
theories/Round_Props.v
theories/Delta_Props.v
theories/Erasure_Model.v
theories/Erasure_Spec.v
theories/Erasure_Proofs.v
theories/Erasure_Props.v
theories/Avail_Model.v
theories/Avail_Spec.v
theories/Avail_Proofs.v
theories/Avail_Props.v
theories/Refine_Model.v
theories/Refine_Spec.v
theories/Refine_Proofs.v
theories/Refine2_Proofs.v
theories/Refine3_Proofs.v
theories/Refine4_Proofs.v
theories/Refine5_Proofs.v
theories/Refine_Props.v
theories/Sched_Model.v
theories/Sched_Spec.v
theories/Sched_Proofs.v
theories/Flow_Model.v
theories/Flow_Proofs.v
theories/Sched_Props.v
theories/Stats_Model.v
theories/Stats_Spec.v
theories/Stats_Proofs.v
theories/Stats2_Proofs.v
theories/Stats3_Proofs.v
theories/Stats4_Proofs.v
theories/Stats5_Proofs.v
theories/StatsCodec_Model.v
theories/StatsCodec_Proofs.v
theories/Stats_Props.v
theories/Fuzz_Model.v
theories/Fuzz_Spec.v
theories/Fuzz_Proofs.v
theories/Fuzz2_Proofs.v
theories/Fuzz3_Proofs.v
theories/Fuzz4_Proofs.v
theories/Fuzz_Props.v
theories/FuzzMsg_Model.v
theories/FuzzMsg_Proofs.v
theories/FuzzMsg_Props.v
theories/FlowPre_Spec.v
theories/FlowPre_Proofs.v
theories/FlowPre_Props.v
theories/Author_Model.v
theories/Author_Spec.v
theories/Author_Proofs.v
theories/Author_Props.v
theories/Clock_Model.v
theories/Clock_Props.v
theories/Clock_Spec.v
theories/Clock_Proofs.v
theories/Pool_Model.v
theories/Pool_Spec.v
theories/Pool_Proofs.v
theories/Pool_Props.v
theories/Net_Model.v
theories/Net_Spec.v
theories/Net_Proofs.v
theories/Net_Props.v
theories/Package_Model.v
theories/Package_Spec.v
theories/Package_Proofs.v
theories/Package2_Proofs.v
theories/Package3_Proofs.v
theories/Package_Props.v
theories/Boot_Model.v
theories/Boot_Spec.v
theories/Boot_Proofs.v
theories/Boot_Props.v
theories/Actor_Model.v
theories/Actor_Spec.v
theories/Actor_Proofs.v
theories/Actor_Props.v
theories/Anchor_Model.v
theories/Anchor_Spec.v
theories/Anchor_Proofs.v
theories/Anchor_Props.v
theories/Trace_Model.v
theories/Trace_Spec.v
theories/Trace_Proofs.v
theories/Trace_Props.v
theories/Text_Model.v
theories/Text_Spec.v
theories/Text_Proofs.v
theories/Text_Props.v
theories/Intake_Model.v
theories/Intake_Spec.v
theories/Intake_Proofs.v
theories/Intake_Props.v
theories/Comp_Model.v
theories/Comp_Spec.v
theories/Comp_Proofs.v
theories/Comp2_Proofs.v
theories/Comp_Props.v
theories/Vault_Model.v
theories/Vault_Spec.v
theories/Vault_Proofs.v
theories/Vault_Props.v
theories/Cred_Model.v
theories/Cred_Spec.v
theories/Cred_Proofs.v
theories/Cred_Props.v
theories/Wire_Spec.v
theories/Wire_Proofs.v
theories/Wire_Props.v
theories/Announce_Model.v
theories/Announce_Spec.v
theories/Announce_Proofs.v
theories/Announce_Props.v
theories/FuzzMsg_Spec.v
theories/FuzzMsg2_Proofs.v
theories/Arrive_Model.v
theories/Arrive_Spec.v
theories/Arrive_Proofs.v
theories/Arrive_Props.v
