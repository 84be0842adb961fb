(** * What every property theorem rests on. *)
(* Expected output: "Closed under the global context" for every one of them. *)
From Verif Require Properties_Proof Properties_Db Properties_Hist Properties_Fail Properties_Fault Properties_Limits Properties_Reopen Properties_Names Properties_Path Properties_Evict Properties_Open Properties_Io Properties_Scan Properties_Proc Properties_Corrupt Properties_Conc Properties_Race Properties_Heap Properties_Read Properties_Hash Properties_ReadIter Properties_Lost Properties_Sessions Properties_ConcIter Properties_Khash Properties_Power Properties_Destroy Properties_Handles Properties_Cli Properties_ProofMem Properties_Resources Properties_Growth Properties_Long Properties_Local Properties_Threads Properties_Backup Properties_Append Properties_Failures Properties_Slab Properties_Blind Properties_DestroyPath.
Print Assumptions Properties_Proof.C06_root_binds_contents.
Print Assumptions Properties_Proof.C08_C09_sound.
Print Assumptions Properties_Proof.C08_no_false_existence.
Print Assumptions Properties_Proof.C09_no_false_absence.
Print Assumptions Properties_Proof.verify_msgs_complete.
Print Assumptions Properties_Proof.C10_verifier_total.
Print Assumptions Properties_Proof.C11_proof_codec.
Print Assumptions Properties_Proof.C12_one_encoding_refuted.
Print Assumptions Properties_Proof.C12_one_encoding_partial.
Print Assumptions Properties_Proof.C13_pointer_codec.
Print Assumptions Properties_Proof.C13_internal_codec.
Print Assumptions Properties_Proof.C13_leaf_codec.
Print Assumptions Properties_Proof.C36_chunking.
Print Assumptions Properties_Proof.C41_get.
Print Assumptions Properties_Proof.C41_count.
Print Assumptions Properties_Proof.C41_has.
Print Assumptions Properties_Proof.C41_slice.
Print Assumptions Properties_Proof.C41_split.
Print Assumptions Properties_Proof.C41_collide.
Print Assumptions Properties_Proof.C41_join.
Print Assumptions Properties_Proof.C41_closed.
Print Assumptions Properties_Proof.C42_error_codes.
Print Assumptions Properties_Db.C01_transaction_is_map.
Print Assumptions Properties_Db.C02_value_limit.
Print Assumptions Properties_Db.C03_remove_exact.
Print Assumptions Properties_Db.C04_root_is_documented.
Print Assumptions Properties_Db.C05_history_independence.
Print Assumptions Properties_Db.C07_honest_proofs_verify.
Print Assumptions Properties_Db.C07_urkel_prove_verifies.
Print Assumptions Properties_Db.C14_iteration.
Print Assumptions Properties_Hist.C16_commit_becomes_state.
Print Assumptions Properties_Hist.C17_reopen_partial.
Print Assumptions Properties_Hist.C18_values_faithful_partial.
Print Assumptions Properties_Hist.C18_values_refuted.
Print Assumptions Properties_Hist.C19_crash_atomic_partial.
Print Assumptions Properties_Hist.C20_history_readable.
Print Assumptions Properties_Hist.C21_snapshot_isolation.
Print Assumptions Properties_Fail.C22_failed_commit_partial.
Print Assumptions Properties_Fail.C22_failed_commit_refuted.
Print Assumptions Properties_Fail.C23_later_commits_partial.
Print Assumptions Properties_Fail.C23_later_commits_refuted.
Print Assumptions Properties_Fail.C45_failed_commit_stays_failed_refuted.
Print Assumptions Properties_Fail.C24_clear_partial.
Print Assumptions Properties_Fail.C24_clear_refuted.
Print Assumptions Properties_Fail.C25_inject_partial.
Print Assumptions Properties_Fail.C25_inject_refuted.
Print Assumptions Properties_Fail.C31_data_placement.
Print Assumptions Properties_Fail.C38_reads_pure.
Print Assumptions Properties_Fail.C44_destroy_discards.
Print Assumptions Properties_Fault.C22_any_write_failure.
Print Assumptions Properties_Fault.C45_reopen_after_failure_partial.
Print Assumptions Properties_Limits.C15_iteration_limit_partial.
Print Assumptions Properties_Limits.C15_deep_aborts_partial.
Print Assumptions Properties_Limits.C15_iteration_refuted.
Print Assumptions Properties_Reopen.C17_reopen_refuted.
Print Assumptions Properties_Reopen.C32_record_found_partial.
Print Assumptions Properties_Reopen.C32_record_found_refuted.
Print Assumptions Properties_Names.C33_recognised.
Print Assumptions Properties_Names.C33_roundtrip.
Print Assumptions Properties_Names.C33_order.
Print Assumptions Properties_Names.C33_directory.
Print Assumptions Properties_Names.C37_decode.
Print Assumptions Properties_Names.C37_encode.
Print Assumptions Properties_Names.C37_decode32.
Print Assumptions Properties_Path.C43_normalize.
Print Assumptions Properties_Path.C43_canonical.
Print Assumptions Properties_Path.C43_resolve.
Print Assumptions Properties_Path.C46_path_buffers_partial.
Print Assumptions Properties_Path.C46_path_buffers_refuted.
Print Assumptions Properties_Evict.C34_evict.
Print Assumptions Properties_Evict.C34_open_files.
Print Assumptions Properties_Open.C35_open_preserves_partial.
Print Assumptions Properties_Open.C35_open_preserves_refuted.
Print Assumptions Properties_Io.C48_faithful_io.
Print Assumptions Properties_Io.C48_perfect_file.
Print Assumptions Properties_Io.C48_store_write.
Print Assumptions Properties_Io.C48_store_read.
Print Assumptions Properties_Io.C48_key_file.
Print Assumptions Properties_Scan.C32_buffered_scan.
Print Assumptions Properties_Scan.C35_recover_refines.
Print Assumptions Properties_Scan.C35_smooth_recovery.
Print Assumptions Properties_Proc.C39_creation_partial.
Print Assumptions Properties_Proc.C39_directory.
Print Assumptions Properties_Proc.C39_creation_refuted.
Print Assumptions Properties_Proc.C40_one_process_partial.
Print Assumptions Properties_Proc.C40_one_process_refuted.
Print Assumptions Properties_Corrupt.C30_terminates_partial.
Print Assumptions Properties_Corrupt.C30_reads_partial.
Print Assumptions Properties_Corrupt.C30_session_partial.
Print Assumptions Properties_Corrupt.C30_open_refuted.
Print Assumptions Properties_Corrupt.C30_get_refuted.
Print Assumptions Properties_Corrupt.C30_iterate_refuted.
Print Assumptions Properties_Corrupt.C30_remove_refuted.
Print Assumptions Properties_Corrupt.C30_insert_refuted.
Print Assumptions Properties_Corrupt.C30_history_refuted.
Print Assumptions Properties_Conc.C27_exclusive.
Print Assumptions Properties_Conc.C27_linearizable.
Print Assumptions Properties_Conc.C27_readers_overlap.
Print Assumptions Properties_Conc.C26_deadlock_refuted.
Print Assumptions Properties_Conc.C26_progress_partial.
Print Assumptions Properties_Conc.C26_completes_partial.
Print Assumptions Properties_Conc.C29_lost_update_refuted.
Print Assumptions Properties_Conc.C29_no_overlap_partial.
Print Assumptions Properties_Race.C28_alone_agrees.
Print Assumptions Properties_Race.C28_abort_refuted.
Print Assumptions Properties_Race.C28_no_abort_partial.
Print Assumptions Properties_Race.C28_one_file_partial.
Print Assumptions Properties_Heap.C47_memory_safe.
Print Assumptions Properties_Heap.C47_ownership.
Print Assumptions Properties_Heap.C47_no_leak.
Print Assumptions Properties_Heap.C47_iterators.
Print Assumptions Properties_Heap.C47_any_files_partial.
Print Assumptions Properties_Heap.C47_failed_commit_refuted.
Print Assumptions Properties_Read.C49_read_failures_partial.
Print Assumptions Properties_Read.C49_covers.
Print Assumptions Properties_Read.C49_no_failure.
Print Assumptions Properties_Read.C49_lookup.
Print Assumptions Properties_Read.C49_read_failures_refuted.
Print Assumptions Properties_Hash.C36_rfc7693.
Print Assumptions Properties_Hash.C36_refused.
Print Assumptions Properties_ReadIter.C50_iteration_under_read_failures.
Print Assumptions Properties_ReadIter.C50_no_silent_loss.
Print Assumptions Properties_ReadIter.C50_nothing_invented.
Print Assumptions Properties_ReadIter.C50_no_failure.
Print Assumptions Properties_Lost.C19_crash_history_partial.
Print Assumptions Properties_Lost.C17_reopen_exact_partial.
Print Assumptions Properties_Lost.C17_lost_nonvacuous.
Print Assumptions Properties_Sessions.C51_sessions_partial.
Print Assumptions Properties_Sessions.C51_stale_count_refuted.
Print Assumptions Properties_Sessions.C51_key_race_refuted.
Print Assumptions Properties_ConcIter.C52_snapshot.
Print Assumptions Properties_ConcIter.C52_contents.
Print Assumptions Properties_ConcIter.C52_waits.
Print Assumptions Properties_ConcIter.C52_reads_complete_partial.
Print Assumptions Properties_ConcIter.C52_own_thread_refuted.
Print Assumptions Properties_ConcIter.C52_writer_preference_refuted.
Print Assumptions Properties_Khash.C53_cache_is_a_map.
Print Assumptions Properties_Khash.C53_cache_never_lies.
Print Assumptions Properties_Khash.C53_cache_frees_once.
Print Assumptions Properties_Khash.C53_store_cache.
Print Assumptions Properties_Power.C54_fsync_covers.
Print Assumptions Properties_Power.C54_power_failure_partial.
Print Assumptions Properties_Power.C54_fsync_refuted.
Print Assumptions Properties_Power.C54_default_refuted.
Print Assumptions Properties_Destroy.C55_success.
Print Assumptions Properties_Destroy.C55_foreign_kept.
Print Assumptions Properties_Destroy.C55_complete.
Print Assumptions Properties_Destroy.C55_again.
Print Assumptions Properties_Destroy.C55_crash_partial.
Print Assumptions Properties_Destroy.C55_busy.
Print Assumptions Properties_Destroy.C55_failure_refuted.
Print Assumptions Properties_Handles.C56_one_handle_partial.
Print Assumptions Properties_Handles.C56_same_process_refuted.
Print Assumptions Properties_Handles.C56_lock_lost_refuted.
Print Assumptions Properties_Cli.C57_commands_partial.
Print Assumptions Properties_Cli.C57_rejected.
Print Assumptions Properties_Cli.C57_prove_verify.
Print Assumptions Properties_Cli.C57_info_root_refuted.
Print Assumptions Properties_Cli.C57_reading_creates_refuted.
Print Assumptions Properties_Cli.C57_nonvacuous.
Print Assumptions Properties_ProofMem.C58_verify_memory_partial.
Print Assumptions Properties_ProofMem.C58_leak_refuted.
Print Assumptions Properties_ProofMem.C58_leak_nonvacuous.
Print Assumptions Properties_Resources.C59_session_partial.
Print Assumptions Properties_Resources.C59_nothing_kept_partial.
Print Assumptions Properties_Resources.C59_destroy_partial.
Print Assumptions Properties_Resources.C59_open_leak_refuted.
Print Assumptions Properties_Resources.C59_no_memory_refuted.
Print Assumptions Properties_Resources.C59_nonvacuous.
Print Assumptions Properties_Growth.C60_growth.
Print Assumptions Properties_Growth.C60_insert.
Print Assumptions Properties_Growth.C60_remove.
Print Assumptions Properties_Growth.C60_flat.
Print Assumptions Properties_Growth.C60_nonvacuous.
Print Assumptions Properties_Long.C18_long_values.
Print Assumptions Properties_Long.C18_long_commit.
Print Assumptions Properties_Local.C61_tx_lookup_local.
Print Assumptions Properties_Local.C61_tx_update_local.
Print Assumptions Properties_Local.C61_lookup_local.
Print Assumptions Properties_Threads.C62_threads_crash_partial.
Print Assumptions Properties_Backup.C63_listed_once_partial.
Print Assumptions Properties_Backup.C63_one_by_one_refuted.
Print Assumptions Properties_Append.C64_session.
Print Assumptions Properties_Append.C64_open.
Print Assumptions Properties_Append.C64_for_ever_partial.
Print Assumptions Properties_Failures.C22_many_failures.
Print Assumptions Properties_Failures.C22_many_failures_reopen.
Print Assumptions Properties_Slab.C65_session_partial.
Print Assumptions Properties_Slab.C65_memory.
Print Assumptions Properties_Slab.C65_flush.
Print Assumptions Properties_Slab.C65_32bit_refuted.
Print Assumptions Properties_Blind.C61_commit_local.
Print Assumptions Properties_DestroyPath.C46_destroy_buffer_partial.
Print Assumptions Properties_DestroyPath.C46_destroy_buffer_refuted.
