{
 "claims": [
  {
   "property": "C01",
   "status": "proved",
   "theorems": [
    "C01_transaction_is_map"
   ],
   "note": "Every reachable state of the API model (any sequence of calls, faults, crashes, reopenings)."
  },
  {
   "property": "C02",
   "status": "proved",
   "theorems": [
    "C02_value_limit"
   ],
   "note": ""
  },
  {
   "property": "C03",
   "status": "proved",
   "theorems": [
    "C03_remove_exact"
   ],
   "note": ""
  },
  {
   "property": "C04",
   "status": "proved",
   "theorems": [
    "C04_root_is_documented"
   ],
   "note": ""
  },
  {
   "property": "C05",
   "status": "proved",
   "theorems": [
    "C05_history_independence"
   ],
   "note": ""
  },
  {
   "property": "C06",
   "status": "proved",
   "theorems": [
    "C06_root_binds_contents"
   ],
   "note": "For every hash function; hypotheses only about the messages hashed for the two trees."
  },
  {
   "property": "C07",
   "status": "proved",
   "theorems": [
    "C07_honest_proofs_verify",
    "C07_urkel_prove_verifies"
   ],
   "note": ""
  },
  {
   "property": "C08",
   "status": "proved",
   "theorems": [
    "C08_no_false_existence",
    "verify_msgs_complete"
   ],
   "note": ""
  },
  {
   "property": "C09",
   "status": "proved",
   "theorems": [
    "C09_no_false_absence",
    "verify_msgs_complete"
   ],
   "note": ""
  },
  {
   "property": "C10",
   "status": "proved",
   "theorems": [
    "C10_verifier_total"
   ],
   "note": ""
  },
  {
   "property": "C11",
   "status": "proved",
   "theorems": [
    "C11_proof_codec",
    "C07_honest_proofs_verify"
   ],
   "note": ""
  },
  {
   "property": "C12",
   "status": "partial",
   "theorems": [
    "C12_one_encoding_refuted",
    "C12_one_encoding_partial"
   ],
   "note": "Refuted as stated: unused bitmap bits are not checked. Proved: same decoded proof, same answer, same length, equal bytes once padding bits agree."
  },
  {
   "property": "C13",
   "status": "proved",
   "theorems": [
    "C13_pointer_codec",
    "C13_internal_codec",
    "C13_leaf_codec"
   ],
   "note": ""
  },
  {
   "property": "C14",
   "status": "proved",
   "theorems": [
    "C14_iteration"
   ],
   "note": "Under the depth bound the iterator's stack imposes; C15 covers what happens beyond it."
  },
  {
   "property": "C15",
   "status": "partial",
   "theorems": [
    "C15_iteration_refuted",
    "C15_iteration_limit_partial",
    "C15_deep_aborts_partial"
   ],
   "note": "Refuted for trees deeper than the iterator's stack of 256 entries; the exact limit is proved, and below it iteration is complete and ordered."
  },
  {
   "property": "C16",
   "status": "proved",
   "theorems": [
    "C16_commit_becomes_state"
   ],
   "note": ""
  },
  {
   "property": "C17",
   "status": "partial",
   "theorems": [
    "C17_reopen_refuted",
    "C17_reopen_partial",
    "C17_reopen_exact_partial"
   ],
   "note": "Refuted: a commit whose padding rolls over to a new file is lost on reopening (C32). Proved for all histories whose last record is aligned; C17_reopen_exact_partial says for every history what reopening finds: the last state whose record is at a multiple of 38 bytes, the database then continuing from it."
  },
  {
   "property": "C18",
   "status": "partial",
   "theorems": [
    "C18_values_refuted",
    "C18_values_faithful_partial",
    "C18_long_values",
    "C18_long_commit"
   ],
   "note": "Refuted for values of 256 bytes and more (size narrowed to 8 bits in node_save); proved up to 255 bytes. For all accepted lengths C18_long_values and C18_long_commit give the exact answers after urkel_insert or a transaction commit: right root, right existence, value cut to its length modulo 256, its proofs refused by the verifier."
  },
  {
   "property": "C19",
   "status": "partial",
   "theorems": [
    "C19_crash_atomic_partial",
    "C19_crash_history_partial"
   ],
   "note": "Proved unless the torn bytes forge a checksummed record; crash keeps a prefix of the issued bytes. C19_crash_history_partial: any number of calls before the crash and no condition on record positions; opening finds the last completely written state with an aligned record (so a commit that was complete can be lost, C17_reopen_refuted, but never a mixture)."
  },
  {
   "property": "C20",
   "status": "proved",
   "theorems": [
    "C20_history_readable"
   ],
   "note": ""
  },
  {
   "property": "C21",
   "status": "proved",
   "theorems": [
    "C21_snapshot_isolation"
   ],
   "note": ""
  },
  {
   "property": "C22",
   "status": "partial",
   "theorems": [
    "C22_failed_commit_refuted",
    "C22_failed_commit_partial",
    "C22_any_write_failure",
    "C22_many_failures",
    "C22_many_failures_reopen"
   ],
   "note": "Refuted as stated: the transaction's root dangles after a failed commit.  C22_any_write_failure: for every way the writes of a commit can fail, the commit reports it, and every call that does not write then answers as if it had not been attempted (from a clean session).  C22_many_failures: any number of failing commits of any transactions in one session, under any schedule of failing writes, with calls that do not write in between: the root, the history and every answer are as if none had been attempted, the files keep all they had; C22_many_failures_reopen: so does reopening afterwards, if nothing left behind passes for a commit record.  Commits that succeed after a failed one are C23 (refuted); urkel_insert and urkel_remove free twice when their commit fails."
  },
  {
   "property": "C23",
   "status": "partial",
   "theorems": [
    "C23_later_commits_refuted",
    "C23_later_commits_partial"
   ],
   "note": "Refuted for a short write (stale offsets); proved for faults that write nothing or everything."
  },
  {
   "property": "C24",
   "status": "partial",
   "theorems": [
    "C24_clear_refuted",
    "C24_clear_partial"
   ],
   "note": "Refuted after urkel_inject; proved when the database was not reverted."
  },
  {
   "property": "C25",
   "status": "partial",
   "theorems": [
    "C25_inject_refuted",
    "C25_inject_partial"
   ],
   "note": "Refuted for urkel_inject with an unknown root: urkel_store_has_history (store.c 864-874) calls urkel_node_clear on an uninitialised node structure, undefined behaviour in every state. Proved for every committed root (and the zero root) through urkel_inject and urkel_tx_inject, and for unknown roots through urkel_tx_inject (ENOTFOUND, nothing changes)."
  },
  {
   "property": "C26",
   "status": "partial",
   "theorems": [
    "C26_deadlock_refuted",
    "C26_progress_partial",
    "C26_completes_partial"
   ],
   "note": "The property as stated is FALSE and the negation is proved: urkel_tx_prove (tree.c 1022-1066) re-acquires tx->lock while holding tree->lock, urkel_tx_commit takes them in the other order; on every transaction with uncommitted changes the two deadlock under every work-conserving lock policy. Proved positively for all programs, schedules and policies: executions are finite, and one that has stopped has finished, or a call violates its requirements, or urkel_tx_prove waits for a transaction another thread is inside a call on; hence completion for programs without urkel_tx_prove and for threads not sharing transactions. Not modelled: iterators held open, starvation."
  },
  {
   "property": "C27",
   "status": "proved",
   "theorems": [
    "C27_exclusive",
    "C27_linearizable",
    "C27_readers_overlap"
   ],
   "note": "Objects: database state (with the root cache) and transactions. For every interleaving of any programs under any lock policy: exclusion, and linearizability (effects equal the same calls one after the other, each inside its own call). The file map has a lock of its own: C28. Iterators are not part of this model."
  },
  {
   "property": "C28",
   "status": "partial",
   "theorems": [
    "C28_abort_refuted",
    "C28_no_abort_partial",
    "C28_one_file_partial",
    "C28_alone_agrees"
   ],
   "note": "The property as stated is FALSE and the negation is proved: urkel_store_open_file (store.c 461-491) looks up and inserts in two critical sections; two readers that need the same data file which is not open yet can both open it, and the second insertion fails CHECK(!fm->items[index]), aborting the process. Proved positively for every interleaving: no abort if each unopened file is read by one thread only (one reader, or all files open, e.g. a database with one data file)."
  },
  {
   "property": "C29",
   "status": "partial",
   "theorems": [
    "C29_lost_update_refuted",
    "C29_no_overlap_partial"
   ],
   "note": "The property as stated is FALSE and the negation is proved: for every database state and any two different keys, two concurrent urkel_insert calls can both return success while only the second key is stored (tree.c 705-726 reads the root in urkel_tx_create and commits later). Proved positively for all concurrent executions: an update is kept, with everything stored before, if no other commit or inject takes effect between creation and commit of its transaction."
  },
  {
   "property": "C30",
   "status": "partial",
   "theorems": [
    "C30_terminates_partial",
    "C30_reads_partial",
    "C30_session_partial",
    "C30_open_refuted",
    "C30_get_refuted",
    "C30_iterate_refuted",
    "C30_remove_refuted",
    "C30_insert_refuted",
    "C30_history_refuted"
   ],
   "note": "False: six kinds of damaged files crash or hang a call (prefix over 256 bits aborts urkel_open; a 256-bit prefix makes get/has/prove read key[32]; a cyclic record overflows the iterator stack CHECK; remove aborts on an unreadable sibling; a leaf on the wrong path makes insert read key[32]; a commit record naming itself makes root lookup loop forever). Proved for all file contents: the descents terminate, and damage within the stated shape is reported as an error, for reads, iteration and any sequence of calls on a transaction."
  },
  {
   "property": "C31",
   "status": "proved",
   "theorems": [
    "C31_data_placement"
   ],
   "note": ""
  },
  {
   "property": "C32",
   "status": "partial",
   "theorems": [
    "C32_record_found_refuted",
    "C32_record_found_partial",
    "C32_buffered_scan"
   ],
   "note": "Refuted when the padding does not fit the current file; proved: otherwise the scan finds the record. C32_buffered_scan: the scan as performed (1 MB buffer, any system call behaviour) finds the last valid block of a file of any length, or nothing when a call fails."
  },
  {
   "property": "C33",
   "status": "proved",
   "theorems": [
    "C33_recognised",
    "C33_roundtrip",
    "C33_order",
    "C33_directory"
   ],
   "note": "File number to name and back, recognition, order of names, and find_index over a sorted directory listing."
  },
  {
   "property": "C34",
   "status": "proved",
   "theorems": [
    "C34_evict",
    "C34_open_files"
   ],
   "note": "The table of open files with arbitrary random numbers and failing opens/syncs; between commits readers may hold more than 32 files open (only writers evict)."
  },
  {
   "property": "C35",
   "status": "partial",
   "theorems": [
    "C35_open_preserves_partial",
    "C35_open_preserves_refuted",
    "C35_recover_refines",
    "C35_smooth_recovery"
   ],
   "note": "False: store.c 1049-1054 unlinks a data file whenever urkel_store_find_meta returns 0, also when open, fstat or pread failed. Proved when no system call fails while the files are examined, with every crash point. C35_recover_refines relates the code of the recovery loop, under every failure of every system call it makes, to the recovery function used by the other theorems."
  },
  {
   "property": "C36",
   "status": "proved",
   "theorems": [
    "C36_chunking",
    "C36_rfc7693",
    "C36_hash_raw",
    "C36_refused"
   ],
   "note": "Rfc7693.v is the specification, written from the RFC and independent of the model of blake2b.c."
  },
  {
   "property": "C37",
   "status": "proved",
   "theorems": [
    "C37_decode",
    "C37_encode",
    "C37_decode32"
   ],
   "note": "The CLI's base16 coder and decoder (the decoder's odd bit arithmetic included) and the 32-byte form."
  },
  {
   "property": "C38",
   "status": "proved",
   "theorems": [
    "C38_reads_pure"
   ],
   "note": ""
  },
  {
   "property": "C39",
   "status": "partial",
   "theorems": [
    "C39_creation_partial",
    "C39_directory",
    "C39_creation_refuted"
   ],
   "note": "False: dying between creating and filling the key file 'meta' leaves a directory no later urkel_open accepts. Proved for every other crash point, any number of times."
  },
  {
   "property": "C40",
   "status": "partial",
   "theorems": [
    "C40_one_process_partial",
    "C40_one_process_refuted"
   ],
   "note": "False: unlinking the lock file after releasing the lock lets two processes lock different files. Proved for runs in which the name is not removed while another process has the file open."
  },
  {
   "property": "C41",
   "status": "proved",
   "theorems": [
    "C41_get",
    "C41_count",
    "C41_has",
    "C41_slice",
    "C41_split",
    "C41_collide",
    "C41_join",
    "C41_closed"
   ],
   "note": ""
  },
  {
   "property": "C42",
   "status": "proved",
   "theorems": [
    "C42_error_codes"
   ],
   "note": ""
  },
  {
   "property": "C43",
   "status": "proved",
   "theorems": [
    "C43_normalize",
    "C43_canonical",
    "C43_resolve"
   ],
   "note": "The in-place normaliser and path_resolve on the POSIX side (getcwd a parameter, assumed to give an absolute path; malloc assumed to succeed)."
  },
  {
   "property": "C44",
   "status": "proved",
   "theorems": [
    "C44_destroy_discards"
   ],
   "note": ""
  },
  {
   "property": "C45",
   "status": "partial",
   "theorems": [
    "C45_failed_commit_stays_failed_refuted",
    "C45_reopen_after_failure_partial"
   ],
   "note": "Refuted as stated: the record of a failed commit stays in the write buffer and becomes durable with the next commit or flush, and a failure after the last byte leaves the commit complete.  C45_reopen_after_failure_partial: if the database is closed (or the process dies) before the next commit, opening shows the previous state unless every byte of the failed commit was written."
  },
  {
   "property": "C46",
   "status": "partial",
   "theorems": [
    "C46_path_buffers_partial",
    "C46_path_buffers_refuted",
    "C46_destroy_buffer_partial",
    "C46_destroy_buffer_refuted"
   ],
   "note": "False for paths of exactly 1014 bytes: store.c 902 checks len + 10 where '/', ten digits and the NUL need len + 12 bytes of a buffer of URKEL_PATH_MAX + 1; proved for every shorter path. The buffer of urkel_destroy has the same check and the same overrun: proved in bounds, with the right paths, for any directory contents below 1014 bytes, and past the end at 1014 as soon as there is a data file."
  },
  {
   "property": "C47",
   "status": "proved",
   "theorems": [
    "C47_memory_safe",
    "C47_ownership",
    "C47_no_leak",
    "C47_iterators",
    "C47_any_files_partial",
    "C47_failed_commit_refuted"
   ],
   "note": "Heap.v models tree.c and nodes.c with explicit malloc/free (use after free and double free are UB) for the histories of C01; permitted calls exclude using a transaction whose commit failed: C47_failed_commit_refuted proves that every such use, urkel_tx_destroy included, accesses freed memory (see C22). C47_any_files_partial covers arbitrary (damaged) files, except for what follows a failed urkel_tx_prove. Memory of the store, the file map and the caches is not in this model."
  },
  {
   "property": "C48",
   "status": "proved",
   "theorems": [
    "C48_faithful_io",
    "C48_perfect_file",
    "C48_store_write",
    "C48_store_read",
    "C48_key_file"
   ],
   "note": "For every schedule of system call outcomes. C48_store_write and C48_store_read connect the handle level to the store model: the faults the other theorems quantify over cover every behaviour of urkel_file_write. The abort() on a count larger than requested, which no kernel returns, is not modelled."
  },
  {
   "property": "C49",
   "status": "partial",
   "theorems": [
    "C49_read_failures_partial",
    "C49_covers",
    "C49_no_failure",
    "C49_lookup",
    "C49_read_failures_refuted"
   ],
   "note": "The property as stated is FALSE and the negation is proved on a concrete history: a read failing while a root is looked up is answered ENOTFOUND (urkel_get says that a stored key is absent), a removal aborts the process when the sibling cannot be read (tree.c 310), urkel_inject is undefined behaviour. Proved for every other call, every history (with crashes and failing commits) and every set of failing reads: right answer and effect, or ECORRUPTION (ENOTFOUND only if a root other than the current one is looked up) with files, database and transactions unchanged, and a retry succeeds. Lookups through a transaction are never wrong. Reads while opening are in C32 and C35."
  },
  {
   "property": "C50",
   "status": "proved",
   "theorems": [
    "C50_iteration_under_read_failures",
    "C50_no_silent_loss",
    "C50_nothing_invented",
    "C50_no_failure"
   ],
   "note": "For trees within the iterator's depth limit (C15)."
  },
  {
   "property": "C51",
   "status": "partial",
   "theorems": [
    "C51_sessions_partial",
    "C51_stale_count_refuted",
    "C51_key_race_refuted"
   ],
   "note": "The property as stated is FALSE and the negation is proved twice: a process that counted the data files before another one created and closed the database finds it empty and replaces its history; two processes creating the key file at the same time destroy what the first one stores. Proved for all interleavings in which what urkel_open read before locking (no key file, number of data files) is still true when it is used: sessions compose to one execution of Exec.v."
  },
  {
   "property": "C52",
   "status": "partial",
   "theorems": [
    "C52_snapshot",
    "C52_contents",
    "C52_waits",
    "C52_reads_complete_partial",
    "C52_own_thread_refuted",
    "C52_writer_preference_refuted"
   ],
   "note": "The last sentence is FALSE: with locks that prefer waiting writers (POSIX leaves it open) a get in the iterating thread and a commit in another thread wait for each other for ever (C52_writer_preference_refuted); and a call of the waiting kind made by the iterating thread itself never returns (C52_own_thread_refuted). The rest is proved for all interleavings and policies; C52_reads_complete_partial: calls outside the list complete when no other thread is inside a call."
  },
  {
   "property": "C53",
   "status": "proved",
   "theorems": [
    "C53_cache_is_a_map",
    "C53_cache_never_lies",
    "C53_cache_frees_once",
    "C53_store_cache"
   ],
   "note": "Exact for up to 2^31 different roots; beyond that the table is full and new roots are not cached (C53_cache_never_lies: never a wrong answer). Allocation is assumed to succeed (the code aborts otherwise) and size_t to have 64 bits."
  },
  {
   "property": "C54",
   "status": "partial",
   "theorems": [
    "C54_power_failure_partial",
    "C54_fsync_covers",
    "C54_fsync_refuted",
    "C54_default_refuted"
   ],
   "note": "The property as stated is FALSE and the negation is proved twice: the default build never calls fsync at a commit, so an acknowledged commit can vanish (C54_default_refuted); with URKEL_FSYNC the record and the nodes of a commit are written without a barrier between them, so a power failure during a commit can leave a valid record without its nodes, and urkel_open then fails although the earlier acknowledged commit is on the disk (C54_fsync_refuted). Proved: with URKEL_FSYNC everything is on the disk when a commit returns (C54_fsync_covers); and for every state on the disk and every part of later writes on the disk in which no record precedes what it refers to, urkel_open shows the last complete state (C54_power_failure_partial; this case is also part of the executions of Exec.v, so all theorems about executions hold afterwards)."
  },
  {
   "property": "C55",
   "status": "partial",
   "theorems": [
    "C55_success",
    "C55_foreign_kept",
    "C55_complete",
    "C55_again",
    "C55_busy",
    "C55_crash_partial",
    "C55_failure_refuted"
   ],
   "note": "FALSE in one part, negation proved: a directory with a file of the user in it makes urkel_destroy remove key and data and then report failure (C55_failure_refuted). The rest is proved for all directories, failures and crash points; C55_crash_partial (no older state after a crash, because data files are removed in ascending order) assumes that no unlink fails before the crash."
  },
  {
   "property": "C56",
   "status": "partial",
   "theorems": [
    "C56_one_handle_partial",
    "C56_same_process_refuted",
    "C56_lock_lost_refuted"
   ],
   "note": "FALSE, negation proved twice: fcntl locks belong to the process, so a second urkel_open (or urkel_destroy) in the same process succeeds; and if it fails after taking the lock, it has released the lock of the first handle, and another process can open the database. Proved: at most one handle if no process uses two at a time and the lock file's name is not removed while another handle has the file open (C40)."
  },
  {
   "property": "C57",
   "status": "partial",
   "theorems": [
    "C57_commands_partial",
    "C57_rejected",
    "C57_prove_verify",
    "C57_info_root_refuted",
    "C57_reading_creates_refuted",
    "C57_nonvacuous"
   ],
   "note": "FALSE in two parts, negations proved: `info --root R` prints the number of items of the snapshot R next to the current root (C57_info_root_refuted), and every action except destroy and verify, `get` of a key included, creates a database in a directory without one (C57_reading_creates_refuted). Proved for all command lines and all sequences of runs: output, exit status and effect of every action (C57_commands_partial), rejection of everything that is not a command (C57_rejected), verify accepts the output of prove (C57_prove_verify). Conditions of C57_commands_partial: no hash collision among the recorded contents, values of at most 255 bytes in a tree that is committed (C18), trees shallow enough to iterate (C15), sizes below the file limit, directories containing nothing else, no failing system call."
  },
  {
   "property": "C58",
   "status": "partial",
   "theorems": [
    "C58_verify_memory_partial",
    "C58_leak_refuted",
    "C58_leak_nonvacuous"
   ],
   "note": "FALSE, negation proved: urkel_proof_read returns failure after having pushed nodes and urkel_verify returns without urkel_proof_clear; every readable proof with junk appended leaks one block per node on every call, for any number of calls (C58_leak_refuted). Proved for all inputs: the verdict is urkel_verify's, nothing is freed twice or used after free, at most 256 blocks leak, and none unless the answer is EINVAL (C58_verify_memory_partial; allocations succeed)."
  },
  {
   "property": "C59",
   "status": "partial",
   "theorems": [
    "C59_session_partial",
    "C59_nothing_kept_partial",
    "C59_destroy_partial",
    "C59_open_leak_refuted",
    "C59_no_memory_refuted",
    "C59_nonvacuous"
   ],
   "note": "FALSE in two parts, negations proved: every failing urkel_open leaks the tree structure (C59_open_leak_refuted, any number of times), and when memory runs out urkel_fs_scandir dereferences a null pointer and urkel_path_resolve leaks (C59_no_memory_refuted). Proved for all sequences of calls and all answers of the system, provided allocations succeed: no double release, no use after release, eviction terminates, and after urkel_close exactly what the caller has not given back is left; the only abort is the check of the number of data files. Tree nodes are C47, proof nodes C58."
  },
  {
   "property": "C60",
   "status": "proved",
   "theorems": [
    "C60_growth",
    "C60_insert",
    "C60_remove",
    "C60_flat",
    "C60_nonvacuous"
   ],
   "note": "Amortized bound by a potential function, for sequences of calls in which no system call fails and values of at most 255 bytes are committed (larger ones: C18); C60_flat: at most 29156 + length of the value bytes per insertion, whatever the contents. That reading calls write nothing at all is C38."
  },
  {
   "property": "C61",
   "status": "proved",
   "theorems": [
    "C61_tx_lookup_local",
    "C61_tx_update_local",
    "C61_lookup_local",
    "C61_commit_local"
   ],
   "note": "C61_commit_local: a commit in any state, whatever fails while it writes, depends on no byte of the files, only on their lengths.  The set of stretches is existentially quantified and bounded in number and total length; the damaged files keep their number (transactions) or also their lengths (lookups by root; that restriction comes from the model's loop bound for urkel_store_read_history). Damage to the bytes that are read: C30, C49."
  },
  {
   "property": "C62",
   "status": "partial",
   "theorems": [
    "C62_threads_crash_partial"
   ],
   "note": "Crash of the process (a prefix of the issued bytes is kept; power failures: C54). Conditions as in C19: the calls meet the requirements of the API when they take effect, no collision, commit records at multiples of 38 bytes (C32), the torn bytes do not forge a checksummed record."
  },
  {
   "property": "C63",
   "status": "partial",
   "theorems": [
    "C63_listed_once_partial",
    "C63_one_by_one_refuted"
   ],
   "note": "The last sentence of the property is FALSE (C63_one_by_one_refuted: a commit that fills one file and puts its record into the next; the copy of the earlier file is too short and urkel_open fails). A copy from one listing is good under the conditions of C19 (records at multiples of 38 bytes, no forgery in torn bytes, no collision, no failed commit in the session). The calls are made one after the other; the key file is written before any data file and never changes."
  },
  {
   "property": "C64",
   "status": "partial",
   "theorems": [
    "C64_session",
    "C64_open",
    "C64_for_ever_partial"
   ],
   "note": "C64_session and C64_open hold without conditions (any state, failures of system calls included; opening: any directory contents). Across sessions, C64_for_ever_partial has the conditions of C19: system calls of commits fail without effect, crashes happen in sessions without failed commits that begin with a record at a multiple of 38 bytes, torn bytes do not forge a record; a commit whose record is not at a multiple of 38 bytes can be lost (C17, C32)."
  },
  {
   "property": "C65",
   "status": "partial",
   "theorems": [
    "C65_session_partial",
    "C65_memory",
    "C65_flush",
    "C65_32bit_refuted"
   ],
   "note": "FALSE on platforms with a 32-bit size_t, negation proved at the level of the buffer (C65_32bit_refuted): in 199-202 three times a size wraps around once the block has 1.43 GB, realloc then shrinks it and memcpy writes behind its end; 1455816 values of 1000 bytes whose flushes all fail reach it.  Proved for size_t of 64 bits and blocks of at most 2^62 bytes, for every session after any urkel_open with any calls and failures: the arrays of store.c 50-61 (Slab.v) hold exactly what the lists of Store.v hold, every access is inside, and the program stops only when two thirds of the memory are pending (C65_memory: otherwise it does not)"
  }
 ]
}