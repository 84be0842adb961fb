{"id": "C01", "title": "A transaction is a finite map", "statement": "For every sequence of inserts and removes applied to a transaction, urkel_tx_get/urkel_tx_has of any 32-byte key return exactly what the sequence says a key/value map would return: the value of the last insert not followed by a remove, or ENOTFOUND; no operation aborts or reads out of bounds.", "quantifier": "all operation sequences of any length, all 32-byte keys, all values of at most 1023 bytes, all initial trees (in memory, on disk or mixed)", "why_tests_cant": "Tests insert a fixed number of pseudo-random keys; adversarial shared prefixes of every length 0..255, splits and re-joins in every order cannot be enumerated.", "anchors": ["src/tree.c:urkel_tree_get", "src/tree.c:urkel_tree_insert", "src/tree.c:urkel_tree_remove", "src/tree.c:urkel_tx_get", "src/tree.c:urkel_tx_insert", "src/tree.c:urkel_tx_remove", "src/bits.c"]}
{"id": "C02", "title": "Value size limit is enforced exactly", "statement": "urkel_tx_insert/urkel_insert accept every value of 0..1023 bytes and reject every longer one with EINVAL, and a rejected insert changes nothing observable.", "quantifier": "all value lengths, keys and tree states", "why_tests_cant": "A test checks the two lengths next to the boundary on an empty tree, not every tree state and the absence of side effects.", "anchors": ["src/tree.c:urkel_tx_insert", "src/internal.h:URKEL_VALUE_SIZE"]}
{"id": "C03", "title": "Remove is exact", "statement": "urkel_tx_remove succeeds exactly when the key is present; on success only that key disappears; when the key is absent it fails with ENOTFOUND and the transaction (contents and root) is unchanged.", "quantifier": "all tree states and keys", "why_tests_cant": "The collapse of a node after removal depends on the shape of the sibling subtree (leaf, internal, stored on disk), an unbounded set of shapes.", "anchors": ["src/tree.c:urkel_tree_remove", "src/bits.c:urkel_bits_join"]}
{"id": "C04", "title": "The root hash is the documented Merkle root of the contents", "statement": "urkel_tx_root returns the hash that doc/tree.md defines from the current key/value contents alone: zero for an empty tree, H(0x00||key||H(value)) for one record, and H(prefix-tagged prefix bits || left || right) over the split at the first differing bit otherwise.", "quantifier": "all operation sequences and therefore all reachable trees", "why_tests_cant": "Tests compare a few root hashes; equality with a definition for every content set is a universal statement.", "anchors": ["src/nodes.c:urkel_node_hash", "src/util.c:urkel_hash_internal", "src/util.c:urkel_hash_value", "doc/tree.md", "src/tree.c:urkel_tx_root"]}
{"id": "C05", "title": "History independence", "statement": "If two histories of inserts and removes lead to the same key/value contents then the root hash, every proof and the iteration order are byte-for-byte the same.", "quantifier": "all pairs of histories", "why_tests_cant": "A test can compare some orders of some keys; the claim is about all orders of all histories.", "anchors": ["README.md:History Independence", "src/tree.c:urkel_tree_insert", "src/tree.c:urkel_tree_remove"]}
{"id": "C06", "title": "The root hash binds the contents", "statement": "Two trees with the same root hash have the same contents, unless two different messages hashed while building them have the same hash or one of them hashes to all zeros.", "quantifier": "all pairs of trees, for every hash function", "why_tests_cant": "The claim is a reduction to collision resistance; a test can only observe that no collision was met.", "anchors": ["src/util.c:urkel_hash_internal", "src/util.c:urkel_hash_leaf"]}
{"id": "C07", "title": "Every honest proof verifies", "statement": "For every tree and every key, urkel_tx_prove produces bytes which urkel_verify accepts under that tree's root for that key, reporting exists=1 with exactly the stored value when the key is present and exists=0 when it is absent.", "quantifier": "all trees, all keys (present, colliding with a leaf, cut short by a prefix, empty tree), all value sizes up to 1023", "why_tests_cant": "Tests cover the existence case and one kind of absence for random keys.", "anchors": ["src/tree.c:urkel_tree_prove", "src/proof.c:urkel_proof_verify", "src/proof.c:urkel_proof_write", "src/proof.c:urkel_proof_read", "src/tree.c:urkel_verify"]}
{"id": "C08", "title": "No false existence proof", "statement": "If urkel_verify accepts any byte string as a proof that key has value v under the root of some tree then that tree holds v at key, unless two different messages hashed by the tree and the verifier collide or one hashes to zero.", "quantifier": "all byte strings, all keys, all trees, every hash function", "why_tests_cant": "The adversary chooses the bytes; testing samples nothing of that space.", "anchors": ["src/proof.c:urkel_proof_verify", "src/proof.c:urkel_proof_read", "src/tree.c:urkel_verify"]}
{"id": "C09", "title": "No false absence proof", "statement": "If urkel_verify accepts any byte string as a proof that key is absent under the root of some tree then the tree does not hold key, under the same no-collision condition.", "quantifier": "all byte strings, all keys, all trees, every hash function", "why_tests_cant": "As for C08; absence proofs have three forms with different failure modes.", "anchors": ["src/proof.c:urkel_proof_verify"]}
{"id": "C10", "title": "The verifier is total on hostile input", "statement": "For every byte string of any length given as a proof, every 32-byte key and root, urkel_verify returns either success or one of the documented error codes; it never aborts, never reads outside the proof bytes or key, and never writes more than 1023 value bytes.", "quantifier": "all byte strings of all lengths", "why_tests_cant": "Memory safety on adversarial input must hold for every input; fuzzing samples.", "anchors": ["src/proof.c:urkel_proof_read", "src/bits.c:urkel_bits_read", "src/tree.c:urkel_verify"]}
{"id": "C11", "title": "Proof encoding round-trips and is bounded", "statement": "Decoding an encoded proof gives back the same proof, the announced length equals the number of bytes written, and no proof produced from a tree is longer than 17957 bytes.", "quantifier": "all proofs produced from all trees", "why_tests_cant": "Depends on all prefix sizes, node counts up to 256 and all four proof types.", "anchors": ["src/proof.c:urkel_proof_size", "src/proof.c:urkel_proof_write", "src/proof.c:urkel_proof_read", "src/internal.h:URKEL_PROOF_SIZE"]}
{"id": "C12", "title": "A proof has one encoding", "statement": "For a given key and root, urkel_verify accepts at most one byte string for each answer it can certify (no third party can alter the bytes of a valid proof and keep it valid).", "quantifier": "all byte strings", "why_tests_cant": "A malleable bit can sit anywhere in the encoding.", "anchors": ["src/proof.c:urkel_proof_read", "src/proof.c:urkel_proof_verify"]}
{"id": "C13", "title": "Stored nodes decode to what was encoded", "statement": "Every node and pointer the library writes to its files is read back as the same node and pointer, for every prefix length 0..255, file number, file position and record size the library can produce.", "quantifier": "all nodes and pointers in range", "why_tests_cant": "The packing uses 15/31/10-bit fields and two size classes; boundaries multiply.", "anchors": ["src/nodes.c:urkel_pointer_write", "src/nodes.c:urkel_pointer_read", "src/nodes.c:urkel_node_write", "src/nodes.c:urkel_node_read"]}
{"id": "C14", "title": "Iteration is complete and ordered", "statement": "Calling urkel_iter_next until it fails returns every record of the snapshot exactly once, in strictly increasing key order, with its exact value, and then fails with EITEREND (as does every later call).", "quantifier": "all trees (in memory, on disk, mixed) whose iteration does not exceed the iterator's stack", "why_tests_cant": "Order and completeness over every tree shape.", "anchors": ["src/tree.c:urkel_iter_seek", "src/tree.c:urkel_iter_next", "src/tree.c:urkel_iter_push"]}
{"id": "C15", "title": "Iteration works on every tree the library can store", "statement": "Iterating never aborts the process, whatever keys the tree holds.", "quantifier": "all trees", "why_tests_cant": "Only adversarially chosen keys build the deep paths that exhaust the iterator's fixed stack.", "anchors": ["src/tree.c:urkel_iter_push", "src/tree.c:tree_iter_t"]}
{"id": "C16", "title": "A committed transaction becomes the database state", "statement": "When urkel_tx_commit returns 1, urkel_root equals the transaction's root, a new transaction sees exactly the committed contents, and the committing transaction's own view is unchanged.", "quantifier": "all histories of any number of transactions and commits, whatever mixture of in-memory and stored nodes", "why_tests_cant": "Commit rewrites every new node into pointers; correctness for every tree shape and file layout is universal.", "anchors": ["src/tree.c:urkel_tree_write", "src/tree.c:urkel_tree_commit", "src/store.c:urkel_store_commit", "src/store.c:urkel_store_flush"]}
{"id": "C17", "title": "Commits survive close and reopen", "statement": "After any history of successful commits, closing and reopening the database gives the same root and the same contents, and later commits continue correctly.", "quantifier": "all histories, all commit positions within files, any number of files", "why_tests_cant": "File rollover happens at 2 GB: unit tests never get there; the scan for the last commit record depends on alignment.", "anchors": ["src/store.c:urkel_store_write_meta", "src/store.c:urkel_store_find_meta", "src/store.c:urkel_store_recover_state", "src/store.c:urkel_store_init"]}
{"id": "C18", "title": "Every accepted value is stored faithfully", "statement": "A value of any accepted length (0..1023 bytes) that was inserted and committed is returned unchanged, byte for byte and with the same length, by urkel_get, iteration and proofs.", "quantifier": "all values of at most 1023 bytes", "why_tests_cant": "The length of a stored value is packed into a pointer; only lengths above 255 exercise the high bits, and the test that inserts 1023 bytes never reads them back.", "anchors": ["src/nodes.c:urkel_node_save", "src/store.c:urkel_store_write_value", "src/store.c:urkel_store_retrieve"]}
{"id": "C19", "title": "Crash atomicity", "statement": "If the process dies at any byte of any write issued by a commit, reopening the database yields the state before the commit or the state after it, never a mixture and never an open failure; and a crash during recovery itself is recoverable in the same way.", "quantifier": "all crash points (every prefix of the bytes appended by a commit, including across file rollover), all prior histories", "why_tests_cant": "The number of crash points grows with the data written; a test truncates one byte of one file.", "anchors": ["src/store.c:urkel_store_flush", "src/store.c:urkel_store_find_meta", "src/store.c:urkel_store_recover_state", "README.md:Crash Consistency"]}
{"id": "C20", "title": "Historical roots stay readable", "statement": "Every root hash that was ever committed can be opened with urkel_tx_create(tree, root) (or given to urkel_get/has/prove/iterate), in the same session or after reopening, and shows exactly the contents committed under it; a hash that was never committed and is not all zeros is refused with ENOTFOUND.", "quantifier": "all histories and all roots in them", "why_tests_cant": "The lookup goes through an in-memory cache and a lazily walked chain of records on disk; every order of lookups is a different path.", "anchors": ["src/store.c:urkel_store_read_history", "src/store.c:urkel_store_get_history", "src/tree.c:urkel_tx_create"]}
{"id": "C21", "title": "Snapshot isolation", "statement": "Nothing another transaction does (insert, remove, commit, inject, clear, destroy) changes what an open transaction reads, its root or its proofs.", "quantifier": "all interleavings of whole API calls on any number of transactions", "why_tests_cant": "Sharing of stored nodes between transactions makes every interleaving of calls relevant.", "anchors": ["src/tree.c:urkel_tx_create", "src/tree.c:urkel_tree_commit", "src/store.c"]}
{"id": "C22", "title": "A failed commit is harmless", "statement": "When urkel_tx_commit returns 0 (EBADWRITE), the database root and every other transaction are unchanged and the failed transaction can still be read, retried or destroyed.", "quantifier": "all I/O failure points", "why_tests_cant": "Requires injecting an I/O failure at each write of each commit.", "anchors": ["src/tree.c:urkel_tree_commit", "src/tree.c:urkel_tx_commit", "src/tree.c:urkel_insert"]}
{"id": "C23", "title": "A failed write does not damage later commits", "statement": "After a commit failed because a write failed or was cut short, later commits in the same session store data that reads back correctly.", "quantifier": "all I/O failure points followed by all histories", "why_tests_cant": "Needs a short write followed by more work; positions of later records are computed, not observed.", "anchors": ["src/store.c:urkel_store_flush", "src/store.c:urkel_store_write", "src/io_posix.c:urkel_file_write", "src/io_posix.c:urkel_fs_write"]}
{"id": "C24", "title": "urkel_tx_clear equals a fresh transaction", "statement": "urkel_tx_clear(tx) leaves tx in the state urkel_tx_create(tree, NULL) would create at that moment.", "quantifier": "all database states, including after urkel_inject", "why_tests_cant": "The documentation promises equivalence in every database state.", "anchors": ["src/tree.c:urkel_tx_clear", "src/tree.c:urkel_tx_create", "doc/api.md"]}
{"id": "C25", "title": "Inject reverts to exactly the named root", "statement": "urkel_inject(tree, h) and urkel_tx_inject(tx, h) succeed exactly when h is all zeros or a committed root; afterwards urkel_root/urkel_tx_root return h, new transactions (resp. the transaction) see the contents committed under h; on failure (ENOTFOUND) nothing changes; and a commit made from an injected view becomes the new state.", "quantifier": "all histories", "why_tests_cant": "Interaction of revert flag, cache and chain walk over all histories.", "anchors": ["src/tree.c:urkel_inject", "src/tree.c:urkel_tx_inject", "src/tree.c:urkel_tree_commit"]}
{"id": "C26", "title": "Concurrent use never deadlocks", "statement": "Threads that each call API functions on shared transactions of one database (no iterator left open) always make progress: no interleaving blocks a set of threads forever.", "quantifier": "all schedules of all API calls on any number of transactions and threads", "why_tests_cant": "A deadlock needs one precise interleaving.", "anchors": ["src/tree.c:urkel_tx_prove", "src/tree.c:urkel_tx_commit", "src/tree.c:urkel_tx_create"]}
{"id": "C27", "title": "Lock discipline", "statement": "In every interleaving, a call that modifies a transaction, the database state or the root cache excludes every other call reading or modifying the same object; read-only calls may overlap.", "quantifier": "all schedules, any number of threads", "why_tests_cant": "Data races need every interleaving.", "anchors": ["src/tree.c", "src/store.c"]}
{"id": "C28", "title": "Concurrent readers never crash", "statement": "Any number of threads may read (get, has, prove, iterate) from one database at the same time without aborting the process.", "quantifier": "all schedules", "why_tests_cant": "The failing interleaving is a window of a few instructions while a data file is opened lazily.", "anchors": ["src/store.c:urkel_store_open_file", "src/store.c:urkel_filemap_insert", "src/store.c:urkel_filemap_lookup"]}
{"id": "C29", "title": "No acknowledged update is lost", "statement": "If urkel_insert(k, v) returned 1 and nothing later removes or overwrites k, urkel_get(k) returns v, also when several threads insert different keys concurrently.", "quantifier": "all schedules of concurrent urkel_insert/urkel_remove calls", "why_tests_cant": "Lost updates need an interleaving between the internal transaction creation and commit.", "anchors": ["src/tree.c:urkel_insert", "src/tree.c:urkel_tx_commit"]}
{"id": "C30", "title": "Corrupt files produce errors, not crashes", "statement": "Whatever bytes the data files contain, get, has, insert, remove, prove and iterate terminate and either succeed or fail with a documented error; they never abort or read out of bounds.", "quantifier": "all file contents", "why_tests_cant": "Arbitrary corruption is an unbounded input space.", "anchors": ["src/nodes.c:urkel_node_read", "src/store.c:urkel_store_read_node", "src/tree.c:urkel_tree_get", "src/bits.c:urkel_bits_init"]}
{"id": "C31", "title": "Data lands where its pointers say", "statement": "Every value and node written in a commit is afterwards found, byte for byte, at the file number and offset recorded for it, across any number of file rollovers and intermediate flushes, and no data file exceeds 0x7ffff000 bytes.", "quantifier": "all sequences of writes and flushes, all starting offsets", "why_tests_cant": "The boundary is at 2 GB per file and 64 MB per flush.", "anchors": ["src/store.c:urkel_slab_write", "src/store.c:urkel_store_flush", "src/store.c:urkel_store_write"]}
{"id": "C32", "title": "The commit record is always found again", "statement": "Every commit record is written at an offset that the recovery scan examines.", "quantifier": "all file positions at which a commit can start", "why_tests_cant": "Only the last 30 byte positions of a 2 GB file behave differently.", "anchors": ["src/store.c:urkel_store_write_meta", "src/store.c:urkel_slab_write", "src/store.c:urkel_store_find_meta"]}
{"id": "C33", "title": "Data file names are faithful", "statement": "File number to name and back is the identity for every 32-bit number, names sort in numeric order, and a name is recognised exactly when it is ten decimal digits denoting a 32-bit number.", "quantifier": "all 32-bit numbers and all strings", "why_tests_cant": "2^32 numbers and unbounded strings.", "anchors": ["src/util.c:urkel_parse_u32", "src/util.c:urkel_serialize_u32", "src/store.c:urkel_store_find_index"]}
{"id": "C34", "title": "Open files are bounded and the write file is never evicted", "statement": "After a commit at most 32 data files are held open, eviction terminates for every random choice, and it never closes the file being written.", "quantifier": "all sets of open files, all random numbers", "why_tests_cant": "Needs more than 32 files of 2 GB.", "anchors": ["src/store.c:urkel_store_evict", "src/store.c:urkel_store_close_file"]}
{"id": "C35", "title": "Opening never destroys committed data", "statement": "urkel_open never deletes or truncates bytes belonging to a committed state, even when system calls fail transiently.", "quantifier": "all I/O failure points during open", "why_tests_cant": "Needs failure injection at each system call of recovery.", "anchors": ["src/store.c:urkel_store_recover_state", "src/store.c:urkel_store_find_meta"]}
{"id": "C36", "title": "The hash is BLAKE2b (RFC 7693), independent of chunking", "statement": "For every digest size from 1 to 64 bytes and every key of up to 64 bytes, feeding a message to the hash in any split gives the digest that RFC 7693 defines for the whole message, with exactly the requested length; other sizes are refused.", "quantifier": "all messages, all splits, all digest and key sizes", "why_tests_cant": "Every block-boundary alignment of every split.", "anchors": ["src/blake2b.c:urkel_blake2b_update", "src/blake2b.c:urkel_blake2b_final", "src/util.c:urkel_hash_raw"]}
{"id": "C37", "title": "Hex conversion in the CLI is faithful", "statement": "Decoding an encoded byte string gives it back; decoding accepts exactly even-length strings of hex digits that fit the buffer.", "quantifier": "all byte strings and all character strings", "why_tests_cant": "Unbounded inputs.", "anchors": ["src/urkel.c:urkel_base16_encode", "src/urkel.c:urkel_base16_decode"]}
{"id": "C38", "title": "Reads do not change anything", "statement": "get, has, root, prove and iteration leave contents, root hash and every later answer unchanged (they may only fill caches).", "quantifier": "all states and all subsequent histories", "why_tests_cant": "Hash caching mutates nodes during prove/root; the absence of an observable effect is universal.", "anchors": ["src/nodes.c:urkel_node_hash", "src/tree.c:urkel_tx_prove", "src/tree.c:urkel_tx_root"]}
{"id": "C39", "title": "Creation is crash safe", "statement": "If the process dies at any point while a new database is being created, a later urkel_open succeeds.", "quantifier": "all crash points of the first urkel_open", "why_tests_cant": "Needs a crash between creating and filling the key file.", "anchors": ["src/store.c:urkel_store_init_meta", "src/io.c:urkel_fs_write_file"]}
{"id": "C40", "title": "One process at a time", "statement": "At any time at most one process holds a given database open.", "quantifier": "all interleavings of open/close by any number of processes", "why_tests_cant": "Races around removing the lock file need exact interleavings.", "anchors": ["src/store.c:urkel_store_init_lock", "src/store.c:urkel_store_clear", "src/io.c:urkel_fs_open_lock", "src/io.c:urkel_fs_close_lock"]}
{"id": "C41", "title": "Bit prefixes behave as bit strings", "statement": "The packed bit-prefix operations used by all tree operations (count, has, slice, split, collide, join) compute exactly the corresponding operations on bit strings and never touch memory outside the 32-byte arrays, for every prefix of 0..256 bits and every depth.", "quantifier": "all prefixes, keys and depths", "why_tests_cant": "256-bit keys and all offsets within bytes.", "anchors": ["src/bits.c", "src/bits.h"]}
{"id": "C42", "title": "The verifier's reported error is the documented one", "statement": "When urkel_verify rejects, the error code identifies the cause: EINVAL for an undecodable proof, ESAMEPATH/ESAMEKEY for an absence proof that does not exclude the key, ENEGDEPTH/ETOODEEP for a wrong depth, EPATHMISMATCH for a prefix not on the key's path, EHASHMISMATCH otherwise; exists and value length are 0.", "quantifier": "all byte strings, keys and roots", "why_tests_cant": "Error precedence over an unbounded input space.", "anchors": ["src/proof.c:urkel_proof_verify", "src/tree.c:urkel_verify", "doc/api.md"]}
{"id": "C43", "title": "Path normalisation", "statement": "The database path is reduced to the canonical absolute path: no empty, '.' or '..' components remain, the result never grows and names the same directory as the component-wise interpretation of the input.", "quantifier": "all path strings", "why_tests_cant": "In-place rewriting with two cursors over unbounded strings.", "anchors": ["src/io_posix.c:urkel_path_normalize", "src/io_posix.c:urkel_path_resolve"]}
{"id": "C44", "title": "Resetting and re-creating transactions", "statement": "urkel_tx_destroy of a transaction discards exactly its uncommitted changes: the database and every other transaction are as if it had never existed.", "quantifier": "all histories", "why_tests_cant": "Aliasing of shared nodes across transactions.", "anchors": ["src/tree.c:urkel_tx_destroy", "src/tree.c:urkel_tx_clear"]}
{"id": "C45", "title": "A commit reported as failed never becomes the database state", "statement": "If urkel_tx_commit (or urkel_insert/urkel_remove) returns failure, no later call, reopening or crash recovery makes the failed transaction's contents the state of the database: only commits that reported success ever become current.", "quantifier": "all histories, all failing system calls, all later calls and crashes", "why_tests_cant": "Depends on which system call fails and on what stays in the write buffer until a later flush.", "anchors": ["src/store.c:urkel_store_commit", "src/store.c:urkel_store_flush", "src/tree.c:urkel_tx_commit"]}
{"id": "C46", "title": "Path buffers are large enough", "statement": "For every database path urkel_open accepts, building the name of the lock file, the key file or any data file stays inside the fixed-size path buffer; urkel_destroy, whose check is the same, stays inside its own buffer whatever the directory contains.", "quantifier": "all path arguments, all working directories, all 32-bit file numbers, all directory contents", "why_tests_cant": "only a path of one particular length overruns the buffer, by one byte; tests use short paths", "anchors": ["src/store.c:urkel_store_init_prefix", "src/store.c:urkel_store_path", "src/store.c:urkel_store_path_index", "src/store.c:urkel_store_destroy", "src/io.h:URKEL_PATH_MAX"]}
{"id": "C47", "title": "Node memory is neither misused nor leaked", "statement": "In every session of permitted API calls (transactions, commits, failing system calls, crashes, iterators destroyed at any point), no call reads, writes or frees node memory that is not allocated, no two live transactions share node memory, and everything allocated belongs to a live transaction: when all transactions have been destroyed nothing is left allocated.", "quantifier": "all histories of permitted calls, all trees, all failing system calls and crash points, all points at which an iterator is destroyed", "why_tests_cant": "Ownership passes between partly resolved trees and depends on their shape, on which nodes are only hashes, and on which call failed.", "anchors": ["src/nodes.c:urkel_node_destroy", "src/tree.c:urkel_tree_insert", "src/tree.c:urkel_tree_remove", "src/tree.c:urkel_tree_write", "src/tree.c:urkel_tx_destroy", "src/tree.c:urkel_iter_destroy", "src/store.c:urkel_store_resolve"]}
{"id": "C48", "title": "Files are read and written faithfully whatever the operating system does", "statement": "Whatever the read, write, mmap and related system calls do (fail, be interrupted, transfer fewer bytes than asked), a read from a data file returns exactly the bytes stored at that position or reports failure, a write that reports success has appended exactly its data, a write that fails has appended a beginning of it, and the key file is read back as written or not at all; interruptions, short transfers and memory mapping alone are invisible: every operation then succeeds exactly when it would on a perfect file.", "quantifier": "all sequences of opens, reads, writes and closes, all behaviours of every system call", "why_tests_cant": "Tests cannot make the kernel interrupt or shorten each call in every combination.", "anchors": ["src/io_posix.c:urkel_fs_read", "src/io_posix.c:urkel_fs_write", "src/io_posix.c:urkel_fs_pread", "src/io_posix.c:urkel_file_open", "src/io_posix.c:urkel_file_pread", "src/io_posix.c:urkel_file_write", "src/io.c:urkel_fs_read_file", "src/io.c:urkel_fs_write_file"]}
{"id": "C49", "title": "A failing read is reported and changes nothing", "statement": "When a read of the data files fails during an API call (I/O error, no memory for the mapping, too many open files), the call either still gives its right answer and effect or reports an error; an error leaves the data files, the database and every transaction as they were, so that all later calls, including the same call repeated, give the right answers; no failing read makes a call crash, or answer that a stored key is absent.", "quantifier": "all histories of calls, failing commits and crashes, all API calls, every subset of the reads of every call failing", "why_tests_cant": "Tests cannot make each read of each call fail after every history.", "anchors": ["src/store.c:urkel_store_read", "src/store.c:urkel_store_read_history", "src/store.c:urkel_store_resolve", "src/tree.c:urkel_tree_get", "src/tree.c:urkel_tree_insert", "src/tree.c:urkel_tree_remove", "src/tree.c:urkel_tree_prove", "src/tree.c:urkel_inject"]}
{"id": "C50", "title": "Iterating with read failures loses nothing silently", "statement": "Whichever reads fail while a transaction is iterated, the calls of urkel_iter_next return its records in key order with their exact values, except that a call may report ECORRUPTION in place of a run of records (at most one such call per failing read); EITEREND is reported only when no record is left. In particular an iteration that ends without ECORRUPTION has returned every record.", "quantifier": "all histories, all transactions iterable under C15, all sets of failing reads, any number of calls", "why_tests_cant": "Every subset of the reads of every iteration over every tree shape.", "anchors": ["src/tree.c:urkel_iter_seek", "src/tree.c:urkel_iter_next", "src/store.c:urkel_store_resolve", "src/store.c:urkel_store_retrieve"]}
{"id": "C51", "title": "Processes taking turns see each other's commits", "statement": "When a process has committed and closed the database, every urkel_open that succeeds later, by any process, shows that commit (and the whole history), and its own commits extend it.", "quantifier": "all interleavings of the steps of urkel_open, calls and urkel_close by any number of processes, the lock itself being exclusive", "why_tests_cant": "urkel_open reads the key file and counts the data files before it takes the lock; only exact interleavings of several processes show it.", "anchors": ["src/store.c:urkel_store_init", "src/store.c:urkel_store_init_meta", "src/store.c:urkel_store_find_index", "src/store.c:urkel_store_recover_state"]}
{"id": "C52", "title": "An open iterator is a stable snapshot and does not block reading", "statement": "While an iterator is open, neither its transaction nor the database changes, whatever all threads do: it returns the records the transaction held, in key order, then EITEREND. Calls that would change them wait until it is destroyed. Every other call, in particular reading in the thread that iterates, completes.", "quantifier": "all interleavings of any number of threads making any calls and creating, using and destroying any number of iterators, all lock scheduling policies", "why_tests_cant": "Iterators keep read locks between calls; whether a call gets through depends on what every other thread holds and waits for and on the scheduling policy of the locks.", "anchors": ["src/tree.c:urkel_iter_create", "src/tree.c:urkel_iter_next", "src/tree.c:urkel_iter_destroy", "src/tree.c:urkel_iterate", "src/tree.c:urkel_tx_create", "src/io_posix.c:urkel_rwlock_rdlock"]}
{"id": "C53", "title": "The root cache is a map, whatever the roots hash to", "statement": "The cache of roots (urkel_inject, urkel_tx_inject, commits, opening) answers every lookup with the node first stored under that 32-byte root hash, and with nothing if there is none, even if the 32-bit bucket hashes of all roots collide; no operation leaves the table's arrays, loops for ever or loses a root in a rebuild; every node handed to the cache is freed exactly once.", "quantifier": "all sequences of lookups and insertions with any root hashes, all bucket hash functions, all table sizes", "why_tests_cant": "Tests insert a few dozen roots with spread-out hashes; collision chains, rebuild order and the size limit need adversarial roots or billions of commits.", "anchors": ["src/khash.h:__KHASH_IMPL", "src/store.c:urkel_cache_lookup", "src/store.c:urkel_cache_insert", "src/store.c:urkel_cache_clear", "src/util.c:urkel_murmur3"]}
{"id": "C54", "title": "Acknowledged commits survive a power failure", "statement": "After a commit has been reported as successful and the power fails, at once or during a later call, with whatever part of the data written since the last synchronisation on the disk, urkel_open shows that commit or a later one, with all its contents.", "quantifier": "all histories, all power failures, all subsets of the unsynchronised bytes reaching the disk, with and without URKEL_FSYNC", "why_tests_cant": "Tests cannot cut the power between two sectors; kernels reorder write-back, so every subset of the unsynchronised data is possible.", "anchors": ["src/store.c:urkel_store_commit", "src/store.c:urkel_store_write", "src/store.c:urkel_store_sync", "src/store.c:urkel_store_recover_state", "src/io_posix.c:urkel_fs_fsync"]}
{"id": "C55", "title": "urkel_destroy removes the database and nothing else", "statement": "urkel_destroy reports success exactly when the directory is gone; it never touches entries other than the lock, the key and the data files; if it fails, the database is as before; if the database is in use it fails; if the process dies in the middle, a later urkel_open never shows an older state of the database, and urkel_destroy can be repeated.", "quantifier": "all directory contents, all failures of system calls, all crash points", "why_tests_cant": "Tests destroy small directories of their own; failures of individual system calls, foreign entries and crash points between two unlinks are not exercised.", "anchors": ["src/tree.c:urkel_destroy", "src/store.c:urkel_store_destroy", "src/io_posix.c:urkel_fs_scandir", "src/store.c:urkel_store_find_index"]}
{"id": "C56", "title": "An open database cannot be opened or destroyed again", "statement": "While a database is open, every other urkel_open or urkel_destroy of its directory fails, in the same process as well as in others, and such a failing attempt does not end the protection.", "quantifier": "all interleavings of open, close and destroy through any number of handles in any number of processes", "why_tests_cant": "fcntl locks behave differently inside one process; the effect of a failing second open on the lock only shows with a third party at the right time.", "anchors": ["src/io_posix.c:urkel_fs_flock", "src/io.c:urkel_fs_open_lock", "src/io.c:urkel_fs_close_lock", "src/store.c:urkel_store_init", "src/store.c:urkel_store_destroy"]}
{"id": "C57", "title": "The command line program reports the map", "statement": "For every command line, `urkel` either prints a usage or error message, changes nothing and exits with non-zero status (zero for --help), or does what its action, key, value, --path/$URKEL_PATH and --root say: what it prints and its exit status are those of the key/value map obtained from the commands run before (over any number of runs and directories); the output of `prove` is accepted by `verify`; `info --root` describes the requested snapshot; and commands that only read change nothing on disk.", "quantifier": "all argument lists, environments, working directories, and sequences of earlier runs", "why_tests_cant": "Arguments are arbitrary strings in any order and the answers depend on the whole history of previous runs.", "anchors": ["src/urkel.c:main", "src/urkel.c:urkel_main", "src/urkel.c:urkel_options_init", "src/urkel.c:urkel_base16_print", "src/urkel.c:urkel_base16_decode"]}
{"id": "C58", "title": "Verifying a proof leaves no memory behind", "statement": "urkel_verify on any byte string, key and root releases exactly once everything it allocates, so that checking proofs received from strangers does not make the process grow.", "quantifier": "all proof strings (well formed or not), keys, roots, and sequences of calls", "why_tests_cant": "The leak depends on where in the byte string parsing stops; tests check verdicts, not the heap, and only a few malformed proofs.", "anchors": ["src/proof.c:urkel_proof_read", "src/proof.c:urkel_proof_clear", "src/proof.c:urkel_proof_push", "src/tree.c:urkel_verify"]}
{"id": "C59", "title": "What a session acquires is released", "statement": "From urkel_open to urkel_close (and in urkel_destroy), whatever system calls fail and whatever is called in between, every block of memory, file descriptor, mapping, directory stream and lock is released exactly once and never used afterwards; after urkel_close only the transactions, iterators and proofs the caller has not given back remain; a failing urkel_open leaves nothing behind.", "quantifier": "all sequences of calls and all answers of the operating system to every system call", "why_tests_cant": "The release of each resource depends on which of hundreds of calls fails; there is no fault injection in the tests.", "anchors": ["src/tree.c:urkel_open", "src/tree.c:urkel_close", "src/tree.c:urkel_destroy", "src/tree.c:urkel_tx_create", "src/tree.c:urkel_iter_create", "src/store.c:urkel_store_init", "src/store.c:urkel_store_clear", "src/store.c:urkel_store_evict", "src/io_posix.c:urkel_file_open", "src/io_posix.c:urkel_file_close", "src/io_posix.c:urkel_fs_scandir"]}
{"id": "C60", "title": "A commit writes only what changed", "statement": "The data files grow only with updates and commits: a commit appends at most 75 bytes (record and padding), plus for each update of the transaction at most one 113-byte node record per level of the tree above the key (one more for an insertion) and for an insertion a 40-byte leaf record and the value. Records that did not change are not written again, whatever the size of the database; reading, proving, opening transactions, abandoning them and reopening write nothing.", "quantifier": "all histories, all sequences of calls on any number of transactions, all contents", "why_tests_cant": "Tests compare answers, not the amount written; the bound must hold for every shape of tree and every interleaving of transactions.", "anchors": ["src/tree.c:urkel_tree_write", "src/tree.c:urkel_tree_insert", "src/tree.c:urkel_tree_remove", "src/tree.c:urkel_tree_commit", "src/nodes.c:urkel_node_write", "src/store.c:urkel_store_write_node", "src/store.c:urkel_store_write_value", "src/store.c:urkel_store_commit"]}
{"id": "C61", "title": "Damage stays local", "statement": "A lookup in an open database depends on few bytes of the data files: get, has and prove of a key read at most min(257, n) + 1 stretches (n the number of keys), together at most 113*min(257, n) + 1023 bytes; looking up a root by its hash reads at most three more stretches, 1174 bytes, per commit. An insertion into or removal from a transaction reads at most 2*min(257, n) + 1 stretches of at most 113 bytes, on the path of the key. Whatever happens to all the other bytes of the data files (bad sectors, overwritten nodes of other keys), get, has and prove of that key give the same answers, bit for bit the same proof, which verifies; and the update succeeds in the same way. A commit reads no file at all: whatever the bytes already there have become, it answers the same and adds the same bytes.", "quantifier": "all sessions, all transactions and roots, all keys, all replacements of the data files that spare the stretches read", "why_tests_cant": "Tests can damage a few chosen bytes; the claim is about every possible damage outside the stretches read, for every tree shape.", "anchors": ["src/tree.c:urkel_tree_get", "src/tree.c:urkel_tree_prove", "src/tree.c:urkel_tx_create", "src/store.c:urkel_store_read", "src/store.c:urkel_store_resolve", "src/store.c:urkel_store_retrieve", "src/store.c:urkel_store_read_root", "src/store.c:urkel_store_read_history", "src/tree.c:urkel_tree_insert", "src/tree.c:urkel_tree_remove", "src/tree.c:urkel_tree_commit", "src/store.c:urkel_store_commit"]}
{"id": "C62", "title": "A crash of a multithreaded program loses no commit", "statement": "When a process whose threads share one database dies at any moment, also in the middle of a commit, opening the database shows the contents after the calls that had taken effect, made one after the other in the order in which they took effect, with or without the commit during which the process died: never a mixture of two threads' updates. Every commit that had taken effect, hence every commit that had returned to its thread, is there and readable under its root.", "quantifier": "all programs of all threads, all schedules and lock policies, all points of the crash, all cuts of the bytes being written", "why_tests_cant": "Schedules and crash points multiply; the claim is about all combinations.", "anchors": ["src/tree.c:urkel_tx_commit", "src/tree.c:urkel_tx_get", "src/tree.c:urkel_tx_create", "src/store.c:urkel_store_commit", "src/store.c:urkel_store_write_meta", "src/store.c:urkel_store_init"]}
{"id": "C63", "title": "A copy of the files made while the database is in use", "statement": "A backup program that lists the directory once and then copies the files listed, in any order and with reads of any size, while the process goes on committing, obtains a database that opens and shows the contents after one of the commits: one not older than the last commit that had returned before the copying began; everything committed before that is readable under its root. A program that copies file after file, looking for the next number when it has finished one, obtains a usable copy too.", "quantifier": "all databases, all sequences of calls made during the copying, all interleavings of reads and (partially visible) writes, all orders of the files", "why_tests_cant": "Interleavings at byte granularity; the case that fails needs a data file of two gigabytes.", "anchors": ["src/store.c:urkel_store_write", "src/store.c:urkel_store_flush", "src/store.c:urkel_store_write_meta", "src/store.c:urkel_store_recover_state", "src/store.c:urkel_store_find_meta"]}
{"id": "C64", "title": "What has been written is never changed", "statement": "The data files are append-only. Whatever calls are made on an open database, and whatever system calls fail, every byte that is in the data files stays as and where it is, at every moment; opening a database, whatever its directory contains, only cuts the ends of files and removes the last ones. Across any number of crashes, power failures and openings the bytes present when the last commit had returned stay in place, and every committed version stays readable under its root.", "quantifier": "all states of the handle, all sequences of calls, all failures of system calls; all directory contents; all sequences of sessions and crashes", "why_tests_cant": "Quantifies over all later histories of a database.", "anchors": ["src/store.c:urkel_store_write", "src/store.c:urkel_store_flush", "src/store.c:urkel_store_recover_state", "src/store.c:urkel_store_find_meta", "src/io_posix.c:urkel_file_write"]}
{"id": "C65", "title": "The write buffer stays inside its memory", "statement": "Committing, and failing to commit, any number of times never makes the library read or write outside the blocks it has allocated for data waiting to be written, on any platform; what a flush writes is exactly what the calls before it have put there; if memory runs out the program stops, and it does not need more than one and a half times what is waiting.", "quantifier": "all sequences of calls, all transaction and value sizes, all ways in which writing can fail, all sizes of memory", "why_tests_cant": "The buffer grows by reallocation and rolls over between files of 2 GB, after failures it keeps growing; the sizes at which arithmetic wraps around take more than a million failing commits.", "anchors": ["src/store.c:urkel_slab_write", "src/store.c:urkel_store_flush", "src/store.c:urkel_store_write_node", "src/store.c:urkel_store_write_value", "src/store.c:urkel_store_write_meta", "src/store.c:urkel_slab_init", "src/internal.h:checked_realloc"]}
