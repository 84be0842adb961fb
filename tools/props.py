# Generates /verif/properties.jsonl (kept so the list stays easy to extend).
import json, os
P = []
def p(id, title, statement, quantifier, why, anchors):
    P.append(dict(id=id, title=title, statement=statement, quantifier=quantifier,
                  why_tests_cant=why, anchors=anchors))

p("C01","A transaction is a finite map",
  "For every sequence of inserts and removes applied to a transaction, urkel_tx_get/urkel_tx_has of any 32-byte key return exactly what the sequence says a key/value map would return: the value of the last insert not followed by a remove, or ENOTFOUND; no operation aborts or reads out of bounds.",
  "all operation sequences of any length, all 32-byte keys, all values of at most 1023 bytes, all initial trees (in memory, on disk or mixed)",
  "Tests insert a fixed number of pseudo-random keys; adversarial shared prefixes of every length 0..255, splits and re-joins in every order cannot be enumerated.",
  ["src/tree.c:urkel_tree_get","src/tree.c:urkel_tree_insert","src/tree.c:urkel_tree_remove","src/tree.c:urkel_tx_get","src/tree.c:urkel_tx_insert","src/tree.c:urkel_tx_remove","src/bits.c"])
p("C02","Value size limit is enforced exactly",
  "urkel_tx_insert/urkel_insert accept every value of 0..1023 bytes and reject every longer one with EINVAL, and a rejected insert changes nothing observable.",
  "all value lengths, keys and tree states",
  "A test checks the two lengths next to the boundary on an empty tree, not every tree state and the absence of side effects.",
  ["src/tree.c:urkel_tx_insert","src/internal.h:URKEL_VALUE_SIZE"])
p("C03","Remove is exact",
  "urkel_tx_remove succeeds exactly when the key is present; on success only that key disappears; when the key is absent it fails with ENOTFOUND and the transaction (contents and root) is unchanged.",
  "all tree states and keys",
  "The collapse of a node after removal depends on the shape of the sibling subtree (leaf, internal, stored on disk), an unbounded set of shapes.",
  ["src/tree.c:urkel_tree_remove","src/bits.c:urkel_bits_join"])
p("C04","The root hash is the documented Merkle root of the contents",
  "urkel_tx_root returns the hash that doc/tree.md defines from the current key/value contents alone: zero for an empty tree, H(0x00||key||H(value)) for one record, and H(prefix-tagged prefix bits || left || right) over the split at the first differing bit otherwise.",
  "all operation sequences and therefore all reachable trees",
  "Tests compare a few root hashes; equality with a definition for every content set is a universal statement.",
  ["src/nodes.c:urkel_node_hash","src/util.c:urkel_hash_internal","src/util.c:urkel_hash_value","doc/tree.md","src/tree.c:urkel_tx_root"])
p("C05","History independence",
  "If two histories of inserts and removes lead to the same key/value contents then the root hash, every proof and the iteration order are byte-for-byte the same.",
  "all pairs of histories",
  "A test can compare some orders of some keys; the claim is about all orders of all histories.",
  ["README.md:History Independence","src/tree.c:urkel_tree_insert","src/tree.c:urkel_tree_remove"])
p("C06","The root hash binds the contents",
  "Two trees with the same root hash have the same contents, unless two different messages hashed while building them have the same hash or one of them hashes to all zeros.",
  "all pairs of trees, for every hash function",
  "The claim is a reduction to collision resistance; a test can only observe that no collision was met.",
  ["src/util.c:urkel_hash_internal","src/util.c:urkel_hash_leaf"])
p("C07","Every honest proof verifies",
  "For every tree and every key, urkel_tx_prove produces bytes which urkel_verify accepts under that tree's root for that key, reporting exists=1 with exactly the stored value when the key is present and exists=0 when it is absent.",
  "all trees, all keys (present, colliding with a leaf, cut short by a prefix, empty tree), all value sizes up to 1023",
  "Tests cover the existence case and one kind of absence for random keys.",
  ["src/tree.c:urkel_tree_prove","src/proof.c:urkel_proof_verify","src/proof.c:urkel_proof_write","src/proof.c:urkel_proof_read","src/tree.c:urkel_verify"])
p("C08","No false existence proof",
  "If urkel_verify accepts any byte string as a proof that key has value v under the root of some tree then that tree holds v at key, unless two different messages hashed by the tree and the verifier collide or one hashes to zero.",
  "all byte strings, all keys, all trees, every hash function",
  "The adversary chooses the bytes; testing samples nothing of that space.",
  ["src/proof.c:urkel_proof_verify","src/proof.c:urkel_proof_read","src/tree.c:urkel_verify"])
p("C09","No false absence proof",
  "If urkel_verify accepts any byte string as a proof that key is absent under the root of some tree then the tree does not hold key, under the same no-collision condition.",
  "all byte strings, all keys, all trees, every hash function",
  "As for C08; absence proofs have three forms with different failure modes.",
  ["src/proof.c:urkel_proof_verify"])
p("C10","The verifier is total on hostile input",
  "For every byte string of any length given as a proof, every 32-byte key and root, urkel_verify returns either success or one of the documented error codes; it never aborts, never reads outside the proof bytes or key, and never writes more than 1023 value bytes.",
  "all byte strings of all lengths",
  "Memory safety on adversarial input must hold for every input; fuzzing samples.",
  ["src/proof.c:urkel_proof_read","src/bits.c:urkel_bits_read","src/tree.c:urkel_verify"])
p("C11","Proof encoding round-trips and is bounded",
  "Decoding an encoded proof gives back the same proof, the announced length equals the number of bytes written, and no proof produced from a tree is longer than 17957 bytes.",
  "all proofs produced from all trees",
  "Depends on all prefix sizes, node counts up to 256 and all four proof types.",
  ["src/proof.c:urkel_proof_size","src/proof.c:urkel_proof_write","src/proof.c:urkel_proof_read","src/internal.h:URKEL_PROOF_SIZE"])
p("C12","A proof has one encoding",
  "For a given key and root, urkel_verify accepts at most one byte string for each answer it can certify (no third party can alter the bytes of a valid proof and keep it valid).",
  "all byte strings",
  "A malleable bit can sit anywhere in the encoding.",
  ["src/proof.c:urkel_proof_read","src/proof.c:urkel_proof_verify"])
p("C13","Stored nodes decode to what was encoded",
  "Every node and pointer the library writes to its files is read back as the same node and pointer, for every prefix length 0..255, file number, file position and record size the library can produce.",
  "all nodes and pointers in range",
  "The packing uses 15/31/10-bit fields and two size classes; boundaries multiply.",
  ["src/nodes.c:urkel_pointer_write","src/nodes.c:urkel_pointer_read","src/nodes.c:urkel_node_write","src/nodes.c:urkel_node_read"])
p("C14","Iteration is complete and ordered",
  "Calling urkel_iter_next until it fails returns every record of the snapshot exactly once, in strictly increasing key order, with its exact value, and then fails with EITEREND (as does every later call).",
  "all trees (in memory, on disk, mixed) whose iteration does not exceed the iterator's stack",
  "Order and completeness over every tree shape.",
  ["src/tree.c:urkel_iter_seek","src/tree.c:urkel_iter_next","src/tree.c:urkel_iter_push"])
p("C15","Iteration works on every tree the library can store",
  "Iterating never aborts the process, whatever keys the tree holds.",
  "all trees",
  "Only adversarially chosen keys build the deep paths that exhaust the iterator's fixed stack.",
  ["src/tree.c:urkel_iter_push","src/tree.c:tree_iter_t"])
p("C16","A committed transaction becomes the database state",
  "When urkel_tx_commit returns 1, urkel_root equals the transaction's root, a new transaction sees exactly the committed contents, and the committing transaction's own view is unchanged.",
  "all histories of any number of transactions and commits, whatever mixture of in-memory and stored nodes",
  "Commit rewrites every new node into pointers; correctness for every tree shape and file layout is universal.",
  ["src/tree.c:urkel_tree_write","src/tree.c:urkel_tree_commit","src/store.c:urkel_store_commit","src/store.c:urkel_store_flush"])
p("C17","Commits survive close and reopen",
  "After any history of successful commits, closing and reopening the database gives the same root and the same contents, and later commits continue correctly.",
  "all histories, all commit positions within files, any number of files",
  "File rollover happens at 2 GB: unit tests never get there; the scan for the last commit record depends on alignment.",
  ["src/store.c:urkel_store_write_meta","src/store.c:urkel_store_find_meta","src/store.c:urkel_store_recover_state","src/store.c:urkel_store_init"])
p("C18","Every accepted value is stored faithfully",
  "A value of any accepted length (0..1023 bytes) that was inserted and committed is returned unchanged, byte for byte and with the same length, by urkel_get, iteration and proofs.",
  "all values of at most 1023 bytes",
  "The length of a stored value is packed into a pointer; only lengths above 255 exercise the high bits, and the test that inserts 1023 bytes never reads them back.",
  ["src/nodes.c:urkel_node_save","src/store.c:urkel_store_write_value","src/store.c:urkel_store_retrieve"])
p("C19","Crash atomicity",
  "If the process dies at any byte of any write issued by a commit, reopening the database yields the state before the commit or the state after it, never a mixture and never an open failure; and a crash during recovery itself is recoverable in the same way.",
  "all crash points (every prefix of the bytes appended by a commit, including across file rollover), all prior histories",
  "The number of crash points grows with the data written; a test truncates one byte of one file.",
  ["src/store.c:urkel_store_flush","src/store.c:urkel_store_find_meta","src/store.c:urkel_store_recover_state","README.md:Crash Consistency"])
p("C20","Historical roots stay readable",
  "Every root hash that was ever committed can be opened with urkel_tx_create(tree, root) (or given to urkel_get/has/prove/iterate), in the same session or after reopening, and shows exactly the contents committed under it; a hash that was never committed and is not all zeros is refused with ENOTFOUND.",
  "all histories and all roots in them",
  "The lookup goes through an in-memory cache and a lazily walked chain of records on disk; every order of lookups is a different path.",
  ["src/store.c:urkel_store_read_history","src/store.c:urkel_store_get_history","src/tree.c:urkel_tx_create"])
p("C21","Snapshot isolation",
  "Nothing another transaction does (insert, remove, commit, inject, clear, destroy) changes what an open transaction reads, its root or its proofs.",
  "all interleavings of whole API calls on any number of transactions",
  "Sharing of stored nodes between transactions makes every interleaving of calls relevant.",
  ["src/tree.c:urkel_tx_create","src/tree.c:urkel_tree_commit","src/store.c"])
p("C22","A failed commit is harmless",
  "When urkel_tx_commit returns 0 (EBADWRITE), the database root and every other transaction are unchanged and the failed transaction can still be read, retried or destroyed.",
  "all I/O failure points",
  "Requires injecting an I/O failure at each write of each commit.",
  ["src/tree.c:urkel_tree_commit","src/tree.c:urkel_tx_commit","src/tree.c:urkel_insert"])
p("C23","A failed write does not damage later commits",
  "After a commit failed because a write failed or was cut short, later commits in the same session store data that reads back correctly.",
  "all I/O failure points followed by all histories",
  "Needs a short write followed by more work; positions of later records are computed, not observed.",
  ["src/store.c:urkel_store_flush","src/store.c:urkel_store_write","src/io_posix.c:urkel_file_write","src/io_posix.c:urkel_fs_write"])
p("C24","urkel_tx_clear equals a fresh transaction",
  "urkel_tx_clear(tx) leaves tx in the state urkel_tx_create(tree, NULL) would create at that moment.",
  "all database states, including after urkel_inject",
  "The documentation promises equivalence in every database state.",
  ["src/tree.c:urkel_tx_clear","src/tree.c:urkel_tx_create","doc/api.md"])
p("C25","Inject reverts to exactly the named root",
  "urkel_inject(tree, h) and urkel_tx_inject(tx, h) succeed exactly when h is all zeros or a committed root; afterwards urkel_root/urkel_tx_root return h, new transactions (resp. the transaction) see the contents committed under h; on failure (ENOTFOUND) nothing changes; and a commit made from an injected view becomes the new state.",
  "all histories",
  "Interaction of revert flag, cache and chain walk over all histories.",
  ["src/tree.c:urkel_inject","src/tree.c:urkel_tx_inject","src/tree.c:urkel_tree_commit"])
p("C26","Concurrent use never deadlocks",
  "Threads that each call API functions on shared transactions of one database (no iterator left open) always make progress: no interleaving blocks a set of threads forever.",
  "all schedules of all API calls on any number of transactions and threads",
  "A deadlock needs one precise interleaving.",
  ["src/tree.c:urkel_tx_prove","src/tree.c:urkel_tx_commit","src/tree.c:urkel_tx_create"])
p("C27","Lock discipline",
  "In every interleaving, a call that modifies a transaction, the database state or the root cache excludes every other call reading or modifying the same object; read-only calls may overlap.",
  "all schedules, any number of threads",
  "Data races need every interleaving.",
  ["src/tree.c","src/store.c"])
p("C28","Concurrent readers never crash",
  "Any number of threads may read (get, has, prove, iterate) from one database at the same time without aborting the process.",
  "all schedules",
  "The failing interleaving is a window of a few instructions while a data file is opened lazily.",
  ["src/store.c:urkel_store_open_file","src/store.c:urkel_filemap_insert","src/store.c:urkel_filemap_lookup"])
p("C29","No acknowledged update is lost",
  "If urkel_insert(k, v) returned 1 and nothing later removes or overwrites k, urkel_get(k) returns v, also when several threads insert different keys concurrently.",
  "all schedules of concurrent urkel_insert/urkel_remove calls",
  "Lost updates need an interleaving between the internal transaction creation and commit.",
  ["src/tree.c:urkel_insert","src/tree.c:urkel_tx_commit"])
p("C30","Corrupt files produce errors, not crashes",
  "Whatever bytes the data files contain, get, has, insert, remove, prove and iterate terminate and either succeed or fail with a documented error; they never abort or read out of bounds.",
  "all file contents",
  "Arbitrary corruption is an unbounded input space.",
  ["src/nodes.c:urkel_node_read","src/store.c:urkel_store_read_node","src/tree.c:urkel_tree_get","src/bits.c:urkel_bits_init"])
p("C31","Data lands where its pointers say",
  "Every value and node written in a commit is afterwards found, byte for byte, at the file number and offset recorded for it, across any number of file rollovers and intermediate flushes, and no data file exceeds 0x7ffff000 bytes.",
  "all sequences of writes and flushes, all starting offsets",
  "The boundary is at 2 GB per file and 64 MB per flush.",
  ["src/store.c:urkel_slab_write","src/store.c:urkel_store_flush","src/store.c:urkel_store_write"])
p("C32","The commit record is always found again",
  "Every commit record is written at an offset that the recovery scan examines.",
  "all file positions at which a commit can start",
  "Only the last 30 byte positions of a 2 GB file behave differently.",
  ["src/store.c:urkel_store_write_meta","src/store.c:urkel_slab_write","src/store.c:urkel_store_find_meta"])
p("C33","Data file names are faithful",
  "File number to name and back is the identity for every 32-bit number, names sort in numeric order, and a name is recognised exactly when it is ten decimal digits denoting a 32-bit number.",
  "all 32-bit numbers and all strings",
  "2^32 numbers and unbounded strings.",
  ["src/util.c:urkel_parse_u32","src/util.c:urkel_serialize_u32","src/store.c:urkel_store_find_index"])
p("C34","Open files are bounded and the write file is never evicted",
  "After a commit at most 32 data files are held open, eviction terminates for every random choice, and it never closes the file being written.",
  "all sets of open files, all random numbers",
  "Needs more than 32 files of 2 GB.",
  ["src/store.c:urkel_store_evict","src/store.c:urkel_store_close_file"])
p("C35","Opening never destroys committed data",
  "urkel_open never deletes or truncates bytes belonging to a committed state, even when system calls fail transiently.",
  "all I/O failure points during open",
  "Needs failure injection at each system call of recovery.",
  ["src/store.c:urkel_store_recover_state","src/store.c:urkel_store_find_meta"])
p("C36","Hashing is independent of chunking",
  "Feeding a message to the hash in any split gives the same digest as feeding it at once, and digests have exactly the requested length.",
  "all messages and all splits",
  "Every block-boundary alignment of every split.",
  ["src/blake2b.c:urkel_blake2b_update","src/blake2b.c:urkel_blake2b_final","src/util.c:urkel_hash_raw"])
p("C37","Hex conversion in the CLI is faithful",
  "Decoding an encoded byte string gives it back; decoding accepts exactly even-length strings of hex digits that fit the buffer.",
  "all byte strings and all character strings",
  "Unbounded inputs.",
  ["src/urkel.c:urkel_base16_encode","src/urkel.c:urkel_base16_decode"])
p("C38","Reads do not change anything",
  "get, has, root, prove and iteration leave contents, root hash and every later answer unchanged (they may only fill caches).",
  "all states and all subsequent histories",
  "Hash caching mutates nodes during prove/root; the absence of an observable effect is universal.",
  ["src/nodes.c:urkel_node_hash","src/tree.c:urkel_tx_prove","src/tree.c:urkel_tx_root"])
p("C39","Creation is crash safe",
  "If the process dies at any point while a new database is being created, a later urkel_open succeeds.",
  "all crash points of the first urkel_open",
  "Needs a crash between creating and filling the key file.",
  ["src/store.c:urkel_store_init_meta","src/io.c:urkel_fs_write_file"])
p("C40","One process at a time",
  "At any time at most one process holds a given database open.",
  "all interleavings of open/close by any number of processes",
  "Races around removing the lock file need exact interleavings.",
  ["src/store.c:urkel_store_init_lock","src/store.c:urkel_store_clear","src/io.c:urkel_fs_open_lock","src/io.c:urkel_fs_close_lock"])
p("C41","Bit prefixes behave as bit strings",
  "The packed bit-prefix operations used by all tree operations (count, has, slice, split, collide, join) compute exactly the corresponding operations on bit strings and never touch memory outside the 32-byte arrays, for every prefix of 0..256 bits and every depth.",
  "all prefixes, keys and depths",
  "256-bit keys and all offsets within bytes.",
  ["src/bits.c","src/bits.h"])
p("C42","The verifier's reported error is the documented one",
  "When urkel_verify rejects, the error code identifies the cause: EINVAL for an undecodable proof, ESAMEPATH/ESAMEKEY for an absence proof that does not exclude the key, ENEGDEPTH/ETOODEEP for a wrong depth, EPATHMISMATCH for a prefix not on the key's path, EHASHMISMATCH otherwise; exists and value length are 0.",
  "all byte strings, keys and roots",
  "Error precedence over an unbounded input space.",
  ["src/proof.c:urkel_proof_verify","src/tree.c:urkel_verify","doc/api.md"])
p("C43","Path normalisation",
  "The database path is reduced to the canonical absolute path: no empty, '.' or '..' components remain, the result never grows and names the same directory as the component-wise interpretation of the input.",
  "all path strings",
  "In-place rewriting with two cursors over unbounded strings.",
  ["src/io_posix.c:urkel_path_normalize","src/io_posix.c:urkel_path_resolve"])
p("C44","Resetting and re-creating transactions",
  "urkel_tx_destroy of a transaction discards exactly its uncommitted changes: the database and every other transaction are as if it had never existed.",
  "all histories",
  "Aliasing of shared nodes across transactions.",
  ["src/tree.c:urkel_tx_destroy","src/tree.c:urkel_tx_clear"])

with open(os.path.join(os.path.dirname(__file__),"..","properties.jsonl"),"w") as f:
    for x in P: f.write(json.dumps(x)+"\n")
print(len(P))
