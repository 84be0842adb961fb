# Formal model of chjj/liburkel: design

The deliverable is a Rocq (Coq 8.16.1) development in `rocq/theories/` (logical
name `Verif`).  Every definition of the *model* carries a comment with the file and
lines of `/repo/src` it transcribes.  The *specification* (`Spec.v`) is a small
separate file: byte strings, key/value maps, lexicographic order, the reference
Merkle root of `doc/tree.md`, the abstract database.  Property theorems live in
`Properties_*.v`, which contain nothing but statements closed by `exact`,
`Print Assumptions`, and `Example`s showing that the hypotheses are met.

## 1. How the code is modelled

| layer | file | code | representation |
|---|---|---|---|
| outcomes | `Prelude.v` | - | `res A := Ok a / Fail errno / Abort / UB / NoFuel`.  `Abort` is a failed `CHECK`/`urkel_abort`, `UB` an out-of-bounds access or use of freed memory, `NoFuel` the model's own recursion bound (proved unreachable). |
| bits | `Bits.v` | bits.c/h | packed `{bsize; bdata}` with byte-level get/set, every access bounds-checked (UB) and every CHECK kept (Abort); refinement to `list bool`. |
| hash | `Blake2b.v`, `Vectors.v`, `Rfc7693.v` (specification), `HashFacts.v` | blake2b.c, util.c hashing | executable BLAKE2b on 64-bit words (wrap-around explicit), streaming init/update/final; test vectors. |
| codecs | `Node.v`, `Codec.v` | util.h, nodes.c, proof.c | little-endian ints, 7-byte pointers, nodes, bit prefixes, proofs, as byte lists. |
| trees | `Ptree.v`, `Tree.v` | tree.c 78-554 | nodes with hash/written flags as options; get/insert/remove/prove/write with the node resolver (`rd : ptr -> option bytes`) a parameter. |
| store | `Store.v` | store.c | files as byte lists, slab with offsets/steps, flush, rollover, meta records, history walk, recovery scan; each system call consumes one event from an explicit oracle (success, clean failure, short write, mmap failure). |
| io | `Io.v`, `Scan.v` | io_posix.c 893-1000, 1079-1185, io.c 17-57, store.c 979-1064 | system calls as schedules (error, interrupted, n bytes), mmap as the mapped length; the recovery scan through its buffer, with the structure it fills in; both are proved to refine `Store.v`. |
| read faults | `ReadFault.v`, `ReadIter.v` | store.c 508-862, tree.c 78-477, 646-1066, 1090-1284 | the functions of `Tree.v`, `Store.v`, `Db.v`, `Iter.v` with every read allowed to fail; equal to them when none does. Opening is in `Scan.v`. |
| backup | `Backup.v` | none (a program outside the library); uses store.c 528-551 through `Store.v` | directory listing, partial reads and partially visible writes in any interleaving with the library's operations |
| buffer blocks | `Slab.v` | store.c 50-61, 150-210, 715-745 | the allocated arrays `data` and `offsets`, realloc with arbitrary new contents, wrap-around of size_t; allocations beyond a given size fail |
| API | `Db.v` | tree.c 581-1084 | a world (database + numbered transactions), one `step` per API call. |
| iterator | `Iter.v` | tree.c 1090-1284 | explicit stack of 256 entries, push CHECK kept. |
| memory | `Heap.v` | nodes.c 210-371, tree.c 78-575, 831-1284, store.c 609-671 | the same functions once more on a heap of cells with malloc and free; addresses are never reused, so use after free and double free are always `UB`. |
| executions | `Exec.v` | - | all histories: permitted calls, failing system calls, crashes at any byte of any call, crashes during recovery, power failures with writes reaching the disk in part (in order). |
| concurrency | `Conc.v`, `Race.v` | lock calls of tree.c and store.c | threads inside calls, small-step interleavings over read/write locks with an arbitrary grant policy; the file map with its own lock. |
| power failures | `Power.v`, `Exec.v` (`power_loss`) | store.c 522-551, 777-800 | which bytes are synchronised; of the others any subset is on the disk, the rest reads as zero or is missing. |
| urkel_destroy | `Destroy.v` | tree.c 615-621, store.c 1152-1212, io_posix.c 584-590 and 724-853 | directories by name, each system call may fail; path length is `Path.v`. |
| handles and fcntl locks | `Handles.v` | io.c 55-76, io_posix.c 1035-1072, store.c 962-976, 1086-1131, 1174-1204 | locks per process and file; only the lock protocol. |
| command line program | `Cli.v` | urkel.c 111-131, 140-165, 218-398, 413-606, 613-633 | printing and allocation succeed; the usage text is a parameter; only the directories given to it exist. Spec in `CliSpec.v`. |
| proof verification memory | `Alloc.v`, `ProofMem.v` | proof.c 25-48, 140-274, tree.c 770-810, internal.h 140-158 | proof nodes as heap blocks; what is computed is `Ptree.v`'s. |
| resources of a session | `Alloc.v`, `Resources.v` | tree.c 581-621, 667-940, 1022-1132, 1290-1295, store.c 150-303, 309-379, 436-551, 574-607, 715-1212, io.c, io_posix.c 464-516, 724-853, 1069-1212, 1314-1354, util.c 150-168 | blocks, descriptors, mappings, directory streams, locks; no data: every decision that depends on data or on a system call is an arbitrary answer. |
| values of 256..1023 bytes | `Long.v` | (specification and proofs only) | the functions of Tree.v, Store.v and Db.v with the size truncation they model; `clip` is the value read back. |
| reads of a lookup | `Local.v` | tree.c 78-148, 383-477, store.c 508-520, 574-607, 841-859 | the pointers the functions of Tree.v and Store.v hand to urkel_store_read, in order. |
| root cache | `Khash.v` | khash.h 165-348, store.c 309-379, util.c 182-232 | the hash table itself: flag words, triangular probing, kick-out rehashing, double-precision load bound; `Store.v` uses an association list, shown equivalent (C53). |
| iterators and threads | `ConcIter.v` | tree.c 812-829, 1090-1284 | the threads of `Conc.v` holding iterators' read locks between calls. |
| sessions | `Sessions.v` | store.c 892-976, 1028-1132 | several processes, one step per shared file access of urkel_open (key file, counting, lock and recovery); recovery with a count that may be out of date. |
| names | `Names.v`, `Path.v`, `Evict.v`, `Proc.v` | util.c, urkel.c, io_posix.c, store.c | decimal file names, hex, in-place path normalisation, file eviction, several processes creating, locking and destroying a database. |

Specification: `Spec.v`, `SpecDb.v` (abstract database and what each call does to it),
and `allowed`/`good` in `Exec.v`.  Proof files: `*Facts.v`, `Bridge.v`, `Sim.v`,
`Rollover.v`, `Limits.v`, `Corrupt.v`, `HeapOps.v`, `HeapDb.v`, `HeapSim.v`,
`HeapIter.v`; `Demo.v` holds the concrete runs used as examples; `Audit.v` prints
the assumptions of every property theorem.

The hash function.  Everything except `Blake2b.v` is parametric in
`H : list byte -> list byte` (Section variable, discharged as a universally
quantified argument) with the single hypothesis "32 output bytes"; security
statements assume that `H` has no collision *on the explicit finite list of
messages hashed by the objects in the statement* and that none of them hashes to
zero - never the (false) global injectivity, and never the bare existence of a
collision as a way out.  `Blake2b.v` supplies a concrete instance.

## 2. Trusted base

* Coq's kernel (8.16.1), `vm_compute` included.
* Axioms: `Print Assumptions` is printed below every property theorem; see section 4.
* Faithfulness of the transcription (no C is executed here).
* Modelling decisions:
  - memory allocation never fails (`checked_malloc` aborts, which is outside the model),
    except in `C59_no_memory_refuted`;
  - object lifetimes are modelled for node structures and leaf values (`Heap.v`), proof
    nodes (`ProofMem.v`), and everything else a session acquires (`Resources.v`).
    `urkel_store_read_root`'s temporary node lives on the C stack and its two children,
    freed by `urkel_node_clear`, are not cells of the model;
  - `size_t`/`uint64_t` arithmetic on lengths is unbounded where the code bounds it
    below 2^63; the narrowings that matter (`uint8_t`, `uint16_t`, `uint32_t`
    parameters, `write8/16/32`) are explicit `mod 2^n`;
  - POSIX back end only (io_posix.c); io_win.c is not modelled;
  - data files are appended atomically per system call up to a reported prefix;
    a process crash keeps a prefix of the issued writes, in order.  Loss of power
    (`Power.v`, C54), which may drop or keep any not yet synced write, is a separate model.
* Not modelled: io_win.c, directory permissions, `urkel_store__corrupt` (a test helper), timing.

## 3. Properties and plan

Status words: *prove* = full statement; *refute* = the faithful model violates it:
a `_refuted` theorem with a concrete execution, plus a `_partial` theorem for the
part that does hold.

| id | model | how |
|---|---|---|
| C01 | Tree, Db | refinement of get/insert/remove to a map by induction on the pure tree; lifted to operation sequences |
| C02 | Db | case analysis on the length guard; unchanged world |
| C03 | Tree, Db | refinement of remove |
| C04 | Ptree, Spec | `thash` of the well-formed tree of a finite map = `ref_root` |
| C05 | Ptree | well-formed trees with equal contents are equal |
| C06 | Ptree | structural induction under no-collision on the listed messages |
| C07 | Tree, Codec | prove then encode/decode/verify; induction on the tree |
| C08, C09 | Codec, Ptree | induction on the proof nodes from the root down |
| C10 | Codec | verify never Abort/UB/NoFuel; value length bound |
| C11 | Codec | decode (encode p) = p; length arithmetic |
| C12 | Codec | refute (bitmap padding bits are ignored) + partial: same decoded proof, bytes equal up to those bits |
| C13 | Codec | round-trips for nodes and pointers |
| C14 | Iter | loop invariant of the stack = remaining in-order contents |
| C15 | Iter | refute (130-level committed tree overflows the stack) + partial: depth bound under which it works |
| C16, C17, C20 | Store, Db | invariant: every meta record in the chain points to an on-disk tree; append-only monotonicity; recovery scan finds the last record |
| C18 | Store, Db, Long | refute (>= 256 bytes) + partial (<= 255) + exact answers after inserting or committing values of any accepted length (cut to length modulo 256, proofs refused) |
| C19, C17 (exact) | Exec, Sim, Properties_Lost | crash = any prefix of the bytes issued by any sequence of calls; opening finds the last state of the sequence that is completely in the remaining files and whose record is at a multiple of 38 (`survivor`); executions (`exec`) include such crashes and closings |
| C21, C38, C44 | Db | frame lemmas per step |
| C22, C23 | Store, Db | refute (dangling root; short write shifts offsets) + partial; FaultFacts.v runs a commit with arbitrary write failures side by side with the same commit without any: the files are always some crash image of the latter; Failures.v: what one failing commit does (`harm`) composes, so any number of them in a session |
| C24 | Db | refute after inject + partial when not reverted |
| C25 | Db | refute (urkel_inject of an unknown root clears an uninitialised node) + partial for known roots and urkel_tx_inject |
| C26, C27 | Conc | lock-order argument and linearizability over all interleavings and lock policies; C26 refuted by an explicit schedule |
| C28 | Race | refute with a schedule of two readers; partial: readers of distinct files |
| C29 | Conc | refute with a two-thread schedule; partial: no other commit in between |
| C30 | Tree, Codec | refute (abort on prefix size 257.., out-of-bounds key access) + termination and the guarded part |
| C31 | Store | slab/flush invariant: logical contents = physical ++ pending |
| C32 | Store | refute (padding rollover) + partial |
| C33 | Names | arithmetic on ten decimal digits |
| C34 | Evict | measure = number of open files |
| C35, C39, C40 | Store, Proc | refute with explicit failure/crash schedules + partial |
| C36 | Blake2b, Rfc7693, HashFacts | buffer invariant of the streaming state; then the block function word by word against `Rfc7693.v`, a specification written from the RFC (initial vector from square roots of primes, rotation as arithmetic, vectors as functions) |
| C37 | Names | round-trip |
| C41 | Bits | refinement lemmas |
| C42 | Codec | case analysis of verify against declarative causes |
| C43, C46 | Path, DestroyPath | invariant of the in-place normaliser; the buffers of open and destroy written byte by byte; C46 refuted for one path length |
| C45 | Store, Db | refute (remapping fails after the write); partial: closing after the failure (FaultFacts.v + crash_ok) |
| C47 | Heap | simulation of Db by Heap with separate footprints (`holds`, `moves`); ownership and leak freedom follow |
| C48 | Io | loops over arbitrary schedules of system call outcomes; invariant size/mapping <= file; simulation by a perfect file; refinement to Store's `file_write`/`st_rd` |
| C49 | ReadFault | the calls of Db.v with one schedule entry per `urkel_store_read`; every call equals its fault-free version or fails leaving the simulation of C01 intact; induction over histories with read faults |
| C50 | ReadIter | Iter.v with a schedule entry per read; the stack invariant of C14 (`below`), each call yields the next record or skips a non-empty run and consumes a failing read |
| C52 | ConcIter | invariant: iterators' read locks exclude writers; the answers given so far are those of an undisturbed iteration; refute the last sentence with two schedules |
| C53 | Khash | probe sequence visits every bucket; invariant of the table and of the middle of a rebuild (kick-out); simulation by a partial map |
| C54 | Exec, Power | recovery from any image in which records do not precede their nodes; refute with an early record and with a missing fsync |
| C55 | Destroy | the removed names are a prefix of the sorted listing; refute with a foreign file |
| C56 | Handles | invariant: lock holder = process of the handle inside; refute with two handles of one process |
| C57 | Cli, CliSpec | argument grammar (`CliSpec.v`) against the option loop by induction on argv; every run is an execution (`exec`) of the library from the directory left by the earlier runs, so the contents and answers are those of the map; refute two clauses with explicit runs |
| C58 | Alloc, ProofMem | separation-style accounting of blocks along the parse loop; the result is urkel_verify's; refute for malformed proofs, for any number of calls |
| C59 | Alloc, Resources | triples `uses P m S I` (held before, held after, frame unchanged) for every function, composed by a frame tactic; invariant of the file map; the environment's answers are arbitrary |
| C60 | Tree, Store, Db | potential function: bytes in the files plus the bytes the unwritten nodes of all open transactions will take (`wcost`); each call raises it by at most its price; insert and remove create at most one node per level (`spine`, at most `levels` of SpecDb), a node with a pointer costs nothing |
| C61 | Tree, Db, Store | `visited` (Local.v) lists the pointers get, has and prove read, one list for the three, `read_insert` and `read_remove` those of the updates; the answers are functions of the bytes at these pointers (`get_agree`, `prove_agree`); counted by induction on the represented tree; the walk over the commit records reads at most three extents per commit; Blind.v: two stores that differ only in the bytes of their files (`twin`) commit alike |
| C62 | Conc, Db, Store | C27 turns the execution into calls made one after the other; the step during which the process dies writes the bytes of one call (the tree lock excludes all others), so C19 applies to it; the history only grows, so what had been committed stays readable |
| C63 | Backup, Rollover, Sim | a copier process interleaved byte by byte with the calls; calls only append (`trail_grows`), so a copy from one listing is a cut of the final files and C19 applies; refute for a copier that looks for the next file number after each copy (a record in file 2 whose value lies in the part of file 1 written after file 1 was copied) |
| C64 | Backup, Db, Sim | every call other than reopening issues only appends and new files (`step_appends`, for every state of the handle and every failure of system calls); opening issues only cuts (`recover_shrinks`); across crashes the survivor's files contain those of the start (`onward`, the constructors of `exec` from a given state) |
| C65 | Slab, Store | blocks with explicit capacity, arithmetic modulo the width of size_t, out-of-range access = UB; relation `fits` between the blocks and the lists of Store.v, kept by every write and flush; every API call decomposes into such uses (`step_uses`); 32-bit: refuted by following the block's size through 35 reallocations |
| C51 | Sessions | refute with two scripts (stale count, key race) + partial: invariant linking the directory between sessions to `exec` |

## 4. Axioms

`Audit.v` runs `Print Assumptions` on every property theorem; the output is "Closed
under the global context" for all of them: no axioms, of the standard library or
otherwise, are used.  (`vcheck`'s whole-environment listing shows seven
`Coq.ssr.ssrunder.Under_rel.*` constants, module-type fields of a library file that
is loaded but that no theorem uses.)
