(** * store.c: the write buffer, data files, commit records, recovery, root history.

    Data files 1..n of a database directory are a list of byte strings (file number i is
    element i-1).  Simplifications: the directory holds consecutively numbered files
    (urkel_store_find_index, store.c 933-960, refuses anything else at open); the file
    descriptor cache (filemap, eviction: Evict.v) has no effect on file contents and only
    the size recorded in the handle of the file being written ([st_size]) is kept: all
    other handles are opened on files that no longer change.  mmap is not modelled
    separately from pread. *)
From Verif Require Export Tree.
From Coq Require Import ZifyBool ZifyNat ZifyN.

(** store.c 22-35 *)
Definition MAX_FILE_SIZE : N := 0x7ffff000.
Definition MAX_FILES : N := 0x7fff.
Definition META_SIZE : nat := 38.
Definition META_MAGIC : N := 0x6d726b6c.
Definition WRITE_BUFFER : N := 67108864.

Definition blen (x : bytes) : N := N.of_nat (length x).

(** ** Files *)

(** File system operations, recorded as they happen (used to enumerate crash points). *)
Inductive fop : Type :=
| ONew                       (* open(O_CREAT) of the next data file *)
| OApp (i : nat) (x : bytes) (* write(2) of [x] at the end of file i+1 *)
| OCut (i n : nat)           (* ftruncate of file i+1 to n bytes *)
| ODrop.                     (* unlink of the last data file *)

Definition fget (fs : list bytes) (i : nat) : bytes := nth i fs [].
Definition apply_op (fs : list bytes) (o : fop) : list bytes :=
  match o with
  | ONew => fs ++ [[]]
  | OApp i x => upd fs i (fget fs i ++ x)
  | OCut i n => upd fs i (firstn n (fget fs i))
  | ODrop => removelast fs
  end.
Definition apply_ops (fs : list bytes) (ops : list fop) : list bytes := fold_left apply_op ops fs.

(** Directory contents a crash can leave behind while [ops] are executed one after the
    other; a write may be cut at any byte. *)
Inductive crash : list bytes -> list fop -> list bytes -> Prop :=
| crash_here fs ops : crash fs ops fs
| crash_torn fs i x n ops : crash fs (OApp i x :: ops) (apply_op fs (OApp i (firstn n x)))
| crash_later fs o ops fs' : crash (apply_op fs o) ops fs' -> crash fs (o :: ops) fs'.

(** [size] bytes at [pos] of a file. *)
Definition slice (f : bytes) (pos size : N) : bytes :=
  firstn (N.to_nat size) (skipn (N.to_nat pos) f).

(** Reading through a pointer from a list of files: urkel_store_read (store.c 508-520) with
    urkel_file_pread (io_posix.c 1133-1152) when every file handle knows the full size. *)
Definition rdl (fs : list bytes) (p : ptr) : option bytes :=
  if (pidx p =? 0)%N then None else
  match nth_error fs (N.to_nat (pidx p) - 1) with
  | None => None
  | Some f =>
    if (psize p =? 0)%N then Some [] else
    if (blen f <? ppos p + psize p)%N then None else Some (slice f (ppos p) (psize p))
  end.

(** ** Structures *)

(** urkel_meta_t: store.c 43-47. *)
Record meta := mkmeta { m_meta : ptr; m_root : ptr; m_node : node }.
(** urkel_meta_init: store.c 104-109. *)
Definition meta0 : meta := mkmeta ptr0 ptr0 NNull.

(** urkel_slab_t: store.c 49-60.  [length sl_data] is data_len, [length sl_offsets] is steps;
    the allocated sizes are not modelled. *)
Record slab := mkslab {
  sl_data : bytes; sl_off : nat; sl_offsets : list nat; sl_start : nat;
  sl_pos : N; sl_index : N }.

(** What happens to the next system calls made by one urkel_store_write. *)
Inductive wfault : Type :=
| WOk
| WOpen              (* opening the next file fails *)
| WSync              (* fdatasync of the full file fails *)
| WShort (n : nat)   (* n bytes are written, then an error is returned *)
| WMap.              (* everything is written, the mmap afterwards fails *)

(** struct urkel_store_s: store.c 81-95. *)
Record store := mkstore {
  st_fs : list bytes;             (* the directory *)
  st_log : list fop;              (* ghost: all operations so far *)
  st_key : bytes;
  st_slab : slab;
  st_state : meta;
  st_last : meta;                 (* last_meta *)
  st_cache : list (bytes * node);
  st_index : N;                   (* index *)
  st_size : N;                    (* current->size *)
  st_io : list wfault             (* the environment *)
}.

Definition set_fs (s : store) fs ops :=
  mkstore fs (st_log s ++ ops) (st_key s) (st_slab s) (st_state s) (st_last s) (st_cache s) (st_index s) (st_size s) (st_io s).
Definition set_slab (s : store) x :=
  mkstore (st_fs s) (st_log s) (st_key s) x (st_state s) (st_last s) (st_cache s) (st_index s) (st_size s) (st_io s).
Definition set_state (s : store) x :=
  mkstore (st_fs s) (st_log s) (st_key s) (st_slab s) x (st_last s) (st_cache s) (st_index s) (st_size s) (st_io s).
Definition set_last (s : store) x :=
  mkstore (st_fs s) (st_log s) (st_key s) (st_slab s) (st_state s) x (st_cache s) (st_index s) (st_size s) (st_io s).
Definition set_cache (s : store) x :=
  mkstore (st_fs s) (st_log s) (st_key s) (st_slab s) (st_state s) (st_last s) x (st_index s) (st_size s) (st_io s).
Definition set_cur (s : store) i n :=
  mkstore (st_fs s) (st_log s) (st_key s) (st_slab s) (st_state s) (st_last s) (st_cache s) i n (st_io s).
Definition set_io (s : store) x :=
  mkstore (st_fs s) (st_log s) (st_key s) (st_slab s) (st_state s) (st_last s) (st_cache s) (st_index s) (st_size s) x.

(** urkel_store_open_file for reading + urkel_file_pread: store.c 461-520, io_posix.c
    1133-1152.  Only the file being written can have a handle that knows less than the
    actual size (after a failed write). *)
Definition st_rd (s : store) (p : ptr) : option bytes :=
  if (pidx p =? 0)%N || (st_index s + 1 <? pidx p)%N then None else
  match nth_error (st_fs s) (N.to_nat (pidx p) - 1) with
  | None => None
  | Some f =>
    if (psize p =? 0)%N then Some [] else
    let size := if (pidx p =? st_index s)%N then st_size s else blen f in
    if (size <? ppos p + psize p)%N then None else Some (slice f (ppos p) (psize p))
  end.

(** ** Write buffer *)

(** urkel_slab_write: store.c 169-210. *)
Definition slab_write (sl : slab) (data : bytes) : res slab :=
  let len := blen data in
  check (len <=? MAX_FILE_SIZE)%N
  (let sl := if (MAX_FILE_SIZE <? sl_pos sl + len)%N
             then mkslab (sl_data sl) 0 (sl_offsets sl ++ [sl_off sl]) (sl_start sl) 0 (sl_index sl + 1)
             else sl in
   Ok (mkslab (sl_data sl ++ data) (sl_off sl + length data) (sl_offsets sl) (sl_start sl)
              (sl_pos sl + len) (sl_index sl))).

(** urkel_file_write: io_posix.c 1155-1185, on the file being written. *)
Definition file_write (s : store) (f : wfault) (data : bytes) : bool * store :=
  let i := N.to_nat (st_index s) - 1 in
  let app x := set_fs s (upd (st_fs s) i (fget (st_fs s) i ++ x)) [OApp i x] in
  match data with
  | [] => (true, s)
  | _ =>
    match f with
    | WShort n => (false, app (firstn n data))
    | WMap => (false, set_cur (app data) (st_index s) (st_size s + blen data))
    | _ => (true, set_cur (app data) (st_index s) (st_size s + blen data))
    end
  end.

(** urkel_store_write: store.c 528-551, with urkel_store_open_file (461-491; the CHECK of
    urkel_filemap_insert, 274, is on the file number).  The next file may exist already
    if an earlier call created it and then failed. *)
Definition store_write (s : store) (data : bytes) : res (bool * store) :=
  let f := match st_io s with x :: _ => x | [] => WOk end in
  let s := set_io s (tl (st_io s)) in
  if (MAX_FILE_SIZE <? st_size s + blen data)%N then
    match f with
    | WOpen => Ok (false, s)
    | _ =>
      check (st_index s + 1 <? MAX_FILES)%N
      (let s := if (N.of_nat (length (st_fs s)) <? st_index s + 1)%N
                then set_fs s (st_fs s ++ [[]]) [ONew] else s in
       match f with
       | WSync => Ok (false, s)
       | _ =>
         let i := (st_index s + 1)%N in
         Ok (file_write (set_cur s i (blen (fget (st_fs s) (N.to_nat i - 1)))) f data)
       end)
    end
  else Ok (file_write s f data).

(** The loop of urkel_store_flush: store.c 727-737.  Returns the index of the chunk that
    failed, if any. *)
Fixpoint flush_loop (s : store) (i : nat) (chunks : list nat) (data : bytes)
  : res (option nat * store) :=
  match chunks with
  | [] => Ok (None, s)
  | len :: chunks' =>
    let! (ok, s) := store_write s (firstn len data) in
    if ok then flush_loop s (S i) chunks' (skipn len data) else Ok (Some i, s)
  end.

(** urkel_store_flush: store.c 715-745. *)
Definition store_flush (s : store) : res (bool * store) :=
  let sl := st_slab s in
  let offsets := sl_offsets sl ++ [sl_off sl] in
  let data := skipn (list_sum (firstn (sl_start sl) offsets)) (sl_data sl) in
  let! (r, s) := flush_loop s (sl_start sl) (skipn (sl_start sl) offsets) data in
  match r with
  | Some i => Ok (false, set_slab s (mkslab (sl_data sl) (sl_off sl) (sl_offsets sl) i (sl_pos sl) (sl_index sl)))
  | None => Ok (true, set_slab s (mkslab [] 0 [] 0 (sl_pos sl) (sl_index sl)))
  end.

(** urkel_store_needs_flush: store.c 709-713. *)
Definition needs_flush (s : store) : bool := (WRITE_BUFFER <=? blen (sl_data (st_slab s)))%N.

(** urkel_node_mark / urkel_node_save (nodes.c 166-179, 200-214): the integer parameters
    are uint16_t, uint32_t and uint8_t. *)
Definition mark_ptr (index pos size : N) : ptr := mkptr (index mod 65536) (pos mod 4294967296) (size mod 256).

(** urkel_store_write_node: store.c 673-690. *)
Definition write_node (s : store) (n : node) : res (node * store) :=
  let! raw := node_write n in
  match n with
  | NInt h None p l r =>
    let! sl := slab_write (st_slab s) raw in
    let w := mark_ptr (sl_index sl) (sl_pos sl - blen raw) (blen raw) in
    Ok (NInt h (Some w) p l r, set_slab s sl)
  | NLeaf h None k v vp =>
    let! sl := slab_write (st_slab s) raw in
    let w := mark_ptr (sl_index sl) (sl_pos sl - blen raw) (blen raw) in
    Ok (NLeaf h (Some w) k v vp, set_slab s sl)
  | _ => Abort
  end.

(** urkel_store_write_value: store.c 692-707. *)
Definition write_value (s : store) (n : node) : res (node * store) :=
  match n with
  | NLeaf h w k (Some v) None =>
    let! sl := slab_write (st_slab s) v in
    let q := mark_ptr (sl_index sl) (sl_pos sl - blen v) (blen v) in
    Ok (NLeaf h w k (Some v) (Some q), set_slab s sl)
  | _ => Abort
  end.

Section Store.
Variable H : bytes -> bytes.
(** urkel_checksum: util.c 170-180: keyed 20-byte BLAKE2b (instance: Blake2b.v). *)
Variable C : bytes -> bytes -> bytes.

(** ** Commit records *)

(** urkel_meta_write: store.c 111-123. *)
Definition meta_write (key : bytes) (m : meta) : bytes :=
  let d := write32 META_MAGIC ++ pointer_write (m_meta m) ++ pointer_write (m_root m) in
  d ++ C key d.

(** urkel_meta_read: store.c 125-147 (the record's root node is left alone by the C code). *)
Definition meta_read (key : bytes) (d : bytes) : res (option meta) :=
  let! magic := read32 d in
  if negb (magic =? META_MAGIC)%N then Ok None else
  let! mp := pointer_read (adv 4 d) in
  let! rp := pointer_read (adv 11 d) in
  let! (sum, _) := take 20 (adv 18 d) in
  if bytes_eqb sum (C key (firstn 18 d)) then Ok (Some (mkmeta mp rp NNull)) else Ok None.

(** ** Root cache: urkel_cache_lookup/insert, store.c 335-379 (khash with 32-byte keys). *)
Fixpoint cache_lookup (c : list (bytes * node)) (h : bytes) : option node :=
  match c with
  | [] => None
  | (k, n) :: c' => if bytes_eqb k h then Some n else cache_lookup c' h
  end.
Definition cache_insert (c : list (bytes * node)) (n : node) : res (list (bytes * node)) :=
  match n with
  | NHash h _ =>
    match cache_lookup c h with Some _ => Ok c | None => Ok ((h, n) :: c) end
  | _ => Abort
  end.

(** ** Reading roots *)

(** urkel_store_read_root: store.c 574-607. [Ok (None, _)] is [return 0]. *)
Definition read_root (s : store) (p : ptr) : res (option node * store) :=
  if (pidx p =? 0)%N then Ok (Some NNull, s) else
  let! r := read_node (st_rd s) p in
  match r with
  | None => Ok (None, s)
  | Some n =>
    let! n := (match n with
               | NLeaf h w k v vp =>
                 let! x := retrieve (st_rd s) v vp in
                 match x with
                 | None => Ok None
                 | Some x => Ok (Some (NLeaf h w k (Some x) vp))
                 end
               | n => Ok (Some n)
               end) in
    match n with
    | None => Ok (None, s)
    | Some n =>
      let! (_, n) := node_hash H n in
      let! out := node_to_hash n in
      let! c := cache_insert (st_cache s) out in
      Ok (Some out, set_cache s c)
    end
  end.

(** urkel_store_read_meta: store.c 802-812. *)
Definition read_meta (s : store) (p : ptr) : res (option meta) :=
  match st_rd s (mkptr (pidx p) (ppos p) 38) with
  | None => Ok None
  | Some d => meta_read (st_key s) d
  end.

(** The hash field of a node structure (zero when never computed). *)
Definition hash_field (n : node) : bytes := match hashed n with Some h => h | None => zero_hash end.

(** The loop of urkel_store_read_history: store.c 841-859. *)
Fixpoint history_loop (fuel : nat) (s : store) (h : bytes) : res (option node * store) :=
  match fuel with
  | O => NoFuel
  | S fuel =>
    let mp := m_meta (st_last s) in
    if (pidx mp =? 0)%N then Ok (None, s) else
    let! r := read_meta s mp in
    match r with
    | None => Ok (None, s)
    | Some m =>
      let! (r, s) := read_root s (m_root m) in
      match r with
      | None => Ok (None, s)
      | Some n =>
        let s := set_last s m in
        if bytes_eqb (hash_field n) h then Ok (Some n, s) else history_loop fuel s h
      end
    end
  end.

(** One more than the total number of bytes (a chain of records cannot be longer). *)
Definition history_fuel (s : store) : nat := S (list_sum (map (@length byte) (st_fs s))).

(** urkel_store_read_history: store.c 814-862. *)
Definition read_history (s : store) (h : bytes) : res (option node * store) :=
  if bytes_eqb h zero_hash then Ok (Some NNull, s) else
  if bytes_eqb h (hash_field (m_node (st_state s))) then Ok (Some (m_node (st_state s)), s) else
  match cache_lookup (st_cache s) h with
  | Some n => Ok (Some n, s)
  | None => history_loop (history_fuel s) s h
  end.

(** ** Commit *)

(** urkel_store_write_meta: store.c 747-775. *)
Definition write_meta (s : store) (root : node) : res (meta * store) :=
  match written root with
  | None => Abort
  | Some w =>
    let! rn := node_to_hash root in
    let sl := st_slab s in
    let m := (sl_pos sl mod 38)%N in
    let! sl := (if (m =? 0)%N then Ok sl else slab_write sl (repeat x00 (38 - N.to_nat m))) in
    let mt := mkmeta (m_meta (st_state s)) w rn in
    let! sl := slab_write sl (meta_write (st_key s) mt) in
    let mp := mkptr (sl_index sl) (sl_pos sl - 38) (psize (m_meta (st_state s))) in
    Ok (mkmeta mp w rn, set_slab s sl)
  end.

(** urkel_store_commit: store.c 777-800 (without URKEL_FSYNC; eviction: Evict.v). *)
Definition store_commit (s : store) (root : node) : res (bool * store) :=
  let! (mt, s) := write_meta s root in
  let! (ok, s) := store_flush s in
  if negb ok then Ok (false, s) else
  let s := set_state s mt in
  match m_node mt with
  | NNull => Ok (true, s)
  | n => let! c := cache_insert (st_cache s) n in Ok (true, set_cache s c)
  end.

(** urkel_tree_write: tree.c 479-554.  [None] is NULL (a flush failed). *)
Fixpoint tree_write (s : store) (n : node) : res (option node * store) :=
  match n with
  | NNull => Ok (Some NNull, s)
  | NHash h w => Ok (Some (NHash h w), s)
  | NInt h w p l r =>
    let! (l', s) := tree_write s l in
    match l' with
    | None => Ok (None, s)
    | Some l' =>
      let! (r', s) := tree_write s r in
      match r' with
      | None => Ok (None, s)
      | Some r' =>
        let n := NInt h w p l' r' in
        let! (n, s, ok) :=
          (match w with
           | Some _ => Ok (n, s, true)
           | None =>
             let! (n, s) := write_node s n in
             if needs_flush s
             then let! (ok, s) := store_flush s in Ok (n, s, ok)
             else Ok (n, s, true)
           end) in
        if negb ok then Ok (None, s) else
        let! (_, n) := node_hash H n in
        let! out := node_to_hash n in
        Ok (Some out, s)
      end
    end
  | NLeaf h w k v vp =>
    let! (n, s, ok) :=
      (match w with
       | Some _ => Ok (n, s, true)
       | None =>
         let! (n, s) := write_value s n in
         let! (n, s) := write_node s n in
         if needs_flush s
         then let! (ok, s) := store_flush s in Ok (n, s, ok)
         else Ok (n, s, true)
       end) in
    if negb ok then Ok (None, s) else
    let! (_, n) := node_hash H n in
    let! out := node_to_hash n in
    Ok (Some out, s)
  end.

(** urkel_tree_commit: tree.c 556-575.  [None] is NULL with errno EBADWRITE; the node
    structure handed in has then been freed. *)
Definition tree_commit (s : store) (n : node) : res (option node * store) :=
  let! (r, s) := tree_write s n in
  match r with
  | None => Ok (None, s)
  | Some root =>
    let! (ok, s) := store_commit s root in
    if ok then Ok (Some root, s) else Ok (None, s)
  end.

(** ** Opening *)

(** urkel_store_find_meta: store.c 979-1026: the last 38-byte block, counted from the start
    of the file, that is a valid record.  The C code reads blocks through a buffer of
    SLAB_SIZE bytes, a multiple of 38; the model reads the file directly (Scan.v relates the
    two).  [blocks] is the number of blocks still to examine. *)
Fixpoint find_meta (key : bytes) (f : bytes) (blocks : nat) : res (option (meta * nat)) :=
  match blocks with
  | O => Ok None
  | S b =>
    let! r := meta_read key (firstn 38 (skipn (38 * b) f)) in
    match r with
    | Some m => Ok (Some (m, 38 * b))
    | None => find_meta key f b
    end
  end.

(** urkel_store_recover_state: store.c 1028-1064.  [io]: for each file examined, whether a
    system call inside urkel_store_find_meta fails (it then returns 0; a failing ftruncate
    is not modelled as leaving the file longer).  Returns the remaining files, the
    operations performed, the state and last_meta.  When no record is valid the C code
    leaves the fields of the last block examined in last_meta (meta_read stores before it
    verifies); the model uses an empty record then. *)
Fixpoint recover (key : bytes) (n : nat) (fs : list bytes) (io : list bool)
  : res (list bytes * list fop * meta * meta) :=
  match n with
  | O => Ok (fs, [], meta0, meta0)
  | S n' =>
    let f := fget fs n' in
    let! r := (if hd false io then Ok None else find_meta key f (length f / 38)) in
    match r with
    | Some (m, off) =>
      let st := mkmeta (mkptr (N.of_nat n) (N.of_nat off) (psize (m_meta m))) (m_root m) NNull in
      Ok (upd fs n' (firstn (off + 38) f), [OCut n' (off + 38)], st, m)
    | None =>
      let! (fs, ops, st, m) := recover key n' (removelast fs) (tl io) in
      Ok (fs, ODrop :: ops, st, m)
    end
  end.

(** urkel_store_init: store.c 1069-1116, after the key has been read and the lock taken. *)
Definition store_open (key : bytes) (fs : list bytes) (io : list bool) : res (option store) :=
  let! (fs, ops, st, last) := recover key (length fs) fs io in
  let '(fs, ops) := match fs with [] => ([[]], ops ++ [ONew]) | _ => (fs, ops) end in
  let index := N.of_nat (length fs) in
  check (index <? MAX_FILES)%N
  (let size := blen (fget fs (length fs - 1)) in
   let s := mkstore fs ops key (mkslab [] 0 [] 0 size index) st last [] index size [] in
   let! (r, s) := read_root s (m_root st) in
   match r with
   | None => Ok None
   | Some n => Ok (Some (set_state s (mkmeta (m_meta st) (m_root st) n)))
   end).
End Store.
