(** * Everything an open database holds besides tree nodes: memory, descriptors, mappings,
    directory streams and locks of tree.c 581-621, 831-881, 1090-1132, store.c 150-303,
    309-379, 461-551, 574-607, 715-800, 814-862, 892-1212, io.c, io_posix.c.

    What is read and written is left out: every decision that depends on data, on file names
    or on the behaviour of a system call is an answer of the environment ([ask]; the
    comments say what is asked).  Tree nodes and values are Heap.v's (C47), proofs
    ProofMem.v's (C58). *)
From Verif Require Export Alloc.

(** urkel_fs_open, urkel_fs_close: io_posix.c 464-516, 1069-1072.  close() always gives the
    descriptor back. *)
Definition fs_open : M (option nat) := do! ok := asked in if ok then do! i := acquire KFd in mret (Some i) else mret None.
Definition fs_close (fd : nat) : M unit := release KFd fd.

(** urkel_file_t: io.h 130-137; [f_base]: the mapping, [f_fd]: [None] for -1. *)
Record rfile := mkrf { f_mem : nat; f_fd : option nat; f_base : option nat }.
Definition opt_release (k : kind) (p : option nat) : M unit := match p with Some i => release k i | None => mret tt end.
(** urkel_file_close: io_posix.c 1197-1212. *)
Definition file_close (f : rfile) : M unit :=
  do! _ := touch KMem (f_mem f) in
  do! _ := opt_release KMap (f_base f) in
  do! _ := opt_release KFd (f_fd f) in
  release KMem (f_mem f).
(** urkel_file_open: io_posix.c 1079-1130 (with mmap, 64 bits). *)
Definition file_open (rdonly : bool) : M (option rfile) :=
  do! fd := fs_open in
  match fd with
  | None => mret None
  | Some fd =>
    do! st := asked in                                           (* fstat *)
    if negb st then do! _ := fs_close fd in mret None else
    do! p := malloc in
    match p with
    | None => do! _ := fs_close fd in mret None
    | Some p =>
      do! nonempty := asked in                                   (* file->size > 0 *)
      if negb nonempty then mret (Some (mkrf p (Some fd) None)) else
      do! mm := asked in                                         (* mmap *)
      if negb mm then do! _ := file_close (mkrf p (Some fd) None) in mret None else
      do! b := acquire KMap in
      if rdonly then do! _ := fs_close fd in mret (Some (mkrf p None (Some b)))
      else mret (Some (mkrf p (Some fd) (Some b)))
    end
  end.
(** urkel_file_write: io_posix.c 1154-1185. *)
Definition file_write (f : rfile) : M (rfile * bool) :=
  do! _ := touch KMem (f_mem f) in
  do! un := asked in                                             (* munmap *)
  if (match f_base f with Some _ => negb un | None => false end) then mret (f, false) else
  do! _ := opt_release KMap (f_base f) in
  let f := mkrf (f_mem f) (f_fd f) None in
  do! wr := asked in                                             (* write *)
  if negb wr then mret (f, false) else
  do! mm := asked in                                             (* mmap *)
  if negb mm then mret (f, false) else
  do! b := acquire KMap in
  mret (mkrf (f_mem f) (f_fd f) (Some b), true).

(** urkel_fs_scandir: io_posix.c 724-853: the list and its entries.  The realloc of line 774
    overwrites [list] with its result. *)
Definition scan_fail (l : option nat) (items : list nat) (item : option nat) (d : nat) : M (option (nat * list nat)) :=
  do! _ := match items, l with
           | [], _ => mret tt
           | _ :: _, Some l => do! _ := touch KMem l in free_all items
           | _ :: _, None => fun _ => UB                         (* list[0] with list == NULL *)
           end in
  do! _ := free_opt l in
  do! _ := free_opt item in
  do! _ := release KDir d in
  mret None.
Fixpoint scan_loop (n l size : nat) (items : list nat) (d : nat) : M (option (nat * list nat)) :=
  match n with
  | O =>
    do! e := asked in                                            (* readdir: end, or error *)
    if negb e then scan_fail (Some l) items None d else
    do! _ := release KDir d in mret (Some (l, items))
  | S n =>
    do! e := asked in
    if negb e then scan_fail (Some l) items None d else
    do! it := malloc in
    match it with
    | None => scan_fail (Some l) items None d
    | Some it =>
      do! fits := asked in                                       (* len + 1 <= sizeof(d_name) *)
      if negb fits then scan_fail (Some l) items (Some it) d else
      do! (l', size) :=
        (if length items =? size then
           do! g := grants in
           if g then do! _ := release KMem l in do! l' := acquire KMem in mret (Some l', size * 3 / 2)
           else mret (None, size * 3 / 2)
         else mret (Some l, size)) in
      match l' with
      | None => scan_fail None items (Some it) d
      | Some l => do! _ := touch KMem l in scan_loop n l size (items ++ [it]) d
      end
    end
  end.
Definition scandir : M (option (nat * list nat)) :=
  do! l := malloc in
  match l with
  | None => mret None
  | Some l =>
    do! o := asked in                                            (* opendir *)
    if negb o then do! _ := release KMem l in mret None else
    do! d := acquire KDir in
    do! n := ask in                                              (* the number of entries *)
    scan_loop n l 8 [] d
  end.

(** urkel_path_resolve: io_posix.c 1314-1354. *)
Definition path_resolve : M (option nat) :=
  do! p := malloc in
  match p with
  | None => mret None
  | Some p =>
    do! ok := asked in                                           (* absolute, or getcwd works and the result is not too long *)
    if negb ok then do! _ := release KMem p in mret None else
    do! g := grants in                                           (* realloc(out, olen + 1) *)
    if g then do! _ := release KMem p in do! q := acquire KMem in mret (Some q) else mret None
  end.

(** urkel_fs_read_file, urkel_fs_write_file: io.c 17-54. *)
Definition whole_file : M bool :=
  do! fd := fs_open in
  match fd with
  | None => mret false
  | Some fd => do! ok := asked in do! _ := fs_close fd in mret ok
  end.
(** urkel_fs_open_lock: io.c 56-70; urkel_fs_close_lock: io.c 72-76. *)
Definition open_lock : M (option nat) :=
  do! fd := fs_open in
  match fd with
  | None => mret None
  | Some fd => do! ok := asked in if negb ok then do! _ := fs_close fd in mret None else mret (Some fd)
  end.
Definition close_lock (fd : nat) : M unit := fs_close fd.
(** urkel_random_bytes: util.c 150-168, urkel_sys_random: io_posix.c 1361-1413. *)
Definition random_bytes : M unit :=
  do! fd := fs_open in
  do! fd := match fd with Some fd => mret (Some fd) | None => fs_open end in
  match fd with
  | None => mret tt
  | Some fd => do! _ := asked in fs_close fd
  end.
(** Locks: io_posix.c 1420-1444, 1469-1493; no memory: abort. *)
Definition sync_create : M nat := do! g := grants in if g then acquire KSync else fun _ => Abort.

(** data_store_t: store.c 74-96, without data.  [r_files]: the entries of the file map that
    are not NULL, with their index; [r_len]: files.len; [r_cur]: the index under which
    store->current is in the map, [None] for &urkel_null_file. *)
Record rsto := mkrs {
  r_lock : nat; r_data : option nat; r_offs : option nat;
  r_arr : option nat; r_len : nat; r_files : list (nat * rfile); r_fm : nat;
  r_map : nat; r_tabs : option nat; r_nodes : list nat;
  r_index : nat; r_cur : option nat }.
Definition with_files (s : rsto) (arr : option nat) (len : nat) (fs : list (nat * rfile)) : rsto :=
  mkrs (r_lock s) (r_data s) (r_offs s) arr len fs (r_fm s) (r_map s) (r_tabs s) (r_nodes s) (r_index s) (r_cur s).
Definition with_current (s : rsto) (index : nat) (cur : option nat) : rsto :=
  mkrs (r_lock s) (r_data s) (r_offs s) (r_arr s) (r_len s) (r_files s) (r_fm s) (r_map s) (r_tabs s) (r_nodes s) index cur.
Definition with_slab (s : rsto) (data offs : option nat) : rsto :=
  mkrs (r_lock s) data offs (r_arr s) (r_len s) (r_files s) (r_fm s) (r_map s) (r_tabs s) (r_nodes s) (r_index s) (r_cur s).
Definition with_cache (s : rsto) (tabs : option nat) (nodes : list nat) : rsto :=
  mkrs (r_lock s) (r_data s) (r_offs s) (r_arr s) (r_len s) (r_files s) (r_fm s) (r_map s) tabs nodes (r_index s) (r_cur s).

Fixpoint ffind (i : nat) (l : list (nat * rfile)) : option rfile :=
  match l with [] => None | (j, f) :: l => if i =? j then Some f else ffind i l end.
Fixpoint fdel (i : nat) (l : list (nat * rfile)) : list (nat * rfile) :=
  match l with [] => [] | (j, f) :: l => if i =? j then l else (j, f) :: fdel i l end.
Fixpoint fset (i : nat) (g : rfile) (l : list (nat * rfile)) : list (nat * rfile) :=
  match l with [] => [] | (j, f) :: l => if i =? j then (j, g) :: l else (j, f) :: fset i g l end.

(** urkel_store_close_file: store.c 493-506, urkel_filemap_remove: store.c 287-303. *)
Definition close_file (s : rsto) (i : nat) : M rsto :=
  match ffind i (r_files s) with
  | None => mret s
  | Some f =>
    let s := with_files s (r_arr s) (r_len s) (fdel i (r_files s)) in
    let s := if (match r_cur s with Some c => c =? i | None => false end) then with_current s 0 None else s in
    do! _ := file_close f in
    mret s
  end.
(** urkel_store_evict: store.c 436-459: which of the files other than the current one is
    closed is asked. *)
Fixpoint evict (fuel : nat) (s : rsto) : M rsto :=
  if length (r_files s) <=? 32 then mret s else
  match fuel with
  | O => fun _ => NoFuel
  | S fuel =>
    do! num := ask in
    let tries := num mod (length (r_files s) - 1) in
    match nth_error (filter (fun x => negb (fst x =? r_index s)) (r_files s)) tries with
    | None => evict fuel s
    | Some (i, _) => do! s := close_file s i in evict fuel s
    end
  end.
(** urkel_filemap_insert: store.c 264-285. *)
Definition fm_insert (s : rsto) (i : nat) (f : rfile) : M rsto :=
  do! s :=
    (if r_len s <=? i then
       if negb (N.of_nat i <? 32767)%N then (fun _ => Abort) else        (* CHECK(file->index < MAX_FILES) *)
       do! a := checked_realloc (r_arr s) in mret (with_files s (Some a) (i + 1) (r_files s))
     else mret s) in
  match ffind i (r_files s) with
  | Some _ => fun _ => UB          (* CHECK(!fm->items[file->index]) fails: an abort in C, UB here, to tell the two apart *)
  | None => mret (with_files s (r_arr s) (r_len s) ((i, f) :: r_files s))
  end.
(** urkel_store_open_file: store.c 461-491: whether there is a file. *)
Definition open_file (s : rsto) (i : nat) (write : bool) : M (rsto * bool) :=
  if (i =? 0) || (r_index s + 1 <? i) then mret (s, false) else
  match ffind i (r_files s) with
  | Some _ => mret (s, true)
  | None =>
    do! f := file_open (negb write) in
    match f with
    | None => mret (s, false)
    | Some f =>
      do! s := (if write then evict (length (r_files s)) s else mret s) in
      do! s := fm_insert s i f in
      mret (s, true)
    end
  end.
(** urkel_store_read: store.c 508-520. *)
Definition store_read (s : rsto) (i : nat) : M (rsto * bool) :=
  do! (s, ok) := open_file s i false in
  if negb ok then mret (s, false) else do! ok := asked in mret (s, ok).
(** urkel_store_write: store.c 528-551; urkel_store_sync: store.c 522-526. *)
Definition store_write (s : rsto) : M (rsto * bool) :=
  do! stay := asked in                                           (* store->current->size + size <= MAX_FILE_SIZE *)
  do! (s, ok) :=
    (if stay then mret (s, true) else
     let i := r_index s + 1 in
     do! (s, ok) := open_file s i true in
     if negb ok then mret (s, false) else
     do! sync := asked in
     if negb sync then mret (s, false) else
     do! s := close_file s (r_index s) in
     mret (with_current s i (Some i), true)) in
  if negb ok then mret (s, false) else
  match r_cur s with
  | None => mret (s, false)                                      (* write(-1, ...) *)
  | Some c =>
    match ffind c (r_files s) with
    | None => fun _ => UB                                        (* store->current is closed *)
    | Some f =>
      do! (f, ok) := file_write f in
      mret (with_files s (r_arr s) (r_len s) (fset c f (r_files s)), ok)
    end
  end.

(** urkel_slab_write: store.c 169-210. *)
Definition slab_write (s : rsto) : M rsto :=
  do! s := match r_offs s with
           | None => do! o := checked_malloc in mret (with_slab s (r_data s) (Some o))
           | Some _ => mret s
           end in
  do! same := asked in                                           (* no rollover, or room in offsets *)
  do! s := (if same then mret s else do! o := checked_realloc (r_offs s) in mret (with_slab s (r_data s) (Some o))) in
  do! room := asked in                                           (* slab->data_size >= needs *)
  if room then mret s else do! d := checked_realloc (r_data s) in mret (with_slab s (Some d) (r_offs s)).
(** urkel_store_flush: store.c 715-745; [n] steps. *)
Fixpoint flush_loop (n : nat) (s : rsto) : M (rsto * bool) :=
  match n with
  | O => mret (s, true)
  | S n => do! (s, ok) := store_write s in if negb ok then mret (s, false) else flush_loop n s
  end.
Definition flush (s : rsto) : M (rsto * bool) :=
  match r_offs s with
  | None => fun _ => UB                                          (* slab->offsets is NULL *)
  | Some o => do! _ := touch KMem o in do! n := ask in flush_loop n s
  end.
(** urkel_cache_insert: store.c 353-379, kh_put: khash.h 307-348; the three arrays of the
    table are one block. *)
Definition cache_insert (s : rsto) : M rsto :=
  do! v := checked_malloc in
  do! fits := asked in                                           (* no resize *)
  do! s := (if fits then mret s else do! t := checked_realloc (r_tabs s) in mret (with_cache s (Some t) (r_nodes s))) in
  do! new := asked in                                            (* the key was not in the table *)
  if new then mret (with_cache s (r_tabs s) (v :: r_nodes s)) else do! _ := release KMem v in mret s.
(** urkel_store_read_root: store.c 574-607; nodes are Heap.v's. *)
Definition read_root (s : rsto) : M (rsto * bool) :=
  do! some := asked in                                           (* ptr->index != 0 *)
  if negb some then mret (s, true) else
  do! i := ask in
  do! (s, ok) := store_read s i in
  do! valid := asked in                                          (* urkel_node_read *)
  if negb (ok && valid) then mret (s, false) else
  do! inner := asked in                                          (* not a leaf *)
  do! (s, ok) := (if inner then mret (s, true) else do! j := ask in store_read s j) in
  if negb ok then mret (s, false) else
  do! s := cache_insert s in
  mret (s, true).
(** urkel_store_read_history: store.c 814-862; [n] records are read. *)
Fixpoint history_loop (n : nat) (s : rsto) : M (rsto * bool) :=
  match n with
  | O => do! found := asked in mret (s, found)
  | S n =>
    do! i := ask in
    do! (s, ok) := store_read s i in
    do! valid := asked in                                        (* urkel_meta_read *)
    if negb (ok && valid) then mret (s, false) else
    do! (s, ok) := read_root s in
    if negb ok then mret (s, false) else history_loop n s
  end.
Definition read_history (s : rsto) : M (rsto * bool) := do! n := ask in history_loop n s.

(** urkel_tree_write and urkel_store_commit: tree.c 479-554, store.c 673-707, 747-800; [n]
    pieces are written. *)
Fixpoint write_loop (n : nat) (s : rsto) : M (rsto * bool) :=
  match n with
  | O => mret (s, true)
  | S n =>
    do! s := slab_write s in
    do! small := asked in                                        (* !urkel_store_needs_flush *)
    do! (s, ok) := (if small then mret (s, true) else flush s) in
    if negb ok then mret (s, false) else write_loop n s
  end.
Definition store_commit (s : rsto) : M (rsto * bool) :=
  do! n := ask in
  do! (s, ok) := write_loop n s in
  if negb ok then mret (s, false) else
  do! aligned := asked in
  do! s := (if aligned then mret s else slab_write s) in         (* padding *)
  do! s := slab_write s in
  do! (s, ok) := flush s in
  if negb ok then mret (s, false) else
  do! synced := asked in                                         (* URKEL_FSYNC *)
  if negb synced then mret (s, false) else
  do! some := asked in                                           (* the root is not the null node *)
  do! s := (if some then cache_insert s else mret s) in
  do! s := evict (length (r_files s)) s in
  mret (s, true).
(** The reads of get, has, insert, remove, prove and next. *)
Fixpoint reads_loop (n : nat) (s : rsto) : M rsto :=
  match n with O => mret s | S n => do! i := ask in do! (s, _) := store_read s i in reads_loop n s end.
Definition reads (s : rsto) : M rsto := do! n := ask in reads_loop n s.

(** urkel_store_clear: store.c 1118-1132, with urkel_slab_clear (158-167),
    urkel_filemap_clear (222-243) and urkel_cache_clear (316-333, kh_destroy). *)
Fixpoint close_all (l : list (nat * rfile)) : M unit :=
  match l with [] => mret tt | (_, f) :: l => do! _ := file_close f in close_all l end.
Definition store_clear (s : rsto) : M unit :=
  do! _ := free_opt (r_data s) in
  do! _ := free_opt (r_offs s) in
  do! _ := close_all (r_files s) in
  do! _ := free_opt (r_arr s) in
  do! _ := release KSync (r_fm s) in
  do! _ := free_all (r_nodes s) in
  do! _ := free_opt (r_tabs s) in
  do! _ := release KMem (r_map s) in
  do! _ := close_lock (r_lock s) in
  do! _ := asked in                                              (* unlink *)
  mret tt.

(** urkel_store_init_prefix: store.c 892-917. *)
Definition init_prefix : M bool :=
  do! p := path_resolve in
  match p with
  | None => mret false
  | Some p =>
    do! short := asked in                                        (* len + 10 <= URKEL_PATH_MAX *)
    if negb short then do! _ := release KMem p in mret false else
    do! _ := touch KMem p in
    do! _ := release KMem p in
    do! ex := asked in
    if ex then mret true else asked
  end.
(** urkel_store_init_meta: store.c 919-931. *)
Definition init_meta : M bool :=
  do! ex := asked in
  if ex then whole_file else do! _ := random_bytes in whole_file.
(** urkel_store_find_index: store.c 933-960. *)
Definition find_index : M (option nat) :=
  do! r := scandir in
  match r with
  | None => mret None
  | Some (l, items) =>
    do! _ := touch KMem l in
    do! _ := free_all items in
    do! _ := release KMem l in
    do! ok := asked in
    do! n := ask in
    mret (if ok then Some n else None)
  end.
(** urkel_store_find_meta: store.c 979-1026. *)
Definition find_meta : M bool :=
  do! fd := fs_open in
  match fd with
  | None => mret false
  | Some fd =>
    do! st := asked in
    if negb st then do! _ := fs_close fd in mret false else
    do! found := asked in
    do! _ := fs_close fd in
    mret found
  end.
(** urkel_store_recover_state: store.c 1028-1064. *)
Fixpoint recover_loop (index : nat) : M (option nat) :=
  match index with
  | O => mret (Some 1)
  | S i =>
    do! found := find_meta in
    if found then mret (Some index) else
    do! un := asked in                                           (* unlink *)
    if negb un then mret None else recover_loop i
  end.
Definition recover_state (index : nat) : M (option nat) :=
  do! slab := checked_malloc in
  do! r := recover_loop index in
  do! _ := release KMem slab in
  mret r.
(** urkel_store_init: store.c 1069-1116. *)
Definition store_init : M (option rsto) :=
  do! ok := init_prefix in
  if negb ok then mret None else
  do! ok := init_meta in
  if negb ok then mret None else
  do! index := find_index in
  match index with
  | None => mret None
  | Some index =>
    do! lock := open_lock in
    match lock with
    | None => mret None
    | Some lock =>
      do! r := recover_state index in
      match r with
      | None => do! _ := close_lock lock in mret None
      | Some index =>
        do! fm := sync_create in
        do! map := checked_malloc in
        do! _ := random_bytes in
        let s := mkrs lock None None None 0 [] fm map None [] index None in
        do! (s, ok) := open_file s index true in
        if negb ok then do! _ := store_clear s in mret None else
        let s := with_current s index (Some index) in
        do! (s, ok) := read_root s in
        if negb ok then do! _ := store_clear s in mret None else
        mret (Some s)
      end
    end
  end.
(** urkel_store_open: store.c 1134-1144: with the block of the store. *)
Definition store_open : M (option (nat * rsto)) :=
  do! p := checked_malloc in
  do! s := store_init in
  match s with
  | None => do! _ := release KMem p in mret None
  | Some s => mret (Some (p, s))
  end.

(** tree_tx_t (its block and lock), tree_iter_t (block, mutex, and the transaction it owns),
    and the proofs handed to the caller. *)
Definition rtx : Type := nat * nat.
Definition rit : Type := nat * nat * option rtx.
Record rdb := mkrd { d_mem : nat; d_lock : nat; d_smem : nat; d_sto : rsto;
  d_txs : list (option rtx); d_its : list (option rit); d_outs : list (option nat) }.
Definition with_sto (d : rdb) (s : rsto) : rdb := mkrd (d_mem d) (d_lock d) (d_smem d) s (d_txs d) (d_its d) (d_outs d).
Definition with_txs (d : rdb) (l : list (option rtx)) : rdb := mkrd (d_mem d) (d_lock d) (d_smem d) (d_sto d) l (d_its d) (d_outs d).
Definition with_its (d : rdb) (l : list (option rit)) : rdb := mkrd (d_mem d) (d_lock d) (d_smem d) (d_sto d) (d_txs d) l (d_outs d).
Definition with_outs (d : rdb) (l : list (option nat)) : rdb := mkrd (d_mem d) (d_lock d) (d_smem d) (d_sto d) (d_txs d) (d_its d) l.

(** urkel_open: tree.c 581-603.  [inl t]: NULL is returned; [t] is the block allocated in
    line 583, to which no pointer is left. *)
Definition r_open : M (nat + rdb) :=
  do! t := checked_malloc in
  do! s := store_open in
  match s with
  | None => mret (inl t)
  | Some (p, s) => do! l := sync_create in mret (inr (mkrd t l p s [] [] []))
  end.
(** urkel_close: tree.c 605-613, urkel_store_close: store.c 1146-1150. *)
Definition r_close (d : rdb) : M unit :=
  do! _ := touch KMem (d_mem d) in
  do! _ := store_clear (d_sto d) in
  do! _ := release KMem (d_smem d) in
  do! _ := release KSync (d_lock d) in
  release KMem (d_mem d).
(** urkel_destroy: tree.c 615-621, urkel_store_destroy: store.c 1152-1212. *)
Definition r_destroy : M bool :=
  do! p := path_resolve in
  match p with
  | None => mret false
  | Some p =>
    do! short := asked in
    if negb short then do! _ := release KMem p in mret false else
    do! fd := open_lock in
    match fd with
    | None => do! _ := release KMem p in mret false
    | Some fd =>
      do! r := scandir in
      do! ok := match r with
                | None => mret false
                | Some (l, items) =>
                  do! _ := touch KMem l in
                  do! _ := free_all items in
                  do! _ := release KMem l in
                  mret true
                end in
      do! _ := close_lock fd in
      do! _ := asked in                                          (* unlink *)
      do! ok := (if ok then asked else mret false) in            (* rmdir *)
      do! _ := release KMem p in
      mret ok
    end
  end.

(** urkel_tx_create: tree.c 831-871 ([old]: urkel_store_get_history is used);
    urkel_tx_destroy: tree.c 873-881. *)
Definition tx_create (s : rsto) (old : bool) : M (rsto * option rtx) :=
  do! t := checked_malloc in
  do! (s, ok) := (if old then read_history s else mret (s, true)) in
  do! l := sync_create in
  if negb ok then do! _ := release KSync l in do! _ := release KMem t in mret (s, None)
  else mret (s, Some (t, l)).
Definition tx_destroy (t : rtx) : M unit :=
  do! _ := touch KMem (fst t) in
  do! _ := release KSync (snd t) in
  release KMem (fst t).
(** urkel_iter_create, urkel_iter_destroy: tree.c 1090-1132. *)
Definition iter_create (own : option rtx) : M rit :=
  do! i := checked_malloc in
  do! m := sync_create in
  mret (i, m, own).
Definition iter_destroy (x : rit) : M unit :=
  let '(i, m, own) := x in
  do! _ := touch KMem i in
  do! _ := match own with Some t => tx_destroy t | None => mret tt end in
  do! _ := release KSync m in
  release KMem i.

(** The calls on an open database.  Handles are positions; a destroyed or unknown handle is
    not passed again by the caller (ignored). *)
Inductive rcall :=
| RQuery (old : bool)            (* urkel_get, urkel_has: tree.c 667-703 *)
| RProve (old : bool)            (* urkel_prove: tree.c 748-768 *)
| RUpdate                        (* urkel_insert, urkel_remove: tree.c 705-746 *)
| RInject                        (* urkel_inject: tree.c 646-665 *)
| RIterate (old : bool)          (* urkel_iterate: tree.c 812-829 *)
| RTxCreate (old : bool) | RTxDestroy (i : nat)
| RTxRead (i : nat)              (* urkel_tx_get, urkel_tx_has, urkel_tx_insert, urkel_tx_remove *)
| RTxProve (i : nat) | RTxInject (i : nat) | RTxCommit (i : nat)
| RIterCreate (i : nat) | RIterNext (j : nat) | RIterDestroy (j : nat)
| RFree (k : nat).               (* urkel_free: tree.c 1290-1295 *)
(** urkel_tx_prove: tree.c 1045-1055: the proof, if there is one. *)
Definition prove_out : M (option nat) :=
  do! ok := asked in if ok then do! p := checked_malloc in mret (Some p) else mret None.
Definition r_call (d : rdb) (c : rcall) : M rdb :=
  match c with
  | RQuery old =>
    do! (s, t) := tx_create (d_sto d) old in
    match t with
    | None => mret (with_sto d s)
    | Some t => do! s := reads s in do! _ := tx_destroy t in mret (with_sto d s)
    end
  | RProve old =>
    do! (s, t) := tx_create (d_sto d) old in
    match t with
    | None => mret (with_sto d s)
    | Some t =>
      do! s := reads s in
      do! p := prove_out in
      do! _ := tx_destroy t in
      mret (with_outs (with_sto d s) (d_outs d ++ [p]))
    end
  | RUpdate =>
    do! old := asked in                                          (* tree->revert *)
    do! (s, t) := tx_create (d_sto d) old in
    match t with
    | None => mret (with_sto d s)
    | Some t =>
      do! s := reads s in
      do! ok := asked in
      do! s := (if ok then do! (s, _) := store_commit s in mret s else mret s) in
      do! _ := tx_destroy t in
      mret (with_sto d s)
    end
  | RInject => do! (s, _) := read_history (d_sto d) in mret (with_sto d s)
  | RIterate old =>
    do! (s, t) := tx_create (d_sto d) old in
    match t with
    | None => mret (with_sto d s)
    | Some t => do! x := iter_create (Some t) in mret (with_its (with_sto d s) (d_its d ++ [Some x]))
    end
  | RTxCreate old =>
    do! (s, t) := tx_create (d_sto d) old in
    mret (with_txs (with_sto d s) (d_txs d ++ [t]))
  | RTxDestroy i =>
    match nth i (d_txs d) None with
    | None => mret d
    | Some t => do! _ := tx_destroy t in mret (with_txs d (upd (d_txs d) i None))
    end
  | RTxRead i =>
    match nth i (d_txs d) None with
    | None => mret d
    | Some t => do! _ := touch KMem (fst t) in do! s := reads (d_sto d) in mret (with_sto d s)
    end
  | RTxProve i =>
    match nth i (d_txs d) None with
    | None => mret d
    | Some t =>
      do! _ := touch KMem (fst t) in
      do! s := reads (d_sto d) in
      do! p := prove_out in
      mret (with_outs (with_sto d s) (d_outs d ++ [p]))
    end
  | RTxInject i =>
    match nth i (d_txs d) None with
    | None => mret d
    | Some t => do! _ := touch KMem (fst t) in do! (s, _) := read_history (d_sto d) in mret (with_sto d s)
    end
  | RTxCommit i =>
    match nth i (d_txs d) None with
    | None => mret d
    | Some t => do! _ := touch KMem (fst t) in do! (s, _) := store_commit (d_sto d) in mret (with_sto d s)
    end
  | RIterCreate i =>
    match nth i (d_txs d) None with
    | None => mret d
    | Some t => do! _ := touch KMem (fst t) in do! x := iter_create None in mret (with_its d (d_its d ++ [Some x]))
    end
  | RIterNext j =>
    match nth j (d_its d) None with
    | None => mret d
    | Some x => do! _ := touch KMem (fst (fst x)) in do! s := reads (d_sto d) in mret (with_sto d s)
    end
  | RIterDestroy j =>
    match nth j (d_its d) None with
    | None => mret d
    | Some x => do! _ := iter_destroy x in mret (with_its d (upd (d_its d) j None))
    end
  | RFree k =>
    match nth k (d_outs d) None with
    | None => mret d
    | Some p => do! _ := release KMem p in mret (with_outs d (upd (d_outs d) k None))
    end
  end.
Fixpoint r_calls (d : rdb) (cs : list rcall) : M rdb :=
  match cs with [] => mret d | c :: cs => do! d := r_call d c in r_calls d cs end.
