(** * The path buffer of urkel_store_destroy: store.c 1152-1212.

    Destroy.v models which entries are removed; here the one buffer, char path[URKEL_PATH_MAX + 1],
    in which every path given to the system is built.  Taken to succeed: malloc, the lock and the
    directory listing.  The listing itself is an argument: the list of d_name strings. *)
From Verif Require Export Path Destroy.

(** The C string a system call reads from a buffer. *)
Fixpoint cpath (mem : bytes) : res bytes :=
  match mem with
  | [] => UB
  | c :: mem => if beq c x00 then Ok [] else let! s := cpath mem in Ok (c :: s)
  end.

(** The loop: store.c 1182-1191.  The buffer left and the paths given to unlink. *)
Fixpoint destroy_loop (mem : bytes) (path_len : nat) (list : list bytes) : res (bytes * Datatypes.list bytes) :=
  match list with
  | [] => Ok (mem, [])
  | name :: list =>
    let! r := parse_u32 (name ++ [x00]) in
    if (match r with Some _ => true | None => false end) || bytes_eqb name META then
      let! mem := store_all mem path_len (name ++ [x00]) in
      let! p := cpath mem in
      let! (mem, ps) := destroy_loop mem path_len list in
      Ok (mem, p :: ps)
    else destroy_loop mem path_len list
  end.

(** urkel_store_destroy: store.c 1152-1212.  [None]: [return 0] before anything is opened;
    otherwise the path opened as the lock (1174), the paths given to unlink in the loop, the
    path given to unlink last (1200-1203), and the one given to rmdir (1207).  [mem]: what the
    buffer contains initially. *)
Definition destroy_paths (cwd : option bytes) (junk : byte) (mem : bytes) (path : option bytes) (list : list bytes)
  : res (option (bytes * Datatypes.list bytes * bytes * bytes)) :=
  let! r := path_resolve cwd junk path in
  match r with
  | None => Ok None
  | Some prefix_ =>
    let! prefix := cpath prefix_ in
    let path_len := length prefix in
    if URKEL_PATH_MAX <? path_len + 10 then Ok None else
    let! mem := store_all mem 0 (prefix ++ [x00]) in
    let! mem := store_at mem path_len slash in
    let path_len := path_len + 1 in
    let! mem := store_all mem path_len (LOCK ++ [x00]) in
    let! lock := cpath mem in
    let! (mem, ps) := destroy_loop mem path_len list in
    let! mem := store_all mem path_len (LOCK ++ [x00]) in
    let! last := cpath mem in
    Ok (Some (lock, ps, last, prefix))
  end.
