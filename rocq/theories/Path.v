(** * Paths: io_posix.c 1218-1354, store.c 406-431 and 892-917.

    [mem] is the buffer a [char *] points to; reading or writing beyond it is [UB].
    A C string [s] in a buffer is [s ++ x00 :: junk]. *)
From Verif Require Export Names.

Definition slash : byte := x2f.
Definition dot : byte := x2e.
Definition beq (a b : byte) : bool := if byte_eq_dec a b then true else false.

(** path[i] as a value, and path[i] = c. *)
Definition load (mem : bytes) (i : nat) : res byte :=
  match nth_error mem i with Some c => Ok c | None => UB end.
Definition store_at (mem : bytes) (i : nat) (c : byte) : res bytes :=
  if i <? length mem then Ok (upd mem i c) else UB.

(** do { l += 1; } while (path[l] == '/'): io_posix.c 1267-1269. *)
Fixpoint skip_slashes (fuel : nat) (mem : bytes) (l : nat) : res nat :=
  match fuel with
  | O => NoFuel
  | S fuel =>
    let! c := load mem (l + 1) in
    if beq c slash then skip_slashes fuel mem (l + 1) else Ok (l + 1)
  end.

(** do { w -= 1; } while (w > 0 && path[w - 1] != '/'): io_posix.c 1290-1292. *)
Fixpoint wind (mem : bytes) (w : nat) : res nat :=
  match w with
  | O => UB
  | S w =>
    if w =? 0 then Ok w else
    let! c := load mem (w - 1) in
    if beq c slash then Ok w else wind mem w
  end.

(** The conditions on a dot segment at [l], io_posix.c 1274-1287: [0] for none,
    [1] for ".", [2] for "..".  The reads are those of the C code, in its order. *)
Definition dots (mem : bytes) (l : nat) : res nat :=
  let! a := load mem l in
  if negb (beq a dot) then Ok 0 else
  let! b := load mem (l + 1) in
  if beq b slash || beq b x00 then Ok 1 else
  if negb (beq b dot) then Ok 0 else
  let! c := load mem (l + 2) in
  if beq c slash || beq c x00 then Ok 2 else Ok 0.

(** if (path[l] != '\0') l += 1: io_posix.c 1278, 1297. *)
Definition past (mem : bytes) (l : nat) : res nat :=
  let! c := load mem l in Ok (if beq c x00 then l else l + 1).

(** The loop of urkel_path_normalize: io_posix.c 1262-1303; the buffer and [w]. *)
Fixpoint normalize_loop (fuel : nat) (mem : bytes) (l w : nat) : res (bytes * nat) :=
  match fuel with
  | O => NoFuel
  | S fuel =>
    let! c := load mem l in
    if beq c x00 then Ok (mem, w) else
    let! start := (if w =? 0 then Ok true else let! p := load mem (w - 1) in Ok (beq p slash)) in
    let copy := let! mem := store_at mem w c in normalize_loop fuel mem (l + 1) (w + 1) in
    if negb start then copy else
    if beq c slash then let! l := skip_slashes (length mem) mem l in normalize_loop fuel mem l w else
    let! d := dots mem l in
    match d with
    | 1 => let! l := past mem (l + 1) in normalize_loop fuel mem l w
    | 2 =>
      let! w := (if 1 <? w then wind mem w else Ok w) in
      let! l := past mem (l + 2) in
      normalize_loop fuel mem l w
    | _ => copy
    end
  end.

(** while (w > 1 && path[w - 1] == '/') w -= 1: io_posix.c 1305-1306. *)
Fixpoint strip (mem : bytes) (w : nat) : res nat :=
  match w with
  | O => Ok O
  | S w' =>
    if 1 <? w then let! c := load mem w' in if beq c slash then strip mem w' else Ok w
    else Ok w
  end.

(** urkel_path_normalize: io_posix.c 1241-1311; the buffer and the returned length. *)
Definition path_normalize (mem : bytes) : res (bytes * nat) :=
  let! c := load mem 0 in
  if negb (beq c slash) && beq c x00 then Ok (mem, 0) else
  let s := if beq c slash then 1 else 0 in
  let! (mem, w) := normalize_loop (length mem) mem s s in
  let! w := strip mem w in
  let! mem := store_at mem w x00 in
  Ok (mem, w).

(** urkel_path_resolve: io_posix.c 1314-1354.  [cwd]: the string getcwd stores
    (io_posix.c 1218-1233), [None] when it fails; it fails when the string does not fit.
    [path] is the argument, [None] for NULL.  malloc is taken to succeed; what malloc left
    in the buffer is [junk].  [path_max] is 8192.  The result is the buffer realloc leaves, [None] for NULL. *)
Definition path_max : nat := 2 ^ 13.
Definition path_resolve (cwd : option bytes) (junk : byte) (path : option bytes) : res (option bytes) :=
  let p := match path with Some p => p | None => [] end in
  let! out :=
    (if match p with c :: _ => beq c slash | [] => false end then Ok (Some (p ++ [x00])) else
     match cwd with
     | None => Ok None
     | Some d =>
       if path_max <? length d then Ok None else
       if path_max <? length d + 1 + length p then Ok None else
       let s := match p with [] => d | _ => d ++ slash :: p end in
       Ok (Some (s ++ x00 :: repeat junk (path_max - length s)))
     end) in
  match out with
  | None => Ok None
  | Some mem => let! (mem, n) := path_normalize mem in Ok (Some (firstn (n + 1) mem))
  end.

(** urkel_store_init_prefix: store.c 892-917 up to the directory itself: the prefix kept in
    the store, [None] for [return 0].  URKEL_PATH_MAX: io.h 90. *)
Definition URKEL_PATH_MAX : nat := 1024.
Definition init_prefix (cwd : option bytes) (junk : byte) (path : option bytes) : res (option bytes) :=
  let! r := path_resolve cwd junk path in
  match r with
  | None => Ok None
  | Some out =>
    let len := length out - 1 in
    if URKEL_PATH_MAX <? len + 10 then Ok None else Ok (Some (firstn len out))
  end.

(** Storing [s] from position [i] on. *)
Fixpoint store_all (mem : bytes) (i : nat) (s : bytes) : res bytes :=
  match s with
  | [] => Ok mem
  | c :: s => let! mem := store_at mem i c in store_all mem (i + 1) s
  end.
(** urkel_store_path: store.c 411-423, on a buffer [mem] (char path[URKEL_PATH_MAX + 1] in
    every caller). *)
Definition store_path (prefix : bytes) (mem : bytes) (name : bytes) : res bytes :=
  store_all mem 0 (prefix ++ slash :: name ++ [x00]).
(** urkel_store_path_index: store.c 425-431. *)
Definition store_path_index (prefix : bytes) (mem : bytes) (index : N) : res bytes :=
  store_path prefix mem (firstn 10 (serialize_u32 (repeat x00 11) index)).
