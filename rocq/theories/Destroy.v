(** * urkel_destroy: tree.c 615-621, store.c 1152-1212; the directory listing: io_posix.c 584-590,
    724-853; io.c 55-76.

    A directory by names.  [EOther]: a subdirectory, or anything else unlink(2) and open(2)
    refuse. *)
From Verif Require Export Proc Names Properties_Names.

Inductive entry := EFile (b : bytes) | EOther.
Definition folder := list (bytes * entry).
Definition LOCK : bytes := [x6c; x6f; x63; x6b].   (* "lock" *)
Definition META : bytes := [x6d; x65; x74; x61].   (* "meta" *)

Fixpoint get (f : folder) (n : bytes) : option entry :=
  match f with
  | [] => None
  | (m, e) :: f => if bytes_eqb m n then Some e else get f n
  end.
Definition unl (f : folder) (n : bytes) : folder := filter (fun x => negb (bytes_eqb (fst x) n)) f.
(** With an empty lock file. *)
Definition locked (f : folder) : folder := (LOCK, EFile []) :: unl f LOCK.
Definition is_file (f : folder) (n : bytes) : bool :=
  match get f n with Some (EFile _) => true | _ => false end.

(** strcmp(a, b) < 0: urkel__dirent_compare, io_posix.c 584-590. *)
Fixpoint lexb (a b : bytes) : bool :=
  match a, b with
  | [], [] => false
  | [], _ :: _ => true
  | _ :: _, [] => false
  | x :: a', y :: b' => (b2n x <? b2n y)%N || ((b2n x =? b2n y)%N && lexb a' b')
  end.
(** urkel_fs_scandir: io_posix.c 724-853; all names but "." and "..", sorted (qsort, here by
    insertion).  [folder] does not contain "." and "..". *)
Fixpoint insort (x : bytes) (l : list bytes) : list bytes :=
  match l with
  | [] => [x]
  | y :: l => if lexb y x then y :: insort x l else x :: y :: l
  end.
Definition scandir (f : folder) : list bytes := fold_right insort [] (map fst f).

(** Modifications of the file system; [None]: the directory does not exist. *)
Inductive xop :=
| XLock              (* open of "lock" with O_CREAT | O_TRUNC: io.c 57-58 *)
| XUnlink (n : bytes) (* unlink *)
| XRmdir.            (* rmdir: store.c 1207 *)
Definition xapply (d : option folder) (o : xop) : option folder :=
  match o, d with
  | XLock, Some f => Some (locked f)
  | XUnlink n, Some f => Some (unl f n)
  | XRmdir, _ => None
  | _, None => None
  end.

(** The loop: store.c 1182-1191.  [o]: for each system call whether it fails. *)
Fixpoint unlink_loop (names : list bytes) (o : list bool) (f : folder) : res (list xop * list bool * folder) :=
  match names with
  | [] => Ok ([], o, f)
  | n :: names =>
    let! r := parse_u32 (n ++ [x00]) in
    if (match r with Some _ => true | None => false end) || bytes_eqb n META then
      if is_file f n && negb (hd false o)
      then let! (ops, o, f) := unlink_loop names (tl o) (unl f n) in Ok (XUnlink n :: ops, o, f)
      else unlink_loop names (tl o) f                       (* the result of unlink is ignored: 1187 *)
    else unlink_loop names o f
  end.

(** urkel_store_destroy: store.c 1152-1212, for a path that is not too long (Path.v).  The
    modifications made, and the value returned.  [o] has one entry for open, fcntl, the
    directory listing, each unlink and rmdir; calls may also fail because of what is there. *)
Definition destroy (o : list bool) (d : option folder) : res (list xop * bool) :=
  match d with
  | None => Ok ([], false)                                  (* 1174-1177: no directory *)
  | Some f =>
    if hd false o || (match get f LOCK with Some EOther => true | _ => false end)
    then Ok ([], false)                                     (* io.c 60-61 *)
    else
    let f := locked f in
    let o := tl o in
    if hd false o then Ok ([XLock], false)                  (* io.c 63-66: somebody else has it *)
    else
    let o := tl o in
    if hd false o                                           (* 1179-1180 *)
    then Ok (if hd false (tl o) then [XLock] else [XLock; XUnlink LOCK], false)
    else
    let! (ops, o, f) := unlink_loop (scandir f) (tl o) f in
    let '(ops, f) := if hd false o then (ops, f) else (ops ++ [XUnlink LOCK], unl f LOCK) in  (* 1200-1203 *)
    let o := tl o in
    if hd false o || negb (length f =? 0)                   (* 1206-1207 *)
    then Ok (XLock :: ops, false)
    else Ok (XLock :: ops ++ [XRmdir], true)
  end.

(** ** What urkel_open makes of a directory

    store.c 919-960 by names; then as in Proc.v.  A directory that is not refused has data
    files 1 to [j]. *)
Definition content (f : folder) (n : bytes) : option bytes :=
  match get f n with Some (EFile b) => Some b | _ => None end.
Definition data (f : folder) (i : nat) : bytes :=
  match content f (filename (N.of_nat i)) with Some b => b | None => [] end.
Definition dirview (f : folder) : res (option dir) :=
  let! (ok, j) := find_index (scandir f) in
  if ok then Ok (Some (mkdir (content f META) (map (data f) (seq 1 (N.to_nat j))))) else Ok None.
(** The store, or [None] for [return 0].  [key]: what urkel_random_bytes returns. *)
Definition open_folder (H : bytes -> bytes) (C : bytes -> bytes -> bytes) (key : bytes) (f : folder) : res (option store) :=
  let! v := dirview f in
  match v with
  | None => Ok None
  | Some d => let! (_, s) := store_init H C key (Some d) in Ok s
  end.
