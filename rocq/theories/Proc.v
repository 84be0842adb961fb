(** * Creating a database, and processes sharing a directory: store.c 892-976 and 1069-1132,
    io.c 17-76. *)
From Verif Require Export Db.

(** ** Creation: urkel_store_init, store.c 1069-1116, step by step. *)

(** A database directory: the key file "meta" and the data files.  The lock file has no
    influence on a single process. *)
Record dir := mkdir { dir_meta : option bytes; dir_files : list bytes }.
(** Modifications of the file system; [None]: the directory does not exist. *)
Inductive dop :=
| DMkdir            (* mkdir of the prefix: store.c 916 *)
| DCreate           (* open of "meta" with O_CREAT | O_TRUNC: io.c 39-40 *)
| DWrite (b : bytes) (* write to "meta": io.c 46 *)
| DFile (o : fop).  (* what recovery and opening data file 1 do *)
Definition dapply (d : option dir) (o : dop) : option dir :=
  match o, d with
  | DMkdir, None => Some (mkdir None [])
  | DCreate, Some d => Some (mkdir (Some []) (dir_files d))
  | DWrite b, Some d =>
    Some (mkdir (match dir_meta d with Some m => Some (m ++ b) | None => None end) (dir_files d))
  | DFile o, Some d => Some (mkdir (dir_meta d) (apply_op (dir_files d) o))
  | _, d => d
  end.
(** The directory a process leaves that dies: after some of the operations, the last write
    possibly cut short. *)
Inductive dcrash : option dir -> list dop -> option dir -> Prop :=
| dc_now d ops : dcrash d ops d
| dc_short d b n ops : dcrash d (DWrite b :: ops) (dapply d (DWrite (firstn n b)))
| dc_file d fs o ops fs' : d = Some (mkdir (dir_meta fs) (dir_files fs)) -> crash (dir_files fs) [o] fs' ->
    dcrash d (DFile o :: ops) (Some (mkdir (dir_meta fs) fs'))
| dc_step d o ops d' : dcrash (dapply d o) ops d' -> dcrash d (o :: ops) d'.

Section Init.
Variable H : bytes -> bytes.
Variable C : bytes -> bytes -> bytes.

(** urkel_store_init.  [key]: what urkel_random_bytes returns if the key is drawn.  No system
    call fails.  The operations performed, and the store or [None] for [return 0]. *)
Definition store_init (key : bytes) (d : option dir) : res (list dop * option store) :=
  let mk := match d with None => [DMkdir] | Some _ => [] end in      (* store.c 913-916 *)
  let d := match d with None => mkdir None [] | Some d => d end in
  let '(ops, k) :=
    match dir_meta d with                                             (* store.c 925-930 *)
    | Some m => (mk, if length m <? 32 then None else Some (firstn 32 m)) (* io.c 17-32 *)
    | None => (mk ++ [DCreate; DWrite key], Some key)
    end in
  match k with
  | None => Ok (ops, None)
  | Some k =>
    let! r := store_open H C k (dir_files d) [] in
    match r with
    | None => Ok (ops, None)
    | Some s => Ok (ops ++ map DFile (st_log s), Some s)
    end
  end.
End Init.

(** ** The lock file: io.c 55-76, store.c 962-976 and 1118-1131.

    Files are numbered as created; [l_path] is what the name "lock" refers to.  A process
    ([l_proc p]) is outside, has the file open but not locked, is inside with the file
    locked, or has released the lock and not yet unlinked the name.  fcntl locks belong to a
    process and a file; every process opens the database at most once at a time. *)
Inductive pstate := Outside | Opened (f : nat) | Inside (f : nat) | Leaving.
Record lockdir := mklock { l_path : option nat; l_next : nat; l_proc : nat -> pstate }.
Definition pset (ps : nat -> pstate) (p : nat) (s : pstate) : nat -> pstate := fun q => if q =? p then s else ps q.

(** One system call by process [p]. *)
Inductive lstep : lockdir -> nat -> lockdir -> Prop :=
(* open(O_RDWR | O_CREAT | O_TRUNC): io.c 57-58 *)
| l_open_old s p f : l_proc s p = Outside -> l_path s = Some f ->
    lstep s p (mklock (l_path s) (l_next s) (pset (l_proc s) p (Opened f)))
| l_open_new s p : l_proc s p = Outside -> l_path s = None ->
    lstep s p (mklock (Some (l_next s)) (S (l_next s)) (pset (l_proc s) p (Opened (l_next s))))
(* fcntl(F_SETLK, F_WRLCK): io.c 63; granted unless another process has the file locked *)
| l_lock s p f : l_proc s p = Opened f -> (forall q, q <> p -> l_proc s q <> Inside f) ->
    lstep s p (mklock (l_path s) (l_next s) (pset (l_proc s) p (Inside f)))
(* refused, or the rest of urkel_store_init fails before urkel_store_clear: io.c 64, store.c 1089 *)
| l_refused s p f q : l_proc s p = Opened f -> q <> p -> l_proc s q = Inside f ->
    lstep s p (mklock (l_path s) (l_next s) (pset (l_proc s) p Outside))
| l_giveup s p f : l_proc s p = Inside f ->
    lstep s p (mklock (l_path s) (l_next s) (pset (l_proc s) p Outside))
(* urkel_store_clear: urkel_fs_close_lock, then urkel_fs_unlink: store.c 1128-1129 *)
| l_close s p f : l_proc s p = Inside f ->
    lstep s p (mklock (l_path s) (l_next s) (pset (l_proc s) p Leaving))
| l_unlink s p : l_proc s p = Leaving ->
    lstep s p (mklock None (l_next s) (pset (l_proc s) p Outside))
(* the process dies: its files are closed and its locks released *)
| l_die s p : lstep s p (mklock (l_path s) (l_next s) (pset (l_proc s) p Outside)).

(** All interleavings, from a directory without lock file, as long as [ok] holds of each
    step's process and state. *)
Inductive lrun (ok : lockdir -> nat -> Prop) : lockdir -> Prop :=
| lr_start : lrun ok (mklock None 0 (fun _ => Outside))
| lr_step s p s' : lrun ok s -> ok s p -> lstep s p s' -> lrun ok s'.
