(** * What is on the disk: urkel_store_sync (store.c 522-526) in a build with URKEL_FSYNC.

    urkel_store_write (store.c 528-551) synchronises the data file it leaves after it has
    created the next one; urkel_store_commit (store.c 777-800) synchronises the current file
    before it reports success.  Synchronising a file also makes its directory entry durable
    (as on ext4 and APFS; POSIX does not promise it).  Without URKEL_FSYNC the second kind of
    call is missing. *)
From Verif Require Export Sim.

(** [D]: the contents known to be on the disk; file [k] is synchronised. *)
Definition sync_file (fs D : list bytes) (k : nat) : list bytes :=
  upd (D ++ repeat [] (length fs - length D)) k (fget fs k).
(** The operations of a commit. *)
Fixpoint disk (fs D : list bytes) (ops : list fop) : list bytes * list bytes :=
  match ops with
  | [] => (fs, D)
  | ONew :: ops => disk (apply_op fs ONew) (sync_file fs D (length fs - 1)) ops   (* store.c 535-546 *)
  | ODrop :: ops => disk (apply_op fs ODrop) (firstn (length fs - 1) D) ops
  | o :: ops => disk (apply_op fs o) D ops
  end.
(** After a commit that reports success: store.c 787-790. *)
Definition after_commit (fs D : list bytes) (ops : list fop) : list bytes :=
  let '(fs, D) := disk fs D ops in sync_file fs D (length fs - 1).
