(** * Several handles, also in one process: the lock file with the locks made explicit.

    io.c 55-76 (urkel_fs_open_lock, urkel_fs_close_lock), io_posix.c 1035-1072 (fcntl with
    F_SETLK, close), store.c 962-976 and 1069-1131 (urkel_open, urkel_close), store.c 1174-1204
    (urkel_destroy takes and releases the lock in the same way).

    POSIX record locks belong to a process and a file: a process is never refused a lock it
    already has, and closing any descriptor of the file, or unlocking through it, releases
    the lock of the process. *)
From Verif Require Export Proc.

(** A call of urkel_open with the database it returns (until urkel_close), or of
    urkel_destroy, is a handle; [pr h] is its process.  States as in Proc.v.  [h_lock f]: the
    process that has file [f] locked. *)
Record hdir := mkhd { h_path : option nat; h_next : nat; h_lock : nat -> option nat; h_st : nat -> pstate }.
Inductive hact := AOpen | ALock | AGiveup | AClose | AUnlink | ADie.

Section Handles.
Variable pr : nat -> nat.

Definition lset (l : nat -> option nat) (f : nat) (x : option nat) : nat -> option nat := fun g => if g =? f then x else l g.
(** Unlocking or closing: the process loses its lock on [f]. *)
Definition release (l : nat -> option nat) (f p : nat) : nat -> option nat :=
  match l f with Some q => if q =? p then lset l f None else l | None => l end.
(** One system call for handle [h]; [None]: not the next one. *)
Definition hact_step (s : hdir) (h : nat) (a : hact) : option hdir :=
  let '(mkhd path next lk st) := s in
  match a, st h with
  | AOpen, Outside =>                                     (* open(O_CREAT): io.c 57-58 *)
    match path with
    | Some f => Some (mkhd path next lk (pset st h (Opened f)))
    | None => Some (mkhd (Some next) (S next) lk (pset st h (Opened next)))
    end
  | ALock, Opened f =>                                    (* fcntl(F_SETLK): io.c 63-66 *)
    match lk f with
    | Some q => if q =? pr h then Some (mkhd path next lk (pset st h (Inside f)))
                else Some (mkhd path next (release lk f (pr h)) (pset st h Outside))
    | None => Some (mkhd path next (lset lk f (Some (pr h))) (pset st h (Inside f)))
    end
  | AGiveup, Inside f =>                                  (* store.c 1086-1090: urkel_open fails later *)
    Some (mkhd path next (release lk f (pr h)) (pset st h Outside))
  | AClose, Inside f =>                                   (* store.c 1128, 1202 *)
    Some (mkhd path next (release lk f (pr h)) (pset st h Leaving))
  | AUnlink, Leaving => Some (mkhd None next lk (pset st h Outside))   (* store.c 1129, 1203 *)
  | ADie, _ =>                                            (* the process of [h] dies *)
    Some (mkhd path next (fun f => match lk f with Some q => if q =? pr h then None else Some q | None => None end)
               (fun g => if pr g =? pr h then Outside else st g))
  | _, _ => None
  end.
(** All interleavings in which [ok] holds before each step. *)
Inductive handles (ok : hdir -> nat -> hact -> Prop) : hdir -> Prop :=
| hn_start : handles ok (mkhd None 0 (fun _ => None) (fun _ => Outside))
| hn_step s h a s' : handles ok s -> ok s h a -> hact_step s h a = Some s' -> handles ok s'.
End Handles.
