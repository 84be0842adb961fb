(** * io_posix.c and io.c: reading and writing files through system calls that fail, are
    interrupted, or move fewer bytes than asked.

    The behaviour of the operating system is a schedule: what each successive read(2),
    write(2), pread(2) or pwrite(2) does.  A schedule that has run out stands for calls that
    move everything they can.  The kernel never reports more bytes than were asked for, so
    the abort() after each call is not modelled. *)
From Verif Require Export Store.
From Coq Require Import ZifyBool ZifyNat ZifyN.

(** The outcome of one system call. *)
Inductive sysret : Type :=
| SIntr               (* -1 with EINTR or EAGAIN *)
| SErr                (* -1 with any other errno *)
| SCount (n : nat).   (* [n] bytes, or as many as remain if that is less *)

(** urkel_fs_write: io_posix.c 916-937, on a descriptor opened with O_APPEND or O_TRUNC: the
    return value, the bytes that have been appended, the rest of the schedule. *)
Fixpoint fs_write (sch : list sysret) (buf : bytes) : bool * bytes * list sysret :=
  match buf with
  | [] => (true, [], sch)
  | _ =>
    match sch with
    | [] => (true, buf, [])
    | SIntr :: sch => fs_write sch buf
    | SErr :: sch => (false, [], sch)
    | SCount n :: sch =>
      match firstn n buf with
      | [] => (false, [], sch)
      | x => let '(ok, y, sch) := fs_write sch (skipn n buf) in (ok, x ++ y, sch)
      end
    end
  end.

(** urkel_fs_pread: io_posix.c 939-961, on a file holding [f]: the return value, the bytes
    stored at dst, the rest of the schedule. *)
Fixpoint fs_pread (sch : list sysret) (f : bytes) (len pos : nat) : bool * bytes * list sysret :=
  match len with
  | O => (true, [], sch)
  | _ =>
    match sch with
    | [] => let x := firstn len (skipn pos f) in (length x =? len, x, [])
    | SIntr :: sch => fs_pread sch f len pos
    | SErr :: sch => (false, [], sch)
    | SCount n :: sch =>
      match firstn (min n len) (skipn pos f) with
      | [] => (false, [], sch)
      | x => let '(ok, y, sch) := fs_pread sch f (len - length x) (pos + length x) in (ok, x ++ y, sch)
      end
    end
  end.

(** urkel_fs_read: io_posix.c 893-914: the same loop with read(2), which reads at the
    descriptor's position and advances it; the descriptor has just been opened. *)
Definition fs_read (sch : list sysret) (f : bytes) (len : nat) : bool * bytes * list sysret :=
  fs_pread sch f len 0.

(** urkel_fs_pwrite: io_posix.c 963-1000: contents of the file afterwards. *)
Definition patch (f : bytes) (pos : nat) (x : bytes) : bytes :=
  firstn pos (f ++ repeat x00 (pos - length f)) ++ x ++ skipn (pos + length x) f.
Fixpoint fs_pwrite (sch : list sysret) (f buf : bytes) (pos : nat) : bool * bytes * list sysret :=
  match buf with
  | [] => (true, f, sch)
  | _ =>
    match sch with
    | [] => (true, patch f pos buf, [])
    | SIntr :: sch => fs_pwrite sch f buf pos
    | SErr :: sch => (false, f, sch)
    | SCount n :: sch =>
      match firstn n buf with
      | [] => (false, f, sch)
      | x => fs_pwrite sch (patch f pos x) (skipn n buf) (pos + length x)
      end
    end
  end.

(** urkel_fs_read_file: io.c 17-33, on an existing file; [op] is whether open(2) succeeds. *)
Definition read_file (op : bool) (sch : list sysret) (f : bytes) (len : nat) : option bytes :=
  if negb op then None else
  let '(ok, x, _) := fs_read sch f len in if ok then Some x else None.
(** urkel_fs_write_file: io.c 35-57: the return value and the contents left behind (the file
    is created or truncated by open(2)). *)
Definition write_file (op : bool) (sch : list sysret) (f : option bytes) (data : bytes) : bool * option bytes :=
  if negb op then (false, f) else
  let '(ok, x, _) := fs_write sch data in (ok, Some x).

(** ** File handles *)

(** urkel_file_t: io.h 130-137.  [h_fd] is [fd != -1], [h_ro] whether it was opened read-only,
    [h_base] the length of the mapping at [base] (None for NULL). *)
Record handle := mkhandle { h_fd : bool; h_ro : bool; h_size : N; h_base : option N; h_mapped : bool }.

(** What the system calls around the transfer do: open, fstat, munmap, mmap succeed or not,
    and the schedule of the transfer. *)
Record os := mkos { o_open : bool; o_fstat : bool; o_munmap : bool; o_mmap : bool; o_sch : list sysret }.

(** urkel_file_open: io_posix.c 1079-1130, with [mm] for URKEL_O_MMAP (64-bit pointers) and
    [ro] for URKEL_O_RDONLY.  malloc does not fail. *)
Definition file_open (mm ro : bool) (o : os) (f : bytes) : option handle :=
  if negb (o_open o) then None else
  if negb (o_fstat o) then None else
  if mm then
    if (0 <? blen f)%N then
      if o_mmap o then Some (mkhandle (negb ro) ro (blen f) (Some (blen f)) true) else None
    else Some (mkhandle true ro (blen f) None true)
  else Some (mkhandle true ro (blen f) None false).

(** urkel_file_pread: io_posix.c 1132-1152.  Arithmetic on uint64_t.  Copying from beyond
    the mapping, or from mapped pages beyond the end of the file, is [UB]. *)
Definition file_pread (h : handle) (o : os) (f : bytes) (len pos : N) : res (option bytes) :=
  if (len =? 0)%N then Ok (Some []) else
  let e := ((pos + len) mod 2 ^ 64)%N in
  if (e <? pos)%N then Ok None else
  if (h_size h <? e)%N then Ok None else
  match h_base h with
  | Some m => if (pos + len <=? m)%N && (pos + len <=? blen f)%N then Ok (Some (slice f pos len)) else UB
  | None =>
    if negb (h_fd h) then Ok None else
    let '(ok, x, _) := fs_pread (o_sch o) f (N.to_nat len) (N.to_nat pos) in
    Ok (if ok then Some x else None)
  end.

(** urkel_file_write: io_posix.c 1154-1185: the return value, the handle and the contents of
    the file afterwards.  write(2) on a closed or read-only descriptor fails. *)
Definition file_write_os (h : handle) (o : os) (f data : bytes) : bool * handle * bytes :=
  match data with
  | [] => (true, h, f)
  | _ =>
    match (match h_base h with
           | Some _ => if o_munmap o then Some (mkhandle (h_fd h) (h_ro h) (h_size h) None (h_mapped h)) else None
           | None => Some h
           end) with
    | None => (false, h, f)
    | Some h =>
      let '(ok, x, _) := if h_fd h && negb (h_ro h) then fs_write (o_sch o) data else (false, [], []) in
      if negb ok then (false, h, f ++ x) else
      let size := (h_size h + blen data)%N in
      let h := mkhandle (h_fd h) (h_ro h) size None (h_mapped h) in
      if h_mapped h then
        if o_mmap o then (true, mkhandle (h_fd h) (h_ro h) size (Some size) true, f ++ x)
        else (false, h, f ++ x)
      else (true, h, f ++ x)
    end
  end.

(** ** Sequences of operations on one file *)

(** The file is opened, read, written and closed any number of times (urkel_store_open_file,
    urkel_store_read, urkel_store_write, urkel_store_close_file: store.c 461-551). *)
Inductive fileop : Type :=
| FOpen (mm ro : bool) (o : os)
| FRead (len pos : N) (o : os)
| FWrite (data : bytes) (o : os)
| FClose.
Inductive fileans : Type := FDone | FBytes (x : bytes) | FFailed.

(** The state: contents of the file and the handle, if it is open. *)
Definition fstep (st : bytes * option handle) (op : fileop) : res (fileans * (bytes * option handle)) :=
  let '(f, ho) := st in
  match op, ho with
  | FOpen mm ro o, None =>
    match file_open mm ro o f with
    | Some h => Ok (FDone, (f, Some h))
    | None => Ok (FFailed, (f, None))
    end
  | FRead len pos o, Some h =>
    let! r := file_pread h o f len pos in
    Ok (match r with Some x => FBytes x | None => FFailed end, (f, Some h))
  | FWrite data o, Some h =>
    let '(ok, h, f) := file_write_os h o f data in
    Ok (if ok then FDone else FFailed, (f, Some h))
  | FClose, _ => Ok (FDone, (f, None))
  | _, _ => Ok (FFailed, st)
  end.

(** ** Facts *)

Lemma fs_write_ok sch : forall buf ok x r, fs_write sch buf = (ok, x, r) ->
  exists n, x = firstn n buf /\ (ok = true -> x = buf).
Proof.
  induction sch as [|c sch IH]; intros buf ok x r E; (destruct buf as [|b buf]; cbn [fs_write] in E).
  - injection E as <- <- <-. exists 0. auto.
  - injection E as <- <- <-. exists (length (b :: buf)). rewrite firstn_all. auto.
  - injection E as <- <- <-. exists 0. auto.
  - destruct c as [| |n].
    + eapply IH, E.
    + injection E as <- <- <-. exists 0. split; [reflexivity|discriminate].
    + destruct (firstn n (b :: buf)) as [|y ys] eqn:F.
      * injection E as <- <- <-. exists 0. split; [reflexivity|discriminate].
      * rewrite <- F in E. destruct (fs_write sch (skipn n (b :: buf))) as [[ok' z] r'] eqn:W.
        injection E as <- <- <-. destruct (IH _ _ _ _ W) as (m & -> & Full).
        exists (n + m). split.
        { rewrite <- (firstn_skipn n (b :: buf)) at 3. rewrite firstn_app.
          rewrite (firstn_all2 (firstn n (b :: buf))) by (rewrite firstn_length; lia). f_equal.
          rewrite firstn_length. destruct (Nat.le_ge_cases n (length (b :: buf))) as [L|L].
          - rewrite Nat.min_l by exact L. f_equal. lia.
          - rewrite skipn_all2 by exact L. now rewrite !firstn_nil. }
        intros Ok'. rewrite (Full Ok'). apply firstn_skipn.
Qed.

(** No call fails for good: interrupted calls and short transfers only. *)
Definition benign (sch : list sysret) : Prop :=
  Forall (fun c => match c with SIntr => True | SErr => False | SCount n => 0 < n end) sch.

Lemma fs_write_benign sch : forall buf, benign sch -> exists r, fs_write sch buf = (true, buf, r).
Proof.
  induction sch as [|c sch IH]; intros buf B; (destruct buf as [|b buf]; cbn [fs_write]; [eauto|]); [eauto|].
  inversion B as [|? ? Hc B']; subst. destruct c as [| |n]; [auto|contradiction|].
  destruct n as [|n]; [lia|]. cbn [firstn skipn]. destruct (IH (skipn n buf) B') as (r & ->). exists r.
  f_equal. f_equal. change ((b :: firstn n buf) ++ skipn n buf = b :: buf). cbn [app]. now rewrite firstn_skipn.
Qed.

Lemma slice_split (f : bytes) pos a b :
  firstn a (skipn pos f) ++ firstn b (skipn (pos + a) f) = firstn (a + b) (skipn pos f).
Proof.
  replace (skipn (pos + a) f) with (skipn a (skipn pos f)).
  2:{ clear. revert f. induction pos as [|pos IH]; intros f; [reflexivity|]. destruct f; [now rewrite !skipn_nil|]. apply IH. }
  generalize (skipn pos f). clear. intros g. revert g. induction a as [|a IH]; intros g; [reflexivity|].
  destruct g as [|x g]; [cbn; now rewrite firstn_nil|]. cbn [firstn skipn Nat.add app]. now rewrite IH.
Qed.

Lemma fs_pread_ok sch : forall f len pos ok x r, fs_pread sch f len pos = (ok, x, r) ->
  (exists n, n <= len /\ x = firstn n (skipn pos f)) /\ (ok = true -> x = firstn len (skipn pos f) /\ pos + len <= length f \/ len = 0).
Proof.
  induction sch as [|c sch IH]; intros f len pos ok x r E; (destruct len as [|len]; cbn [fs_pread] in E).
  - injection E as <- <- <-. split; [exists 0; auto|]. auto.
  - injection E as <- <- <-. split; [exists (S len); auto|]. intros E. left. split; [reflexivity|].
    apply Nat.eqb_eq in E. change (length (firstn (S len) (skipn pos f)) = S len) in E.
    rewrite firstn_length, skipn_length in E. lia.
  - injection E as <- <- <-. split; [exists 0; split; [lia|reflexivity]|]. auto.
  - destruct c as [| |n].
    + eapply IH, E.
    + injection E as <- <- <-. split; [exists 0; split; [lia|reflexivity]|discriminate].
    + destruct (firstn (min n (S len)) (skipn pos f)) as [|y ys] eqn:F.
      * injection E as <- <- <-. split; [exists 0; split; [lia|reflexivity]|discriminate].
      * rewrite <- F in E.
        set (a := length (firstn (min n (S len)) (skipn pos f))) in *.
        assert (A : firstn (min n (S len)) (skipn pos f) = firstn a (skipn pos f)).
        { unfold a. rewrite firstn_length. destruct (Nat.le_ge_cases (min n (S len)) (length (skipn pos f))) as [L|L].
          - now rewrite (Nat.min_l _ _ L).
          - rewrite (Nat.min_r _ _ L). rewrite firstn_all. apply firstn_all2. exact L. }
        assert (La : a <= S len /\ 0 < a).
        { split; [unfold a; rewrite firstn_length; lia|]. unfold a. rewrite F. cbn. lia. }
        destruct (fs_pread sch f (S len - a) (pos + a)) as [[ok' z] r'] eqn:W.
        injection E as <- <- <-. destruct (IH _ _ _ _ _ _ W) as ((m & Lm & ->) & Full). rewrite A.
        split.
        { exists (a + m). split; [lia|]. apply slice_split. }
        intros Ok'. left. destruct (Full Ok') as [(Ez & L)|Z].
        { rewrite Ez, slice_split. replace (a + (S len - a)) with (S len) by lia. split; [reflexivity|lia]. }
        assert (m = 0) by lia. subst m. assert (a = S len) by lia.
        rewrite firstn_O, app_nil_r. split; [congruence|].
        unfold a in *. rewrite firstn_length, skipn_length in *. lia.
Qed.

Lemma fs_pread_benign sch : forall f len pos, benign sch -> pos + len <= length f ->
  exists r, fs_pread sch f len pos = (true, firstn len (skipn pos f), r).
Proof.
  induction sch as [|c sch IH]; intros f len pos B L; (destruct len as [|len]; cbn [fs_pread]; [eauto|]).
  - exists []. f_equal. f_equal. apply Nat.eqb_eq. rewrite firstn_length, skipn_length. lia.
  - inversion B as [|? ? Hc B']; subst. destruct c as [| |n]; [auto|contradiction|].
    set (a := min n (S len)). assert (La : length (firstn a (skipn pos f)) = a).
    { rewrite firstn_length, skipn_length. lia. }
    destruct (firstn a (skipn pos f)) as [|y ys] eqn:F; [cbn in La; lia|]. rewrite <- F, La in *.
    destruct (IH f (S len - a) (pos + a) B' ltac:(lia)) as (r & ->). exists r. f_equal. f_equal.
    rewrite slice_split. f_equal. lia.
Qed.
