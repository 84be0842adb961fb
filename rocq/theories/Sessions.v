(** * Several processes opening the same database: store.c 892-976 and 1069-1132.

    urkel_store_init reads (or creates) the key file and counts the data files before it
    takes the lock.  Between these steps other processes may run. *)
From Verif Require Export Exec.

Section Sessions.
Variable H : bytes -> bytes.
Variable C : bytes -> bytes -> bytes.

(** urkel_store_recover_state (store.c 1028-1064) and the rest of urkel_store_init (1091-1113)
    when the data files were counted as [n].  The files behind the first [n] are not
    looked at.  Not modelled ([UB]): recovery leaves a gap in the numbers of the files. *)
Definition open_at (key : bytes) (n : nat) (fs : list bytes) : res (option db) :=
  let! (fs1, ops, st, last) := recover C key n (firstn n fs) [] in
  let rest := skipn n fs in
  let! (fs2, ops, i) :=
    match fs1, rest with
    | [], [] => Ok ([[]], ops ++ [ONew], 1)         (* file 1 is created *)
    | [], _ =>
      if n =? 0 then Ok (rest, ops, 1)              (* file 1 exists and is opened as it is *)
      else if n =? 1 then Ok ([] :: rest, ops ++ [ONew], 1)
      else UB
    | _, _ => if (length fs1 <? n) && negb (length rest =? 0) then UB else Ok (fs1 ++ rest, ops, length fs1)
    end in
  let index := N.of_nat i in
  check (index <? MAX_FILES)%N
  (let size := blen (fget fs2 (i - 1)) in
   let s := mkstore fs2 ops key (mkslab [] 0 [] 0 size index) st last [] index size [] in
   let! (r, s) := read_root H s (m_root st) in
   match r with
   | None => Ok None
   | Some x => let s := set_state s (mkmeta (m_meta st) (m_root st) x) in
     Ok (Some (mkdb s (hash_field (m_node (st_state s))) false))
   end).

(** A process: not using the database; has found no key file (store.c 925); has a key; has
    counted the data files; has the database open. *)
Inductive proc := POut | PNoKey | PKey (k : bytes) | PIndex (k : bytes) (n : nat) | PIn (w : world).
(** The directory, the process holding the lock, all processes.  The lock is taken to be
    exclusive (C40: conditions under which it is). *)
Record shared := mkshared { sh_meta : option bytes; sh_files : list bytes; sh_owner : option nat; sh_proc : nat -> proc }.
Definition pput (ps : nat -> proc) (p : nat) (s : proc) : nat -> proc := fun q => if q =? p then s else ps q.
Definition put_proc (s : shared) (p : nat) (x : proc) : shared :=
  mkshared (sh_meta s) (sh_files s) (sh_owner s) (pput (sh_proc s) p x).

(** Steps of process [p]; the second component is the abstract database: opening keeps its
    history ([crashed]), calls act on it as specified (SpecDb.v). *)
Inductive sstep : shared -> spec -> nat -> shared -> spec -> Prop :=
(* urkel_store_init_meta, store.c 919-931 *)
| s_found s sp p k : sh_proc s p = POut -> sh_meta s = Some k -> sstep s sp p (put_proc s p (PKey k)) sp
| s_missing s sp p : sh_proc s p = POut -> sh_meta s = None -> sstep s sp p (put_proc s p PNoKey) sp
| s_draw s sp p k : sh_proc s p = PNoKey -> length k = 32 ->
    sstep s sp p (mkshared (Some k) (sh_files s) (sh_owner s) (pput (sh_proc s) p (PKey k))) sp
(* urkel_store_find_index, store.c 933-960 *)
| s_count s sp p k : sh_proc s p = PKey k -> sstep s sp p (put_proc s p (PIndex k (length (sh_files s)))) sp
(* urkel_store_init_lock and the rest, store.c 1082-1115 *)
| s_busy s sp p q k n : sh_proc s p = PIndex k n -> sh_owner s = Some q -> sstep s sp p (put_proc s p POut) sp
| s_open s sp p k n d : sh_proc s p = PIndex k n -> sh_owner s = None ->
    open_at k n (sh_files s) = Ok (Some d) ->
    sstep s sp p (mkshared (sh_meta s) (st_fs (d_store d)) (Some p) (pput (sh_proc s) p (PIn (mkworld (Some d) [])))) (crashed sp)
(* a call: nothing else changes the files *)
| s_call s sp p w c a w' : sh_proc s p = PIn w -> allowed H sp w c -> c <> CReopen -> step H C w c = Ok (a, w') ->
    sstep s sp p (mkshared (sh_meta s) (files w') (sh_owner s) (pput (sh_proc s) p (PIn w'))) (snext H sp c a)
(* urkel_close, tree.c 605-613, or the process ends *)
| s_close s sp p w : sh_proc s p = PIn w -> s_failed sp = false -> aligned (files w) ->
    sstep s sp p (mkshared (sh_meta s) (sh_files s) None (pput (sh_proc s) p POut)) sp
| s_die s sp p : (forall w, sh_proc s p <> PIn w) -> sstep s sp p (put_proc s p POut) sp.

(** All interleavings in which [ok] holds before each step, from an empty directory. *)
Inductive srun (ok : shared -> nat -> Prop) : shared -> spec -> Prop :=
| sr_start : srun ok (mkshared None [] None (fun _ => POut)) spec0
| sr_step s sp p s' sp' : srun ok s sp -> ok s p -> sstep s sp p s' sp' -> srun ok s' sp'.

(** What a process found out before taking the lock is still true when it acts on it. *)
Definition current (s : shared) (p : nat) : Prop :=
  match sh_proc s p with
  | PNoKey => sh_meta s = None
  | PIndex k n => n = length (sh_files s)
  | _ => True
  end.
End Sessions.
