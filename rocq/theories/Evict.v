(** * The table of open data files: store.c 212-303, 433-506, 522-551.

    A [urkel_file_t *] is a number that is never reused ([fresh] is the next one); [closed]
    lists the files closed, latest first.  What the files contain is Store.v's business. *)
From Verif Require Export Prelude.

Definition MAX_OPEN_FILES : nat := 32. (* store.c 27 *)
Definition MAX_FILES : N := 32767. (* store.c 26: 0x7fff *)

Record fstate := {
  items : list (option nat);   (* files.items[0..files.len) *)
  fsize : nat;                 (* files.size *)
  findex : nat;                (* store->index *)
  fcurrent : option nat;       (* store->current, None for &urkel_null_file *)
  fresh : nat;
  closed : list nat;
  rpos : nat                   (* numbers drawn from the generator so far *)
}.

(** urkel_filemap_lookup: store.c 247-262. *)
Definition fm_lookup (s : fstate) (i : nat) : option nat := nth i (items s) None.
(** urkel_filemap_insert: store.c 264-285. *)
Definition fm_insert (s : fstate) (i f : nat) : res fstate :=
  check ((i <? length (items s)) || (N.of_nat i <? MAX_FILES)%N)
  (let its := items s ++ repeat None (i + 1 - length (items s)) in
   match nth i its None with
   | Some _ => Abort
   | None => Ok {| items := upd its i (Some f); fsize := fsize s + 1; findex := findex s; fcurrent := fcurrent s;
                   fresh := fresh s; closed := closed s; rpos := rpos s |}
   end).
(** urkel_store_close_file: store.c 493-506, with urkel_filemap_remove: store.c 287-303. *)
Definition close_file (s : fstate) (i : nat) : fstate :=
  match fm_lookup s i with
  | None => s
  | Some f =>
    let cur := match fcurrent s with Some c => c =? f | None => false end in
    {| items := upd (items s) i None; fsize := fsize s - 1;
       findex := if cur then 0 else findex s; fcurrent := if cur then None else fcurrent s;
       fresh := fresh s; closed := f :: closed s; rpos := rpos s |}
  end.

(** The for loop of urkel_store_evict: store.c 444-457; [n] entries are left from [i] on. *)
Fixpoint evict_pick (n : nat) (s : fstate) (i : nat) (tries : N) : fstate :=
  match n with
  | O => s
  | S n =>
    match fm_lookup s i with
    | None => evict_pick n s (i + 1) tries
    | Some _ =>
      if i =? findex s then evict_pick n s (i + 1) tries else
      if (tries =? 0)%N then close_file s i else evict_pick n s (i + 1) (tries - 1)
    end
  end.
(** urkel_store_evict: store.c 436-459.  [rnd k] is what the k-th call of urkel_rng_rand
    returns: any function. *)
Fixpoint evict (fuel : nat) (rnd : nat -> N) (s : fstate) : res fstate :=
  if fsize s <=? MAX_OPEN_FILES then Ok s else
  match fuel with
  | O => NoFuel
  | S fuel =>
    let tries := (rnd (rpos s) mod N.of_nat (fsize s - 1))%N in
    let s := {| items := items s; fsize := fsize s; findex := findex s; fcurrent := fcurrent s;
                fresh := fresh s; closed := closed s; rpos := rpos s + 1 |} in
    evict fuel rnd (evict_pick (length (items s) - 1) s 1 tries)
  end.

(** urkel_store_open_file: store.c 461-491; [ok]: urkel_file_open succeeds. *)
Definition open_file (rnd : nat -> N) (s : fstate) (i : nat) (write ok : bool) : res (fstate * option nat) :=
  if (i =? 0) || (findex s + 1 <? i) then Ok (s, None) else
  match fm_lookup s i with
  | Some f => Ok (s, Some f)
  | None =>
    if negb ok then Ok (s, None) else
    let f := fresh s in
    let s := {| items := items s; fsize := fsize s; findex := findex s; fcurrent := fcurrent s;
                fresh := fresh s + 1; closed := closed s; rpos := rpos s |} in
    let! s := (if write then evict (fsize s) rnd s else Ok s) in
    let! s := fm_insert s i f in
    Ok (s, Some f)
  end.

(** What the store does with the table: reading from file [i] (store.c 508-520), moving on to
    a new data file in urkel_store_write (store.c 535-548), and the end of a commit
    (store.c 797). *)
Inductive fop :=
| FRead (i : nat) (ok : bool)
| FRoll (ok sync : bool)
| FCommit.
Definition fstep (rnd : nat -> N) (s : fstate) (o : fop) : res fstate :=
  match o with
  | FRead i ok => let! (s, _) := open_file rnd s i false ok in Ok s
  | FRoll ok sync =>
    let i := findex s + 1 in
    let! (s, f) := open_file rnd s i true ok in
    match f with
    | None => Ok s
    | Some f =>
      if negb sync then Ok s else
      let s := close_file s (findex s) in
      Ok {| items := items s; fsize := fsize s; findex := i; fcurrent := Some f;
            fresh := fresh s; closed := closed s; rpos := rpos s |}
    end
  | FCommit => evict (fsize s) rnd s
  end.
Fixpoint frun (rnd : nat -> N) (s : fstate) (os : list fop) : res fstate :=
  match os with
  | [] => Ok s
  | o :: os => let! s := fstep rnd s o in frun rnd s os
  end.
(** The table when urkel_store_init has opened data file [i] for writing: store.c 1089-1099. *)
Definition finit (rnd : nat -> N) (i : nat) : res fstate :=
  let s := {| items := []; fsize := 0; findex := i; fcurrent := None; fresh := 0; closed := []; rpos := 0 |} in
  let! (s, f) := open_file rnd s i true true in
  Ok {| items := items s; fsize := fsize s; findex := findex s; fcurrent := f;
        fresh := fresh s; closed := closed s; rpos := rpos s |}.
