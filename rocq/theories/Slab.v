(** * The write buffer with its two allocated arrays: store.c 50-61, 150-210, 715-745.

    Store.v models the buffer as lists.  Here: the block [data] of [data_size] bytes, the block
    [offsets] with one element more than [offsets_len] says, reallocation, memcpy, and the
    arithmetic of size_t ([W] values; [MEM] bytes are the largest block malloc returns).  New
    blocks contain anything ([fb], [fo]).  Any access outside a block is [UB]. *)
From Verif Require Export Store.
From Coq Require Import ZifyBool ZifyNat ZifyN.

(** urkel_slab_t: store.c 50-61.  file_pos is 64 bits wide and at most a file size; file_index is uint32_t. *)
Record cslab := mkcslab {
  c_data : bytes; c_size : N; c_len : N; c_off : N;
  c_offs : list N; c_olen : nat; c_steps : nat; c_start : nat;
  c_pos : N; c_index : N }.

(** memcpy into a block, and reading from one. *)
Definition memcpy (buf : bytes) (off : nat) (src : bytes) : res bytes :=
  if off + length src <=? length buf then Ok (firstn off buf ++ src ++ skipn (off + length src) buf) else UB.
Definition memread (buf : bytes) (off len : nat) : res bytes :=
  if off + len <=? length buf then Ok (firstn len (skipn off buf)) else UB.
Definition poke (l : list N) (i : nat) (x : N) : res (list N) :=
  if i <? length l then Ok (firstn i l ++ x :: skipn (i + 1) l) else UB.
Definition peek (l : list N) (i : nat) : res N :=
  match nth_error l i with Some x => Ok x | None => UB end.

Section Slab.
Variables W MEM : N.
Variable fb : nat -> byte.
Variable fo : nat -> N.

(** checked_malloc, checked_realloc: internal.h; they abort when there is no memory. *)
Definition realloc {A} (fill : nat -> A) (l : list A) (n : nat) : list A :=
  firstn n l ++ map fill (seq (length l) (n - length l)).
Definition checked {A} (size : N) (k : res A) : res A := if (MEM <? size)%N then Abort else k.

(** urkel_slab_init: store.c 153-156; file_pos and file_index are set by 1107-1112. *)
Definition cslab_init (pos index : N) : cslab := mkcslab [] 0 0 0 [] 0 0 0 pos index.

(** urkel_slab_write: store.c 169-210. *)
Definition cslab_write (c : cslab) (src : bytes) : res cslab :=
  let len := blen src in
  let needs := ((c_len c + len) mod W)%N in                                             (* 171 *)
  check (len <=? MAX_FILE_SIZE)%N                                                       (* 173 *)
  (let! c := (if c_olen c =? 0                                                          (* 175-178 *)
              then checked 16 (Ok (mkcslab (c_data c) (c_size c) (c_len c) (c_off c) (realloc fo [] 2) 1 (c_steps c) (c_start c) (c_pos c) (c_index c)))
              else Ok c) in
   let! c := (if (MAX_FILE_SIZE <? c_pos c + len)%N then                                (* 180-194 *)
                let! c := (if c_steps c =? c_olen c
                           then checked ((N.of_nat (c_olen c) + 2) * 8)
                             (Ok (mkcslab (c_data c) (c_size c) (c_len c) (c_off c) (realloc fo (c_offs c) (c_olen c + 2)) (c_olen c + 1) (c_steps c) (c_start c) (c_pos c) (c_index c)))
                           else Ok c) in
                let! o := poke (c_offs c) (c_steps c) (c_off c) in
                Ok (mkcslab (c_data c) (c_size c) (c_len c) 0 o (c_olen c) (c_steps c + 1) (c_start c) 0 ((c_index c + 1) mod 4294967296))
              else Ok c) in
   let! c := (if (c_size c <? needs)%N then                                             (* 196-203 *)
                let size := ((c_size c * 3) mod W / 2)%N in
                let size := (if (size <? needs)%N then (needs * 3) mod W / 2 else size)%N in
                checked size (Ok (mkcslab (realloc fb (c_data c) (N.to_nat size)) size (c_len c) (c_off c) (c_offs c) (c_olen c) (c_steps c) (c_start c) (c_pos c) (c_index c)))
              else Ok c) in
   let! d := (if (0 <? len)%N then memcpy (c_data c) (N.to_nat (c_len c)) src else Ok (c_data c)) in
   Ok (mkcslab d (c_size c) ((c_len c + len) mod W) ((c_off c + len) mod W) (c_offs c) (c_olen c) (c_steps c) (c_start c) (c_pos c + len) (c_index c))).

(** The loops of urkel_store_flush: store.c 724-737; [n] is the number of rounds left. *)
Fixpoint coffset (offs : list N) (i n : nat) (p : nat) : res nat :=
  match n with
  | O => Ok p
  | S n => let! x := peek offs i in coffset offs (i + 1) n (p + N.to_nat x)
  end.
Fixpoint cflush_loop (s : store) (offs : list N) (buf : bytes) (p i n : nat) : res (option nat * store) :=
  match n with
  | O => Ok (None, s)
  | S n =>
    let! len := peek offs i in
    let! src := memread buf p (N.to_nat len) in
    let! (ok, s) := store_write s src in
    if ok then cflush_loop s offs buf (p + N.to_nat len) (i + 1) n else Ok (Some i, s)
  end.

(** urkel_store_flush: store.c 715-745. *)
Definition cflush (c : cslab) (s : store) : res (bool * cslab * store) :=
  let! offs := poke (c_offs c) (c_steps c) (c_off c) in                                 (* 722 *)
  let! p := coffset offs 0 (c_start c) 0 in                                             (* 724-725 *)
  let! (r, s) := cflush_loop s offs (c_data c) p (c_start c) (c_steps c + 1 - c_start c) in
  match r with
  | Some i => Ok (false, mkcslab (c_data c) (c_size c) (c_len c) (c_off c) offs (c_olen c) (c_steps c) i (c_pos c) (c_index c), s)
  | None => Ok (true, mkcslab (c_data c) (c_size c) 0 0 offs (c_olen c) 0 0 (c_pos c) (c_index c), s)
  end.

(** What the library does with the buffer. *)
Inductive use : Type := UWrite (data : bytes) | UFlush (s : store).
Fixpoint crun (us : list use) (c : cslab) : res cslab :=
  match us with
  | [] => Ok c
  | UWrite d :: us => let! c := cslab_write c d in crun us c
  | UFlush s :: us => let! x := cflush c s in crun us (snd (fst x))
  end.
End Slab.

(** The same on the lists of Store.v; nothing is flushed before something has been written, and in
    between neither the buffer nor the files change. *)
Definition idles (s s' : store) : Prop := st_slab s' = st_slab s /\ st_fs s' = st_fs s /\ st_log s' = st_log s.
Inductive used : store -> list use -> store -> Prop :=
| us_nil s : used s [] s
| us_write s data sl us s2 : slab_write (st_slab s) data = Ok sl -> used (set_slab s sl) us s2 -> used s (UWrite data :: us) s2
| us_flush s b s1 us s2 : sl_data (st_slab s) <> [] -> store_flush s = Ok (b, s1) -> used s1 us s2 -> used s (UFlush s :: us) s2
| us_idle s s1 us s2 : idles s s1 -> used s1 us s2 -> used s us s2.
