(** * Readers opening data files at the same time: store.c 216-285, 461-520.

    Readers hold tree->lock for reading, so several threads may be inside urkel_store_read at
    once.  Each of the three accesses to shared state in urkel_store_open_file is one step: the
    lookup (under files.lock, read), opening the file, the insertion (under files.lock, write).
    Eviction is not part of it: it needs tree->lock for writing.  [fstate] is Evict.v's. *)
From Verif Require Export Evict.

(** A reading thread: between two reads, with the files still to be read from; after a lookup
    that found nothing; with the file opened (store.c 477) but not yet in the table. *)
Inductive rthread : Type :=
| RNext (is : list nat)
| ROpening (i : nat) (is : list nat)
| ROpened (i f : nat) (is : list nat).

(** The process runs, or CHECK has aborted it. *)
Inductive rconf : Type := Running (s : fstate) (ts : list rthread) | Aborted.

Definition set_fresh (s : fstate) (n : nat) : fstate :=
  {| items := items s; fsize := fsize s; findex := findex s; fcurrent := fcurrent s;
     fresh := n; closed := closed s; rpos := rpos s |}.

Inductive rstep (j : nat) : rconf -> rconf -> Prop :=
| rs_bad s ts i is :                                   (* store.c 466-467 *)
    nth_error ts j = Some (RNext (i :: is)) -> i = 0 \/ findex s + 1 < i ->
    rstep j (Running s ts) (Running s (upd ts j (RNext is)))
| rs_hit s ts i is f :                                 (* store.c 469-472 *)
    nth_error ts j = Some (RNext (i :: is)) -> 1 <= i <= findex s + 1 -> fm_lookup s i = Some f ->
    rstep j (Running s ts) (Running s (upd ts j (RNext is)))
| rs_miss s ts i is :
    nth_error ts j = Some (RNext (i :: is)) -> 1 <= i <= findex s + 1 -> fm_lookup s i = None ->
    rstep j (Running s ts) (Running s (upd ts j (ROpening i is)))
| rs_fail s ts i is :                                  (* store.c 476-479 *)
    nth_error ts j = Some (ROpening i is) ->
    rstep j (Running s ts) (Running s (upd ts j (RNext is)))
| rs_open s ts i is :
    nth_error ts j = Some (ROpening i is) ->
    rstep j (Running s ts) (Running (set_fresh s (fresh s + 1)) (upd ts j (ROpened i (fresh s) is)))
| rs_insert s ts i f is s' :                           (* store.c 488-490 *)
    nth_error ts j = Some (ROpened i f is) -> fm_insert s i f = Ok s' ->
    rstep j (Running s ts) (Running s' (upd ts j (RNext is)))
| rs_abort s ts i f is :                               (* store.c 271, 279 *)
    nth_error ts j = Some (ROpened i f is) -> fm_insert s i f = Abort ->
    rstep j (Running s ts) Aborted.

Inductive rexec (g : rconf) : rconf -> Prop :=
| rx_nil : rexec g g
| rx_snoc g1 j g2 : rexec g g1 -> rstep j g1 g2 -> rexec g g2.
