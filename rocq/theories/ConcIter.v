(** * Iterators and threads: tree.c 812-829 and 1090-1284 beside the calls of Conc.v.

    urkel_iter_create takes the read lock of the transaction and of the tree and keeps both
    until urkel_iter_destroy, so a thread holds locks between its calls.  Any thread between
    calls may create an iterator, ask any iterator for its next record or destroy one it has
    created (POSIX wants the thread that took a lock to release it).

    Simplified: urkel_iter_next is one step (iter->lock makes it one for other calls on the
    same iterator, the two read locks make it one for everything else: C52_snapshot);
    urkel_iter_destroy releases its locks in one step; urkel_iterate is urkel_tx_create
    followed by urkel_iter_create, and destroying its iterator is followed by
    urkel_tx_destroy (tree.c 1126-1127). *)
From Verif Require Export Conc ConcFacts.

(** urkel_iter_create waits for tx->lock, waits for tree->lock (tree.c 1094-1095); the
    iterator is open; it has been destroyed. *)
Inductive stage := IWantTx | IWantTree | IOpen (it : iterst) | IGone.
Record citer := mkit { ci_owner : nat; ci_tx : nat; ci_stage : stage }.
Record iconf := mkic { ic_conf : config; ic_iters : list citer }.

(** The read locks an iterator holds. *)
Definition iheld (x : citer) : list lockid :=
  match ci_stage x with
  | IWantTree => [LTx (ci_tx x)]
  | IOpen _ => [LTree; LTx (ci_tx x)]
  | IWantTx | IGone => []
  end.
(** Thread [j] is inside urkel_iter_create. *)
Definition creating (its : list citer) (j : nat) : Prop :=
  exists n i st, nth_error its n = Some (mkit j i st) /\ (st = IWantTx \/ st = IWantTree).
(** The request thread [j] waits with does not conflict with the iterators' read locks. *)
Definition respects (its : list citer) (g : config) (j : nat) : Prop :=
  forall x l rest, nth_error (c_threads g) j = Some (In x) -> i_code x = IWait l MW :: rest ->
  forall y, List.In y its -> ~ List.In l (iheld y).
Definition no_writer (g : config) (l : lockid) : Prop :=
  forall t, List.In t (c_threads g) -> ~ List.In (l, MW) (held t).

Inductive iev := ICall (e : event) | INext (n : nat) (r : ires).
Definition lift (e : nat * event) : nat * iev := (fst e, ICall (snd e)).
(** The records iterator [n] has returned, in order. *)
Definition nexts (n : nat) (l : list (nat * iev)) : list ires :=
  flat_map (fun e => match snd e with INext m r => if m =? n then [r] else [] | _ => [] end) l.

Section Steps.
Variable H : bytes -> bytes.
Variable C : bytes -> bytes -> bytes.
Variable grant : iconf -> nat -> Prop.

Inductive istep (j : nat) : iconf -> list (nat * iev) -> iconf -> Prop :=
| is_call g its e g' : ~ creating its j ->
    cstep H C (fun g j => grant (mkic g its) j /\ respects its g j) j g e g' ->
    istep j (mkic g its) (map lift e) (mkic g' its)
| is_begin g its p i : nth_error (c_threads g) j = Some (Idle p) -> ~ creating its j -> i < length (w_txs (c_world g)) ->
    istep j (mkic g its) [] (mkic g (its ++ [mkit j i IWantTx]))
| is_tx g its n i : nth_error its n = Some (mkit j i IWantTx) -> no_writer g (LTx i) -> grant (mkic g its) j ->
    istep j (mkic g its) [] (mkic g (upd its n (mkit j i IWantTree)))
| is_tree g its n i root : nth_error its n = Some (mkit j i IWantTree) -> no_writer g LTree -> grant (mkic g its) j ->
    w_db (c_world g) <> None -> live (c_world g) i = Ok root ->
    istep j (mkic g its) [] (mkic g (upd its n (mkit j i (IOpen (iter_create root)))))
| is_next g its n o i it p d r it' : nth_error (c_threads g) j = Some (Idle p) -> ~ creating its j ->
    nth_error its n = Some (mkit o i (IOpen it)) ->
    w_db (c_world g) = Some d -> iter_next (st_rd (d_store d)) it = Ok (r, it') ->
    istep j (mkic g its) [(j, INext n r)] (mkic g (upd its n (mkit o i (IOpen it'))))
| is_end g its n i it p : nth_error (c_threads g) j = Some (Idle p) -> ~ creating its j ->
    nth_error its n = Some (mkit j i (IOpen it)) ->
    istep j (mkic g its) [] (mkic g (upd its n (mkit j i IGone))).

Inductive iexec (g : iconf) : list (nat * iev) -> iconf -> Prop :=
| ix_nil : iexec g [] g
| ix_snoc l g1 j e g2 : iexec g l g1 -> istep j g1 e g2 -> iexec g (l ++ e) g2.
End Steps.

Definition istart (w : world) (ps : list prog) : iconf := mkic (start w ps) [].
Definition iworld (g : iconf) : world := c_world (ic_conf g).
(** Iterator [n] is open, on transaction [i]. *)
Definition open (g : iconf) (n i : nat) : Prop :=
  exists o it, nth_error (ic_iters g) n = Some (mkit o i (IOpen it)).

(** The calls that cannot run while an iterator on transaction [i] is open, as one finds them
    in tree.c: those that change the database or look up a root other than the current one
    (tree->lock taken for writing), and those that change this transaction or compute hashes
    in it (tx->lock taken for writing). *)
Definition hangs (i : nat) (w : world) (c : call) : Prop :=
  match c with
  | CInject _ | CTxInject _ _ | CTxCommit _ => True
  | CTxCreate (Some _) => True
  | CTxCreate None => exists d, w_db w = Some d /\ d_revert d = true
  | CTxDestroy i' | CTxClear i' | CTxInsert i' _ _ | CTxRemove i' _ => i' = i
  | CTxRoot i' => i' = i /\ exists n, live w i = Ok n /\ n <> NNull /\ hashed n = None
  | CTxProve i' _ => i' = i /\ exists n, live w i = Ok n /\ n <> NNull /\ forall h p, n <> NHash h p
  | _ => False
  end.

(** Lock policies.  [eager]: a request that conflicts with nobody is granted when no other
    thread waits for that lock.  [writers_first]: readers also wait for waiting writers, as
    several implementations of pthread_rwlock_t do (POSIX leaves it open). *)
Definition wants_read (g : iconf) (j : nat) (l : lockid) : Prop :=
  (exists x rest, nth_error (c_threads (ic_conf g)) j = Some (In x) /\ i_code x = IWait l MR :: rest) \/
  (exists n i, nth_error (ic_iters g) n = Some (mkit j i IWantTx) /\ l = LTx i) \/
  (exists n i, nth_error (ic_iters g) n = Some (mkit j i IWantTree) /\ l = LTree).
Definition wants_write (g : iconf) (j : nat) (l : lockid) : Prop :=
  exists x rest, nth_error (c_threads (ic_conf g)) j = Some (In x) /\ i_code x = IWait l MW :: rest.
Definition eager (grant : iconf -> nat -> Prop) : Prop :=
  forall g j, (forall l j', wants_read g j l \/ wants_write g j l -> wants_read g j' l \/ wants_write g j' l -> j' = j) -> grant g j.
Definition writers_first (g : iconf) (j : nat) : Prop :=
  forall l j', j' <> j -> wants_read g j l -> ~ wants_write g j' l.
