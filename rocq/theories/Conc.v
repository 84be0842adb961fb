(** * Threads: the locks of tree.c 637-1084 around the calls of Db.v.

    Every API call is a sequence of lock operations around one critical section that first
    loads the objects the call works on and later stores its results; between any two of
    these steps other threads may run.  Objects are the database (root, commit state, root
    cache; guarded by tree->lock) and the transactions (guarded by tx->lock).

    Not modelled here: the file map with its own lock (Race.v), iterators (ConcIter.v), and inserts of more than 1023 bytes, which
    return before taking a lock (tree.c 986-989).  A successful system call is assumed for
    the lock operations themselves (io_posix.c wraps pthread_rwlock). *)
From Verif Require Export Db ApiFacts.

Inductive lockid : Type := LTree | LTx (i : nat).
Inductive mode : Type := MR | MW.
Definition lockid_eq_dec (a b : lockid) : {a = b} + {a <> b}.
Proof. decide equality. apply Nat.eq_dec. Defined.

(** [IAcq] calls urkel_rwlock_rdlock/wrlock, [IWait] is inside that call.
    [ITest extra]: the test of [write_lock]; when it is set [extra] runs first. *)
Inductive instr : Type :=
| IAcq (l : lockid) (m : mode) | IWait (l : lockid) (m : mode) | IRel (l : lockid)
| ITest (extra : list instr) | ILoad | IStore.

(** The lock operations of each call, in order. *)
Definition code (c : call) : list instr :=
  match c with
  | CRoot => [IAcq LTree MR; ILoad; IStore; IRel LTree]                              (* 637-644 *)
  | CInject _ => [IAcq LTree MW; ILoad; IStore; IRel LTree]                          (* 646-665 *)
  | CTxCreate _ =>                                                                   (* 831-871 *)
    [IAcq LTree MR; ITest [IRel LTree; IAcq LTree MW]; ILoad; IStore; IRel LTree]
  | CTxDestroy i => [IAcq (LTx i) MW; ILoad; IStore; IRel (LTx i)]                   (* 873-881 *)
  | CTxClear i =>                                                                    (* 883-894 *)
    [IAcq (LTx i) MW; IAcq LTree MR; ILoad; IStore; IRel LTree; IRel (LTx i)]
  | CTxRoot i =>                                                                     (* 896-917 *)
    [IAcq (LTx i) MR; ITest [IRel (LTx i); IAcq (LTx i) MW]; ILoad; IStore; IRel (LTx i)]
  | CTxInject i _ =>                                                                 (* 919-940 *)
    [IAcq (LTx i) MW; IAcq LTree MW; ILoad; IStore; IRel LTree; IRel (LTx i)]
  | CTxGet i _ | CTxHas i _ =>                                                       (* 942-976 *)
    [IAcq (LTx i) MR; IAcq LTree MR; ILoad; IStore; IRel LTree; IRel (LTx i)]
  | CTxInsert i _ _ | CTxRemove i _ =>                                               (* 978-1020 *)
    [IAcq (LTx i) MW; IAcq LTree MR; ILoad; IStore; IRel LTree; IRel (LTx i)]
  | CTxProve i _ =>                                                                  (* 1022-1066 *)
    [IAcq (LTx i) MR; IAcq LTree MR; ITest [IRel (LTx i); IAcq (LTx i) MW]; ILoad; IStore; IRel LTree; IRel (LTx i)]
  | CTxCommit i =>                                                                   (* 1068-1084 *)
    [IAcq (LTx i) MW; IAcq LTree MW; ILoad; IStore; IRel LTree; IRel (LTx i)]
  | _ => []   (* composed of the others: below *)
  end.

(** The objects a call works on. *)
Definition uses_tree (c : call) : bool :=
  match c with CTxDestroy _ | CTxRoot _ => false | _ => true end.
Definition tx_of (c : call) : option nat :=
  match c with
  | CTxDestroy i | CTxClear i | CTxRoot i | CTxInject i _ | CTxGet i _ | CTxHas i _
  | CTxInsert i _ _ | CTxRemove i _ | CTxProve i _ | CTxCommit i => Some i
  | _ => None
  end.

Definition uses (o : lockid) (c : call) : Prop :=
  match o with LTree => uses_tree c = true | LTx i => tx_of c = Some i end.
Definition same (o : lockid) (w w' : world) : Prop :=
  match o with LTree => w_db w' = w_db w | LTx i => nth i (w_txs w') TDead = nth i (w_txs w) TDead end.

(** [write_lock] is 0: tree.c 838 (no hash given and not reverted), 901 (the root node has
    its hash), 1032-1033 (the root node is NULL or HASH). *)
Definition fast (c : call) (w : world) : bool :=
  match c with
  | CTxCreate None => match w_db w with Some d => negb (d_revert d) | None => false end
  | CTxRoot i =>
    match nth i (w_txs w) TDead with
    | TLive n => match n with NNull => true | _ => match hashed n with Some _ => true | None => false end end
    | _ => false
    end
  | CTxProve i _ => match nth i (w_txs w) TDead with TLive NNull | TLive (NHash _ _) => true | _ => false end
  | _ => false
  end.

(** What a thread does: calls, each chosen from the answers so far. *)
Inductive prog : Type := PDone (a : answer) | PCall (c : call) (k : answer -> prog).

Section Progs.
(** urkel_insert, urkel_remove: tree.c 705-746. *)
Definition write_prog (mk : nat -> call) : prog :=
  PCall (CTxCreate None) (fun a =>
    match a with
    | ATx i => PCall (mk i) (fun a =>
        match a with
        | AOk => PCall (CTxCommit i) (fun a => PCall (CTxDestroy i) (fun _ => PDone a))
        | _ => PCall (CTxDestroy i) (fun _ => PDone a)
        end)
    | _ => PDone a
    end).
Definition urkel_insert k v := write_prog (fun i => CTxInsert i k v).
Definition urkel_remove k := write_prog (fun i => CTxRemove i k).
(** urkel_get, urkel_has, urkel_prove: tree.c 667-703, 748-768. *)
Definition read_prog (ro : option bytes) (mk : nat -> call) : prog :=
  PCall (CTxCreate ro) (fun a =>
    match a with
    | ATx i => PCall (mk i) (fun a => PCall (CTxDestroy i) (fun _ => PDone a))
    | _ => PDone a
    end).
Definition urkel_get k ro := read_prog ro (fun i => CTxGet i k).
Definition urkel_has k ro := read_prog ro (fun i => CTxHas i k).
Definition urkel_prove k ro := read_prog ro (fun i => CTxProve i k).
End Progs.

(** A thread: between calls, or inside one with the instructions still to run, the loaded
    objects, the locks it holds and the answer once it is known. *)
Record inside := mkin {
  i_call : call; i_code : list instr; i_regs : option (option db * txst);
  i_held : list (lockid * mode); i_ans : option answer; i_cont : answer -> prog }.
Inductive thread : Type := Idle (p : prog) | In (x : inside).

Record config := mkconf { c_world : world; c_threads : list thread }.

Definition held (t : thread) : list (lockid * mode) := match t with Idle _ => [] | In x => i_held x end.
(** pthread_rwlock: a reader excludes writers, a writer everybody. *)
Definition compatible (ts : list thread) (l : lockid) (m : mode) : Prop :=
  forall t l' m', List.In t ts -> List.In (l', m') (held t) -> l' = l -> m = MR /\ m' = MR.
Definition drop_lock (l : lockid) (h : list (lockid * mode)) : list (lockid * mode) :=
  filter (fun e => if lockid_eq_dec (fst e) l then false else true) h.

Definition tx_value (c : call) (w : world) : txst :=
  match tx_of c with Some i => nth i (w_txs w) TDead | None => TDead end.
(** The handle is one that urkel_tx_create has returned. *)
Definition valid_tx (c : call) (w : world) : bool :=
  match tx_of c with Some i => i <? length (w_txs w) | None => true end.
(** The world as the loaded objects present it. *)
Definition with_regs (c : call) (w : world) (r : option db * txst) : world :=
  mkworld (if uses_tree c then fst r else w_db w)
          (match tx_of c with Some i => upd (w_txs w) i (snd r) | None => w_txs w end).

(** A call begins, takes effect with an answer, returns the answer. *)
Inductive event : Type := EInv (c : call) | EEff (c : call) (a : answer) | ERet (c : call) (a : answer).
(** The calls that take effect, in order; the events of one thread. *)
Definition effects (l : list (nat * event)) : list (call * answer) :=
  flat_map (fun e => match snd e with EEff c a => [(c, a)] | _ => [] end) l.
Definition events_of (j : nat) (l : list (nat * event)) : list event :=
  map snd (filter (fun e => fst e =? j) l).
(** The events a thread with program [p] can show. *)
Inductive follows : prog -> list event -> Prop :=
| fo_nil p : follows p []
| fo_inv c k : follows (PCall c k) [EInv c]
| fo_eff c k a : follows (PCall c k) [EInv c; EEff c a]
| fo_ret c k a es : follows (k a) es -> follows (PCall c k) (EInv c :: EEff c a :: ERet c a :: es).

Section Steps.
Variable H : bytes -> bytes.
Variable C : bytes -> bytes -> bytes.
(** The scheduling policy of the locks: whether a request that does not conflict with the
    holders is granted to a thread now (it may instead prefer another waiting thread). *)
Variable grant : config -> nat -> Prop.

(** One step of thread [j] and the event that can be seen, if any. *)
Inductive cstep (j : nat) : config -> list (nat * event) -> config -> Prop :=
| cs_call w ts c k :
    nth_error ts j = Some (Idle (PCall c k)) ->
    cstep j (mkconf w ts) [(j, EInv c)] (mkconf w (upd ts j (In (mkin c (code c) None [] None k))))
| cs_req w ts c l m rest r h a k :
    nth_error ts j = Some (In (mkin c (IAcq l m :: rest) r h a k)) ->
    cstep j (mkconf w ts) [] (mkconf w (upd ts j (In (mkin c (IWait l m :: rest) r h a k))))
| cs_acq w ts c l m rest r h a k :
    nth_error ts j = Some (In (mkin c (IWait l m :: rest) r h a k)) ->
    compatible ts l m -> grant (mkconf w ts) j ->
    cstep j (mkconf w ts) [] (mkconf w (upd ts j (In (mkin c rest r ((l, m) :: h) a k))))
| cs_rel w ts c l rest r h a k :
    nth_error ts j = Some (In (mkin c (IRel l :: rest) r h a k)) ->
    cstep j (mkconf w ts) [] (mkconf w (upd ts j (In (mkin c rest r (drop_lock l h) a k))))
| cs_test w ts c extra rest r h a k :
    nth_error ts j = Some (In (mkin c (ITest extra :: rest) r h a k)) ->
    valid_tx c w = true ->
    cstep j (mkconf w ts) []
      (mkconf w (upd ts j (In (mkin c (if fast c w then rest else extra ++ rest) r h a k))))
| cs_load w ts c rest r h a k :
    nth_error ts j = Some (In (mkin c (ILoad :: rest) r h a k)) ->
    valid_tx c w = true ->
    cstep j (mkconf w ts) [] (mkconf w (upd ts j (In (mkin c rest (Some (w_db w, tx_value c w)) h a k))))
| cs_store w ts c rest r h a k a' w' :
    nth_error ts j = Some (In (mkin c (IStore :: rest) (Some r) h a k)) ->
    step H C (with_regs c w r) c = Ok (a', w') ->
    cstep j (mkconf w ts) [(j, EEff c a')] (mkconf w' (upd ts j (In (mkin c rest (Some r) h (Some a') k))))
| cs_ret w ts c r h a k :
    nth_error ts j = Some (In (mkin c [] r h (Some a) k)) ->
    cstep j (mkconf w ts) [(j, ERet c a)] (mkconf w (upd ts j (Idle (k a)))).

(** Executions with their events, in order. *)
Inductive cexec (g : config) : list (nat * event) -> config -> Prop :=
| cx_nil : cexec g [] g
| cx_snoc l g1 j e g2 : cexec g l g1 -> cstep j g1 e g2 -> cexec g (l ++ e) g2.

(** The same calls one after the other, without threads. *)
Inductive seq (w : world) : list (call * answer) -> world -> Prop :=
| sq_nil : seq w [] w
| sq_snoc l w1 c a w2 : seq w l w1 -> step H C w1 c = Ok (a, w2) -> seq w (l ++ [(c, a)]) w2.
End Steps.

(** A thread inside urkel_rwlock_rdlock/wrlock; nobody holds a lock. *)
Definition waits (g : config) (j : nat) (l : lockid) : Prop :=
  exists x m rest, nth_error (c_threads g) j = Some (In x) /\ i_code x = IWait l m :: rest.
Definition free (g : config) (l : lockid) : Prop :=
  forall t m, List.In t (c_threads g) -> ~ List.In (l, m) (held t).
(** The least one expects of a lock: when it is free one of the waiting threads gets it. *)
Definition conserving (grant : config -> nat -> Prop) : Prop :=
  forall g l, free g l -> (exists j, waits g j l) -> exists j, waits g j l /\ grant g j.

(** Calls in the scope of the model: no composed calls, no reopening, no oversized values. *)
Definition core (c : call) : Prop :=
  match c with
  | CInsert _ _ | CRemove _ | CGet _ _ | CHas _ _ | CProve _ _ | CReopen => False
  | CTxInsert _ _ v => length v <= 1023
  | _ => True
  end.
Fixpoint core_prog (p : prog) : Prop :=
  match p with PDone _ => True | PCall c k => core c /\ forall a, core_prog (k a) end.
Definition start (w : world) (ps : list prog) : config := mkconf w (map Idle ps).
