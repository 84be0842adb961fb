(** * What is required of callers, what they may expect, and all executions.

    This file is the interface between the specification (Spec.v, SpecDb.v) and the model
    (Db.v); the theorems about it are in DbFacts.v and Properties_Db.v. *)
From Verif Require Export Db Iter Blake2b StoreFacts.
From Coq Require Import ZifyBool ZifyNat ZifyN.

Section Exec.
Variable H : bytes -> bytes.                (* 32-byte hash *)
Variable C : bytes -> bytes -> bytes.       (* keyed 20-byte checksum of commit records *)

(** No injected I/O failure is pending. *)
Definition quiet (w : world) : Prop :=
  match w_db w with Some d => st_io (d_store d) = [] | None => True end.
(** The data files. *)
Definition files (w : world) : list bytes :=
  match w_db w with Some d => st_fs (d_store d) | None => [] end.
Definition log (w : world) : list fop :=
  match w_db w with Some d => st_log (d_store d) | None => [] end.
Definition keyof (w : world) : bytes :=
  match w_db w with Some d => st_key (d_store d) | None => [] end.

(** Calls that may write to the data files. *)
Definition writes (c : call) : bool :=
  match c with CInsert _ _ | CRemove _ | CTxCommit _ | CReopen => true | _ => false end.

(** The last data file consists of whole 38-byte blocks. *)
Definition aligned (fs : list bytes) : Prop := (blen (last fs []) mod 38 = 0)%N.

(** Messages hashed for the committed contents do not collide. *)
Definition collision_free (sp : spec) : Prop :=
  no_collision H (flat_map (ref_msgs H) (s_hist sp)) /\ no_zero H (flat_map (ref_msgs H) (s_hist sp)).

(** 70 TB: below the limit of 32766 data files. *)
Definition LIMIT : N := 70000000000000.

(** Commits are restricted to values of at most 255 bytes: larger ones are accepted but
    not stored faithfully (C18). *)
Definition can_commit (sp : spec) (l : recs) : Prop :=
  Forall (fun e => length (snd e) <= 255) l /\ (s_bytes sp + weight l <= LIMIT)%N.

Definition call_ok (sp : spec) (w : world) (c : call) : Prop :=
  match c with
  | CRoot | CTxCreate _ => True
  | CInject h => named H (s_hist sp) h <> None   (* C25: undefined behaviour otherwise *)
  | CGet k _ | CHas k _ | CProve k _ => length k = 32
  | CInsert k _ | CRemove k =>
    length k = 32 /\ forall l, commits sp c = Some l -> can_commit sp l /\ quiet w
  | CTxDestroy i | CTxRoot i | CTxInject i _ => txat sp i <> None
  | CTxClear i => txat sp i <> None /\ s_cur sp = hd [] (s_hist sp)
  | CTxGet i k | CTxHas i k | CTxInsert i k _ | CTxRemove i k | CTxProve i k =>
    txat sp i <> None /\ length k = 32
  | CTxCommit i => exists l, txat sp i = Some l /\ can_commit sp l
  | CReopen => s_failed sp = false /\ aligned (files w)
  end.
Definition allowed (sp : spec) (w : world) (c : call) : Prop :=
  collision_free sp /\ call_ok sp w c.

(** A proof the verifier accepts under the root of [l] with the right answer for [k]. *)
Definition proves (l : recs) (k : bytes) (a : answer) : Prop :=
  exists raw, a = AProof raw /\ (N.of_nat (length raw) <= 17957)%N /\
    urkel_verify H raw k (Some (ref_root H l)) =
    Ok (match lookup l k with Some v => mkverdict None true v | None => mkverdict None false [] end).

(** The answer every call must give. *)
Definition good (sp : spec) (w : world) (c : call) (a : answer) : Prop :=
  match c with
  | CRoot => a = AHash (ref_root H (s_cur sp))
  | CInject h | CTxInject _ h =>
    a = match named H (s_hist sp) h with Some _ => AOk | None => AErr ENOTFOUND end
  | CGet k ro => a = match seen H sp ro with Some l => get_answer l k | None => AErr ENOTFOUND end
  | CHas k ro => a = match seen H sp ro with Some l => has_answer l k | None => AErr ENOTFOUND end
  | CProve k ro => match seen H sp ro with Some l => proves l k a | None => a = AErr ENOTFOUND end
  | CInsert _ v => a = if 1023 <? length v then AErr EINVAL else AOk
  | CRemove k => a = match lookup (s_cur sp) k with Some _ => AOk | None => AErr ENOTFOUND end
  | CTxCreate ro =>
    a = match seen H sp ro with Some _ => ATx (length (s_txs sp)) | None => AErr ENOTFOUND end
  | CTxDestroy _ | CTxClear _ => a = AOk
  | CTxRoot i => forall l, txat sp i = Some l -> a = AHash (ref_root H l)
  | CTxGet i k => forall l, txat sp i = Some l -> a = get_answer l k
  | CTxHas i k => forall l, txat sp i = Some l -> a = has_answer l k
  | CTxInsert _ _ v => a = if 1023 <? length v then AErr EINVAL else AOk
  | CTxRemove i k =>
    forall l, txat sp i = Some l -> a = match lookup l k with Some _ => AOk | None => AErr ENOTFOUND end
  | CTxProve i k => forall l, txat sp i = Some l -> proves l k a
  | CTxCommit _ => a = AOk \/ (a = AErr EBADWRITE /\ ~ quiet w)
  | CReopen => a = AOk
  end.

(** ** Sequences of calls *)
Fixpoint run (w : world) (cs : list call) : res (list answer * world) :=
  match cs with
  | [] => Ok ([], w)
  | c :: cs =>
    let! (a, w) := step H C w c in
    let! (l, w) := run w cs in
    Ok (a :: l, w)
  end.

(** Every call allowed, with the specification state before and after. *)
Inductive calls : world -> spec -> list call -> list answer -> world -> spec -> Prop :=
| cs_nil w sp : calls w sp [] [] w sp
| cs_cons w sp c a w1 cs l w2 sp2 :
    allowed sp w c -> step H C w c = Ok (a, w1) -> calls w1 (snext H sp c a) cs l w2 sp2 ->
    calls w sp (c :: cs) (a :: l) w2 sp2.

(** urkel_iter_create on transaction [i], then [n] times urkel_iter_next (tree.c 1090-1284). *)
Definition tx_iterate (w : world) (i n : nat) : res (list ires) :=
  match w_db w with
  | None => UB
  | Some d => let! root := live w i in iter_calls (st_rd (d_store d)) n (iter_create root)
  end.

(** ** Crashes *)

(** Directories that repeated crashes while opening leave behind. *)
Inductive reopened (key : bytes) (A : list bytes) : list bytes -> Prop :=
| ro_here : reopened key A A
| ro_again B s B' : reopened key A B -> store_open H C key B [] = Ok (Some s) -> crash B (st_log s) B' ->
    reopened key A B'.

(** A call of the specification, other than reopening. *)
Definition move (w : world) (sp : spec) (w1 : world) (sp1 : spec) : Prop :=
  exists c a, allowed sp w c /\ c <> CReopen /\ step H C w c = Ok (a, w1) /\ sp1 = snext H sp c a.
(** The states passed through by a sequence of calls, the last one being [w1], [sp1]. *)
Inductive trail (R : world -> spec -> world -> spec -> Prop) : world -> spec -> list (world * spec) -> world -> spec -> Prop :=
| tr_nil w sp : trail R w sp [] w sp
| tr_cons w sp w1 sp1 l w2 sp2 : R w sp w1 sp1 -> trail R w1 sp1 l w2 sp2 -> trail R w sp ((w1, sp1) :: l) w2 sp2.

(** Every file of [D] is the beginning of the file of [A] with the same number. *)
Definition within (D A : list bytes) : Prop :=
  length D <= length A /\ forall i, exists x, nth i A [] = nth i D [] ++ x.
(** The state was written completely to [A], with its commit record where recovery looks. *)
Definition kept (A : list bytes) (x : world * spec) : Prop :=
  aligned (files (fst x)) /\ within (files (fst x)) A.
(** The last such state of [l]. *)
Definition survivor (A : list bytes) (l : list (world * spec)) (x : world * spec) : Prop :=
  exists l1 l2, l = l1 ++ x :: l2 /\ kept A x /\ Forall (fun y => ~ kept A y) l2.

(** Among the 38-byte blocks added to [D], only the last block of one of the states [l] of
    the files, a commit record, passes for a commit record. *)
Definition no_forgery (key : bytes) (D V : list bytes) (l : list (list bytes)) : Prop :=
  forall i j m, length (nth i D []) <= 38 * j -> 38 * j + 38 <= length (nth i V []) ->
    meta_read C key (firstn 38 (skipn (38 * j) (nth i V []))) = Ok (Some m) ->
    exists F, In F l /\ S i = length F /\ 38 * j + 38 = length (nth i F []).

(** ** Power failures.  [D] is on the disk, [V] are the files as written; the rest of [V] may
    have reached the disk in any order: [A] has all of [D], its files may be shorter than
    those of [V], and bytes of it that were not written are zero. *)
Definition power_loss (D V A : list bytes) : Prop :=
  within D A /\ length A <= length V /\
  forall i, length (nth i A []) <= length (nth i V []) /\
    forall k, k < length (nth i A []) ->
      nth k (nth i A []) x00 = nth k (nth i V []) x00 \/ nth k (nth i A []) x00 = x00.
(** No commit record behind [D] is on the disk without everything written before it. *)
Definition in_order (key : bytes) (D V A : list bytes) : Prop :=
  forall i j m, length (nth i D []) <= 38 * j -> 38 * j + 38 <= length (nth i A []) ->
    meta_read C key (firstn 38 (skipn (38 * j) (nth i A []))) = Ok (Some m) ->
    (forall i', i' < i -> nth i' A [] = nth i' V []) /\
    firstn (38 * j + 38) (nth i A []) = firstn (38 * j + 38) (nth i V []).
(** What a dying process ([ops] being its operations) or a power failure leaves. *)
Definition remains (key : bytes) (D V : list bytes) (ops : list fop) (A : list bytes) : Prop :=
  crash D ops A \/ (power_loss D V A /\ in_order key D V A).

Definition fs_eq_dec : forall a b : list bytes, {a = b} + {a <> b} := list_eq_dec bytes_eq_dec.

(** ** All executions: a new database; any allowed calls; system calls failing cleanly
    (nothing written); the process dying during (or after) any sequence of calls, or the power
    failing with the bytes written since the sequence began on the disk in part (but no
    commit record before what it refers to), and the database being opened again, possibly
    dying while opening any number of times.
    The state found again is that of the last call whose files were written completely,
    with the commit record at a multiple of 38 (C17, C32). *)
Inductive exec (key : bytes) : world -> spec -> Prop :=
| ex_new d : db_open H C key [] [] = Ok (Some d) -> exec key (mkworld (Some d) []) spec0
| ex_call w sp c a w' :
    exec key w sp -> allowed sp w c -> step H C w c = Ok (a, w') -> exec key w' (snext H sp c a)
| ex_faults w sp d io :
    exec key w sp -> w_db w = Some d -> Forall clean_fault io ->
    exec key (mkworld (Some (with_store d (set_io (d_store d) io))) (w_txs w)) sp
| ex_crashes w sp l w1 sp1 ops A B wi spi d :
    exec key w sp -> quiet w -> s_failed sp = false -> aligned (files w) ->
    trail move w sp l w1 sp1 -> log w1 = log w ++ ops ->
    no_forgery key (files w) (files w1) (map (fun x => files (fst x)) l) ->
    remains key (files w) (files w1) ops A -> reopened key A B -> survivor A ((w, sp) :: l) (wi, spi) ->
    db_open H C key B [] = Ok (Some d) ->
    exec key (mkworld (Some d) []) (crashed spi).
End Exec.
