(** * The specification of the database: key/value maps, transactions, history.

    Nothing here mentions nodes, files, pointers or caches.  A database is a stack of
    committed contents; a transaction is a private copy of some contents. *)
From Verif Require Export Spec.

(** Contents: distinct 32-byte keys with their values, in any order ([records]). *)
Notation recs := (list (bytes * bytes)).

Definition lookup (l : recs) (k : bytes) : option bytes :=
  match find (fun e => bytes_eqb (fst e) k) l with Some e => Some (snd e) | None => None end.
Definition del (l : recs) (k : bytes) : recs := filter (fun e => negb (bytes_eqb (fst e) k)) l.
Definition put (l : recs) (k v : bytes) : recs := (k, v) :: del l k.

(** The API calls (include/urkel.h).  [ro] is the optional root argument (NULL is [None]);
    transactions are numbered in order of creation. *)
Inductive call : Type :=
| CRoot
| CInject (h : bytes)
| CGet (k : bytes) (ro : option bytes)
| CHas (k : bytes) (ro : option bytes)
| CInsert (k v : bytes)
| CRemove (k : bytes)
| CProve (k : bytes) (ro : option bytes)
| CTxCreate (ro : option bytes)
| CTxDestroy (i : nat)
| CTxClear (i : nat)
| CTxRoot (i : nat)
| CTxInject (i : nat) (h : bytes)
| CTxGet (i : nat) (k : bytes)
| CTxHas (i : nat) (k : bytes)
| CTxInsert (i : nat) (k v : bytes)
| CTxRemove (i : nat) (k : bytes)
| CTxProve (i : nat) (k : bytes)
| CTxCommit (i : nat)
| CReopen.                      (* urkel_close, then urkel_open *)

Inductive answer : Type :=
| AOk | AErr (e : errno) | AHash (h : bytes) | AVal (v : bytes) | AProof (raw : bytes) | ATx (i : nat).

(** [s_hist]: committed contents, newest first.  [s_cur]: what urkel_root names and new
    transactions see.  [s_txs]: contents of each transaction, [None] once it is gone.
    [s_failed]: the latest commit failed.  [s_bytes]: bound on the bytes written so far. *)
Record spec := mkspec {
  s_hist : list recs; s_cur : recs; s_txs : list (option recs); s_failed : bool; s_bytes : N }.

Definition spec0 : spec := mkspec [] [] [] false 0.

Section SpecDb.
Variable H : bytes -> bytes.

(** The contents a root hash names. *)
Definition named (hist : list recs) (h : bytes) : option recs :=
  if bytes_eqb h (repeat x00 32) then Some []
  else find (fun l => bytes_eqb (ref_root H l) h) hist.
Definition seen (sp : spec) (ro : option bytes) : option recs :=
  match ro with None => Some (s_cur sp) | Some h => named (s_hist sp) h end.
Definition txat (sp : spec) (i : nat) : option recs := nth i (s_txs sp) None.
Definition set_tx (sp : spec) (i : nat) (x : option recs) : spec :=
  mkspec (s_hist sp) (s_cur sp) (upd (s_txs sp) i x) (s_failed sp) (s_bytes sp).
Definition add_tx (sp : spec) (x : option recs) : spec :=
  mkspec (s_hist sp) (s_cur sp) (s_txs sp ++ [x]) (s_failed sp) (s_bytes sp).

(** Bytes needed to store contents, at most. *)
Definition weight (l : recs) : N := N.of_nat (list_sum (map (fun e => 226 + length (snd e)) l) + 75).

Definition committed (sp : spec) (l : recs) : spec :=
  mkspec (l :: s_hist sp) l (s_txs sp) false (s_bytes sp + weight l).
Definition commit_failed (sp : spec) (l : recs) : spec :=
  mkspec (s_hist sp) (s_cur sp) (s_txs sp) true (s_bytes sp + weight l).

Definition get_answer (l : recs) (k : bytes) : answer :=
  match lookup l k with Some v => AVal v | None => AErr ENOTFOUND end.
Definition has_answer (l : recs) (k : bytes) : answer :=
  match lookup l k with Some _ => AOk | None => AErr ENOTFOUND end.

(** The contents a call wants to commit, if it commits. *)
Definition commits (sp : spec) (c : call) : option recs :=
  match c with
  | CInsert k v => if 1023 <? length v then None else Some (put (s_cur sp) k v)
  | CRemove k => match lookup (s_cur sp) k with None => None | Some _ => Some (del (s_cur sp) k) end
  | CTxCommit i => txat sp i
  | _ => None
  end.

(** The state after a call that answered [a]. *)
Definition snext (sp : spec) (c : call) (a : answer) : spec :=
  match c with
  | CInject h =>
    match named (s_hist sp) h with
    | Some l => mkspec (s_hist sp) l (s_txs sp) (s_failed sp) (s_bytes sp)
    | None => sp
    end
  | CInsert _ _ | CRemove _ =>
    match commits sp c with
    | None => sp
    | Some l => committed sp l
    end
  | CTxCommit i =>
    match commits sp c with
    | None => sp
    | Some l => match a with AOk => committed sp l | _ => set_tx (commit_failed sp l) i None end
    end
  | CTxCreate ro => match seen sp ro with Some l => add_tx sp (Some l) | None => sp end
  | CTxDestroy i => set_tx sp i None
  | CTxClear i => set_tx sp i (Some (s_cur sp))
  | CTxInject i h => match named (s_hist sp) h with Some l => set_tx sp i (Some l) | None => sp end
  | CTxInsert i k v =>
    if 1023 <? length v then sp else
    match txat sp i with Some l => set_tx sp i (Some (put l k v)) | None => sp end
  | CTxRemove i k =>
    match txat sp i with
    | Some l => match lookup l k with Some _ => set_tx sp i (Some (del l k)) | None => sp end
    | None => sp
    end
  | CReopen => mkspec (s_hist sp) (hd [] (s_hist sp)) (map (fun _ => None) (s_txs sp)) false (s_bytes sp)
  | _ => sp
  end.

End SpecDb.

(** The state a new process finds. *)
Definition crashed (sp : spec) : spec := mkspec (s_hist sp) (hd [] (s_hist sp)) [] false (s_bytes sp).

(** How many levels of the tree holding [l] lie above the key [k]: the number of
    different lengths of common prefixes of [k] with other keys. *)
Definition levels (l : recs) (k : bytes) : nat :=
  length (nodup Nat.eq_dec
    (map (fun e => length (common2 (kbits k) (kbits (fst e)))) (del l k))).

(** ** Updates of a transaction, on key/value maps (Spec.v) *)
Inductive txop : Type := TPut (k v : bytes) | TDel (k : bytes).
Definition txop_ok (o : txop) : Prop :=
  match o with TPut k v => length k = 32 /\ length v <= 1023 | TDel k => length k = 32 end.
Definition txop_call (i : nat) (o : txop) : call :=
  match o with TPut k v => CTxInsert i k v | TDel k => CTxRemove i k end.
Definition txop_map (m : kvmap) (o : txop) : kvmap :=
  match o with TPut k v => m_set m k v | TDel k => m_del m k end.
Definition txop_answer (m : kvmap) (o : txop) : answer :=
  match o with
  | TPut _ _ => AOk
  | TDel k => match m k with Some _ => AOk | None => AErr ENOTFOUND end
  end.
Fixpoint txop_answers (m : kvmap) (ops : list txop) : list answer :=
  match ops with [] => [] | o :: ops => txop_answer m o :: txop_answers (txop_map m o) ops end.

(** Calls concerning transaction [i]. *)
Definition concerns (i : nat) (c : call) : bool :=
  match c with
  | CTxDestroy j | CTxClear j | CTxRoot j | CTxInject j _ | CTxGet j _ | CTxHas j _
  | CTxInsert j _ _ | CTxRemove j _ | CTxProve j _ | CTxCommit j => i =? j
  | CReopen => true
  | _ => false
  end.
(** Calls that only read. *)
Definition reading (c : call) : bool :=
  match c with
  | CRoot | CGet _ _ | CHas _ _ | CProve _ _ | CTxRoot _ | CTxGet _ _ | CTxHas _ _ | CTxProve _ _ => true
  | _ => false
  end.
