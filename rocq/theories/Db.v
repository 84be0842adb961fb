(** * tree.c 577-1084: the database and transaction API.

    Locks are modelled in Conc.v: here every call runs alone.  Memory management appears
    only where it can be observed: a transaction whose root node has been freed
    ([TDangling]) or that was destroyed ([TDead]) must not be used ([UB]). *)
From Verif Require Export Store SpecDb.
From Coq Require Import ZifyBool ZifyNat ZifyN.

(** struct urkel_s: tree.c 22-27. *)
Record db := mkdb { d_store : store; d_hash : bytes; d_revert : bool }.

(** struct urkel_tx_s: tree.c 29-33, as far as its root pointer goes. *)
Inductive txst : Type := TLive (n : node) | TDangling | TDead.

(** A process using one database.  [w_db] is [None] after a failed urkel_open. *)
Record world := mkworld { w_db : option db; w_txs : list txst }.

Section Db.
Variable H : bytes -> bytes.
Variable C : bytes -> bytes -> bytes.

Definition with_store (d : db) (s : store) : db := mkdb s (d_hash d) (d_revert d).

(** urkel_tx_create: tree.c 831-871.  [None] is NULL with ENOTFOUND. *)
Definition tx_create (d : db) (ro : option bytes) : res (option node * db) :=
  match ro with
  | Some h => let! (r, s) := read_history H C (d_store d) h in Ok (r, with_store d s)
  | None =>
    if d_revert d
    then let! (r, s) := read_history H C (d_store d) (d_hash d) in Ok (r, with_store d s)
    else Ok (Some (m_node (st_state (d_store d))), d)
  end.

(** urkel_tx_root: tree.c 896-917. *)
Definition tx_root (n : node) : res (answer * node) :=
  let! (h, n) := node_hash H n in Ok (AHash h, n).

(** urkel_tx_inject: tree.c 919-940. *)
Definition tx_inject (d : db) (n : node) (h : bytes) : res (answer * db * node) :=
  let! (r, s) := read_history H C (d_store d) h in
  match r with
  | Some root => Ok (AOk, with_store d s, root)
  | None => Ok (AErr ENOTFOUND, with_store d s, n)
  end.

(** urkel_tx_get: tree.c 942-961. *)
Definition tx_get (d : db) (n : node) (k : bytes) : res answer :=
  match tree_get (st_rd (d_store d)) TREE_FUEL n k 0 true with
  | Ok v => Ok (AVal v) | Fail e => Ok (AErr e) | Abort => Abort | UB => UB | NoFuel => NoFuel
  end.

(** urkel_tx_has: tree.c 963-976. *)
Definition tx_has (d : db) (n : node) (k : bytes) : res answer :=
  match tree_get (st_rd (d_store d)) TREE_FUEL n k 0 false with
  | Ok _ => Ok AOk | Fail e => Ok (AErr e) | Abort => Abort | UB => UB | NoFuel => NoFuel
  end.

(** urkel_tx_insert: tree.c 978-1002. *)
Definition tx_insert (d : db) (n : node) (k v : bytes) : res (answer * node) :=
  if 1023 <? length v then Ok (AErr EINVAL, n) else
  match tree_insert H (st_rd (d_store d)) TREE_FUEL n k v 0 with
  | Ok n' => Ok (AOk, n')
  | Fail ENOUPDATE => Ok (AOk, n)
  | Fail e => Ok (AErr e, n)
  | Abort => Abort | UB => UB | NoFuel => NoFuel
  end.

(** urkel_tx_remove: tree.c 1004-1020. *)
Definition tx_remove (d : db) (n : node) (k : bytes) : res (answer * node) :=
  match tree_remove (st_rd (d_store d)) TREE_FUEL n k 0 with
  | Ok n' => Ok (AOk, n')
  | Fail e => Ok (AErr e, n)
  | Abort => Abort | UB => UB | NoFuel => NoFuel
  end.

(** urkel_tx_prove: tree.c 1022-1066.  The buffer has urkel_proof_size bytes.  (Hashes
    cached in nodes before an ECORRUPTION are not kept by the model.) *)
Definition tx_prove (d : db) (n : node) (k : bytes) : res (answer * node) :=
  match tree_prove H (st_rd (d_store d)) TREE_FUEL [] n k 0 with
  | Ok (p, n') =>
    let! size := proof_size p in
    let! raw := proof_write p in
    if length raw =? size then Ok (AProof raw, n') else UB
  | Fail e => Ok (AErr e, n)
  | Abort => Abort | UB => UB | NoFuel => NoFuel
  end.

(** urkel_tx_commit: tree.c 1068-1084, with urkel_tree_commit (556-575): after a failure
    tx->root still points to the node that was freed. *)
Definition tx_commit (d : db) (n : node) : res (answer * db * txst) :=
  let! (r, s) := tree_commit H C (d_store d) n in
  match r with
  | Some root => Ok (AOk, mkdb s (hash_field root) (d_revert d), TLive root)
  | None => Ok (AErr EBADWRITE, with_store d s, TDangling)
  end.

(** urkel_inject: tree.c 646-665, with urkel_store_has_history: store.c 864-874.  When the
    root is not found urkel_node_clear is applied to a node structure that was never
    initialised: whatever its type field holds decides between doing nothing, abort and
    freeing arbitrary pointers. *)
Definition db_inject (d : db) (h : bytes) : res (answer * db) :=
  let! (r, s) := read_history H C (d_store d) h in
  match r with
  | Some _ => Ok (AOk, mkdb s h true)
  | None => UB
  end.

(** urkel_get, urkel_has, urkel_prove: tree.c 667-703, 748-768. *)
Definition db_read (op : db -> node -> res answer) (d : db) (ro : option bytes) : res (answer * db) :=
  let! (r, d) := tx_create d ro in
  match r with
  | None => Ok (AErr ENOTFOUND, d)
  | Some n => let! a := op d n in Ok (a, d)
  end.

(** urkel_insert, urkel_remove: tree.c 705-746.  After a failed commit urkel_tx_destroy
    frees the transaction's root a second time. *)
Definition db_write (op : db -> node -> res (answer * node)) (d : db) : res (answer * db) :=
  let! (r, d) := tx_create d None in
  match r with
  | None => Ok (AErr ENOTFOUND, d)
  | Some n =>
    let! (a, n) := op d n in
    match a with
    | AOk =>
      let! (a, d, t) := tx_commit d n in
      match t with TLive _ => Ok (a, d) | _ => UB end
    | _ => Ok (a, d)
    end
  end.

(** urkel_open: tree.c 581-603, on a directory whose key file holds [key]. *)
Definition db_open (key : bytes) (fs : list bytes) (io : list bool) : res (option db) :=
  let! r := store_open H C key fs io in
  match r with
  | None => Ok None
  | Some s => Ok (Some (mkdb s (hash_field (m_node (st_state s))) false))
  end.

Definition live (w : world) (i : nat) : res node :=
  match nth i (w_txs w) TDead with TLive n => Ok n | _ => UB end.
Definition put_tx (w : world) (d : db) (i : nat) (t : txst) : world :=
  mkworld (Some d) (upd (w_txs w) i t).

(** One API call. *)
Definition step (w : world) (c : call) : res (answer * world) :=
  match w_db w with
  | None => UB
  | Some d =>
    match c with
    | CRoot => Ok (AHash (d_hash d), w)
    | CInject h => let! (a, d) := db_inject d h in Ok (a, mkworld (Some d) (w_txs w))
    | CGet k ro => let! (a, d) := db_read (fun d n => tx_get d n k) d ro in Ok (a, mkworld (Some d) (w_txs w))
    | CHas k ro => let! (a, d) := db_read (fun d n => tx_has d n k) d ro in Ok (a, mkworld (Some d) (w_txs w))
    | CProve k ro =>
      let! (a, d) := db_read (fun d n => let! (a, _) := tx_prove d n k in Ok a) d ro in
      Ok (a, mkworld (Some d) (w_txs w))
    | CInsert k v =>
      let! (a, d) := db_write (fun d n => tx_insert d n k v) d in Ok (a, mkworld (Some d) (w_txs w))
    | CRemove k =>
      let! (a, d) := db_write (fun d n => tx_remove d n k) d in Ok (a, mkworld (Some d) (w_txs w))
    | CTxCreate ro =>
      let! (r, d) := tx_create d ro in
      match r with
      | None => Ok (AErr ENOTFOUND, mkworld (Some d) (w_txs w))
      | Some n => Ok (ATx (length (w_txs w)), mkworld (Some d) (w_txs w ++ [TLive n]))
      end
    | CTxDestroy i => let! _ := live w i in Ok (AOk, put_tx w d i TDead)
    | CTxClear i =>   (* tree.c 883-894 *)
      let! _ := live w i in Ok (AOk, put_tx w d i (TLive (m_node (st_state (d_store d)))))
    | CTxRoot i => let! n := live w i in let! (a, n) := tx_root n in Ok (a, put_tx w d i (TLive n))
    | CTxInject i h =>
      let! n := live w i in let! (a, d, n) := tx_inject d n h in Ok (a, put_tx w d i (TLive n))
    | CTxGet i k => let! n := live w i in let! a := tx_get d n k in Ok (a, w)
    | CTxHas i k => let! n := live w i in let! a := tx_has d n k in Ok (a, w)
    | CTxInsert i k v =>
      let! n := live w i in let! (a, n) := tx_insert d n k v in Ok (a, put_tx w d i (TLive n))
    | CTxRemove i k =>
      let! n := live w i in let! (a, n) := tx_remove d n k in Ok (a, put_tx w d i (TLive n))
    | CTxProve i k =>
      let! n := live w i in let! (a, n) := tx_prove d n k in Ok (a, put_tx w d i (TLive n))
    | CTxCommit i =>
      let! n := live w i in let! (a, d, t) := tx_commit d n in Ok (a, put_tx w d i t)
    | CReopen =>      (* urkel_close (605-613), urkel_open *)
      let s := d_store d in
      let! r := db_open (st_key s) (st_fs s) [] in
      match r with
      | None => Ok (AErr EBADOPEN, mkworld None (map (fun _ => TDead) (w_txs w)))
      | Some d => Ok (AOk, mkworld (Some d) (map (fun _ => TDead) (w_txs w)))
      end
    end
  end.
End Db.
