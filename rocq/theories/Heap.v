(** * Node memory: malloc and free in nodes.c 210-371, tree.c 78-575 and 831-1284, store.c
    609-671 and 876-886.

    The functions of Tree.v, Store.v, Db.v and Iter.v again, now on a heap: node structures
    are cells, children and values are addresses, and every access to a cell that is not
    allocated, every free of one included, is [UB].  HeapFacts.v relates the two.

    Addresses are numbers and are never reused, so that using memory after it was freed
    cannot go unnoticed.  malloc does not fail (checked_malloc aborts).  Modelled are node
    structures and the value buffers of leaves; transaction structures are freed when
    their entry in [hw_txs] becomes [None].  Not modelled: the memory of the store itself
    (slab, file map, root cache), locks, and local variables. *)
From Verif Require Export Db Iter.

Definition loc := nat.

(** urkel_node_t: nodes.h 62-71, and the buffers of urkel_node_store: nodes.c 181-198. *)
Inductive cell : Type :=
| KNull
| KInt  (h : option bytes) (w : option ptr) (p : bits) (l r : loc)
| KLeaf (h : option bytes) (w : option ptr) (k : bytes) (v : option loc) (vp : option ptr)
| KHash (h : bytes) (w : ptr)
| KVal  (b : bytes)
| KNew.                          (* allocated, not yet initialised *)

Definition heap := list (option cell).
Definition at_ (m : heap) (a : loc) : option cell := nth a m None.
Definition alloc (m : heap) (c : cell) : loc * heap := (length m, m ++ [Some c]).
Definition load (m : heap) (a : loc) : res cell :=
  match at_ m a with Some c => Ok c | None => UB end.
Definition put (m : heap) (a : loc) (c : cell) : res heap :=
  match at_ m a with Some _ => Ok (upd m a (Some c)) | None => UB end.
Definition free (m : heap) (a : loc) : res heap :=
  match at_ m a with Some _ => Ok (upd m a None) | None => UB end.

(** urkel_node_destroy: nodes.c 327-371.  &urkel_node_null is not part of the heap. *)
Fixpoint destroy_loop (fuel : nat) (m : heap) (a : loc) (recurse : bool) : res heap :=
  match fuel with
  | O => NoFuel
  | S fuel =>
    let! c := load m a in
    match c with
    | KNull | KHash _ _ => free m a
    | KInt _ _ _ l r =>
      let! m := (if recurse
                 then let! m := destroy_loop fuel m l true in destroy_loop fuel m r true
                 else Ok m) in
      free m a
    | KLeaf _ _ _ v _ =>
      let! m := match v with Some q => free m q | None => Ok m end in
      free m a
    | KVal _ | KNew => UB
    end
  end.
(** A tree has no more levels than there are cells. *)
Definition node_destroy (m : heap) (a : loc) (recurse : bool) : res heap :=
  destroy_loop (S (length m)) m a recurse.

Section Heap.
Variable H : bytes -> bytes.

(** urkel_node_hash: nodes.c 373-421. *)
Fixpoint hash_loop (fuel : nat) (m : heap) (a : loc) : res (bytes * heap) :=
  match fuel with
  | O => NoFuel
  | S fuel =>
    let! c := load m a in
    match c with
    | KNull => Ok (zero_hash, m)
    | KHash h _ => Ok (h, m)
    | KInt (Some h) _ _ _ _ => Ok (h, m)
    | KInt None w p l r =>
      let! (lh, m) := hash_loop fuel m l in
      let! (rh, m) := hash_loop fuel m r in
      let h := hash_internal H p lh rh in
      let! m := put m a (KInt (Some h) w p l r) in
      Ok (h, m)
    | KLeaf (Some h) _ _ _ _ => Ok (h, m)
    | KLeaf None w k (Some q) vp =>
      let! x := load m q in
      match x with
      | KVal v => let h := hash_value H k v in let! m := put m a (KLeaf (Some h) w k (Some q) vp) in Ok (h, m)
      | _ => UB
      end
    | KLeaf None _ _ None _ => Abort
    | KVal _ | KNew => UB
    end
  end.
Definition hnode_hash (m : heap) (a : loc) : res (bytes * heap) := hash_loop (S (length m)) m a.

(** urkel_node_create_leaf: nodes.c 304-317. *)
Definition hcreate_leaf (m : heap) (key value : bytes) : res (loc * heap) :=
  let (a, m) := alloc m KNew in
  let (q, m) := alloc m (KVal value) in
  let! m := put m a (KLeaf (Some (hash_value H key value)) None key (Some q) None) in
  Ok (a, m).
(** urkel_node_create_internal: nodes.c 283-302. *)
Definition hcreate_internal (m : heap) (p : bits) (x y : loc) (bit : bool) : loc * heap :=
  alloc m (KInt None None p (if bit then y else x) (if bit then x else y)).

Section Read.
Variable rd : ptr -> option bytes.

(** urkel_store_resolve: store.c 657-671, with urkel_node_read: nodes.c 602-720. *)
Definition hresolve (m : heap) (h : bytes) (w : ptr) : res (option loc * heap) :=
  let (out, m) := alloc m KNew in
  let! r := resolve rd h w in
  match r with
  | None => let! m := free m out in Ok (None, m)
  | Some (NInt h w p (NHash lh lw) (NHash rh rw)) =>
    let (l, m) := alloc m (KHash lh lw) in
    let (r, m) := alloc m (KHash rh rw) in
    let! m := put m out (KInt h w p l r) in
    Ok (Some out, m)
  | Some (NLeaf h w k None vp) => let! m := put m out (KLeaf h w k None vp) in Ok (Some out, m)
  | _ => UB   (* never read from a file *)
  end.

(** urkel_store_retrieve: store.c 623-655. *)
Definition hretrieve (m : heap) (v : option loc) (vp : option ptr) : res (option bytes) :=
  match v with
  | None => retrieve rd None vp
  | Some q => let! c := load m q in match c with KVal x => retrieve rd (Some x) vp | _ => UB end
  end.

(** Every function returns its result or the error it sets, and the heap. *)
Definition hres (A : Type) := res ((A + errno) * heap).

(** urkel_tree_get: tree.c 78-148. *)
Fixpoint hget (fuel : nat) (m : heap) (a : loc) (key : bytes) (depth : nat) (want : bool) : hres bytes :=
  match fuel with
  | O => NoFuel
  | S fuel =>
    let! c := load m a in
    match c with
    | KNull => Ok (inr ENOTFOUND, m)
    | KInt _ _ p l r =>
      let! b := bits_has p key depth in
      if negb b then Ok (inr ENOTFOUND, m) else
      let depth := depth + bsize p in
      let! bit := get_bit key depth in
      hget fuel m (if bit then r else l) key (depth + 1) want
    | KLeaf _ _ k v vp =>
      if negb (bytes_eqb k key) then Ok (inr ENOTFOUND, m) else
      if want then
        let! r := hretrieve m v vp in
        match r with None => Ok (inr ECORRUPTION, m) | Some x => Ok (inl x, m) end
      else Ok (inl [], m)
    | KHash h w =>
      let! (r, m) := hresolve m h w in
      match r with
      | None => Ok (inr ECORRUPTION, m)
      | Some rn =>
        let! (ret, m) := hget fuel m rn key depth want in
        let! m := node_destroy m rn true in
        Ok (ret, m)
      end
    | KVal _ | KNew => UB
    end
  end.

(** urkel_tree_insert: tree.c 150-268. *)
Fixpoint hinsert (fuel : nat) (m : heap) (a : loc) (key value : bytes) (depth : nat) : hres loc :=
  match fuel with
  | O => NoFuel
  | S fuel =>
    let! c := load m a in
    match c with
    | KNull =>
      let! m := node_destroy m a false in
      let! (x, m) := hcreate_leaf m key value in
      Ok (inl x, m)
    | KInt _ _ p l r =>
      let! c := bits_count p key depth in
      let depth := depth + c in
      let! bit := get_bit key depth in
      if negb (c =? bsize p) then
        let! (leaf, m) := hcreate_leaf m key value in
        let! (front, back) := bits_split p c in
        let (ch, m) := hcreate_internal m back l r false in
        let (out, m) := hcreate_internal m front leaf ch bit in
        let! m := node_destroy m a false in
        Ok (inl out, m)
      else
        let x := if bit then r else l in
        let y := if bit then l else r in
        let! (z, m) := hinsert fuel m x key value (depth + 1) in
        match z with
        | inr e => Ok (inr e, m)
        | inl z =>
          let (out, m) := hcreate_internal m p z y bit in
          let! m := node_destroy m a false in
          Ok (inl out, m)
        end
    | KLeaf _ _ k v _ =>
      if bytes_eqb k key then
        let! same := (match v with
                      | None => Ok false
                      | Some q => let! c := load m q in match c with KVal x => Ok (value_equals (Some x) value) | _ => UB end
                      end) in
        if same then Ok (inr ENOUPDATE, m) else
        let! (leaf, m) := hcreate_leaf m key value in
        let! m := node_destroy m a false in
        Ok (inl leaf, m)
      else
        let! p := bits_collide (key_bits k) key depth in
        let depth := depth + bsize p in
        let! (leaf, m) := hcreate_leaf m key value in
        let! bit := get_bit key depth in
        let (out, m) := hcreate_internal m p leaf a bit in
        Ok (inl out, m)
    | KHash h w =>
      let! (r, m) := hresolve m h w in
      match r with
      | None => Ok (inr ECORRUPTION, m)
      | Some rn =>
        let! (ret, m) := hinsert fuel m rn key value depth in
        let! m := (match ret with
                   | inl _ => node_destroy m a false
                   | inr _ => node_destroy m rn true
                   end) in
        Ok (ret, m)
      end
    | KVal _ | KNew => UB
    end
  end.

(** urkel_tree_remove: tree.c 270-381. *)
Fixpoint hremove (fuel : nat) (m : heap) (a : loc) (key : bytes) (depth : nat) : hres loc :=
  match fuel with
  | O => NoFuel
  | S fuel =>
    let! c := load m a in
    match c with
    | KNull => Ok (inr ENOTFOUND, m)
    | KInt _ _ p l r =>
      let! b := bits_has p key depth in
      if negb b then Ok (inr ENOTFOUND, m) else
      let depth := depth + bsize p in
      let! bit := get_bit key depth in
      let x := if bit then r else l in
      let y := if bit then l else r in
      let! (z, m) := hremove fuel m x key (depth + 1) in
      match z with
      | inr e => Ok (inr e, m)
      | inl z =>
        let! zc := load m z in
        match zc with
        | KNull =>
          let! yc := load m y in
          let! (side, resolved, m) :=
            (match yc with
             | KHash h w =>
               let! (s, m) := hresolve m h w in
               match s with None => Abort | Some s => Ok (s, true, m) end
             | _ => Ok (y, false, m)
             end) in
          let! sc := load m side in
          let! (out, m) :=
            (match sc with
             | KInt _ _ q sl sr =>
               let! pre := bits_join p q (negb bit) in
               let (out, m) := hcreate_internal m pre sl sr false in
               let! m := node_destroy m side false in
               Ok (out, m)
             | _ => Ok (side, m)
             end) in
          let! m := node_destroy m a false in
          let! m := (if resolved : bool then node_destroy m y false else Ok m) in
          let! m := node_destroy m z false in
          Ok (inl out, m)
        | _ =>
          let (out, m) := hcreate_internal m p z y bit in
          let! m := node_destroy m a false in
          Ok (inl out, m)
        end
      end
    | KLeaf _ _ k _ _ =>
      if negb (bytes_eqb k key) then Ok (inr ENOTFOUND, m) else
      let! m := node_destroy m a false in
      let (out, m) := alloc m KNull in
      Ok (inl out, m)
    | KHash h w =>
      let! (r, m) := hresolve m h w in
      match r with
      | None => Ok (inr ECORRUPTION, m)
      | Some rn =>
        let! (ret, m) := hremove fuel m rn key depth in
        let! m := (match ret with
                   | inl _ => node_destroy m a false
                   | inr _ => node_destroy m rn true
                   end) in
        Ok (ret, m)
      end
    | KVal _ | KNew => UB
    end
  end.

(** urkel_tree_prove: tree.c 383-477. *)
Fixpoint hprove (fuel : nat) (acc : list (bits * bytes)) (m : heap) (a : loc) (key : bytes) (depth : nat)
  : hres proof :=
  match fuel with
  | O => NoFuel
  | S fuel =>
    let! c := load m a in
    match c with
    | KNull => Ok (inl (mkproof depth acc TDeadend), m)
    | KInt h w p l r =>
      let! b := bits_has p key depth in
      if negb b then
        let! (lh, m) := hnode_hash m l in
        let! (rh, m) := hnode_hash m r in
        Ok (inl (mkproof depth acc (TShort p lh rh)), m)
      else
        let depth := depth + bsize p in
        let! bit := get_bit key depth in
        let! (yh, m) := hnode_hash m (if bit then l else r) in
        let! acc := proof_push acc p yh in
        hprove fuel acc m (if bit then r else l) key (depth + 1)
    | KLeaf _ _ k v vp =>
      let! r := hretrieve m v vp in
      match r with
      | None => Ok (inr ECORRUPTION, m)
      | Some x =>
        if bytes_eqb k key
        then Ok (inl (mkproof depth acc (TExists x)), m)
        else Ok (inl (mkproof depth acc (TCollision k (H x))), m)
      end
    | KHash h w =>
      let! (r, m) := hresolve m h w in
      match r with
      | None => Ok (inr ECORRUPTION, m)
      | Some rn =>
        let! (ret, m) := hprove fuel acc m rn key depth in
        let! m := node_destroy m rn true in
        Ok (ret, m)
      end
    | KVal _ | KNew => UB
    end
  end.
End Read.

(** ** Writing: tree.c 479-575 *)

(** A cell as a node structure, for what urkel_node_write (nodes.c 524-600) and
    urkel_node_to_hash (216-231) look at: the flags, hash and pointer of a node, and of
    the children of an internal node. *)
Definition flat (c : cell) (l r : node) : node :=
  match c with
  | KInt h w p _ _ => NInt h w p l r
  | KLeaf h w k _ vp => NLeaf h w k None vp
  | KHash h w => NHash h w
  | _ => NNull
  end.
Definition hchild (m : heap) (a : loc) : res node :=
  let! c := load m a in
  match c with KVal _ | KNew => UB | _ => Ok (flat c NNull NNull) end.

(** urkel_store_write_node: store.c 673-690. *)
Definition hwrite_node (s : store) (m : heap) (a : loc) : res (store * heap) :=
  let! c := load m a in
  match c with
  | KInt h w p l r =>
    let! ln := hchild m l in
    let! rn := hchild m r in
    let! (n, s) := write_node s (NInt h w p ln rn) in
    let! m := put m a (KInt h (written n) p l r) in
    Ok (s, m)
  | KLeaf h w k v vp =>
    let! (n, s) := write_node s (NLeaf h w k None vp) in
    let! m := put m a (KLeaf h (written n) k v vp) in
    Ok (s, m)
  | KVal _ | KNew => UB
  | _ => Abort
  end.
(** urkel_store_write_value: store.c 692-707. *)
Definition hwrite_value (s : store) (m : heap) (a : loc) : res (store * heap) :=
  let! c := load m a in
  match c with
  | KLeaf h w k (Some q) None =>
    let! x := load m q in
    match x with
    | KVal v =>
      let! (n, s) := write_value s (NLeaf h w k (Some v) None) in
      match n with
      | NLeaf _ _ _ _ vp => let! m := put m a (KLeaf h w k (Some q) vp) in Ok (s, m)
      | _ => Abort
      end
    | _ => UB
    end
  | KVal _ | KNew => UB
  | _ => Abort
  end.
(** The end of both branches: tree.c 513-519, 537-543. *)
Definition hreplace (m : heap) (a : loc) : res (loc * heap) :=
  let (out, m) := alloc m KNew in
  let! (_, m) := hnode_hash m a in
  let! c := load m a in
  let! n := node_to_hash (flat c NNull NNull) in
  let! m := put m out (match n with NHash h w => KHash h w | _ => KNull end) in
  let! m := node_destroy m a true in
  Ok (out, m).

(** urkel_tree_write: tree.c 479-554.  [None] is NULL. *)
Fixpoint hwrite (fuel : nat) (s : store) (m : heap) (a : loc) : res (option loc * store * heap) :=
  match fuel with
  | O => NoFuel
  | S fuel =>
    let! c := load m a in
    match c with
    | KNull | KHash _ _ => Ok (Some a, s, m)
    | KInt h w p l r =>
      let! (l', s, m) := hwrite fuel s m l in
      match l' with
      | None => Ok (None, s, m)
      | Some l' =>
        let! m := put m a (KInt h w p l' r) in
        let! (r', s, m) := hwrite fuel s m r in
        match r' with
        | None => Ok (None, s, m)
        | Some r' =>
          let! m := put m a (KInt h w p l' r') in
          let! (s, m, ok) :=
            (match w with
             | Some _ => Ok (s, m, true)
             | None =>
               let! (s, m) := hwrite_node s m a in
               if needs_flush s
               then let! (ok, s) := store_flush s in Ok (s, m, ok)
               else Ok (s, m, true)
             end) in
          if negb ok then Ok (None, s, m) else
          let! (out, m) := hreplace m a in
          Ok (Some out, s, m)
        end
      end
    | KLeaf h w k v vp =>
      let! (s, m, ok) :=
        (match w with
         | Some _ => Ok (s, m, true)
         | None =>
           let! (s, m) := hwrite_value s m a in
           let! (s, m) := hwrite_node s m a in
           if needs_flush s
           then let! (ok, s) := store_flush s in Ok (s, m, ok)
           else Ok (s, m, true)
         end) in
      if negb ok then Ok (None, s, m) else
      let! (out, m) := hreplace m a in
      Ok (Some out, s, m)
    | KVal _ | KNew => UB
    end
  end.

Variable C : bytes -> bytes -> bytes.

(** urkel_tree_commit: tree.c 556-575.  The hash of the new root comes along on success. *)
Definition hcommit (s : store) (m : heap) (a : loc) : res (option (loc * bytes) * store * heap) :=
  let! (r, s, m) := hwrite (S (length m)) s m a in
  match r with
  | None => let! m := node_destroy m a true in Ok (None, s, m)
  | Some root =>
    let! n := hchild m root in
    let! (ok, s) := store_commit C s n in
    if ok then Ok (Some (root, hash_field n), s, m)
    else let! m := node_destroy m root false in Ok (None, s, m)
  end.

(** ** The API: tree.c 637-1084 *)

(** [hw_txs]: tx->root of each transaction, [None] when the structure has been freed. *)
Record hworld := mkhw { hw_db : option db; hw_mem : heap; hw_txs : list (option loc) }.

(** A malloc'd copy of a root node: urkel_store_get_root, store.c 609-616;
    urkel_store_get_history, 876-886. *)
Definition hcopy (m : heap) (n : node) : res (loc * heap) :=
  match n with
  | NNull => Ok (alloc m KNull)
  | NHash h w => Ok (alloc m (KHash h w))
  | _ => UB
  end.
Definition hget_history (d : db) (m : heap) (h : bytes) : res (option loc * db * heap) :=
  let (out, m) := alloc m KNew in
  let! (r, s) := read_history H C (d_store d) h in
  match r with
  | None => let! m := free m out in Ok (None, with_store d s, m)
  | Some NNull => let! m := put m out KNull in Ok (Some out, with_store d s, m)
  | Some (NHash h w) => let! m := put m out (KHash h w) in Ok (Some out, with_store d s, m)
  | Some _ => UB
  end.
(** urkel_tx_create: 831-871. *)
Definition htx_create (d : db) (m : heap) (ro : option bytes) : res (option loc * db * heap) :=
  match ro with
  | Some h => hget_history d m h
  | None =>
    if d_revert d then hget_history d m (d_hash d)
    else let! (a, m) := hcopy m (m_node (st_state (d_store d))) in Ok (Some a, d, m)
  end.
(** 896-917, 919-940, 942-976, 978-1020, 1022-1066, 1068-1084: the new value of tx->root
    comes along where it may change. *)
Definition htx_get (d : db) (m : heap) (a : loc) (k : bytes) : res (answer * heap) :=
  let! (r, m) := hget (st_rd (d_store d)) TREE_FUEL m a k 0 true in
  Ok (match r with inl v => AVal v | inr e => AErr e end, m).
Definition htx_has (d : db) (m : heap) (a : loc) (k : bytes) : res (answer * heap) :=
  let! (r, m) := hget (st_rd (d_store d)) TREE_FUEL m a k 0 false in
  Ok (match r with inl _ => AOk | inr e => AErr e end, m).
Definition htx_insert (d : db) (m : heap) (a : loc) (k v : bytes) : res (answer * loc * heap) :=
  if 1023 <? length v then Ok (AErr EINVAL, a, m) else
  let! (r, m) := hinsert (st_rd (d_store d)) TREE_FUEL m a k v 0 in
  Ok (match r with inl b => (AOk, b, m) | inr ENOUPDATE => (AOk, a, m) | inr e => (AErr e, a, m) end).
Definition htx_remove (d : db) (m : heap) (a : loc) (k : bytes) : res (answer * loc * heap) :=
  let! (r, m) := hremove (st_rd (d_store d)) TREE_FUEL m a k 0 in
  Ok (match r with inl b => (AOk, b, m) | inr e => (AErr e, a, m) end).
Definition htx_prove (d : db) (m : heap) (a : loc) (k : bytes) : res (answer * heap) :=
  let! (r, m) := hprove (st_rd (d_store d)) TREE_FUEL [] m a k 0 in
  match r with
  | inl p =>
    let! size := proof_size p in
    let! raw := proof_write p in
    if length raw =? size then Ok (AProof raw, m) else UB
  | inr e => Ok (AErr e, m)
  end.
Definition htx_commit (d : db) (m : heap) (a : loc) : res (answer * db * loc * heap) :=
  let! (r, s, m) := hcommit (d_store d) m a in
  match r with
  | Some (root, h) => Ok (AOk, mkdb s h (d_revert d), root, m)
  | None => Ok (AErr EBADWRITE, with_store d s, a, m)
  end.

(** urkel_get, urkel_has, urkel_prove: tree.c 667-703, 748-768. *)
Definition hdb_read (op : db -> heap -> loc -> res (answer * heap)) (d : db) (m : heap) (ro : option bytes)
  : res (answer * db * heap) :=
  let! (r, d, m) := htx_create d m ro in
  match r with
  | None => Ok (AErr ENOTFOUND, d, m)
  | Some a =>
    let! (x, m) := op d m a in
    let! m := node_destroy m a true in
    Ok (x, d, m)
  end.
(** urkel_insert, urkel_remove: tree.c 705-746. *)
Definition hdb_write (op : db -> heap -> loc -> res (answer * loc * heap)) (d : db) (m : heap) : res (answer * db * heap) :=
  let! (r, d, m) := htx_create d m None in
  match r with
  | None => Ok (AErr ENOTFOUND, d, m)
  | Some a =>
    let! (x, a, m) := op d m a in
    match x with
    | AOk =>
      let! (x, d, a, m) := htx_commit d m a in
      let! m := node_destroy m a true in
      Ok (x, d, m)
    | _ => let! m := node_destroy m a true in Ok (x, d, m)
    end
  end.

(** The structure behind a transaction handle. *)
Definition hlive (w : hworld) (i : nat) : res loc :=
  match nth i (hw_txs w) None with Some a => Ok a | None => UB end.
Definition hput_tx (w : hworld) (d : db) (m : heap) (i : nat) (a : option loc) : hworld :=
  mkhw (Some d) m (upd (hw_txs w) i a).

(** One API call. *)
Definition hstep (w : hworld) (c : call) : res (answer * hworld) :=
  match hw_db w with
  | None => UB
  | Some d =>
    let m := hw_mem w in
    let same (x : answer * db * heap) := let '(a, d, m) := x in Ok (a, mkhw (Some d) m (hw_txs w)) in
    match c with
    | CRoot => Ok (AHash (d_hash d), w)
    | CInject h => let! (a, d) := db_inject H C d h in same (a, d, m)
    | CGet k ro => let! x := hdb_read (fun d m a => htx_get d m a k) d m ro in same x
    | CHas k ro => let! x := hdb_read (fun d m a => htx_has d m a k) d m ro in same x
    | CProve k ro => let! x := hdb_read (fun d m a => htx_prove d m a k) d m ro in same x
    | CInsert k v => let! x := hdb_write (fun d m a => htx_insert d m a k v) d m in same x
    | CRemove k => let! x := hdb_write (fun d m a => htx_remove d m a k) d m in same x
    | CTxCreate ro =>
      let! (r, d, m) := htx_create d m ro in
      match r with
      | None => Ok (AErr ENOTFOUND, mkhw (Some d) m (hw_txs w))
      | Some a => Ok (ATx (length (hw_txs w)), mkhw (Some d) m (hw_txs w ++ [Some a]))
      end
    | CTxDestroy i =>
      let! a := hlive w i in let! m := node_destroy m a true in Ok (AOk, hput_tx w d m i None)
    | CTxClear i =>   (* tree.c 883-894 *)
      let! a := hlive w i in
      let! m := node_destroy m a true in
      let! (a, m) := hcopy m (m_node (st_state (d_store d))) in
      Ok (AOk, hput_tx w d m i (Some a))
    | CTxRoot i =>
      let! a := hlive w i in let! (h, m) := hnode_hash m a in Ok (AHash h, hput_tx w d m i (Some a))
    | CTxInject i h =>
      let! a := hlive w i in
      let! (r, d, m) := hget_history d m h in
      match r with
      | Some b => let! m := node_destroy m a true in Ok (AOk, hput_tx w d m i (Some b))
      | None => Ok (AErr ENOTFOUND, hput_tx w d m i (Some a))
      end
    | CTxGet i k => let! a := hlive w i in let! (x, m) := htx_get d m a k in Ok (x, hput_tx w d m i (Some a))
    | CTxHas i k => let! a := hlive w i in let! (x, m) := htx_has d m a k in Ok (x, hput_tx w d m i (Some a))
    | CTxInsert i k v =>
      let! a := hlive w i in let! (x, a, m) := htx_insert d m a k v in Ok (x, hput_tx w d m i (Some a))
    | CTxRemove i k =>
      let! a := hlive w i in let! (x, a, m) := htx_remove d m a k in Ok (x, hput_tx w d m i (Some a))
    | CTxProve i k => let! a := hlive w i in let! (x, m) := htx_prove d m a k in Ok (x, hput_tx w d m i (Some a))
    | CTxCommit i =>
      let! a := hlive w i in let! (x, d, a, m) := htx_commit d m a in Ok (x, hput_tx w d m i (Some a))
    | CReopen =>      (* transactions that still exist are abandoned *)
      let s := d_store d in
      let! r := db_open H C (st_key s) (st_fs s) [] in
      Ok (match r with None => AErr EBADOPEN | Some _ => AOk end, mkhw r m (map (fun _ => None) (hw_txs w)))
    end
  end.
Fixpoint hrun (w : hworld) (cs : list call) : res (list answer * hworld) :=
  match cs with
  | [] => Ok ([], w)
  | c :: cs =>
    let! (a, w) := hstep w c in
    let! (l, w) := hrun w cs in
    Ok (a :: l, w)
  end.

(** ** Iterators: tree.c 1090-1284 *)

(** urkel_state_t: tree.c 35-40; urkel_iter_t: 42-52. *)
Record hframe := mkhframe { hf_node : loc; hf_child : nat; hf_resolved : bool }.
Record hiter := mkhiter { hi_root : loc; hi_stack : list hframe; hi_done : bool }.
Definition hiter_create (root : loc) : hiter := mkhiter root [] false.
Definition hpush (it : hiter) (a : loc) (resolved : bool) : res hiter :=
  check (length (hi_stack it) <? 256)
  (Ok (mkhiter (hi_root it) (mkhframe a 0 resolved :: hi_stack it) (hi_done it))).
(** What urkel_iter_seek leaves in iter->node. *)
Inductive hsres : Type := HNone | HAt (a : loc) | HErr (e : errno).

Section HIter.
Variable rd : ptr -> option bytes.
(** The loop of urkel_iter_seek: tree.c 1190-1247. *)
Fixpoint hseek_loop (fuel : nat) (m : heap) (it : hiter) : res (hsres * hiter * heap) :=
  match fuel with
  | O => NoFuel
  | S fuel =>
    match hi_stack it with
    | [] => Abort
    | fr :: rest =>
      let! c := load m (hf_node fr) in
      match c with
      | KNull | KLeaf _ _ _ _ _ => Ok (HAt (hf_node fr), it, m)
      | KInt _ _ _ l r =>
        if 2 <=? hf_child fr then Ok (HNone, it, m) else
        let c := S (hf_child fr) in
        let it := mkhiter (hi_root it) (mkhframe (hf_node fr) c (hf_resolved fr) :: rest) (hi_done it) in
        let! it := hpush it (if c =? 2 then r else l) false in
        hseek_loop fuel m it
      | KHash h w =>
        if 1 <=? hf_child fr then Ok (HNone, it, m) else
        let it := mkhiter (hi_root it) (mkhframe (hf_node fr) 1 (hf_resolved fr) :: rest) (hi_done it) in
        let! (r, m) := hresolve rd m h w in
        match r with
        | None => Ok (HErr ECORRUPTION, it, m)
        | Some rn => let! it := hpush it rn true in hseek_loop fuel m it
        end
      | KVal _ | KNew => UB
      end
    end
  end.
(** urkel_iter_seek: tree.c 1163-1248. *)
Definition hseek (m : heap) (it : hiter) : res (hsres * hiter * heap) :=
  if hi_done it then Ok (HErr EITEREND, it, m) else
  match hi_stack it with
  | [] => let! it := hpush it (hi_root it) false in hseek_loop SEEK_FUEL m it
  | top :: rest =>
    let! m := (if hf_resolved top then node_destroy m (hf_node top) true else Ok m) in
    match rest with
    | [] => Ok (HErr EITEREND, mkhiter (hi_root it) [] true, m)
    | _ => hseek_loop SEEK_FUEL m (mkhiter (hi_root it) rest (hi_done it))
    end
  end.
(** urkel_iter_next: tree.c 1250-1284. *)
Fixpoint hnext_loop (fuel : nat) (m : heap) (it : hiter) : res (ires * hiter * heap) :=
  match fuel with
  | O => NoFuel
  | S fuel =>
    let! (r, it, m) := hseek m it in
    match r with
    | HErr e => Ok (IErr e, it, m)
    | HNone => hnext_loop fuel m it
    | HAt a =>
      let! c := load m a in
      match c with
      | KLeaf _ _ k v vp =>
        let! x := hretrieve rd m v vp in
        match x with
        | None => Ok (IErr ECORRUPTION, it, m)
        | Some x => Ok (IRec k x, it, m)
        end
      | _ => hnext_loop fuel m it
      end
    end
  end.
Definition hnext (m : heap) (it : hiter) : res (ires * hiter * heap) := hnext_loop NEXT_FUEL m it.
(** urkel_iter_destroy: tree.c 1110-1132. *)
Fixpoint hiter_free (m : heap) (st : list hframe) : res heap :=
  match st with
  | [] => Ok m
  | fr :: st =>
    let! m := hiter_free m st in
    if hf_resolved fr then node_destroy m (hf_node fr) true else Ok m
  end.
(** [n] calls of urkel_iter_next and urkel_iter_destroy. *)
Fixpoint hiterate (n : nat) (m : heap) (it : hiter) : res (list ires * heap) :=
  match n with
  | O => let! m := hiter_free m (hi_stack it) in Ok ([], m)
  | S n =>
    let! (r, it, m) := hnext m it in
    let! (rs, m) := hiterate n m it in
    Ok (r :: rs, m)
  end.
End HIter.
End Heap.
