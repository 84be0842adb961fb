(** * Nodes, pointers, hashing (nodes.h, nodes.c, util.c 20-94). *)
From Verif Require Export Bits.

(** nodes.h 44-48: struct urkel_pointer_s { uint32_t index; uint64_t pos; size_t size; } *)
Record ptr := mkptr { pidx : N; ppos : N; psize : N }.

(** urkel_pointer_init: nodes.c 25-30. *)
Definition ptr0 : ptr := mkptr 0 0 0.

(** nodes.h 50-71: struct urkel_node_s.
    Flags become options: [h = Some _] is URKEL_FLAG_HASHED, [w = Some _] is
    URKEL_FLAG_WRITTEN (with the pointer), [v = Some _] is URKEL_FLAG_VALUE and
    [vp = Some _] is URKEL_FLAG_SAVED.
    Simplification: HASH nodes always carry HASHED and WRITTEN; the only two places
    that create them do set both (nodes.c 216-231 and 667-683;
    [urkel_node_create_hash] has no caller). *)
Inductive node : Type :=
| NNull
| NInt  (h : option bytes) (w : option ptr) (pre : bits) (l r : node)
| NLeaf (h : option bytes) (w : option ptr) (k : bytes) (v : option bytes) (vp : option ptr)
| NHash (h : bytes) (w : ptr).

Definition zero_hash : bytes := repeat x00 32.

(** dst[0] = word >> 0; dst[1] = word >> 8 ...: util.h 73-93.  [n2b] reduces mod 256. *)
Definition write8 (n : N) : bytes := [n2b n].
Definition write16 (n : N) : bytes := [n2b n; n2b (n / 256)].
Definition write32 (n : N) : bytes :=
  [n2b n; n2b (n / 256); n2b (n / 65536); n2b (n / 16777216)].

(** The first ceil(size/8) bytes of a prefix. *)
Definition prefix_bytes (p : bits) : bytes := firstn (nbytes (bsize p)) (bdata p).

(** The message fed to BLAKE2b by urkel_hash_internal: util.c 28-51. *)
Definition msg_internal (p : bits) (l r : bytes) : bytes :=
  if bsize p =? 0
  then x01 :: l ++ r
  else x02 :: write16 (N.of_nat (bsize p)) ++ prefix_bytes p ++ l ++ r.

(** The message of urkel_hash_leaf: util.c 53-63. *)
Definition msg_leaf (key vhash : bytes) : bytes := x00 :: key ++ vhash.

Section Hashing.
(** The 32-byte hash (urkel_hash_raw, util.c 88-94); Blake2b.v gives the instance. *)
Variable H : bytes -> bytes.

(** util.c 28-51 *)
Definition hash_internal (p : bits) (l r : bytes) : bytes := H (msg_internal p l r).
(** util.c 53-63 *)
Definition hash_leaf (key vhash : bytes) : bytes := H (msg_leaf key vhash).
(** util.c 65-78 *)
Definition hash_value (key value : bytes) : bytes := hash_leaf key (H value).

(** urkel_node_hash: nodes.c 373-421.  Returns the hash and the node with the hash
    cached in it and in every node below it that had none. *)
Fixpoint node_hash (n : node) : res (bytes * node) :=
  match n with
  | NNull => Ok (zero_hash, NNull)
  | NHash h w => Ok (h, NHash h w)
  | NInt (Some h) w p l r => Ok (h, n)
  | NInt None w p l r =>
    let! (lh, l') := node_hash l in
    let! (rh, r') := node_hash r in
    let h := hash_internal p lh rh in
    Ok (h, NInt (Some h) w p l' r')
  | NLeaf (Some h) w k v vp => Ok (h, n)
  | NLeaf None w k (Some v) vp =>
    let h := hash_value k v in
    Ok (h, NLeaf (Some h) w k (Some v) vp)
  | NLeaf None w k None vp => Abort
  end.

(** urkel_node_create_leaf: nodes.c 304-317 (the leaf is hashed at once). *)
Definition create_leaf (key value : bytes) : node :=
  NLeaf (Some (hash_value key value)) None key (Some value) None.

(** urkel_node_create_internal: nodes.c 283-302. *)
Definition create_internal (p : bits) (x y : node) (bit : bool) : node :=
  if bit then NInt None None p y x else NInt None None p x y.

End Hashing.

(** urkel_node_get: nodes.c 233-248, on the children of an internal node. *)
Definition child (l r : node) (bit : bool) : node := if bit then r else l.

(** urkel_node_value_equals: nodes.c 443-461. *)
Definition value_equals (v : option bytes) (value : bytes) : bool :=
  match v with Some x => bytes_eqb x value | None => false end.

(** urkel_node_to_hash: nodes.c 216-231 (both flags are CHECKed). *)
Definition node_to_hash (n : node) : res node :=
  match n with
  | NNull => Ok NNull
  | NInt (Some h) (Some w) _ _ _ | NLeaf (Some h) (Some w) _ _ _ => Ok (NHash h w)
  | NHash h w => Ok (NHash h w)
  | _ => Abort
  end.
