(** * tree.c 78-477: get, insert, remove, prove on node structures.

    The store enters only through [rd]: the result of urkel_store_read
    (store.c 508-520) for a pointer's index, position and size.  [None] is failure. *)
From Verif Require Export Codec Ptree.
From Coq Require Import ZifyBool ZifyNat ZifyN.

Section Tree.
Variable H : bytes -> bytes.
Variable rd : ptr -> option bytes.

(** out->ptr = ptr, flags |= WRITTEN (store.c 568-569); urkel_node_hashed (nodes.c 157-164). *)
Definition set_ptr (w : ptr) (n : node) : node :=
  match n with
  | NInt h _ p l r => NInt h (Some w) p l r
  | NLeaf h _ k v vp => NLeaf h (Some w) k v vp
  | n => n
  end.
Definition set_hash (h : bytes) (n : node) : node :=
  match n with
  | NInt _ w p l r => NInt (Some h) w p l r
  | NLeaf _ w k v vp => NLeaf (Some h) w k v vp
  | n => n
  end.

(** urkel_store_read_node: store.c 553-572.  [Ok None] is [return 0]. *)
Definition read_node (w : ptr) : res (option node) :=
  if (psize w =? 0)%N || (113 <? psize w)%N then Ok None else
  match rd w with
  | None => Ok None
  | Some raw =>
    let! r := node_read raw in
    match r with
    | None => Ok None
    | Some n => Ok (Some (set_ptr w n))
    end
  end.

(** urkel_store_resolve: store.c 657-671. *)
Definition resolve (h : bytes) (w : ptr) : res (option node) :=
  let! r := read_node w in
  match r with
  | None => Ok None
  | Some n => Ok (Some (set_hash h n))
  end.

(** urkel_store_retrieve: store.c 623-655, on the value and value pointer of a leaf. *)
Definition retrieve (v : option bytes) (vp : option ptr) : res (option bytes) :=
  match v with
  | Some x => check (length x <=? VALUE_SIZE) (Ok (Some x))
  | None =>
    match vp with
    | None => Abort
    | Some q => if (1023 <? psize q)%N then Ok None else Ok (rd q)
    end
  end.

(** urkel_tree_get: tree.c 78-148.  [want] is [value != NULL && size != NULL]; the result
    is the bytes stored in [value] (none when it is NULL). *)
Fixpoint tree_get (fuel : nat) (n : node) (key : bytes) (depth : nat) (want : bool) : res bytes :=
  match fuel with
  | O => NoFuel
  | S fuel =>
    match n with
    | NNull => Fail ENOTFOUND
    | NInt _ _ p l r =>
      let! m := bits_has p key depth in
      if negb m then Fail ENOTFOUND else
      let depth := depth + bsize p in
      let! bit := get_bit key depth in
      tree_get fuel (child l r bit) key (depth + 1) want
    | NLeaf _ _ k v vp =>
      if negb (bytes_eqb k key) then Fail ENOTFOUND else
      if want then
        let! r := retrieve v vp in
        match r with None => Fail ECORRUPTION | Some x => Ok x end
      else Ok []
    | NHash h w =>
      let! r := resolve h w in
      match r with
      | None => Fail ECORRUPTION
      | Some rn => tree_get fuel rn key depth want
      end
    end
  end.

(** urkel_tree_insert: tree.c 150-268. *)
Fixpoint tree_insert (fuel : nat) (n : node) (key value : bytes) (depth : nat) : res node :=
  match fuel with
  | O => NoFuel
  | S fuel =>
    match n with
    | NNull => Ok (create_leaf H key value)
    | NInt _ _ p l r =>
      let! c := bits_count p key depth in
      let depth := depth + c in
      let! bit := get_bit key depth in
      if negb (c =? bsize p) then
        let leaf := create_leaf H key value in
        let! (front, back) := bits_split p c in
        let ch := create_internal back l r false in
        Ok (create_internal front leaf ch bit)
      else
        let x := child l r bit in
        let y := child l r (negb bit) in
        let! z := tree_insert fuel x key value (depth + 1) in
        Ok (create_internal p z y bit)
    | NLeaf _ _ k v _ =>
      if bytes_eqb k key then
        if value_equals v value then Fail ENOUPDATE else Ok (create_leaf H key value)
      else
        let! p := bits_collide (key_bits k) key depth in
        let depth := depth + bsize p in
        let leaf := create_leaf H key value in
        let! bit := get_bit key depth in
        Ok (create_internal p leaf n bit)
    | NHash h w =>
      let! r := resolve h w in
      match r with
      | None => Fail ECORRUPTION
      | Some rn => tree_insert fuel rn key value depth
      end
    end
  end.

(** urkel_tree_remove: tree.c 270-381. *)
Fixpoint tree_remove (fuel : nat) (n : node) (key : bytes) (depth : nat) : res node :=
  match fuel with
  | O => NoFuel
  | S fuel =>
    match n with
    | NNull => Fail ENOTFOUND
    | NInt _ _ p l r =>
      let! m := bits_has p key depth in
      if negb m then Fail ENOTFOUND else
      let depth := depth + bsize p in
      let! bit := get_bit key depth in
      let x := child l r bit in
      let y := child l r (negb bit) in
      let! z := tree_remove fuel x key (depth + 1) in
      match z with
      | NNull =>
        let! side := (match y with
                      | NHash h w =>
                        let! s := resolve h w in
                        match s with None => Abort (* CHECK, line 310 *) | Some s => Ok s end
                      | _ => Ok y
                      end) in
        match side with
        | NInt _ _ q sl sr =>
          let! pre := bits_join p q (negb bit) in
          Ok (create_internal pre sl sr false)
        | _ => Ok side
        end
      | _ => Ok (create_internal p z y bit)
      end
    | NLeaf _ _ k _ _ =>
      if negb (bytes_eqb k key) then Fail ENOTFOUND else Ok NNull
    | NHash h w =>
      let! r := resolve h w in
      match r with
      | None => Fail ECORRUPTION
      | Some rn => tree_remove fuel rn key depth
      end
    end
  end.

(** urkel_tree_prove: tree.c 383-477.  [acc] is proof->nodes so far.  Besides the proof
    the result is the node as left behind: urkel_node_hash caches hashes in the nodes
    next to the path.  A resolved node is destroyed, so its caching is lost. *)
Fixpoint tree_prove (fuel : nat) (acc : list (bits * bytes)) (n : node) (key : bytes) (depth : nat)
  : res (proof * node) :=
  match fuel with
  | O => NoFuel
  | S fuel =>
    match n with
    | NNull => Ok (mkproof depth acc TDeadend, n)
    | NInt h w p l r =>
      let! m := bits_has p key depth in
      if negb m then
        let! (lh, l') := node_hash H l in
        let! (rh, r') := node_hash H r in
        Ok (mkproof depth acc (TShort p lh rh), NInt h w p l' r')
      else
        let depth := depth + bsize p in
        let! bit := get_bit key depth in
        let! (yh, y) := node_hash H (child l r (negb bit)) in
        let! acc := proof_push acc p yh in
        let! (pr, x) := tree_prove fuel acc (child l r bit) key (depth + 1) in
        Ok (pr, if bit then NInt h w p y x else NInt h w p x y)
    | NLeaf _ _ k v vp =>
      let! r := retrieve v vp in
      match r with
      | None => Fail ECORRUPTION
      | Some x =>
        if bytes_eqb k key
        then Ok (mkproof depth acc (TExists x), n)
        else Ok (mkproof depth acc (TCollision k (H x)), n)
      end
    | NHash h w =>
      let! r := resolve h w in
      match r with
      | None => Fail ECORRUPTION
      | Some rn => let! (pr, _) := tree_prove fuel acc rn key depth in Ok (pr, n)
      end
    end
  end.

(** Enough recursion for any 256-bit key (proved in TreeFacts.v). *)
Definition TREE_FUEL := 600.

(** ** What a node structure stands for *)

(** A pointer that fits its 7-byte encoding and designates a node record. *)
Definition node_ptr (p : ptr) : Prop :=
  (pidx p < 32768 /\ ppos p < 2147483648 /\ 0 < psize p <= 113)%N.

(** The tree [t] is stored at [p]. *)
Fixpoint on_disk (t : ptree) (p : ptr) : Prop :=
  match t with
  | PNull => False
  | PLeaf k v =>
    node_ptr p /\ exists raw vp, rd p = Some raw /\
      node_read raw = Ok (Some (NLeaf None None k None (Some vp))) /\
      (psize vp <= 1023)%N /\ rd vp = Some v
  | PInt pre l r =>
    node_ptr p /\ exists raw lp rp, rd p = Some raw /\
      node_read raw = Ok (Some (NInt None None (of_bools pre) (NHash (thash H l) lp) (NHash (thash H r) rp))) /\
      on_disk l lp /\ on_disk r rp
  end.

Definition hash_ok (h : option bytes) (t : ptree) : Prop := h = None \/ h = Some (thash H t).
Definition written_ok (w : option ptr) (t : ptree) : Prop :=
  match w with None => True | Some p => on_disk t p end.

(** The node structure [n] represents the tree [t]. *)
Fixpoint rep (n : node) (t : ptree) {struct n} : Prop :=
  match n with
  | NNull => t = PNull
  | NHash h w => h = thash H t /\ on_disk t w
  | NLeaf h w k v vp =>
    exists x, t = PLeaf k x /\ hash_ok h t /\ written_ok w t /\
      (w = None -> v = Some x /\ vp = None) /\
      (v = Some x \/
       (v = None /\ h <> None /\ exists q, vp = Some q /\ (psize q <= 1023)%N /\ rd q = Some x))
  | NInt h w p l r =>
    exists pre tl tr, t = PInt pre tl tr /\ hash_ok h t /\ written_ok w t /\
      p = of_bools pre /\ rep l tl /\ rep r tr
  end.
End Tree.

(** All values of a tree are at most [n] bytes long. *)
Definition vals_le (n : nat) (t : ptree) : Prop := forall k v, In (k, v) (elems t) -> length v <= n.
