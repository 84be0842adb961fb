(** * Encodings: pointers and nodes (nodes.c), bit prefixes (bits.c), proofs (proof.c). *)
From Verif Require Export Node.
From Coq Require Import ZifyBool ZifyNat ZifyN.

(** Cursor-style reading.  The C code carries [data] and [len]; here [data] is the list
    of remaining bytes and [len] its length.  Reading past the end is [UB]. *)
Definition take (n : nat) (d : bytes) : res (bytes * bytes) :=
  if n <=? length d then Ok (firstn n d, skipn n d) else UB.

(** util.h 116-133 *)
Definition read8 (d : bytes) : res N :=
  match d with a :: _ => Ok (b2n a) | _ => UB end.
Definition read16 (d : bytes) : res N :=
  match d with a :: b :: _ => Ok (b2n b * 256 + b2n a)%N | _ => UB end.
Definition read32 (d : bytes) : res N :=
  match d with
  | a :: b :: c :: e :: _ =>
    Ok (b2n e * 16777216 + b2n c * 65536 + b2n b * 256 + b2n a)%N
  | _ => UB end.

(** data += n; len -= n *)
Definition adv (n : nat) (d : bytes) : bytes := skipn n d.

(** urkel_pointer_write: nodes.c 32-44. *)
Definition pointer_write (p : ptr) : bytes :=
  let bits := N.shiftr (psize p) 8 in
  let hi := N.shiftr bits 1 in
  let lo := N.land bits 1 in
  write16 (N.lor (N.shiftl (pidx p) 1) hi) ++
  write32 (N.lor (N.shiftl (ppos p) 1) lo) ++
  write8 (psize p).

(** urkel_pointer_read: nodes.c 46-57. *)
Definition pointer_read (d : bytes) : res ptr :=
  let! index := read16 d in
  let! pos := read32 (adv 2 d) in
  let! size := read8 (adv 6 d) in
  let hi := N.land index 1 in
  let lo := N.land pos 1 in
  Ok (mkptr (N.shiftr index 1) (N.shiftr pos 1)
            (N.lor (N.lor (N.shiftl hi 9) (N.shiftl lo 8)) size)).

Definition PTR_SIZE := 7.     (* nodes.h 27 *)
Definition HASH_SIZE := 32.   (* internal.h 164 *)
Definition VALUE_SIZE := 1023. (* internal.h 167 *)
Definition NODE_SIZE := 113.  (* nodes.h 30-34 *)

(** (flags & WRITTEN) with the pointer, (flags & HASHED) with the hash. *)
Definition written (n : node) : option ptr :=
  match n with
  | NNull => Some ptr0 | NInt _ w _ _ _ => w | NLeaf _ w _ _ _ => w | NHash _ w => Some w
  end.
Definition hashed (n : node) : option bytes :=
  match n with
  | NNull => Some zero_hash | NInt h _ _ _ _ => h | NLeaf h _ _ _ _ => h | NHash h _ => Some h
  end.

(** nodes.c 561-571: pointer and hash of one child. *)
Definition child_write (n : node) : res bytes :=
  match written n, hashed n with
  | Some w, Some h => Ok (pointer_write w ++ h)
  | _, _ => Abort
  end.

(** urkel_node_flags: nodes.c 463-478. *)
Definition node_flags (p : bits) : N :=
  N.lor (if 0 <? bsize p then 1 else 0) (if 255 <? bsize p then 2 else 0).

(** urkel_node_write: nodes.c 535-600. *)
Definition node_write (n : node) : res bytes :=
  match n with
  | NNull | NHash _ _ => Abort
  | NInt _ _ p l r =>
    let type := N.lor (N.shiftl (node_flags p) 4) 1 in
    let pre := if 255 <? bsize p then write16 (N.of_nat (bsize p)) ++ prefix_bytes p
               else if 0 <? bsize p then write8 (N.of_nat (bsize p)) ++ prefix_bytes p
               else [] in
    let! lb := child_write l in
    let! rb := child_write r in
    Ok (write8 type ++ pre ++ lb ++ rb)
  | NLeaf _ _ k _ vp =>
    match vp with
    | Some q => Ok (write8 2 ++ pointer_write q ++ k)
    | None => Abort
    end
  end.

(** The part of urkel_node_read that reads the prefix: nodes.c 626-662.
    [Ok None] is [return 0]. *)
Definition node_read_prefix (flags : N) (d : bytes) : res (option (bits * bytes)) :=
  if N.testbit flags 0 then
    if length d <? 2 then Ok None else
    let! (size, d) :=
      (if N.testbit flags 1 then
         let! s := read16 d in Ok (s, adv 2 d)
       else
         let! s := read8 d in Ok (s, adv 1 d)) in
    if N.testbit flags 1 && (size <? 256)%N then Ok None else
    if negb (N.testbit flags 1) && (size =? 0)%N then Ok None else
    let size := N.to_nat size in
    if length d <? nbytes size then Ok None else
    let! p := bits_init size in
    let! data := copy_bytes (bdata p) d (nbytes size) in
    Ok (Some (mkbits size data, adv (nbytes size) d))
  else
    let! p := bits_init 0 in Ok (Some (p, d)).

(** urkel_node_read: nodes.c 602-720. *)
Definition node_read (d : bytes) : res (option node) :=
  if length d <? 1 then Ok None else
  let! type := read8 d in
  let d := adv 1 d in
  let low := N.land type 15 in
  if (low =? 1)%N then
    let! r := node_read_prefix (N.shiftr type 4) d in
    match r with
    | None => Ok None
    | Some (p, d) =>
      if length d <? 2 * (PTR_SIZE + HASH_SIZE) then Ok None else
      let! lp := pointer_read d in
      let d := adv PTR_SIZE d in
      let! (lh, d) := take HASH_SIZE d in
      let! rp := pointer_read d in
      let d := adv PTR_SIZE d in
      let! (rh, d) := take HASH_SIZE d in
      Ok (Some (NInt None None p (NHash lh lp) (NHash rh rp)))
    end
  else if (low =? 2)%N then
    if length d <? PTR_SIZE + KEY_SIZE then Ok None else
    let! vp := pointer_read d in
    let d := adv PTR_SIZE d in
    let! (k, d) := take KEY_SIZE d in
    Ok (Some (NLeaf None None k None (Some vp)))
  else Ok None.

(** urkel_bits_size: bits.c 121-134. *)
Definition bits_size (b : bits) : res nat :=
  check (bsize b <=? KEY_BITS)
    (Ok ((if 128 <=? bsize b then 1 else 0) + 1 + nbytes (bsize b))).

(** urkel_bits_write: bits.c 136-149. *)
Definition bits_write (b : bits) : res bytes :=
  check (bsize b <=? KEY_BITS)
    (Ok ((if 128 <=? bsize b then write8 (N.lor 128 (N.shiftr (N.of_nat (bsize b)) 8)) else [])
         ++ write8 (N.of_nat (bsize b)) ++ prefix_bytes b)).

(** urkel_bits_read: bits.c 151-192.  Does not advance the caller's cursor.
    [size & 0x80] is [N.testbit size 7]; [size &= ~0x80] is [N.clearbit size 7]. *)
Definition bits_read (d : bytes) : res (option bits) :=
  let! b0 := bits_init 0 in
  if length d <? 1 then Ok None else
  let! s := read8 d in
  let d := adv 1 d in
  if N.testbit s 7 then
    if length d <? 1 then Ok None else
    let! s2 := read8 d in
    let size := N.lor (N.shiftl (N.clearbit s 7) 8) s2 in
    if (size <? 128)%N then Ok None else
    let d := adv 1 d in
    if (256 <? size)%N then Ok None else
    let n := N.to_nat size in
    if length d <? nbytes n then Ok None else
    let! data := copy_bytes (bdata b0) d (nbytes n) in
    Ok (Some (mkbits n data))
  else
    if (256 <? s)%N then Ok None else
    let n := N.to_nat s in
    if length d <? nbytes n then Ok None else
    let! data := copy_bytes (bdata b0) d (nbytes n) in
    Ok (Some (mkbits n data)).

(** proof.h: struct urkel_proof_s.  The type-specific fields of the C struct become one
    constructor each; the C struct zeroes the others (proof.c 20-23), which is what
    urkel_proof_is_sane re-checks. *)
Inductive ptail : Type :=
| TDeadend
| TShort (prefix : bits) (left right : bytes)
| TCollision (key hash : bytes)
| TExists (value : bytes).

Record proof := mkproof { p_depth : nat; p_nodes : list (bits * bytes); p_tail : ptail }.

Definition tail_type (t : ptail) : N :=
  match t with TDeadend => 0 | TShort _ _ _ => 1 | TCollision _ _ => 2 | TExists _ => 3 end.

(** urkel_proof_push: proof.c 35-48, as used by urkel_tree_prove (append at the end). *)
Definition proof_push (nodes : list (bits * bytes)) (p : bits) (h : bytes)
  : res (list (bits * bytes)) :=
  check (length nodes <? KEY_BITS) (Ok (nodes ++ [(p, h)])).

(** Size of the node section: proof.c 59-66. *)
Fixpoint proof_nodes_size (l : list (bits * bytes)) : res nat :=
  match l with
  | [] => Ok 0
  | (p, h) :: l' =>
    let! a := (if 0 <? bsize p then bits_size p else Ok 0) in
    let! b := proof_nodes_size l' in
    Ok (a + HASH_SIZE + b)
  end.

(** urkel_proof_size: proof.c 50-90. *)
Definition proof_size (p : proof) : res nat :=
  let! ns := proof_nodes_size (p_nodes p) in
  let! ts := match p_tail p with
             | TDeadend => Ok 0
             | TShort pre _ _ => let! s := bits_size pre in Ok (s + HASH_SIZE + HASH_SIZE)
             | TCollision _ _ => Ok (KEY_SIZE + HASH_SIZE)
             | TExists v => Ok (2 + length v)
             end in
  Ok (2 + 2 + nbytes (length (p_nodes p)) + ns + ts).

(** The bitmap written by proof.c 108-111: bit i set when node i has a prefix. *)
Fixpoint proof_bitmap (l : list (bits * bytes)) (i : nat) (map : bytes) : res bytes :=
  match l with
  | [] => Ok map
  | (p, h) :: l' =>
    let! m := (if 0 <? bsize p then set_bit map i true else Ok map) in
    proof_bitmap l' (S i) m
  end.

(** The node section: proof.c 105-114. *)
Fixpoint proof_nodes_write (l : list (bits * bytes)) : res bytes :=
  match l with
  | [] => Ok []
  | (p, h) :: l' =>
    let! a := (if 0 <? bsize p then bits_write p else Ok []) in
    let! b := proof_nodes_write l' in
    Ok (a ++ h ++ b)
  end.

(** The tail: proof.c 116-135. *)
Definition tail_write (t : ptail) : res bytes :=
  match t with
  | TDeadend => Ok []
  | TShort pre l r => let! b := bits_write pre in Ok (b ++ l ++ r)
  | TCollision k h => Ok (k ++ h)
  | TExists v => Ok (write16 (N.of_nat (length v)) ++ v)
  end.

(** urkel_proof_write: proof.c 92-138. *)
Definition proof_write (p : proof) : res bytes :=
  let count := length (p_nodes p) in
  let field := N.lor (N.shiftl (tail_type (p_tail p)) 14) (N.of_nat (p_depth p)) in
  let! map := proof_bitmap (p_nodes p) 0 (repeat x00 (nbytes count)) in
  let! ns := proof_nodes_write (p_nodes p) in
  let! ts := tail_write (p_tail p) in
  Ok (write16 field ++ write16 (N.of_nat count) ++ map ++ ns ++ ts).

(** The node loop of urkel_proof_read: proof.c 175-198.  [pushed] is proof->nodes_len. *)
Fixpoint proof_read_nodes (n : nat) (i : nat) (map : bytes) (d : bytes)
  : res (option (list (bits * bytes) * bytes)) :=
  match n with
  | O => Ok (Some ([], d))
  | S n' =>
    let! b := get_bit map i in
    let! pr := (if b then
                  let! r := bits_read d in
                  match r with
                  | None => Ok None
                  | Some p =>
                    if (bsize p =? 0) || (KEY_BITS <? bsize p) then Ok None else
                    let! s := bits_size p in
                    let! (_, d') := take s d in
                    Ok (Some (p, d'))
                  end
                else let! p := bits_init 0 in Ok (Some (p, d))) in
    match pr with
    | None => Ok None
    | Some (p, d) =>
      if length d <? HASH_SIZE then Ok None else
      let! (h, d) := take HASH_SIZE d in
      check (i <? KEY_BITS) (* urkel_proof_push: nodes_len = i *)
      (let! rest := proof_read_nodes n' (S i) map d in
       match rest with
       | None => Ok None
       | Some (l, d) => Ok (Some ((p, h) :: l, d))
       end)
    end
  end.

(** The tail of urkel_proof_read: proof.c 200-273, including [return len == 0]. *)
Definition tail_read (type : N) (d : bytes) : res (option ptail) :=
  let fin (t : ptail) (d : bytes) : res (option ptail) :=
    if length d =? 0 then Ok (Some t) else Ok None in
  if (type =? 0)%N then fin TDeadend d
  else if (type =? 1)%N then
    let! r := bits_read d in
    match r with
    | None => Ok None
    | Some p =>
      if (bsize p =? 0) || (KEY_BITS <? bsize p) then Ok None else
      let! s := bits_size p in
      let! (_, d) := take s d in
      if length d <? HASH_SIZE * 2 then Ok None else
      let! (l, d) := take HASH_SIZE d in
      let! (r, d) := take HASH_SIZE d in
      fin (TShort p l r) d
    end
  else if (type =? 2)%N then
    if length d <? KEY_SIZE + HASH_SIZE then Ok None else
    let! (k, d) := take KEY_SIZE d in
    let! (h, d) := take HASH_SIZE d in
    fin (TCollision k h) d
  else if (type =? 3)%N then
    if length d <? 2 then Ok None else
    let! s := read16 d in
    let d := adv 2 d in
    let size := N.to_nat s in
    if length d <? size then Ok None else
    if VALUE_SIZE <? size then Ok None else
    let! (v, d) := take size d in
    fin (TExists v) d
  else Ok None.

(** urkel_proof_read: proof.c 140-274. *)
Definition proof_read (d : bytes) : res (option proof) :=
  if length d <? 4 then Ok None else
  let! field := read16 d in
  let! count := read16 (adv 2 d) in
  let d := adv 4 d in
  let type := N.shiftr field 14 in
  let depth := N.ldiff field (N.shiftl 3 14) in
  if (256 <? depth)%N then Ok None else
  if (256 <? count)%N then Ok None else
  let count := N.to_nat count in
  if length d <? nbytes count then Ok None else
  let! (map, d) := take (nbytes count) d in
  let! r := proof_read_nodes count 0 map d in
  match r with
  | None => Ok None
  | Some (nodes, d) =>
    let! t := tail_read type d in
    match t with
    | None => Ok None
    | Some t => Ok (Some (mkproof (N.to_nat depth) nodes t))
    end
  end.

Section Verify.
Variable H : bytes -> bytes.

(** urkel_proof_is_sane: proof.c 276-343. *)
Definition proof_is_sane (p : proof) : bool :=
  (p_depth p <=? KEY_BITS) && (length (p_nodes p) <=? KEY_BITS) &&
  forallb (fun n => bsize (fst n) <=? KEY_BITS) (p_nodes p) &&
  match p_tail p with
  | TDeadend => true
  | TShort pre _ _ => negb (bsize pre =? 0) && (bsize pre <=? KEY_BITS)
  | TCollision _ _ => true
  | TExists v => length v <=? VALUE_SIZE
  end.

(** "Re-create the leaf": proof.c 356-389. *)
Definition verify_leaf (p : proof) (key : bytes) : res bytes :=
  match p_tail p with
  | TDeadend => Ok zero_hash
  | TShort pre l r =>
    let! b := bits_has pre key (p_depth p) in
    if b then Fail ESAMEPATH else Ok (hash_internal H pre l r)
  | TCollision k h =>
    if bytes_eqb k key then Fail ESAMEKEY else Ok (hash_leaf H k h)
  | TExists v => Ok (hash_value H key v)
  end.

(** "Traverse bits right to left": proof.c 391-409.  The list is the node list reversed. *)
Fixpoint verify_loop (nodes : list (bits * bytes)) (key next : bytes) (depth : nat)
  : res (bytes * nat) :=
  match nodes with
  | [] => Ok (next, depth)
  | (p, h) :: nodes' =>
    if depth <? bsize p + 1 then Fail ENEGDEPTH else
    let depth := depth - 1 in
    let! b := get_bit key depth in
    let next := if b then hash_internal H p h next else hash_internal H p next h in
    let depth := depth - bsize p in
    let! m := bits_has p key depth in
    if negb m then Fail EPATHMISMATCH else verify_loop nodes' key next depth
  end.

(** urkel_proof_verify: proof.c 345-418. [Ok tt] is 0, [Fail e] the error number. *)
Definition proof_verify (p : proof) (key root : bytes) : res unit :=
  if negb (proof_is_sane p) then Fail EINVAL else
  let! next := verify_leaf p key in
  let! (next, depth) := verify_loop (rev (p_nodes p)) key next (p_depth p) in
  if negb (depth =? 0) then Fail ETOODEEP else
  if negb (bytes_eqb next root) then Fail EHASHMISMATCH else Ok tt.

(** Everything urkel_verify hands back: return value ([None] = 1 = success, [Some e] =
    0 with errno e), [*exists], and the [*value_len] bytes stored in [value]. *)
Record verdict := mkverdict { v_err : option errno; v_exists : bool; v_value : bytes }.

(** urkel_verify: tree.c 770-810. *)
Definition urkel_verify (raw key : bytes) (root : option bytes) : res verdict :=
  match root with
  | None => Ok (mkverdict (Some EINVAL) false [])
  | Some root =>
    let! r := proof_read raw in
    match r with
    | None => Ok (mkverdict (Some EINVAL) false [])
    | Some p =>
      match proof_verify p key root with
      | Ok _ =>
        match p_tail p with
        | TExists v => Ok (mkverdict None true v)
        | _ => Ok (mkverdict None false [])
        end
      | Fail e => Ok (mkverdict (Some e) false [])
      | Abort => Abort | UB => UB | NoFuel => NoFuel
      end
    end
  end.
End Verify.
