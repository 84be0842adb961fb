(** * The memory of urkel_verify: proof.c 25-48, 140-274, tree.c 770-810.

    Codec.v's decoder again, now with the nodes of the proof as allocated blocks; the
    proof structure itself is a local variable of urkel_verify. *)
From Verif Require Export Codec Alloc.

(** The node loop: proof.c 175-198, with urkel_proof_push: proof.c 35-48.  [blks]:
    proof->nodes[0 .. nodes_len), which the caller sees also when reading fails. *)
Fixpoint m_nodes (n : nat) (i : nat) (map : bytes) (d : bytes) (blks : list nat)
  : M (option (list (bits * bytes) * bytes) * list nat) :=
  match n with
  | O => mret (Some ([], d), blks)
  | S n' =>
    do! b := lift (get_bit map i) in
    do! pr := lift (if b then
                let! r := bits_read d in
                match r with
                | None => Ok None
                | Some p =>
                  if (bsize p =? 0) || (KEY_BITS <? bsize p) then Ok None else
                  let! s := bits_size p in
                  let! (_, d') := take s d in
                  Ok (Some (p, d'))
                end
              else let! p := bits_init 0 in Ok (Some (p, d))) in
    match pr with
    | None => mret (None, blks)                                   (* return 0 *)
    | Some (p, d) =>
      if length d <? HASH_SIZE then mret (None, blks) else        (* return 0 *)
      do! (h, d) := lift (take HASH_SIZE d) in
      do! q := checked_malloc in                                  (* proof.c 39 *)
      if negb (length blks <? KEY_BITS) then (fun _ => Abort) else
      do! (rest, blks) := m_nodes n' (S i) map d (blks ++ [q]) in
      match rest with
      | None => mret (None, blks)
      | Some (l, d) => mret (Some ((p, h) :: l, d), blks)
      end
    end
  end.

(** urkel_proof_read: proof.c 140-274. *)
Definition m_read (d : bytes) : M (option proof * list nat) :=
  if length d <? 4 then mret (None, []) else
  do! field := lift (read16 d) in
  do! count := lift (read16 (adv 2 d)) in
  let d := adv 4 d in
  let type := N.shiftr field 14 in
  let depth := N.ldiff field (N.shiftl 3 14) in
  if (256 <? depth)%N then mret (None, []) else
  if (256 <? count)%N then mret (None, []) else
  let count := N.to_nat count in
  if length d <? nbytes count then mret (None, []) else
  do! (map, d) := lift (take (nbytes count) d) in
  do! (r, blks) := m_nodes count 0 map d [] in
  match r with
  | None => mret (None, blks)
  | Some (nodes, d) =>
    do! t := lift (tail_read type d) in
    match t with
    | None => mret (None, blks)
    | Some t => mret (Some (mkproof (N.to_nat depth) nodes t), blks)
    end
  end.

(** urkel_verify: tree.c 770-810.  When urkel_proof_read fails it returns without calling
    urkel_proof_clear (proof.c 25-33). *)
Definition m_verify (H : bytes -> bytes) (raw key : bytes) (root : option bytes) : M verdict :=
  match root with
  | None => mret (mkverdict (Some EINVAL) false [])
  | Some root =>
    do! (r, blks) := m_read raw in
    match r with
    | None => mret (mkverdict (Some EINVAL) false [])
    | Some p =>
      let answer a := do! _ := free_all blks in mret a in
      match proof_verify H p key root with
      | Ok _ =>
        match p_tail p with
        | TExists v => answer (mkverdict None true v)
        | _ => answer (mkverdict None false [])
        end
      | Fail e => answer (mkverdict (Some e) false [])
      | Abort => fun _ => Abort | UB => fun _ => UB | NoFuel => fun _ => NoFuel
      end
    end
  end.
