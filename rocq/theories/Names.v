(** * Data file names and hexadecimal text: util.c 95-144, store.c 933-960, urkel.c 23-109.

    [mem] is the memory a [char *] points to, read from the front; reading beyond it is [UB].
    A C string [s] is stored as [s ++ [x00]]. *)
From Verif Require Export Spec.
From Coq Require Import ZifyBool ZifyNat ZifyN.

(** The loop of urkel_parse_u32: util.c 109-126; [n] iterations are left.  The type of [ch]
    is int: a char above 127 may be negative there, and is rejected either way. *)
Fixpoint parse_loop (n : nat) (num : N) (mem : bytes) : res (option N) :=
  match mem with
  | [] => UB
  | c :: mem =>
    let ch := b2n c in
    match n with
    | O => if (ch =? 0)%N then Ok (Some num) else Ok None
    | S n =>
      if (ch =? 0)%N then Ok None else
      if (ch <? 48)%N || (57 <? ch)%N then Ok None else
      let num := (num * 10 + (ch - 48))%N in
      if (4294967295 <? num)%N then Ok None else parse_loop n num mem
    end
  end.
(** urkel_parse_u32: util.c 100-132.  [None] is [return 0]. *)
Definition parse_u32 (mem : bytes) : res (option N) := parse_loop 10 0 mem.

(** urkel_serialize_u32: util.c 134-144: digits are stored from the last to the first. *)
Fixpoint serialize_loop (i : nat) (num : N) (out : bytes) : bytes :=
  match i with
  | O => out
  | S i => serialize_loop i (num / 10) (upd out i (n2b (48 + num mod 10)))
  end.
Definition serialize_u32 (out : bytes) (num : N) : bytes := serialize_loop 10 num (upd out 10 x00).

(** urkel_store_find_index: store.c 933-960, on the names urkel_fs_scandir returned.
    The result is [ret] and [*index]; uint32_t arithmetic. *)
Fixpoint find_index_loop (names : list bytes) (ret : bool) (index : N) : res (bool * N) :=
  match names with
  | [] => Ok (ret, index)
  | s :: names =>
    let! r := parse_u32 (s ++ [x00]) in
    match r with
    | Some num => find_index_loop names (ret && (num =? (index + 1) mod 4294967296)%N) num
    | None => find_index_loop names ret index
    end
  end.
Definition find_index (names : list bytes) : res (bool * N) := find_index_loop names true 0.

(** ** Hexadecimal *)

(** urkel_base16_charset, urkel_base16_table: urkel.c 23-58 (255 for -1 as uint8_t). *)
Definition charset : bytes := map (fun n => n2b (if (n <? 10)%N then 48 + n else 87 + n)) (map N.of_nat (seq 0 16)).
Definition table (c : byte) : N :=
  let n := b2n c in
  if (48 <=? n)%N && (n <=? 57)%N then n - 48
  else if (65 <=? n)%N && (n <=? 70)%N then n - 55
  else if (97 <=? n)%N && (n <=? 102)%N then n - 87
  else 255.

(** urkel_base16_encode: urkel.c 60-70: what is stored at dst. *)
Fixpoint base16_encode (src : bytes) : bytes :=
  match src with
  | [] => [x00]
  | b :: src =>
    nth (N.to_nat (N.shiftr (b2n b) 4)) charset x00 :: nth (N.to_nat (N.land (b2n b) 15)) charset x00 :: base16_encode src
  end.

(** The loop of urkel_base16_decode: urkel.c 84-91: [n] iterations left, [z] as there; the
    bytes stored and the final [z]. *)
Fixpoint decode_loop (n : nat) (src : bytes) (z : N) : res (bytes * N) :=
  match n with
  | O => Ok ([], z)
  | S n =>
    match src with
    | a :: b :: src =>
      let hi := table a in
      let lo := table b in
      let z := N.lor z (N.lor hi lo) in
      let! (d, z) := decode_loop n src z in
      Ok (n2b (N.lor (N.shiftl hi 4) lo) :: d, z)
    | _ => UB
    end
  end.
(** urkel_base16_decode: urkel.c 72-99, for the C string [src] and [*dstlen = cap].
    [None] is [return 0]. *)
Definition base16_decode (cap : nat) (src : bytes) : res (option bytes) :=
  let srclen := length src in
  if Nat.odd srclen then Ok None else
  if cap <? srclen / 2 then Ok None else
  let! (d, z) := decode_loop (srclen / 2) src 0 in
  if N.testbit z 7 then Ok None else Ok (Some d).

(** urkel_base16_decode32: urkel.c 101-109. *)
Definition base16_decode32 (src : bytes) : res (option bytes) :=
  let! r := base16_decode 32 src in
  match r with
  | Some d => if length d =? 32 then Ok (Some d) else Ok None
  | None => Ok None
  end.
