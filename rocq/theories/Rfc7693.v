(** * BLAKE2b as RFC 7693 defines it, written from the RFC and independent of blake2b.c.

    Words are numbers below 2^64, vectors of words are functions of the position, the
    initial vector is computed from the square roots of the first eight primes (section
    2.6) and rotation is arithmetic. *)
From Verif Require Export Prelude.
Local Open Scope N_scope.

Definition W : N := 2 ^ 64.

(** Section 2.3: x >>> n. *)
Definition ROTR (n x : N) : N := x / 2 ^ n + (x mod 2 ^ n) * 2 ^ (64 - n).

(** Section 2.6: IV[i] = floor(2^64 * frac(sqrt(prime(i + 1)))). *)
Definition IV (i : nat) : N := N.sqrt (nth i [2; 3; 5; 7; 11; 13; 17; 19] 0 * 2 ^ 128) mod W.

(** Section 2.7. *)
Definition SIGMA (r : nat) : list nat :=
  nth (Nat.modulo r 10)
   [[0; 1; 2; 3; 4; 5; 6; 7; 8; 9; 10; 11; 12; 13; 14; 15];
    [14; 10; 4; 8; 9; 15; 13; 6; 1; 12; 0; 2; 11; 7; 5; 3];
    [11; 8; 12; 0; 5; 2; 15; 13; 10; 14; 3; 6; 7; 1; 9; 4];
    [7; 9; 3; 1; 13; 12; 11; 14; 2; 6; 5; 10; 4; 0; 15; 8];
    [9; 0; 5; 7; 2; 4; 10; 15; 14; 1; 11; 12; 6; 8; 3; 13];
    [2; 12; 6; 10; 0; 11; 8; 3; 4; 13; 7; 5; 15; 14; 1; 9];
    [12; 5; 1; 15; 14; 13; 4; 10; 0; 7; 6; 3; 9; 2; 8; 11];
    [13; 11; 7; 14; 12; 1; 3; 9; 5; 0; 15; 4; 8; 6; 2; 10];
    [6; 15; 14; 9; 11; 3; 0; 8; 12; 2; 13; 7; 1; 4; 10; 5];
    [10; 2; 8; 4; 7; 6; 1; 5; 15; 11; 9; 14; 3; 12; 13; 0]]%nat [].

Definition vector := nat -> N.
Definition set (v : vector) (i : nat) (x : N) : vector := fun j => if Nat.eqb j i then x else v j.

(** Section 3.1: the mixing function. *)
Definition Gmix (v : vector) (a b c d : nat) (x y : N) : vector :=
  let v := set v a ((v a + v b + x) mod W) in
  let v := set v d (ROTR 32 (N.lxor (v d) (v a))) in
  let v := set v c ((v c + v d) mod W) in
  let v := set v b (ROTR 24 (N.lxor (v b) (v c))) in
  let v := set v a ((v a + v b + y) mod W) in
  let v := set v d (ROTR 16 (N.lxor (v d) (v a))) in
  let v := set v c ((v c + v d) mod W) in
  set v b (ROTR 63 (N.lxor (v b) (v c))).

(** Words of a block, little-endian (section 2.4). *)
Definition byte_at (d : bytes) (i : nat) : N := b2n (nth i d x00).
Definition word (d : bytes) (i : nat) : N :=
  fold_right N.add 0 (map (fun j => byte_at d (8 * i + j) * 256 ^ N.of_nat j) (seq 0 8)).

(** Section 3.2: the compression function. *)
Definition Fround (m : vector) (v : vector) (i : nat) : vector :=
  let s j := m (nth j (SIGMA i) 0%nat) in
  let v := Gmix v 0 4 8 12 (s 0%nat) (s 1%nat) in
  let v := Gmix v 1 5 9 13 (s 2%nat) (s 3%nat) in
  let v := Gmix v 2 6 10 14 (s 4%nat) (s 5%nat) in
  let v := Gmix v 3 7 11 15 (s 6%nat) (s 7%nat) in
  let v := Gmix v 0 5 10 15 (s 8%nat) (s 9%nat) in
  let v := Gmix v 1 6 11 12 (s 10%nat) (s 11%nat) in
  let v := Gmix v 2 7 8 13 (s 12%nat) (s 13%nat) in
  Gmix v 3 4 9 14 (s 14%nat) (s 15%nat).
Definition F (h : vector) (block : bytes) (t : N) (f : bool) : vector :=
  let v : vector := fun i => if Nat.ltb i 8 then h i else IV (i - 8) in
  let v := set v 12 (N.lxor (v 12%nat) (t mod W)) in
  let v := set v 13 (N.lxor (v 13%nat) (t / W mod W)) in
  let v := if f then set v 14 (N.lxor (v 14%nat) 0xFFFFFFFFFFFFFFFF) else v in
  let v := fold_left (Fround (word block)) (seq 0 12) v in
  fun i => N.lxor (h i) (N.lxor (v i) (v (i + 8)%nat)).

(** Section 3.3: padded data blocks and the hash of [nn] bytes of [m] with [key]. *)
Definition pad (d : bytes) : bytes := d ++ repeat x00 (128 - length d).
Definition blake2b (nn : nat) (key m : bytes) : bytes :=
  let kk := length key in
  let ll := length m in
  let data := (if Nat.eqb kk 0 then [] else pad key) ++ m in
  let dd := Nat.max 1 (Nat.div (length data + 127) 128) in
  let d i := pad (firstn 128 (skipn (128 * i) data)) in
  let h := set IV 0 (N.lxor (IV 0) (N.lxor 0x01010000 (N.lxor (256 * N.of_nat kk) (N.of_nat nn)))) in
  let h := fold_left (fun h i => F h (d i) (N.of_nat ((i + 1) * 128)) false) (seq 0 (dd - 1)) h in
  let h := F h (d (dd - 1)%nat) (N.of_nat (if Nat.eqb kk 0 then ll else ll + 128)) true in
  firstn nn (flat_map (fun i => map (fun j => n2b (h i / 256 ^ N.of_nat j)) (seq 0 8)) (seq 0 8)).
