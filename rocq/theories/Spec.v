(** * The specification: what a user of liburkel relies on, independent of the model.

    Nothing here mentions nodes, files, pointers or locks. *)
From Verif Require Export Prelude.

(** ** Bit strings *)

(** The eight bits of a byte, most significant first (doc/tree.md: key bits). *)
Definition bits_of_byte (b : byte) : list bool :=
  map (fun i => N.testbit (b2n b) i) [7; 6; 5; 4; 3; 2; 1; 0]%N.

(** A byte string read as a bit string. *)
Definition kbits (k : bytes) : list bool := flat_map bits_of_byte k.
Arguments kbits _ : simpl never.
Arguments bits_of_byte _ : simpl never.

(** Eight bits, most significant first, as a byte. *)
Definition byte_of_bits (l : list bool) : byte :=
  n2b (fold_left (fun acc b => (2 * acc + N.b2n b)%N) l 0%N).

(** [n] bytes holding the bits [l], zero-padded at the end. *)
Fixpoint pack (n : nat) (l : list bool) : bytes :=
  match n with
  | O => []
  | S n' => byte_of_bits (firstn 8 l ++ repeat false (8 - length l)) :: pack n' (skipn 8 l)
  end.

(** Number of bytes needed for [n] bits. *)
Definition nbytes (n : nat) : nat := (n + 7) / 8.

(** ** Key/value maps *)

(** Contents of a tree: a partial function from keys to values. *)
Definition kvmap := bytes -> option bytes.
Definition m_empty : kvmap := fun _ => None.
Definition m_set (m : kvmap) (k v : bytes) : kvmap :=
  fun k' => if bytes_eq_dec k k' then Some v else m k'.
Definition m_del (m : kvmap) (k : bytes) : kvmap :=
  fun k' => if bytes_eq_dec k k' then None else m k'.

(** A list of records that lists the map [m] exactly, each key once. *)
Definition lists (l : list (bytes * bytes)) (m : kvmap) : Prop :=
  NoDup (map fst l) /\ forall k v, In (k, v) l <-> m k = Some v.

(** A list of records with distinct 32-byte keys: the contents of a tree. *)
Definition records (l : list (bytes * bytes)) : Prop :=
  NoDup (map fst l) /\ Forall (fun e => length (fst e) = 32) l.

(** ** Key order *)

(** Lexicographic order of byte strings, bytes compared as unsigned numbers (memcmp). *)
Fixpoint lex_lt (a b : bytes) : Prop :=
  match a, b with
  | [], [] => False
  | [], _ :: _ => True
  | _ :: _, [] => False
  | x :: a', y :: b' => (b2n x < b2n y)%N \/ (x = y /\ lex_lt a' b')
  end.

(** ** The Merkle root of a set of records, as documented in doc/tree.md *)

Section Root.
Variable H : bytes -> bytes.

(** Longest common prefix of two bit strings / of a non-empty list of them. *)
Fixpoint common2 (a b : list bool) : list bool :=
  match a, b with
  | x :: a', y :: b' => if Bool.eqb x y then x :: common2 a' b' else []
  | _, _ => []
  end.
Definition common (ls : list (list bool)) : list bool :=
  match ls with [] => [] | x :: xs => fold_left common2 xs x end.

(** The bytes hashed for an inner node: tag 0x01 without prefix bits; otherwise tag
    0x02, the number of prefix bits as two bytes (little-endian), the packed prefix bits;
    then the hashes of the two sides. *)
Definition ref_internal_msg (p : list bool) (l r : bytes) : bytes :=
  match p with
  | [] => x01 :: l ++ r
  | _ => let n := N.of_nat (length p) in
         x02 :: n2b n :: n2b (n / 256) :: pack (nbytes (length p)) p ++ l ++ r
  end.
(** The bytes hashed for a record: tag 0x00, the key, the hash of the value. *)
Definition ref_leaf_msg (k v : bytes) : bytes := x00 :: k ++ H v.

(** Root of a list of records that agree on their first [depth] key bits.
    [fuel] only bounds the recursion (257 is enough for 32-byte keys). *)
Fixpoint ref_root_at (fuel depth : nat) (l : list (bytes * bytes)) : bytes :=
  match l with
  | [] => repeat x00 32
  | [(k, v)] => H (ref_leaf_msg k v)
  | _ =>
    match fuel with
    | O => []
    | S fuel' =>
      let p := common (map (fun e => skipn depth (kbits (fst e))) l) in
      let d := depth + length p in
      let side (b : bool) := filter (fun e => Bool.eqb (nth d (kbits (fst e)) false) b) l in
      H (ref_internal_msg p (ref_root_at fuel' (S d) (side false))
                            (ref_root_at fuel' (S d) (side true)))
    end
  end.

Definition ref_root (l : list (bytes * bytes)) : bytes := ref_root_at 257 0 l.

(** All messages hashed in that computation (values included). *)
Fixpoint ref_msgs_at (fuel depth : nat) (l : list (bytes * bytes)) : list bytes :=
  match l with
  | [] => []
  | [(k, v)] => [v; ref_leaf_msg k v]
  | _ =>
    match fuel with
    | O => []
    | S fuel' =>
      let p := common (map (fun e => skipn depth (kbits (fst e))) l) in
      let d := depth + length p in
      let side (b : bool) := filter (fun e => Bool.eqb (nth d (kbits (fst e)) false) b) l in
      ref_internal_msg p (ref_root_at fuel' (S d) (side false))
                         (ref_root_at fuel' (S d) (side true))
      :: ref_msgs_at fuel' (S d) (side false) ++ ref_msgs_at fuel' (S d) (side true)
    end
  end.
Definition ref_msgs (l : list (bytes * bytes)) : list bytes := ref_msgs_at 257 0 l.

(** No two different messages of the list have the same hash. *)
Definition no_collision (ms : list bytes) : Prop :=
  forall a b, In a ms -> In b ms -> H a = H b -> a = b.
(** No message of the list hashes to all zeros (the root of the empty tree). *)
Definition no_zero (ms : list bytes) : Prop := forall a, In a ms -> H a <> repeat x00 32.
End Root.
