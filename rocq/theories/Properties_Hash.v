(** * C36: the hash is BLAKE2b of RFC 7693, however the message is split.

    [Rfc7693.blake2b] (Rfc7693.v) is written from the RFC: it shares no definition with
    the model of blake2b.c, which streams the message through a 128-byte buffer. *)
From Verif Require Export HashFacts Vectors Properties_Proof.
From Verif Require Rfc7693.

(** For every digest size and key the code accepts and every way to split the message
    into calls of urkel_blake2b_update, init + updates + final do not fail and produce the
    digest of RFC 7693. *)
Theorem C36_rfc7693 : forall o key ds, 1 <= o <= 64 -> length key <= 64 ->
  blake2b_stream o key ds = Ok (Rfc7693.blake2b o key (concat ds)).
Proof. intros o key ds Lo Lk. rewrite stream_is_rfc by assumption. f_equal. apply rfc_eq; assumption. Qed.

(** The digests used in the tree: urkel_hash_raw / urkel_hash_key. *)
Corollary C36_hash_raw : forall m, hash_raw m = Ok (Rfc7693.blake2b 32 [] m).
Proof. intros m. unfold hash_raw. rewrite C36_rfc7693 by (cbn; lia). cbn [concat]. now rewrite app_nil_r. Qed.

(** Other sizes are refused by the CHECKs of urkel_blake2b_init (blake2b.c 63-64): abort. *)
Theorem C36_refused : forall o key ds, ~ (1 <= o <= 64 /\ length key <= 64) -> blake2b_stream o key ds = Abort.
Proof.
  intros o key ds N. unfold blake2b_stream, init, check.
  destruct (Nat.leb_spec 1 o); [|reflexivity]. destruct (Nat.leb_spec o 64); [|reflexivity]. cbn [andb].
  destruct (Nat.leb_spec (length key) 64); [|reflexivity]. exfalso. apply N. lia.
Qed.

(** The test vectors of RFC 7693, appendix A, and of the empty message. *)
Example C36_rfc_vectors : Rfc7693.blake2b 64 [] abc = abc_digest /\ Rfc7693.blake2b 32 [] [] = empty_digest.
Proof. rewrite <- !rfc_eq by (cbn; lia). apply C36_vectors. Qed.

Print Assumptions C36_rfc7693.
Print Assumptions C36_refused.
