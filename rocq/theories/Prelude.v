(** * Outcomes, bytes, and small list utilities used by the whole model. *)
From Coq Require Export List Arith NArith ZArith Lia Bool.
From Coq Require Export Strings.Byte.
From Coq Require Import ZifyBool ZifyNat ZifyN.
Export ListNotations.
Ltac Zify.zify_post_hook ::= Z.div_mod_to_equations.

Notation bytes := (list byte).

(** Error numbers: include/urkel.h 60-72 (URKEL_EHASHMISMATCH .. URKEL_EITEREND). *)
Inductive errno : Set :=
| EHASHMISMATCH (* 1 *) | ESAMEKEY (* 2 *) | ESAMEPATH (* 3 *)
| ENEGDEPTH (* 4 *) | EPATHMISMATCH (* 5 *) | ETOODEEP (* 6 *)
| EINVAL (* 7 *) | ENOTFOUND (* 8 *) | ECORRUPTION (* 9 *)
| ENOUPDATE (* 10 *) | EBADWRITE (* 11 *) | EBADOPEN (* 12 *) | EITEREND (* 13 *).

(** Outcome of a call.
    [Fail e]: the C function returns 0/NULL with [urkel_errno = e].
    [Abort]: a CHECK (internal.h 53-62) or [urkel_abort()] kills the process.
    [UB]: the C code reads/writes out of bounds or uses freed memory.
    [NoFuel]: the model's own recursion bound was too small (proved unreachable). *)
Inductive res (A : Type) : Type :=
| Ok (a : A) | Fail (e : errno) | Abort | UB | NoFuel.
Arguments Ok {A} a. Arguments Fail {A} e. Arguments Abort {A}.
Arguments UB {A}. Arguments NoFuel {A}.

Definition bind {A B} (m : res A) (f : A -> res B) : res B :=
  match m with
  | Ok a => f a | Fail e => Fail e | Abort => Abort | UB => UB | NoFuel => NoFuel
  end.
Notation "'let!' x ':=' m 'in' k" := (bind m (fun x => k))
  (at level 200, x pattern, m at level 100, k at level 200, right associativity).

(** CHECK(expr): internal.h 53-62. *)
Definition check {A} (b : bool) (k : res A) : res A := if b then k else Abort.

(** A call that completes: success or a documented error. *)
Definition returns {A} (r : res A) : Prop :=
  match r with Ok _ | Fail _ => True | _ => False end.

(** uint8_t conversions. *)
Definition b2n (b : byte) : N := Byte.to_N b.
Definition n2b (n : N) : byte :=
  match Byte.of_N (n mod 256) with Some b => b | None => x00 end.

Lemma b2n_lt b : (b2n b < 256)%N.
Proof. unfold b2n. pose proof (Byte.to_N_bounded b). lia. Qed.

Lemma b2n_n2b n : b2n (n2b n) = (n mod 256)%N.
Proof.
  unfold b2n, n2b. destruct (Byte.of_N (n mod 256)) as [b|] eqn:E.
  - apply Byte.to_of_N in E. exact E.
  - apply Byte.of_N_None_iff in E. pose proof (N.mod_lt n 256). lia.
Qed.

Lemma b2n_n2b_small n : (n < 256)%N -> b2n (n2b n) = n.
Proof. intros. rewrite b2n_n2b. apply N.mod_small; assumption. Qed.

Lemma n2b_b2n b : n2b (b2n b) = b.
Proof.
  unfold n2b, b2n. rewrite N.mod_small by (apply b2n_lt).
  rewrite Byte.of_to_N. reflexivity.
Qed.

Lemma b2n_inj a b : b2n a = b2n b -> a = b.
Proof. intros H. rewrite <- (n2b_b2n a), <- (n2b_b2n b), H. reflexivity. Qed.

Definition byte_eq_dec (a b : byte) : {a = b} + {a <> b} := Byte.byte_eq_dec a b.
Definition bytes_eq_dec (a b : bytes) : {a = b} + {a <> b} := list_eq_dec byte_eq_dec a b.

(** memcmp(a, b, n) == 0 on two buffers of the same length. *)
Definition bytes_eqb (a b : bytes) : bool := if bytes_eq_dec a b then true else false.

Lemma bytes_eqb_spec a b : reflect (a = b) (bytes_eqb a b).
Proof. unfold bytes_eqb. destruct (bytes_eq_dec a b); constructor; assumption. Qed.

Lemma bytes_eqb_refl a : bytes_eqb a a = true.
Proof. destruct (bytes_eqb_spec a a); congruence. Qed.

(** In-place update of an array cell ([UB] outside the array). *)
Fixpoint upd {A} (l : list A) (i : nat) (x : A) : list A :=
  match l, i with
  | [], _ => []
  | _ :: l', O => x :: l'
  | y :: l', S i' => y :: upd l' i' x
  end.

Lemma upd_length {A} (l : list A) i x : length (upd l i x) = length l.
Proof. revert i; induction l as [|y l IH]; intros [|i]; cbn; auto. Qed.

Lemma upd_app_r {A} (a b : list A) i x :
  length a <= i -> upd (a ++ b) i x = a ++ upd b (i - length a) x.
Proof.
  revert i; induction a as [|y a IH]; intros i Hi; cbn in *.
  - now rewrite Nat.sub_0_r.
  - destruct i as [|i]; [lia|]. cbn. f_equal. apply IH; lia.
Qed.

Lemma upd_app_l {A} (a b : list A) i x :
  i < length a -> upd (a ++ b) i x = upd a i x ++ b.
Proof.
  revert i; induction a as [|y a IH]; intros i Hi; cbn in *; [lia|].
  destruct i as [|i]; cbn; [reflexivity|]. f_equal. apply IH; lia.
Qed.

Lemma nth_error_upd_eq {A} (l : list A) i x :
  i < length l -> nth_error (upd l i x) i = Some x.
Proof.
  revert i; induction l as [|y l IH]; intros [|i] Hi; cbn in *; try lia; auto.
  apply IH; lia.
Qed.

Lemma nth_error_upd_neq {A} (l : list A) i j x :
  i <> j -> nth_error (upd l i x) j = nth_error l j.
Proof.
  revert i j; induction l as [|y l IH]; intros i j Hij; destruct i, j; cbn; auto; try lia.
Qed.

Lemma repeat_app {A} (x : A) n m : repeat x (n + m) = repeat x n ++ repeat x m.
Proof. induction n; cbn; congruence. Qed.

Lemma firstn_app_exact {A} (a b : list A) n : n = length a -> firstn n (a ++ b) = a.
Proof. intros ->. rewrite firstn_app, Nat.sub_diag, firstn_all, firstn_O, app_nil_r; auto. Qed.

Lemma skipn_app_exact {A} (a b : list A) n : n = length a -> skipn n (a ++ b) = b.
Proof. intros ->. rewrite skipn_app, Nat.sub_diag, skipn_all. reflexivity. Qed.

Lemma app_eq_len {A} (a b c d : list A) :
  a ++ b = c ++ d -> length a = length c -> a = c /\ b = d.
Proof.
  revert c; induction a as [|x a IH]; intros [|y c] H L; cbn in *; try lia; auto.
  injection H as -> H. destruct (IH c H) as [-> ->]; auto.
Qed.
