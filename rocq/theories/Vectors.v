(** * Concrete data for the examples: the session shown in README.md. *)
From Verif Require Export Blake2b Bridge.
From Coq Require Import Strings.String Strings.Ascii.
From Coq Require Import List.
Local Open Scope string_scope.

Definition hexval (c : ascii) : N :=
  let n := N_of_ascii c in
  if (n <? 58)%N then (n - 48)%N else (n - 87)%N.
Fixpoint hx (s : string) : bytes :=
  match s with
  | String a (String b s') => n2b (16 * hexval a + hexval b)%N :: hx s'
  | _ => []
  end.
Fixpoint str (s : string) : bytes :=
  match s with String a s' => n2b (N_of_ascii a) :: str s' | _ => [] end.

(** README.md: keys are hashed; urkel> insert foo deadbeef; insert bar 01020304. *)
Definition kfoo : bytes := hx "b8fe9f7f6255a6fa08f668ab632a8d081ad87983c77cd274e48ce450f0b349fd".
Definition kbar : bytes := hx "844181b39a1b15b417243e6231381b447a3f8b44aa15fbeb845c5d716696e71d".
Definition kbaz : bytes := hx "1ffaefc85e9a0f9b8b388bb614b76e994bf3a77e09ebc75647a973b2c1f1c076".
Definition recs1 : list (bytes * bytes) := [(kfoo, hx "deadbeef")].
Definition recs2 : list (bytes * bytes) := [(kfoo, hx "deadbeef"); (kbar, hx "01020304")].
Definition root1 : bytes := hx "1da2776eaa254ef65aeeee1f37f61c06bac2e82e221d37da21190191218f6631".
Definition root2 : bytes := hx "497b751637ff244ab969a965f8d9dc7623f18d649d012276dfb317b0e38b9bec".
Definition proof2 : bytes :=
  hx "03c00100800280a6386fa1781a92e3905f718d4e0ea0d757abe962eefdd52a23d2ad6e1409fd8a0400deadbeef".

Definition nocoll_b (H : bytes -> bytes) (ms : list bytes) : bool :=
  let hs := map (fun m => (m, H m)) ms in
  forallb (fun a => forallb (fun b => negb (bytes_eqb (snd a) (snd b)) || bytes_eqb (fst a) (fst b)) hs) hs.
Definition nozero_b (H : bytes -> bytes) (ms : list bytes) : bool :=
  forallb (fun m => negb (bytes_eqb (H m) (repeat x00 32))) ms.
Lemma nocoll_b_ok H ms : nocoll_b H ms = true -> no_collision H ms.
Proof.
  unfold nocoll_b. rewrite forallb_forall. intros Q a b Ia Ib E.
  specialize (Q (a, H a) (in_map _ _ _ Ia)). rewrite forallb_forall in Q.
  specialize (Q (b, H b) (in_map _ _ _ Ib)). cbn [fst snd] in Q. rewrite E, bytes_eqb_refl in Q.
  cbn in Q. destruct (bytes_eqb_spec a b); [auto|discriminate].
Qed.
Lemma nozero_b_ok H ms : nozero_b H ms = true -> no_zero H ms.
Proof.
  unfold nozero_b. rewrite forallb_forall. intros Q a Ia E. specialize (Q a Ia).
  destruct (bytes_eqb_spec (H a) (repeat x00 32)); [discriminate|contradiction].
Qed.
Fixpoint nodup_b (l : list bytes) : bool :=
  match l with [] => true | x :: l' => negb (existsb (bytes_eqb x) l') && nodup_b l' end.
Lemma nodup_b_ok l : nodup_b l = true -> NoDup l.
Proof.
  induction l as [|x l IH]; cbn; [constructor|]. rewrite andb_true_iff, negb_true_iff.
  intros [E F]. constructor; [|auto]. intros I. assert (X : existsb (bytes_eqb x) l = true).
  { apply existsb_exists. exists x. split; [exact I|apply bytes_eqb_refl]. } congruence.
Qed.
Definition records_b (l : list (bytes * bytes)) : bool :=
  nodup_b (map fst l) && forallb (fun e => Nat.eqb (length (fst e)) 32) l.
Lemma records_b_ok l : records_b l = true -> records l.
Proof.
  unfold records_b. rewrite andb_true_iff. intros [A B]. split; [apply nodup_b_ok; exact A|].
  apply Forall_forall. rewrite forallb_forall in B. intros x I. apply Nat.eqb_eq, (B x I).
Qed.

(** The transcription reproduces the numbers printed in README.md. *)
Example keys_readme : kfoo = blake2b256 (str "foo") /\ kbar = blake2b256 (str "bar").
Proof. vm_compute. auto. Qed.
Example roots_readme : ref_root blake2b256 recs1 = root1 /\ ref_root blake2b256 recs2 = root2.
Proof. vm_compute. auto. Qed.
Example verify_readme :
  urkel_verify blake2b256 proof2 kfoo (Some root2) = Ok (mkverdict None true (hx "deadbeef")).
Proof. vm_compute. reflexivity. Qed.
Example records_recs : records recs1 /\ records recs2.
Proof. split; apply records_b_ok; vm_compute; reflexivity. Qed.
Definition foo_value : bytes := hx "deadbeef".
Definition abc : bytes := str "abc".
Definition abc_digest : bytes := hx "ba80a53f981c4d0d6a2797b69f12f6e94c212f14685ac4b74b12bb6fdbffa2d17d87c5392aab792dc252d5de4533cc9518d38aa8dbf1925ab92386edd4009923".
Definition empty_digest : bytes := hx "0e5751c026e543b2e8ab2eb06099daa1d1e5df47778f7787faab45cdf12fe3a8".

(** A cheap 32-byte hash for the examples that only need hypotheses about collisions to be
    met (BLAKE2b meets them as well, but coqchk re-evaluates every example slowly). *)
Definition toy (m : bytes) : bytes :=
  write_le 8 (fold_left (fun acc b => N.land (acc * 257 + b2n b + 1) 2305843009213693951) m 7%N)
  ++ repeat x05 24.
Lemma toy_len m : length (toy m) = 32.
Proof. unfold toy. rewrite app_length, write_le_length, repeat_length. reflexivity. Qed.
Definition toy_tree1 : ptree := PLeaf kfoo foo_value.
Definition toy_tree2 : ptree := tins 0 kbar (hx "01020304") toy_tree1.
Definition encoded (p : proof) : bytes := match proof_write p with Ok x => x | _ => [] end.
(** Existence of foo in the two-record tree; absence of baz in the one-record tree. *)
Definition toy_proof_foo : bytes := encoded (the_proof toy toy_tree2 kfoo).
Definition toy_proof_baz : bytes := encoded (the_proof toy toy_tree1 kbaz).
