(** * bits.c / bits.h: packed bit prefixes. *)
From Verif Require Export Spec.
From Coq Require Import ZifyBool ZifyNat ZifyN.

(** ** The model *)

(** bits.h 17-20: struct urkel_bits_s { size_t size; unsigned char data[32]; } *)
Record bits := mkbits { bsize : nat; bdata : bytes }.

Definition KEY_BITS := 256.   (* internal.h 166 *)
Definition KEY_SIZE := 32.    (* internal.h 165 *)

(** urkel_get_bit: bits.h 72-75.  [i >> 3] is [i / 8], [i & 7] is [i mod 8].
    Out-of-bounds access is [UB]. *)
Definition get_bit (key : bytes) (i : nat) : res bool :=
  match nth_error key (i / 8) with
  | Some b => Ok (N.testbit (N.shiftr (b2n b) (N.of_nat (7 - i mod 8))) 0)
  | None => UB
  end.

(** urkel_set_bit: bits.h 77-80 (note: it ORs, it never clears). *)
Definition set_bit (key : bytes) (i : nat) (bit : bool) : res bytes :=
  match nth_error key (i / 8) with
  | Some b => Ok (upd key (i / 8)
                      (n2b (N.lor (b2n b) (N.shiftl (N.b2n bit) (N.of_nat (7 - i mod 8))))))
  | None => UB
  end.

(** urkel_bits_get: bits.h 82-86. *)
Definition bits_get (b : bits) (i : nat) : res bool :=
  check (i <? KEY_BITS) (get_bit (bdata b) i).

(** urkel_bits_set: bits.h 88-92. *)
Definition bits_set (b : bits) (i : nat) (bit : bool) : res bits :=
  check (i <? KEY_BITS)
    (let! d := set_bit (bdata b) i bit in Ok (mkbits (bsize b) d)).

(** urkel_bits_init: bits.c 17-24. *)
Definition bits_init (size : nat) : res bits :=
  check (size <=? KEY_BITS) (Ok (mkbits size (repeat x00 32))).

(** The loop of urkel_bits__count: bits.c 41-48. *)
Fixpoint count_loop (len : nat) (b : bits) (index : nat) (key : bytes) (depth : nat)
  : res nat :=
  match len with
  | O => Ok 0
  | S len' =>
    let! x := bits_get b index in
    let! y := get_bit key depth in
    if Bool.eqb x y
    then let! c := count_loop len' b (S index) key (S depth) in Ok (S c)
    else Ok 0
  end.

(** urkel_bits__count: bits.c 26-51.  [bits->size - index] and
    [URKEL_KEY_BITS - depth] are unsigned; when the CHECKs pass they do not wrap. *)
Definition bits_count_from (b : bits) (index : nat) (key : bytes) (depth : nat) : res nat :=
  check (bsize b <=? KEY_BITS)
   (check (index <=? bsize b)
     (check (depth <=? KEY_BITS)
       (count_loop (Nat.min (bsize b - index) (KEY_BITS - depth)) b index key depth))).

(** urkel_bits_count: bits.c 53-58. *)
Definition bits_count b key depth := bits_count_from b 0 key depth.

(** urkel_bits_has: bits.c 60-65. *)
Definition bits_has (b : bits) (key : bytes) (depth : nat) : res bool :=
  let! c := bits_count b key depth in Ok (c =? bsize b).

(** The copy loop of urkel_bits_slice / urkel_bits_join: bits.c 79-80, 117-118. *)
Fixpoint copy_loop (n : nat) (out : bits) (i : nat) (src : bits) (j : nat) : res bits :=
  match n with
  | O => Ok out
  | S n' =>
    let! x := bits_get src j in
    let! out' := bits_set out i x in
    copy_loop n' out' (S i) src (S j)
  end.

(** urkel_bits_slice: bits.c 67-81. *)
Definition bits_slice (b : bits) (start stop : nat) : res bits :=
  check (start <=? stop)
    (let! out := bits_init (stop - start) in
     copy_loop (stop - start) out 0 b start).

(** urkel_bits_split: bits.c 83-90. *)
Definition bits_split (b : bits) (index : nat) : res (bits * bits) :=
  let! l := bits_slice b 0 index in
  let! r := bits_slice b (index + 1) (bsize b) in
  Ok (l, r).

(** urkel_bits_collide: bits.c 92-100. *)
Definition bits_collide (b : bits) (key : bytes) (depth : nat) : res bits :=
  let! size := bits_count_from b depth key depth in
  bits_slice b depth (depth + size).

(** memcpy of [n] bytes over the front of an array; [UB] past either end. *)
Definition copy_bytes (dst src : bytes) (n : nat) : res bytes :=
  if (n <=? length src) && (n <=? length dst)
  then Ok (firstn n src ++ skipn n dst) else UB.

(** urkel_bits_join: bits.c 102-119. *)
Definition bits_join (l r : bits) (bit : bool) : res bits :=
  let! out := bits_init (bsize l + bsize r + 1) in
  let! d := copy_bytes (bdata out) (bdata l) (nbytes (bsize l)) in
  let! out := bits_set (mkbits (bsize out) d) (bsize l) bit in
  copy_loop (bsize r) out (bsize l + 1) r 0.

(** ** Refinement to bit strings *)

(** The bit string a prefix stands for. *)
Definition bools (b : bits) : list bool := firstn (bsize b) (kbits (bdata b)).

(** A prefix as the library builds it: 32 bytes, unused bits zero. *)
Definition wf_bits (b : bits) : Prop :=
  length (bdata b) = 32 /\ bsize b <= 256 /\
  skipn (bsize b) (kbits (bdata b)) = repeat false (256 - bsize b).

(** A prefix whose unused bits may be anything (as read from a file or a proof). *)
Definition ok_bits (b : bits) : Prop := length (bdata b) = 32 /\ bsize b <= 256.

Lemma wf_ok b : wf_bits b -> ok_bits b.
Proof. unfold wf_bits, ok_bits; tauto. Qed.

Lemma bits_of_byte_length b : length (bits_of_byte b) = 8.
Proof. reflexivity. Qed.

Lemma kbits_length k : length (kbits k) = 8 * length k.
Proof.
  induction k as [|b k IH]; [reflexivity|].
  change (kbits (b :: k)) with (bits_of_byte b ++ kbits k).
  rewrite app_length, IH, bits_of_byte_length. cbn [length]. lia.
Qed.

Lemma kbits_cons b k : kbits (b :: k) = bits_of_byte b ++ kbits k.
Proof. reflexivity. Qed.

Lemma kbits_app a b : kbits (a ++ b) = kbits a ++ kbits b.
Proof. unfold kbits. apply flat_map_app. Qed.

(** All 256 bytes, for finite sweeps. *)
Definition all_bytes : list byte := map (fun n => n2b (N.of_nat n)) (seq 0 256).

Lemma all_bytes_in b : In b all_bytes.
Proof.
  unfold all_bytes. apply in_map_iff. exists (N.to_nat (b2n b)). split.
  - rewrite N2Nat.id. apply n2b_b2n.
  - apply in_seq. pose proof (b2n_lt b). lia.
Qed.

Lemma byte_sweep (P : byte -> bool) :
  forallb P all_bytes = true -> forall b, P b = true.
Proof. intros H b. rewrite forallb_forall in H. apply H, all_bytes_in. Qed.

Lemma byte_of_bits_of_byte b : byte_of_bits (bits_of_byte b) = b.
Proof.
  pose proof (byte_sweep (fun b => Byte.eqb (byte_of_bits (bits_of_byte b)) b)
                         ltac:(vm_compute; reflexivity) b) as H.
  cbn beta in H. destruct (Byte.eqb _ b) eqn:E; [|discriminate].
  apply Byte.byte_dec_bl. exact E.
Qed.

Lemma bits_of_byte_inj a b : bits_of_byte a = bits_of_byte b -> a = b.
Proof.
  intros H. rewrite <- (byte_of_bits_of_byte a), <- (byte_of_bits_of_byte b), H.
  reflexivity.
Qed.

Lemma bits_of_byte_of_bits l : length l = 8 -> bits_of_byte (byte_of_bits l) = l.
Proof.
  intros H.
  destruct l as [|b0 [|b1 [|b2 [|b3 [|b4 [|b5 [|b6 [|b7 [|]]]]]]]]]; try discriminate H.
  destruct b0, b1, b2, b3, b4, b5, b6, b7; vm_compute; reflexivity.
Qed.

Lemma kbits_inj a b : kbits a = kbits b -> a = b.
Proof.
  revert b; induction a as [|x a IH]; intros [|y b] H.
  - reflexivity.
  - apply (f_equal (@length bool)) in H. rewrite !kbits_length in H; cbn in H; lia.
  - apply (f_equal (@length bool)) in H. rewrite !kbits_length in H; cbn in H; lia.
  - rewrite !kbits_cons in H. apply app_eq_len in H; [|reflexivity].
    destruct H as [H1 H2]. apply bits_of_byte_inj in H1. subst. f_equal. auto.
Qed.

Lemma kbits_zero n : kbits (repeat x00 n) = repeat false (8 * n).
Proof.
  induction n as [|n IH]; [reflexivity|].
  cbn [repeat]. rewrite kbits_cons, IH.
  replace (8 * S n) with (8 + 8 * n) by lia. rewrite repeat_app. reflexivity.
Qed.

(** *** get_bit *)

Lemma nth_kbits k i :
  nth_error (kbits k) i =
  match nth_error k (i / 8) with
  | Some b => nth_error (bits_of_byte b) (i mod 8)
  | None => None
  end.
Proof.
  revert i; induction k as [|b k IH]; intros i.
  - destruct (i / 8), i; reflexivity.
  - rewrite kbits_cons. destruct (Nat.lt_ge_cases i 8) as [Hi|Hi].
    + rewrite nth_error_app1 by (rewrite bits_of_byte_length; lia).
      rewrite Nat.div_small, Nat.mod_small by lia. reflexivity.
    + rewrite nth_error_app2 by (rewrite bits_of_byte_length; lia).
      rewrite bits_of_byte_length, IH.
      replace (i / 8) with (S ((i - 8) / 8)) by lia.
      replace (i mod 8) with ((i - 8) mod 8) by lia. reflexivity.
Qed.

Lemma nth_bits_of_byte b j :
  j < 8 -> nth_error (bits_of_byte b) j = Some (N.testbit (b2n b) (N.of_nat (7 - j))).
Proof.
  intros H. do 8 (destruct j as [|j]; [reflexivity|]). lia.
Qed.

Lemma get_bit_spec k i :
  get_bit k i = match nth_error (kbits k) i with Some x => Ok x | None => UB end.
Proof.
  unfold get_bit. rewrite nth_kbits. destruct (nth_error k (i / 8)) as [b|]; [|reflexivity].
  rewrite nth_bits_of_byte by (apply Nat.mod_upper_bound; lia).
  rewrite N.shiftr_spec by lia. rewrite N.add_0_l. reflexivity.
Qed.

Lemma get_bit_ok k i : i < 8 * length k -> exists x, get_bit k i = Ok x /\ nth_error (kbits k) i = Some x.
Proof.
  intros H. rewrite get_bit_spec.
  destruct (nth_error (kbits k) i) as [x|] eqn:E; [eauto|].
  apply nth_error_None in E. rewrite kbits_length in E. lia.
Qed.

(** *** set_bit *)

Lemma set_byte_bits b j x :
  j < 8 ->
  bits_of_byte (n2b (N.lor (b2n b) (N.shiftl (N.b2n x) (N.of_nat (7 - j))))) =
  upd (bits_of_byte b) j (nth j (bits_of_byte b) false || x).
Proof.
  intros H.
  pose (P := fun b => forallb (fun j => forallb (fun x =>
     if list_eq_dec Bool.bool_dec
        (bits_of_byte (n2b (N.lor (b2n b) (N.shiftl (N.b2n x) (N.of_nat (7 - j))))))
        (upd (bits_of_byte b) j (nth j (bits_of_byte b) false || x))
     then true else false) [true; false]) (seq 0 8)).
  pose proof (byte_sweep P ltac:(vm_compute; reflexivity) b) as HP.
  unfold P in HP. rewrite forallb_forall in HP.
  specialize (HP j ltac:(apply in_seq; lia)). rewrite forallb_forall in HP.
  specialize (HP x ltac:(destruct x; cbn; auto)).
  destruct (list_eq_dec _ _ _) as [E|E]; [exact E|discriminate].
Qed.

Lemma kbits_upd k i b :
  i < length k ->
  kbits (upd k i b) = firstn (8 * i) (kbits k) ++ bits_of_byte b ++ skipn (8 * i + 8) (kbits k).
Proof.
  revert i; induction k as [|c k IH]; intros i Hi; cbn [length] in Hi; [lia|].
  destruct i as [|i].
  - cbn [upd]. rewrite !kbits_cons. reflexivity.
  - cbn [upd]. rewrite !kbits_cons.
    replace (8 * S i) with (8 + 8 * i) by lia.
    rewrite IH by lia.
    rewrite firstn_app, bits_of_byte_length.
    rewrite (firstn_all2 (n:=8 + 8 * i) (bits_of_byte c)) by (rewrite bits_of_byte_length; lia).
    replace (8 + 8 * i - 8) with (8 * i) by lia.
    rewrite <- app_assoc. f_equal.
Qed.

Lemma set_bit_spec k i x :
  i < 8 * length k ->
  exists k', set_bit k i x = Ok k' /\ length k' = length k /\
             kbits k' = upd (kbits k) i (nth i (kbits k) false || x).
Proof.
  intros Hi. unfold set_bit.
  destruct (nth_error k (i / 8)) as [b|] eqn:E.
  2:{ apply nth_error_None in E. lia. }
  eexists; split; [reflexivity|]. split; [apply upd_length|].
  apply nth_error_split in E. destruct E as (k1 & k2 & -> & L1).
  rewrite upd_app_r by lia. rewrite <- L1 at 1. rewrite L1, Nat.sub_diag.
  cbn [upd]. rewrite !kbits_app, !kbits_cons.
  assert (Hd : i = 8 * (i / 8) + i mod 8) by (apply Nat.div_mod; lia).
  assert (Hm : i mod 8 < 8) by (apply Nat.mod_upper_bound; lia).
  rewrite upd_app_r by (rewrite kbits_length; lia).
  rewrite app_nth2 by (rewrite kbits_length; lia).
  rewrite kbits_length, L1.
  replace (i - 8 * (i / 8)) with (i mod 8) by lia.
  f_equal. rewrite upd_app_l by (rewrite bits_of_byte_length; lia).
  f_equal. rewrite app_nth1 by (rewrite bits_of_byte_length; lia).
  apply set_byte_bits; assumption.
Qed.

(** *** Packing a bit string *)

Lemma pack_length n l : length (pack n l) = n.
Proof. revert l; induction n; intros; cbn; auto. Qed.

Lemma kbits_pack n l :
  length l <= 8 * n -> kbits (pack n l) = l ++ repeat false (8 * n - length l).
Proof.
  revert l; induction n as [|n IH]; intros l H.
  - destruct l; cbn in *; [reflexivity|lia].
  - cbn [pack]. rewrite kbits_cons, bits_of_byte_of_bits.
    2:{ rewrite app_length, firstn_length, repeat_length. lia. }
    rewrite IH by (rewrite skipn_length; lia). rewrite skipn_length.
    destruct (Nat.lt_ge_cases (length l) 8) as [Hl|Hl].
    + rewrite firstn_all2 by lia. rewrite skipn_all2 by lia. cbn [app].
      rewrite <- app_assoc, <- repeat_app. f_equal. f_equal. lia.
    + replace (8 - length l) with 0 by lia. cbn [repeat]. rewrite app_nil_r, app_assoc, firstn_skipn.
      f_equal. f_equal. lia.
Qed.

Definition of_bools (l : list bool) : bits := mkbits (length l) (pack 32 l).

Lemma of_bools_wf l : length l <= 256 -> wf_bits (of_bools l).
Proof.
  intros H. unfold wf_bits, of_bools; cbn [bsize bdata].
  rewrite pack_length, kbits_pack by lia. repeat split; auto.
  rewrite skipn_app, skipn_all, Nat.sub_diag. reflexivity.
Qed.

Lemma bools_of_bools l : length l <= 256 -> bools (of_bools l) = l.
Proof.
  intros H. unfold bools, of_bools; cbn [bsize bdata]. rewrite kbits_pack by lia.
  rewrite firstn_app, firstn_all, Nat.sub_diag. cbn. apply app_nil_r.
Qed.

Lemma bools_length b : ok_bits b -> length (bools b) = bsize b.
Proof.
  intros [H1 H2]. unfold bools. rewrite firstn_length, kbits_length. lia.
Qed.

Lemma wf_kbits b : wf_bits b -> kbits (bdata b) = bools b ++ repeat false (256 - bsize b).
Proof.
  intros (H1 & H2 & H3). unfold bools. rewrite <- H3. symmetry. apply firstn_skipn.
Qed.

Lemma wf_of_bools b : wf_bits b -> b = of_bools (bools b).
Proof.
  intros H. destruct b as [s d]. unfold of_bools.
  assert (Hl : length (bools (mkbits s d)) = s) by (apply (bools_length _ (wf_ok _ H))).
  rewrite Hl. f_equal. apply kbits_inj.
  pose proof (wf_kbits _ H) as K; cbn [bdata bsize] in K; rewrite K, kbits_pack.
  - rewrite Hl. reflexivity.
  - destruct H as (H1 & H2 & H3). cbn in *. lia.
Qed.

Lemma wf_bits_ext a b : wf_bits a -> wf_bits b -> bools a = bools b -> a = b.
Proof. intros Ha Hb E. rewrite (wf_of_bools a), (wf_of_bools b), E by assumption. reflexivity. Qed.

(** *** The operations as bit-string operations *)

(** Length of the longest common prefix of two bit strings. *)
Fixpoint lcp (a b : list bool) : nat :=
  match a, b with
  | x :: a', y :: b' => if Bool.eqb x y then S (lcp a' b') else 0
  | _, _ => 0
  end.

Lemma bits_get_spec b i :
  ok_bits b -> i < 256 ->
  exists x, bits_get b i = Ok x /\ nth_error (kbits (bdata b)) i = Some x.
Proof.
  intros [H1 H2] Hi. unfold bits_get, check, KEY_BITS.
  destruct (Nat.ltb_spec i 256); [|lia].
  destruct (get_bit_ok (bdata b) i) as (x & E & N); [lia|]. eauto.
Qed.

Lemma skipn_nth {A} (l : list A) i x :
  nth_error l i = Some x -> skipn i l = x :: skipn (S i) l.
Proof.
  revert i; induction l as [|y l IH]; intros [|i] H; cbn in *; try discriminate.
  - now injection H as ->.
  - rewrite (IH _ H). reflexivity.
Qed.

Lemma count_loop_spec len b index key depth :
  ok_bits b -> length key = 32 -> index + len <= 256 -> depth + len <= 256 ->
  count_loop len b index key depth =
  Ok (lcp (firstn len (skipn index (kbits (bdata b)))) (skipn depth (kbits key))).
Proof.
  intros Hb Hk. revert index depth; induction len as [|len IH]; intros index depth Hi Hd.
  - reflexivity.
  - cbn [count_loop].
    destruct (bits_get_spec b index Hb) as (x & Ex & Nx); [lia|].
    destruct (get_bit_ok key depth) as (y & Ey & Ny); [lia|].
    rewrite Ex, Ey. cbn [bind].
    rewrite (skipn_nth _ _ _ Nx), (skipn_nth _ _ _ Ny). cbn [firstn lcp].
    destruct (Bool.eqb x y); [|reflexivity].
    rewrite IH by lia. reflexivity.
Qed.

Lemma lcp_le_l a b : lcp a b <= length a.
Proof. revert b; induction a as [|x a IH]; intros [|y b]; cbn; try lia.
  destruct (Bool.eqb x y); [specialize (IH b)|]; lia. Qed.

Lemma lcp_le_r a b : lcp a b <= length b.
Proof. revert b; induction a as [|x a IH]; intros [|y b]; cbn; try lia.
  destruct (Bool.eqb x y); [specialize (IH b)|]; lia. Qed.

Lemma lcp_firstn a b n : length b <= n -> lcp (firstn n a) b = lcp a b.
Proof.
  revert a b; induction n as [|n IH]; intros a b H.
  - destruct b; [|cbn in H; lia]. destruct a; reflexivity.
  - destruct a as [|x a]; [reflexivity|]. destruct b as [|y b]; [reflexivity|].
    cbn in *. rewrite IH by lia. reflexivity.
Qed.

Lemma bits_count_from_spec b index key depth :
  ok_bits b -> length key = 32 -> index <= bsize b -> depth <= 256 ->
  bits_count_from b index key depth = Ok (lcp (skipn index (bools b)) (skipn depth (kbits key))).
Proof.
  intros Hb Hk Hi Hd. pose proof Hb as [H1 H2].
  unfold bits_count_from, check, KEY_BITS.
  destruct (Nat.leb_spec (bsize b) 256); [|lia].
  destruct (Nat.leb_spec index (bsize b)); [|lia].
  destruct (Nat.leb_spec depth 256); [|lia].
  rewrite count_loop_spec by (auto; lia). f_equal.
  unfold bools.
  replace (skipn index (firstn (bsize b) (kbits (bdata b))))
    with (firstn (bsize b - index) (skipn index (kbits (bdata b)))).
  2:{ rewrite firstn_skipn_comm. f_equal. f_equal. lia. }
  destruct (Nat.le_ge_cases (bsize b - index) (256 - depth)) as [Hle|Hle].
  - rewrite Nat.min_l by lia. reflexivity.
  - rewrite Nat.min_r by lia.
    rewrite !lcp_firstn by (rewrite skipn_length, kbits_length; lia). reflexivity.
Qed.

Lemma bits_count_spec b key depth :
  ok_bits b -> length key = 32 -> depth <= 256 ->
  bits_count b key depth = Ok (lcp (bools b) (skipn depth (kbits key))).
Proof.
  intros. unfold bits_count. rewrite bits_count_from_spec; auto. lia.
Qed.

(** [p] is a prefix of [l]. *)
Fixpoint is_prefix (p l : list bool) : bool :=
  match p, l with
  | [], _ => true
  | x :: p', y :: l' => Bool.eqb x y && is_prefix p' l'
  | _ :: _, [] => false
  end.

Lemma is_prefix_iff p l : is_prefix p l = true <-> exists s, l = p ++ s.
Proof.
  revert l; induction p as [|x p IH]; intros l; cbn.
  - split; eauto.
  - destruct l as [|y l]; [split; [discriminate|intros (s & E); discriminate E]|].
    rewrite andb_true_iff, IH, Bool.eqb_true_iff. split.
    + intros (-> & s & ->). eauto.
    + intros (s & E). injection E as -> ->. eauto.
Qed.

Lemma lcp_full p l : (lcp p l =? length p) = is_prefix p l.
Proof.
  revert l; induction p as [|x p IH]; intros [|y l]; cbn; auto.
  destruct (Bool.eqb x y); cbn; auto.
Qed.

Lemma bits_has_spec b key depth :
  ok_bits b -> length key = 32 -> depth <= 256 ->
  bits_has b key depth = Ok (is_prefix (bools b) (skipn depth (kbits key))).
Proof.
  intros Hb Hk Hd. unfold bits_has. rewrite bits_count_spec by assumption. cbn [bind].
  rewrite <- (bools_length b Hb), lcp_full. reflexivity.
Qed.

Lemma bits_init_spec n : n <= 256 -> bits_init n = Ok (mkbits n (repeat x00 32)).
Proof.
  intros H. unfold bits_init, check, KEY_BITS. destruct (Nat.leb_spec n 256); [reflexivity|lia].
Qed.

Lemma copy_loop_spec n out i src j :
  ok_bits src -> j + n <= 256 ->
  length (bdata out) = 32 -> i + n <= 256 ->
  skipn i (kbits (bdata out)) = repeat false (256 - i) ->
  exists out', copy_loop n out i src j = Ok out' /\ bsize out' = bsize out /\
    length (bdata out') = 32 /\
    kbits (bdata out') = firstn i (kbits (bdata out)) ++
        firstn n (skipn j (kbits (bdata src))) ++ repeat false (256 - i - n).
Proof.
  intros Hs. revert out i j; induction n as [|n IH]; intros out i j Hj Ho Hi Hz.
  - exists out. cbn [copy_loop firstn app]. repeat split; auto.
    rewrite <- (firstn_skipn i (kbits (bdata out))) at 1. rewrite Hz.
    f_equal. f_equal. lia.
  - cbn [copy_loop].
    destruct (bits_get_spec src j Hs) as (x & Ex & Nx); [lia|].
    rewrite Ex. cbn [bind]. unfold bits_set, check, KEY_BITS.
    destruct (Nat.ltb_spec i 256); [|lia].
    destruct (set_bit_spec (bdata out) i x) as (d & Ed & Ld & Kd); [lia|].
    rewrite Ed. cbn [bind].
    assert (Li : length (firstn i (kbits (bdata out))) = i)
      by (rewrite firstn_length, kbits_length; lia).
    assert (Kd' : kbits d = firstn i (kbits (bdata out)) ++ x :: repeat false (256 - S i)).
    { rewrite Kd. rewrite <- (firstn_skipn i (kbits (bdata out))) at 1 2. rewrite Hz.
      rewrite upd_app_r by lia. rewrite app_nth2 by lia. rewrite Li, Nat.sub_diag.
      replace (256 - i) with (S (256 - S i)) by lia. cbn [repeat nth upd orb]. reflexivity. }
    destruct (IH (mkbits (bsize out) d) (S i) (S j)) as (out' & E & B & L & K); auto; try lia.
    + cbn [bdata]. lia.
    + cbn [bdata]. rewrite Kd'.
      change (x :: repeat false (256 - S i)) with ([x] ++ repeat false (256 - S i)).
      rewrite app_assoc. apply skipn_app_exact. rewrite app_length, Li. cbn. lia.
    + exists out'. repeat split; auto. rewrite K. cbn [bdata]. rewrite Kd'.
      rewrite (skipn_nth _ _ _ Nx). rewrite firstn_cons.
      change (x :: repeat false (256 - S i)) with ([x] ++ repeat false (256 - S i)).
      rewrite (app_assoc _ [x]), firstn_app_exact by (rewrite app_length, Li; cbn; lia).
      rewrite <- app_assoc. cbn [app]. f_equal. f_equal. f_equal. f_equal. lia.
Qed.

Lemma kbits_firstn_bools b : ok_bits b -> forall i n, i + n <= bsize b ->
  firstn n (skipn i (kbits (bdata b))) = firstn n (skipn i (bools b)).
Proof.
  intros Hb i n H. unfold bools. rewrite !firstn_skipn_comm.
  rewrite firstn_firstn. f_equal. f_equal. lia.
Qed.

Lemma wf_intro b l :
  length (bdata b) = 32 -> bsize b = length l ->
  kbits (bdata b) = l ++ repeat false (256 - length l) -> length l <= 256 ->
  b = of_bools l.
Proof.
  intros H1 H2 H3 H4. destruct b as [s d]; cbn in *. subst s. unfold of_bools. f_equal.
  apply kbits_inj. rewrite H3, kbits_pack by lia. reflexivity.
Qed.

Lemma bits_slice_spec b start stop :
  ok_bits b -> start <= stop -> stop <= bsize b ->
  bits_slice b start stop = Ok (of_bools (firstn (stop - start) (skipn start (bools b)))).
Proof.
  intros Hb H1 H2. pose proof Hb as [L S]. unfold bits_slice, check.
  destruct (Nat.leb_spec start stop); [|lia].
  rewrite bits_init_spec by lia. cbn [bind].
  destruct (copy_loop_spec (stop - start) (mkbits (stop - start) (repeat x00 32)) 0 b start)
    as (out & E & B & Lo & K); auto; try lia.
  rewrite E. f_equal. apply wf_intro; auto.
  - rewrite B. cbn. rewrite firstn_length, skipn_length, bools_length by assumption. lia.
  - rewrite K. cbn [firstn app].
    rewrite kbits_firstn_bools by (auto; lia). f_equal. f_equal.
    rewrite firstn_length, skipn_length, bools_length by assumption. lia.
  - rewrite firstn_length, skipn_length, bools_length by assumption. lia.
Qed.

Lemma bits_split_spec b i :
  ok_bits b -> i < bsize b ->
  bits_split b i = Ok (of_bools (firstn i (bools b)), of_bools (skipn (S i) (bools b))).
Proof.
  intros Hb Hi. unfold bits_split.
  rewrite bits_slice_spec by (auto; lia). cbn [bind].
  rewrite bits_slice_spec by (auto; lia). cbn [bind].
  rewrite Nat.sub_0_r. change (skipn 0 (bools b)) with (bools b).
  replace (i + 1) with (S i) by lia.
  rewrite (firstn_all2 (n := bsize b - S i)); [reflexivity|].
  rewrite skipn_length, bools_length by assumption. lia.
Qed.

(** A whole key as a prefix: urkel_node_key_bits, nodes.c 423-432. *)
Definition key_bits (key : bytes) : bits := mkbits 256 key.

Lemma key_bits_wf key : length key = 32 -> wf_bits (key_bits key).
Proof.
  intros H. unfold wf_bits, key_bits; cbn [bsize bdata]. repeat split; auto.
  rewrite Nat.sub_diag. apply skipn_all2. rewrite kbits_length. lia.
Qed.

Lemma bools_key_bits key : length key = 32 -> bools (key_bits key) = kbits key.
Proof. intros H. unfold bools, key_bits; cbn [bsize bdata]. apply firstn_all2. rewrite kbits_length. lia. Qed.

Lemma bits_collide_spec k1 key depth :
  length k1 = 32 -> length key = 32 -> depth <= 256 ->
  bits_collide (key_bits k1) key depth =
  Ok (of_bools (firstn (lcp (skipn depth (kbits k1)) (skipn depth (kbits key)))
                       (skipn depth (kbits k1)))).
Proof.
  intros H1 H2 Hd. unfold bits_collide.
  pose proof (wf_ok _ (key_bits_wf k1 H1)) as Hok.
  rewrite bits_count_from_spec by (auto; cbn; lia). cbn [bind].
  rewrite bools_key_bits by assumption.
  set (c := lcp _ _).
  assert (Hc : c <= 256 - depth).
  { unfold c. etransitivity; [apply lcp_le_l|]. rewrite skipn_length, kbits_length. lia. }
  rewrite bits_slice_spec by (auto; cbn; lia).
  rewrite bools_key_bits by assumption. do 3 f_equal. lia.
Qed.

Lemma copy_bytes_ok dst src n :
  n <= length src -> n <= length dst -> copy_bytes dst src n = Ok (firstn n src ++ skipn n dst).
Proof.
  intros. unfold copy_bytes.
  destruct (Nat.leb_spec n (length src)), (Nat.leb_spec n (length dst)); cbn; auto; lia.
Qed.

Lemma nbytes_le n : n <= 8 * nbytes n.
Proof. unfold nbytes. pose proof (Nat.div_mod (n + 7) 8). pose proof (Nat.mod_upper_bound (n+7) 8). lia. Qed.

Lemma nbytes_bound n m : n <= 8 * m -> nbytes n <= m.
Proof. unfold nbytes. intros. lia. Qed.

Lemma firstn_kbits n k : firstn (8 * n) (kbits k) = kbits (firstn n k).
Proof.
  revert n; induction k as [|b k IH]; intros n.
  - rewrite !firstn_nil. reflexivity.
  - destruct n as [|n]; [reflexivity|]. cbn [firstn]. rewrite !kbits_cons.
    replace (8 * S n) with (8 + 8 * n) by lia.
    rewrite firstn_app, bits_of_byte_length, firstn_all2 by (rewrite bits_of_byte_length; lia).
    replace (8 + 8 * n - 8) with (8 * n) by lia. now rewrite IH.
Qed.

Lemma skipn_kbits n k : skipn (8 * n) (kbits k) = kbits (skipn n k).
Proof.
  revert n; induction k as [|b k IH]; intros n.
  - rewrite !skipn_nil. reflexivity.
  - destruct n as [|n]; [reflexivity|]. cbn [skipn]. rewrite !kbits_cons.
    replace (8 * S n) with (8 + 8 * n) by lia.
    rewrite skipn_app, bits_of_byte_length, skipn_all2 by (rewrite bits_of_byte_length; lia).
    replace (8 + 8 * n - 8) with (8 * n) by lia. cbn [app]. apply IH.
Qed.

Lemma bits_join_spec l r bit :
  wf_bits l -> ok_bits r -> bsize l + bsize r + 1 <= 256 ->
  bits_join l r bit = Ok (of_bools (bools l ++ bit :: bools r)).
Proof.
  intros Hl Hr Hs. pose proof (wf_ok _ Hl) as Hlo. pose proof Hlo as [L1 S1]. pose proof Hr as [L2 S2].
  unfold bits_join. rewrite bits_init_spec by lia. cbn [bind bdata bsize].
  assert (Hnb : nbytes (bsize l) <= 32) by (apply nbytes_bound; lia).
  rewrite copy_bytes_ok; cycle 1.
  { rewrite L1. exact Hnb. } { rewrite repeat_length. exact Hnb. }
  cbn [bind]. set (d := firstn _ _ ++ _).
  assert (Ld : length d = 32).
  { unfold d. rewrite app_length, firstn_length, skipn_length, L1, repeat_length. lia. }
  assert (Kd : kbits d = bools l ++ repeat false (256 - bsize l)).
  { unfold d. rewrite kbits_app, <- firstn_kbits, <- skipn_kbits, kbits_zero.
    rewrite (wf_kbits _ Hl). rewrite firstn_app, bools_length by assumption.
    rewrite firstn_all2 by (rewrite bools_length by assumption; apply nbytes_le).
    rewrite <- app_assoc. f_equal.
    assert (Hsk : forall n m, n <= m -> skipn n (repeat false m) = repeat false (m - n)).
    { intros n m Hnm. replace m with (n + (m - n)) at 1 by lia. rewrite repeat_app.
      apply skipn_app_exact. now rewrite repeat_length. }
    assert (Hfn : forall n m, n <= m -> firstn n (repeat false m) = repeat false n).
    { intros n m Hnm. replace m with (n + (m - n)) by lia. rewrite repeat_app.
      apply firstn_app_exact. now rewrite repeat_length. }
    pose proof (nbytes_le (bsize l)).
    rewrite Hsk, Hfn by lia. rewrite <- repeat_app. f_equal. lia. }
  unfold bits_set, check, KEY_BITS. cbn [bdata bsize].
  destruct (Nat.ltb_spec (bsize l) 256); [|lia].
  destruct (set_bit_spec d (bsize l) bit) as (d2 & E2 & L3 & K2); [lia|].
  rewrite E2. cbn [bind].
  assert (K2' : kbits d2 = (bools l ++ [bit]) ++ repeat false (256 - (bsize l + 1))).
  { rewrite K2, Kd. rewrite upd_app_r by (rewrite bools_length by assumption; lia).
    rewrite app_nth2 by (rewrite bools_length by assumption; lia).
    rewrite bools_length, Nat.sub_diag by assumption.
    replace (256 - bsize l) with (S (256 - (bsize l + 1))) by lia.
    cbn [repeat upd nth orb]. rewrite <- app_assoc. reflexivity. }
  assert (Lb : length (bools l ++ [bit]) = bsize l + 1).
  { rewrite app_length, bools_length by assumption. reflexivity. }
  destruct (copy_loop_spec (bsize r) (mkbits (bsize l + bsize r + 1) d2) (bsize l + 1) r 0)
    as (out & E & B & Lo & K); auto; try lia.
  { cbn [bdata]. lia. }
  { cbn [bdata]. rewrite K2'. apply skipn_app_exact. lia. }
  rewrite E. f_equal. apply wf_intro; auto.
  - rewrite B. cbn. rewrite app_length; cbn [length]. rewrite !bools_length by assumption. lia.
  - rewrite K. cbn [bdata skipn]. rewrite K2'.
    rewrite firstn_app_exact by lia. rewrite <- !app_assoc. cbn [app].
    f_equal. f_equal. fold (bools r). f_equal. f_equal.
    rewrite app_length; cbn [length]. rewrite !bools_length by assumption. lia.
  - rewrite app_length; cbn [length]. rewrite !bools_length by assumption. lia.
Qed.
