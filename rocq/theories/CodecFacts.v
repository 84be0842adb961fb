(** * Facts about the encodings: round-trips, sizes, totality. *)
From Verif Require Export Codec PtreeFacts.
From Coq Require Import ZifyBool ZifyNat ZifyN.

(** ** Little-endian integers *)

Lemma read8_write8 n r : (n < 256)%N -> read8 (write8 n ++ r) = Ok n.
Proof. intros L. cbn. now rewrite b2n_n2b_small. Qed.

Lemma read16_write16 n r : (n < 65536)%N -> read16 (write16 n ++ r) = Ok n.
Proof. intros L. unfold write16. cbn [app read16]. rewrite !b2n_n2b. f_equal. lia. Qed.

Lemma read32_write32 n r : (n < 4294967296)%N -> read32 (write32 n ++ r) = Ok n.
Proof. intros L. unfold write32. cbn [app read32]. rewrite !b2n_n2b. f_equal. lia. Qed.

Lemma lor_shiftl_add t n a : (a < 2 ^ n)%N -> N.lor (N.shiftl t n) a = (t * 2 ^ n + a)%N.
Proof.
  intros L. assert (Z : N.land (N.shiftl t n) a = 0%N).
  { apply N.bits_inj. intros i. rewrite N.land_spec, N.bits_0.
    destruct (N.lt_ge_cases i n) as [Hi|Hi].
    - rewrite N.shiftl_spec_low by assumption. reflexivity.
    - destruct (N.eq_dec a 0) as [->|Na]; [rewrite N.bits_0; apply andb_false_r|].
      rewrite (N.bits_above_log2 a i); [apply andb_false_r|].
      apply N.log2_lt_pow2; [lia|]. eapply N.lt_le_trans; [exact L|].
      apply N.pow_le_mono_r; lia. }
  rewrite <- N.lxor_lor by assumption. rewrite <- N.add_nocarry_lxor by assumption.
  rewrite N.shiftl_mul_pow2. reflexivity.
Qed.

Lemma lor_shiftl1 t a : (a < 2)%N -> N.lor (N.shiftl t 1) a = (2 * t + a)%N.
Proof. intros L. rewrite lor_shiftl_add by (change (2 ^ 1)%N with 2%N; lia). change (2^1)%N with 2%N. lia. Qed.

Lemma land1 n : N.land n 1 = (n mod 2)%N.
Proof. change 1%N with (N.ones 1). now rewrite N.land_ones. Qed.

Lemma shiftr1 n : N.shiftr n 1 = (n / 2)%N.
Proof. now rewrite N.shiftr_div_pow2. Qed.
Lemma shiftr8 n : N.shiftr n 8 = (n / 256)%N.
Proof. now rewrite N.shiftr_div_pow2. Qed.
Lemma shiftr4 n : N.shiftr n 4 = (n / 16)%N.
Proof. now rewrite N.shiftr_div_pow2. Qed.
Lemma shiftr14 n : N.shiftr n 14 = (n / 16384)%N.
Proof. now rewrite N.shiftr_div_pow2. Qed.

Lemma skipn_write16 n r : skipn 2 (write16 n ++ r) = r. Proof. reflexivity. Qed.
Lemma skipn_write32 n r : skipn 4 (write32 n ++ r) = r. Proof. reflexivity. Qed.
Lemma skipn_write8 n r : skipn 1 (write8 n ++ r) = r. Proof. reflexivity. Qed.

(** ** Pointers *)

(** What fits into the seven bytes. *)
Definition ptr_ok (p : ptr) : Prop := (pidx p < 32768 /\ ppos p < 2147483648 /\ psize p < 1024)%N.

Lemma pointer_write_length p : length (pointer_write p) = 7.
Proof. reflexivity. Qed.

Lemma read8_n2b n r : read8 (write8 n ++ r) = Ok (n mod 256)%N.
Proof. cbn. now rewrite b2n_n2b. Qed.

Lemma pointer_roundtrip p r : ptr_ok p -> pointer_read (pointer_write p ++ r) = Ok p.
Proof.
  destruct p as [i q s]. unfold ptr_ok, pointer_write, pointer_read. cbn [pidx ppos psize].
  intros (Li & Lq & Ls). rewrite land1, !shiftr1, !shiftr8.
  rewrite !lor_shiftl1 by lia. rewrite <- !app_assoc.
  rewrite read16_write16 by lia. cbn [bind]. unfold adv.
  rewrite skipn_write16, read32_write32 by lia. cbn [bind].
  change (skipn 6 (write16 (2 * i + s / 256 / 2) ++ write32 (2 * q + (s / 256) mod 2) ++ write8 s ++ r))
    with (write8 s ++ r).
  rewrite read8_n2b. cbn [bind]. rewrite !land1, !shiftr1, !N.shiftl_mul_pow2.
  change (2 ^ 9)%N with 512%N. change (2 ^ 8)%N with 256%N.
  f_equal. f_equal; try lia.
  replace (((2 * i + s / 256 / 2) mod 2 * 512))%N with (N.shiftl (((2 * i + s / 256 / 2) mod 2) * 2) 8)
    by (rewrite N.shiftl_mul_pow2; change (2 ^ 8)%N with 256%N; lia).
  replace (((2 * q + (s / 256) mod 2) mod 2 * 256))%N with (N.shiftl (((2 * q + (s / 256) mod 2) mod 2)) 8)
    by (rewrite N.shiftl_mul_pow2; change (2 ^ 8)%N with 256%N; lia).
  rewrite <- N.shiftl_lor.
  replace ((2 * i + s / 256 / 2) mod 2 * 2)%N with (N.shiftl ((2 * i + s / 256 / 2) mod 2) 1)
    by (rewrite N.shiftl_mul_pow2; change (2 ^ 1)%N with 2%N; lia).
  rewrite lor_shiftl1 by lia. rewrite lor_shiftl_add by (change (2 ^ 8)%N with 256%N; lia).
  change (2 ^ 8)%N with 256%N. lia.
Qed.

(** Discharge a length guard that cannot fire. *)
Ltac nolt :=
  match goal with |- context [length ?d <? ?n] =>
    destruct (Nat.ltb_spec (length d) n) as [X|_];
    [exfalso; cbn [app] in X; rewrite ?app_length in X; cbn [length write16 write8 write32] in X; lia|] end.

(** ** take *)

Lemma take_ok n d : n <= length d -> take n d = Ok (firstn n d, skipn n d).
Proof. intros L. unfold take. destruct (Nat.leb_spec n (length d)); [reflexivity|lia]. Qed.

Lemma take_app n a r : length a = n -> take n (a ++ r) = Ok (a, r).
Proof.
  intros <-. rewrite take_ok by (rewrite app_length; lia).
  now rewrite firstn_app_exact, skipn_app_exact.
Qed.

(** ** Bit prefixes *)

Lemma nbytes_0 : nbytes 0 = 0. Proof. reflexivity. Qed.

Lemma wf_data b : wf_bits b ->
  bdata b = prefix_bytes b ++ repeat x00 (32 - nbytes (bsize b)).
Proof.
  intros W. pose proof (wf_ok _ W) as [L S].
  pose proof (nbytes_bound (bsize b) 32 ltac:(lia)) as NB.
  unfold prefix_bytes. rewrite <- (firstn_skipn (nbytes (bsize b)) (bdata b)) at 1. f_equal.
  apply kbits_inj. rewrite <- skipn_kbits, kbits_zero, wf_kbits by assumption.
  rewrite skipn_app, skipn_all2 by (rewrite bools_length by (apply wf_ok; assumption); apply nbytes_le).
  rewrite bools_length by (apply wf_ok; assumption). cbn [app].
  pose proof (nbytes_le (bsize b)).
  replace (256 - bsize b) with ((8 * nbytes (bsize b) - bsize b) + 8 * (32 - nbytes (bsize b))) by lia.
  rewrite repeat_app. apply skipn_app_exact. now rewrite repeat_length.
Qed.

Lemma copy_prefix b r : wf_bits b ->
  copy_bytes (repeat x00 32) (prefix_bytes b ++ r) (nbytes (bsize b)) = Ok (bdata b).
Proof.
  intros W. pose proof (wf_ok _ W) as [L S].
  pose proof (nbytes_bound (bsize b) 32 ltac:(lia)) as NB.
  pose proof (prefix_bytes_length b (wf_ok _ W)) as PL.
  rewrite copy_bytes_ok.
  2: rewrite app_length; lia. 2: rewrite repeat_length; lia.
  f_equal. rewrite (wf_data b W). f_equal.
  - apply firstn_app_exact. auto.
  - replace 32 with (nbytes (bsize b) + (32 - nbytes (bsize b))) at 1 by lia.
    rewrite repeat_app. apply skipn_app_exact. now rewrite repeat_length.
Qed.

Lemma bits_size_ok b : ok_bits b ->
  bits_size b = Ok ((if 128 <=? bsize b then 1 else 0) + 1 + nbytes (bsize b)).
Proof.
  intros [L S]. unfold bits_size, KEY_BITS, check.
  destruct (Nat.leb_spec (bsize b) 256); [reflexivity|lia].
Qed.

(** Length byte(s) of an encoded prefix. *)
Definition bits_head (n : nat) : bytes :=
  if 128 <=? n then [n2b (128 + N.of_nat n / 256); n2b (N.of_nat n)] else [n2b (N.of_nat n)].

Lemma bits_write_ok b : ok_bits b -> bits_write b = Ok (bits_head (bsize b) ++ prefix_bytes b).
Proof.
  intros [L S]. unfold bits_write, KEY_BITS, check.
  destruct (Nat.leb_spec (bsize b) 256); [|lia]. unfold bits_head.
  destruct (Nat.leb_spec 128 (bsize b)); [|reflexivity].
  rewrite shiftr8. replace 128%N with (N.shiftl 1 7) by reflexivity.
  rewrite lor_shiftl_add by (change (2^7)%N with 128%N; lia). reflexivity.
Qed.

Lemma bits_size_write b x : ok_bits b -> bits_write b = Ok x -> bits_size b = Ok (length x).
Proof.
  intros O. rewrite bits_write_ok, bits_size_ok by assumption. intros E; injection E as <-.
  rewrite app_length, prefix_bytes_length by assumption. unfold bits_head.
  destruct (128 <=? bsize b); reflexivity.
Qed.

Lemma testbit7 n : (n < 256)%N -> N.testbit n 7 = (128 <=? n)%N.
Proof.
  intros L. rewrite N.testbit_eqb. change (2^7)%N with 128%N. lia.
Qed.

Lemma clearbit7 n : (128 <= n < 256)%N -> N.clearbit n 7 = (n - 128)%N.
Proof.
  intros L. assert (E : n = N.lor (N.shiftl 1 7) (n - 128)).
  { rewrite lor_shiftl_add by (change (2^7)%N with 128%N; lia). change (1 * 2^7)%N with 128%N. lia. }
  apply N.bits_inj. intros i. destruct (N.eq_dec i 7) as [->|Ni].
  - rewrite N.clearbit_eq. symmetry. rewrite testbit7 by lia. lia.
  - rewrite N.clearbit_neq by auto. rewrite E at 1. rewrite N.lor_spec.
    replace (N.testbit (N.shiftl 1 7) i) with false; [reflexivity|].
    symmetry. rewrite N.shiftl_1_l. apply N.pow2_bits_false. auto.
Qed.

Lemma bits_read_write b x r : wf_bits b -> bits_write b = Ok x -> bits_read (x ++ r) = Ok (Some b).
Proof.
  intros W. pose proof (wf_ok _ W) as O. pose proof O as [L S].
  rewrite bits_write_ok by assumption. intros E; injection E as <-.
  unfold bits_read. rewrite bits_init_spec by lia. cbn [bind bdata].
  unfold bits_head. pose proof (prefix_bytes_length b O) as PL.
  destruct (Nat.leb_spec 128 (bsize b)) as [G|G].
  - nolt. cbn [app read8 bind]. unfold adv. cbn [skipn].
    rewrite b2n_n2b_small by lia. rewrite testbit7 by lia.
    destruct (N.leb_spec 128 (128 + N.of_nat (bsize b) / 256)); [|lia].
    nolt. cbn [read8 bind]. rewrite clearbit7 by lia.
    rewrite b2n_n2b. rewrite lor_shiftl_add by (change (2^8)%N with 256%N; lia).
    change (2^8)%N with 256%N.
    replace ((128 + N.of_nat (bsize b) / 256 - 128) * 256 + N.of_nat (bsize b) mod 256)%N
      with (N.of_nat (bsize b)) by lia.
    destruct (N.ltb_spec (N.of_nat (bsize b)) 128); [lia|].
    destruct (N.ltb_spec 256 (N.of_nat (bsize b))); [lia|].
    rewrite Nat2N.id. cbn [skipn]. nolt.
    rewrite copy_prefix by assumption. cbn [bind]. destruct b; reflexivity.
  - nolt. cbn [app read8 bind]. unfold adv. cbn [skipn].
    rewrite b2n_n2b_small by lia. rewrite testbit7 by lia.
    destruct (N.leb_spec 128 (N.of_nat (bsize b))); [lia|].
    destruct (N.ltb_spec 256 (N.of_nat (bsize b))); [lia|].
    rewrite Nat2N.id. nolt.
    rewrite copy_prefix by assumption. cbn [bind]. destruct b; reflexivity.
Qed.

(** ** Nodes *)

(** What a node looks like after being written and read back: children become hash
    nodes, the leaf's value stays on disk. *)
Definition stored (n : node) : option node :=
  match n with
  | NInt _ _ p l r =>
    match written l, hashed l, written r, hashed r with
    | Some lw, Some lh, Some rw, Some rh => Some (NInt None None p (NHash lh lw) (NHash rh rw))
    | _, _, _, _ => None
    end
  | NLeaf _ _ k _ (Some q) => Some (NLeaf None None k None (Some q))
  | _ => None
  end.

Definition child_ok (n : node) : Prop :=
  match written n, hashed n with
  | Some w, Some h => ptr_ok w /\ length h = 32
  | _, _ => False
  end.
Definition node_ok (n : node) : Prop :=
  match n with
  | NInt _ _ p l r => wf_bits p /\ child_ok l /\ child_ok r
  | NLeaf _ _ k _ (Some q) => length k = 32 /\ ptr_ok q
  | _ => False
  end.

Lemma node_flags_cases p : bsize p <= 256 ->
  node_flags p = if 255 <? bsize p then 3%N else if 0 <? bsize p then 1%N else 0%N.
Proof.
  intros L. unfold node_flags. destruct (Nat.ltb_spec 0 (bsize p)), (Nat.ltb_spec 255 (bsize p));
    try reflexivity. lia.
Qed.

Lemma read_children lw lh rw rh p rest :
  ptr_ok lw -> length lh = 32 -> ptr_ok rw -> length rh = 32 ->
  forall d, d = pointer_write lw ++ lh ++ pointer_write rw ++ rh ++ rest ->
  (if length d <? 2 * (PTR_SIZE + HASH_SIZE) then Ok None else
      let! lp := pointer_read d in
      let d := adv PTR_SIZE d in
      let! (lh, d) := take HASH_SIZE d in
      let! rp := pointer_read d in
      let d := adv PTR_SIZE d in
      let! (rh, d) := take HASH_SIZE d in
      Ok (Some (NInt None None p (NHash lh lp) (NHash rh rp)))) =
  Ok (Some (NInt None None p (NHash lh lw) (NHash rh rw))).
Proof.
  intros Ow Lh Owr Lhr d ->. rewrite !app_length, !pointer_write_length, Lh, Lhr.
  unfold PTR_SIZE, HASH_SIZE.
  destruct (Nat.ltb_spec (7 + (32 + (7 + (32 + length rest)))) (2 * (7 + 32))) as [X|X]; [lia|].
  rewrite pointer_roundtrip by assumption. cbn [bind]. unfold adv.
  rewrite (skipn_app_exact (pointer_write lw)) by reflexivity.
  rewrite take_app by assumption. cbn [bind].
  rewrite pointer_roundtrip by assumption. cbn [bind].
  rewrite (skipn_app_exact (pointer_write rw)) by reflexivity.
  rewrite take_app by assumption. cbn [bind]. reflexivity.
Qed.

Lemma node_roundtrip n rest : node_ok n ->
  exists raw m, node_write n = Ok raw /\ stored n = Some m /\
    node_read (raw ++ rest) = Ok (Some m) /\ 1 <= length raw <= 113.
Proof.
  destruct n as [|h w p l r|h w k v vp|h w]; try contradiction.
  - intros (Wp & Cl & Cr). unfold child_ok in Cl, Cr. cbn [node_write stored].
    unfold child_write.
    destruct (written l) as [lw|], (hashed l) as [lh|]; try contradiction.
    destruct (written r) as [rw|], (hashed r) as [rh|]; try contradiction.
    destruct Cl as [Olw Llh], Cr as [Orw Lrh].
    pose proof (wf_ok _ Wp) as Op. pose proof Op as [_ Sp].
    pose proof (prefix_bytes_length p Op) as PL.
    pose proof (nbytes_bound (bsize p) 32 ltac:(lia)) as NB.
    cbn [bind]. eexists _, _. split; [reflexivity|]. split; [reflexivity|]. split.
    2:{ rewrite !app_length, !pointer_write_length, Llh, Lrh.
        destruct (255 <? bsize p); [|destruct (0 <? bsize p)]; rewrite ?app_length, ?PL; cbn [length write8 write16]; lia. }
    rewrite node_flags_cases by assumption. unfold node_read.
    rewrite <- !app_assoc.
    match goal with |- (if length ?d <? 1 then _ else _) = _ =>
      destruct (Nat.ltb_spec (length d) 1) as [X|_]; [cbn [app length write8] in X; lia|] end.
    destruct (Nat.ltb_spec 255 (bsize p)) as [G|G].
    + rewrite read8_write8 by reflexivity. cbn [bind]. unfold adv at 1. rewrite skipn_write8.
      change (N.land (N.lor (N.shiftl 3 4) 1) 15 =? 1)%N with true. cbv iota.
      change (N.shiftr (N.lor (N.shiftl 3 4) 1) 4) with 3%N.
      unfold node_read_prefix. change (N.testbit 3 0) with true. change (N.testbit 3 1) with true. cbv iota.
      match goal with |- context [length ?d <? 2] =>
        destruct (Nat.ltb_spec (length d) 2) as [X|_]; [rewrite !app_length in X; cbn [length write16] in X; lia|] end.
      rewrite <- !app_assoc. rewrite read16_write16 by lia. cbn [bind]. unfold adv. rewrite skipn_write16.
      destruct (N.ltb_spec (N.of_nat (bsize p)) 256) as [X|_]; [lia|]. cbn [andb negb].
      rewrite Nat2N.id.
      match goal with |- context [length ?d <? nbytes (bsize p)] =>
        destruct (Nat.ltb_spec (length d) (nbytes (bsize p))) as [X|_]; [rewrite !app_length in X; lia|] end.
      rewrite bits_init_spec by lia. cbn [bind bdata].
      rewrite copy_prefix by assumption. cbn [bind].
      rewrite skipn_app_exact by auto.
      replace (mkbits (bsize p) (bdata p)) with p by (destruct p; reflexivity).
      eapply read_children with (rest := rest); auto.
    + destruct (Nat.ltb_spec 0 (bsize p)) as [G0|G0].
      * rewrite read8_write8 by reflexivity. cbn [bind]. unfold adv at 1. rewrite skipn_write8.
        change (N.land (N.lor (N.shiftl 1 4) 1) 15 =? 1)%N with true. cbv iota.
        change (N.shiftr (N.lor (N.shiftl 1 4) 1) 4) with 1%N.
        unfold node_read_prefix. change (N.testbit 1 0) with true. change (N.testbit 1 1) with false. cbv iota.
        match goal with |- context [length ?d <? 2] =>
          destruct (Nat.ltb_spec (length d) 2) as [X|_]; [rewrite !app_length, !pointer_write_length in X; cbn [length write8] in X; lia|] end.
        rewrite <- !app_assoc. rewrite read8_write8 by lia. cbn [bind]. unfold adv. rewrite skipn_write8.
        cbn [andb negb]. destruct (N.eqb_spec (N.of_nat (bsize p)) 0) as [X|_]; [lia|].
        rewrite Nat2N.id.
        match goal with |- context [length ?d <? nbytes (bsize p)] =>
          destruct (Nat.ltb_spec (length d) (nbytes (bsize p))) as [X|_]; [rewrite !app_length in X; lia|] end.
        rewrite bits_init_spec by lia. cbn [bind bdata].
        rewrite copy_prefix by assumption. cbn [bind].
        rewrite skipn_app_exact by auto.
        replace (mkbits (bsize p) (bdata p)) with p by (destruct p; reflexivity).
        eapply read_children with (rest := rest); auto.
      * rewrite read8_write8 by reflexivity. cbn [bind]. unfold adv at 1. rewrite skipn_write8.
        change (N.land (N.lor (N.shiftl 0 4) 1) 15 =? 1)%N with true. cbv iota.
        change (N.shiftr (N.lor (N.shiftl 0 4) 1) 4) with 0%N.
        unfold node_read_prefix. change (N.testbit 0 0) with false. cbv iota.
        rewrite bits_init_spec by lia. cbn [bind app].
        assert (Ep : p = mkbits 0 (repeat x00 32)).
        { assert (Z : bsize p = 0) by lia. rewrite (wf_of_bools p Wp) at 1. unfold bools. rewrite Z. reflexivity. }
        rewrite <- Ep. eapply read_children with (rest := rest); auto.
  - destruct vp as [q|]; [|contradiction]. intros (Lk & Oq). cbn [node_write stored].
    eexists _, _. split; [reflexivity|]. split; [reflexivity|]. split.
    2:{ rewrite !app_length, pointer_write_length, Lk. cbn [length write8]. lia. }
    unfold node_read. rewrite <- !app_assoc.
    match goal with |- (if length ?d <? 1 then _ else _) = _ =>
      destruct (Nat.ltb_spec (length d) 1) as [X|_]; [cbn [app length write8] in X; lia|] end.
    rewrite read8_write8 by lia. cbn [bind]. unfold adv. rewrite !skipn_write8.
    change (N.land 2 15 =? 1)%N with false. change (N.land 2 15 =? 2)%N with true. cbv iota.
    rewrite !app_length, pointer_write_length, Lk. unfold PTR_SIZE, KEY_SIZE.
    destruct (Nat.ltb_spec (7 + (32 + length rest)) (7 + 32)) as [X|_]; [lia|].
    rewrite pointer_roundtrip by assumption. cbn [bind].
    rewrite (skipn_app_exact (pointer_write q)) by reflexivity.
    rewrite take_app by assumption. cbn [bind]. reflexivity.
Qed.
