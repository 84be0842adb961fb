(** * Proofs: encoding round-trip, totality of the verifier, soundness. *)
From Verif Require Export CodecFacts.
From Coq Require Import ZifyBool ZifyNat ZifyN.

Lemma Ok_inj {A} (a b : A) : Ok a = Ok b -> a = b.
Proof. congruence. Qed.

(** ** Well-formed proof objects *)

Definition ok_tail (t : ptail) : Prop :=
  match t with
  | TDeadend => True
  | TShort p l r => ok_bits p /\ bsize p <> 0 /\ length l = 32 /\ length r = 32
  | TCollision k h => length k = 32 /\ length h = 32
  | TExists v => length v <= 1023
  end.
Definition ok_node (n : bits * bytes) : Prop := ok_bits (fst n) /\ length (snd n) = 32.
Definition ok_proof (p : proof) : Prop :=
  p_depth p <= 256 /\ length (p_nodes p) <= 256 /\ Forall ok_node (p_nodes p) /\ ok_tail (p_tail p).

(** In addition the bytes behind the used prefix bytes are zero (true of every decoded proof). *)
Definition clean (b : bits) : Prop :=
  bdata b = prefix_bytes b ++ repeat x00 (32 - nbytes (bsize b)).
Definition clean_tail (t : ptail) : Prop := match t with TShort p _ _ => clean p | _ => True end.
Definition clean_proof (p : proof) : Prop :=
  Forall (fun n => clean (fst n)) (p_nodes p) /\ clean_tail (p_tail p).

Lemma wf_clean b : wf_bits b -> clean b.
Proof. apply wf_data. Qed.

(** [bits_read] inverts [bits_write] on clean prefixes (the padding bits inside the last
    byte survive). *)
Lemma copy_prefix_clean b r : ok_bits b -> clean b ->
  copy_bytes (repeat x00 32) (prefix_bytes b ++ r) (nbytes (bsize b)) = Ok (bdata b).
Proof.
  intros O C. pose proof O as [L S].
  pose proof (nbytes_bound (bsize b) 32 ltac:(lia)) as NB.
  pose proof (prefix_bytes_length b O) as PL.
  rewrite copy_bytes_ok.
  2: rewrite app_length; lia. 2: rewrite repeat_length; lia.
  f_equal. rewrite C. f_equal.
  - apply firstn_app_exact. auto.
  - replace 32 with (nbytes (bsize b) + (32 - nbytes (bsize b))) at 1 by lia.
    rewrite repeat_app. apply skipn_app_exact. now rewrite repeat_length.
Qed.

Lemma bits_read_write_clean b x r : ok_bits b -> clean b -> bits_write b = Ok x ->
  bits_read (x ++ r) = Ok (Some b).
Proof.
  intros O C. pose proof O as [L S].
  rewrite bits_write_ok by assumption. intros E; injection E as <-.
  unfold bits_read. rewrite bits_init_spec by lia. cbn [bind bdata].
  unfold bits_head. pose proof (prefix_bytes_length b O) as PL.
  destruct (Nat.leb_spec 128 (bsize b)) as [G|G].
  - nolt. cbn [app read8 bind]. unfold adv. cbn [skipn].
    rewrite b2n_n2b_small by lia. rewrite testbit7 by lia.
    destruct (N.leb_spec 128 (128 + N.of_nat (bsize b) / 256)); [|lia].
    nolt. cbn [read8 bind]. rewrite clearbit7 by lia.
    rewrite b2n_n2b. rewrite lor_shiftl_add by (change (2^8)%N with 256%N; lia).
    change (2^8)%N with 256%N.
    replace ((128 + N.of_nat (bsize b) / 256 - 128) * 256 + N.of_nat (bsize b) mod 256)%N
      with (N.of_nat (bsize b)) by lia.
    destruct (N.ltb_spec (N.of_nat (bsize b)) 128); [lia|].
    destruct (N.ltb_spec 256 (N.of_nat (bsize b))); [lia|].
    rewrite Nat2N.id. cbn [skipn]. nolt.
    rewrite copy_prefix_clean by assumption. cbn [bind]. destruct b; reflexivity.
  - nolt. cbn [app read8 bind]. unfold adv. cbn [skipn].
    rewrite b2n_n2b_small by lia. rewrite testbit7 by lia.
    destruct (N.leb_spec 128 (N.of_nat (bsize b))); [lia|].
    destruct (N.ltb_spec 256 (N.of_nat (bsize b))); [lia|].
    rewrite Nat2N.id. nolt.
    rewrite copy_prefix_clean by assumption. cbn [bind]. destruct b; reflexivity.
Qed.

(** Every successful [bits_read] comes from a [bits_write]. *)
Lemma bits_read_inv d : bits_read d = Ok None \/
  exists b x r, bits_read d = Ok (Some b) /\ ok_bits b /\ clean b /\ bits_write b = Ok x /\ d = x ++ r.
Proof.
  unfold bits_read. rewrite bits_init_spec by lia. cbn [bind bdata].
  destruct (Nat.ltb_spec (length d) 1) as [X|L1]; [auto|].
  destruct d as [|s d]; [cbn in L1; lia|]. cbn [read8 bind]. unfold adv. cbn [skipn].
  pose proof (b2n_lt s) as Ls. rewrite testbit7 by assumption.
  assert (Fin : forall n hd d, n <= 256 -> hd = bits_head n -> nbytes n <= length d ->
     exists b x r, (let! data := copy_bytes (repeat x00 32) d (nbytes n) in Ok (Some (mkbits n data))) = Ok (Some b)
       /\ ok_bits b /\ clean b /\ bits_write b = Ok x /\ hd ++ d = x ++ r).
  { clear. intros n hd d Ln -> Ld. pose proof (nbytes_bound n 32 ltac:(lia)) as NB.
    rewrite copy_bytes_ok; [|assumption|rewrite repeat_length; lia]. cbn [bind].
    set (b := mkbits n _).
    assert (O : ok_bits b).
    { split; cbn [b bsize bdata]; [|assumption].
      rewrite app_length, firstn_length, skipn_length, repeat_length. lia. }
    assert (P : prefix_bytes b = firstn (nbytes n) d).
    { unfold prefix_bytes, b; cbn [bsize bdata].
      apply firstn_app_exact. rewrite firstn_length. lia. }
    exists b, (bits_head n ++ prefix_bytes b), (skipn (nbytes n) d).
    split; [reflexivity|]. split; [assumption|]. split; [|split].
    - unfold clean. rewrite P. cbn [b bsize bdata]. f_equal.
      replace 32 with (nbytes n + (32 - nbytes n)) at 1 by lia.
      rewrite repeat_app. apply skipn_app_exact. now rewrite repeat_length.
    - rewrite bits_write_ok by assumption. reflexivity.
    - rewrite P, <- app_assoc, firstn_skipn. reflexivity. }
  destruct (N.leb_spec 128 (b2n s)) as [G|G].
  - destruct (Nat.ltb_spec (length d) 1) as [X|L2]; [auto|].
    destruct d as [|s2 d]; [cbn in L2; lia|]. cbn [read8 bind skipn].
    pose proof (b2n_lt s2) as Ls2.
    rewrite clearbit7 by lia. rewrite lor_shiftl_add by (change (2^8)%N with 256%N; lia).
    change (2^8)%N with 256%N. set (z := ((b2n s - 128) * 256 + b2n s2)%N).
    destruct (N.ltb_spec z 128) as [X|Z1]; [auto|].
    destruct (N.ltb_spec 256 z) as [X|Z2]; [auto|].
    destruct (Nat.ltb_spec (length d) (nbytes (N.to_nat z))) as [X|Ld]; [auto|].
    right. destruct (Fin (N.to_nat z) [s; s2] d) as (b & x & r & E & O & C & Wx & Ed);
      [lia| |assumption|].
    { unfold bits_head. destruct (Nat.leb_spec 128 (N.to_nat z)) as [_|X]; [|lia].
      rewrite N2Nat.id. f_equal; [|f_equal]; apply b2n_inj; rewrite b2n_n2b; unfold z; lia. }
    exists b, x, r. rewrite E. cbn [app] in Ed. auto.
  - destruct (N.ltb_spec 256 (b2n s)) as [X|_]; [lia|].
    destruct (Nat.ltb_spec (length d) (nbytes (N.to_nat (b2n s)))) as [X|Ld]; [auto|].
    right. destruct (Fin (N.to_nat (b2n s)) [s] d) as (b & x & r & E & O & C & Wx & Ed);
      [lia| |assumption|].
    { unfold bits_head. destruct (Nat.leb_spec 128 (N.to_nat (b2n s))) as [X|_]; [lia|].
      rewrite N2Nat.id, n2b_b2n. reflexivity. }
    exists b, x, r. rewrite E. cbn [app] in Ed. auto.
Qed.

Lemma bits_head_length n : n <= 256 -> length (bits_head n) <= 2.
Proof. intros. unfold bits_head. destruct (128 <=? n); cbn; lia. Qed.

Lemma bits_write_length b x : ok_bits b -> bits_write b = Ok x -> 1 <= length x <= 34.
Proof.
  intros O. pose proof O as [L S]. rewrite bits_write_ok by assumption. intros E; injection E as <-.
  pose proof (nbytes_bound (bsize b) 32 ltac:(lia)) as NB.
  rewrite app_length, prefix_bytes_length by assumption. unfold bits_head.
  destruct (128 <=? bsize b); cbn [length]; lia.
Qed.

(** ** The bitmap *)

Definition flags (l : list (bits * bytes)) : list bool := map (fun n => 0 <? bsize (fst n)) l.

Lemma flags_length l : length (flags l) = length l.
Proof. apply map_length. Qed.

Lemma upd_last_false (a : list bool) m x :
  upd (a ++ repeat false (S m)) (length a) (nth (length a) (a ++ repeat false (S m)) false || x) =
  (a ++ [x]) ++ repeat false m.
Proof.
  rewrite upd_app_r by lia. rewrite app_nth2, Nat.sub_diag by lia. cbn.
  rewrite <- app_assoc. reflexivity.
Qed.

Lemma proof_bitmap_spec l : forall a m map,
  kbits map = a ++ repeat false m -> length l <= m ->
  exists map', proof_bitmap l (length a) map = Ok map' /\ length map' = length map /\
    kbits map' = a ++ flags l ++ repeat false (m - length l).
Proof.
  induction l as [|[p h] l IH]; intros a m map E L; cbn [proof_bitmap flags List.map app].
  - cbn [length]. rewrite Nat.sub_0_r. eauto.
  - cbn [length] in L. destruct m as [|m]; [lia|]. cbn [fst].
    assert (Hlen : length a < 8 * length map).
    { rewrite <- kbits_length, E, app_length, repeat_length. lia. }
    assert (Q : exists map1, (if 0 <? bsize p then set_bit map (length a) true else Ok map) = Ok map1 /\
       length map1 = length map /\ kbits map1 = (a ++ [0 <? bsize p]) ++ repeat false m).
    { destruct (0 <? bsize p).
      - destruct (set_bit_spec map (length a) true Hlen) as (k' & E1 & E2 & E3).
        exists k'. repeat split; auto. rewrite E3, E. apply upd_last_false.
      - exists map. repeat split; auto. rewrite E. cbn [repeat]. rewrite <- app_assoc. reflexivity. }
    destruct Q as (map1 & -> & L1 & E1). cbn [bind].
    destruct (IH _ _ _ E1 ltac:(lia)) as (map' & E2 & L2 & E3).
    rewrite app_length in E2. cbn [length] in E2. rewrite Nat.add_1_r in E2.
    exists map'. repeat split; [assumption|congruence|].
    rewrite E3. cbn [length]. rewrite <- app_assoc. reflexivity.
Qed.

Lemma proof_bitmap_pack l : 
  proof_bitmap l 0 (repeat x00 (nbytes (length l))) = Ok (pack (nbytes (length l)) (flags l)).
Proof.
  pose proof (nbytes_le (length l)) as NL.
  destruct (proof_bitmap_spec l [] (8 * nbytes (length l)) (repeat x00 (nbytes (length l)))) as (m & E & L & K).
  - cbn [app]. apply kbits_zero.
  - assumption.
  - cbn [length] in E. rewrite E. f_equal. apply kbits_inj.
    rewrite K, kbits_pack by (unfold flags; rewrite map_length; assumption).
    cbn [app]. rewrite flags_length. reflexivity.
Qed.

(** ** The node section *)

Lemma clean_zero_size b : ok_bits b -> clean b -> bsize b = 0 -> b = mkbits 0 (repeat x00 32).
Proof.
  intros O C Z. destruct b as [n d]. cbn in Z. subst n. f_equal. exact C.
Qed.

Lemma proof_nodes_write_ok l : Forall ok_node l ->
  exists x, proof_nodes_write l = Ok x /\ proof_nodes_size l = Ok (length x) /\ length x <= 66 * length l.
Proof.
  induction 1 as [|[p h] l [O Lh] F (x & E1 & E2 & E3)]; cbn [proof_nodes_write proof_nodes_size].
  - exists []. cbn. auto.
  - cbn [fst snd] in *. rewrite E1, E2. destruct (0 <? bsize p).
    + pose proof (bits_write_ok p O) as EW. pose proof (bits_size_write p _ O EW) as ES.
      pose proof (bits_write_length p _ O EW) as LW. rewrite EW, ES. cbn [bind].
      eexists. split; [reflexivity|]. rewrite !app_length in *. cbn [length].
      split; [f_equal; unfold HASH_SIZE; lia|lia].
    + cbn [bind]. eexists. split; [reflexivity|]. cbn [app]. rewrite !app_length. cbn [length].
      split; [f_equal; unfold HASH_SIZE; lia|lia].
Qed.

Lemma proof_read_nodes_write l : forall a c map x rest,
  Forall ok_node l -> Forall (fun n => clean (fst n)) l ->
  kbits map = a ++ flags l ++ c -> length a + length l <= 256 ->
  proof_nodes_write l = Ok x ->
  proof_read_nodes (length l) (length a) map (x ++ rest) = Ok (Some (l, rest)).
Proof.
  induction l as [|[p h] l IH]; intros a c map x rest F C K Ln E.
  - cbn in E. injection E as <-. reflexivity.
  - inversion F as [|? ? [O Lh] F']; subst. inversion C as [|? ? C1 C']; subst. cbn [fst snd] in *.
    destruct (proof_nodes_write_ok l F') as (y & Ey & _ & _).
    cbn [proof_nodes_write] in E. rewrite Ey in E.
    cbn [length proof_read_nodes]. rewrite get_bit_spec, K.
    rewrite nth_error_app2, Nat.sub_diag by lia. cbn [flags List.map app nth_error fst bind].
    assert (Next : forall d, d = h ++ y ++ rest ->
       (if length d <? HASH_SIZE then Ok None else
        let! (h, d) := take HASH_SIZE d in
        check (length a <? KEY_BITS)
        (let! rest := proof_read_nodes (length l) (S (length a)) map d in
         match rest with
         | None => Ok None
         | Some (l, d) => Ok (Some ((p, h) :: l, d))
         end)) = Ok (Some ((p, h) :: l, rest))).
    { intros d ->. unfold HASH_SIZE.
      destruct (Nat.ltb_spec (length (h ++ y ++ rest)) 32) as [X|_]; [rewrite app_length in X; lia|].
      rewrite take_app by assumption. cbn [bind]. unfold check, KEY_BITS.
      cbn [length] in Ln. destruct (Nat.ltb_spec (length a) 256) as [_|X]; [|lia].
      replace (S (length a)) with (length (a ++ [0 <? bsize p])) by (rewrite app_length; cbn; lia).
      rewrite (IH _ c map y rest); auto.
      - rewrite K, <- app_assoc. reflexivity.
      - rewrite app_length. cbn [length]. lia. }
    destruct (Nat.ltb_spec 0 (bsize p)) as [G|G].
    + pose proof (bits_write_ok p O) as EW. rewrite EW in E. cbn [bind] in E. injection E as <-.
      rewrite <- !app_assoc. rewrite (app_assoc (bits_head _)).
      rewrite (bits_read_write_clean p _ _ O C1 EW). cbn [bind].
      destruct (Nat.eqb_spec (bsize p) 0) as [X|_]; [lia|].
      unfold KEY_BITS at 1. pose proof O as [_ Sp].
      destruct (Nat.ltb_spec 256 (bsize p)) as [X|_]; [lia|]. cbn [orb].
      rewrite (bits_size_write p _ O EW). cbn [bind].
      rewrite take_app by reflexivity. cbn [bind]. apply Next. reflexivity.
    + cbn [bind] in E. injection E as <-. cbn [app].
      rewrite bits_init_spec by lia. cbn [bind].
      rewrite <- (clean_zero_size p O C1 ltac:(lia)). apply Next. rewrite <- app_assoc. reflexivity.
Qed.

(** Every successful read of the node section comes from a write. *)
Lemma proof_read_nodes_inv n : forall i map d,
  i + n <= 256 -> i + n <= 8 * length map ->
  proof_read_nodes n i map d = Ok None \/
  exists l x rest, proof_read_nodes n i map d = Ok (Some (l, rest)) /\ length l = n /\
    Forall ok_node l /\ Forall (fun n => clean (fst n)) l /\ proof_nodes_write l = Ok x /\ d = x ++ rest /\
    firstn n (skipn i (kbits map)) = flags l.
Proof.
  induction n as [|n IH]; intros i map d Li Lm.
  - right. exists [], [], d. cbn. repeat split; auto.
  - cbn [proof_read_nodes].
    destruct (get_bit_ok map i ltac:(lia)) as (b & -> & Nb). cbn [bind].
    assert (Next : forall p x d', ok_bits p -> clean p -> (0 <? bsize p) = b ->
       (if 0 <? bsize p then bits_write p else Ok []) = Ok x -> d = x ++ d' ->
       forall r, r = (if length d' <? HASH_SIZE then Ok None else
        let! (h, d) := take HASH_SIZE d' in
        check (i <? KEY_BITS)
        (let! rest := proof_read_nodes n (S i) map d in
         match rest with
         | None => Ok None
         | Some (l, d) => Ok (Some ((p, h) :: l, d))
         end)) ->
       r = Ok None \/
       exists l x rest, r = Ok (Some (l, rest)) /\ length l = S n /\
         Forall ok_node l /\ Forall (fun n => clean (fst n)) l /\ proof_nodes_write l = Ok x /\ d = x ++ rest /\
         firstn (S n) (skipn i (kbits map)) = flags l).
    { intros p x d' O C Eb Ex Ed r ->. unfold HASH_SIZE.
      destruct (Nat.ltb_spec (length d') 32) as [X|Ld]; [auto|].
      rewrite take_ok by assumption. cbn [bind]. unfold check, KEY_BITS.
      destruct (Nat.ltb_spec i 256) as [_|X]; [|lia].
      destruct (IH (S i) map (skipn 32 d') ltac:(lia) ltac:(lia)) as
        [->|(l & y & rest & -> & Ll & Fl & Cl & Ey & Edd & Fm)]; [auto|]. cbn [bind]. right.
      eexists _, (x ++ firstn 32 d' ++ y), rest. split; [reflexivity|].
      split; [cbn; congruence|]. split; [|split; [|split; [|split]]].
      - constructor; auto. split; auto. cbn [snd]. rewrite firstn_length. lia.
      - constructor; auto.
      - cbn [proof_nodes_write]. rewrite Ex, Ey. reflexivity.
      - rewrite <- !app_assoc, <- Edd, firstn_skipn. exact Ed.
      - rewrite (skipn_nth _ _ _ Nb). cbn [flags List.map fst]. rewrite firstn_cons, Eb. f_equal. exact Fm. }
    destruct b.
    + destruct (bits_read_inv d) as [->|(p & x & r & -> & O & C & Wx & Ed)]; [cbn; auto|]. cbn [bind].
      destruct (Nat.eqb_spec (bsize p) 0) as [X|Np]; [cbn; auto|].
      pose proof O as [_ Sp].
      replace (KEY_BITS <? bsize p) with false by (symmetry; apply Nat.ltb_ge; exact Sp). cbn [orb].
      rewrite (bits_size_write p _ O Wx). cbn [bind].
      replace (take (length x) d) with (Ok (x, r)) by (rewrite Ed; symmetry; apply take_app; reflexivity). cbn [bind].
      destruct (Nat.ltb_spec 0 (bsize p)) as [G|G]; [|lia].
      eapply Next with (p := p) (x := x) (d' := r); auto; destruct (Nat.ltb_spec 0 (bsize p)); auto; lia.
    + rewrite bits_init_spec by lia. cbn [bind].
      eapply Next with (x := []) (d' := d); auto.
      * split; cbn; [reflexivity|lia].
      * reflexivity.
      * reflexivity.
      * reflexivity.
Qed.

(** ** The tail *)

Lemma tail_write_ok t : ok_tail t -> exists x, tail_write t = Ok x /\ length x <= 1025.
Proof.
  destruct t as [|p l r|k h|v]; cbn [tail_write ok_tail].
  - exists []. cbn; split; [reflexivity|lia].
  - intros (O & _ & Ll & Lr). pose proof (bits_write_ok p O) as EW.
    pose proof (bits_write_length p _ O EW). rewrite EW. cbn [bind].
    eexists. split; [reflexivity|]. rewrite !app_length in *. lia.
  - intros (Lk & Lh). eexists. split; [reflexivity|]. rewrite app_length. lia.
  - intros Lv. eexists. split; [reflexivity|]. rewrite app_length. cbn [write16 length]. lia.
Qed.

Lemma tail_read_write t x : ok_tail t -> clean_tail t -> tail_write t = Ok x ->
  tail_read (tail_type t) x = Ok (Some t).
Proof.
  destruct t as [|p l r|k h|v]; cbn [tail_write ok_tail clean_tail tail_type]; intros O C E.
  - injection E as <-. reflexivity.
  - destruct O as (O & Nz & Ll & Lr). pose proof (bits_write_ok p O) as EW.
    rewrite EW in E. cbn [bind] in E. injection E as <-.
    unfold tail_read. change (1 =? 0)%N with false. change (1 =? 1)%N with true. cbv iota.
    rewrite (bits_read_write_clean p _ _ O C EW). cbn [bind].
    destruct (Nat.eqb_spec (bsize p) 0) as [X|_]; [lia|].
    unfold KEY_BITS. pose proof O as [_ Sp].
    destruct (Nat.ltb_spec 256 (bsize p)) as [X|_]; [lia|]. cbn [orb].
    rewrite (bits_size_write p _ O EW). cbn [bind].
    rewrite take_app by reflexivity. cbn [bind]. unfold HASH_SIZE.
    destruct (Nat.ltb_spec (length (l ++ r)) (32 * 2)) as [X|_]; [rewrite app_length in X; lia|].
    rewrite take_app by assumption. cbn [bind].
    rewrite <- (app_nil_r r) at 1. rewrite take_app by assumption. reflexivity.
  - destruct O as (Lk & Lh). injection E as <-.
    unfold tail_read. change (2 =? 0)%N with false. change (2 =? 1)%N with false. change (2 =? 2)%N with true. cbv iota.
    unfold KEY_SIZE, HASH_SIZE.
    destruct (Nat.ltb_spec (length (k ++ h)) (32 + 32)) as [X|_]; [rewrite app_length in X; lia|].
    rewrite take_app by assumption. cbn [bind].
    rewrite <- (app_nil_r h) at 1. rewrite take_app by assumption. reflexivity.
  - assert (x = write16 (N.of_nat (length v)) ++ v) by congruence. subst x.
    unfold tail_read. change (3 =? 0)%N with false. change (3 =? 1)%N with false.
    change (3 =? 2)%N with false. change (3 =? 3)%N with true. cbv iota.
    nolt. rewrite read16_write16 by lia. cbn [bind]. unfold adv. rewrite skipn_write16, Nat2N.id.
    destruct (Nat.ltb_spec (length v) (length v)) as [X|_]; [lia|]. unfold VALUE_SIZE.
    destruct (Nat.ltb_spec 1023 (length v)) as [X|_]; [lia|].
    rewrite <- (app_nil_r v) at 2. rewrite take_app by reflexivity. reflexivity.
Qed.

Lemma tail_read_inv ty d : tail_read ty d = Ok None \/
  exists t, tail_read ty d = Ok (Some t) /\ ok_tail t /\ clean_tail t /\ tail_write t = Ok d /\ tail_type t = ty.
Proof.
  unfold tail_read.
  destruct (N.eqb_spec ty 0) as [->|N0].
  { destruct (Nat.eqb_spec (length d) 0) as [Z|Z]; [|auto]. right. exists TDeadend.
    destruct d; [|discriminate Z]. cbn. auto 10. }
  destruct (N.eqb_spec ty 1) as [->|N1].
  { destruct (bits_read_inv d) as [->|(p & x & r & -> & O & C & Wx & Ed)]; [cbn; auto|]. cbn [bind].
    destruct (Nat.eqb_spec (bsize p) 0) as [X|Np]; [cbn; auto|].
    unfold KEY_BITS. pose proof O as [_ Sp].
    destruct (Nat.ltb_spec 256 (bsize p)) as [X|_]; [lia|]. cbn [orb].
    rewrite (bits_size_write p _ O Wx). cbn [bind]. rewrite Ed. rewrite take_app by reflexivity.
    cbn [bind]. unfold HASH_SIZE.
    destruct (Nat.ltb_spec (length r) (32 * 2)) as [X|Lr]; [auto|].
    rewrite take_ok by lia. cbn [bind].
    rewrite take_ok by (rewrite skipn_length; lia). cbn [bind].
    destruct (Nat.eqb_spec (length (skipn 32 (skipn 32 r))) 0) as [Z|Z]; [|auto]. right.
    eexists. split; [reflexivity|]. cbn [ok_tail clean_tail tail_write tail_type].
    split; [|split; [|split]]; auto.
    - rewrite !firstn_length, skipn_length. split; [exact O|]. repeat split; auto; lia.
    - rewrite Wx. cbn [bind]. f_equal. f_equal.
      rewrite <- (firstn_skipn 32 r) at 3. f_equal.
      rewrite <- (firstn_skipn 32 (skipn 32 r)) at 2.
      apply length_zero_iff_nil in Z. rewrite Z, app_nil_r. reflexivity. }
  destruct (N.eqb_spec ty 2) as [->|N2].
  { unfold KEY_SIZE, HASH_SIZE. destruct (Nat.ltb_spec (length d) (32 + 32)) as [X|Ld]; [auto|].
    rewrite take_ok by lia. cbn [bind].
    rewrite take_ok by (rewrite skipn_length; lia). cbn [bind].
    destruct (Nat.eqb_spec (length (skipn 32 (skipn 32 d))) 0) as [Z|Z]; [|auto]. right.
    eexists. split; [reflexivity|]. cbn [ok_tail clean_tail tail_write tail_type].
    split; [|split; [|split]]; auto.
    - rewrite !firstn_length, skipn_length. split; lia.
    - f_equal. rewrite <- (firstn_skipn 32 d) at 3. f_equal.
      rewrite <- (firstn_skipn 32 (skipn 32 d)) at 2.
      apply length_zero_iff_nil in Z. rewrite Z, app_nil_r. reflexivity. }
  destruct (N.eqb_spec ty 3) as [->|N3]; [|auto].
  destruct (Nat.ltb_spec (length d) 2) as [X|Ld]; [auto|].
  destruct d as [|a [|b d]]; cbn [length] in Ld; try lia. cbn [read16 bind]. unfold adv. cbn [skipn].
  set (z := (b2n b * 256 + b2n a)%N).
  destruct (Nat.ltb_spec (length d) (N.to_nat z)) as [X|Lz]; [auto|]. unfold VALUE_SIZE.
  destruct (Nat.ltb_spec 1023 (N.to_nat z)) as [X|Lz2]; [auto|].
  rewrite take_ok by assumption. cbn [bind].
  destruct (Nat.eqb_spec (length (skipn (N.to_nat z) d)) 0) as [Z|Z]; [|auto]. right.
  rewrite skipn_length in Z.
  eexists. split; [reflexivity|]. cbn [ok_tail clean_tail tail_write tail_type].
  split; [|split; [|split]]; auto.
  - rewrite firstn_length. lia.
  - rewrite firstn_all2 by lia. f_equal.
    assert (Ez : N.of_nat (length d) = z) by lia. rewrite Ez.
    pose proof (b2n_lt a). pose proof (b2n_lt b).
    unfold write16. cbn [app]. f_equal; [|f_equal]; apply b2n_inj; rewrite b2n_n2b; unfold z; lia.
Qed.

(** ** Whole proofs *)

Lemma ldiff_field ty n : (n < 16384)%N -> (ty < 4)%N ->
  N.shiftr (N.lor (N.shiftl ty 14) n) 14 = ty /\
  N.ldiff (N.lor (N.shiftl ty 14) n) (N.shiftl 3 14) = n.
Proof.
  intros Ln Lt. rewrite shiftr14. rewrite lor_shiftl_add by (change (2^14)%N with 16384%N; lia).
  change (2^14)%N with 16384%N. split; [lia|].
  apply N.bits_inj. intros i. rewrite N.ldiff_spec.
  destruct (N.lt_ge_cases i 14) as [Hi|Hi].
  - rewrite (N.shiftl_spec_low 3) by assumption. rewrite andb_true_r.
    rewrite <- (N.mod_pow2_bits_low _ 14) by assumption. change (2^14)%N with 16384%N.
    f_equal. lia.
  - replace (N.testbit n i) with false.
    2:{ symmetry. destruct (N.eq_dec n 0) as [->|Nn]; [apply N.bits_0|].
        apply N.bits_above_log2. apply N.log2_lt_pow2; [lia|].
        eapply N.lt_le_trans; [exact Ln|]. change 16384%N with (2^14)%N. apply N.pow_le_mono_r; lia. }
    destruct (N.lt_ge_cases i 16) as [Hj|Hj].
    + assert (i = 14 \/ i = 15)%N as [-> | ->] by lia; cbn [N.testbit]; apply andb_false_r.
    + replace (N.testbit (ty * 16384 + n) i) with false; [reflexivity|]. symmetry.
      destruct (N.eq_dec (ty * 16384 + n) 0) as [->|Nn]; [apply N.bits_0|].
      apply N.bits_above_log2. apply N.log2_lt_pow2; [lia|].
      eapply N.lt_le_trans with (m := (2^16)%N); [change (2^16)%N with 65536%N; lia|].
      apply N.pow_le_mono_r; lia.
Qed.

Lemma field_small ty n : (n < 16384)%N -> (ty < 4)%N -> (N.lor (N.shiftl ty 14) n < 65536)%N.
Proof. intros. rewrite lor_shiftl_add by (change (2^14)%N with 16384%N; lia). change (2^14)%N with 16384%N. lia. Qed.

Lemma tail_type_lt t : (tail_type t < 4)%N.
Proof. destruct t; cbn; lia. Qed.

Lemma proof_write_ok p : ok_proof p ->
  exists xn xt, proof_nodes_write (p_nodes p) = Ok xn /\ tail_write (p_tail p) = Ok xt /\
   proof_write p = Ok (write16 (N.lor (N.shiftl (tail_type (p_tail p)) 14) (N.of_nat (p_depth p)))
      ++ write16 (N.of_nat (length (p_nodes p)))
      ++ pack (nbytes (length (p_nodes p))) (flags (p_nodes p)) ++ xn ++ xt).
Proof.
  intros (D & Ln & F & T). destruct (proof_nodes_write_ok _ F) as (xn & E1 & _ & _).
  destruct (tail_write_ok _ T) as (xt & E2 & _). exists xn, xt. repeat split; auto.
  unfold proof_write. rewrite proof_bitmap_pack, E1, E2. reflexivity.
Qed.

Lemma proof_size_ok p : ok_proof p ->
  exists x, proof_write p = Ok x /\ proof_size p = Ok (length x) /\ (N.of_nat (length x) <= 17957)%N.
Proof.
  intros O. pose proof O as (D & Ln & F & T).
  destruct (proof_write_ok p O) as (xn & xt & E1 & E2 & E3).
  destruct (proof_nodes_write_ok _ F) as (xn' & E1' & S1 & B1). rewrite E1 in E1'. injection E1' as <-.
  destruct (tail_write_ok _ T) as (xt' & E2' & B2). rewrite E2 in E2'. injection E2' as <-.
  eexists. split; [exact E3|]. pose proof (nbytes_bound (length (p_nodes p)) 32 ltac:(lia)).
  rewrite !app_length, pack_length. cbn [write16 length]. split; [|lia].
  unfold proof_size. rewrite S1. cbn [bind].
  destruct (p_tail p) as [|q l r|k h|v]; cbn [tail_write ok_tail] in *.
  - injection E2 as <-. cbn [bind length]. f_equal. lia.
  - destruct T as (Oq & _ & Ll & Lr). pose proof (bits_write_ok q Oq) as EW. rewrite EW in E2.
    cbn [bind] in E2. injection E2 as <-. rewrite (bits_size_write q _ Oq EW). cbn [bind].
    f_equal. rewrite !app_length. unfold HASH_SIZE. lia.
  - injection E2 as <-. cbn [bind]. f_equal. rewrite !app_length. unfold HASH_SIZE, KEY_SIZE. lia.
  - injection E2 as <-. cbn [bind]. f_equal. cbn [length]. lia.
Qed.

Lemma proof_roundtrip p x : ok_proof p -> clean_proof p -> proof_write p = Ok x -> proof_read x = Ok (Some p).
Proof.
  intros O [C1 C2] E. pose proof O as (D & Ln & F & T).
  destruct (proof_write_ok p O) as (xn & xt & E1 & E2 & E3). rewrite E3 in E. apply Ok_inj in E. subst x.
  unfold proof_read. nolt.
  pose proof (tail_type_lt (p_tail p)) as TT.
  rewrite read16_write16 by (apply field_small; lia). cbn [bind]. unfold adv. rewrite skipn_write16.
  rewrite read16_write16 by lia. cbn [bind].
  destruct (ldiff_field (tail_type (p_tail p)) (N.of_nat (p_depth p)) ltac:(lia) TT) as [-> ->].
  destruct (N.ltb_spec 256 (N.of_nat (p_depth p))) as [X|_]; [lia|].
  destruct (N.ltb_spec 256 (N.of_nat (length (p_nodes p)))) as [X|_]; [lia|].
  rewrite !Nat2N.id.
  match goal with |- context [skipn 4 (?a ++ ?b ++ ?c)] =>
    replace (skipn 4 (a ++ b ++ c)) with c by reflexivity end.
  set (n := length (p_nodes p)) in *.
  match goal with |- context [length ?d <? nbytes n] =>
    destruct (Nat.ltb_spec (length d) (nbytes n)) as [X|_]; [rewrite app_length, pack_length in X; lia|] end.
  rewrite take_app by apply pack_length. cbn [bind].
  rewrite (proof_read_nodes_write (p_nodes p) [] (repeat false (8 * nbytes n - n)) _ xn xt); auto.
  - cbn [bind]. rewrite (tail_read_write _ _ T C2 E2). cbn [bind]. destruct p; reflexivity.
  - cbn [app]. rewrite kbits_pack by (unfold flags; rewrite map_length; apply nbytes_le).
    rewrite flags_length. reflexivity.
Qed.

(** Unused bits of the node bitmap of an encoded proof. *)
Definition pad_bits (raw : bytes) : list bool :=
  match raw with
  | _ :: _ :: a :: b :: d =>
    let count := N.to_nat (b2n b * 256 + b2n a)%N in
    skipn count (kbits (firstn (nbytes count) d))
  | _ => []
  end.

(** Every decodable byte string is the encoding of the decoded proof, except possibly for
    the unused bitmap bits. *)
Lemma proof_read_inv raw : proof_read raw = Ok None \/
  exists p, proof_read raw = Ok (Some p) /\ ok_proof p /\ clean_proof p /\
    exists xn xt map, proof_nodes_write (p_nodes p) = Ok xn /\ tail_write (p_tail p) = Ok xt /\
     raw = write16 (N.lor (N.shiftl (tail_type (p_tail p)) 14) (N.of_nat (p_depth p)))
      ++ write16 (N.of_nat (length (p_nodes p))) ++ map ++ xn ++ xt /\
     length map = nbytes (length (p_nodes p)) /\
     kbits map = flags (p_nodes p) ++ pad_bits raw.
Proof.
  unfold proof_read.
  destruct (Nat.ltb_spec (length raw) 4) as [X|L4]; [auto|].
  destruct raw as [|a [|b [|c [|e d]]]]; cbn [length] in L4; try lia. clear L4.
  unfold adv. cbn [read16 bind skipn].
  pose proof (b2n_lt a). pose proof (b2n_lt b). pose proof (b2n_lt c). pose proof (b2n_lt e).
  set (field := (b2n b * 256 + b2n a)%N). set (cnt := (b2n e * 256 + b2n c)%N).
  assert (EF : field = N.lor (N.shiftl (N.shiftr field 14) 14) (N.ldiff field (N.shiftl 3 14)) /\
               (N.shiftr field 14 < 4)%N).
  { assert (Q : exists ty n, (ty < 4)%N /\ (n < 16384)%N /\ field = N.lor (N.shiftl ty 14) n).
    { exists (field / 16384)%N, (field mod 16384)%N. rewrite lor_shiftl_add by (change (2^14)%N with 16384%N; lia).
      change (2^14)%N with 16384%N. unfold field. lia. }
    destruct Q as (ty & n & Lt & Ln & ->). destruct (ldiff_field ty n Ln Lt) as [-> ->]. auto. }
  destruct EF as [EF Lty].
  set (depth := N.ldiff field (N.shiftl 3 14)) in *. set (ty := N.shiftr field 14) in *.
  destruct (N.ltb_spec 256 depth) as [X|Ld]; [auto|].
  destruct (N.ltb_spec 256 cnt) as [X|Lc]; [auto|].
  set (n := N.to_nat cnt).
  destruct (Nat.ltb_spec (length d) (nbytes n)) as [X|Lm]; [auto|].
  rewrite take_ok by assumption. cbn [bind].
  assert (LF : length (firstn (nbytes n) d) = nbytes n) by (rewrite firstn_length; lia).
  destruct (proof_read_nodes_inv n 0 (firstn (nbytes n) d) (skipn (nbytes n) d))
    as [->|(l & xn & rest & -> & Ll & Fl & Cl & En & Ed & Em)]; [lia| |auto|].
  { rewrite LF. pose proof (nbytes_le n). lia. }
  cbn [bind]. destruct (tail_read_inv ty rest) as [->|(t & -> & Ot & Ct & Et & Ety)]; [auto|].
  cbn [bind]. right. eexists. split; [reflexivity|].
  split; [|split].
  - unfold ok_proof. cbn [p_depth p_nodes p_tail]. repeat split; auto; lia.
  - split; auto.
  - cbn [p_depth p_nodes p_tail]. exists xn, rest, (firstn (nbytes n) d).
    split; [auto|]. split; [auto|]. split; [|split].
    + rewrite Ety, N2Nat.id, <- EF. replace (N.of_nat (length l)) with cnt by lia.
      rewrite <- Ed, firstn_skipn.
      unfold write16. cbn [app].
      f_equal; [|f_equal; [|f_equal; [|f_equal]]]; apply b2n_inj; rewrite b2n_n2b; unfold field, cnt; lia.
    + rewrite LF. congruence.
    + cbn [pad_bits]. fold cnt. fold n. cbn [skipn] in Em. rewrite <- Em, firstn_skipn. reflexivity.
Qed.

Lemma proof_read_total raw : exists r, proof_read raw = Ok r /\
  (forall p, r = Some p -> ok_proof p /\ clean_proof p).
Proof.
  destruct (proof_read_inv raw) as [->|(p & -> & O & C & _)].
  - eexists. split; [reflexivity|]. discriminate.
  - eexists. split; [reflexivity|]. intros q E. injection E as <-. auto.
Qed.
