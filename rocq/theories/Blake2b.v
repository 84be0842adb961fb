(** * BLAKE2b (blake2b.c) and the checksum and hash wrappers built on it (util.c). *)
From Verif Require Export Prelude.
From Coq Require Import ZifyBool ZifyNat ZifyN.
Local Open Scope N_scope.

(** uint64_t arithmetic wraps around. *)
Definition w64 : N := 18446744073709551616.
Definition add64 (a b : N) : N := (a + b) mod w64.

(** urkel_rotr64: blake2b.c 27-30, (w >> c) | (w << (64 - c)). *)
Definition rotr64 (w c : N) : N := N.lor (N.shiftr w c) (N.shiftl w (64 - c) mod w64).

(** urkel_blake2b_iv: blake2b.c 36-41. *)
Definition iv : list N :=
  [0x6a09e667f3bcc908; 0xbb67ae8584caa73b; 0x3c6ef372fe94f82b; 0xa54ff53a5f1d36f1;
   0x510e527fade682d1; 0x9b05688c2b3e6c1f; 0x1f83d9abfb41bd6b; 0x5be0cd19137e2179].

(** urkel_blake2b_sigma: blake2b.c 43-56. *)
Definition sigma : list (list nat) :=
  ([[0; 1; 2; 3; 4; 5; 6; 7; 8; 9; 10; 11; 12; 13; 14; 15];
    [14; 10; 4; 8; 9; 15; 13; 6; 1; 12; 0; 2; 11; 7; 5; 3];
    [11; 8; 12; 0; 5; 2; 15; 13; 10; 14; 3; 6; 7; 1; 9; 4];
    [7; 9; 3; 1; 13; 12; 11; 14; 2; 6; 5; 10; 4; 0; 15; 8];
    [9; 0; 5; 7; 2; 4; 10; 15; 14; 1; 11; 12; 6; 8; 3; 13];
    [2; 12; 6; 10; 0; 11; 8; 3; 4; 13; 7; 5; 15; 14; 1; 9];
    [12; 5; 1; 15; 14; 13; 4; 10; 0; 7; 6; 3; 9; 2; 8; 11];
    [13; 11; 7; 14; 12; 1; 3; 9; 5; 0; 15; 4; 8; 6; 2; 10];
    [6; 15; 14; 9; 11; 3; 0; 8; 12; 2; 13; 7; 1; 4; 10; 5];
    [10; 2; 8; 4; 7; 6; 1; 5; 15; 11; 9; 14; 3; 12; 13; 0];
    [0; 1; 2; 3; 4; 5; 6; 7; 8; 9; 10; 11; 12; 13; 14; 15];
    [14; 10; 4; 8; 9; 15; 13; 6; 1; 12; 0; 2; 11; 7; 5; 3]])%nat.

(** urkel_read64 / urkel_write64: util.h 95-106, 135-145. *)
Fixpoint read_le (d : bytes) : N :=
  match d with [] => 0 | b :: d' => b2n b + 256 * read_le d' end.
Definition read64 (d : bytes) : N := read_le (firstn 8 d).
Fixpoint write_le (n : nat) (w : N) : bytes :=
  match n with O => [] | S n' => n2b w :: write_le n' (w / 256) end.
Definition write64 (w : N) : bytes := write_le 8 w.

(** The G macro: blake2b.c 119-128, on positions a b c d of the working vector. *)
Definition G (m : list N) (r i a b c d : nat) (v : list N) : list N :=
  let s j := nth (nth (2 * i + j) (nth r sigma []) 0%nat) m 0 in
  let g (v : list N) j := nth j v 0 in
  let v := upd v a (add64 (add64 (g v a) (g v b)) (s 0%nat)) in
  let v := upd v d (rotr64 (N.lxor (g v d) (g v a)) 32) in
  let v := upd v c (add64 (g v c) (g v d)) in
  let v := upd v b (rotr64 (N.lxor (g v b) (g v c)) 24) in
  let v := upd v a (add64 (add64 (g v a) (g v b)) (s 1%nat)) in
  let v := upd v d (rotr64 (N.lxor (g v d) (g v a)) 16) in
  let v := upd v c (add64 (g v c) (g v d)) in
  upd v b (rotr64 (N.lxor (g v b) (g v c)) 63).

(** The ROUND macro: blake2b.c 130-139. *)
Definition ROUND (m : list N) (v : list N) (r : nat) : list N :=
  let v := G m r 0 0 4 8 12 v in
  let v := G m r 1 1 5 9 13 v in
  let v := G m r 2 2 6 10 14 v in
  let v := G m r 3 3 7 11 15 v in
  let v := G m r 4 0 5 10 15 v in
  let v := G m r 5 1 6 11 12 v in
  let v := G m r 6 2 7 8 13 v in
  G m r 7 3 4 9 14 v.

(** urkel_blake2b_compress: blake2b.c 94-158, on h, the two counter words, the 128-byte
    chunk and f0. *)
Definition compress (h : list N) (t0 t1 : N) (chunk : bytes) (f0 : N) : list N :=
  let m := map (fun i => read64 (skipn (8 * i) chunk)) (seq 0 16) in
  let v := firstn 8 h ++
    [nth 0 iv 0; nth 1 iv 0; nth 2 iv 0; nth 3 iv 0;
     N.lxor (nth 4 iv 0) t0; N.lxor (nth 5 iv 0) t1; N.lxor (nth 6 iv 0) f0; nth 7 iv 0] in
  let v := fold_left (ROUND m) (seq 0 12) v in
  map (fun i => N.lxor (nth i h 0) (N.lxor (nth i v 0) (nth (i + 8) v 0))) (seq 0 8).

(** struct urkel_blake2b_s: blake2b.h 17-23. *)
Record ctx := mkctx { c_h : list N; c_t0 : N; c_t1 : N; c_buf : bytes; c_buflen : nat; c_outlen : nat }.

(** urkel_blake2b_increment: blake2b.c 88-92. *)
Definition increment (c : ctx) (inc : N) : ctx :=
  let t0 := add64 (c_t0 c) inc in
  let t1 := add64 (c_t1 c) (if t0 <? inc then 1 else 0) in
  mkctx (c_h c) t0 t1 (c_buf c) (c_buflen c) (c_outlen c).

Definition compressed (c : ctx) (chunk : bytes) (f0 : N) : ctx :=
  mkctx (compress (c_h c) (c_t0 c) (c_t1 c) chunk f0) (c_t0 c) (c_t1 c) (c_buf c) (c_buflen c) (c_outlen c).

(** memcpy(buf + at, src, length src) inside an array: [UB] when it does not fit. *)
Definition blit (buf : bytes) (at_ : nat) (src : bytes) : res bytes :=
  if (at_ + length src <=? length buf)%nat
  then Ok (firstn at_ buf ++ src ++ skipn (at_ + length src) buf) else UB.

(** while (len > 128): blake2b.c 177-182.  Returns the state and the remaining input. *)
Fixpoint update_loop (fuel : nat) (c : ctx) (d : bytes) : res (ctx * bytes) :=
  match fuel with
  | O => NoFuel
  | S fuel =>
    if (128 <? length d)%nat
    then update_loop fuel (compressed (increment c 128) (firstn 128 d) 0) (skipn 128 d)
    else Ok (c, d)
  end.

(** urkel_blake2b_update: blake2b.c 160-189. *)
Definition update (c : ctx) (d : bytes) : res ctx :=
  if (length d =? 0)%nat then Ok c else
  let left := c_buflen c in
  let fill := (128 - left)%nat in
  let! (c, d) :=
    (if (fill <? length d)%nat then
       let c := mkctx (c_h c) (c_t0 c) (c_t1 c) (c_buf c) 0 (c_outlen c) in
       let! buf := blit (c_buf c) left (firstn fill d) in
       let c := mkctx (c_h c) (c_t0 c) (c_t1 c) buf 0 (c_outlen c) in
       let c := compressed (increment c 128) buf 0 in
       update_loop (S (length d)) c (skipn fill d)
     else Ok (c, d)) in
  let! buf := blit (c_buf c) (c_buflen c) d in
  Ok (mkctx (c_h c) (c_t0 c) (c_t1 c) buf (c_buflen c + length d) (c_outlen c)).

(** urkel_blake2b_init: blake2b.c 58-86. *)
Definition init (outlen : nat) (key : bytes) : res ctx :=
  check ((1 <=? outlen)%nat && (outlen <=? 64)%nat)
  (check (length key <=? 64)%nat
  (let h0 := N.lxor (nth 0 iv 0)
       (N.lxor (N.lxor 0x01010000 (N.shiftl (N.of_nat (length key)) 8)) (N.of_nat outlen)) in
   let c := mkctx (h0 :: skipn 1 iv) 0 0 (repeat x00 128) 0 outlen in
   if (0 <? length key)%nat
   then let! block := blit (repeat x00 128) 0 key in update c block
   else Ok c)).

(** urkel_blake2b_final: blake2b.c 191-208. *)
Definition final (c : ctx) : res bytes :=
  let c := increment c (N.of_nat (c_buflen c)) in
  let! buf := blit (c_buf c) (c_buflen c) (repeat x00 (128 - c_buflen c)) in
  let c := compressed c buf (w64 - 1) in
  Ok (firstn (c_outlen c) (flat_map write64 (c_h c))).

(** Several updates in a row, as the callers in util.c do. *)
Fixpoint updates (c : ctx) (ds : list bytes) : res ctx :=
  match ds with [] => Ok c | d :: ds => let! c := update c d in updates c ds end.

(** init, any number of updates, final. *)
Definition blake2b_stream (outlen : nat) (key : bytes) (ds : list bytes) : res bytes :=
  let! c := init outlen key in let! c := updates c ds in final c.

(** ** RFC 7693, section 3.3, as the specification: no buffer, no streaming. *)
(** The counter is a 128-bit number. *)
Definition rfc_F (h : list N) (t : N) (block : bytes) (last : bool) : list N :=
  compress h (t mod w64) (t / w64 mod w64) block (if last then w64 - 1 else 0).
Fixpoint rfc_loop (fuel : nat) (h : list N) (t : N) (m : bytes) : list N :=
  match fuel with
  | O => []
  | S fuel =>
    if (length m <=? 128)%nat
    then rfc_F h (t + N.of_nat (length m)) (m ++ repeat x00 (128 - length m)) true
    else rfc_loop fuel (rfc_F h (t + 128) (firstn 128 m) false) (t + 128) (skipn 128 m)
  end.
Definition rfc_h0 (outlen keylen : nat) : list N :=
  N.lxor (nth 0 iv 0) (0x01010000 + 256 * N.of_nat keylen + N.of_nat outlen) :: skipn 1 iv.
Definition rfc_blake2b (outlen : nat) (key m : bytes) : bytes :=
  let m := match key with [] => m | _ => (key ++ repeat x00 (128 - length key)) ++ m end in
  firstn outlen (flat_map write64 (rfc_loop (S (length m)) (rfc_h0 outlen (length key)) 0 m)).

(** urkel_hash_raw: util.c 88-94 (also urkel_hash_key, 80-86). *)
Definition hash_raw (m : bytes) : res bytes := blake2b_stream 32 [] [m].

(** The hash used everywhere else in the model: BLAKE2b-256. *)
Definition blake2b256 (m : bytes) : bytes := rfc_blake2b 32 [] m.

(** ** The streaming code computes the RFC function, however the message is split. *)
Lemma blit_ok buf at_ src : (at_ + length src <= length buf)%nat ->
  blit buf at_ src = Ok (firstn at_ buf ++ src ++ skipn (at_ + length src) buf).
Proof. intros. unfold blit. destruct (Nat.leb_spec (at_ + length src) (length buf)); [auto|lia]. Qed.

(** What a context has absorbed: whole blocks [done], a partial (or full, pending) block
    [rest]. *)
Record absorbed (h0 : list N) (outlen : nat) (blocks : list bytes) (rest : bytes) (c : ctx) : Prop :=
  mk_abs {
    ab_h : c_h c = snd (fold_left (fun '(t, h) b => (t + 128, rfc_F h (t + 128) b false)) blocks (0, h0));
    ab_t : c_t0 c = fst (fold_left (fun '(t, h) b => (t + 128, rfc_F h (t + 128) b false)) blocks (0, h0)) mod w64;
    ab_t1 : c_t1 c = fst (fold_left (fun '(t, h) b => (t + 128, rfc_F h (t + 128) b false)) blocks (0, h0)) / w64 mod w64;
    ab_buf : exists junk, c_buf c = rest ++ junk /\ length (c_buf c) = 128%nat;
    ab_len : c_buflen c = length rest;
    ab_out : c_outlen c = outlen }.

Lemma add64_counter t i : i < 1024 -> 
  add64 (t mod w64) i = (t + i) mod w64 /\
  add64 (t / w64 mod w64) (if add64 (t mod w64) i <? i then 1 else 0) = (t + i) / w64 mod w64.
Proof.
  intros Hi. unfold add64. assert (w64 <> 0) by discriminate.
  assert (E : (t mod w64 + i) mod w64 = (t + i) mod w64) by (rewrite N.add_mod_idemp_l; auto).
  split; [exact E|]. 
  pose proof (N.div_mod t w64 ltac:(auto)) as D.
  pose proof (N.mod_lt t w64 ltac:(auto)) as L.
  set (q := t / w64) in *. set (r := t mod w64) in *. clearbody q r. subst t.
  rewrite N.add_mod_idemp_l by auto. f_equal.
  destruct (N.lt_ge_cases (r + i) w64) as [C|C].
  - rewrite N.mod_small by auto. destruct (N.ltb_spec (r + i) i); [lia|].
    rewrite N.add_0_r. apply (N.div_unique _ _ _ (r + i)); [auto|]. now rewrite N.add_assoc.
  - replace ((r + i) mod w64) with (r + i - w64).
    2:{ apply (N.mod_unique _ _ 1); unfold w64 in *; clear E; lia. }
    destruct (N.ltb_spec (r + i - w64) i); [|unfold w64 in *; clear E; lia].
    apply (N.div_unique _ _ _ (r + i - w64)); unfold w64 in *; clear E; lia.
Qed.

Lemma absorb_block h0 o blocks c b chunk : absorbed h0 o blocks b c -> length chunk = 128%nat ->
  c_buflen c = 0%nat ->
  absorbed h0 o (blocks ++ [chunk]) [] (compressed (increment c 128) chunk 0).
Proof.
  intros [Ah At At1 Ab Al Ao] L Z.
  destruct (fold_left (fun '(t, h) b => (t + 128, rfc_F h (t + 128) b false)) blocks (0, h0)) as [t h] eqn:E.
  cbn [fst snd] in *.
  destruct (add64_counter t 128 ltac:(lia)) as [E0 E1].
  constructor; rewrite ?fold_left_app, ?E; cbn [fold_left fst snd compressed increment c_h c_t0 c_t1 c_buf c_buflen c_outlen].
  - rewrite At, At1, Ah. unfold rfc_F. rewrite E1, E0. reflexivity.
  - now rewrite At, E0.
  - now rewrite At, At1, E1.
  - destruct Ab as (j & E' & L'). exists (c_buf c). auto.
  - exact Z.
  - exact Ao.
Qed.

Lemma update_loop_ok fuel : forall h0 o blocks b c d, (length d < fuel)%nat -> d <> [] ->
  absorbed h0 o blocks b c -> c_buflen c = 0%nat ->
  exists c' more d', update_loop fuel c d = Ok (c', d') /\ d = concat more ++ d' /\
    Forall (fun x => length x = 128%nat) more /\ (0 < length d' <= 128)%nat /\
    c_buflen c' = 0%nat /\ exists b', absorbed h0 o (blocks ++ more) b' c'.
Proof.
  induction fuel as [|fuel IH]; intros h0 o blocks b c d L Nd A Z; [lia|].
  cbn [update_loop]. destruct (Nat.ltb_spec 128 (length d)) as [G|G].
  - pose proof (absorb_block _ _ _ _ _ (firstn 128 d) A ltac:(rewrite firstn_length; lia) Z) as A'.
    assert (P1 : (length (skipn 128 d) < fuel)%nat) by (rewrite skipn_length; lia).
    assert (P2 : skipn 128 d <> []).
    { intros X. apply (f_equal (@length byte)) in X. rewrite skipn_length in X. cbn [length] in X. lia. }
    destruct (IH h0 o _ _ _ _ P1 P2 A' Z) as (c' & more & d' & E & Ed & F & Ld & Z' & b' & A2).
    + exists c', (firstn 128 d :: more), d'. split; [exact E|].
      split. { cbn [concat]. rewrite <- app_assoc, <- Ed. symmetry. apply firstn_skipn. }
      split. { constructor; [rewrite firstn_length; lia|exact F]. }
      split; [exact Ld|]. split; [exact Z'|]. exists b'. rewrite <- app_assoc in A2. exact A2.
  - exists c, [], d. split; [reflexivity|]. split; [reflexivity|]. split; [constructor|].
    split. { destruct d; [congruence|cbn [length] in *; lia]. }
    split; [exact Z|]. exists b. rewrite app_nil_r. exact A.
Qed.

Lemma absorbed_buf h0 o blocks rest c buf new :
  absorbed h0 o blocks rest c -> length buf = 128%nat -> (exists j, buf = new ++ j) ->
  absorbed h0 o blocks new (mkctx (c_h c) (c_t0 c) (c_t1 c) buf (length new) (c_outlen c)).
Proof.
  intros [Ah At At1 Ab Al Ao] L (j & E).
  constructor; cbn [c_h c_t0 c_t1 c_buf c_buflen c_outlen]; auto. exists j. auto.
Qed.

(** State invariant: the message so far is [concat blocks ++ rest], with a full block only
    ever kept back as the last one. *)
Definition inv_ctx (h0 : list N) (o : nat) (m : bytes) (c : ctx) : Prop :=
  exists blocks rest, m = concat blocks ++ rest /\ Forall (fun x => length x = 128%nat) blocks /\
    (length rest <= 128)%nat /\ (blocks <> [] -> rest <> []) /\ absorbed h0 o blocks rest c.

Lemma update_ok h0 o m c d : inv_ctx h0 o m c ->
  exists c', update c d = Ok c' /\ inv_ctx h0 o (m ++ d) c'.
Proof.
  intros (blocks & rest & -> & F & L & Ne & A). unfold update.
  destruct (Nat.eqb_spec (length d) 0) as [Z|Nz].
  { destruct d; [|discriminate Z]. exists c. split; [reflexivity|].
    rewrite app_nil_r. exists blocks, rest. auto. }
  pose proof (ab_len _ _ _ _ _ A) as Al. destruct (ab_buf _ _ _ _ _ A) as (j & Eb & Lb).
  rewrite Al.
  destruct (Nat.ltb_spec (128 - length rest) (length d)) as [G|G].
  - cbn [c_buf c_h c_t0 c_t1 c_outlen].
    rewrite blit_ok by (rewrite firstn_length; lia). cbn [bind].
    set (k := (128 - length rest)%nat) in *.
    assert (Lf : length (firstn k d) = k) by (rewrite firstn_length; lia).
    replace (firstn (length rest) (c_buf c)) with rest.
    2:{ rewrite Eb. symmetry. apply firstn_app_exact. reflexivity. }
    replace (skipn (length rest + length (firstn k d)) (c_buf c)) with (@nil byte).
    2:{ symmetry. apply skipn_all2. rewrite Lf, Lb. unfold k. lia. }
    rewrite app_nil_r. set (blk := rest ++ firstn k d).
    assert (Lk : length blk = 128%nat) by (unfold blk; rewrite app_length, Lf; unfold k; lia).
    assert (A1 : absorbed h0 o blocks [] (mkctx (c_h c) (c_t0 c) (c_t1 c) blk 0 (c_outlen c))).
    { apply (absorbed_buf _ _ _ _ _ blk [] A Lk). exists blk. reflexivity. }
    pose proof (absorb_block _ _ _ _ _ blk A1 Lk eq_refl) as A2.
    assert (P1 : (length (skipn k d) < S (length d))%nat) by (rewrite skipn_length; lia).
    assert (P2 : skipn k d <> []).
    { intros X. apply (f_equal (@length byte)) in X. rewrite skipn_length in X. cbn [length] in X. lia. }
    destruct (update_loop_ok (S (length d)) h0 o _ _ _ _ P1 P2 A2 eq_refl)
      as (c' & more & d' & E & Ed & F' & Ld & Z' & b' & A3).
    + rewrite E. cbn [bind]. destruct (ab_buf _ _ _ _ _ A3) as (j' & Eb' & Lb').
      rewrite Z', blit_ok by lia. cbn [bind].
      eexists. split; [reflexivity|]. exists ((blocks ++ [blk]) ++ more), d'.
      split. { rewrite !concat_app. cbn [concat]. rewrite app_nil_r, <- !app_assoc, <- Ed.
               unfold blk. rewrite <- !app_assoc, firstn_skipn. reflexivity. }
      split. { apply Forall_app. split; [apply Forall_app; auto|auto]. }
      split; [lia|]. split. { intros _ X. subst d'. cbn in Ld. lia. }
      apply (absorbed_buf _ _ _ _ _ _ d' A3).
      * cbn [firstn app]. rewrite app_length, skipn_length. lia.
      * eexists. reflexivity.
  - cbn [bind]. rewrite Al, blit_ok by lia. cbn [bind].
    eexists. split; [reflexivity|]. exists blocks, (rest ++ d).
    split. { now rewrite <- app_assoc. }
    split; [exact F|]. split. { rewrite app_length. lia. }
    split. { intros _ X. apply app_eq_nil in X as [_ ->]. cbn in Nz. lia. }
    rewrite <- app_length.
    apply (absorbed_buf _ _ _ _ _ _ (rest ++ d) A).
    + rewrite !app_length, firstn_length, skipn_length. lia.
    + eexists. rewrite <- app_assoc. f_equal. rewrite Eb. apply firstn_app_exact. reflexivity.
Qed.

Lemma updates_ok ds : forall h0 o m c, inv_ctx h0 o m c ->
  exists c', updates c ds = Ok c' /\ inv_ctx h0 o (m ++ concat ds) c'.
Proof.
  induction ds as [|d ds IH]; intros h0 o m c I.
  - exists c. cbn. rewrite app_nil_r. auto.
  - cbn [updates concat]. destruct (update_ok _ _ _ _ d I) as (c1 & E & I1). rewrite E. cbn [bind].
    rewrite app_assoc. eauto.
Qed.

Lemma rfc_loop_blocks blocks : forall fuel h t rest,
  Forall (fun x => length x = 128%nat) blocks -> (blocks <> [] -> rest <> []) ->
  (length rest <= 128)%nat -> (length (concat blocks ++ rest) < fuel)%nat ->
  rfc_loop fuel h t (concat blocks ++ rest) =
  let '(t', h') := fold_left (fun '(t, h) b => (t + 128, rfc_F h (t + 128) b false)) blocks (t, h) in
  rfc_F h' (t' + N.of_nat (length rest)) (rest ++ repeat x00 (128 - length rest)) true.
Proof.
  induction blocks as [|b blocks IH]; intros fuel h t rest F Ne L Lf; (destruct fuel as [|fuel]; [lia|]).
  - cbn [concat app fold_left rfc_loop]. destruct (Nat.leb_spec (length rest) 128); [reflexivity|lia].
  - inversion F as [|? ? Lb F']; subst. cbn [concat fold_left rfc_loop] in *. rewrite <- app_assoc in *.
    assert (rest <> []) by (apply Ne; discriminate).
    destruct (Nat.leb_spec (length (b ++ concat blocks ++ rest)) 128) as [G|G].
    { rewrite !app_length in G. destruct rest; [congruence|cbn [length] in G; lia]. }
    rewrite firstn_app_exact, skipn_app_exact by auto. apply IH; auto.
    rewrite app_length in Lf. lia.
Qed.

Lemma final_ok o h0 m c : inv_ctx h0 o m c ->
  final c = Ok (firstn o (flat_map write64 (rfc_loop (S (length m)) h0 0 m))).
Proof.
  intros (blocks & rest & -> & F & L & Ne & A).
  rewrite rfc_loop_blocks by (auto; lia). destruct A as [Ah At At1 Ab Al Ao].
  destruct (fold_left (fun '(t, h) b => (t + 128, rfc_F h (t + 128) b false)) blocks (0, h0)) as [t h] eqn:E.
  cbn [fst snd] in *. unfold final. destruct Ab as (j & Eb & Lb).
  cbn [increment c_buf c_buflen c_h c_t0 c_t1 c_outlen compressed]. rewrite Al.
  assert (P : (length rest + length (repeat x00 (128 - length rest)) <= length (c_buf c))%nat).
  { clear - L Lb. rewrite repeat_length. lia. }
  assert (P' : (length (c_buf c) <= length rest + (128 - length rest))%nat) by (clear - Lb; lia).
  assert (P2 : N.of_nat (length rest) < 1024) by (clear - L; lia).
  destruct (add64_counter t (N.of_nat (length rest)) P2) as [E0 E1].
  rewrite (blit_ok _ _ _ P). cbn [bind c_h c_outlen].
  rewrite Ao. f_equal. f_equal. f_equal. unfold rfc_F. rewrite <- E1, <- E0. rewrite <- At, <- At1, <- Ah.
  f_equal.
  rewrite Eb at 1. rewrite firstn_app_exact by reflexivity. f_equal.
  rewrite repeat_length, (skipn_all2 _ P'). apply app_nil_r.
Qed.

Lemma h0_ok o (key : bytes) : (1 <= o <= 64)%nat -> (length key <= 64)%nat ->
  N.lxor (N.lxor 0x01010000 (N.shiftl (N.of_nat (length key)) 8)) (N.of_nat o) =
  0x01010000 + 256 * N.of_nat (length key) + N.of_nat o.
Proof.
  intros Ho Hk.
  assert (Q : forallb (fun k => forallb (fun o =>
     N.lxor (N.lxor 0x01010000 (N.shiftl (N.of_nat k) 8)) (N.of_nat o) =?
     0x01010000 + 256 * N.of_nat k + N.of_nat o) (seq 0 65)) (seq 0 65) = true) by (vm_compute; reflexivity).
  rewrite forallb_forall in Q. specialize (Q (length key)).
  assert (I : In (length key) (seq 0 65)) by (apply in_seq; lia). specialize (Q I).
  rewrite forallb_forall in Q. apply N.eqb_eq. apply Q. apply in_seq. lia.
Qed.

Theorem stream_is_rfc o key ds : (1 <= o <= 64)%nat -> (length key <= 64)%nat ->
  blake2b_stream o key ds = Ok (rfc_blake2b o key (concat ds)).
Proof.
  intros Ho Hk. unfold blake2b_stream, init, check.
  destruct (Nat.leb_spec 1 o); [|lia]. destruct (Nat.leb_spec o 64); [|lia].
  destruct (Nat.leb_spec (length key) 64); [|lia]. cbn [andb].
  rewrite h0_ok by assumption.
  change (N.lxor (nth 0 iv 0) (0x01010000 + 256 * N.of_nat (length key) + N.of_nat o) :: skipn 1 iv)
    with (rfc_h0 o (length key)).
  set (h0 := rfc_h0 o (length key)).
  set (c0 := mkctx h0 0 0 (repeat x00 128) 0 o).
  assert (I0 : inv_ctx h0 o [] c0).
  { exists [], []. split; [reflexivity|]. split; [constructor|]. split; [cbn; lia|]. split; [auto|].
    constructor; cbn [fold_left fst snd c0 c_h c_t0 c_t1 c_buf c_buflen c_outlen length]; auto.
    exists (repeat x00 128). split; [reflexivity|apply repeat_length]. }
  destruct (Nat.ltb_spec 0 (length key)) as [G|G].
  - rewrite blit_ok by (rewrite repeat_length; lia). cbn [bind firstn app].
    destruct (update_ok _ _ _ _ (key ++ skipn (0 + length key) (repeat x00 128)) I0) as (c1 & E1 & I1).
    rewrite E1. cbn [bind]. destruct (updates_ok ds _ _ _ _ I1) as (c2 & E2 & I2). rewrite E2. cbn [bind].
    rewrite (final_ok _ _ _ _ I2). cbn [app]. unfold rfc_blake2b. 
    replace (skipn (0 + length key) (repeat x00 128)) with (repeat x00 (128 - length key)).
    2:{ change (0 + length key)%nat with (length key). 
        replace 128%nat with (length key + (128 - length key))%nat at 2 by lia.
        rewrite repeat_app, skipn_app_exact by (now rewrite repeat_length). reflexivity. }
    destruct key; [cbn in G; lia|]. reflexivity.
  - destruct key; [|cbn in G; lia]. cbn [bind].
    destruct (updates_ok ds _ _ _ _ I0) as (c2 & E2 & I2). rewrite E2. cbn [bind].
    rewrite (final_ok _ _ _ _ I2). reflexivity.
Qed.

Lemma write_le_length n w : length (write_le n w) = n.
Proof. revert w; induction n; intros; cbn; auto. Qed.
Lemma rfc_loop_len fuel : forall h t m, (length m < fuel)%nat -> length (rfc_loop fuel h t m) = 8%nat.
Proof.
  induction fuel as [|fuel IH]; intros h t m L; [lia|]. cbn [rfc_loop].
  destruct (Nat.leb_spec (length m) 128); [unfold rfc_F, compress; now rewrite map_length, seq_length|].
  apply IH. rewrite skipn_length. lia.
Qed.
Lemma flat_write64_len l : length (flat_map write64 l) = (8 * length l)%nat.
Proof. induction l; cbn [flat_map length]; auto. rewrite app_length, IHl. unfold write64. rewrite write_le_length. lia. Qed.
Lemma rfc_length o key m : (o <= 64)%nat -> length (rfc_blake2b o key m) = o.
Proof.
  intros. unfold rfc_blake2b. rewrite firstn_length, flat_write64_len, rfc_loop_len by lia. lia.
Qed.
Lemma blake2b256_len m : length (blake2b256 m) = 32%nat.
Proof. apply rfc_length. lia. Qed.
Lemma hash_raw_ok m : hash_raw m = Ok (blake2b256 m).
Proof. unfold hash_raw. rewrite stream_is_rfc by (cbn; lia). cbn [concat]. now rewrite app_nil_r. Qed.
