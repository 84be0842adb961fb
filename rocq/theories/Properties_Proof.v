(** * Properties of hashing, codecs and the proof verifier: C06, C08-C13, C36, C41, C42.

    Statements use Spec.v (record lists, reference root, bit strings) and the model of
    the C functions named in them; see properties.jsonl for the English. *)
From Verif Require Import Vectors.
From Coq Require Import ZifyBool ZifyNat ZifyN.

(** ** C06: the root hash binds the contents. *)
Theorem C06_root_binds_contents :
  forall (H : bytes -> bytes), (forall m, length (H m) = 32) ->
  forall l1 l2, records l1 -> records l2 ->
  no_collision H (ref_msgs H l1 ++ ref_msgs H l2) ->
  no_zero H (ref_msgs H l1 ++ ref_msgs H l2) ->
  ref_root H l1 = ref_root H l2 ->
  forall k v, In (k, v) l1 <-> In (k, v) l2.
Proof.
  intros H HL l1 l2 R1 R2 NC NZ E k v.
  destruct (tree_of l1 R1) as (t1 & W1 & I1). destruct (tree_of l2 R2) as (t2 & W2 & I2).
  destruct (ref_root_tree H l1 t1 HL R1 W1 I1) as [A1 B1].
  destruct (ref_root_tree H l2 t2 HL R2 W2 I2) as [A2 B2].
  rewrite B1, B2 in NC, NZ. rewrite A1, A2 in E.
  rewrite I1, I2, (thash_binds_t H HL t1 t2 W1 W2 NC NZ E). tauto.
Qed.
(** The hypotheses hold for a concrete hash on the README data (two listings of one tree). *)
Example C06_nonvacuous : let l1 := recs2 in let l2 := rev recs2 in
  records l1 /\ records l2 /\ no_collision toy (ref_msgs toy l1 ++ ref_msgs toy l2) /\
  no_zero toy (ref_msgs toy l1 ++ ref_msgs toy l2) /\
  ref_root toy l1 = ref_root toy l2.
Proof.
  split; [apply records_b_ok; vm_compute; reflexivity|].
  split; [apply records_b_ok; vm_compute; reflexivity|].
  split; [apply nocoll_b_ok; vm_compute; reflexivity|].
  split; [apply nozero_b_ok; vm_compute; reflexivity|]. vm_compute. reflexivity.
Qed.

(** ** C08, C09: an accepted proof tells the truth about every tree with that root.
    [verify_msgs H raw key] are the (at most 258) messages urkel_verify hashes; see
    [verify_msgs_complete] below. *)
Lemma C08_C09_sound H l raw key ex v : (forall m, length (H m) = 32) -> records l -> length key = 32 ->
  urkel_verify H raw key (Some (ref_root H l)) = Ok (mkverdict None ex v) ->
  no_collision H (ref_msgs H l ++ verify_msgs H raw key) ->
  no_zero H (ref_msgs H l ++ verify_msgs H raw key) ->
  if ex then In (key, v) l else forall u, ~ In (key, u) l.
Proof.
  intros HL R Lk V NC NZ. destruct (tree_of l R) as (t & W & I).
  destruct (ref_root_tree H l t HL R W I) as [A B]. rewrite A in V. rewrite B in NC, NZ.
  pose proof (sound H HL t raw key ex v W Lk V NC NZ) as S. destruct ex.
  - apply I, (wft_get_in _ W); auto.
  - intros u J. apply I, (wft_get_in _ W) in J; auto. congruence.
Qed.

Theorem C08_no_false_existence :
  forall (H : bytes -> bytes), (forall m, length (H m) = 32) ->
  forall raw key l v, records l -> length key = 32 ->
  urkel_verify H raw key (Some (ref_root H l)) = Ok (mkverdict None true v) ->
  no_collision H (ref_msgs H l ++ verify_msgs H raw key) ->
  no_zero H (ref_msgs H l ++ verify_msgs H raw key) ->
  In (key, v) l.
Proof. intros H HL raw key l v R Lk V NC NZ. exact (C08_C09_sound H l raw key true v HL R Lk V NC NZ). Qed.

Theorem C09_no_false_absence :
  forall (H : bytes -> bytes), (forall m, length (H m) = 32) ->
  forall raw key l v, records l -> length key = 32 ->
  urkel_verify H raw key (Some (ref_root H l)) = Ok (mkverdict None false v) ->
  no_collision H (ref_msgs H l ++ verify_msgs H raw key) ->
  no_zero H (ref_msgs H l ++ verify_msgs H raw key) ->
  forall u, ~ In (key, u) l.
Proof. intros H HL raw key l v R Lk V NC NZ. exact (C08_C09_sound H l raw key false v HL R Lk V NC NZ). Qed.

(** The verifier hashes exactly these messages: at most 258 of them, and any two hash
    functions agreeing on them give the same verdict. *)
Theorem verify_msgs_complete :
  forall (H H' : bytes -> bytes), (forall m, length (H m) = 32) -> (forall m, length (H' m) = 32) ->
  forall raw key root, length key = 32 ->
  length (verify_msgs H raw key) <= 258 /\
  ((forall m, In m (verify_msgs H raw key) -> H' m = H m) ->
   urkel_verify H' raw key (Some root) = urkel_verify H raw key (Some root)).
Proof.
  intros H H' HL HL' raw key root Lk. split; [apply verify_msgs_bound; auto|]. intros A.
  apply verify_dep; auto.
Qed.

(** Existence of foo, absence of baz. *)
Example C08_nonvacuous :
  urkel_verify toy toy_proof_foo kfoo (Some (ref_root toy recs2)) = Ok (mkverdict None true foo_value) /\
  no_collision toy (ref_msgs toy recs2 ++ verify_msgs toy toy_proof_foo kfoo) /\
  no_zero toy (ref_msgs toy recs2 ++ verify_msgs toy toy_proof_foo kfoo).
Proof.
  split; [vm_compute; reflexivity|].
  split; [apply nocoll_b_ok; vm_compute; reflexivity|apply nozero_b_ok; vm_compute; reflexivity].
Qed.
Example C09_nonvacuous :
  urkel_verify toy toy_proof_baz kbaz (Some (ref_root toy recs1)) = Ok (mkverdict None false []) /\
  no_collision toy (ref_msgs toy recs1 ++ verify_msgs toy toy_proof_baz kbaz) /\
  no_zero toy (ref_msgs toy recs1 ++ verify_msgs toy toy_proof_baz kbaz).
Proof.
  split; [vm_compute; reflexivity|].
  split; [apply nocoll_b_ok; vm_compute; reflexivity|apply nozero_b_ok; vm_compute; reflexivity].
Qed.

(** ** C10: the verifier is total.  [Ok] excludes a failed CHECK ([Abort]) and any access
    outside the proof bytes, the key or the 32-byte arrays ([UB]). *)
Theorem C10_verifier_total :
  forall (H : bytes -> bytes), (forall m, length (H m) = 32) ->
  forall raw key root, length key = 32 ->
  exists v, urkel_verify H raw key root = Ok v /\ length (v_value v) <= 1023 /\
    (v_err v <> None -> v_exists v = false /\ v_value v = []) /\
    (v_exists v = false -> v_value v = []).
Proof.
  intros H HL raw key root Lk. destruct (urkel_verify_total H HL raw key root Lk) as (v & E & L & F).
  exists v. split; [exact E|]. split; [exact L|]. split; [exact F|].
  intros X. destruct (v_err v) as [e|] eqn:Ee; [apply F; discriminate|].
  destruct root as [root|]; [|apply Ok_inj in E; subst v; discriminate Ee].
  destruct v as [err ex val]. cbn [v_err v_exists v_value] in *. subst err ex.
  unfold urkel_verify in E. destruct (proof_read raw) as [[p|]|e| | |]; cbn [bind] in E; try discriminate E.
  destruct (proof_verify H p key root) as [u|e| | |]; try discriminate E.
  destruct (p_tail p); apply Ok_inj in E; congruence.
Qed.

(** ** C11: the proof of any key under any tree encodes to the announced number of
    bytes, at most 17957, and decodes to itself; every decodable byte string is the
    encoding of what it decodes to, up to unused bitmap bits ([pad_bits]). *)
Theorem C11_proof_codec :
  forall (H : bytes -> bytes), (forall m, length (H m) = 32) ->
  forall rd n t key, rep H rd n t -> wft t -> vals_le 1023 t -> length key = 32 ->
  exists p n' raw, tree_prove H rd TREE_FUEL [] n key 0 = Ok (p, n') /\
    proof_write p = Ok raw /\ proof_size p = Ok (length raw) /\
    (N.of_nat (length raw) <= 17957)%N /\ proof_read raw = Ok (Some p).
Proof.
  intros H HL rd n t key R W V Lk.
  destruct (prove_root_rep H HL rd n t key R W V Lk) as (n' & E & _).
  destruct (the_proof_ok H HL t key W V Lk) as (O & C & _).
  destruct (proof_size_ok _ O) as (raw & E1 & E2 & E3).
  exists (the_proof H t key), n', raw. repeat (split; [eassumption|]).
  apply proof_roundtrip; auto.
Qed.
Example C11_nonvacuous : exists n t, rep toy (fun _ => None) n t /\ wft t /\ vals_le 1023 t /\
  elems t = [(kbar, foo_value); (kfoo, foo_value)].
Proof.
  assert (Lf : length kfoo = 32) by reflexivity. assert (Lb : length kbar = 32) by reflexivity.
  pose (t := tins 0 kbar foo_value (PLeaf kfoo foo_value)).
  assert (W0 : wft (PLeaf kfoo foo_value)) by (right; split; [exact Lf|apply has_nil]).
  destruct (insert_root_rep toy toy_len (fun _ => None) (create_leaf toy kfoo foo_value)
     (PLeaf kfoo foo_value) kbar foo_value (create_leaf_rep _ _ _ _) W0 Lb) as [(n & E & R)|(_ & E)].
  2:{ vm_compute in E. discriminate E. }
  exists n, t. split; [exact R|]. split; [exact (proj1 (tins_wft _ _ _ W0 Lb))|].
  assert (El : elems t = [(kbar, foo_value); (kfoo, foo_value)]) by (vm_compute; reflexivity).
  split; [|exact El]. intros k v I. rewrite El in I. destruct I as [I|[I|[]]]; injection I as <- <-; cbn; lia.
Qed.

(** ** C12: refuted as stated - the unused bits of the node bitmap are not checked, so the
    README proof with one bit flipped is still accepted. *)
Definition proof2' : bytes := firstn 4 proof2 ++ x81 :: skipn 5 proof2.
Theorem C12_one_encoding_refuted :
  proof2 <> proof2' /\
  urkel_verify blake2b256 proof2 kfoo (Some root2) = Ok (mkverdict None true foo_value) /\
  urkel_verify blake2b256 proof2' kfoo (Some root2) = Ok (mkverdict None true foo_value).
Proof. split; [discriminate|]. vm_compute. auto. Qed.

(** What holds: two accepted byte strings for one key and root decode to the same proof and
    give the same answer, and are equal once their unused bitmap bits agree (in
    particular all strings with zero padding, which is what the library writes). *)
Theorem C12_one_encoding_partial :
  forall (H : bytes -> bytes), (forall m, length (H m) = 32) ->
  forall raw1 raw2 key root e1 v1 e2 v2, length key = 32 ->
  urkel_verify H raw1 key (Some root) = Ok (mkverdict None e1 v1) ->
  urkel_verify H raw2 key (Some root) = Ok (mkverdict None e2 v2) ->
  no_collision H (verify_msgs H raw1 key ++ verify_msgs H raw2 key) ->
  no_zero H (verify_msgs H raw1 key ++ verify_msgs H raw2 key) ->
  (exists p, proof_read raw1 = Ok (Some p) /\ proof_read raw2 = Ok (Some p)) /\
  (e1, v1) = (e2, v2) /\ length raw1 = length raw2 /\
  (pad_bits raw1 = pad_bits raw2 -> raw1 = raw2).
Proof.
  intros H HL raw1 raw2 key root e1 v1 e2 v2 Lk V1 V2 NC NZ.
  destruct (unique H HL raw1 raw2 key root e1 v1 e2 v2 Lk V1 V2 NC NZ) as [(p & R1 & R2) P].
  split; [eauto|].
  assert (E : urkel_verify H raw1 key (Some root) = urkel_verify H raw2 key (Some root)).
  { unfold urkel_verify. rewrite R1, R2. reflexivity. }
  split; [congruence|]. split; [|exact P].
  destruct (proof_read_inv raw1) as [X|(q1 & Q1 & _ & _ & xn1 & xt1 & m1 & Wn1 & Wt1 & Er1 & L1 & K1)]; [congruence|].
  destruct (proof_read_inv raw2) as [X|(q2 & Q2 & _ & _ & xn2 & xt2 & m2 & Wn2 & Wt2 & Er2 & L2 & K2)]; [congruence|].
  assert (q1 = p) by congruence. assert (q2 = p) by congruence. subst q1 q2.
  rewrite Er1, Er2, !app_length, L1, L2. assert (xn1 = xn2) by congruence. assert (xt1 = xt2) by congruence.
  subst. reflexivity.
Qed.
Definition setpad (raw : bytes) : bytes := firstn 4 raw ++ x81 :: skipn 5 raw.
Example C12_partial_nonvacuous :
  no_collision toy (verify_msgs toy toy_proof_foo kfoo ++ verify_msgs toy (setpad toy_proof_foo) kfoo) /\
  no_zero toy (verify_msgs toy toy_proof_foo kfoo ++ verify_msgs toy (setpad toy_proof_foo) kfoo) /\
  urkel_verify toy toy_proof_foo kfoo (Some (ref_root toy recs2)) = Ok (mkverdict None true foo_value) /\
  urkel_verify toy (setpad toy_proof_foo) kfoo (Some (ref_root toy recs2)) = Ok (mkverdict None true foo_value) /\
  pad_bits toy_proof_foo <> pad_bits (setpad toy_proof_foo).
Proof.
  split; [apply nocoll_b_ok; vm_compute; reflexivity|split; [apply nozero_b_ok; vm_compute; reflexivity|]].
  split; [vm_compute; reflexivity|]. split; [vm_compute; reflexivity|]. vm_compute. discriminate.
Qed.

(** ** C13: stored pointers and nodes are read back unchanged, whatever follows them in
    the file. *)
Theorem C13_pointer_codec :
  forall index pos size, (index < 32768)%N -> (pos < 2147483648)%N -> (size < 1024)%N ->
  forall rest, length (pointer_write (mkptr index pos size)) = 7 /\
    pointer_read (pointer_write (mkptr index pos size) ++ rest) = Ok (mkptr index pos size).
Proof.
  intros. split; [reflexivity|]. apply pointer_roundtrip. unfold ptr_ok. auto.
Qed.

Theorem C13_internal_codec :
  forall h w prefix l r lp rp lh rh, length prefix <= 256 ->
  written l = Some lp -> hashed l = Some lh -> written r = Some rp -> hashed r = Some rh ->
  ptr_ok lp -> ptr_ok rp -> length lh = 32 -> length rh = 32 ->
  exists raw, node_write (NInt h w (of_bools prefix) l r) = Ok raw /\ 1 <= length raw <= 113 /\
    forall rest, node_read (raw ++ rest) = Ok (Some (NInt None None (of_bools prefix) (NHash lh lp) (NHash rh rp))).
Proof.
  intros h w prefix l r lp rp lh rh Lp Wl Hl Wr Hr Ol Or Ll Lr.
  assert (O : node_ok (NInt h w (of_bools prefix) l r)).
  { split; [apply of_bools_wf; auto|]. unfold child_ok. rewrite Wl, Hl, Wr, Hr. auto. }
  destruct (node_roundtrip _ [] O) as (raw & m & E & S & R & L).
  exists raw. split; [exact E|]. split; [exact L|]. intros rest.
  destruct (node_roundtrip _ rest O) as (raw' & m' & E' & S' & R' & L').
  rewrite E in E'. apply Ok_inj in E'. subst raw'. cbn [stored] in S'. rewrite Wl, Hl, Wr, Hr in S'.
  injection S' as <-. exact R'.
Qed.

Theorem C13_leaf_codec :
  forall h w key v vp, length key = 32 -> ptr_ok vp ->
  exists raw, node_write (NLeaf h w key v (Some vp)) = Ok raw /\ length raw = 40 /\
    forall rest, node_read (raw ++ rest) = Ok (Some (NLeaf None None key None (Some vp))).
Proof.
  intros h w key v vp Lk O.
  assert (ON : node_ok (NLeaf h w key v (Some vp))) by (split; auto).
  destruct (node_roundtrip _ [] ON) as (raw & m & E & S & R & L).
  exists raw. split; [exact E|]. split.
  { cbn [node_write] in E. apply Ok_inj in E. subst raw. rewrite !app_length, pointer_write_length, Lk. reflexivity. }
  intros rest. destruct (node_roundtrip _ rest ON) as (raw' & m' & E' & S' & R' & L').
  rewrite E in E'. apply Ok_inj in E'. subst raw'. cbn [stored] in S'. injection S' as <-. exact R'.
Qed.

(** ** C36: hashing does not depend on chunking, and is RFC 7693 BLAKE2b. *)
Theorem C36_chunking :
  forall outlen key chunks, 1 <= outlen <= 64 -> length key <= 64 ->
  exists d, blake2b_stream outlen key chunks = Ok d /\ length d = outlen /\
    blake2b_stream outlen key [concat chunks] = Ok d /\
    d = rfc_blake2b outlen key (concat chunks).
Proof.
  intros o key ds Ho Hk. exists (rfc_blake2b o key (concat ds)).
  rewrite !stream_is_rfc by auto. cbn [concat]. rewrite app_nil_r.
  split; [reflexivity|]. split; [apply rfc_length; lia|]. auto.
Qed.
(** RFC 7693 appendix A: BLAKE2b-512("abc"); and BLAKE2b-256(""). *)
Example C36_vectors : rfc_blake2b 64 [] abc = abc_digest /\ blake2b256 [] = empty_digest.
Proof. vm_compute. auto. Qed.

(** ** C41: bit prefixes behave as bit strings.  [bools b] is the bit string a prefix
    stands for, [of_bools] the prefix built for a bit string, [kbits key] the key. *)
Theorem C41_get : forall key i, length key = 32 ->
  get_bit key i = match nth_error (kbits key) i with Some b => Ok b | None => UB end
  /\ (i < 256 -> get_bit key i = Ok (nth i (kbits key) false)).
Proof.
  intros key i L. split; [apply get_bit_spec|]. intros Hi. apply (get_bit_kbit blake2b256 blake2b256_len); auto.
Qed.
Theorem C41_count : forall b key depth, ok_bits b -> length key = 32 -> depth <= 256 ->
  bits_count b key depth = Ok (length (common2 (bools b) (skipn depth (kbits key)))).
Proof. intros. rewrite <- lcp_common2. apply bits_count_spec; auto. Qed.
Theorem C41_has : forall b key depth, ok_bits b -> length key = 32 -> depth <= 256 ->
  exists r, bits_has b key depth = Ok r /\ (r = true <-> exists s, skipn depth (kbits key) = bools b ++ s).
Proof.
  intros. eexists. split; [apply bits_has_spec; auto|]. apply is_prefix_iff.
Qed.
Theorem C41_slice : forall b start stop, ok_bits b -> start <= stop -> stop <= bsize b ->
  bits_slice b start stop = Ok (of_bools (firstn (stop - start) (skipn start (bools b)))).
Proof. exact bits_slice_spec. Qed.
Theorem C41_split : forall b i, ok_bits b -> i < bsize b ->
  bits_split b i = Ok (of_bools (firstn i (bools b)), of_bools (skipn (S i) (bools b))).
Proof. exact bits_split_spec. Qed.
Theorem C41_collide : forall k1 key depth, length k1 = 32 -> length key = 32 -> depth <= 256 ->
  bits_collide (key_bits k1) key depth =
  Ok (of_bools (common2 (skipn depth (kbits k1)) (skipn depth (kbits key)))).
Proof.
  intros k1 key depth L1 L2 Ld. rewrite bits_collide_spec by auto. f_equal. f_equal.
  generalize (skipn depth (kbits k1)), (skipn depth (kbits key)). intros a.
  induction a as [|x a IH]; intros [|y b]; cbn; auto. destruct (Bool.eqb x y); cbn; [f_equal; apply IH|reflexivity].
Qed.
Theorem C41_join : forall l r bit, wf_bits l -> ok_bits r -> bsize l + bsize r + 1 <= 256 ->
  bits_join l r bit = Ok (of_bools (bools l ++ bit :: bools r)).
Proof. exact bits_join_spec. Qed.
(** Results are well-formed again and stand for the bit string they were built from. *)
Theorem C41_closed : forall l, length l <= 256 -> wf_bits (of_bools l) /\ bools (of_bools l) = l.
Proof. intros l L. split; [apply of_bools_wf; auto|apply bools_of_bools; auto]. Qed.

(** ** C42: the reported error identifies the cause. *)
Theorem C42_error_codes :
  forall (H : bytes -> bytes), (forall m, length (H m) = 32) ->
  forall raw key root v e, length key = 32 ->
  urkel_verify H raw key (Some root) = Ok v -> v_err v = Some e ->
  v_exists v = false /\ v_value v = [] /\
  match e with
  | EINVAL => proof_read raw = Ok None
  | ESAMEPATH => exists d ns q l r s, proof_read raw = Ok (Some (mkproof d ns (TShort q l r))) /\
      skipn d (kbits key) = bools q ++ s
  | ESAMEKEY => exists d ns h, proof_read raw = Ok (Some (mkproof d ns (TCollision key h)))
  | ENEGDEPTH => exists p, proof_read raw = Ok (Some p) /\ p_depth p < span (p_nodes p)
  | ETOODEEP => exists p, proof_read raw = Ok (Some p) /\ span (p_nodes p) < p_depth p
  | EPATHMISMATCH => exists p a q h b d, proof_read raw = Ok (Some p) /\
      p_nodes p = a ++ (q, h) :: b /\ p_depth p = d + span ((q, h) :: b) /\
      ~ exists s, skipn d (kbits key) = bools q ++ s
  | EHASHMISMATCH => exists p, proof_read raw = Ok (Some p) /\ p_depth p = span (p_nodes p) /\
      top H (p_nodes p) key 0 (tail_hash H (p_tail p) key) <> root
  | _ => False
  end.
Proof.
  intros H HL raw key root v e Lk V Ve.
  destruct (urkel_verify_total H HL raw key (Some root) Lk) as (v' & E' & _ & F).
  rewrite V in E'. apply Ok_inj in E'. subst v'.
  destruct F as [F1 F2]; [congruence|]. split; [exact F1|]. split; [exact F2|].
  unfold urkel_verify in V. destruct (proof_read_total raw) as (r & E & R). rewrite E in V |- *.
  cbn [bind] in V. destruct r as [p|].
  2:{ apply Ok_inj in V. subst v. cbn in Ve. injection Ve as <-. reflexivity. }
  destruct (R p eq_refl) as [O C].
  destruct (proof_verify_spec H HL p key root O Lk) as
    [Fit Ed P Er|q l r Et P|h Et|G|a q h b d En Ed M|G|Fit Ed P Er];
    try (apply Ok_inj in V; subst v; cbn in Ve; injection Ve as <-).
  - destruct (p_tail p); apply Ok_inj in V; subst v; discriminate Ve.
  - apply is_prefix_iff in P. destruct P as (s & P). destruct p as [d ns tl]. cbn in *. subst tl.
    exists d, ns, q, l, r, s. auto.
  - destruct p as [d ns tl]. cbn in *. subst tl. eauto.
  - eauto.
  - exists p, a, q, h, b, d. do 3 (split; [assumption || reflexivity|]).
    intros X. apply is_prefix_iff in X. congruence.
  - eauto.
  - exists p. auto.
Qed.
(** All seven codes occur. *)
Example C42_nonvacuous :
  let root1 := ref_root toy recs1 in let root2 := ref_root toy recs2 in
  let err raw key root := match urkel_verify toy raw key (Some root) with Ok v => v_err v | _ => None end in
  err [] kfoo root2 = Some EINVAL /\
  err toy_proof_foo kfoo root1 = Some EHASHMISMATCH /\
  err toy_proof_foo kbaz root2 = Some EPATHMISMATCH /\
  err (x02 :: skipn 1 toy_proof_foo) kfoo root2 = Some ENEGDEPTH /\
  err toy_proof_baz kfoo root1 = Some ESAMEKEY /\
  err [x01; xc0; x00; x00; x00; x00] kfoo root1 = Some ETOODEEP /\
  err ([x00; x40; x00; x00; x01; x80] ++ root1 ++ root1) kfoo root1 = Some ESAMEPATH.
Proof. vm_compute. auto 10. Qed.

Print Assumptions C06_root_binds_contents.
Print Assumptions C08_no_false_existence.
Print Assumptions C09_no_false_absence.
Print Assumptions verify_msgs_complete.
Print Assumptions C10_verifier_total.
Print Assumptions C11_proof_codec.
Print Assumptions C12_one_encoding_refuted.
Print Assumptions C12_one_encoding_partial.
Print Assumptions C13_pointer_codec.
Print Assumptions C13_internal_codec.
Print Assumptions C13_leaf_codec.
Print Assumptions C36_chunking.
Print Assumptions C41_get.
Print Assumptions C41_count.
Print Assumptions C41_has.
Print Assumptions C41_slice.
Print Assumptions C41_split.
Print Assumptions C41_collide.
Print Assumptions C41_join.
Print Assumptions C41_closed.
Print Assumptions C42_error_codes.
