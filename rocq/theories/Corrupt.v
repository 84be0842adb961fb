(** * Arbitrary file contents: which node structures the operations survive.

    [rd] is what urkel_store_read returns for a pointer; nothing is assumed about it except
    that a successful read returns as many bytes as were asked for. *)
From Verif Require Export Iter ApiFacts.
From Coq Require Import ZifyBool ZifyNat ZifyN.

(** ** What a reader can meet below a node *)

Section Shape.
Variable rd : ptr -> option bytes.
(** Whether records that cannot be read or decoded are excluded. *)
Variable readable : bool.

(** A leaf that can be hashed and whose value can be asked for. *)
Definition leaf_ok (h : option bytes) (k : bytes) (v : option bytes) (vp : option ptr) : Prop :=
  length k = 32 /\ (exists x, v = Some x /\ length x <= 1023) \/
  length k = 32 /\ v = None /\ h <> None /\ vp <> None.

(** Reading from bit position [d]: no record has a prefix longer than 256 bits and every
    path ends within the 256 bits of a key. *)
Inductive sane : nat -> node -> Prop :=
| sn_null d : sane d NNull
| sn_int d h w p l r :
    ok_bits p -> d + bsize p < 256 -> (forall x, h = Some x -> length x = 32) ->
    sane (d + bsize p + 1) l -> sane (d + bsize p + 1) r -> sane d (NInt h w p l r)
| sn_leaf d h w k v vp :
    leaf_ok h k v vp -> (forall x, h = Some x -> length x = 32) -> sane d (NLeaf h w k v vp)
| sn_bad d h w : readable = false -> length h = 32 -> resolve rd h w = Ok None -> sane d (NHash h w)
| sn_hash d h w n : length h = 32 -> resolve rd h w = Ok (Some n) -> sane d n -> sane d (NHash h w).

(** In addition, every key below a node begins with the path to it, and the unused bits
    of prefixes are zero. *)
Inductive orderly : list bool -> node -> Prop :=
| so_null path : orderly path NNull
| so_int path h w p l r :
    wf_bits p -> length path + bsize p < 256 -> (forall x, h = Some x -> length x = 32) ->
    orderly (path ++ bools p ++ [false]) l -> orderly (path ++ bools p ++ [true]) r -> orderly path (NInt h w p l r)
| so_leaf path h w k v vp :
    leaf_ok h k v vp -> (forall x, h = Some x -> length x = 32) -> has path k -> orderly path (NLeaf h w k v vp)
| so_bad path h w : readable = false -> length h = 32 -> resolve rd h w = Ok None -> orderly path (NHash h w)
| so_hash path h w n : length h = 32 -> resolve rd h w = Ok (Some n) -> orderly path n -> orderly path (NHash h w).

(** An iterator that has [s] entries on its stack, this node included, fits its 256. *)
Inductive fits : nat -> node -> Prop :=
| ft_null s : fits s NNull
| ft_int s h w p l r : s < 256 -> l <> NNull -> r <> NNull -> fits (S s) l -> fits (S s) r -> fits s (NInt h w p l r)
| ft_leaf s h w k v vp : leaf_ok h k v vp -> fits s (NLeaf h w k v vp)
| ft_bad s h w : resolve rd h w = Ok None -> fits s (NHash h w)
| ft_hash s h w n : resolve rd h w = Ok (Some n) -> s < 256 -> fits (S s) n -> fits s (NHash h w).
End Shape.

Lemma sound_sane rd rb path n : orderly rd rb path n -> sane rd rb (length path) n.
Proof.
  induction 1 as [path|path h w p l r P D Hh Sl IHl Sr IHr|path h w k v vp L Hh Hk|path h w E1 E2 E3|path h w n E1 E2 S IH].
  - constructor.
  - pose proof (wf_ok _ P) as O. constructor; auto.
    + rewrite !app_length, bools_length in IHl by exact O. replace (length path + bsize p + 1) with (length path + (bsize p + 1)) by lia. exact IHl.
    + rewrite !app_length, bools_length in IHr by exact O. replace (length path + bsize p + 1) with (length path + (bsize p + 1)) by lia. exact IHr.
  - constructor; auto.
  - apply sn_bad; auto.
  - eapply sn_hash; eauto.
Qed.
Lemma sane_weaken rd d n : sane rd true d n -> sane rd false d n.
Proof. induction 1; try (constructor; auto; fail); try discriminate. eapply sn_hash; eauto. Qed.
Lemma sound_weaken rd path n : orderly rd true path n -> orderly rd false path n.
Proof. induction 1; try (constructor; auto; fail); try discriminate. eapply so_hash; eauto. Qed.

(** ** Decoding arbitrary bytes *)

Lemma copy_bytes_len dst src n d : copy_bytes dst src n = Ok d -> length d = length dst.
Proof.
  unfold copy_bytes. destruct (Nat.leb_spec n (length src)), (Nat.leb_spec n (length dst)); cbn [andb]; try discriminate.
  intros E. apply Ok_inj in E. subst d. rewrite app_length, firstn_length, skipn_length. lia.
Qed.

Lemma take_ok n d : n <= length d -> take n d = Ok (firstn n d, skipn n d).
Proof. intros L. unfold take. destruct (Nat.leb_spec n (length d)); [reflexivity|lia]. Qed.

Lemma pointer_read_total d : 7 <= length d -> exists p, pointer_read d = Ok p.
Proof.
  intros L. do 7 (destruct d as [|? d]; [cbn in L; lia|]). unfold pointer_read. cbn. eauto.
Qed.

(** urkel_node_read on any bytes: fails, aborts (prefix over 256 bits), or yields a record. *)
Lemma node_read_inv raw : node_read raw = Ok None \/ node_read raw = Abort \/
  (exists p lh lp rh rp, node_read raw = Ok (Some (NInt None None p (NHash lh lp) (NHash rh rp))) /\
     ok_bits p /\ length lh = 32 /\ length rh = 32) \/
  (exists k vp, node_read raw = Ok (Some (NLeaf None None k None (Some vp))) /\ length k = 32).
Proof.
  unfold node_read. destruct raw as [|t d]; [auto|]. cbn [length]. change (S (length d) <? 1) with false. cbn [read8 bind].
  change (adv 1 (t :: d)) with d. set (low := N.land (b2n t) 15).
  destruct (low =? 1)%N.
  - assert (P : node_read_prefix (N.shiftr (b2n t) 4) d = Ok None \/ node_read_prefix (N.shiftr (b2n t) 4) d = Abort \/
      exists p d', node_read_prefix (N.shiftr (b2n t) 4) d = Ok (Some (p, d')) /\ ok_bits p).
    { unfold node_read_prefix. generalize (N.shiftr (b2n t) 4). intros fl. destruct (N.testbit fl 0).
      2:{ right. right. do 2 eexists. rewrite bits_init_spec by lia. cbn [bind]. split; [reflexivity|]. split; [reflexivity|cbn; lia]. }
      destruct (Nat.ltb_spec (length d) 2) as [|L]; [auto|]. destruct d as [|a [|b d]]; [cbn in L; lia..|].
      assert (F : forall size d, (if length d <? nbytes size then Ok None else
          let! p := bits_init size in let! data := copy_bytes (bdata p) d (nbytes size) in
          Ok (Some (mkbits size data, adv (nbytes size) d))) = Ok None \/
        (if length d <? nbytes size then Ok None else
          let! p := bits_init size in let! data := copy_bytes (bdata p) d (nbytes size) in
          Ok (Some (mkbits size data, adv (nbytes size) d))) = Abort \/
        exists p d', (if length d <? nbytes size then Ok None else
          let! p := bits_init size in let! data := copy_bytes (bdata p) d (nbytes size) in
          Ok (Some (mkbits size data, adv (nbytes size) d))) = Ok (Some (p, d')) /\ ok_bits p).
      { clear. intros size d. destruct (Nat.ltb_spec (length d) (nbytes size)) as [|L]; [auto|].
        unfold bits_init, check, KEY_BITS. destruct (Nat.leb_spec size 256) as [L2|L2]; [|cbn [bind]; auto].
        cbn [bind bdata]. pose proof (nbytes_bound size 32 ltac:(lia)) as NB.
        destruct (copy_bytes (repeat x00 32) d (nbytes size)) as [data|e| | |] eqn:E.
        - right. right. do 2 eexists. cbn [bind]. split; [reflexivity|]. split; [|exact L2].
          cbn [bdata]. rewrite (copy_bytes_len _ _ _ _ E), repeat_length. reflexivity.
        - rewrite copy_bytes_ok in E; [discriminate|exact L|rewrite repeat_length; exact NB].
        - rewrite copy_bytes_ok in E; [discriminate|exact L|rewrite repeat_length; exact NB].
        - rewrite copy_bytes_ok in E; [discriminate|exact L|rewrite repeat_length; exact NB].
        - rewrite copy_bytes_ok in E; [discriminate|exact L|rewrite repeat_length; exact NB]. }
      destruct (N.testbit fl 1); cbn [read16 read8 bind andb negb].
      - destruct (_ <? 256)%N; [auto|]. apply F.
      - destruct (_ =? 0)%N; [auto|]. apply F. }
    destruct P as [P|[P|(p & d' & P & O)]]; rewrite P; cbn [bind]; [auto|auto|].
    change (2 * (PTR_SIZE + HASH_SIZE)) with 78. destruct (Nat.ltb_spec (length d') 78) as [|L]; [auto|]. right. right. left.
    destruct (pointer_read_total d' ltac:(lia)) as (lp & E1). rewrite E1. cbn [bind].
    change (adv PTR_SIZE d') with (skipn 7 d').
    rewrite take_ok by (rewrite skipn_length; unfold HASH_SIZE; lia). cbn [bind].
    destruct (pointer_read_total (skipn HASH_SIZE (skipn 7 d')) ltac:(rewrite !skipn_length; unfold HASH_SIZE; lia)) as (rp & E2).
    rewrite E2. cbn [bind].
    change (adv PTR_SIZE (skipn HASH_SIZE (skipn 7 d'))) with (skipn 7 (skipn HASH_SIZE (skipn 7 d'))).
    rewrite take_ok by (rewrite !skipn_length; unfold HASH_SIZE; lia). cbn [bind].
    do 5 eexists. split; [reflexivity|]. split; [exact O|]. rewrite !firstn_length, !skipn_length. unfold HASH_SIZE. lia.
  - destruct (low =? 2)%N; [|auto]. change (PTR_SIZE + KEY_SIZE) with 39.
    destruct (Nat.ltb_spec (length d) 39) as [|L]; [auto|]. right. right. right.
    destruct (pointer_read_total d ltac:(lia)) as (vp & E1). rewrite E1. cbn [bind].
    change (adv PTR_SIZE d) with (skipn 7 d).
    rewrite take_ok by (rewrite skipn_length; unfold KEY_SIZE; lia). cbn [bind].
    do 2 eexists. split; [reflexivity|]. rewrite firstn_length, skipn_length. unfold KEY_SIZE. lia.
Qed.

(** What urkel_store_resolve can return. *)
Definition record (n : node) (h : bytes) : Prop :=
  (exists w p lh lp rh rp, n = NInt (Some h) (Some w) p (NHash lh lp) (NHash rh rp) /\ ok_bits p /\ length lh = 32 /\ length rh = 32) \/
  (exists w k vp, n = NLeaf (Some h) (Some w) k None (Some vp) /\ length k = 32).
Lemma resolve_inv rd h w : resolve rd h w = Ok None \/ resolve rd h w = Abort \/
  exists n, resolve rd h w = Ok (Some n) /\ record n h.
Proof.
  unfold resolve, read_node. destruct (_ || _); [auto|]. destruct (rd w) as [raw|]; [|auto].
  destruct (node_read_inv raw) as [E|[E|[(p & lh & lp & rh & rp & E & O)|(k & vp & E & O)]]]; rewrite E; cbn [bind]; auto.
  - right. right. eexists. split; [reflexivity|]. left. do 6 eexists. split; [reflexivity|exact O].
  - right. right. eexists. split; [reflexivity|]. right. do 3 eexists. split; [reflexivity|exact O].
Qed.

(** ** Termination, whatever is read *)

Lemma count_le b key d c : bits_count b key d = Ok c -> d <= 256 /\ c <= 256 - d /\ bsize b <= 256.
Proof.
  unfold bits_count, bits_count_from, check, KEY_BITS.
  destruct (Nat.leb_spec (bsize b) 256); [|discriminate]. destruct (Nat.leb_spec 0 (bsize b)); [|discriminate].
  destruct (Nat.leb_spec d 256); [|discriminate]. intros E. split; [assumption|]. split; [|assumption].
  assert (G : forall n i j c, count_loop n b i key j = Ok c -> c <= n).
  { clear. induction n as [|n IH]; intros i j c E; cbn [count_loop] in E; [apply Ok_inj in E; lia|].
    destruct (bits_get b i) as [x|e| | |]; try discriminate. cbn [bind] in E. destruct (get_bit key j) as [y|e| | |]; try discriminate.
    cbn [bind] in E. destruct (Bool.eqb x y).
    - destruct (count_loop n b (S i) key (S j)) as [c'|e| | |] eqn:E2; try discriminate. cbn [bind] in E. apply Ok_inj in E.
      apply IH in E2. lia.
    - apply Ok_inj in E. lia. }
  apply G in E. lia.
Qed.
Lemma count_fuel b key d : bits_count b key d <> NoFuel.
Proof.
  unfold bits_count, bits_count_from, check. repeat (destruct (_ <=? _); [|discriminate]).
  generalize (Nat.min (bsize b - 0) (KEY_BITS - d)). intros n. generalize 0 at 1. revert d. induction n as [|n IH]; intros d i; cbn [count_loop]; [discriminate|].
  unfold bits_get, check, get_bit. destruct (_ <? _); [|discriminate]. destruct (nth_error (bdata b) (i / 8)); [|discriminate]. cbn [bind].
  destruct (nth_error key (d / 8)); [|discriminate]. cbn [bind]. destruct (Bool.eqb _ _); [|discriminate].
  specialize (IH (S d) (S i)). destruct (count_loop n b (S i) key (S d)); cbn [bind]; congruence.
Qed.
Lemma get_bit_lt key d x : length key = 32 -> get_bit key d = Ok x -> d < 256.
Proof.
  intros L. unfold get_bit. destruct (nth_error key (d / 8)) eqn:E; [|discriminate]. intros _.
  assert (X : d / 8 < length key) by (apply nth_error_Some; congruence).
  rewrite L in X. clear - X. pose proof (Nat.div_mod d 8 ltac:(lia)). pose proof (Nat.mod_upper_bound d 8 ltac:(lia)). lia.
Qed.
Lemma get_bit_fuel key d : get_bit key d <> NoFuel.
Proof. unfold get_bit. destruct (nth_error key (d / 8)); discriminate. Qed.
Lemma retrieve_fuel rd v vp : retrieve rd v vp <> NoFuel.
Proof. destruct v as [x|]; cbn [retrieve]; [unfold check; destruct (_ <=? _); discriminate|]. destruct vp; [|discriminate]. destruct (_ <? _)%N; discriminate. Qed.
Lemma node_hash_fuel H n : node_hash H n <> NoFuel.
Proof.
  induction n as [|h w p l IHl r IHr|h w k v vp|h w]; cbn [node_hash]; try discriminate.
  - destruct h; [discriminate|]. destruct (node_hash H l) as [[lh l']|e| | |]; cbn [bind]; try discriminate; try contradiction.
    destruct (node_hash H r) as [[rh r']|e| | |]; cbn [bind]; try discriminate; contradiction.
  - destruct h; [discriminate|]. destruct v; discriminate.
Qed.

Definition is_hash (n : node) : nat := match n with NHash _ _ => 1 | _ => 0 end.
(** The recursion deepens the bit position at every second level at least. *)
Definition need (n : node) (d : nat) : nat := 2 * (257 - d) + is_hash n.
Lemma record_hash n h : record n h -> is_hash n = 0.
Proof. intros [(w & p & lh & lp & rh & rp & -> & _)|(w & k & vp & -> & _)]; reflexivity. Qed.
Lemma child_need (l r : node) (b : bool) d c : c + d < 256 -> need (child l r b) (d + c + 1) <= 2 * (257 - d) - 1.
Proof. intros L. unfold need, is_hash. destruct (child l r b); lia. Qed.

Lemma get_fuel rd fuel : forall n key d want, length key = 32 -> need n d < fuel -> tree_get rd fuel n key d want <> NoFuel.
Proof.
  induction fuel as [|fuel IH]; intros n key d want L F; [lia|]. cbn [tree_get].
  destruct n as [|h w p l r|h w k v vp|h w].
  - discriminate.
  - unfold bits_has. pose proof (count_fuel p key d) as CF. destruct (bits_count p key d) as [c|e| | |] eqn:Ec; cbn [bind]; try discriminate; try contradiction.
    destruct (Nat.eqb_spec c (bsize p)) as [->|]; cbn [negb]; [|discriminate].
    pose proof (get_bit_fuel key (d + bsize p)) as GF.
    destruct (get_bit key (d + bsize p)) as [b|e| | |] eqn:Eg; cbn [bind]; try discriminate; try contradiction.
    apply (get_bit_lt _ _ _ L) in Eg. apply IH; [exact L|].
    pose proof (child_need l r b d (bsize p) ltac:(lia)). unfold need at 1 in F. cbn [is_hash] in F. lia.
  - destruct (negb (bytes_eqb k key)); [discriminate|]. destruct want; [|discriminate].
    pose proof (retrieve_fuel rd v vp). destruct (retrieve rd v vp) as [[x|]|e| | |]; cbn [bind]; try discriminate; contradiction.
  - destruct (resolve_inv rd h w) as [E|[E|(n & E & R)]]; rewrite E; cbn [bind]; try discriminate.
    apply IH; [exact L|]. unfold need in *. rewrite (record_hash n h R). cbn [is_hash] in F. lia.
Qed.

Lemma copy_loop_fuel n : forall out i src j, copy_loop n out i src j <> NoFuel.
Proof.
  induction n as [|n IH]; intros out i src j; cbn [copy_loop]; [discriminate|].
  unfold bits_get, bits_set, check, get_bit, set_bit. destruct (j <? KEY_BITS); [|discriminate].
  destruct (nth_error (bdata src) (j / 8)); [|discriminate]. cbn [bind]. destruct (i <? KEY_BITS); [|discriminate].
  destruct (nth_error (bdata out) (i / 8)); [|discriminate]. cbn [bind]. apply IH.
Qed.
Lemma slice_fuel b i j : bits_slice b i j <> NoFuel.
Proof.
  unfold bits_slice, check, bits_init. destruct (i <=? j); [|discriminate]. unfold check. destruct (_ <=? _); [|discriminate]. cbn [bind]. apply copy_loop_fuel.
Qed.
Lemma count_from_fuel b i key d : bits_count_from b i key d <> NoFuel.
Proof.
  unfold bits_count_from, check. repeat (destruct (_ <=? _); [|discriminate]).
  generalize (Nat.min (bsize b - i) (KEY_BITS - d)). intros n. revert i d. induction n as [|n IH]; intros i d; cbn [count_loop]; [discriminate|].
  unfold bits_get, check, get_bit. destruct (_ <? _); [|discriminate]. destruct (nth_error (bdata b) (i / 8)); [|discriminate]. cbn [bind].
  destruct (nth_error key (d / 8)); [|discriminate]. cbn [bind]. destruct (Bool.eqb _ _); [|discriminate].
  specialize (IH (S i) (S d)). destruct (count_loop n b (S i) key (S d)); cbn [bind]; congruence.
Qed.
Lemma join_fuel p q b : bits_join p q b <> NoFuel.
Proof.
  unfold bits_join, bits_init, check. destruct (_ <=? _); [|discriminate]. cbn [bind]. unfold copy_bytes. destruct (_ && _); [|discriminate].
  cbn [bind]. unfold bits_set, check, set_bit. destruct (_ <? _); [|discriminate]. cbn [bdata bsize]. destruct (nth_error _ _); [|discriminate].
  cbn [bind]. apply copy_loop_fuel.
Qed.

Lemma insert_fuel H rd fuel : forall n key v d, length key = 32 -> need n d < fuel -> tree_insert H rd fuel n key v d <> NoFuel.
Proof.
  induction fuel as [|fuel IH]; intros n key value d L F; [lia|]. cbn [tree_insert].
  destruct n as [|h w p l r|h w k v vp|h w].
  - discriminate.
  - pose proof (count_fuel p key d) as CF. destruct (bits_count p key d) as [c|e| | |] eqn:Ec; cbn [bind]; try discriminate; try contradiction.
    pose proof (get_bit_fuel key (d + c)) as GF.
    destruct (get_bit key (d + c)) as [b|e| | |] eqn:Eg; cbn [bind]; try discriminate; try contradiction.
    apply (get_bit_lt _ _ _ L) in Eg.
    destruct (Nat.eqb_spec c (bsize p)) as [->|]; cbn [negb].
    + assert (X : tree_insert H rd fuel (child l r b) key value (d + bsize p + 1) <> NoFuel).
      { apply IH; [exact L|]. pose proof (child_need l r b d (bsize p) ltac:(lia)). unfold need at 1 in F. cbn [is_hash] in F. lia. }
      destruct (tree_insert H rd fuel (child l r b) key value (d + bsize p + 1)); cbn [bind]; congruence.
    + unfold bits_split. pose proof (slice_fuel p 0 c) as S1. destruct (bits_slice p 0 c); cbn [bind]; try discriminate; try contradiction.
      pose proof (slice_fuel p (c + 1) (bsize p)) as S2. destruct (bits_slice p (c + 1) (bsize p)); cbn [bind]; try discriminate; contradiction.
  - destruct (bytes_eqb k key); [destruct (value_equals v value); discriminate|].
    unfold bits_collide. pose proof (count_from_fuel (key_bits k) d key d) as CF. destruct (bits_count_from (key_bits k) d key d) as [c|e| | |]; cbn [bind]; try discriminate; try contradiction.
    pose proof (slice_fuel (key_bits k) d (d + c)) as S1. destruct (bits_slice (key_bits k) d (d + c)) as [p|e| | |]; cbn [bind]; try discriminate; try contradiction.
    pose proof (get_bit_fuel key (d + bsize p)) as GF. destruct (get_bit key (d + bsize p)); cbn [bind]; try discriminate; contradiction.
  - destruct (resolve_inv rd h w) as [E|[E|(n & E & R)]]; rewrite E; cbn [bind]; try discriminate.
    apply IH; [exact L|]. unfold need in *. rewrite (record_hash n h R). cbn [is_hash] in F. lia.
Qed.

Lemma remove_fuel rd fuel : forall n key d, length key = 32 -> need n d < fuel -> tree_remove rd fuel n key d <> NoFuel.
Proof.
  induction fuel as [|fuel IH]; intros n key d L F; [lia|]. cbn [tree_remove].
  destruct n as [|h w p l r|h w k v vp|h w].
  - discriminate.
  - unfold bits_has. pose proof (count_fuel p key d) as CF. destruct (bits_count p key d) as [c|e| | |] eqn:Ec; cbn [bind]; try discriminate; try contradiction.
    destruct (Nat.eqb_spec c (bsize p)) as [->|]; cbn [negb]; [|discriminate].
    pose proof (get_bit_fuel key (d + bsize p)) as GF.
    destruct (get_bit key (d + bsize p)) as [b|e| | |] eqn:Eg; cbn [bind]; try discriminate; try contradiction.
    apply (get_bit_lt _ _ _ L) in Eg.
    assert (X : tree_remove rd fuel (child l r b) key (d + bsize p + 1) <> NoFuel).
    { apply IH; [exact L|]. pose proof (child_need l r b d (bsize p) ltac:(lia)). unfold need at 1 in F. cbn [is_hash] in F. lia. }
    destruct (tree_remove rd fuel (child l r b) key (d + bsize p + 1)) as [z|e| | |]; cbn [bind]; try discriminate; try contradiction.
    destruct z; try discriminate.
    assert (Y : forall side, match side with
        | NInt _ _ q sl sr => let! pre := bits_join p q (negb b) in Ok (create_internal pre sl sr false)
        | _ => Ok side end <> NoFuel).
    { intros side. destruct side; try discriminate. pose proof (join_fuel p pre (negb b)). destruct (bits_join p pre (negb b)); cbn [bind]; congruence. }
    destruct (child l r (negb b)) as [|h1 w1 p1 l1 r1|h1 w1 k1 v1 vp1|h2 w2]; cbn [bind]; try discriminate.
    { exact (Y (NInt h1 w1 p1 l1 r1)). }
    destruct (resolve_inv rd h2 w2) as [E|[E|(n & E & R)]]; rewrite E; cbn [bind]; try discriminate. apply Y.
  - destruct (negb (bytes_eqb k key)); discriminate.
  - destruct (resolve_inv rd h w) as [E|[E|(n & E & R)]]; rewrite E; cbn [bind]; try discriminate.
    apply IH; [exact L|]. unfold need in *. rewrite (record_hash n h R). cbn [is_hash] in F. lia.
Qed.

Lemma prove_fuel H rd fuel : forall acc n key d, length key = 32 -> need n d < fuel -> tree_prove H rd fuel acc n key d <> NoFuel.
Proof.
  induction fuel as [|fuel IH]; intros acc n key d L F; [lia|]. cbn [tree_prove].
  destruct n as [|h w p l r|h w k v vp|h w].
  - discriminate.
  - unfold bits_has. pose proof (count_fuel p key d) as CF. destruct (bits_count p key d) as [c|e| | |] eqn:Ec; cbn [bind]; try discriminate; try contradiction.
    destruct (Nat.eqb_spec c (bsize p)) as [->|]; cbn [negb].
    2:{ pose proof (node_hash_fuel H l). destruct (node_hash H l) as [[? ?]|e| | |]; cbn [bind]; try discriminate; try contradiction.
        pose proof (node_hash_fuel H r). destruct (node_hash H r) as [[? ?]|e| | |]; cbn [bind]; try discriminate; contradiction. }
    pose proof (get_bit_fuel key (d + bsize p)) as GF.
    destruct (get_bit key (d + bsize p)) as [b|e| | |] eqn:Eg; cbn [bind]; try discriminate; try contradiction.
    apply (get_bit_lt _ _ _ L) in Eg.
    pose proof (node_hash_fuel H (child l r (negb b))). destruct (node_hash H (child l r (negb b))) as [[yh y]|e| | |]; cbn [bind]; try discriminate; try contradiction.
    unfold proof_push, check. destruct (_ <? _); [|discriminate]. cbn [bind].
    assert (X : tree_prove H rd fuel (acc ++ [(p, yh)]) (child l r b) key (d + bsize p + 1) <> NoFuel).
    { apply IH; [exact L|]. pose proof (child_need l r b d (bsize p) ltac:(lia)). unfold need at 1 in F. cbn [is_hash] in F. lia. }
    destruct (tree_prove H rd fuel (acc ++ [(p, yh)]) (child l r b) key (d + bsize p + 1)) as [[? ?]|e| | |]; cbn [bind]; congruence.
  - pose proof (retrieve_fuel rd v vp). destruct (retrieve rd v vp) as [[x|]|e| | |]; cbn [bind]; try discriminate; try contradiction.
    destruct (bytes_eqb k key); discriminate.
  - destruct (resolve_inv rd h w) as [E|[E|(n & E & R)]]; rewrite E; cbn [bind]; try discriminate.
    assert (X : tree_prove H rd fuel acc n key d <> NoFuel).
    { apply IH; [exact L|]. unfold need in *. rewrite (record_hash n h R). cbn [is_hash] in F. lia. }
    destruct (tree_prove H rd fuel acc n key d) as [[? ?]|e| | |]; cbn [bind]; congruence.
Qed.

(** ** Sane structures: every operation returns *)

Lemma retrieve_ok rd h k v vp : leaf_ok h k v vp -> exists r, retrieve rd v vp = Ok r.
Proof.
  intros [[_ (x & -> & L)]|(_ & -> & _ & V)]; cbn [retrieve].
  - unfold check, VALUE_SIZE. destruct (Nat.leb_spec (length x) 1023); [eauto|lia].
  - destruct vp as [q|]; [|congruence]. destruct (_ <? _)%N; eauto.
Qed.
Lemma leaf_key h k v vp : leaf_ok h k v vp -> length k = 32.
Proof. intros [[L _]|[L _]]; exact L. Qed.
Lemma sane_child rd rb d l r b : sane rd rb d l -> sane rd rb d r -> sane rd rb d (child l r b).
Proof. destruct b; auto. Qed.

Lemma gbk key i : i < 256 -> length key = 32 -> get_bit key i = Ok (kbit key i).
Proof. apply (get_bit_kbit (fun _ => zero_hash)). reflexivity. Qed.

Lemma get_sane rd rb fuel : forall n key d want, length key = 32 -> need n d < fuel -> sane rd rb d n ->
  returns (tree_get rd fuel n key d want).
Proof.
  induction fuel as [|fuel IH]; intros n key d want L F S; [lia|]. cbn [tree_get].
  destruct S as [d|d h w p l r O D Hh Sl Sr|d h w k v vp Lo Hh|d h w B Lh E|d h w n Lh E S].
  - exact I.
  - rewrite bits_has_spec by (auto; lia). cbn [bind]. destruct (is_prefix _ _); cbn [negb]; [|exact I].
    rewrite gbk by (auto; lia). cbn [bind]. apply IH; [exact L| |apply sane_child; assumption].
    pose proof (child_need l r (kbit key (d + bsize p)) d (bsize p) ltac:(lia)). unfold need at 1 in F. cbn [is_hash] in F. lia.
  - destruct (negb _); [exact I|]. destruct want; [|exact I]. destruct (retrieve_ok rd _ _ _ _ Lo) as ([x|] & E); rewrite E; exact I.
  - rewrite E. exact I.
  - rewrite E. cbn [bind]. apply IH; [exact L| |exact S]. destruct (resolve_inv rd h w) as [E'|[E'|(n' & E' & R)]]; rewrite E in E'; try discriminate.
    apply Ok_inj in E'. injection E' as <-. unfold need in *. rewrite (record_hash n h R). cbn [is_hash] in F. lia.
Qed.

Section WithH.
Variable H : bytes -> bytes.
Hypothesis H_len : forall m, length (H m) = 32.

Lemma node_hash_sane rd rb d n : sane rd rb d n ->
  exists h n', node_hash H n = Ok (h, n') /\ length h = 32 /\ sane rd rb d n'.
Proof.
  induction 1 as [d|d h w p l r O D Hh Sl IHl Sr IHr|d h w k v vp Lo Hh|d h w B Lh E|d h w n Lh E S IH]; cbn [node_hash].
  - do 2 eexists. split; [reflexivity|]. split; [reflexivity|constructor].
  - destruct h as [h|].
    + do 2 eexists. split; [reflexivity|]. split; [auto|]. constructor; auto.
    + destruct IHl as (lh & l' & -> & Ll & Sl'). destruct IHr as (rh & r' & -> & Lr & Sr'). cbn [bind].
      do 2 eexists. split; [reflexivity|]. split; [apply H_len|]. constructor; auto. intros x Ex. injection Ex as <-. apply H_len.
  - destruct h as [h|].
    + do 2 eexists. split; [reflexivity|]. split; [auto|]. constructor; auto.
    + destruct Lo as [[Lk (x & -> & Lx)]|(_ & _ & Hn & _)]; [|congruence].
      do 2 eexists. split; [reflexivity|]. split; [apply H_len|]. constructor.
      * left. eauto.
      * intros y Ey. injection Ey as <-. apply H_len.
  - do 2 eexists. split; [reflexivity|]. split; [exact Lh|]. apply sn_bad; auto.
  - do 2 eexists. split; [reflexivity|]. split; [exact Lh|]. eapply sn_hash; eauto.
Qed.

Lemma prove_sane rd rb fuel : (forall p x, rd p = Some x -> blen x = psize p) ->
  forall acc n key d, length key = 32 -> need n d < fuel -> sane rd rb d n ->
  length acc <= d -> d <= 256 -> Forall ok_node acc ->
  (exists e, tree_prove H rd fuel acc n key d = Fail e) \/
  (exists p n', tree_prove H rd fuel acc n key d = Ok (p, n') /\ ok_proof p /\ sane rd rb d n').
Proof.
  intros Hrd. induction fuel as [|fuel IH]; intros acc n key d L F S A D0 Fa; [lia|]. cbn [tree_prove].
  destruct S as [d|d h w p l r O D Hh Sl Sr|d h w k v vp Lo Hh|d h w B Lh E|d h w n Lh E S].
  - right. do 2 eexists. split; [reflexivity|]. split; [|constructor]. repeat split; cbn [p_depth p_nodes p_tail ok_tail]; auto; lia.
  - rewrite bits_has_spec by (auto; lia). cbn [bind]. destruct (is_prefix (bools p) (skipn d (kbits key))) eqn:Ep; cbn [negb].
    + rewrite gbk by (auto; lia). cbn [bind]. set (b := kbit key (d + bsize p)).
      destruct (node_hash_sane rd rb _ _ (sane_child rd rb _ l r (negb b) Sl Sr)) as (yh & y & Ey & Ly & Sy). rewrite Ey. cbn [bind].
      unfold proof_push, check, KEY_BITS. destruct (Nat.ltb_spec (length acc) 256) as [_|X]; [|lia]. cbn [bind].
      destruct (IH (acc ++ [(p, yh)]) (child l r b) key (d + bsize p + 1)) as [(e & Ee)|(pr & x & Ee & Op & Sx)]; auto.
      * pose proof (child_need l r b d (bsize p) ltac:(lia)). unfold need at 1 in F. cbn [is_hash] in F. lia.
      * apply sane_child; assumption.
      * rewrite app_length. cbn [length]. lia.
      * lia.
      * apply Forall_app. split; [exact Fa|]. constructor; [|constructor]. split; [exact O|exact Ly].
      * left. exists e. rewrite Ee. reflexivity.
      * right. rewrite Ee. cbn [bind]. do 2 eexists. split; [reflexivity|]. split; [exact Op|].
        destruct b; cbn [child negb] in *; constructor; auto.
    + destruct (node_hash_sane rd rb _ _ Sl) as (lh & l' & El & Ll & Sl'). rewrite El. cbn [bind].
      destruct (node_hash_sane rd rb _ _ Sr) as (rh & r' & Er & Lr & Sr'). rewrite Er. cbn [bind].
      right. do 2 eexists. split; [reflexivity|]. split.
      * repeat split; cbn [p_depth p_nodes p_tail ok_tail]; auto; try lia. 1: apply O.
        intros Z. rewrite <- (bools_length p O) in Z. apply length_zero_iff_nil in Z. rewrite Z in Ep. discriminate Ep.
      * constructor; auto.
  - destruct (retrieve_ok rd _ _ _ _ Lo) as ([x|] & E); rewrite E; cbn [bind]; [|left; eauto].
    assert (Lx : length x <= 1023).
    { destruct Lo as [[_ (y & -> & Ly)]|(_ & -> & _ & V)]; cbn [retrieve] in E.
      - unfold check in E. destruct (_ <=? _); [|discriminate]. apply Ok_inj in E. injection E as <-. exact Ly.
      - destruct vp as [q|]; [|congruence]. destruct (N.ltb_spec 1023 (psize q)); [discriminate|]. apply Ok_inj in E.
        apply Hrd in E. unfold blen in E. lia. }
    right. destruct (bytes_eqb k key).
    + do 2 eexists. split; [reflexivity|]. split; [|constructor; auto]. repeat split; cbn [p_depth p_nodes p_tail ok_tail]; auto; lia.
    + do 2 eexists. split; [reflexivity|]. split; [|constructor; auto].
      repeat split; cbn [p_depth p_nodes p_tail ok_tail]; auto; try lia. apply (leaf_key _ _ _ _ Lo).
  - rewrite E. left. eexists. reflexivity.
  - rewrite E. cbn [bind].
    destruct (IH acc n key d) as [(e & Ee)|(pr & x & Ee & Op & Sx)]; auto.
    + destruct (resolve_inv rd h w) as [E'|[E'|(n' & E' & R)]]; rewrite E in E'; try discriminate.
      apply Ok_inj in E'. injection E' as <-. unfold need in *. rewrite (record_hash n h R). cbn [is_hash] in F. lia.
    + left. exists e. rewrite Ee. reflexivity.
    + right. rewrite Ee. cbn [bind]. do 2 eexists. split; [reflexivity|]. split; [exact Op|]. eapply sn_hash; eauto.
Qed.
End WithH.

(** Joining two prefixes that together fit never aborts, whatever their unused bits. *)
Lemma bits_join_total l r bit : ok_bits l -> ok_bits r -> bsize l + bsize r + 1 <= 256 ->
  exists b, bits_join l r bit = Ok b /\ ok_bits b /\ bsize b = bsize l + bsize r + 1.
Proof.
  intros [L1 S1] [L2 S2] Hs. unfold bits_join. rewrite bits_init_spec by lia. cbn [bind bdata bsize].
  assert (Hnb : nbytes (bsize l) <= 32) by (apply nbytes_bound; lia).
  rewrite copy_bytes_ok; [|rewrite L1; exact Hnb|rewrite repeat_length; exact Hnb]. cbn [bind]. set (d := firstn _ _ ++ _).
  assert (Ld : length d = 32).
  { unfold d. rewrite app_length, firstn_length, skipn_length, L1, repeat_length. lia. }
  clearbody d.
  assert (Set_ : forall out i x, length (bdata out) = 32 -> i < 256 ->
     exists d', bits_set out i x = Ok (mkbits (bsize out) d') /\ length d' = 32).
  { clear. intros out i x Lo Li. unfold bits_set, check, KEY_BITS. destruct (Nat.ltb_spec i 256); [|lia]. unfold set_bit.
    assert (X : i / 8 < length (bdata out)). { rewrite Lo. clear - Li. pose proof (Nat.div_lt_upper_bound i 8 32). lia. }
    apply nth_error_Some in X. destruct (nth_error (bdata out) (i / 8)); [|congruence]. cbn [bind].
    eexists. split; [reflexivity|]. rewrite upd_length. exact Lo. }
  destruct (Set_ (mkbits (bsize l + bsize r + 1) d) (bsize l) bit Ld ltac:(lia)) as (d1 & E1 & L3). rewrite E1. cbn [bind bsize].
  assert (Cp : forall n out i j, length (bdata out) = 32 -> i + n <= 256 -> j + n <= 256 ->
     exists d', copy_loop n out i r j = Ok (mkbits (bsize out) d') /\ length d' = 32).
  { induction n as [|n IH]; intros out i j Lo Li Lj; cbn [copy_loop].
    - exists (bdata out). split; [destruct out; reflexivity|exact Lo].
    - unfold bits_get, check, KEY_BITS. destruct (Nat.ltb_spec j 256); [|lia].
      destruct (get_bit_ok (bdata r) j ltac:(lia)) as (x & Ex & _). rewrite Ex. cbn [bind].
      destruct (Set_ out i x Lo ltac:(lia)) as (d2 & E2 & Ld2). rewrite E2. cbn [bind].
      destruct (IH (mkbits (bsize out) d2) (S i) (S j) Ld2 ltac:(lia) ltac:(lia)) as (d3 & E3 & L4). cbn [bsize] in E3. eauto. }
  destruct (Cp (bsize r) (mkbits (bsize l + bsize r + 1) d1) (bsize l + 1) 0 L3 ltac:(lia) ltac:(lia)) as (d2 & E2 & Ld2).
  exists (mkbits (bsize l + bsize r + 1) d2). cbn [bsize] in *. rewrite E2. split; [reflexivity|]. split; [split; cbn; [assumption|lia]|reflexivity].
Qed.

Lemma sane_up rd rb d n : sane rd rb d n -> forall d', d' <= d -> sane rd rb d' n.
Proof.
  induction 1 as [d|d h w p l r O D Hh Sl IHl Sr IHr|d h w k v vp Lo Hh|d h w B Lh E|d h w n Lh E S IH]; intros d' Ld.
  - constructor.
  - constructor; auto; [lia|apply IHl; lia|apply IHr; lia].
  - constructor; auto.
  - apply sn_bad; auto.
  - eapply sn_hash; eauto.
Qed.

Lemma remove_sane rd fuel : forall n key d, length key = 32 -> need n d < fuel -> sane rd true d n ->
  (exists e, tree_remove rd fuel n key d = Fail e) \/
  (exists n', tree_remove rd fuel n key d = Ok n' /\ sane rd true d n').
Proof.
  induction fuel as [|fuel IH]; intros n key d L F S; [lia|]. cbn [tree_remove].
  destruct S as [d|d h w p l r O D Hh Sl Sr|d h w k v vp Lo Hh|d h w B Lh E|d h w n Lh E S].
  - left. eauto.
  - rewrite bits_has_spec by (auto; lia). cbn [bind]. destruct (is_prefix _ _); cbn [negb]; [|left; eauto].
    rewrite gbk by (auto; lia). cbn [bind]. set (b := kbit key (d + bsize p)).
    destruct (IH (child l r b) key (d + bsize p + 1)) as [(e & Ee)|(z & Ee & Sz)]; auto.
    + pose proof (child_need l r b d (bsize p) ltac:(lia)). unfold need at 1 in F. cbn [is_hash] in F. lia.
    + apply sane_child; assumption.
    + rewrite Ee. left. exists e. reflexivity.
    + rewrite Ee. cbn [bind]. right.
      assert (Y : sane rd true (d + bsize p + 1) (child l r (negb b))) by (apply sane_child; assumption).
      assert (Keep : z <> NNull -> sane rd true d (create_internal p z (child l r (negb b)) b)).
      { intros _. unfold create_internal. destruct b; cbn [child negb] in *; constructor; auto; discriminate. }
      assert (Join : forall side, sane rd true (d + bsize p + 1) side -> exists n',
         match side with
         | NInt _ _ q sl sr => let! pre := bits_join p q (negb b) in Ok (create_internal pre sl sr false)
         | _ => Ok side end = Ok n' /\ sane rd true d n').
      { intros side Ss. remember (d + bsize p + 1) as dd eqn:Edd. destruct Ss as [d2|d2 h2 w2 p2 l2 r2 O2 D2 Hh2 Sl2 Sr2|d2 h2 w2 k2 v2 vp2 Lo2 Hh2|d2 h2 w2 B2 Lh2 E2|d2 h2 w2 n2 Lh2 E2 S2].
        - eexists. split; [reflexivity|constructor].
        - destruct (bits_join_total p p2 (negb b) O O2 ltac:(lia)) as (pre & Ej & Oj & Sj). rewrite Ej. cbn [bind].
          eexists. split; [reflexivity|]. unfold create_internal. constructor; auto; try discriminate; [lia| |];
            rewrite Sj; replace (d + (bsize p + bsize p2 + 1) + 1) with (d2 + bsize p2 + 1) by lia; assumption.
        - eexists. split; [reflexivity|]. constructor; auto.
        - discriminate B2.
        - eexists. split; [reflexivity|]. eapply sn_hash; eauto. apply (sane_up rd true _ _ S2). lia. }
      destruct z as [|hz wz pz lz rz|hz wz kz vz vpz|hz wz]; try (eexists; split; [reflexivity|apply Keep; discriminate]).
      remember (child l r (negb b)) as y eqn:Ey. clear Ey Keep. remember (d + bsize p + 1) as dd eqn:Edd.
      destruct Y as [d2|d2 h2 w2 p2 l2 r2 O2 D2 Hh2 Sl2 Sr2|d2 h2 w2 k2 v2 vp2 Lo2 Hh2|d2 h2 w2 B2 Lh2 E2|d2 h2 w2 n2 Lh2 E2 S2].
      * exact (Join NNull ltac:(constructor)).
      * apply (Join (NInt h2 w2 p2 l2 r2)). constructor; auto.
      * apply (Join (NLeaf h2 w2 k2 v2 vp2)). constructor; auto.
      * discriminate B2.
      * rewrite E2. cbn [bind]. apply Join, S2.
  - destruct (negb _); [left; eauto|]. right. eexists. split; [reflexivity|constructor].
  - discriminate B.
  - rewrite E. cbn [bind]. destruct (IH n key d) as [(e & Ee)|(z & Ee & Sz)]; auto.
    + destruct (resolve_inv rd h w) as [E'|[E'|(n' & E' & R)]]; rewrite E in E'; try discriminate.
      apply Ok_inj in E'. injection E' as <-. unfold need in *. rewrite (record_hash n h R). cbn [is_hash] in F. lia.
    + left. eauto.
    + right. eauto.
Qed.

(** ** Sound structures stay orderly *)

Lemma lcp_split a : forall b, lcp a b < length a -> lcp a b < length b ->
  exists x, a = firstn (lcp a b) a ++ x :: skipn (S (lcp a b)) a /\ b = firstn (lcp a b) a ++ negb x :: skipn (S (lcp a b)) b.
Proof.
  induction a as [|x a IH]; intros [|y b] La Lb; cbn [lcp length] in *; try lia.
  destruct (Bool.eqb x y) eqn:E.
  - apply Bool.eqb_prop in E. subst y. destruct (IH b ltac:(lia) ltac:(lia)) as (z & Ea & Eb).
    exists z. split; cbn [firstn skipn app]; f_equal; assumption.
  - exists x. split; [reflexivity|]. cbn [firstn skipn app]. f_equal. destruct x, y; try discriminate E; reflexivity.
Qed.

Lemma sound_child rd rb path p l r b : orderly rd rb (path ++ bools p ++ [false]) l -> orderly rd rb (path ++ bools p ++ [true]) r ->
  orderly rd rb (path ++ bools p ++ [b]) (child l r b).
Proof. destruct b; auto. Qed.
Lemma sound_int rd rb path p x y b : wf_bits p -> length path + bsize p < 256 ->
  orderly rd rb (path ++ bools p ++ [b]) x -> orderly rd rb (path ++ bools p ++ [negb b]) y ->
  orderly rd rb path (create_internal p x y b).
Proof. intros W L Sx Sy. unfold create_internal. destruct b; cbn [negb] in *; constructor; auto; discriminate. Qed.
Lemma need_sub (l r : node) b d c fuel h w p : c + d < 256 -> need (NInt h w p l r) d < S fuel -> need (child l r b) (d + c + 1) < fuel.
Proof. intros L F. pose proof (child_need l r b d c L). unfold need at 1 in F. cbn [is_hash] in F. lia. Qed.
Lemma need_record rd h w n d fuel : resolve rd h w = Ok (Some n) -> need (NHash h w) d < S fuel -> need n d < fuel.
Proof.
  intros E F. destruct (resolve_inv rd h w) as [E'|[E'|(n' & E' & R)]]; rewrite E in E'; try discriminate.
  apply Ok_inj in E'. injection E' as <-. unfold need in *. rewrite (record_hash n h R). cbn [is_hash] in F. lia.
Qed.
Lemma sound_len path p b : wf_bits p -> length (path ++ bools p ++ [b]) = length path + bsize p + 1.
Proof. intros W. rewrite !app_length, bools_length by apply wf_ok, W. cbn [length]. lia. Qed.

Section WithH2.
Variable H : bytes -> bytes.
Hypothesis H_len : forall m, length (H m) = 32.

Lemma sound_leaf rd rb path k v : has path k -> length k = 32 -> length v <= 1023 -> orderly rd rb path (create_leaf H k v).
Proof.
  intros P Lk Lv. unfold create_leaf. constructor; [left; eauto| |exact P]. intros x E. injection E as <-. apply H_len.
Qed.

Lemma insert_sound rd rb fuel : forall n key value path, length key = 32 -> length value <= 1023 -> has path key ->
  need n (length path) < fuel -> orderly rd rb path n ->
  (exists e, tree_insert H rd fuel n key value (length path) = Fail e) \/
  (exists n', tree_insert H rd fuel n key value (length path) = Ok n' /\ orderly rd rb path n').
Proof.
  induction fuel as [|fuel IH]; intros n key value path L Lv P F S; [lia|]. cbn [tree_insert].
  destruct S as [path|path h w p l r W D Hh Sl Sr|path h w k v vp Lo Hh Hk|path h w B Lh E|path h w n Lh E S].
  - right. eexists. split; [reflexivity|]. apply sound_leaf; assumption.
  - pose proof (wf_ok _ W) as O. rewrite bits_count_spec by (auto; lia). cbn [bind].
    set (c := lcp (bools p) (skipn (length path) (kbits key))).
    pose proof (lcp_le_l (bools p) (skipn (length path) (kbits key))) as Lc. fold c in Lc. rewrite bools_length in Lc by exact O.
    rewrite gbk by (auto; lia). cbn [bind].
    destruct (Nat.eqb_spec c (bsize p)) as [Ec|Nc]; cbn [negb].
    + rewrite Ec. assert (Pre : is_prefix (bools p) (skipn (length path) (kbits key)) = true).
      { rewrite <- lcp_full. apply Nat.eqb_eq. rewrite bools_length by exact O. exact Ec. }
      pose proof (step_has path (bools p) key P L ltac:(rewrite bools_length by exact O; lia) Pre) as Hb.
      rewrite bools_length in Hb by exact O. set (b := kbit key (length path + bsize p)) in *.
      rewrite <- (sound_len path p b W).
      destruct (IH (child l r b) key value (path ++ bools p ++ [b])) as [(e & Ee)|(z & Ee & Sz)]; auto.
      * rewrite (sound_len path p b W). eapply need_sub; [|exact F]. lia.
      * apply sound_child; assumption.
      * left. exists e. rewrite Ee. reflexivity.
      * right. rewrite Ee. cbn [bind]. eexists. split; [reflexivity|]. apply sound_int; auto. apply sound_child; assumption.
    + rewrite bits_split_spec by (auto; lia). cbn [bind]. right. eexists. split; [reflexivity|].
      assert (Lb : length (skipn (length path) (kbits key)) = 256 - length path) by (rewrite skipn_length, kbits_length; lia).
      destruct (lcp_split (bools p) (skipn (length path) (kbits key))) as (x & Ea & Eb).
      { fold c. rewrite bools_length by exact O. lia. } { fold c. rewrite Lb. lia. }
      fold c in Ea, Eb.
      assert (Lf : length (firstn c (bools p)) = c) by (rewrite firstn_length, bools_length by exact O; lia).
      assert (Ls : length (skipn (Datatypes.S c) (bools p)) = bsize p - Datatypes.S c) by (rewrite skipn_length, bools_length by exact O; lia).
      pose proof O as [_ O2].
      assert (Kb : kbit key (length path + c) = negb x).
      { pose proof (has_skipn _ _ P) as Ek. rewrite Eb in Ek. rewrite <- Lf at 1. eapply kbit_app. exact Ek. }
      rewrite Kb. apply sound_int.
      * apply of_bools_wf. lia.
      * cbn [of_bools bsize]. lia.
      * rewrite bools_of_bools by lia. apply sound_leaf; auto. pose proof (has_skipn _ _ P) as Ek. rewrite Eb in Ek.
        exists (skipn (Datatypes.S c) (skipn (length path) (kbits key))). rewrite <- !app_assoc. exact Ek.
      * rewrite bools_of_bools, negb_involutive by lia. unfold create_internal.
        assert (Ep : forall y, (path ++ firstn c (bools p) ++ [x]) ++ skipn (Datatypes.S c) (bools p) ++ [y] = path ++ bools p ++ [y]).
        { intros y. rewrite Ea at 3. rewrite <- !app_assoc. reflexivity. }
        constructor; try discriminate.
        -- apply of_bools_wf. lia.
        -- rewrite !app_length. cbn [of_bools bsize length]. lia.
        -- rewrite bools_of_bools, Ep by lia. exact Sl.
        -- rewrite bools_of_bools, Ep by lia. exact Sr.
  - destruct (bytes_eqb_spec k key) as [->|N].
    + destruct (value_equals v value); [left; eauto|]. right. eexists. split; [reflexivity|]. apply sound_leaf; assumption.
    + pose proof (leaf_key _ _ _ _ Lo) as Lk. pose proof (has_len _ _ P L) as Lp. rewrite bits_collide_spec by auto. cbn [bind].
      set (a := skipn (length path) (kbits k)). set (c := lcp a (skipn (length path) (kbits key))).
      pose proof (has_skipn _ _ P) as E1. pose proof (has_skipn _ _ Hk) as E2. fold a in E2.
      assert (L1 : length a = 256 - length path) by (unfold a; rewrite skipn_length, kbits_length; lia).
      assert (L2 : length (skipn (length path) (kbits key)) = 256 - length path) by (rewrite skipn_length, kbits_length; lia).
      pose proof (lcp_le_l a (skipn (length path) (kbits key))) as Lc. fold c in Lc.
      assert (Hc : c < 256 - length path).
      { destruct (Nat.lt_ge_cases c (256 - length path)) as [G|G]; [exact G|]. exfalso. apply N. apply kbits_inj. rewrite E1, E2. f_equal.
        assert (Ef : (c =? length a) = true) by (apply Nat.eqb_eq; lia).
        unfold c in Ef. rewrite lcp_full in Ef. apply is_prefix_iff in Ef. destruct Ef as (s & Es).
        assert (s = []). { apply length_zero_iff_nil. apply (f_equal (@length bool)) in Es. rewrite app_length in Es. lia. }
        subst s. rewrite app_nil_r in Es. symmetry. exact Es. }
      destruct (lcp_split a (skipn (length path) (kbits key))) as (x & Ea & Eb); [fold c; lia|fold c; lia|]. fold c in Ea, Eb.
      assert (Lf : length (firstn c a) = c) by (rewrite firstn_length; lia).
      change (bsize (of_bools ?z)) with (length z). rewrite Lf. rewrite gbk by (auto; lia). cbn [bind].
      assert (Kb : kbit key (length path + c) = negb x).
      { rewrite Eb in E1. rewrite <- Lf at 1. eapply kbit_app. exact E1. }
      rewrite Kb. right. eexists. split; [reflexivity|]. apply sound_int.
      * apply of_bools_wf. lia.
      * cbn [of_bools bsize]. lia.
      * rewrite bools_of_bools by lia. apply sound_leaf; auto. rewrite Eb in E1.
        exists (skipn (Datatypes.S c) (skipn (length path) (kbits key))). rewrite <- !app_assoc. exact E1.
      * rewrite bools_of_bools, negb_involutive by lia. constructor; auto. rewrite Ea in E2.
        exists (skipn (Datatypes.S c) a). rewrite <- !app_assoc. exact E2.
  - rewrite E. left. eexists. reflexivity.
  - rewrite E. cbn [bind]. destruct (IH n key value path) as [(e & Ee)|(z & Ee & Sz)]; auto; [|left; eauto|right; eauto].
    eapply need_record; [exact E|exact F].
Qed.
End WithH2.

Lemma remove_sound rd fuel : forall n key path, length key = 32 -> has path key ->
  need n (length path) < fuel -> orderly rd true path n ->
  (exists e, tree_remove rd fuel n key (length path) = Fail e) \/
  (exists n', tree_remove rd fuel n key (length path) = Ok n' /\ orderly rd true path n').
Proof.
  induction fuel as [|fuel IH]; intros n key path L P F S; [lia|]. cbn [tree_remove].
  destruct S as [path|path h w p l r W D Hh Sl Sr|path h w k v vp Lo Hh Hk|path h w B Lh E|path h w n Lh E S].
  - left. eauto.
  - pose proof (wf_ok _ W) as O. rewrite bits_has_spec by (auto; lia). cbn [bind].
    destruct (is_prefix (bools p) (skipn (length path) (kbits key))) eqn:Pre; cbn [negb]; [|left; eauto].
    rewrite gbk by (auto; lia). cbn [bind].
    pose proof (step_has path (bools p) key P L ltac:(rewrite bools_length by exact O; lia) Pre) as Hb.
    rewrite bools_length in Hb by exact O. set (b := kbit key (length path + bsize p)) in *.
    rewrite <- (sound_len path p b W).
    destruct (IH (child l r b) key (path ++ bools p ++ [b])) as [(e & Ee)|(z & Ee & Sz)]; auto.
    + rewrite (sound_len path p b W). eapply need_sub; [|exact F]. lia.
    + apply sound_child; assumption.
    + rewrite Ee. left. exists e. reflexivity.
    + rewrite Ee. cbn [bind]. right.
      assert (Y : orderly rd true (path ++ bools p ++ [negb b]) (child l r (negb b))) by (apply sound_child; assumption).
      assert (Keep : orderly rd true path (create_internal p z (child l r (negb b)) b)) by (apply sound_int; auto).
      destruct z as [|hz wz pz lz rz|hz wz kz vz vpz|hz wz]; try (eexists; split; [reflexivity|exact Keep]). clear Keep Sz Ee.
      assert (Join : forall side, (forall h w, side <> NHash h w) -> orderly rd true (path ++ bools p ++ [negb b]) side -> exists n',
         match side with
         | NInt _ _ q sl sr => let! pre := bits_join p q (negb b) in Ok (create_internal pre sl sr false)
         | _ => Ok side end = Ok n' /\ orderly rd true path n').
      { intros side NH Ss. remember (path ++ bools p ++ [negb b]) as pp eqn:Epp.
        destruct Ss as [pp|pp h2 w2 p2 l2 r2 W2 D2 Hh2 Sl2 Sr2|pp h2 w2 k2 v2 vp2 Lo2 Hh2 Hk2|pp h2 w2 B2 Lh2 E2|pp h2 w2 n2 Lh2 E2 S2]; try (exfalso; eapply NH; reflexivity).
        - eexists. split; [reflexivity|constructor].
        - pose proof (f_equal (@length bool) Epp) as Lpp. rewrite (sound_len path p (negb b) W) in Lpp.
          rewrite bits_join_spec by (auto using wf_ok; lia). cbn [bind]. eexists. split; [reflexivity|].
          pose proof (bools_length p O) as B1. pose proof (bools_length p2 (wf_ok _ W2)) as B2.
          assert (Lj : length (bools p ++ negb b :: bools p2) = bsize p + bsize p2 + 1) by (rewrite app_length; cbn [length]; lia).
          assert (Ep : forall y, path ++ (bools p ++ negb b :: bools p2) ++ [y] = pp ++ bools p2 ++ [y]).
          { intros y. rewrite Epp, <- !app_assoc. reflexivity. }
          unfold create_internal. constructor; try discriminate.
          + apply of_bools_wf. lia.
          + cbn [of_bools bsize]. lia.
          + rewrite bools_of_bools, Ep by lia. exact Sl2.
          + rewrite bools_of_bools, Ep by lia. exact Sr2.
        - eexists. split; [reflexivity|]. constructor; auto. rewrite Epp in Hk2. eapply has_app_inv, Hk2. }
      remember (child l r (negb b)) as y eqn:Ey. clear Ey.
      destruct y as [|h2 w2 p2 l2 r2|h2 w2 k2 v2 vp2|h2 w2];
        [exact (Join NNull ltac:(discriminate) Y)|exact (Join (NInt h2 w2 p2 l2 r2) ltac:(discriminate) Y)|exact (Join (NLeaf h2 w2 k2 v2 vp2) ltac:(discriminate) Y)|].
      remember (path ++ bools p ++ [negb b]) as pp eqn:Epp. remember (NHash h2 w2) as y eqn:Ey.
      destruct Y as [pp|pp h3 w3 p3 l3 r3 W3 D3 Hh3 Sl3 Sr3|pp h3 w3 k3 v3 vp3 Lo3 Hh3 Hk3|pp h3 w3 B3 Lh3 E3|pp h3 w3 n3 Lh3 E3 S3]; try discriminate Ey; [discriminate B3|].
      injection Ey as -> ->. rewrite E3. cbn [bind]. apply Join; [|exact S3]. intros h4 w4 ->.
      destruct (resolve_inv rd h2 w2) as [E'|[E'|(n' & E' & R)]]; rewrite E3 in E'; try discriminate.
      apply Ok_inj in E'. injection E' as <-. destruct R as [(a1 & a2 & a3 & a4 & a5 & a6 & X & _)|(a1 & a2 & a3 & X & _)]; discriminate X.
  - destruct (negb _); [left; eauto|]. right. eexists. split; [reflexivity|constructor].
  - discriminate B.
  - rewrite E. cbn [bind]. destruct (IH n key path) as [(e & Ee)|(z & Ee & Sz)]; auto; [|left; eauto|right; eauto].
    eapply need_record; [exact E|exact F].
Qed.

(** ** Iteration *)

(** No internal node has a null child (never the case in a structure the library builds). *)
Fixpoint full (n : node) : Prop :=
  match n with
  | NInt _ _ _ l r => l <> NNull /\ r <> NNull /\ full l /\ full r
  | _ => True
  end.
Fixpoint full_stack (st : list frame) : Prop :=
  match st with
  | [] => True
  | fr :: rest => full (f_node fr) /\ (rest <> [] -> f_node fr <> NNull) /\ full_stack rest
  end.
Lemma record_full n h : record n h -> full n /\ n <> NNull.
Proof.
  intros [(w & p & lh & lp & rh & rp & -> & _)|(w & k & vp & -> & _)]; cbn [full]; split; auto; try discriminate.
  repeat split; discriminate.
Qed.

Lemma seek_fuel_val : SEEK_FUEL = 258.
Proof. reflexivity. Qed.
Definition seek_post (root : node) (len : nat) (r : sres) (it' : iterst) : Prop :=
  (it_root it' = root /\ full_stack (it_stack it')) /\ 1 <= length (it_stack it') <= 256 /\
  match r with
  | SNone => length (it_stack it') = len
  | SAt NNull => length (it_stack it') = 1
  | SAt (NLeaf _ _ _ _ _) => True
  | SAt _ => False
  | SErr _ => True
  end.

Lemma seek_loop_term rd fuel : forall it, 1 <= length (it_stack it) <= 256 -> 257 - length (it_stack it) < fuel -> full_stack (it_stack it) ->
  seek_loop rd fuel it <> NoFuel /\
  forall r it', seek_loop rd fuel it = Ok (r, it') -> seek_post (it_root it) (length (it_stack it)) r it' /\
    ((match it_stack it with fr :: _ => f_child fr = 0 | [] => False end) -> r <> SNone).
Proof.
  induction fuel as [|fuel IH]; intros it L F Fu; [lia|]. cbn [seek_loop].
  destruct (it_stack it) as [|fr rest] eqn:Es; [cbn in L; lia|]. cbn [full_stack] in Fu. destruct Fu as (F1 & F2 & F3).
  assert (Push : forall c n, f_node fr <> NNull -> full n -> n <> NNull ->
    let it1 := mkiter (it_root it) (mkframe (f_node fr) c :: rest) (it_done it) in
    (let! it := iter_push it1 n in seek_loop rd fuel it) <> NoFuel /\
    forall r it', (let! it := iter_push it1 n in seek_loop rd fuel it) = Ok (r, it') ->
      seek_post (it_root it) (length (fr :: rest)) r it' /\ r <> SNone).
  { intros c n Nf Fn Nn. cbn zeta. unfold iter_push, check. cbn [it_stack it_root it_done].
    cbn [length] in *. destruct (Nat.ltb_spec (S (length rest)) 256) as [L1|L1]; [|cbn [bind]; split; [|intros r it']; discriminate].
    cbn [bind]. match goal with |- context [seek_loop rd fuel ?x] => set (it2 := x) end.
    destruct (IH it2) as [T P]; unfold it2; cbn [it_stack length]; [lia|lia| |].
    { cbn [full_stack f_node]. auto. }
    fold it2. split; [exact T|]. intros r it' E. destruct (P r it' E) as [Q N]. assert (N' : r <> SNone) by (apply N; reflexivity).
    split; [|exact N']. destruct Q as (Q1 & Q2 & Q3). split; [exact Q1|]. split; [exact Q2|]. destruct r; [congruence|exact Q3..]. }
  destruct (f_node fr) as [|h w p l r|h w k v vp|h w] eqn:En.
  - split; [discriminate|]. intros r it' E. apply Ok_inj in E. injection E as <- <-. split; [|discriminate].
    split; [split; [reflexivity|rewrite Es; cbn [full_stack]; rewrite En; auto]|]. rewrite Es. split; [exact L|].
    destruct rest; [reflexivity|]. exfalso. apply F2; [discriminate|reflexivity].
  - destruct (Nat.leb_spec 2 (f_child fr)) as [L2|L2].
    + split; [discriminate|]. intros x it' E. apply Ok_inj in E. injection E as <- <-. split; [|intros Z; rewrite Z in L2; lia].
      split; [split; [reflexivity|rewrite Es; cbn [full_stack]; rewrite En; auto]|]. rewrite Es. auto.
    + destruct F1 as (Nl & Nr & Fl & Fr).
      destruct (Push (S (f_child fr)) (if S (f_child fr) =? 2 then r else l)) as [T P]; [discriminate|destruct (_ =? 2); assumption|destruct (_ =? 2); assumption|].
      split; [exact T|]. intros x it' E. destruct (P x it' E) as [Q N]. auto.
  - split; [discriminate|]. intros r it' E. apply Ok_inj in E. injection E as <- <-. split; [|discriminate].
    split; [split; [reflexivity|rewrite Es; cbn [full_stack]; rewrite En; auto]|]. rewrite Es. auto.
  - destruct (Nat.leb_spec 1 (f_child fr)) as [L2|L2].
    + split; [discriminate|]. intros x it' E. apply Ok_inj in E. injection E as <- <-. split; [|intros Z; rewrite Z in L2; lia].
      split; [split; [reflexivity|rewrite Es; cbn [full_stack]; rewrite En; auto]|]. rewrite Es. auto.
    + destruct (resolve_inv rd h w) as [E|[E|(n & E & R)]]; rewrite E; cbn [bind].
      * split; [discriminate|]. intros x it' E'. apply Ok_inj in E'. injection E' as <- <-. split; [|discriminate].
        split; [split; [reflexivity|cbn [it_stack full_stack f_node]; auto]|]. cbn [it_stack length] in *. auto.
      * split; [|intros x it']; discriminate.
      * destruct (record_full n h R) as [Rf Rn]. destruct (Push 1 n) as [T P]; [discriminate|assumption|assumption|].
        split; [exact T|]. intros x it' E'. destruct (P x it' E') as [Q N]. auto.
Qed.

(** An iterator as the calls of the API leave it. *)
Definition iter_ok (it : iterst) : Prop :=
  full (it_root it) /\ full_stack (it_stack it) /\ length (it_stack it) <= 256.

Lemma next_loop_term rd fuel : forall it, iter_ok it -> length (it_stack it) + 1 < fuel -> (it_stack it = [] -> 3 < fuel) ->
  next_loop rd fuel it <> NoFuel.
Proof.
  induction fuel as [|fuel IH]; intros it (Fr & Fs & L) F F0; [lia|]. cbn [next_loop]. unfold iter_seek.
  destruct (it_done it); [cbn [bind]; discriminate|].
  assert (Fin : forall it1, full (it_root it1) -> 1 <= length (it_stack it1) <= 256 -> full_stack (it_stack it1) ->
     length (it_stack it1) + 1 < fuel ->
     (let! (r, it) := seek_loop rd SEEK_FUEL it1 in
      match r with
      | SErr e => Ok (IErr e, it)
      | SAt (NLeaf _ _ k v vp) =>
        let! x := retrieve rd v vp in
        match x with None => Ok (IErr ECORRUPTION, it) | Some x => Ok (IRec k x, it) end
      | _ => next_loop rd fuel it
      end) <> NoFuel).
  { intros it1 Fr1 L1 Fs1 F1. destruct (seek_loop_term rd SEEK_FUEL it1 L1) as [T P]; [pose proof seek_fuel_val; lia|exact Fs1|].
    destruct (seek_loop rd SEEK_FUEL it1) as [[r it2]|e| | |] eqn:E; cbn [bind]; try discriminate; [|congruence].
    destruct (P _ _ eq_refl) as [((Q0 & Q1) & Q2 & Q3) _]. rewrite <- Q0 in Fr1.
    destruct r as [|n|e]; [| |discriminate].
    - apply IH; [repeat split; auto; lia|lia|]. intros Z. rewrite Z in Q2. cbn in Q2. lia.
    - destruct n as [|h w p l r|h w k v vp|h w]; try contradiction.
      + apply IH; [repeat split; auto; lia|lia|]. intros Z. rewrite Z in Q2. cbn in Q2. lia.
      + pose proof (retrieve_fuel rd v vp). destruct (retrieve rd v vp) as [[x|]|e| | |]; cbn [bind]; try discriminate; contradiction. }
  destruct (it_stack it) as [|fr [|fr2 rest]] eqn:Es.
  - unfold iter_push, check. rewrite Es. change (length (@nil frame) <? 256) with true. cbn [bind]. apply Fin; cbn [it_root it_stack length full_stack f_node]; auto; [lia|].
    specialize (F0 eq_refl). lia.
  - cbn [bind]. discriminate.
  - cbn [length] in *. cbn [full_stack] in Fs. destruct Fs as (_ & _ & Fs). apply Fin; cbn [it_root it_stack length]; auto; lia.
Qed.

(** The invariant is kept by every call. *)
Lemma next_loop_inv rd fuel : forall it r it', iter_ok it -> next_loop rd fuel it = Ok (r, it') -> iter_ok it'.
Proof.
  induction fuel as [|fuel IH]; intros it x it' (Fr & Fs & L); [discriminate|]. cbn [next_loop]. unfold iter_seek.
  destruct (it_done it); [cbn [bind]; intros E; apply Ok_inj in E; injection E as <- <-; repeat split; assumption|].
  assert (Fin : forall it1, full (it_root it1) -> 1 <= length (it_stack it1) <= 256 -> full_stack (it_stack it1) ->
     (let! (r, it) := seek_loop rd SEEK_FUEL it1 in
      match r with
      | SErr e => Ok (IErr e, it)
      | SAt (NLeaf _ _ k v vp) =>
        let! x := retrieve rd v vp in
        match x with None => Ok (IErr ECORRUPTION, it) | Some x => Ok (IRec k x, it) end
      | _ => next_loop rd fuel it
      end) = Ok (x, it') -> iter_ok it').
  { intros it1 Fr1 L1 Fs1. destruct (seek_loop_term rd SEEK_FUEL it1 L1) as [T P]; [pose proof seek_fuel_val; lia|exact Fs1|].
    destruct (seek_loop rd SEEK_FUEL it1) as [[r it2]|e| | |] eqn:E; cbn [bind]; try discriminate.
    destruct (P _ _ eq_refl) as [((Q0 & Q1) & Q2 & Q3) _]. rewrite <- Q0 in Fr1.
    assert (K : iter_ok it2) by (repeat split; auto; lia).
    destruct r as [|n|e]; [intros E'; eapply IH; [exact K|exact E']| |intros E'; apply Ok_inj in E'; injection E' as <- <-; exact K].
    destruct n as [|h w p l r|h w k v vp|h w]; try contradiction; [intros E'; eapply IH; [exact K|exact E']|].
    destruct (retrieve rd v vp) as [[y|]|e| | |]; cbn [bind]; try discriminate; intros E'; apply Ok_inj in E'; injection E' as <- <-; exact K. }
  destruct (it_stack it) as [|fr [|fr2 rest]] eqn:Es.
  - unfold iter_push, check. rewrite Es. change (length (@nil frame) <? 256) with true. cbn [bind]. apply Fin; cbn [it_root it_stack length full_stack f_node]; auto; lia.
  - cbn [bind]. intros E; apply Ok_inj in E; injection E as <- <-. repeat split; cbn; auto; lia.
  - cbn [length] in *. cbn [full_stack] in Fs. destruct Fs as (_ & _ & Fs). apply Fin; cbn [it_root it_stack length]; auto; lia.
Qed.

(** Stacks on which nothing aborts. *)
Fixpoint fit_stack (rd : ptr -> option bytes) (st : list frame) : Prop :=
  match st with
  | [] => True
  | fr :: rest => fits rd (length st) (f_node fr) /\ fit_stack rd rest
  end.
Lemma fits_full rd s n : fits rd s n -> full n.
Proof. induction 1; cbn [full]; auto. Qed.

Lemma seek_loop_fit rd fuel : forall it, 1 <= length (it_stack it) <= 256 -> 257 - length (it_stack it) < fuel ->
  fit_stack rd (it_stack it) ->
  exists r it', seek_loop rd fuel it = Ok (r, it') /\ fit_stack rd (it_stack it') /\ it_root it' = it_root it /\
    match r with SAt (NLeaf h w k v vp) => leaf_ok h k v vp | _ => True end.
Proof.
  induction fuel as [|fuel IH]; intros it L F Fi; [lia|]. cbn [seek_loop].
  destruct (it_stack it) as [|fr rest] eqn:Es; [cbn in L; lia|]. cbn [fit_stack] in Fi. destruct Fi as (F1 & F2).
  assert (Push : forall c n, length (fr :: rest) < 256 -> fits rd (S (length (fr :: rest))) n ->
    let it1 := mkiter (it_root it) (mkframe (f_node fr) c :: rest) (it_done it) in
    exists r it', (let! it := iter_push it1 n in seek_loop rd fuel it) = Ok (r, it') /\ fit_stack rd (it_stack it') /\ it_root it' = it_root it /\
      match r with SAt (NLeaf h w k v vp) => leaf_ok h k v vp | _ => True end).
  { intros c n Ln Fn. cbn zeta. unfold iter_push, check. cbn [it_stack it_root it_done].
    cbn [length] in *. destruct (Nat.ltb_spec (S (length rest)) 256) as [L1|L1]; [|lia].
    cbn [bind]. match goal with |- context [seek_loop rd fuel ?x] => set (it2 := x) end.
    destruct (IH it2) as (r & it' & E & G1 & G2 & G3); unfold it2; cbn [it_stack length]; [lia|lia| |].
    { cbn [fit_stack f_node length]. auto. }
    fold it2. exists r, it'. split; [exact E|]. split; [exact G1|]. split; [exact G2|exact G3]. }
  assert (Here : fit_stack rd (fr :: rest)) by (cbn [fit_stack]; auto).
  destruct (f_node fr) as [|h w p l r|h w k v vp|h w] eqn:En.
  - do 2 eexists. split; [reflexivity|]. rewrite Es. auto.
  - inversion F1 as [|s' h' w' p' l' r' Ls Nl Nr Fl Fr| | |]; subst.
    destruct (Nat.leb_spec 2 (f_child fr)) as [L2|L2]; [do 2 eexists; split; [reflexivity|]; rewrite Es; auto|].
    apply Push; [exact Ls|]. destruct (_ =? 2); assumption.
  - do 2 eexists. split; [reflexivity|]. rewrite Es. split; [auto|]. split; [reflexivity|]. inversion F1; assumption.
  - destruct (Nat.leb_spec 1 (f_child fr)) as [L2|L2]; [do 2 eexists; split; [reflexivity|]; rewrite Es; auto|].
    inversion F1 as [| | |s' h' w' E|s' h' w' n E Ls Fn]; subst; rewrite E; cbn [bind].
    + do 2 eexists. split; [reflexivity|]. cbn [it_stack it_root fit_stack f_node length]. auto.
    + apply Push; assumption.
Qed.

Definition iter_fit (rd : ptr -> option bytes) (it : iterst) : Prop :=
  fits rd 1 (it_root it) /\ fit_stack rd (it_stack it) /\ length (it_stack it) <= 256 /\ full_stack (it_stack it).

Lemma next_loop_fit rd fuel : forall it, iter_fit rd it -> length (it_stack it) + 1 < fuel -> (it_stack it = [] -> 3 < fuel) ->
  exists r it', next_loop rd fuel it = Ok (r, it') /\ iter_fit rd it'.
Proof.
  induction fuel as [|fuel IH]; intros it (Fr & Fi & L & Fs) F F0; [lia|]. cbn [next_loop]. unfold iter_seek.
  destruct (it_done it); [cbn [bind]; do 2 eexists; split; [reflexivity|]; repeat split; assumption|].
  assert (Fin : forall it1, it_root it1 = it_root it -> 1 <= length (it_stack it1) <= 256 -> fit_stack rd (it_stack it1) ->
     full_stack (it_stack it1) -> length (it_stack it1) + 1 < fuel ->
     exists x it', (let! (r, it) := seek_loop rd SEEK_FUEL it1 in
      match r with
      | SErr e => Ok (IErr e, it)
      | SAt (NLeaf _ _ k v vp) =>
        let! x := retrieve rd v vp in
        match x with None => Ok (IErr ECORRUPTION, it) | Some x => Ok (IRec k x, it) end
      | _ => next_loop rd fuel it
      end) = Ok (x, it') /\ iter_fit rd it').
  { intros it1 Fr1 L1 Fi1 Fs1 F1. destruct (seek_loop_term rd SEEK_FUEL it1 L1) as [_ P]; [pose proof seek_fuel_val; lia|exact Fs1|].
    destruct (seek_loop_fit rd SEEK_FUEL it1 L1) as (r & it2 & E & G1 & G2 & G3); [pose proof seek_fuel_val; lia|exact Fi1|].
    rewrite E. cbn [bind]. destruct (P _ _ E) as [((Q0 & Q1) & Q2 & Q3) _].
    assert (K : iter_fit rd it2). { split; [rewrite G2, Fr1; exact Fr|]. split; [exact G1|]. split; [apply Q2|exact Q1]. }
    destruct r as [|n|e]; [| |do 2 eexists; split; [reflexivity|exact K]].
    - apply IH; [exact K|lia|]. intros Z. rewrite Z in Q2. cbn in Q2. lia.
    - destruct n as [|h w p l r|h w k v vp|h w]; try contradiction.
      + apply IH; [exact K|lia|]. intros Z. rewrite Z in Q2. cbn in Q2. lia.
      + destruct (retrieve_ok rd _ _ _ _ G3) as ([x|] & Er); rewrite Er; cbn [bind]; do 2 eexists; (split; [reflexivity|exact K]). }
  destruct (it_stack it) as [|fr [|fr2 rest]] eqn:Es.
  - unfold iter_push, check. rewrite Es. change (length (@nil frame) <? 256) with true. cbn [bind].
    apply Fin; cbn [it_root it_stack length full_stack fit_stack f_node]; auto; [lia| |specialize (F0 eq_refl); lia].
    split; [eapply fits_full, Fr|]. auto.
  - cbn [bind]. do 2 eexists. split; [reflexivity|]. split; [exact Fr|]. cbn [it_stack]. split; [exact I|]. split; [cbn; lia|exact I].
  - cbn [length] in *. cbn [full_stack] in Fs. destruct Fs as (_ & _ & Fs). cbn [fit_stack] in Fi. destruct Fi as (_ & Fi).
    apply Fin; cbn [it_root it_stack length]; auto; lia.
Qed.

Lemma next_fuel_val : NEXT_FUEL = 259.
Proof. reflexivity. Qed.
Lemma iter_calls_fit rd n : forall it, iter_fit rd it -> exists l, iter_calls rd n it = Ok l.
Proof.
  induction n as [|n IH]; intros it K; cbn [iter_calls]; [eauto|]. unfold iter_next.
  destruct (next_loop_fit rd NEXT_FUEL it K) as (r & it' & E & K').
  { rewrite next_fuel_val. destruct K as (_ & _ & L & _). lia. } { rewrite next_fuel_val. intros _. lia. }
  rewrite E. cbn [bind]. destruct (IH it' K') as (l & El). rewrite El. cbn [bind]. eauto.
Qed.
Lemma iter_calls_term rd n : forall it, iter_ok it -> iter_calls rd n it <> NoFuel.
Proof.
  induction n as [|n IH]; intros it K; cbn [iter_calls]; [discriminate|]. unfold iter_next.
  assert (T : next_loop rd NEXT_FUEL it <> NoFuel).
  { apply next_loop_term; [exact K| |]; rewrite next_fuel_val; [destruct K as (_ & _ & L); lia|intros _; lia]. }
  destruct (next_loop rd NEXT_FUEL it) as [[r it']|e| | |] eqn:E; cbn [bind]; try discriminate; [|congruence].
  specialize (IH it' (next_loop_inv _ _ _ _ _ K E)). destruct (iter_calls rd n it'); cbn [bind]; congruence.
Qed.

(** Reading through the store yields what was asked for (when the open file's known size
    is not larger than the file). *)
Definition sized (s : store) : Prop :=
  forall f, nth_error (st_fs s) (N.to_nat (st_index s) - 1) = Some f -> (st_size s <= blen f)%N.
Lemma st_rd_size s : sized s -> forall p x, st_rd s p = Some x -> blen x = psize p.
Proof.
  intros Z p x. unfold st_rd. destruct (_ || _); [discriminate|]. destruct (nth_error _ _) as [f|] eqn:Ef; [|discriminate].
  destruct (N.eqb_spec (psize p) 0) as [Zp|NZ]; [intros E; injection E as <-; rewrite Zp; reflexivity|].
  assert (Le : ((if (pidx p =? st_index s)%N then st_size s else blen f) <= blen f)%N).
  { destruct (N.eqb_spec (pidx p) (st_index s)) as [Ei|]; [|lia]. apply Z. rewrite <- Ei. exact Ef. }
  destruct (N.ltb_spec (if (pidx p =? st_index s)%N then st_size s else blen f) (ppos p + psize p)) as [|L]; [discriminate|].
  intros E. injection E as <-. unfold blen, slice in *. rewrite firstn_length, skipn_length. lia.
Qed.
Lemma read_root_store H s p r s' : read_root H s p = Ok (r, s') -> exists c, s' = set_cache s c.
Proof.
  assert (Id : s = set_cache s (st_cache s)) by (destruct s; reflexivity).
  unfold read_root. destruct (_ =? 0)%N; [intros E; apply Ok_inj in E; injection E as _ <-; eauto|].
  destruct (read_node (st_rd s) p) as [[n|]|e| | |]; cbn [bind]; try discriminate; [|intros E; apply Ok_inj in E; injection E as _ <-; eauto].
  match goal with |- (let! _ := ?m in _) = _ -> _ => destruct m as [[n1|]|e| | |]; cbn [bind]; try discriminate end;
    [|intros E; apply Ok_inj in E; injection E as _ <-; eauto].
  destruct (node_hash H n1) as [[h n2]|e| | |]; cbn [bind]; try discriminate. destruct (node_to_hash n2) as [o|e| | |]; cbn [bind]; try discriminate.
  destruct (cache_insert (st_cache s) o) as [c|e| | |]; cbn [bind]; try discriminate. intros E; apply Ok_inj in E; injection E as _ <-; eauto.
Qed.
Lemma open_sized H C key fs io d : db_open H C key fs io = Ok (Some d) -> sized (d_store d).
Proof.
  unfold db_open, store_open. destruct (recover C key (length fs) fs io) as [[[[fs1 ops1] st] la]|e| | |]; cbn [bind]; try discriminate.
  destruct (match fs1 with [] => ([[]], ops1 ++ [ONew]) | _ => (fs1, ops1) end) as [fs2 ops2] eqn:E2.
  unfold check. destruct (_ <? MAX_FILES)%N; [|discriminate].
  match goal with |- context [read_root H ?x _] => set (s0 := x) end.
  destruct (read_root H s0 (m_root st)) as [[r s]|e| | |] eqn:Er; cbn [bind]; try discriminate.
  destruct (read_root_store _ _ _ _ _ Er) as (c & ->). destruct r as [n|]; cbn [bind]; [|discriminate].
  intros E. apply Ok_inj in E. injection E as <-. unfold sized. cbn [d_store set_state set_cache st_fs st_index st_size s0]. intros f Ef.
  unfold fget. rewrite Nat2N.id in Ef. rewrite (nth_error_nth _ _ _ Ef). lia.
Qed.

(** ** Sound structures under urkel_node_hash and urkel_tree_prove *)
Section WithH3.
Variable H : bytes -> bytes.
Hypothesis H_len : forall m, length (H m) = 32.

Lemma node_hash_sound rd rb path n : orderly rd rb path n -> forall h n', node_hash H n = Ok (h, n') -> orderly rd rb path n'.
Proof.
  induction 1 as [path|path h w p l r W D Hh Sl IHl Sr IHr|path h w k v vp Lo Hh Hk|path h w B Lh E|path h w n Lh E S IH]; intros h' n'; cbn [node_hash].
  - intros E'. apply Ok_inj in E'. injection E' as <- <-. constructor.
  - destruct h as [h|].
    + intros E'. apply Ok_inj in E'. injection E' as <- <-. constructor; auto.
    + destruct (node_hash H l) as [[lh l']|e| | |]; cbn [bind]; try discriminate. destruct (node_hash H r) as [[rh r']|e| | |]; cbn [bind]; try discriminate.
      intros E'. apply Ok_inj in E'. injection E' as <- <-. constructor; eauto. intros x Ex. injection Ex as <-. apply H_len.
  - destruct h as [h|].
    + intros E'. apply Ok_inj in E'. injection E' as <- <-. constructor; auto.
    + destruct v as [v|]; [|discriminate]. intros E'. apply Ok_inj in E'. injection E' as <- <-. constructor; auto.
      * destruct Lo as [Lo|(_ & X & _)]; [left; exact Lo|discriminate X].
      * intros y Ey. injection Ey as <-. apply H_len.
  - intros E'. apply Ok_inj in E'. injection E' as <- <-. apply so_bad; auto.
  - intros E'. apply Ok_inj in E'. injection E' as <- <-. eapply so_hash; eauto.
Qed.

Lemma prove_sound rd rb fuel : forall acc n key path p n', length key = 32 -> has path key -> orderly rd rb path n ->
  tree_prove H rd fuel acc n key (length path) = Ok (p, n') -> orderly rd rb path n'.
Proof.
  induction fuel as [|fuel IH]; intros acc n key path pr n' L P S; [discriminate|]. cbn [tree_prove].
  destruct S as [path|path h w p l r W D Hh Sl Sr|path h w k v vp Lo Hh Hk|path h w B Lh E|path h w n Lh E S].
  - intros E'. apply Ok_inj in E'. injection E' as <- <-. constructor.
  - pose proof (wf_ok _ W) as O. rewrite bits_has_spec by (auto; lia). cbn [bind].
    destruct (is_prefix (bools p) (skipn (length path) (kbits key))) eqn:Pre; cbn [negb].
    + rewrite gbk by (auto; lia). cbn [bind].
      pose proof (step_has path (bools p) key P L ltac:(rewrite bools_length by exact O; lia) Pre) as Hb.
      rewrite bools_length in Hb by exact O. set (b := kbit key (length path + bsize p)) in *.
      rewrite <- (sound_len path p b W).
      destruct (node_hash H (child l r (negb b))) as [[yh y]|e| | |] eqn:Ey; cbn [bind]; try discriminate.
      pose proof (node_hash_sound _ _ _ _ (sound_child rd rb path p l r (negb b) Sl Sr) _ _ Ey) as Sy.
      destruct (proof_push acc p yh) as [acc'|e| | |]; cbn [bind]; try discriminate.
      destruct (tree_prove H rd fuel acc' (child l r b) key (length (path ++ bools p ++ [b]))) as [[pr' x]|e| | |] eqn:Ex; cbn [bind]; try discriminate.
      pose proof (IH _ _ _ _ _ _ L Hb (sound_child rd rb path p l r b Sl Sr) Ex) as Sx.
      intros E'. apply Ok_inj in E'. injection E' as <- <-. destruct b; cbn [negb] in *; constructor; auto.
    + destruct (node_hash H l) as [[lh l']|e| | |] eqn:El; cbn [bind]; try discriminate.
      destruct (node_hash H r) as [[rh r']|e| | |] eqn:Er; cbn [bind]; try discriminate.
      intros E'. apply Ok_inj in E'. injection E' as <- <-. constructor; auto; eapply node_hash_sound; eassumption.
  - destruct (retrieve rd v vp) as [[x|]|e| | |]; cbn [bind]; try discriminate.
    destruct (bytes_eqb k key); intros E'; apply Ok_inj in E'; injection E' as <- <-; constructor; auto.
  - rewrite E. discriminate.
  - rewrite E. cbn [bind]. destruct (tree_prove H rd fuel acc n key (length path)) as [[pr' x]|e| | |]; cbn [bind]; try discriminate.
    intros E'. apply Ok_inj in E'. injection E' as <- <-. eapply so_hash; eauto.
Qed.
End WithH3.
