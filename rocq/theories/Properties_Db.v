(** * Properties of the transaction and database API: C01-C05, C07, C11, C14.

    [exec H C key w sp] (Exec.v): the program state [w] is reached by some execution whose
    effect on the specification (SpecDb.v) is [sp]; [txat sp i] are the contents of
    transaction [i].  [H] and [C] stand for BLAKE2b-256 and the keyed 20-byte BLAKE2b. *)
From Verif Require Import Demo.
From Coq Require Import ZifyBool ZifyNat ZifyN Permutation Sorted.

(** What a get or has must answer for a key bound to [o]. *)
Definition found (o : option bytes) : answer := match o with Some v => AVal v | None => AErr ENOTFOUND end.
Definition present (o : option bytes) : answer := match o with Some _ => AOk | None => AErr ENOTFOUND end.

(** Two program states nobody can tell apart by calling the API. *)
Definition same_answers (H : bytes -> bytes) (C : bytes -> bytes -> bytes) (w1 : world) (sp1 : spec) (w2 : world) (sp2 : spec) : Prop :=
  forall cs l1 l2 w1' w2' sp1' sp2',
  calls H C w1 sp1 cs l1 w1' sp1' -> calls H C w2 sp2 cs l2 w2' sp2' -> l1 = l2.

Section P.
Variable H : bytes -> bytes.
Hypothesis H_len : forall m, length (H m) = 32.
Variable C : bytes -> bytes -> bytes.
Hypothesis C_len : forall k m, length (C k m) = 20.

Lemma ask key w sp i l k : exec H C key w sp -> txat sp i = Some l -> length k = 32 ->
  step H C w (CTxGet i k) = Ok (found (lookup l k), w) /\ step H C w (CTxHas i k) = Ok (present (lookup l k), w).
Proof.
  intros X E L. destruct (exec_tx H H_len C C_len _ _ _ _ _ X E) as (d & n & Ew & En & Hn).
  unfold step. rewrite Ew, En. cbn [bind]. rewrite (tx_get_ok H H_len _ _ _ _ Hn L), (tx_has_ok H H_len _ _ _ _ Hn L). split; reflexivity.
Qed.
Lemma ask_root key w sp i l : exec H C key w sp -> collision_free H sp -> txat sp i = Some l ->
  exists w', step H C w (CTxRoot i) = Ok (AHash (ref_root H l), w') /\ exec H C key w' sp.
Proof.
  intros X CF E. assert (A : allowed H sp w (CTxRoot i)) by (split; [exact CF|cbn; congruence]).
  destruct (exec_do H H_len C C_len _ _ _ _ X A) as (a & w' & Es & G & X' & _). cbn [good] in G. rewrite (G l E) in Es. eauto.
Qed.
Lemma iterate_ok key w sp i l n : exec H C key w sp -> txat sp i = Some l -> (forall k v, In (k, v) l -> levels l k <= 127) ->
  exists t, stands l t /\ tx_iterate w i n = Ok (outcome (elems t) n).
Proof.
  intros X E B. destruct (exec_tx H H_len C C_len _ _ _ _ _ X E) as (d & nd & Ew & En & t & R & S & V).
  exists t. split; [exact S|]. unfold tx_iterate. rewrite Ew, En. cbn [bind].
  apply (iterate_spec H H_len _ _ _ R (proj1 (proj2 S)) V). eapply ih_levels; eassumption.
Qed.
Lemma same_spec key1 key2 w1 w2 sp : exec H C key1 w1 sp -> exec H C key2 w2 sp -> quiet w1 -> quiet w2 -> same_answers H C w1 sp w2 sp.
Proof. intros X1 X2 Q1 Q2 cs l1 l2 v1 v2 s1 s2 C1 C2. exact (proj1 (calls_fun H H_len C C_len _ _ _ _ _ _ _ _ _ _ _ _ X1 X2 Q1 Q2 C1 C2)). Qed.
End P.

(** ** C01: whatever updates are applied to a transaction, it answers like a map. *)
Theorem C01_transaction_is_map :
  forall (H : bytes -> bytes), (forall m, length (H m) = 32) ->
  forall (C : bytes -> bytes -> bytes), (forall k m, length (C k m) = 20) ->
  forall key w sp i l ops,
  exec H C key w sp -> collision_free H sp -> txat sp i = Some l -> Forall txop_ok ops ->
  let m := fold_left txop_map ops (lookup l) in
  exists w', run H C w (map (txop_call i) ops) = Ok (txop_answers (lookup l) ops, w') /\
    forall k, length k = 32 ->
      step H C w' (CTxGet i k) = Ok (found (m k), w') /\
      step H C w' (CTxHas i k) = Ok (present (m k), w').
Proof.
  intros H HL C CL key w sp i l ops X CF E F m.
  destruct (tx_ops H HL C CL key i ops w sp l X CF E F) as (w' & l' & R & X' & T' & M).
  exists w'. split; [exact R|]. intros k Lk. unfold m. rewrite <- (M k). exact (ask H HL C CL _ _ _ _ _ k X' T' Lk).
Qed.
(** A transaction with stored and new records; keys present, absent and removed twice. *)
Definition demo_ops : list txop := [TPut kfoo v2; TDel kbar; TDel kbar; TPut kbar []; TPut (repeat xff 32) (repeat x01 1023)].
Lemma demo_ops_ok : Forall txop_ok demo_ops.
Proof. repeat constructor; cbn [length repeat]; rewrite ?repeat_length; lia. Qed.
Example C01_nonvacuous : exec toy toyC dkey (pw demo) (ps demo) /\ collision_free toy (ps demo) /\
  (exists l, txat (ps demo) 2 = Some l /\ length l = 3 /\ lookup l kbar = Some v1) /\ Forall txop_ok demo_ops.
Proof.
  split; [exact exec_demo|]. split; [exact demo_free|]. split; [|exact demo_ops_ok].
  eexists. split; [unfold txat; rewrite (proj1 demo_txs); reflexivity|]. vm_compute. auto.
Qed.

(** ** C02: values of up to 1023 bytes are accepted, longer ones refused without effect. *)
Theorem C02_value_limit :
  forall (H : bytes -> bytes), (forall m, length (H m) = 32) ->
  forall (C : bytes -> bytes -> bytes), (forall k m, length (C k m) = 20) ->
  forall key w sp i l k v,
  exec H C key w sp -> collision_free H sp -> txat sp i = Some l -> length k = 32 ->
  (length v <= 1023 -> exists w', step H C w (CTxInsert i k v) = Ok (AOk, w') /\ exec H C key w' (set_tx sp i (Some (put l k v)))) /\
  (1023 < length v ->
     (* the transaction, and everything else, is as before *)
     step H C w (CTxInsert i k v) = Ok (AErr EINVAL, w) /\
     exists w', step H C w (CInsert k v) = Ok (AErr EINVAL, w') /\
       exec H C key w' sp /\ files w' = files w /\ (quiet w -> same_answers H C w sp w' sp)).
Proof.
  intros H HL C CL key w sp i l k v X CF E Lk. split.
  - intros Lv. assert (A : allowed H sp w (CTxInsert i k v)) by (split; [exact CF|split; [congruence|exact Lk]]).
    destruct (exec_do H HL C CL _ _ _ _ X A) as (a & w' & Es & G & X' & _). cbn [good snext] in G, X'.
    destruct (Nat.ltb_spec 1023 (length v)); [lia|]. rewrite E in X'. subst a. eauto.
  - intros Lv. split.
    + destruct (exec_tx H HL C CL _ _ _ _ _ X E) as (d & n & Ew & En & Hn). unfold step. rewrite Ew, En. cbn [bind].
      rewrite (tx_insert_long H HL C CL) by exact Lv. cbn [bind]. do 2 f_equal. unfold put_tx. destruct w as [db txs]. cbn [w_db w_txs] in *. subst db. f_equal.
      unfold live in En. cbn [w_txs] in En. clear - En. revert i En. induction txs as [|t txs IH]; intros [|i] En; cbn in *; try discriminate; auto.
      * destruct t; try discriminate. injection En as ->. reflexivity.
      * f_equal. auto.
    + assert (Nc : commits sp (CInsert k v) = None). { cbn [commits]. destruct (Nat.ltb_spec 1023 (length v)); [reflexivity|lia]. }
      assert (A : allowed H sp w (CInsert k v)). { split; [exact CF|]. split; [exact Lk|]. intros l' X'. congruence. }
      destruct (exec_sim H HL C CL _ _ _ X) as (d & D & V & hist & W & Ew & Ek & S & F).
      destruct (tx_create_ok H HL C CL d sp D hist None (simdb_rdb _ _ _ _ _ _ _ _ S) CF) as (r & d' & E1 & S' & Sd & M).
      cbn [seen] in M. destruct M as (n & -> & Hn).
      assert (Es : step H C w (CInsert k v) = Ok (AErr EINVAL, mkworld (Some d') (w_txs w))).
      { unfold step. rewrite Ew. unfold db_write. rewrite E1. cbn [bind]. rewrite (tx_insert_long H HL C CL) by exact Lv. reflexivity. }
      eexists. split; [exact Es|].
      destruct (exec_do H HL C CL _ _ _ _ X A) as (a & w' & Es' & G & X' & Q & _). rewrite Es in Es'. apply Ok_inj in Es'. injection Es' as <- <-.
      cbn [snext] in X'. rewrite Nc in X'. split; [exact X'|].
      split; [destruct Sd as (Sd & _); unfold files; cbn [w_db]; rewrite Ew; congruence|].
      intros Qw. eapply same_spec; eauto.
Qed.
Example C02_nonvacuous : exec toy toyC dkey (pw demo) (ps demo) /\ collision_free toy (ps demo) /\
  (exists l, txat (ps demo) 2 = Some l) /\ length (repeat x01 1023) <= 1023 /\ 1023 < length (repeat x01 1024) /\ quiet (pw demo).
Proof.
  split; [exact exec_demo|]. split; [exact demo_free|]. split; [eexists; unfold txat; rewrite (proj1 demo_txs); reflexivity|].
  rewrite !repeat_length. split; [lia|]. split; [lia|]. apply quiet_b_ok. vm_compute. reflexivity.
Qed.

(** ** C03: remove is exact. *)
Theorem C03_remove_exact :
  forall (H : bytes -> bytes), (forall m, length (H m) = 32) ->
  forall (C : bytes -> bytes -> bytes), (forall k m, length (C k m) = 20) ->
  forall key w sp i l k,
  exec H C key w sp -> collision_free H sp -> txat sp i = Some l -> length k = 32 ->
  match lookup l k with
  | None => step H C w (CTxRemove i k) = Ok (AErr ENOTFOUND, w)
  | Some _ =>
    exists w', step H C w (CTxRemove i k) = Ok (AOk, w') /\
      forall k', length k' = 32 ->
        step H C w' (CTxGet i k') = Ok (if bytes_eq_dec k k' then AErr ENOTFOUND else found (lookup l k'), w')
  end.
Proof.
  intros H HL C CL key w sp i l k X CF E Lk. destruct (lookup l k) as [v|] eqn:El.
  - assert (A : allowed H sp w (CTxRemove i k)) by (split; [exact CF|split; [congruence|exact Lk]]).
    destruct (exec_do H HL C CL _ _ _ _ X A) as (a & w' & Es & G & X' & _). cbn [good snext] in G, X'.
    specialize (G l E). rewrite El in G. rewrite E, El in X'. subst a. exists w'. split; [exact Es|].
    intros k' Lk'. destruct (ask H HL C CL _ _ _ i (del l k) k' X' (txat_set _ _ _ _ E) Lk') as [-> _].
    rewrite lookup_del. destruct (bytes_eq_dec k k'); reflexivity.
  - destruct (exec_tx H HL C CL _ _ _ _ _ X E) as (d & n & Ew & En & Hn).
    pose proof (tx_remove_ok H HL d n l k Hn Lk) as R. rewrite El in R.
    unfold step. rewrite Ew, En. cbn [bind]. rewrite R. cbn [bind]. do 2 f_equal. unfold put_tx. destruct w as [db txs]. cbn [w_db w_txs] in *. subst db. f_equal.
    unfold live in En. cbn [w_txs] in En. clear - En. revert i En. induction txs as [|t txs IH]; intros [|i] En; cbn in *; try discriminate; auto.
    + destruct t; try discriminate. injection En as ->. reflexivity.
    + f_equal. auto.
Qed.
(** Both cases occur. *)
Example C03_nonvacuous : exists l, txat (ps demo) 2 = Some l /\ lookup l kbar = Some v1 /\ lookup l (repeat x00 32) = None.
Proof. eexists. split; [unfold txat; rewrite (proj1 demo_txs); reflexivity|]. vm_compute. auto. Qed.

(** ** C04: the root is the documented Merkle root of the resulting contents, listed in
    any order. *)
Theorem C04_root_is_documented :
  forall (H : bytes -> bytes), (forall m, length (H m) = 32) ->
  forall (C : bytes -> bytes -> bytes), (forall k m, length (C k m) = 20) ->
  forall key w sp i l ops,
  exec H C key w sp -> collision_free H sp -> txat sp i = Some l -> Forall txop_ok ops ->
  exists w' w'', run H C w (map (txop_call i) ops) = Ok (txop_answers (lookup l) ops, w') /\
    forall l', lists l' (fold_left txop_map ops (lookup l)) ->
      step H C w' (CTxRoot i) = Ok (AHash (ref_root H l'), w'').
Proof.
  intros H HL C CL key w sp i l ops X CF E F.
  destruct (tx_ops H HL C CL key i ops w sp l X CF E F) as (w' & l1 & R & X' & T' & M).
  destruct (ask_root H HL C CL _ _ _ _ _ X' CF T') as (w'' & E1 & _).
  exists w', w''. split; [exact R|]. intros l' [ND L]. rewrite E1. do 3 f_equal.
  destruct (exec_stands H HL C CL _ _ _ _ _ X' T') as (t & St & _).
  rewrite (proj1 (stands_root H HL _ _ St)). symmetry. apply (stands_root H HL). apply (stands_listing _ _ _ St ND).
  intros k v. rewrite (M k). apply L.
Qed.
(** The contents after [demo_ops] can be listed. *)
Example C04_nonvacuous : exists l l', txat (ps demo) 2 = Some l /\ lists l' (fold_left txop_map demo_ops (lookup l)) /\ length l' = 4.
Proof.
  assert (S : exists l4, l4 = fold_left (fun l o => match o with TPut k v => put l k v | TDel k => del l k end) demo_ops
             [(kbaz, v2); (kbar, v1); (kfoo, foo_value)] /\ NoDup (map fst l4) /\ length l4 = 4).
  { eexists. split; [reflexivity|]. split; [apply nodup_b_ok; vm_compute; reflexivity|vm_compute; reflexivity]. }
  destruct S as (l4 & E4 & N4 & L4).
  eexists _, l4. split; [unfold txat; rewrite (proj1 demo_txs); reflexivity|]. split; [|exact L4]. split; [exact N4|]. intros k v. rewrite <- (find_lookup l4 k N4 v). rewrite E4. clear.
  unfold demo_ops. cbn [fold_left txop_map]. rewrite !lookup_put_map. unfold m_set. rewrite !lookup_put_map. unfold m_set.
  rewrite !lookup_del_map. unfold m_del. rewrite !lookup_del_map. unfold m_del. rewrite !lookup_put_map. unfold m_set. reflexivity.
Qed.

(** ** C05: equal contents, however they came about (in different databases even), give
    the same root, the same proofs and the same iteration. *)
Theorem C05_history_independence :
  forall (H : bytes -> bytes), (forall m, length (H m) = 32) ->
  forall (C : bytes -> bytes -> bytes), (forall k m, length (C k m) = 20) ->
  forall key1 w1 sp1 i1 l1 ops1 w1' key2 w2 sp2 i2 l2 ops2 w2' a1 a2,
  exec H C key1 w1 sp1 -> collision_free H sp1 -> txat sp1 i1 = Some l1 -> Forall txop_ok ops1 ->
  exec H C key2 w2 sp2 -> collision_free H sp2 -> txat sp2 i2 = Some l2 -> Forall txop_ok ops2 ->
  (forall k, fold_left txop_map ops1 (lookup l1) k = fold_left txop_map ops2 (lookup l2) k) ->
  run H C w1 (map (txop_call i1) ops1) = Ok (a1, w1') ->
  run H C w2 (map (txop_call i2) ops2) = Ok (a2, w2') ->
  (exists r v1 v2, step H C w1' (CTxRoot i1) = Ok (r, v1) /\ step H C w2' (CTxRoot i2) = Ok (r, v2)) /\
  (forall k, length k = 32 ->
     exists raw v1 v2, step H C w1' (CTxProve i1 k) = Ok (AProof raw, v1) /\ step H C w2' (CTxProve i2 k) = Ok (AProof raw, v2)) /\
  (forall n, (forall l k v, lists l (fold_left txop_map ops1 (lookup l1)) -> In (k, v) l -> levels l k <= 127) ->
     exists rs, tx_iterate w1' i1 n = Ok rs /\ tx_iterate w2' i2 n = Ok rs).
Proof.
  intros H HL C CL key1 w1 sp1 i1 l1 ops1 w1' key2 w2 sp2 i2 l2 ops2 w2' a1 a2 X1 CF1 E1 F1 X2 CF2 E2 F2 Eq R1 R2.
  destruct (tx_ops H HL C CL key1 i1 ops1 w1 sp1 l1 X1 CF1 E1 F1) as (v1 & m1 & Q1 & Y1 & T1 & M1). rewrite R1 in Q1. apply Ok_inj in Q1. injection Q1 as -> ->.
  destruct (tx_ops H HL C CL key2 i2 ops2 w2 sp2 l2 X2 CF2 E2 F2) as (v2 & m2 & Q2 & Y2 & T2 & M2). rewrite R2 in Q2. apply Ok_inj in Q2. injection Q2 as -> ->.
  destruct (exec_stands H HL C CL _ _ _ _ _ Y1 T1) as (t & S1 & _). destruct (exec_stands H HL C CL _ _ _ _ _ Y2 T2) as (t2 & S2 & _).
  assert (SM : same_map (lookup m1) (lookup m2)). { intros k. rewrite (M1 k), (M2 k). apply Eq. }
  pose proof (same_map_stands _ _ _ _ S1 S2 SM) as <-.
  split; [|split].
  - destruct (ask_root H HL C CL _ _ _ _ _ Y1 CF1 T1) as (z1 & Z1 & _). destruct (ask_root H HL C CL _ _ _ _ _ Y2 CF2 T2) as (z2 & Z2 & _).
    rewrite (proj1 (stands_root H HL _ _ S1)) in Z1. rewrite (proj1 (stands_root H HL _ _ S2)) in Z2. eauto.
  - intros k Lk. destruct (prove_bytes H HL C CL _ _ _ i1 k _ Y1 CF1 T1 Lk) as (r1 & z1 & Z1 & B1 & _).
    destruct (prove_bytes H HL C CL _ _ _ i2 k _ Y2 CF2 T2 Lk) as (r2 & z2 & Z2 & B2 & _).
    assert (r1 = r2) as <-. { specialize (B1 t S1). specialize (B2 t S2). rewrite B1 in B2. apply Ok_inj in B2. exact B2. }
    eauto.
  - intros n B.
    assert (Lm : forall l, stands l t -> lists l (fold_left txop_map ops1 (lookup l1))).
    { intros l S. split; [apply S|]. intros k v. rewrite <- (M1 k), <- (stands_same_map _ _ _ S S1 k). split; apply find_lookup; apply S. }
    destruct (iterate_ok H HL C CL _ _ _ i1 _ n Y1 T1) as (t1 & U1 & I1). { intros k v. apply B, Lm, S1. }
    destruct (iterate_ok H HL C CL _ _ _ i2 _ n Y2 T2) as (t2 & U2 & I2). { intros k v. apply B, Lm, S2. }
    rewrite (stands_fun _ _ _ U1 S1) in I1. rewrite (stands_fun _ _ _ U2 S2) in I2. eauto.
Qed.
(** Two different histories with the same contents: transaction 0 of [demo] and transaction 2 after
    removing what it added. *)
Example C05_nonvacuous : exists l1 l2, txat (ps demo) 0 = Some l1 /\ txat (ps demo) 2 = Some l2 /\ l1 <> l2 /\
  Forall txop_ok [TPut kbar v2] /\ Forall txop_ok [TDel kbaz; TDel kbar; TPut kbar v2] /\
  (forall k, fold_left txop_map [TPut kbar v2] (lookup l1) k = fold_left txop_map [TDel kbaz; TDel kbar; TPut kbar v2] (lookup l2) k) /\
  (forall k v, In (k, v) l1 -> levels l1 k <= 127).
Proof.
  eexists _, _. split; [unfold txat; rewrite (proj1 demo_txs); reflexivity|].
  split; [unfold txat; rewrite (proj1 demo_txs); reflexivity|]. split; [discriminate|].
  split; [repeat constructor; vm_compute; lia|]. split; [repeat constructor; vm_compute; lia|]. split.
  - intros k. cbn [fold_left txop_map]. unfold m_set, m_del, lookup. cbn [find fst].
    destruct (bytes_eq_dec kbar k) as [<-|Nb]; [reflexivity|]. destruct (bytes_eqb_spec kbar k) as [X|_]; [contradiction|].
    destruct (bytes_eq_dec kbaz k) as [<-|Nz]; [vm_compute; reflexivity|]. destruct (bytes_eqb_spec kbaz k) as [X|_]; [contradiction|]. reflexivity.
  - intros k v [X|[X|[]]]; injection X as <- <-; vm_compute; lia.
Qed.

(** ** C07, C11: every proof handed out verifies under the root, with the right answer, and has at
    most 17957 bytes. *)
Theorem C07_honest_proofs_verify :
  forall (H : bytes -> bytes), (forall m, length (H m) = 32) ->
  forall (C : bytes -> bytes -> bytes), (forall k m, length (C k m) = 20) ->
  forall key w sp i l k,
  exec H C key w sp -> collision_free H sp -> txat sp i = Some l -> length k = 32 ->
  exists root raw w1 w2,
    step H C w (CTxRoot i) = Ok (AHash root, w1) /\
    step H C w (CTxProve i k) = Ok (AProof raw, w2) /\
    (N.of_nat (length raw) <= 17957)%N /\
    urkel_verify H raw k (Some root) =
      Ok (match lookup l k with Some v => mkverdict None true v | None => mkverdict None false [] end).
Proof.
  intros H HL C CL key w sp i l k X CF E Lk.
  destruct (ask_root H HL C CL _ _ _ _ _ X CF E) as (w1 & E1 & _).
  assert (A : allowed H sp w (CTxProve i k)) by (split; [exact CF|split; [congruence|exact Lk]]).
  destruct (exec_do H HL C CL _ _ _ _ X A) as (a & w' & Es & G & X' & _). cbn [good] in G. destruct (G l E) as (raw & -> & L & V).
  exists (ref_root H l), raw, w1, w'. auto.
Qed.
(** The same for urkel_prove, under the current root or any root of the history. *)
Theorem C07_urkel_prove_verifies :
  forall (H : bytes -> bytes), (forall m, length (H m) = 32) ->
  forall (C : bytes -> bytes -> bytes), (forall k m, length (C k m) = 20) ->
  forall key w sp ro l k,
  exec H C key w sp -> collision_free H sp -> seen H sp ro = Some l -> length k = 32 ->
  exists raw w', step H C w (CProve k ro) = Ok (AProof raw, w') /\ (N.of_nat (length raw) <= 17957)%N /\
    urkel_verify H raw k (Some (ref_root H l)) =
      Ok (match lookup l k with Some v => mkverdict None true v | None => mkverdict None false [] end).
Proof.
  intros H HL C CL key w sp ro l k X CF E Lk.
  assert (A : allowed H sp w (CProve k ro)) by (split; [exact CF|exact Lk]).
  destruct (exec_do H HL C CL _ _ _ _ X A) as (a & w' & Es & G & X' & _). cbn [good] in G. rewrite E in G. destruct G as (raw & -> & L & V). eauto.
Qed.
(** Present and absent keys; an older root. *)
Example C07_nonvacuous : exec toy toyC dkey (pw demo) (ps demo) /\ collision_free toy (ps demo) /\
  (exists l, txat (ps demo) 2 = Some l /\ lookup l kbaz = Some v2 /\ lookup l (repeat x00 32) = None) /\
  (exists h l, seen toy (ps demo) (Some h) = Some l /\ l <> s_cur (ps demo) /\ lookup l kfoo = Some foo_value).
Proof.
  split; [exact exec_demo|]. split; [exact demo_free|]. split.
  - eexists. split; [unfold txat; rewrite (proj1 demo_txs); reflexivity|]. vm_compute. auto.
  - exists (ref_root toy [(kfoo, foo_value)]), [(kfoo, foo_value)]. split; [vm_compute; reflexivity|]. split; [vm_compute; discriminate|vm_compute; reflexivity].
Qed.

(** ** C14: iteration returns every record once, in key order, then EITEREND for ever. *)
Theorem C14_iteration :
  forall (H : bytes -> bytes), (forall m, length (H m) = 32) ->
  forall (C : bytes -> bytes -> bytes), (forall k m, length (C k m) = 20) ->
  forall key w sp i l,
  exec H C key w sp -> txat sp i = Some l -> (forall k v, In (k, v) l -> levels l k <= 127) ->
  exists sorted, Permutation sorted l /\ StronglySorted (fun a b => lex_lt (fst a) (fst b)) sorted /\
    forall n, tx_iterate w i n =
      Ok (firstn n (map (fun e => IRec (fst e) (snd e)) sorted ++ repeat (IErr EITEREND) n)).
Proof.
  intros H HL C CL key w sp i l X E B.
  destruct (iterate_ok H HL C CL _ _ _ _ _ 0 X E B) as (t & S & _).
  exists (elems t). split; [symmetry; apply stands_perm, S|]. split; [apply wft_sorted, S|].
  intros n. destruct (iterate_ok H HL C CL _ _ _ _ _ n X E B) as (t' & S' & I). rewrite (stands_fun _ _ _ S' S) in I. exact I.
Qed.
Example C14_nonvacuous : exists l, txat (ps demo) 2 = Some l /\ length l = 3 /\ forall k v, In (k, v) l -> levels l k <= 127.
Proof.
  eexists. split; [unfold txat; rewrite (proj1 demo_txs); reflexivity|]. split; [reflexivity|].
  intros k v [X|[X|[X|[]]]]; injection X as <- <-; vm_compute; lia.
Qed.
(** What it looks like: three records in key order, then the end. *)
Example C14_shown : tx_iterate (pw demo) 2 5 = Ok [IRec kbaz v2; IRec kbar v1; IRec kfoo foo_value; IErr EITEREND; IErr EITEREND].
Proof. vm_compute. reflexivity. Qed.
