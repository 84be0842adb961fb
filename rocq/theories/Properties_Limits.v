(** * Limits: C15 (iterating deep trees), C17 and C32 (records at the end of a full file). *)
From Verif Require Import Limits.
From Coq Require Import ZifyBool ZifyNat ZifyN Permutation Sorted.

(** ** C15: which transactions can be iterated.  A transaction just created, injected,
    cleared or committed is iterated correctly if no record lies below more than 127 inner
    nodes, and aborts the process otherwise... *)
Theorem C15_iteration_limit_partial :
  forall (H : bytes -> bytes), (forall m, length (H m) = 32) ->
  forall (C : bytes -> bytes -> bytes), (forall k m, length (C k m) = 20) ->
  forall key w sp c a w' i l,
  exec H C key w sp -> allowed H sp w c -> step H C w c = Ok (a, w') -> loads c a = Some i ->
  txat (snext H sp c a) i = Some l ->
  ((forall k v, In (k, v) l -> levels l k <= 127) ->
    exists sorted, Permutation sorted l /\ StronglySorted (fun a b => lex_lt (fst a) (fst b)) sorted /\
      forall n, tx_iterate w' i n = Ok (firstn n (map (fun e => IRec (fst e) (snd e)) sorted ++ repeat (IErr EITEREND) n))) /\
  ((exists k v, In (k, v) l /\ 127 < levels l k) -> forall n, length l <= n -> tx_iterate w' i n = Abort).
Proof.
  intros H HL C CL key w sp c a w' i l X A E Ld Et.
  assert (X' : exec H C key w' (snext H sp c a)) by (eapply ex_call; eassumption). split.
  - intros B. destruct (exec_tx H HL C CL _ _ _ _ _ X' Et) as (d & nd & Ew & En & t & R & S & V).
    exists (elems t). split; [symmetry; apply stands_perm, S|]. split; [apply wft_sorted, S|].
    intros n. unfold tx_iterate. rewrite Ew, En. cbn [bind].
    apply (iterate_spec H HL _ _ _ R (proj1 (proj2 S)) V). eapply ih_levels; eassumption.
  - intros (k & v & I & B) n Ln. destruct (loads_stored H HL C CL _ _ _ _ _ _ _ X E Ld) as (nd & En & Sn).
    eapply (iterate_aborts H HL C CL); eauto.
Qed.

(** ... and any transaction, changed or not, aborts if a record lies below 256 or more. *)
Theorem C15_deep_aborts_partial :
  forall (H : bytes -> bytes), (forall m, length (H m) = 32) ->
  forall (C : bytes -> bytes -> bytes), (forall k m, length (C k m) = 20) ->
  forall key w sp i l k v n,
  exec H C key w sp -> txat sp i = Some l -> In (k, v) l -> 256 <= levels l k -> length l <= n -> tx_iterate w i n = Abort.
Proof. intros H HL C CL key w sp i l k v n X E I B L. eapply (iterate_aborts H HL C CL); eauto. Qed.

(** The two limits can be reached: 257 records inserted, or 129 records inserted and committed. *)
Lemma make_deep n : n <= 256 -> exists w w' sp l,
  exec toy toyC dkey w0 spec0 /\ run toy toyC w0 (CTxCreate None :: map (fun e => CTxInsert 0 (fst e) (snd e)) (deep0 n)) = Ok (ATx 0 :: repeat AOk (S n), w) /\
  run toy toyC w [CTxCommit 0] = Ok ([AOk], w') /\ step toy toyC w (CTxCommit 0) = Ok (AOk, w') /\
  exec toy toyC dkey w sp /\ txat sp 0 = Some l /\ txat (snext toy sp (CTxCommit 0) AOk) 0 = Some l /\ allowed toy sp w (CTxCommit 0) /\
  length l = S n /\ In (zkey, [x01]) l /\ n <= levels l zkey.
Proof.
  intros L. pose proof exec_w0 as X0. assert (CF : collision_free toy spec0) by (split; [intros ? ? []|intros ? []]).
  destruct (exec_do toy toy_len toyC toyC_len _ _ _ (CTxCreate None) X0) as (a & w1 & E1 & G & X1 & Q1 & _); [split; [exact CF|exact I]|].
  cbn [good seen] in G. subst a. change (snext toy spec0 (CTxCreate None) (ATx (length (s_txs spec0)))) with (add_tx spec0 (Some [])) in X1.
  change (ATx (length (s_txs spec0))) with (ATx 0) in E1.
  destruct (tx_ops toy toy_len toyC toyC_len dkey 0 (puts (deep0 n)) w1 (add_tx spec0 (Some [])) [] X1 CF eq_refl (puts_ok n L)) as (w2 & l & E2 & X2 & T2 & M).
  set (sp := set_tx (add_tx spec0 (Some [])) 0 (Some l)) in *.
  assert (In1 : forall k v, In (k, v) (deep0 n) -> In (k, v) l).
  { intros k v I. destruct (exec_stands toy toy_len toyC toyC_len _ _ _ _ _ X2 T2) as (t & ((ND & _) & _) & _).
    apply (find_lookup _ _ ND). rewrite (M k). apply fold_puts; [apply deep_nodup, L|exact I]. }
  assert (In2 : forall k v, In (k, v) l -> In (k, v) (deep0 n)).
  { intros k v I. destruct (exec_stands toy toy_len toyC toyC_len _ _ _ _ _ X2 T2) as (t & ((ND & _) & _) & _).
    apply (find_lookup _ _ ND) in I. rewrite (M k) in I. clear - I.
    assert (Q : forall l m, fold_left txop_map (puts l) m k = Some v -> m k = Some v \/ In (k, v) l).
    { clear. induction l as [|[k0 v0] l IH]; intros m E; [now left|]. cbn [puts map fst snd fold_left] in E. apply IH in E.
      destruct E as [E|E]; [|right; now right]. cbn [txop_map] in E. unfold m_set in E. destruct (bytes_eq_dec k0 k) as [->|]; [|now left].
      right. left. congruence. }
    apply Q in I. destruct I as [X|I]; [discriminate X|exact I]. }
  destruct (exec_stands toy toy_len toyC toyC_len _ _ _ _ _ X2 T2) as (t & ((ND & _) & _) & _).
  assert (Ll : length l = S n).
  { apply Nat.le_antisymm.
    - replace (S n) with (length (deep0 n)) by (cbn; unfold deep; rewrite map_length, seq_length; reflexivity).
      apply NoDup_incl_length; [eapply NoDup_map_inv, ND|]. intros [k v]. apply In2.
    - replace (S n) with (length (deep0 n)) by (cbn; unfold deep; rewrite map_length, seq_length; reflexivity).
      apply NoDup_incl_length; [eapply NoDup_map_inv, deep_nodup, L|]. intros [k v]. apply In1. }
  assert (V1 : Forall (fun e => snd e = [x01]) l).
  { apply Forall_forall. intros [k v] I. apply In2 in I. destruct I as [[= _ <-]|I]; [reflexivity|]. eapply deep_keys; eassumption. }
  assert (Al : allowed toy sp w2 (CTxCommit 0)).
  { split; [exact CF|]. exists l. split; [exact T2|]. split.
    - eapply Forall_impl; [|exact V1]. intros e ->. cbn. lia.
    - assert (Hs : list_sum (map (fun e => 226 + length (snd e)) l) = 227 * length l).
      { clear - V1. induction V1 as [|e r E V IH]; [reflexivity|]. cbn [map list_sum fold_right length]. unfold list_sum in IH |- *. rewrite IH, E. cbn [length]. lia. }
      unfold weight. rewrite Hs, Ll. change (s_bytes sp) with 0%N. unfold LIMIT. lia. }
  destruct (exec_do toy toy_len toyC toyC_len _ _ _ _ X2 Al) as (a & w3 & E3 & G3 & X3 & _ & _).
  assert (Qt : quiet w2).
  { clear - E1 E2 L. assert (Q : forall ops w r w', run toy toyC w (map (txop_call 0) ops) = Ok (r, w') -> quiet w -> quiet w').
    { induction ops as [|o ops IH]; intros w r w' E Q; [apply Ok_inj in E; injection E as <- <-; exact Q|].
      cbn [map run] in E. destruct (step toy toyC w (txop_call 0 o)) as [[a w1']| | | |] eqn:Es; cbn [bind] in E; try discriminate E.
      destruct (run toy toyC w1' (map (txop_call 0) ops)) as [[l' w2']| | | |] eqn:Er; cbn [bind] in E; try discriminate E.
      apply Ok_inj in E. injection E as <- <-. apply (IH _ _ _ Er). clear - Es Q.
      unfold quiet in *. revert Es. unfold step. destruct (w_db w) as [d|] eqn:Ew; [|discriminate].
      destruct o as [k v|k]; cbn [txop_call]; destruct (live w 0) as [nd| | | |]; cbn [bind]; try discriminate.
      - destruct (tx_insert toy d nd k v) as [[? ?]| | | |]; cbn [bind]; try discriminate. intros Es. apply Ok_inj in Es. injection Es as <- <-. exact Q.
      - destruct (tx_remove d nd k) as [[? ?]| | | |]; cbn [bind]; try discriminate. intros Es. apply Ok_inj in Es. injection Es as <- <-. exact Q. }
    apply (Q _ _ _ _ E2). revert E1. unfold step, quiet. vm_compute. intros [= <-]. reflexivity. }
  cbn [good] in G3. destruct G3 as [->|[_ N]]; [|contradiction].
  exists w2, w3, sp, l. split; [exact X0|]. split.
  { replace (map (fun e => CTxInsert 0 (fst e) (snd e)) (deep0 n)) with (map (txop_call 0) (puts (deep0 n))) by (unfold puts; rewrite map_map; reflexivity).
    cbn [run]. rewrite E1. cbn [bind]. rewrite E2. cbn [bind]. f_equal. f_equal. f_equal.
    replace (S n) with (length (deep0 n)) by (cbn; unfold deep; rewrite map_length, seq_length; reflexivity).
    generalize (deep0 n) (lookup []). clear. induction l as [|[k v] l IH]; intros m; [reflexivity|]. cbn [puts map txop_answers length repeat txop_answer]. f_equal. apply IH. }
  split; [cbn [run]; rewrite E3; reflexivity|]. split; [exact E3|]. split; [exact X2|]. split; [exact T2|].
  split; [cbn [snext commits]; rewrite T2; exact T2|]. split; [exact Al|]. split; [exact Ll|]. split; [apply In1; now left|apply deep_levels; assumption].
Qed.

Theorem C15_iteration_refuted :
  (exists w, run toy toyC w0 (CTxCreate None :: map (fun e => CTxInsert 0 (fst e) (snd e)) (deep0 256)) = Ok (ATx 0 :: repeat AOk 257, w) /\
     tx_iterate w 0 257 = Abort) /\
  (exists w, run toy toyC w0 (CTxCreate None :: map (fun e => CTxInsert 0 (fst e) (snd e)) (deep0 128) ++ [CTxCommit 0]) = Ok (ATx 0 :: repeat AOk 129 ++ [AOk], w) /\
     tx_iterate w 0 129 = Abort).
Proof.
  split.
  - destruct (make_deep 256 (le_n _)) as (w & w' & sp & l & _ & E & _ & _ & X & T & _ & _ & Ll & I & B).
    exists w. split; [exact E|]. apply (C15_deep_aborts_partial toy toy_len toyC toyC_len _ _ _ _ _ _ _ _ X T I B). rewrite Ll. lia.
  - destruct (make_deep 128) as (w & w' & sp & l & _ & E & E2 & Es & X & T & T' & Al & Ll & I & B); [lia|].
    exists w'. split.
    + assert (RA : forall cs1 cs2 w l1 w1 l2 w2, run toy toyC w cs1 = Ok (l1, w1) -> run toy toyC w1 cs2 = Ok (l2, w2) -> run toy toyC w (cs1 ++ cs2) = Ok (l1 ++ l2, w2)).
      { clear. induction cs1 as [|c cs1 IH]; intros cs2 w l1 w1 l2 w2 E1 E2; [apply Ok_inj in E1; injection E1 as <- <-; exact E2|].
        cbn [run app] in *. destruct (step toy toyC w c) as [[a wa]| | | |]; cbn [bind] in *; try discriminate E1.
        destruct (run toy toyC wa cs1) as [[lb wb]| | | |] eqn:Er; cbn [bind] in E1; try discriminate E1. apply Ok_inj in E1. injection E1 as <- <-.
        rewrite (IH _ _ _ _ _ _ Er E2). reflexivity. }
      exact (RA (CTxCreate None :: map (fun e => CTxInsert 0 (fst e) (snd e)) (deep0 128)) [CTxCommit 0] _ _ _ _ _ E E2).
    + apply (proj2 (C15_iteration_limit_partial toy toy_len toyC toyC_len _ _ _ _ _ _ 0 l X Al Es eq_refl T')); [|lia].
      exists zkey, [x01]. split; [exact I|lia].
Qed.
Print Assumptions C15_iteration_refuted.
