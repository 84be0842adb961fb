(** * Commits that fail in any way, also after writing part or all of their data: C22, C45.

    Notation as in Properties_Db.v and Properties_Fail.v ([faulty]). *)
From Verif Require Import Demo.
From Verif Require Export Properties_Fail FaultFacts.
From Coq Require Import ZifyBool ZifyNat ZifyN.

Section Fault.
Variable H : bytes -> bytes.
Variable C : bytes -> bytes -> bytes.

(** A process in which a commit of the contents [l] failed, and any calls that do not write
    after that.  [V]: the data files the commit would have left had nothing failed. *)
Inductive wrecked (key : bytes) (l : recs) (V : list bytes) : world -> spec -> Prop :=
| wr_fail w sp i io v e w' :
    exec H C key w sp -> allowed H sp w (CTxCommit i) -> txat sp i = Some l -> quiet w -> s_failed sp = false ->
    step H C w (CTxCommit i) = Ok (AOk, v) -> V = files v ->
    aligned (files w) -> aligned V -> no_forgery C key (files w) V [V] ->
    step H C (faulty w io) (CTxCommit i) = Ok (AErr e, w') ->
    wrecked key l V w' (set_tx sp i None)
| wr_call w sp c a w' :
    wrecked key l V w sp -> allowed H sp w c -> writes c = false -> step H C w c = Ok (a, w') ->
    wrecked key l V w' (snext H sp c a).

Hypothesis H_len : forall m, length (H m) = 32.
Hypothesis C_len : forall k m, length (C k m) = 20.

Lemma wrecked_inv key l V w sp : wrecked key l V w sp ->
  exists d D hist, w_db w = Some d /\ st_key (d_store d) = key /\ rdb H C d sp D hist /\ Forall2 (txsim H (d_store d)) (w_txs w) (s_txs sp) /\
    forall B, reopened H C key (files w) B -> exists d', db_open H C key B [] = Ok (Some d') /\
      exec H C key (mkworld (Some d') []) (crashed (if fs_eq_dec (files w) V then committed sp l else sp)).
Proof.
  induction 1 as [w sp i io v e w' X A Et Q Fa Ev EV Al AV NF Ef|w sp c a w' X IH A Wc E].
  - subst V. pose proof (exec_sim H H_len C C_len _ _ _ X) as (d & D & V0 & hist & W & Ew & K & S & F).
    destruct (sm_ok _ _ _ _ _ _ _ _ S Fa) as (Cs & Fs & _).
    assert (Qd : st_io (d_store d) = []) by (unfold quiet in Q; rewrite Ew in Q; exact Q).
    destruct (txs_live H w sp _ i l F Et) as (n & En & Hn).
    pose proof (step_ok H H_len C C_len key w sp (CTxCommit i) (ex_intro _ d (ex_intro _ D (ex_intro _ V0 (ex_intro _ hist (ex_intro _ W (conj Ew (conj K (conj S F)))))))) A) as (a1 & v1 & E1 & G1 & S1 & Eff & _).
    rewrite Ev in E1. apply Ok_inj in E1. injection E1 as <- <-. specialize (Eff ltac:(discriminate) Q).
    assert (F0 : fit (d_store d)).
    { destruct Cs as [C1 C2 C3 C4 C5]. split; rewrite C2; [destruct (st_fs (d_store d)); [congruence|cbn [length]; lia]|].
      rewrite C3. destruct (exists_last C1) as (b & f & Eb). rewrite Eb, last_last, app_length. cbn [length]. unfold fget.
      replace (N.to_nat (N.of_nat (length b + 1)) - 1) with (length b) by lia. rewrite nth_middle. lia. }
    assert (Ff : fit (set_io (d_store d) io)) by exact F0.
    revert Ev. unfold step. rewrite Ew, En. cbn [bind]. unfold tx_commit at 1.
    destruct (tree_commit H C (d_store d) n) as [[r0 s0]| | | |] eqn:Ec; try discriminate. cbn [bind].
    assert (Ec' : tree_commit H C (set_io (set_io (d_store d) io) []) n = Ok (r0, s0)).
    { change (set_io (set_io (d_store d) io) []) with (set_io (d_store d) []). rewrite io_nil by exact Qd. exact Ec. }
    destruct (commit_track H C _ n r0 s0 Ff Ec') as [N0 (ops & L & P & r & s' & Er & Alt)].
    destruct r0 as [root|]; [|congruence]. intros Ev. apply Ok_inj in Ev. injection Ev as <-.
    assert (Efl : step H C (faulty w io) (CTxCommit i) =
      let! (a, d, t) := tx_commit H C (with_store d (set_io (d_store d) io)) n in Ok (a, put_tx (faulty w io) d i t)).
    { unfold faulty. rewrite Ew. unfold step. cbn [w_db]. unfold live. cbn [w_txs]. unfold live in En. rewrite En. reflexivity. }
    rewrite Efl in Ef. unfold tx_commit in Ef. cbn [with_store d_store] in Ef. rewrite Er in Ef. cbn [bind] in Ef.
    destruct Alt as [[-> _]|(-> & Cr & Kp & M & Ft)]; [discriminate Ef|]. cbn [bind] in Ef. apply Ok_inj in Ef. injection Ef as <- <-.
    assert (Lg : log (put_tx w (mkdb s0 (hash_field root) (d_revert d)) i (TLive root)) = log w ++ ops).
    { unfold log. rewrite Ew. cbn [put_tx w_db d_store]. exact L. }
    assert (Cr' : crash (files w) ops (st_fs s')) by (unfold files; rewrite Ew; exact Cr).
    assert (Cut : cutof (st_fs s') (st_fs s0)).
    { unfold effect in Eff. rewrite Ew in Eff. cbn [put_tx w_db d_store] in Eff. destruct Eff as (ops2 & L2 & P2 & Cc).
      assert (ops2 = ops) as -> by (cbn [set_io st_log] in L; rewrite L2 in L; apply app_inv_head in L; exact L). apply Cc, Cr. }
    assert (Cap : (st_index s' < MAX_FILES)%N).
    { destruct S1 as (dv & Dv & Vv & hv & Wv & Ev1 & Kv & Sv & _). cbn [put_tx w_db] in Ev1. injection Ev1 as <-.
      assert (Fv : s_failed (snext H sp (CTxCommit i) AOk) = false) by (cbn [snext commits]; rewrite Et; reflexivity).
      destruct (sm_ok _ _ _ _ _ _ _ _ Sv Fv) as (Csv & _). pose proof (si_cap _ _ _ _ _ (sm_inv _ _ _ _ _ _ _ _ Sv)) as Y.
      cbn [d_store] in Y, Csv. rewrite (cl_index _ Csv) in Y. apply (cut_length H H_len) in Cut. destruct Ft as [[_ Ft] _]. lia. }
    eexists _, D, hist. split; [reflexivity|]. cbn [with_store d_store]. split; [destruct Kp as (-> & _); exact K|]. split; [|split].
    + destruct (simdb_rdb _ _ _ _ _ _ _ _ S) as [R1 R2 R3 R4 R5]. constructor; cbn [with_store d_store d_hash d_revert set_tx s_hist s_cur]; auto.
      eapply sinv_keep; [exact R1|exact Kp|exact M|exact Cap].
    + cbn [put_tx w_txs set_tx s_txs]. unfold faulty. rewrite Ew. cbn [w_txs]. apply (txs_upd H); [|exact I].
      eapply (txs_mono H); [exact M|exact F].
    + intros B Ro. unfold files in Ro |- *. cbn [put_tx w_db with_store d_store] in Ro |- *.
      assert (E2 : step H C w (CTxCommit i) = Ok (AOk, put_tx w (mkdb s0 (hash_field root) (d_revert d)) i (TLive root))).
      { unfold step. rewrite Ew, En. cbn [bind]. unfold tx_commit. rewrite Ec. reflexivity. }
      destruct (crash_ok H H_len C C_len key w sp (CTxCommit i) AOk _ ops (st_fs s') B (exec_sim H H_len C C_len _ _ _ X) A Q Fa E2 Lg ltac:(discriminate) Al AV NF Cr' Ro) as (d' & Eo & _).
      exists d'. split; [exact Eo|].
      pose proof (ex_crash H H_len C C_len key w sp (CTxCommit i) AOk _ ops (st_fs s') B d' X A Q Fa E2 Lg ltac:(discriminate) Al AV NF Cr' Ro Eo) as X2.
      unfold files in X2. cbn [put_tx w_db d_store] in X2.
      destruct (fs_eq_dec (st_fs s') (st_fs s0)); [|exact X2]. cbn [snext commits] in X2. rewrite Et in X2. exact X2.
  - destruct IH as (d & D & hist & Ew & K & R & F & Rx).
    destruct (rstep_ok H H_len C C_len w sp d D hist c Ew R F A Wc) as (a' & w1 & d0 & d' & Ew0 & Ew' & E' & G & R' & F' & Sd & X1 & X2 & X3).
    rewrite E in E'. apply Ok_inj in E'. injection E' as <- <-. rewrite Ew in Ew0. injection Ew0 as <-. pose proof Sd as (S1 & _ & S3 & _).
    exists d', D, hist. split; [exact Ew'|]. split; [congruence|]. split; [exact R'|]. split; [exact F'|].
    assert (Fw : files w' = files w) by (unfold files; rewrite Ew, Ew'; exact S1). rewrite Fw.
    intros B Ro. destruct (Rx B Ro) as (d2 & Eo & X4). exists d2. split; [exact Eo|].
    assert (Ec : crashed (if fs_eq_dec (files w) V then committed (snext H sp c a) l else snext H sp c a) = crashed (if fs_eq_dec (files w) V then committed sp l else sp)).
    { destruct (fs_eq_dec (files w) V); unfold crashed, committed; cbn [s_hist s_bytes]; rewrite X1, X3; reflexivity. }
    rewrite Ec. exact X4.
Qed.
End Fault.

(** ** C22: whatever fails while a commit writes (the file cannot be opened or synchronised,
    any part of the data is written, or all of it and remapping fails), urkel_tx_commit
    reports it or has written everything; after a failure every call that does not write
    answers exactly as if the commit had not been attempted. *)
Theorem C22_any_write_failure :
  forall (H : bytes -> bytes), (forall m, length (H m) = 32) ->
  forall (C : bytes -> bytes -> bytes), (forall k m, length (C k m) = 20) ->
  (forall key w sp i io, exec H C key w sp -> allowed H sp w (CTxCommit i) -> quiet w -> s_failed sp = false ->
     exists v w', step H C w (CTxCommit i) = Ok (AOk, v) /\
       ((step H C (faulty w io) (CTxCommit i) = Ok (AOk, w') /\ faulty w' [] = v) \/
        step H C (faulty w io) (CTxCommit i) = Ok (AErr EBADWRITE, w'))) /\
  (forall key l V w sp c, wrecked H C key l V w sp -> allowed H sp w c -> writes c = false ->
     exists a w', step H C w c = Ok (a, w') /\ good H sp w c a /\ files w' = files w /\ wrecked H C key l V w' (snext H sp c a)).
Proof.
  intros H HL C CL. split.
  - intros key w sp i io X A Q Fa. pose proof (exec_sim H HL C CL _ _ _ X) as (d & D & V0 & hist & W & Ew & K & S & F).
    destruct (sm_ok _ _ _ _ _ _ _ _ S Fa) as (Cs & Fs & _). pose proof A as [_ (l & Et & Cc)].
    assert (Qd : st_io (d_store d) = []) by (unfold quiet in Q; rewrite Ew in Q; exact Q).
    destruct (txs_live H w sp _ i l F Et) as (n & En & Hn).
    destruct (exec_do H HL C CL _ _ _ _ X A) as (a & v & Ev & G & _). cbn [good] in G.
    assert (a = AOk) as -> by (destruct G as [G|[_ G]]; [exact G|contradiction]).
    assert (F0 : fit (d_store d)).
    { destruct Cs as [C1 C2 C3 C4 C5]. split; rewrite C2; [destruct (st_fs (d_store d)); [congruence|cbn [length]; lia]|].
      rewrite C3. destruct (exists_last C1) as (b & f & Eb). rewrite Eb, last_last, app_length. cbn [length]. unfold fget.
      replace (N.to_nat (N.of_nat (length b + 1)) - 1) with (length b) by lia. rewrite nth_middle. lia. }
    assert (Ff : fit (set_io (d_store d) io)) by exact F0.
    pose proof Ev as Ev2. revert Ev2. unfold step at 1. rewrite Ew, En. cbn [bind]. unfold tx_commit at 1.
    destruct (tree_commit H C (d_store d) n) as [[r0 s0]| | | |] eqn:Ec; try discriminate. cbn [bind].
    assert (Ec' : tree_commit H C (set_io (set_io (d_store d) io) []) n = Ok (r0, s0)).
    { change (set_io (set_io (d_store d) io) []) with (set_io (d_store d) []). rewrite io_nil by exact Qd. exact Ec. }
    destruct (commit_track H C _ n r0 s0 Ff Ec') as [N0 (ops & L & P & r & s' & Er & Alt)].
    destruct r0 as [root|]; [|congruence]. intros Ev2. apply Ok_inj in Ev2. injection Ev2 as <-.
    assert (Efl : step H C (faulty w io) (CTxCommit i) =
      let! (a, d, t) := tx_commit H C (with_store d (set_io (d_store d) io)) n in Ok (a, put_tx (faulty w io) d i t)).
    { unfold faulty. rewrite Ew. unfold step. cbn [w_db]. unfold live. cbn [w_txs]. unfold live in En. rewrite En. reflexivity. }
    eexists. rewrite Efl. unfold tx_commit. cbn [with_store d_store]. rewrite Er. cbn [bind].
    destruct Alt as [[-> Es]|(-> & _)]; eexists; (split; [exact Ev|]); [left|right; reflexivity].
    split; [reflexivity|]. unfold faulty. rewrite Ew. cbn [put_tx w_db d_store w_txs]. rewrite Es. reflexivity.
  - intros key l V w sp c X A Wc. destruct (wrecked_inv H C HL CL _ _ _ _ _ X) as (d & D & hist & Ew & K & R & F & _).
    destruct (rstep_ok H HL C CL w sp d D hist c Ew R F A Wc) as (a & w1 & d0 & d' & Ew0 & Ew' & E' & G & R' & F' & Sd & _).
    rewrite Ew in Ew0. injection Ew0 as <-. exists a, w1. split; [exact E'|]. split; [exact G|].
    split; [unfold files; rewrite Ew, Ew'; apply Sd|]. eapply wr_call; eassumption.
Qed.

(** ** C45, for databases closed (or processes that die) after a failed commit, before the
    next commit: unless every byte of the commit had been written, the state found on
    opening is the one before the commit, with the whole history; otherwise it is the
    complete commit.  [B]: what crashes while opening may have left of the files. *)
Theorem C45_reopen_after_failure_partial :
  forall (H : bytes -> bytes), (forall m, length (H m) = 32) ->
  forall (C : bytes -> bytes -> bytes), (forall k m, length (C k m) = 20) ->
  forall key l V w sp, wrecked H C key l V w sp -> collision_free H (committed sp l) ->
  (exists w2, step H C w CReopen = Ok (AOk, w2) /\ db_open H C key (files w) [] = Ok (w_db w2)) /\
  forall B, reopened H C key (files w) B -> exists d, db_open H C key B [] = Ok (Some d) /\
    let w2 := mkworld (Some d) [] in
    (files w <> V ->
      exec H C key w2 (crashed sp) /\ step H C w2 CRoot = Ok (AHash (ref_root H (hd [] (s_hist sp))), w2) /\
      forall k, length k = 32 -> exists w3, step H C w2 (CGet k None) = Ok (found (lookup (hd [] (s_hist sp)) k), w3)) /\
    (files w = V ->
      exec H C key w2 (crashed (committed sp l)) /\ step H C w2 CRoot = Ok (AHash (ref_root H l), w2) /\
      forall k, length k = 32 -> exists w3, step H C w2 (CGet k None) = Ok (found (lookup l k), w3)).
Proof.
  intros H HL C CL key l V w sp X CF. destruct (wrecked_inv H C HL CL _ _ _ _ _ X) as (d & D & hist & Ew & K & R & F & Rx). split.
  - destruct (Rx _ (ro_here _ _ _ _)) as (d' & Eo & _). exists (mkworld (Some d') (map (fun _ => TDead) (w_txs w))). split; [|exact Eo].
    unfold step. rewrite Ew. unfold files in Eo. rewrite Ew in Eo. rewrite K, Eo. reflexivity.
  - intros B Ro. destruct (Rx B Ro) as (d' & Eo & X2). exists d'. split; [exact Eo|].
    destruct (fs_eq_dec (files w) V) as [E|E].
    + split; [intros; contradiction|]. intros _. split; [exact X2|]. split; [exact (ask_top H HL C CL _ _ _ X2 CF)|].
      intros k Lk. destruct (ask_db H HL C CL _ _ _ None _ k X2 CF eq_refl Lk) as (w3 & _ & R3 & _). eauto.
    + split; [|intros; contradiction]. intros _. pose proof (free_failed H sp l CF) as CF'. split; [exact X2|]. split; [exact (ask_top H HL C CL _ _ _ X2 CF')|].
      intros k Lk. destruct (ask_db H HL C CL _ _ _ None _ k X2 CF' eq_refl Lk) as (w3 & _ & R3 & _). eauto.
Qed.

(** The commit of transaction 2 of [demo] stopped after 200 of its 342 bytes, then a lookup. *)
Definition wreck_l : recs := match txat (ps demo) 2 with Some l => l | None => [] end.
Definition wreck_w (io : list wfault) : world := st_w (faulty (pw demo) io) (CTxCommit 2).
Lemma wreck_wrecked io e : step toy toyC (faulty (pw demo) io) (CTxCommit 2) = Ok (AErr e, wreck_w io) ->
  wrecked toy toyC dkey wreck_l (files torn_w1) (wreck_w io) (set_tx (ps demo) 2 None).
Proof.
  intros E. destruct C19_nonvacuous as (X1 & X2 & _ & X4 & X5 & X6 & _ & X8 & X9 & X10 & _).
  eapply wr_fail; [exact X1|exact X2|vm_compute; reflexivity|exact X4|exact X5|exact X6|reflexivity|exact X8|exact X9|exact X10|exact E].
Qed.
Example C45_reopen_nonvacuous :
  wrecked toy toyC dkey wreck_l (files torn_w1) (wreck_w [WShort 200]) (set_tx (ps demo) 2 None) /\
  collision_free toy (committed (set_tx (ps demo) 2 None) wreck_l) /\
  map (@length byte) (files (pw demo)) = [304] /\ map (@length byte) (files (wreck_w [WShort 200])) = [504] /\
  wrecked toy toyC dkey wreck_l (files torn_w1) (wreck_w [WMap]) (set_tx (ps demo) 2 None) /\ files (wreck_w [WMap]) = files torn_w1 /\
  lookup wreck_l kbaz = Some v2 /\ lookup (s_cur (ps demo)) kbaz = None /\
  allowed toy (set_tx (ps demo) 2 None) (wreck_w [WShort 200]) (CGet kfoo None) /\
  allowed toy (set_tx (ps demo) 2 None) (wreck_w [WShort 200]) (CTxCreate None).
Proof.
  assert (E : forall io, st_b (faulty (pw demo) io) (CTxCommit 2) = true -> st_a (faulty (pw demo) io) (CTxCommit 2) = AErr EBADWRITE ->
    wrecked toy toyC dkey wreck_l (files torn_w1) (wreck_w io) (set_tx (ps demo) 2 None)).
  { intros io B A. apply (wreck_wrecked io EBADWRITE). apply st_ok; assumption. }
  split; [apply E; vm_compute; reflexivity|]. split; [apply collision_free_b_ok; vm_compute; reflexivity|]. split; [vm_compute; reflexivity|].
  split; [vm_compute; reflexivity|]. split; [apply E; vm_compute; reflexivity|]. split; [vm_compute; reflexivity|].
  split; [vm_compute; reflexivity|]. split; [vm_compute; reflexivity|]. split; apply allowed_b_ok; vm_compute; reflexivity.
Qed.
