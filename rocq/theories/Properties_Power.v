(** * C54: power failures. *)
From Verif Require Import Power FaultFacts Properties_Lost Properties_Db Properties_Hist Properties_Reopen Demo.
From Coq Require Import ZifyBool ZifyNat ZifyN.

(** ** In a build with URKEL_FSYNC every successful commit leaves all files on the disk *)
Definition synced_before (fs D : list bytes) : Prop :=
  length D <= length fs /\ forall i, S i < length fs -> nth_error D i = nth_error fs i.

Lemma nth_error_firstn {A} (l : list A) n i : i < n -> nth_error (firstn n l) i = nth_error l i.
Proof. revert n i. induction l as [|x l IH]; intros [|n] [|i] L; cbn; try lia; auto; apply IH; lia. Qed.
Lemma nth_error_ext_all {A} (l l' : list A) : length l = length l' -> (forall i, i < length l -> nth_error l i = nth_error l' i) -> l = l'.
Proof.
  revert l'. induction l as [|x l IH]; intros [|y l'] L E; cbn in L; try lia; [reflexivity|]. f_equal.
  - specialize (E 0 ltac:(cbn; lia)). now injection E.
  - apply IH; [lia|]. intros i Li. exact (E (S i) ltac:(cbn; lia)).
Qed.
Lemma cut_same A V i : cutof A V -> S i < length A -> nth_error A i = nth_error V i.
Proof.
  intros (b & f & x & c & -> & ->) L. rewrite app_length in L. cbn [length] in L. rewrite !nth_error_app1 by lia. reflexivity.
Qed.
Lemma disk_ok V : forall ops fs D, (forall A, crash fs ops A -> cutof A V) -> synced_before fs D ->
  let '(fs', D') := disk fs D ops in fs' = apply_ops fs ops /\ synced_before fs' D'.
Proof.
  induction ops as [|o ops IH]; intros fs D Cu Sy; cbn [disk]; [auto|].
  assert (C0 : cutof fs V) by (apply Cu; constructor).
  assert (C1 : forall A, crash (apply_op fs o) ops A -> cutof A V) by (intros A X; apply Cu, crash_later, X).
  assert (C2 : cutof (apply_op fs o) V) by (apply C1; constructor).
  assert (N0 : fs <> []) by (intros ->; destruct C0 as (b & f & x & c & E & _); destruct b; discriminate).
  assert (L0 : 0 < length fs) by (destruct fs; [contradiction|cbn; lia]).
  assert (G : forall D', synced_before (apply_op fs o) D' ->
     let '(fs', D'') := disk (apply_op fs o) D' ops in fs' = apply_ops fs (o :: ops) /\ synced_before fs' D'').
  { intros D' S'. exact (IH _ _ C1 S'). }
  destruct Sy as [Ld Sy].
  assert (Keep : length (apply_op fs o) = length fs -> synced_before (apply_op fs o) D).
  { intros El. split; [lia|]. intros i Li. rewrite El in Li. rewrite Sy by exact Li.
    rewrite (cut_same _ _ i C0 Li). symmetry. apply (cut_same _ _ i C2). lia. }
  destruct o as [|i x|i n|].
  - apply G. cbn [apply_op]. unfold sync_file. split; [rewrite upd_length, !app_length, repeat_length; cbn [length]; lia|].
    intros i Li. rewrite app_length in Li. cbn [length] in Li. rewrite nth_error_app1 by lia.
    destruct (Nat.eq_dec i (length fs - 1)) as [->|Ni].
    + rewrite upd_error, Nat.eqb_refl, (proj2 (Nat.ltb_lt _ _)) by (rewrite app_length, repeat_length; lia). cbn [andb]. unfold fget.
      destruct (nth_error fs (length fs - 1)) as [y|] eqn:Ey; [|apply nth_error_None in Ey; lia]. f_equal. apply nth_error_nth, Ey.
    + rewrite upd_error. destruct (Nat.eqb_spec (length fs - 1) i); [lia|]. cbn [andb]. specialize (Sy i ltac:(lia)).
      assert (i < length D). { apply nth_error_Some. rewrite Sy. apply nth_error_Some. lia. }
      rewrite nth_error_app1 by lia. exact Sy.
  - apply G, Keep. cbn [apply_op]. apply upd_length.
  - apply G, Keep. cbn [apply_op]. apply upd_length.
  - apply G. cbn [apply_op]. destruct fs as [|y fs _] using rev_ind; [contradiction|]. rewrite removelast_last in *. rewrite app_length in *. cbn [length] in *.
    replace (length fs + 1 - 1) with (length fs) by lia. split; [rewrite firstn_length; lia|].
    intros i Li. rewrite nth_error_firstn by lia. rewrite (Sy i ltac:(lia)). apply nth_error_app1. lia.
Qed.

(** Everything a successful call wrote is on the disk when it returns, if everything was
    before. *)
Theorem C54_fsync_covers :
  forall (H : bytes -> bytes), (forall m, length (H m) = 32) ->
  forall (C : bytes -> bytes -> bytes), (forall k m, length (C k m) = 20) ->
  forall key w sp c a w1 ops,
  exec H C key w sp -> allowed H sp w c -> quiet w -> s_failed sp = false -> c <> CReopen ->
  step H C w c = Ok (a, w1) -> log w1 = log w ++ ops ->
  after_commit (files w) (files w) ops = files w1.
Proof.
  intros H HL C CL key w sp c a w1 ops X OK Q F Nc E L.
  assert (M : move H C w sp w1 (snext H sp c a)) by (exists c, a; auto).
  destruct (keeps_move H HL C CL key _ _ _ _ (exec_sim H HL C CL _ _ _ X) Q F M) as (_ & _ & _ & Ef).
  assert (Cu : forall A, crash (files w) ops A -> cutof A (files w1)) by (intros A Cr; apply (effect_crash _ _ _ _ Ef L Cr)).
  assert (Ea : apply_ops (files w) ops = files w1).
  { unfold effect, files, log in *. destruct (w_db w) as [d|]; [|contradiction]. destruct (w_db w1) as [d1|]; [|contradiction].
    destruct Ef as (ops' & L1 & L2 & _). rewrite L1 in L. apply app_inv_head in L. subst ops'. exact L2. }
  pose proof (disk_ok (files w1) ops (files w) (files w) Cu (conj (le_n _) (fun _ _ => eq_refl))) as P.
  unfold after_commit. destruct (disk (files w) (files w) ops) as [fs' D']. destruct P as [-> [Ld Sy]]. rewrite Ea in *.
  assert (L0 : 0 < length (files w1)).
  { destruct (cutof_nonnil _ _ (Cu _ (crash_end _ _))) as [_ N]. destruct (files w1); [contradiction|cbn; lia]. }
  unfold sync_file. apply nth_error_ext_all; [rewrite upd_length, app_length, repeat_length; lia|]. intros i Li. rewrite upd_length, app_length, repeat_length in Li.
  rewrite upd_error. destruct (Nat.eqb_spec (length (files w1) - 1) i) as [<-|Ni].
  - rewrite (proj2 (Nat.ltb_lt _ _)) by (rewrite app_length, repeat_length; lia). cbn [andb]. unfold fget.
    destruct (nth_error (files w1) (length (files w1) - 1)) as [y|] eqn:Ey; [|apply nth_error_None in Ey; lia]. f_equal. apply nth_error_nth, Ey.
  - cbn [andb]. specialize (Sy i ltac:(lia)).
    assert (i < length D'). { apply nth_error_Some. rewrite Sy. apply nth_error_Some. lia. }
    rewrite nth_error_app1 by lia. exact Sy.
Qed.

(** ** What a power failure leaves is opened again, if the disk wrote in order

    [w]: a state that is completely on the disk (with URKEL_FSYNC: after every successful
    commit).  Since then the calls [l] were made, the last one possibly not finished; any
    part of what they wrote is on the disk.  If no commit record is there without what was
    written before it, urkel_open shows the last state [spi] that is there completely: [sp]
    or a later one.  Missing: records reaching the disk too early (refuted below). *)
Theorem C54_power_failure_partial :
  forall (H : bytes -> bytes), (forall m, length (H m) = 32) ->
  forall (C : bytes -> bytes -> bytes), (forall k m, length (C k m) = 20) ->
  forall key w sp l w1 sp1 A B,
  exec H C key w sp -> quiet w -> s_failed sp = false -> aligned (files w) ->
  trail (move H C) w sp l w1 sp1 -> collision_free H sp1 ->
  no_forgery C key (files w) (files w1) (map (fun x => files (fst x)) l) ->
  power_loss (files w) (files w1) A -> in_order C key (files w) (files w1) A -> reopened H C key A B ->
  exists d wi spi, db_open H C key B [] = Ok (Some d) /\ survivor A ((w, sp) :: l) (wi, spi) /\
    let w2 := mkworld (Some d) [] in let r := hd [] (s_hist spi) in
    exec H C key w2 (crashed spi) /\
    step H C w2 CRoot = Ok (AHash (ref_root H r), w2) /\
    forall k, length k = 32 -> exists w3, step H C w2 (CGet k None) = Ok (found (lookup r k), w3).
Proof.
  intros H HL C CL key w sp l w1 sp1 A B X Q F Al T CF1 NF Pw Or Ro.
  destruct (trail_ok H C key _ w sp l w1 sp1 (keeps_move H HL C CL key) T (exec_sim H HL C CL _ _ _ X) Q F) as (_ & _ & _ & E1 & _).
  destruct (effect_ops _ _ E1) as (ops & L & _).
  exact (remains_history H HL C CL key w sp l w1 sp1 ops A B X Q F Al T CF1 L NF (or_intror (conj Pw Or)) Ro).
Qed.

(** ** Refutations *)
Lemma pf_move : move toy toyC (pw demo) (ps demo) two_w1 two_s1.
Proof.
  exists (CTxCommit 2), AOk. split; [apply allowed_b_ok; vm_compute; reflexivity|]. split; [discriminate|]. split; [apply st_ok; vm_compute; reflexivity|reflexivity].
Qed.
Lemma pf_quiet : quiet (pw demo). Proof. apply quiet_b_ok; vm_compute; reflexivity. Qed.
Lemma pf_free : collision_free toy two_s1. Proof. apply collision_free_b_ok; vm_compute; reflexivity. Qed.

(** A build with URKEL_FSYNC: a commit was acknowledged, everything is on the disk; the power
    fails during the next commit; its record is on the disk, the nodes before it are not.
    urkel_open then fails, although the acknowledged commit is on the disk. *)
Definition pf_synced : list bytes := files (pw demo).
Definition pf_left : list bytes :=
  let D := nth 0 pf_synced [] in let V := nth 0 (files two_w1) [] in
  [D ++ repeat x00 (length V - length D - 38) ++ skipn (length V - 38) V].

Definition power_loss_b (D V A : list bytes) : bool :=
  (length D <=? length A) && (length A <=? length V) &&
  forallb (fun i => (length (nth i D []) <=? length (nth i A [])) && bytes_eqb (firstn (length (nth i D [])) (nth i A [])) (nth i D []) &&
    (length (nth i A []) <=? length (nth i V [])) &&
    forallb (fun k => Byte.eqb (nth k (nth i A []) x00) (nth k (nth i V []) x00) || Byte.eqb (nth k (nth i A []) x00) x00) (seq 0 (length (nth i A [])))) (seq 0 (length V)).
Lemma power_loss_b_ok D V A : power_loss_b D V A = true -> power_loss D V A.
Proof.
  unfold power_loss_b. intros E. apply andb_true_iff in E. destruct E as [E E3]. apply andb_true_iff in E. destruct E as [E1 E2].
  apply Nat.leb_le in E1, E2. rewrite forallb_forall in E3.
  assert (G : forall i, (exists x, nth i A [] = nth i D [] ++ x) /\ length (nth i A []) <= length (nth i V []) /\
    forall k, k < length (nth i A []) -> nth k (nth i A []) x00 = nth k (nth i V []) x00 \/ nth k (nth i A []) x00 = x00).
  { intros i. destruct (Nat.lt_ge_cases i (length V)) as [L|L].
    - specialize (E3 i ltac:(apply in_seq; lia)). apply andb_true_iff in E3. destruct E3 as [E3 E7]. apply andb_true_iff in E3. destruct E3 as [E3 E6].
      apply andb_true_iff in E3. destruct E3 as [E4 E5]. apply Nat.leb_le in E4, E6. destruct (bytes_eqb_spec (firstn (length (nth i D [])) (nth i A [])) (nth i D [])) as [E|]; [|discriminate].
      split; [exists (skipn (length (nth i D [])) (nth i A [])); rewrite <- E at 1; symmetry; apply firstn_skipn|]. split; [exact E6|].
      intros k Lk. rewrite forallb_forall in E7. specialize (E7 k ltac:(apply in_seq; lia)). apply orb_true_iff in E7.
      destruct E7 as [E7|E7]; [left|right]; apply Byte.byte_dec_bl, E7.
    - rewrite !(nth_overflow _ []) by lia. split; [exists []; reflexivity|]. split; [auto|]. intros k Lk. cbn in Lk. lia. }
  split; [split; [exact E1|]; intros i; apply (G i)|]. split; [exact E2|]. intros i. apply (G i).
Qed.

Theorem C54_fsync_refuted : exists w1 sp1 A,
  exec toy toyC dkey (pw demo) (ps demo) /\ quiet (pw demo) /\ s_failed (ps demo) = false /\ aligned (files (pw demo)) /\
  move toy toyC (pw demo) (ps demo) w1 sp1 /\ collision_free toy sp1 /\
  power_loss (files (pw demo)) (files w1) A /\
  hd [] (s_hist (ps demo)) <> [] /\ db_open toy toyC dkey A [] = Ok None.
Proof.
  exists two_w1, two_s1, pf_left.
  split; [exact exec_demo|]. split; [exact pf_quiet|]. split; [vm_compute; reflexivity|]. split; [vm_compute; reflexivity|]. split; [exact pf_move|].
  split; [exact pf_free|].
  split; [apply power_loss_b_ok; vm_compute; reflexivity|]. split; [vm_compute; discriminate|]. vm_compute. reflexivity.
Qed.

(** The default build never synchronises (except when a data file is full): the power fails
    after a commit was acknowledged, nothing of it is on the disk, and it is gone. *)
Theorem C54_default_refuted : exists w1 sp1 d w2 h,
  exec toy toyC dkey (pw demo) (ps demo) /\ move toy toyC (pw demo) (ps demo) w1 sp1 /\
  power_loss (files (pw demo)) (files w1) (files (pw demo)) /\
  db_open toy toyC dkey (files (pw demo)) [] = Ok (Some d) /\
  step toy toyC (mkworld (Some d) []) CRoot = Ok (AHash h, w2) /\ h <> ref_root toy (hd [] (s_hist sp1)).
Proof.
  assert (Y : match db_open toy toyC dkey (files (pw demo)) [] with Ok (Some d) => negb (bytes_eqb (d_hash d) (ref_root toy (hd [] (s_hist two_s1)))) | _ => false end = true) by (vm_compute; reflexivity).
  assert (P : power_loss (files (pw demo)) (files two_w1) (files (pw demo))) by (apply power_loss_b_ok; vm_compute; reflexivity).
  pose proof pf_move as M. pose proof exec_demo as X. revert Y P M X. generalize (pw demo) (ps demo) two_w1 two_s1. intros w sp w1 sp1 Y P M X.
  destruct (db_open toy toyC dkey (files w) []) as [[d|]| | | |] eqn:E; try discriminate.
  exists w1, sp1, d, (mkworld (Some d) []), (d_hash d). split; [exact X|]. split; [exact M|]. split; [exact P|]. split; [reflexivity|].
  split; [reflexivity|]. intros Eh. rewrite Eh, bytes_eqb_refl in Y. discriminate.
Qed.

(** The conditions of C54_power_failure_partial: half of the next commit, with a gap. *)
Definition pf_gap : list bytes :=
  let D := nth 0 pf_synced [] in let V := nth 0 (files two_w1) [] in
  [D ++ repeat x00 50 ++ firstn 150 (skipn (length D + 50) V)].
Definition in_order_b (D V A : list bytes) : bool :=
  forallb (fun i => forallb (fun j =>
    if (length (nth i D []) <=? 38 * j) && (38 * j + 38 <=? length (nth i A [])) then
      match meta_read toyC dkey (firstn 38 (skipn (38 * j) (nth i A []))) with Ok (Some _) => false | _ => true end
    else true) (seq 0 (length (nth i A []) / 38))) (seq 0 (length A)).
Lemma in_order_b_ok D V A : in_order_b D V A = true -> in_order toyC dkey D V A.
Proof.
  intros B i j m L1 L2 E. exfalso. unfold in_order_b in B. rewrite forallb_forall in B.
  assert (Li : i < length A). { destruct (Nat.lt_ge_cases i (length A)) as [X|X]; [exact X|]. rewrite (nth_overflow A) in L2 by exact X. cbn in L2. lia. }
  specialize (B i). rewrite in_seq in B. specialize (B ltac:(lia)). rewrite forallb_forall in B.
  specialize (B j). rewrite in_seq in B.
  assert (Lj : j < length (nth i A []) / 38). { apply Nat.div_le_lower_bound with (b := 38) (q := S j); lia. }
  specialize (B ltac:(lia)).
  destruct (Nat.leb_spec (length (nth i D [])) (38 * j)); [|lia]. destruct (Nat.leb_spec (38 * j + 38) (length (nth i A []))); [|lia].
  cbn [andb] in B. rewrite E in B. discriminate.
Qed.
Example C54_nonvacuous : let w := pw demo in let sp := ps demo in let l := [(two_w1, two_s1)] in
  exec toy toyC dkey w sp /\ quiet w /\ s_failed sp = false /\ aligned (files w) /\
  trail (move toy toyC) w sp l two_w1 two_s1 /\ collision_free toy two_s1 /\
  no_forgery toyC dkey (files w) (files two_w1) (map (fun x => files (fst x)) l) /\
  power_loss (files w) (files two_w1) pf_gap /\ in_order toyC dkey (files w) (files two_w1) pf_gap /\
  map (@length byte) pf_gap = [504].
Proof.
  cbv zeta. split; [exact exec_demo|]. split; [exact pf_quiet|]. split; [vm_compute; reflexivity|]. split; [vm_compute; reflexivity|].
  split; [econstructor; [exact pf_move|constructor]|]. split; [exact pf_free|].
  split; [apply forge_free_b_ok; vm_compute; reflexivity|]. split; [apply power_loss_b_ok; vm_compute; reflexivity|].
  split; [apply in_order_b_ok; vm_compute; reflexivity|]. vm_compute. reflexivity.
Qed.
