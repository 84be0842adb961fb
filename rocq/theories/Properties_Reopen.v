(** * C17, C32: the commit record at the end of a full data file. *)
From Verif Require Import Rollover.
From Coq Require Import ZifyBool ZifyNat ZifyN.

(** One committed record; a transaction changing it is left open. *)
Definition znew : bytes := repeat x00 56.
Definition full_base : list call :=
  [CTxCreate None; CTxInsert 0 kfoo [x01]; CTxCreate None; CTxInsert 1 kfoo znew; CTxCommit 0].
Definition fb_w : world := Eval vm_compute in pw full_base.
Definition fb_s : spec := Eval vm_compute in ps full_base.
Lemma fb_run : run toy toyC w0 full_base = Ok ([ATx 0; AOk; ATx 1; AOk; AOk], fb_w).
Proof. vm_compute. reflexivity. Qed.
Lemma fb_exec : exec toy toyC dkey fb_w fb_s.
Proof. apply (exec_played full_base). vm_compute. reflexivity. Qed.

Definition l0 : recs := [(kfoo, [x01])].
Definition l1 : recs := [(kfoo, znew)].
Definition fb_spec (n : N) : spec := mkspec (repeat l0 (S (N.to_nat n))) l0 [Some l0; Some l1] false (302 * (n + 1)).
Definition fb_free_b : bool := nocoll_b toy (flat_map (ref_msgs toy) [l0; l1]) && nozero_b toy (flat_map (ref_msgs toy) [l0; l1]).
Lemma fb_free (hist : list recs) bs cur txs fl : (forall l, In l hist -> l = l0 \/ l = l1) -> collision_free toy (mkspec hist cur txs fl bs).
Proof.
  intros I. assert (B : fb_free_b = true) by (vm_compute; reflexivity).
  unfold fb_free_b in B. rewrite andb_true_iff in B. destruct B as [B1 B2].
  apply nocoll_b_ok in B1. apply nozero_b_ok in B2.
  assert (J : forall x, In x (flat_map (ref_msgs toy) hist) -> In x (flat_map (ref_msgs toy) [l0; l1])).
  { intros x Ix. apply in_flat_map in Ix. destruct Ix as (l & Il & Ix). apply in_flat_map. exists l. split; [|exact Ix].
    destruct (I l Il) as [->| ->]; [now left|right; now left]. }
  split; cbn [s_hist].
  - intros a b Ia Ib. apply B1; auto.
  - intros a Ia. apply B2; auto.
Qed.

Definition full_at (n : N) (w : world) : Prop :=
  exec toy toyC dkey w (fb_spec n) /\ quiet w /\ w_txs w = w_txs fb_w /\ exists f, files w = [f] /\ blen f = (114 + 38 * n)%N.

Lemma full_0 : full_at 0 fb_w.
Proof.
  assert (E : fb_s = fb_spec 0) by (vm_compute; reflexivity).
  split; [rewrite <- E; apply fb_exec|]. split; [vm_compute; reflexivity|]. split; [reflexivity|].
  eexists. split; [reflexivity|]. vm_compute. reflexivity.
Qed.
Lemma full_live0 w : w_txs w = w_txs fb_w -> exists h p, live w 0 = Ok (NHash h p) /\ upd (w_txs w) 0 (TLive (NHash h p)) = w_txs w.
Proof. intros E. unfold live. rewrite E. vm_compute. eexists _, _. split; reflexivity. Qed.
Lemma full_live1 w : w_txs w = w_txs fb_w -> exists h, live w 1 = Ok (NLeaf (Some h) None kfoo (Some znew) None).
Proof. intros E. unfold live. rewrite E. vm_compute. eexists. reflexivity. Qed.

Lemma full_allowed n w i : (n <= 60000000)%N -> i < 2 -> allowed toy (fb_spec n) w (CTxCommit i).
Proof.
  intros L Li. split.
  - apply fb_free. intros l I. left. apply repeat_spec in I. exact I.
  - destruct i as [|[|i]]; [exists l0|exists l1|lia]; (split; [reflexivity|split; [constructor; [cbn; lia|constructor]|]]).
    + change (weight l0) with 302%N. unfold fb_spec, LIMIT. cbn [s_bytes]. lia.
    + change (weight l1) with 357%N. unfold fb_spec, LIMIT. cbn [s_bytes]. lia.
Qed.

Lemma vcommit_fits f r : (blen f mod 38 = 0)%N -> (blen f + 38 <= MAX_FILE_SIZE)%N -> length r = 38 -> vcommit [f] r = [f ++ r].
Proof.
  intros A M L. unfold vcommit, vpad. cbn [last]. rewrite A. change (0 =? 0)%N with true. cbv iota. unfold vapp. cbn [last removelast app].
  replace (blen r) with 38%N by (unfold blen; lia). destruct (N.ltb_spec MAX_FILE_SIZE (blen f + 38)); [lia|reflexivity].
Qed.

Lemma full_next n w : full_at n w -> (n < 56512616)%N ->
  exists w', step toy toyC w (CTxCommit 0) = Ok (AOk, w') /\ full_at (n + 1) w'.
Proof.
  intros (X & Q & T & f & F & Lf) L. destruct (full_live0 w T) as (h & p & En & U).
  destruct (commit_stored toy toy_len toyC toyC_len _ _ _ 0 h p l0 X eq_refl Q) as (w' & r & E & X' & Q' & T' & Lr & F').
  { apply full_allowed; lia. } { reflexivity. } { exact En. }
  exists w'. split; [exact E|].
  assert (Es : committed (fb_spec n) l0 = fb_spec (n + 1)).
  { unfold committed, fb_spec. cbn [s_hist s_cur s_txs s_failed s_bytes]. change (weight l0) with 302%N.
    replace (N.to_nat (n + 1)) with (S (N.to_nat n)) by lia. f_equal. lia. }
  split; [rewrite <- Es; exact X'|]. split; [exact Q'|]. split; [rewrite T', U; exact T|].
  exists (f ++ r). rewrite F', F. split.
  - apply vcommit_fits; [| |exact Lr].
    + rewrite Lf. replace (114 + 38 * n)%N with ((n + 3) * 38)%N by lia. apply N.mod_mul. lia.
    + rewrite Lf. unfold MAX_FILE_SIZE. lia.
  - rewrite blen_app, Lf. unfold blen. rewrite Lr. lia.
Qed.

Lemma run_app H C cs1 : forall cs2 w l1 w1 l2 w2, run H C w cs1 = Ok (l1, w1) -> run H C w1 cs2 = Ok (l2, w2) -> run H C w (cs1 ++ cs2) = Ok (l1 ++ l2, w2).
Proof.
  induction cs1 as [|c cs1 IH]; intros cs2 w l1 w1 l2 w2 E1 E2; [apply Ok_inj in E1; injection E1 as <- <-; exact E2|].
  cbn [run app] in *. destruct (step H C w c) as [[a wa]| | | |]; cbn [bind] in *; try discriminate E1.
  destruct (run H C wa cs1) as [[lb wb]| | | |] eqn:Er; cbn [bind] in E1; try discriminate E1. apply Ok_inj in E1. injection E1 as <- <-.
  rewrite (IH _ _ _ _ _ _ Er E2). reflexivity.
Qed.

Lemma full_run : forall k n w, full_at n w -> (n + N.of_nat k <= 56512616)%N ->
  exists w', run toy toyC w (repeat (CTxCommit 0) k) = Ok (repeat AOk k, w') /\ full_at (n + N.of_nat k) w'.
Proof.
  induction k as [|k IH]; intros n w F L.
  - exists w. split; [reflexivity|]. replace (n + N.of_nat 0)%N with n by lia. exact F.
  - destruct (full_next n w F) as (w1 & E1 & F1); [lia|]. destruct (IH (n + 1)%N w1 F1) as (w2 & E2 & F2); [lia|].
    exists w2. cbn [repeat run]. rewrite E1. cbn [bind]. rewrite E2. cbn [bind]. split; [reflexivity|].
    replace (n + N.of_nat (S k))%N with (n + 1 + N.of_nat k)%N by lia. exact F2.
Qed.

(** The last commit: value and node fit, the padding does not. *)
Definition MANY : nat := N.to_nat 56512614.
Lemma many_N : N.of_nat MANY = 56512614%N.
Proof. unfold MANY. apply N2Nat.id. Qed.
Global Opaque MANY.

Lemma vcommit_rolls f v raw r : blen f = (MAX_FILE_SIZE - 106)%N -> length v = 56 -> length raw = 40 -> length r = 38 ->
  vcommit (vapp (vapp [f] v) raw) r = [f ++ v ++ raw; repeat x00 18 ++ r].
Proof.
  intros Lf Lv Lw Lr.
  assert (E1 : vapp [f] v = [f ++ v]).
  { unfold vapp. cbn [last removelast app]. replace (blen v) with 56%N by (unfold blen; lia). rewrite Lf. reflexivity. }
  assert (L1 : blen (f ++ v) = (MAX_FILE_SIZE - 50)%N) by (rewrite blen_app, Lf; unfold blen; rewrite Lv; reflexivity).
  assert (E2 : vapp [f ++ v] raw = [f ++ v ++ raw]).
  { unfold vapp. cbn [last removelast app]. replace (blen raw) with 40%N by (unfold blen; lia). rewrite L1, app_assoc. reflexivity. }
  assert (L2 : blen (f ++ v ++ raw) = (MAX_FILE_SIZE - 10)%N) by (rewrite app_assoc, blen_app, L1; unfold blen; rewrite Lw; reflexivity).
  rewrite E1, E2. unfold vcommit, vpad. cbn [last]. rewrite L2.
  change ((MAX_FILE_SIZE - 10) mod 38)%N with 20%N. change (20 =? 0)%N with false. cbv iota zeta. change (38 - N.to_nat 20) with 18.
  unfold vapp at 2. cbn [last]. rewrite L2. change (blen (repeat x00 18)) with 18%N. change (MAX_FILE_SIZE <? MAX_FILE_SIZE - 10 + 18)%N with true. cbv iota. cbn [app].
  unfold vapp. cbn [last removelast app]. replace (blen r) with 38%N by (unfold blen; lia). reflexivity.
Qed.

Lemma meta_read_zero C key b : 38 <= length b -> firstn 4 b = repeat x00 4 -> meta_read C key b = Ok None.
Proof.
  intros L E. unfold meta_read. do 4 (destruct b as [|? b]; [cbn [length] in L; lia|]). cbn [firstn repeat] in E. injection E as -> -> -> ->.
  reflexivity.
Qed.

(** The blocks behind the last aligned record all start with zeros. *)
Lemma full_noforge C key f v raw r : blen f = (MAX_FILE_SIZE - 106)%N -> v = repeat x00 56 -> length raw = 40 -> length r = 38 ->
  noforge C key [f] [f ++ v ++ raw; repeat x00 18 ++ r].
Proof.
  intros Lf Ev Lw Lr i j L1 L2. destruct i as [|[|i]]; cbn [nth] in *.
  - assert (Bf : length f = 38 * (N.to_nat 56512617)) by (unfold blen, MAX_FILE_SIZE in Lf; lia).
    assert (Lt : length (f ++ v ++ raw) = length f + 96) by (rewrite !app_length, Ev, repeat_length; lia).
    set (q := N.to_nat 56512617) in *. clearbody q.
    unfold blk. apply meta_read_zero.
    + rewrite firstn_length, skipn_length. lia.
    + assert (J : j = q \/ j = S q) by lia. rewrite firstn_firstn. change (min 4 38) with 4.
      rewrite skipn_app, (skipn_all2 f) by lia. cbn [app].
      rewrite skipn_app, firstn_app, skipn_length. subst v. rewrite repeat_length.
      destruct J as [->| ->].
      * replace (38 * q - length f) with 0 by lia. reflexivity.
      * replace (38 * S q - length f) with 38 by lia. reflexivity.
  - rewrite app_length, repeat_length, Lr in L2. assert (j = 0) as -> by lia. unfold blk. apply meta_read_zero.
    + rewrite firstn_length, skipn_length, app_length, repeat_length. lia.
    + reflexivity.
  - destruct i; cbn [nth length] in L2; lia.
Qed.

Definition full_calls : list call := full_base ++ repeat (CTxCommit 0) MANY ++ [CTxCommit 1].
Definition full_answers : list answer := [ATx 0; AOk; ATx 1; AOk; AOk] ++ repeat AOk MANY ++ [AOk].

Lemma full_done : exists w1 w2 f raw r,
  full_at 56512614 w1 /\ run toy toyC w0 full_calls = Ok (full_answers, w2) /\
  step toy toyC w1 (CTxCommit 1) = Ok (AOk, w2) /\ exec toy toyC dkey w2 (committed (fb_spec 56512614) l1) /\
  files w1 = [f] /\ blen f = (MAX_FILE_SIZE - 106)%N /\ length raw = 40 /\ length r = 38 /\
  files w2 = [f ++ znew ++ raw; repeat x00 18 ++ r].
Proof.
  destruct (full_run MANY 0 fb_w full_0) as (w1 & E1 & F1); [rewrite many_N; lia|].
  rewrite many_N in F1. change (0 + 56512614)%N with 56512614%N in F1. pose proof F1 as (X & Q & T & f & F & Lf).
  destruct (full_live1 w1 T) as (h & En).
  destruct (commit_leaf toy toy_len toyC toyC_len _ _ _ 1 h kfoo znew l1 X eq_refl Q) as (w2 & raw & r & E & X' & Q' & Lw & Lr & F').
  { apply full_allowed; lia. } { reflexivity. } { exact En. }
  assert (Lf' : blen f = (MAX_FILE_SIZE - 106)%N) by (rewrite Lf; reflexivity).
  exists w1, w2, f, raw, r. split; [exact F1|]. split.
  { unfold full_calls, full_answers. eapply run_app; [exact fb_run|]. eapply run_app; [exact E1|]. cbn [run]. rewrite E. reflexivity. }
  split; [exact E|]. split; [exact X'|]. split; [exact F|]. split; [exact Lf'|]. split; [exact Lw|]. split; [exact Lr|].
  rewrite F', F. apply vcommit_rolls; auto.
Qed.

Lemma get_indep H C d txs txs' k ro a w : step H C (mkworld (Some d) txs) (CGet k ro) = Ok (a, w) ->
  exists w', step H C (mkworld (Some d) txs') (CGet k ro) = Ok (a, w').
Proof.
  unfold step. cbn [w_db w_txs]. destruct (db_read H C _ d ro) as [[x y]| | | |]; cbn [bind]; try discriminate.
  intros E. apply Ok_inj in E. injection E as <- _. eauto.
Qed.

(** ** C17: closing and reopening loses the latest commit. *)
Theorem C17_reopen_refuted :
  exists w w1 w2 w3,
    run toy toyC w0 full_calls = Ok (full_answers, w) /\
    step toy toyC w (CGet kfoo None) = Ok (AVal znew, w1) /\
    step toy toyC w CReopen = Ok (AOk, w2) /\
    step toy toyC w2 (CGet kfoo None) = Ok (AVal [x01], w3).
Proof.
  destruct full_done as (w1 & w2 & f & raw & r & (X1 & Q1 & T1 & _) & Er & Ec & X2 & F1 & Lf & Lw & Lr & F2).
  destruct (exec_do toy toy_len toyC toyC_len _ _ _ (CGet kfoo None) X2) as (a & w3 & E3 & G3 & _).
  { split; [|reflexivity]. apply fb_free. intros l I. cbn [fb_spec committed s_hist] in I. destruct I as [<-|I]; [now right|left]. apply repeat_spec in I. exact I. }
  cbn [good seen] in G3. change (s_cur (committed (fb_spec 56512614) l1)) with l1 in G3.
  assert (Ga : get_answer l1 kfoo = AVal znew) by (vm_compute; reflexivity). rewrite Ga in G3. subst a.
  assert (Al : aligned (files w1)) by (unfold aligned; rewrite F1; cbn [last]; rewrite Lf; reflexivity).
  destruct (sim_image toy toy_len toyC toyC_len _ _ _ (exec_sim toy toy_len toyC toyC_len _ _ _ X1) eq_refl Al) as (D & top & hist & W & ED & DI & Ad & B1 & B2 & Hh & _).
  rewrite F1 in ED. subst D.
  destruct (image_sim toy toy_len toyC toyC_len dkey [f] top hist W (fb_spec 56512614) [f ++ znew ++ raw; repeat x00 18 ++ r] DI) as (d & Eo & Sm & _); auto.
  { left. split; [exists [], f, (znew ++ raw), [repeat x00 18 ++ r]; split; reflexivity|]. apply full_noforge; auto. }
  destruct (exec_sim toy toy_len toyC toyC_len _ _ _ X2) as (d2 & D2 & V2 & h2 & W2 & Ew2 & K2 & _).
  assert (Es : step toy toyC w2 CReopen = Ok (AOk, mkworld (Some d) (map (fun _ => TDead) (w_txs w2)))).
  { unfold step. rewrite Ew2, K2. unfold files in F2. rewrite Ew2 in F2. rewrite F2, Eo. reflexivity. }
  destruct (step_ok toy toy_len toyC toyC_len dkey (mkworld (Some d) []) _ (CGet kfoo None) Sm) as (a & w4 & E4 & G4 & _).
  { split; [|reflexivity]. apply fb_free. intros l I. left. apply repeat_spec in I. exact I. }
  cbn [good seen] in G4. change (s_cur (crashed (fb_spec 56512614))) with l0 in G4.
  assert (Gb : get_answer l0 kfoo = AVal [x01]) by (vm_compute; reflexivity). rewrite Gb in G4. subst a.
  destruct (get_indep _ _ _ _ (map (fun _ => TDead) (w_txs w2)) _ _ _ _ E4) as (w5 & E5).
  exists w2, w3, (mkworld (Some d) (map (fun _ => TDead) (w_txs w2))), w5. auto.
Qed.
Print Assumptions C17_reopen_refuted.

(** ** C32: where the newest commit record is.  It ends the last file, and either the
    recovery scan finds it there, or the preceding file is within 30 bytes of its limit and
    the record starts within the first 37 bytes of the last file. *)
Theorem C32_record_found_partial :
  forall (H : bytes -> bytes), (forall m, length (H m) = 32) ->
  forall (C : bytes -> bytes -> bytes), (forall k m, length (C k m) = 20) ->
  forall key w sp, exec H C key w sp -> s_failed sp = false -> s_hist sp <> [] ->
  exists b f r m, files w = b ++ [f ++ r] /\ length r = 38 /\ meta_read C key r = Ok (Some m) /\
    (find_meta C key (f ++ r) (length (f ++ r) / 38) = Ok (Some (m, length f)) \/
     (b <> [] /\ (MAX_FILE_SIZE - 30 < blen (last b []))%N /\ length f < 38)).
Proof.
  intros H HL C CL key w sp X Fa Nh. destruct (exec_sim H HL C CL _ _ _ X) as (d & D & V & hist & W & Ew & K & S & F).
  destruct (sm_ok _ _ _ _ _ _ _ _ S Fa) as (Cs & Fs & ->).
  pose proof (sm_tail _ _ _ _ _ _ _ _ S) as T. pose proof (si_chain _ _ _ _ _ (sm_inv _ _ _ _ _ _ _ _ S)) as Ch.
  pose proof (sm_hist _ _ _ _ _ _ _ _ S) as Hh.
  destruct hist as [|[t rp] h]. { inversion Hh as [E|]. congruence. }
  cbn [tail_at chain] in T, Ch. destruct T as (b & f & r & E & Lr & Et & Pl). destruct Ch as (prev & (R1 & R2 & R3 & R4) & Ro & Ch).
  assert (Er : r = meta_write C key (mkmeta prev rp NNull)).
  { rewrite <- K. rewrite Et in R4. cbn [pidx ppos] in R4. rewrite E in R4.
    assert (Q : rdl (b ++ [f ++ r]) (mkptr (N.of_nat (length (b ++ [f ++ r]))) (blen f) 38) = Some r).
    { unfold rdl. cbn [pidx ppos psize]. rewrite app_length. cbn [length].
      destruct (N.eqb_spec (N.of_nat (length b + 1)) 0) as [Y|_]; [lia|].
      replace (N.to_nat (N.of_nat (length b + 1)) - 1) with (length b) by lia.
      rewrite nth_error_app2, Nat.sub_diag by lia. cbn [nth_error N.eqb].
      rewrite blen_app. assert (Br : blen r = 38%N) by (unfold blen; rewrite Lr; reflexivity). rewrite Br.
      destruct (N.ltb_spec (blen f + 38) (blen f + 38)) as [Y|_]; [lia|]. rewrite <- Br, slice_here. reflexivity. }
    congruence. }
  assert (M : meta_read C key r = Ok (Some (mkmeta prev rp NNull))).
  { rewrite Er. apply (meta_roundtrip C CL); cbn [m_meta m_root]; [eapply (chain_ptr H HL C CL); eassumption|eapply root_ok_ptr; eassumption]. }
  exists b, f, r, (mkmeta prev rp NNull). split; [unfold files; rewrite Ew, Fs; exact E|]. split; [exact Lr|]. split; [exact M|].
  destruct Pl as [A|A]; [left|right; exact A].
  assert (Lf : length f = 38 * (length f / 38)).
  { apply Nat.div_exact; [lia|]. unfold blen in A. apply Nat2N.inj. rewrite Nat2N.inj_mod. exact A. }
  generalize dependent (length f / 38). intros q Lf. rewrite app_length, Lr, Lf.
  replace (38 * q + 38) with (Datatypes.S q * 38) by lia. rewrite Nat.div_mul by lia.
  cbn [find_meta]. rewrite skipn_app, skipn_all2 by lia. replace (38 * q - length f) with 0 by lia. cbn [app skipn]. rewrite firstn_all2 by lia. rewrite M. reflexivity.
Qed.

(** Recovery examines the blocks at multiples of 38.  In a reachable database the newest
    record is at none of them. *)
Theorem C32_record_found_refuted :
  exists w f r, run toy toyC w0 full_calls = Ok (full_answers, w) /\
    files w = [f; repeat x00 18 ++ r] /\ length r = 38 /\
    (exists m, meta_read toyC dkey r = Ok (Some m)) /\
    find_meta toyC dkey (repeat x00 18 ++ r) (length (repeat x00 18 ++ r) / 38) = Ok None.
Proof.
  destruct full_done as (w1 & w2 & f & raw & r & _ & Er & Ec & X2 & F1 & Lf & Lw & Lr & F2).
  exists w2, (f ++ znew ++ raw), r. split; [exact Er|]. split; [exact F2|]. split; [exact Lr|].
  destruct (C32_record_found_partial toy toy_len toyC toyC_len _ _ _ X2 eq_refl ltac:(discriminate)) as (b & f' & r' & m & E & Lr' & M & _).
  rewrite F2 in E. split.
  - exists m. assert (r = r') as ->; [|exact M].
    change [f ++ znew ++ raw; repeat x00 18 ++ r] with ([f ++ znew ++ raw] ++ [repeat x00 18 ++ r]) in E.
    apply app_inj_tail in E. destruct E as [_ E]. pose proof (f_equal (@length byte) E) as EL. rewrite !app_length, repeat_length in EL.
    apply (f_equal (skipn 18)) in E. assert (L18 : length f' = 18) by lia. rewrite (skipn_app_exact f' r' 18) in E by (symmetry; exact L18).
    rewrite <- E. reflexivity.
  - rewrite app_length, repeat_length, Lr. change ((18 + 38) / 38) with 1. cbn [find_meta].
    rewrite meta_read_zero; [reflexivity| |reflexivity]. rewrite firstn_length, skipn_length, app_length, repeat_length. lia.
Qed.
Print Assumptions C32_record_found_refuted.
Print Assumptions C32_record_found_partial.
