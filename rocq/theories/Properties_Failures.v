(** * C22: any number of failing commits in one session. *)
From Verif Require Import Failures Properties_Db Properties_Hist Properties_Fail Demo.
From Coq Require Import ZifyBool ZifyNat ZifyN.

(** A process, from [w0] on: system calls fail in any way ([io]: any schedule), calls that do
    not write, and commits, of any transaction, each of which fails. *)
Inductive battered (H : bytes -> bytes) (C : bytes -> bytes -> bytes) (w0 : world) (sp0 : spec) : world -> spec -> Prop :=
| bt_start : battered H C w0 sp0 w0 sp0
| bt_faults w sp io : battered H C w0 sp0 w sp -> battered H C w0 sp0 (faulty w io) sp
| bt_read w sp c a w' :
    battered H C w0 sp0 w sp -> allowed H sp w c -> writes c = false -> step H C w c = Ok (a, w') ->
    battered H C w0 sp0 w' (snext H sp c a)
| bt_fail w sp i e w' :
    battered H C w0 sp0 w sp -> step H C w (CTxCommit i) = Ok (AErr e, w') ->
    battered H C w0 sp0 w' (set_tx sp i None).

Lemma cutof_make b f A : within (b ++ [f]) A -> firstn (length b) A = b -> cutof (b ++ [f]) A.
Proof.
  intros [L P] E. rewrite app_length in L. cbn [length] in L. destruct (P (length b)) as (x & Ex). rewrite nth_middle in Ex.
  exists b, f, x, (skipn (S (length b)) A). split; [reflexivity|].
  rewrite <- (firstn_skipn (length b) A) at 1. rewrite E. f_equal. rewrite <- Ex.
  clear - L. revert A L. induction b as [|u b IH]; intros [|a A] L; cbn [length skipn nth] in *; try lia; [reflexivity|]. apply IH. lia.
Qed.

Section F.
Variable H : bytes -> bytes.
Hypothesis HL : forall m, length (H m) = 32.
Variable C : bytes -> bytes -> bytes.
Hypothesis CL : forall k m, length (C k m) = 20.

Definition holding (key : bytes) (w0 : world) (sp0 : spec) (w : world) (sp : spec) : Prop :=
  exists d D hist, w_db w = Some d /\ st_key (d_store d) = key /\ rdb H C d sp D hist /\ Forall2 (txsim H (d_store d)) (w_txs w) (s_txs sp) /\
    fit (d_store d) /\ (N.of_nat (length (files w0)) <= st_index (d_store d))%N /\ within (files w0) (files w) /\
    firstn (length (files w0) - 1) (files w) = firstn (length (files w0) - 1) (files w0) /\ s_hist sp = s_hist sp0.

Lemma battered_ok key w0 sp0 w sp : exec H C key w0 sp0 -> s_failed sp0 = false -> battered H C w0 sp0 w sp -> holding key w0 sp0 w sp.
Proof.
  intros X Fa B. induction B as [|w sp io B IH|w sp c a w' B IH A Wc E|w sp i e w' B IH E].
  - pose proof (exec_sim H HL C CL _ _ _ X) as (d & D & V & hist & W & Ew & K & S & F).
    destruct (sm_ok _ _ _ _ _ _ _ _ S Fa) as (Cs & Fs & _). exists d, D, hist. split; [exact Ew|]. split; [exact K|].
    split; [eapply simdb_rdb, S|]. split; [exact F|]. destruct Cs as [C1 C2 C3 C4 C5]. unfold files. rewrite Ew. split.
    { split; rewrite C2; [destruct (st_fs (d_store d)); [congruence|cbn [length]; lia]|].
      rewrite C3. destruct (exists_last C1) as (b & f & Eb). rewrite Eb, last_last, app_length. cbn [length]. unfold fget.
      replace (N.to_nat (N.of_nat (length b + 1)) - 1) with (length b) by lia. rewrite nth_middle. lia. }
    split; [lia|]. split; [apply within_refl|]. auto.
  - destruct IH as (d & D & hist & Ew & K & R & F & Ft & I & Wi & Fi & Hh).
    exists (with_store d (set_io (d_store d) io)), D, hist. unfold faulty, files. rewrite Ew. cbn [w_db w_txs with_store d_store set_io st_key st_fs st_index].
    unfold files in Wi, Fi. rewrite Ew in Wi, Fi. split; [reflexivity|]. split; [exact K|].
    assert (M : rmono (d_store d) (set_io (d_store d) io)) by exact (rmono_refl (d_store d)).
    split. { destruct R as [R1 R2 R3 R4 R5]. constructor; auto. cbn [with_store d_store]. eapply (sinv_keep H C); [exact R1|repeat split|exact M|apply R1]. }
    split; [eapply (txs_mono H); [exact M|exact F]|]. split; [exact Ft|]. auto.
  - destruct IH as (d & D & hist & Ew & K & R & F & Ft & I & Wi & Fi & Hh).
    destruct (rstep_ok H HL C CL w sp d D hist c Ew R F A Wc) as (a' & w1 & d0 & d' & Ew0 & Ew' & E' & G & R' & F' & Sd & X1 & X2 & X3).
    rewrite E in E'. apply Ok_inj in E'. injection E' as <- <-. rewrite Ew in Ew0. injection Ew0 as <-.
    pose proof Sd as (S1 & _ & S3 & _ & _ & S6 & S7 & _).
    exists d', D, hist. split; [exact Ew'|]. split; [congruence|]. split; [exact R'|]. split; [exact F'|].
    unfold files in *. rewrite Ew in Wi, Fi. rewrite Ew'. split; [unfold fit in *; rewrite S1, S6, S7; exact Ft|]. rewrite S1, S6. rewrite X1. auto.
  - destruct IH as (d & D & hist & Ew & K & R & F & Ft & I & Wi & Fi & Hh). revert E. unfold step. rewrite Ew.
    destruct (live w i) as [n| | | |]; cbn [bind]; try discriminate. unfold tx_commit.
    destruct (tree_commit H C (d_store d) n) as [[o s']| | | |] eqn:Et; cbn [bind]; try discriminate.
    destruct o as [root|]. { cbn [bind]. intros E. discriminate E. } cbn [bind]. intros E. apply Ok_inj in E. injection E as _ <-.
    destruct (commit_harm H C _ _ _ Ft Et) as (Ft' & Kp & M & Cap & Ti & Tw & Tf). pose proof Kp as (K1 & K2 & K3 & K4).
    exists (with_store d s'), D, hist. unfold files in *. rewrite Ew in Wi, Fi. cbn [put_tx w_db w_txs with_store d_store]. split; [reflexivity|]. split; [congruence|].
    split. { destruct R as [R1 R2 R3 R4 R5]. constructor; auto. cbn [with_store d_store]. eapply (sinv_keep H C); [exact R1|exact Kp|exact M|]. apply Cap, R1. }
    split. { cbn [set_tx s_txs]. apply txs_upd; [eapply (txs_mono H); [exact M|exact F]|exact Logic.I]. }
    split; [exact Ft'|]. split; [lia|]. split; [eapply within_trans; eassumption|]. split; [|exact Hh]. rewrite <- Fi.
    apply (f_equal (firstn (length (match w_db w0 with Some d1 => st_fs (d_store d1) | None => [] end) - 1))) in Tf. rewrite !firstn_firstn in Tf.
    match type of Tf with firstn (Nat.min ?a ?b) _ = _ => replace (Nat.min a b) with a in Tf by lia end. exact Tf.
Qed.

Lemma holding_image key w0 sp0 w sp : files w0 <> [] -> holding key w0 sp0 w sp -> cutof (files w0) (files w).
Proof.
  intros N (d & D & hist & _ & _ & _ & _ & _ & _ & Wi & Fi & _). destruct (exists_last N) as (b & f & Eb). rewrite Eb in *.
  rewrite app_length in Fi. cbn [length] in Fi. replace (length b + 1 - 1) with (length b) in Fi by lia.
  rewrite firstn_app, Nat.sub_diag, firstn_all, firstn_O, app_nil_r in Fi. apply cutof_make; assumption.
Qed.
End F.

(** ** C22: after any number of failed commits every call that does not write answers as if none
    of them had been attempted; the files keep everything they had. *)
Theorem C22_many_failures :
  forall (H : bytes -> bytes), (forall m, length (H m) = 32) ->
  forall (C : bytes -> bytes -> bytes), (forall k m, length (C k m) = 20) ->
  forall key w0 sp0 w sp, exec H C key w0 sp0 -> s_failed sp0 = false -> battered H C w0 sp0 w sp ->
  s_hist sp = s_hist sp0 /\ within (files w0) (files w) /\
  forall c, allowed H sp w c -> writes c = false ->
    exists a w', step H C w c = Ok (a, w') /\ good H sp w c a /\ files w' = files w /\ battered H C w0 sp0 w' (snext H sp c a).
Proof.
  intros H HL C CL key w0 sp0 w sp X Fa B. destruct (battered_ok H HL C CL _ _ _ _ _ X Fa B) as (d & D & hist & Ew & K & R & F & _ & _ & Wi & _ & Hh).
  split; [exact Hh|]. split; [exact Wi|]. intros c A Wc.
  destruct (rstep_ok H HL C CL w sp d D hist c Ew R F A Wc) as (a & w1 & d0 & d' & Ew0 & Ew' & E' & G & _ & _ & Sd & _).
  rewrite Ew in Ew0. injection Ew0 as <-. exists a, w1. split; [exact E'|]. split; [exact G|].
  split; [unfold files; rewrite Ew, Ew'; apply Sd|]. eapply bt_read; eassumption.
Qed.

(** Opening the database after that (also: dying while opening, any number of times), if nothing the
    failed commits have left behind passes for a commit record: it is as at [w0], and what
    the failed commits have written is cut off. *)
Theorem C22_many_failures_reopen :
  forall (H : bytes -> bytes), (forall m, length (H m) = 32) ->
  forall (C : bytes -> bytes -> bytes), (forall k m, length (C k m) = 20) ->
  forall key w0 sp0 w sp B, exec H C key w0 sp0 -> s_failed sp0 = false -> aligned (files w0) -> battered H C w0 sp0 w sp ->
  (forall i j, length (nth i (files w0) []) <= 38 * j -> 38 * j + 38 <= length (nth i (files w) []) ->
     meta_read C key (firstn 38 (skipn (38 * j) (nth i (files w) []))) = Ok None) ->
  reopened H C key (files w) B ->
  exists d, db_open H C key B [] = Ok (Some d) /\ st_fs (d_store d) = files w0 /\
    forall c, allowed H (crashed sp0) (mkworld (Some d) []) c ->
      exists a w', step H C (mkworld (Some d) []) c = Ok (a, w') /\ good H (crashed sp0) (mkworld (Some d) []) c a.
Proof.
  intros H HL C CL key w0 sp0 w sp B X Fa Al Bt NF Ro. pose proof (battered_ok H HL C CL _ _ _ _ _ X Fa Bt) as Ho.
  pose proof (exec_sim H HL C CL _ _ _ X) as S. destruct (sim_image H HL C CL key w0 sp0 S Fa Al) as (D & top & hist & W & EF & DI & A1 & A2 & A3 & A4 & A5).
  assert (Ne : files w0 <> []) by (rewrite EF; apply (cutof_nonnil _ _ A5)).
  pose proof (holding_image H HL C CL _ _ _ _ _ Ne Ho) as Cu. rewrite EF in Cu, NF.
  assert (IM : image C key D hist (files w)) by (left; split; [exact Cu|exact NF]).
  pose proof (reopened_image H HL C CL key D top hist _ B DI IM Ro) as IB.
  destruct (image_sim H HL C CL key D top hist W sp0 B DI IB A1 A2 A3 A4) as (d & Eo & Sm & Ef).
  exists d. split; [exact Eo|]. split; [rewrite EF; exact Ef|]. intros c A.
  destruct (step_ok H HL C CL key _ _ c Sm A) as (a & w' & E & G & _). eauto.
Qed.

(** [demo]: the commit of transaction 2 fails after 200 of its bytes; a new transaction gets a key;
    its commit fails after 100 bytes; the values are there still, and every whole block of the
    torn rest of the file is no commit record. *)
Definition fail_a : world := st_w (faulty (pw demo) [WShort 200]) (CTxCommit 2).
Definition fail_b : world := st_w fail_a (CTxCreate None).
Definition fail_c : world := st_w fail_b (CTxInsert 3 kbaz v1).
Definition fail_d : world := st_w (faulty fail_c [WShort 100]) (CTxCommit 3).
Definition fail_sb : spec := snext toy (set_tx (ps demo) 2 None) (CTxCreate None) (st_a fail_a (CTxCreate None)).
Definition fail_sc : spec := snext toy fail_sb (CTxInsert 3 kbaz v1) (st_a fail_b (CTxInsert 3 kbaz v1)).
Definition none_b (x : res (option meta)) : bool := match x with Ok None => true | _ => false end.
Definition no_record_b (a b : bytes) : bool :=
  forallb (fun j => (38 * j <? length a) || (length b <? 38 * j + 38) || none_b (meta_read toyC dkey (firstn 38 (skipn (38 * j) b)))) (seq 0 (length b / 38)).
Lemma no_record_ok a b : no_record_b a b = true -> forall j, length a <= 38 * j -> 38 * j + 38 <= length b -> meta_read toyC dkey (firstn 38 (skipn (38 * j) b)) = Ok None.
Proof.
  unfold no_record_b. rewrite forallb_forall. intros F j L1 L2. assert (I : List.In j (seq 0 (length b / 38))).
  { apply in_seq. split; [lia|]. apply Nat.lt_le_trans with (S j); [lia|]. apply Nat.div_le_lower_bound; lia. }
  specialize (F j I). rewrite !orb_true_iff in F. destruct F as [[F|F]|F].
  - apply Nat.ltb_lt in F. lia.
  - apply Nat.ltb_lt in F. lia.
  - unfold none_b in F. destruct (meta_read toyC dkey (firstn 38 (skipn (38 * j) b))) as [[m|]| | | |]; try discriminate F. reflexivity.
Qed.
Lemma no_record_all fs gs : length fs = length gs -> forallb (fun x => no_record_b (fst x) (snd x)) (combine fs gs) = true ->
  forall i j, length (nth i fs []) <= 38 * j -> 38 * j + 38 <= length (nth i gs []) -> meta_read toyC dkey (firstn 38 (skipn (38 * j) (nth i gs []))) = Ok None.
Proof.
  intros L F i j A B. destruct (Nat.lt_ge_cases i (length gs)) as [X|X].
  - rewrite forallb_forall in F. assert (I : List.In (nth i fs [], nth i gs []) (combine fs gs)).
    { rewrite <- combine_nth by exact L. apply nth_In. rewrite combine_length. lia. }
    exact (no_record_ok _ _ (F _ I) j A B).
  - rewrite nth_overflow in B by exact X. cbn [length] in B. lia.
Qed.
Lemma fail_battered : st_b (faulty (pw demo) [WShort 200]) (CTxCommit 2) = true -> st_a (faulty (pw demo) [WShort 200]) (CTxCommit 2) = AErr EBADWRITE ->
  allowed_b (set_tx (ps demo) 2 None) fail_a (CTxCreate None) = true -> st_b fail_a (CTxCreate None) = true ->
  allowed_b fail_sb fail_b (CTxInsert 3 kbaz v1) = true -> st_b fail_b (CTxInsert 3 kbaz v1) = true ->
  st_b (faulty fail_c [WShort 100]) (CTxCommit 3) = true -> st_a (faulty fail_c [WShort 100]) (CTxCommit 3) = AErr EBADWRITE ->
  battered toy toyC (pw demo) (ps demo) fail_d (set_tx fail_sc 3 None).
Proof.
  intros A1 A2 B1 B2 C1 C2 D1 D2. eapply (bt_fail _ _ _ _ (faulty fail_c [WShort 100])); [|exact (st_ok _ _ _ D1 D2)]. apply bt_faults.
  apply (bt_read _ _ _ _ fail_b fail_sb (CTxInsert 3 kbaz v1) (st_a fail_b (CTxInsert 3 kbaz v1)) _); [|apply allowed_b_ok, C1|reflexivity|exact (st_ok _ _ _ C2 eq_refl)].
  apply (bt_read _ _ _ _ fail_a (set_tx (ps demo) 2 None) (CTxCreate None) (st_a fail_a (CTxCreate None)) _); [|apply allowed_b_ok, B1|reflexivity|exact (st_ok _ _ _ B2 eq_refl)].
  eapply (bt_fail _ _ _ _ (faulty (pw demo) [WShort 200])); [|exact (st_ok _ _ _ A1 A2)]. apply bt_faults, bt_start.
Qed.
Example C22_many_nonvacuous :
  exec toy toyC dkey (pw demo) (ps demo) /\ s_failed (ps demo) = false /\ aligned (files (pw demo)) /\
  battered toy toyC (pw demo) (ps demo) fail_d (set_tx fail_sc 3 None) /\
  map (@length byte) (files (pw demo)) = [304] /\ map (@length byte) (files fail_a) = [504] /\ map (@length byte) (files fail_d) = [604] /\
  (forall i j, length (nth i (files (pw demo)) []) <= 38 * j -> 38 * j + 38 <= length (nth i (files fail_d) []) ->
     meta_read toyC dkey (firstn 38 (skipn (38 * j) (nth i (files fail_d) []))) = Ok None) /\
  allowed toy (set_tx fail_sc 3 None) fail_d (CGet kfoo None) /\ st_a fail_d (CGet kfoo None) = AVal foo_value /\ st_a fail_d (CGet kbaz None) = AErr ENOTFOUND.
Proof.
  split; [exact exec_demo|]. split; [vm_compute; reflexivity|]. split; [vm_compute; reflexivity|]. split; [apply fail_battered; vm_compute; reflexivity|].
  split; [vm_compute; reflexivity|]. split; [vm_compute; reflexivity|]. split; [vm_compute; reflexivity|].
  split. { apply no_record_all; vm_compute; reflexivity. }
  split; [apply allowed_b_ok; vm_compute; reflexivity|]. split; vm_compute; reflexivity.
Qed.
Print Assumptions C22_many_failures_reopen.
