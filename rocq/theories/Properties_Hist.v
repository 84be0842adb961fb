(** * Properties of commits, history, snapshots and failures: C16-C25, C31, C38, C44.

    Notation as in Properties_Db.v. *)
From Verif Require Import Demo.
From Verif Require Export Properties_Db.
From Coq Require Import ZifyBool ZifyNat ZifyN Permutation Sorted.

Section P.
Variable H : bytes -> bytes.
Hypothesis H_len : forall m, length (H m) = 32.
Variable C : bytes -> bytes -> bytes.
Hypothesis C_len : forall k m, length (C k m) = 20.

Lemma ask_db key w sp ro l k : exec H C key w sp -> collision_free H sp -> seen H sp ro = Some l -> length k = 32 ->
  exists w1 w2, step H C w (CGet k ro) = Ok (found (lookup l k), w1) /\ step H C w (CHas k ro) = Ok (present (lookup l k), w2).
Proof.
  intros X CF E L.
  assert (A1 : allowed H sp w (CGet k ro)) by (split; [exact CF|exact L]).
  assert (A2 : allowed H sp w (CHas k ro)) by (split; [exact CF|exact L]).
  destruct (exec_do H H_len C C_len _ _ _ _ X A1) as (a1 & w1 & E1 & G1 & _). destruct (exec_do H H_len C C_len _ _ _ _ X A2) as (a2 & w2 & E2 & G2 & _).
  cbn [good] in G1, G2. rewrite E in G1, G2. subst. exists w1, w2. split; [exact E1|exact E2].
Qed.
Lemma ask_top key w sp : exec H C key w sp -> collision_free H sp -> step H C w CRoot = Ok (AHash (ref_root H (s_cur sp)), w).
Proof.
  intros X CF. assert (A : allowed H sp w CRoot) by (split; [exact CF|exact I]).
  destruct (exec_do H H_len C C_len _ _ _ _ X A) as (a & w1 & E & G & _). cbn [good] in G. subst a. rewrite E. f_equal. f_equal.
  unfold step in E. destruct (w_db w) as [d|]; [|discriminate]. apply Ok_inj in E. congruence.
Qed.
(** A transaction created now. *)
Lemma create key w sp ro l : exec H C key w sp -> collision_free H sp -> seen H sp ro = Some l ->
  exists w' j, step H C w (CTxCreate ro) = Ok (ATx j, w') /\ exec H C key w' (add_tx sp (Some l)) /\ txat (add_tx sp (Some l)) j = Some l.
Proof.
  intros X CF E. assert (A : allowed H sp w (CTxCreate ro)) by (split; [exact CF|exact I]).
  destruct (exec_do H H_len C C_len _ _ _ _ X A) as (a & w1 & E1 & G & X1 & _). cbn [good snext] in G, X1. rewrite E in G, X1. subst a.
  exists w1, (length (s_txs sp)). split; [exact E1|]. split; [exact X1|]. unfold txat, add_tx. cbn [s_txs]. rewrite app_nth2, Nat.sub_diag by lia. reflexivity.
Qed.
Lemma create_not key w sp h : exec H C key w sp -> collision_free H sp -> named H (s_hist sp) h = None ->
  exists w', step H C w (CTxCreate (Some h)) = Ok (AErr ENOTFOUND, w').
Proof.
  intros X CF E. assert (A : allowed H sp w (CTxCreate (Some h))) by (split; [exact CF|exact I]).
  destruct (exec_do H H_len C C_len _ _ _ _ X A) as (a & w1 & E1 & G & X1 & _). cbn [good seen] in G. rewrite E in G. subst a. eauto.
Qed.
(** A committed root names the contents committed under it. *)
Lemma named_hist key w sp l : exec H C key w sp -> collision_free H sp -> In l (s_hist sp) ->
  exists l', named H (s_hist sp) (ref_root H l) = Some l' /\ (forall k, lookup l' k = lookup l k) /\ ref_root H l' = ref_root H l.
Proof.
  intros X [NC NZ] I0. destruct (exec_hist H H_len C C_len _ _ _ _ X I0) as (t & St & _). unfold named.
  assert (Inc : forall l0, In l0 (s_hist sp) -> forall m, In m (ref_msgs H l0) -> In m (flat_map (ref_msgs H) (s_hist sp))).
  { intros l0 Il m Im. apply in_flat_map. eauto. }
  destruct (bytes_eqb_spec (ref_root H l) (repeat x00 32)) as [E|N].
  - exists []. split; [reflexivity|]. destruct (stands_root H H_len _ _ St) as [R M].
    assert (t = PNull) as ->.
    { destruct (proj1 (proj2 St)) as [->|W]; [reflexivity|]. exfalso. rewrite R in E. revert E. eapply (thash_nonzero H _ _ W).
      intros a Ia. apply NZ, (Inc l I0). rewrite M. exact Ia. }
    split; [|rewrite E; reflexivity]. intros k. apply (stands_same_map _ _ _ stands_nil St).
  - destruct (find _ (s_hist sp)) as [l'|] eqn:Ef.
    + exists l'. split; [reflexivity|]. apply find_some in Ef. destruct Ef as [I1 E1]. destruct (bytes_eqb_spec (ref_root H l') (ref_root H l)) as [E1'|]; [|discriminate].
      destruct (exec_hist H H_len C C_len _ _ _ _ X I1) as (t1 & S1 & _).
      destruct (stands_root H H_len _ _ St) as [R M]. destruct (stands_root H H_len _ _ S1) as [R1 M1]. split; [|exact E1'].
      assert (t1 = t) as ->.
      { apply (thash_binds_t H H_len t1 t (proj1 (proj2 S1)) (proj1 (proj2 St))); [| |congruence].
        - rewrite <- M1, <- M. intros a b Ia Ib. apply NC; [apply in_app_or in Ia|apply in_app_or in Ib]; [destruct Ia|destruct Ib]; eauto.
        - rewrite <- M1, <- M. intros a Ia. apply NZ. apply in_app_or in Ia. destruct Ia; eauto. }
      intros k. apply (stands_same_map _ _ _ S1 St).
    + exfalso. apply (find_none _ _ Ef) in I0. rewrite bytes_eqb_refl in I0. discriminate.
Qed.
End P.

(** ** C16: a successful commit is the new state of the database, and leaves the
    transaction's own view alone; without injected failures every commit succeeds. *)
Theorem C16_commit_becomes_state :
  forall (H : bytes -> bytes), (forall m, length (H m) = 32) ->
  forall (C : bytes -> bytes -> bytes), (forall k m, length (C k m) = 20) ->
  forall key w sp i l a w',
  exec H C key w sp -> txat sp i = Some l -> can_commit sp l -> collision_free H (committed sp l) ->
  step H C w (CTxCommit i) = Ok (a, w') ->
  (quiet w -> a = AOk) /\
  (a = AOk ->
   exec H C key w' (committed sp l) /\
   step H C w' CRoot = Ok (AHash (ref_root H l), w') /\
   (exists w1, step H C w' (CTxRoot i) = Ok (AHash (ref_root H l), w1)) /\
   (forall k, length k = 32 ->
      (exists w1, step H C w' (CGet k None) = Ok (found (lookup l k), w1)) /\
      step H C w (CTxGet i k) = Ok (found (lookup l k), w) /\
      step H C w' (CTxGet i k) = Ok (found (lookup l k), w') /\
      exists raw w1 w2, step H C w (CTxProve i k) = Ok (AProof raw, w1) /\ step H C w' (CTxProve i k) = Ok (AProof raw, w2)) /\
   exists w1 j, step H C w' (CTxCreate None) = Ok (ATx j, w1) /\
      forall k, length k = 32 -> step H C w1 (CTxGet j k) = Ok (found (lookup l k), w1)).
Proof.
  intros H HL C CL key w sp i l a w' X E OK CF E1.
  assert (CF0 : collision_free H sp).
  { destruct CF as [NC NZ]. cbn [s_hist committed flat_map] in NC, NZ. split.
    - intros x y Ix Iy. apply NC; apply in_or_app; auto.
    - intros x Ix. apply NZ, in_or_app; auto. }
  assert (A : allowed H sp w (CTxCommit i)) by (split; [exact CF0|exists l; auto]).
  destruct (exec_good H HL C CL _ _ _ _ _ _ X A E1) as [G X']. cbn [good snext commits] in G, X'. rewrite E in X'.
  split; [intros Q; destruct G as [G|[_ G]]; [exact G|contradiction]|]. intros ->.
  assert (E' : txat (committed sp l) i = Some l) by exact E.
  split; [exact X'|]. split; [apply (ask_top H HL C CL _ _ _ X' CF)|].
  split; [destruct (ask_root H HL C CL _ _ _ _ _ X' CF E') as (w1 & R & _); eauto|]. split.
  - intros k Lk. split; [destruct (ask_db H HL C CL _ _ _ None l k X' CF eq_refl Lk) as (w1 & _ & R & _); eauto|].
    split; [apply (ask H HL C CL _ _ _ _ _ k X E Lk)|]. split; [apply (ask H HL C CL _ _ _ _ _ k X' E' Lk)|].
    destruct (prove_bytes H HL C CL _ _ _ i k l X CF0 E Lk) as (r1 & z1 & Z1 & B1 & _).
    destruct (prove_bytes H HL C CL _ _ _ i k l X' CF E' Lk) as (r2 & z2 & Z2 & B2 & _).
    destruct (exec_stands H HL C CL _ _ _ _ _ X E) as (t & St & _). pose proof (proof_bytes_fun H l k r1 r2 t St B1 B2). subst r2. eauto.
  - destruct (create H HL C CL _ _ _ None l X' CF eq_refl) as (w1 & j & R & X1 & T1). exists w1, j. split; [exact R|].
    intros k Lk. apply (ask H HL C CL _ _ _ _ _ k X1 T1 Lk).
Qed.
Example C16_nonvacuous : exec toy toyC dkey (pw demo) (ps demo) /\ quiet (pw demo) /\
  (exists l, txat (ps demo) 2 = Some l /\ can_commit (ps demo) l /\ collision_free toy (committed (ps demo) l)) /\
  exists w', step toy toyC (pw demo) (CTxCommit 2) = Ok (AOk, w').
Proof.
  split; [exact exec_demo|]. split; [apply quiet_b_ok; vm_compute; reflexivity|]. split.
  - eexists. split; [unfold txat; rewrite (proj1 demo_txs); reflexivity|].
    split; [apply can_commit_b_ok; vm_compute; reflexivity|apply collision_free_b_ok; vm_compute; reflexivity].
  - eexists. vm_compute. reflexivity.
Qed.

(** ** C17: commits survive closing and reopening, provided the last data file has whole
    38-byte blocks; this always holds while fewer than 2147479522 bytes have been written.
    (Without the condition it is false: C17_reopen_refuted, Properties_Limits.v.) *)
Theorem C17_reopen_partial :
  forall (H : bytes -> bytes), (forall m, length (H m) = 32) ->
  forall (C : bytes -> bytes -> bytes), (forall k m, length (C k m) = 20) ->
  forall key w sp,
  exec H C key w sp -> collision_free H sp -> s_failed sp = false ->
  aligned (files w) \/ (s_bytes sp <= 2147479522)%N ->
  let l := hd [] (s_hist sp) in
  exists w', step H C w CReopen = Ok (AOk, w') /\
    (* the session goes on with the same history *)
    exec H C key w' (snext H sp CReopen AOk) /\
    step H C w' CRoot = Ok (AHash (ref_root H l), w') /\
    forall k, length k = 32 -> exists w1, step H C w' (CGet k None) = Ok (found (lookup l k), w1).
Proof.
  intros H HL C CL key w sp X CF F AL l.
  assert (Al : aligned (files w)). { destruct AL as [AL|AL]; [exact AL|]. exact (exec_small H HL C CL _ _ _ X F AL). }
  assert (A : allowed H sp w CReopen) by (split; [exact CF|split; [exact F|exact Al]]).
  destruct (exec_do H HL C CL _ _ _ _ X A) as (a & w' & E & G & X' & _). cbn [good] in G. subst a.
  exists w'. split; [exact E|]. split; [exact X'|]. assert (CF' : collision_free H (snext H sp CReopen AOk)) by exact CF.
  split; [apply (ask_top H HL C CL _ _ _ X' CF')|]. intros k Lk.
  destruct (ask_db H HL C CL _ _ _ None l k X' CF' eq_refl Lk) as (w1 & _ & R & _). eauto.
Qed.
Example C17_nonvacuous : exec toy toyC dkey (pw demo) (ps demo) /\ collision_free toy (ps demo) /\ s_failed (ps demo) = false /\
  (s_bytes (ps demo) <= 2147479522)%N /\ length (hd [] (s_hist (ps demo))) = 2.
Proof. split; [exact exec_demo|]. split; [exact demo_free|]. vm_compute. repeat split; auto; discriminate. Qed.

(** ** C18: values of up to 255 bytes are returned unchanged after a commit (and hence, with
    C17 and C20, after reopening and from old roots), by get and by proofs. *)
Theorem C18_values_faithful_partial :
  forall (H : bytes -> bytes), (forall m, length (H m) = 32) ->
  forall (C : bytes -> bytes -> bytes), (forall k m, length (C k m) = 20) ->
  forall key w sp k v, let l := put (s_cur sp) k v in
  exec H C key w sp -> length k = 32 -> length v <= 255 -> Forall (fun e => length (snd e) <= 255) (s_cur sp) ->
  (s_bytes sp + weight l <= LIMIT)%N -> quiet w -> collision_free H (committed sp l) ->
  exists w' w1 raw w2, step H C w (CInsert k v) = Ok (AOk, w') /\ exec H C key w' (committed sp l) /\
    step H C w' (CGet k None) = Ok (AVal v, w1) /\
    step H C w' (CProve k None) = Ok (AProof raw, w2) /\
    urkel_verify H raw k (Some (ref_root H l)) = Ok (mkverdict None true v).
Proof.
  intros H HL C CL key w sp k v l X Lk Lv Fv Wt Q CF.
  assert (CF0 : collision_free H sp).
  { destruct CF as [NC NZ]. cbn [s_hist committed flat_map] in NC, NZ. split.
    - intros x y Ix Iy. apply NC; apply in_or_app; auto.
    - intros x Ix. apply NZ, in_or_app; auto. }
  assert (Ec : commits sp (CInsert k v) = Some l). { cbn [commits]. destruct (Nat.ltb_spec 1023 (length v)); [lia|reflexivity]. }
  assert (A : allowed H sp w (CInsert k v)).
  { split; [exact CF0|]. split; [exact Lk|]. intros l' El. rewrite Ec in El. injection El as <-. split; [|exact Q]. split; [|exact Wt].
    constructor; [exact Lv|]. apply Forall_forall. intros x I0. apply in_del in I0. rewrite Forall_forall in Fv. apply Fv, I0. }
  destruct (exec_do H HL C CL _ _ _ _ X A) as (a & w' & E & G & X' & _). cbn [snext] in X'. rewrite Ec in X'. cbn [good] in G.
  destruct (Nat.ltb_spec 1023 (length v)); [lia|]. subst a.
  assert (El : lookup l k = Some v). { unfold l. rewrite lookup_put. destruct (bytes_eq_dec k k); [reflexivity|contradiction]. }
  destruct (ask_db H HL C CL _ _ _ None l k X' CF eq_refl Lk) as (w1 & _ & R & _). rewrite El in R.
  destruct (C07_urkel_prove_verifies H HL C CL key w' _ None l k X' CF eq_refl Lk) as (raw & w2 & R2 & _ & V). rewrite El in V.
  exists w', w1, raw, w2. auto.
Qed.
Example C18_nonvacuous : exec toy toyC dkey (pw demo) (ps demo) /\ quiet (pw demo) /\ length (repeat x03 255) <= 255 /\
  Forall (fun e => length (snd e) <= 255) (s_cur (ps demo)) /\
  (s_bytes (ps demo) + weight (put (s_cur (ps demo)) kbaz (repeat x03 255)) <= LIMIT)%N /\
  collision_free toy (committed (ps demo) (put (s_cur (ps demo)) kbaz (repeat x03 255))).
Proof.
  split; [exact exec_demo|]. split; [apply quiet_b_ok; vm_compute; reflexivity|]. split; [vm_compute; lia|].
  split; [vm_compute; repeat constructor|]. split; [vm_compute; discriminate|]. apply collision_free_b_ok. vm_compute. reflexivity.
Qed.
(** Longer values are accepted but come back cut to their length modulo 256. *)
Definition v300 : bytes := repeat x09 300.
Theorem C18_values_refuted :
  exists w sp k v w1 w2, exec toy toyC dkey w sp /\ quiet w /\ length v <= 1023 /\ length k = 32 /\
    step toy toyC w (CInsert k v) = Ok (AOk, w1) /\
    step toy toyC w1 (CGet k None) = Ok (AVal (firstn 44 v), w2) /\ v <> firstn 44 v.
Proof.
  exists w0, spec0, kfoo, v300. eexists _, _. split; [exact exec_w0|]. split; [apply quiet_b_ok; vm_compute; reflexivity|].
  split; [vm_compute; lia|]. split; [reflexivity|]. split; [vm_compute; reflexivity|]. split; [vm_compute; reflexivity|].
  vm_compute. discriminate.
Qed.

(** ** C19: if the process dies at any byte of any write of any call, and again any number of
    times while reopening, opening succeeds and shows the state before the call or the state
    after it, with the whole history (the rest of the theory then applies: [exec]).
    Conditions: no write had failed before, the data files have whole 38-byte blocks (see C32), and no
    block written by the call passes for a commit record by accident ([no_forgery]; the
    record's checksum is keyed). *)
Theorem C19_crash_atomic_partial :
  forall (H : bytes -> bytes), (forall m, length (H m) = 32) ->
  forall (C : bytes -> bytes -> bytes), (forall k m, length (C k m) = 20) ->
  forall key w sp c a w1 ops A B,
  exec H C key w sp -> allowed H sp w c -> collision_free H (snext H sp c a) -> quiet w -> s_failed sp = false ->
  step H C w c = Ok (a, w1) -> log w1 = log w ++ ops -> c <> CReopen ->
  aligned (files w) -> aligned (files w1) -> no_forgery C key (files w) (files w1) [files w1] ->
  crash (files w) ops A -> reopened H C key A B ->
  exists d sp', db_open H C key B [] = Ok (Some d) /\ (sp' = sp \/ sp' = snext H sp c a) /\
    let w2 := mkworld (Some d) [] in let l := hd [] (s_hist sp') in
    exec H C key w2 (crashed sp') /\
    step H C w2 CRoot = Ok (AHash (ref_root H l), w2) /\
    forall k, length k = 32 -> exists w3, step H C w2 (CGet k None) = Ok (found (lookup l k), w3).
Proof.
  intros H HL C CL key w sp c a w1 ops A B X OK CF1 Q F E L Nc Al Al1 NF Cr Ro.
  destruct (crash_ok H HL C CL key w sp c a w1 ops A B (exec_sim H HL C CL _ _ _ X) OK Q F E L Nc Al Al1 NF Cr Ro) as (d & Eo & _).
  pose proof (ex_crash H HL C CL key w sp c a w1 ops A B d X OK Q F E L Nc Al Al1 NF Cr Ro Eo) as X2.
  exists d, (if fs_eq_dec A (files w1) then snext H sp c a else sp).
  assert (CF2 : collision_free H (crashed (if fs_eq_dec A (files w1) then snext H sp c a else sp))).
  { destruct (fs_eq_dec A (files w1)); [exact CF1|exact (proj1 OK)]. }
  split; [exact Eo|]. split; [destruct (fs_eq_dec A (files w1)); auto|]. split; [exact X2|].
  split; [apply (ask_top H HL C CL _ _ _ X2 CF2)|]. intros k Lk.
  destruct (ask_db H HL C CL _ _ _ None _ k X2 CF2 eq_refl Lk) as (w3 & _ & R & _). eauto.
Qed.
(** A commit torn in the middle of its last write. *)
Definition no_forgery_b (key : bytes) (D V : list bytes) : bool :=
  forallb (fun i => forallb (fun j =>
    if (length (nth i D []) <=? 38 * j) && (38 * j + 38 <=? length (nth i V [])) then
      match meta_read toyC key (firstn 38 (skipn (38 * j) (nth i V []))) with
      | Ok (Some _) => (S i =? length V) && (38 * j + 38 =? length (nth i V []))
      | _ => true
      end
    else true) (seq 0 (length (nth i V []) / 38))) (seq 0 (length V)).
Lemma no_forgery_b_ok key D V : no_forgery_b key D V = true -> no_forgery toyC key D V [V].
Proof.
  intros B i j m L1 L2 E. unfold no_forgery_b in B. rewrite forallb_forall in B.
  assert (Li : i < length V). { destruct (Nat.lt_ge_cases i (length V)) as [X|X]; [exact X|]. rewrite (nth_overflow V) in L2 by exact X. cbn in L2. lia. }
  specialize (B i). rewrite in_seq in B. specialize (B ltac:(lia)). rewrite forallb_forall in B.
  specialize (B j). rewrite in_seq in B.
  assert (Lj : j < length (nth i V []) / 38). { apply Nat.div_le_lower_bound with (b := 38) (q := S j); lia. }
  specialize (B ltac:(lia)).
  destruct (Nat.leb_spec (length (nth i D [])) (38 * j)); [|lia]. destruct (Nat.leb_spec (38 * j + 38) (length (nth i V []))); [|lia].
  cbn [andb] in B. rewrite E in B. apply andb_true_iff in B. destruct B as [B1 B2]. apply Nat.eqb_eq in B1, B2. exists V. split; [now left|]. auto.
Qed.
Definition torn_w1 : world := st_w (pw demo) (CTxCommit 2).
Definition torn_ops : list fop := skipn (length (log (pw demo))) (log torn_w1).
Definition tear (n : nat) (fs : list bytes) (ops : list fop) : list bytes :=
  match ops with [OApp i x] => apply_op fs (OApp i (firstn n x)) | _ => fs end.
Lemma tear_crash n fs ops : crash fs ops (tear n fs ops).
Proof. destruct ops as [|[|i x|i m|] [|o r]]; cbn [tear]; try apply crash_here. apply crash_torn. Qed.
Definition torn : list bytes := tear 200 (files (pw demo)) torn_ops.
Example C19_nonvacuous : let w := pw demo in let sp := ps demo in
  exec toy toyC dkey w sp /\ allowed toy sp w (CTxCommit 2) /\ collision_free toy (snext toy sp (CTxCommit 2) AOk) /\ quiet w /\ s_failed sp = false /\
  step toy toyC w (CTxCommit 2) = Ok (AOk, torn_w1) /\ log torn_w1 = log w ++ torn_ops /\ aligned (files w) /\ aligned (files torn_w1) /\
  no_forgery toyC dkey (files w) (files torn_w1) [files torn_w1] /\ crash (files w) torn_ops torn /\
  map (@length byte) (files w) = [304] /\ map (@length byte) torn = [504] /\ map (@length byte) (files torn_w1) = [646] /\
  reopened toy toyC dkey torn torn.
Proof.
  cbv zeta. split; [exact exec_demo|]. split; [apply allowed_b_ok; vm_compute; reflexivity|].
  split; [apply collision_free_b_ok; vm_compute; reflexivity|].
  split; [apply quiet_b_ok; vm_compute; reflexivity|]. split; [vm_compute; reflexivity|].
  split; [apply st_ok; vm_compute; reflexivity|]. split; [vm_compute; reflexivity|].
  split; [vm_compute; reflexivity|]. split; [vm_compute; reflexivity|].
  split; [apply no_forgery_b_ok; vm_compute; reflexivity|].
  split; [apply tear_crash|]. split; [vm_compute; reflexivity|]. split; [vm_compute; reflexivity|]. split; [vm_compute; reflexivity|]. constructor.
Qed.

(** ** C20: every root ever committed stays readable, in every later state (also after
    reopening and crashes: [s_hist] is kept by all of them); no other root is. *)
Theorem C20_history_readable :
  forall (H : bytes -> bytes), (forall m, length (H m) = 32) ->
  forall (C : bytes -> bytes -> bytes), (forall k m, length (C k m) = 20) ->
  forall key w sp, exec H C key w sp -> collision_free H sp ->
  (forall l, In l (s_hist sp) -> exists w1 j, step H C w (CTxCreate (Some (ref_root H l))) = Ok (ATx j, w1) /\
     forall k, length k = 32 ->
       step H C w1 (CTxGet j k) = Ok (found (lookup l k), w1) /\
       (exists w2, step H C w (CGet k (Some (ref_root H l))) = Ok (found (lookup l k), w2)) /\
       exists raw w2, step H C w (CProve k (Some (ref_root H l))) = Ok (AProof raw, w2) /\
         urkel_verify H raw k (Some (ref_root H l)) =
           Ok (match lookup l k with Some v => mkverdict None true v | None => mkverdict None false [] end)) /\
  (forall h, h <> repeat x00 32 -> (forall l, In l (s_hist sp) -> ref_root H l <> h) ->
     (exists w1, step H C w (CTxCreate (Some h)) = Ok (AErr ENOTFOUND, w1)) /\
     forall k, length k = 32 -> exists w1, step H C w (CGet k (Some h)) = Ok (AErr ENOTFOUND, w1)).
Proof.
  intros H HL C CL key w sp X CF. split.
  - intros l I0. destruct (named_hist H HL C CL _ _ _ _ X CF I0) as (l' & En & Eq & Er).
    destruct (create H HL C CL _ _ _ (Some (ref_root H l)) l' X CF En) as (w1 & j & R & X1 & T1). exists w1, j. split; [exact R|].
    intros k Lk. rewrite <- (Eq k). split; [apply (ask H HL C CL _ _ _ _ _ k X1 T1 Lk)|]. split.
    + destruct (ask_db H HL C CL _ _ _ (Some (ref_root H l)) l' k X CF En Lk) as (w2 & _ & R2 & _). eauto.
    + destruct (C07_urkel_prove_verifies H HL C CL key w _ (Some (ref_root H l)) l' k X CF En Lk) as (raw & w2 & R2 & _ & V). rewrite Er in V. eauto.
  - intros h Nz Nh. assert (En : named H (s_hist sp) h = None).
    { unfold named. destruct (bytes_eqb_spec h (repeat x00 32)); [contradiction|]. destruct (find _ (s_hist sp)) as [l|] eqn:Ef; [|reflexivity].
      apply find_some in Ef. destruct Ef as [I1 E1]. destruct (bytes_eqb_spec (ref_root H l) h) as [E|]; [|discriminate]. destruct (Nh l I1 E). }
    split; [apply (create_not H HL C CL _ _ _ h X CF En)|]. intros k Lk.
    assert (A : allowed H sp w (CGet k (Some h))) by (split; [exact CF|exact Lk]).
    destruct (exec_do H HL C CL _ _ _ _ X A) as (a & w1 & E & G & _). cbn [good seen] in G. rewrite En in G. subst a. eauto.
Qed.
(** Two roots in the history; every call keeps what is in it. *)
Example C20_nonvacuous : length (s_hist (ps demo)) = 2 /\ exec toy toyC dkey (pw demo) (ps demo) /\ collision_free toy (ps demo).
Proof. split; [vm_compute; reflexivity|]. split; [exact exec_demo|exact demo_free]. Qed.
Lemma history_grows : forall H sp c a l, In l (s_hist sp) -> In l (s_hist (snext H sp c a)) /\ In l (s_hist (crashed sp)).
Proof.
  intros H sp c a l I0. split; [|exact I0]. destruct c; cbn [snext commits]; unfold set_tx, add_tx, committed, commit_failed;
  repeat match goal with |- context [match ?x with _ => _ end] => destruct x end; cbn [s_hist]; auto; right; exact I0.
Qed.

(** ** C21: calls that are not about transaction [i] do not change what it answers. *)
Theorem C21_snapshot_isolation :
  forall (H : bytes -> bytes), (forall m, length (H m) = 32) ->
  forall (C : bytes -> bytes -> bytes), (forall k m, length (C k m) = 20) ->
  forall key w sp i l cs la w' sp',
  exec H C key w sp -> txat sp i = Some l -> calls H C w sp cs la w' sp' -> Forall (fun c => concerns i c = false) cs ->
  collision_free H sp -> collision_free H sp' ->
  (exists r w1 w2, step H C w (CTxRoot i) = Ok (r, w1) /\ step H C w' (CTxRoot i) = Ok (r, w2)) /\
  (forall k, length k = 32 ->
    (step H C w (CTxGet i k) = Ok (found (lookup l k), w) /\ step H C w' (CTxGet i k) = Ok (found (lookup l k), w')) /\
    (step H C w (CTxHas i k) = Ok (present (lookup l k), w) /\ step H C w' (CTxHas i k) = Ok (present (lookup l k), w')) /\
    exists raw w1 w2, step H C w (CTxProve i k) = Ok (AProof raw, w1) /\ step H C w' (CTxProve i k) = Ok (AProof raw, w2)) /\
  ((forall k v, In (k, v) l -> levels l k <= 127) -> forall n, exists rs, tx_iterate w i n = Ok rs /\ tx_iterate w' i n = Ok rs).
Proof.
  intros H HL C CL key w sp i l cs la w' sp' X E Cs F CF CF'.
  pose proof (exec_calls H C _ _ _ _ _ _ _ X Cs) as X'. pose proof (calls_txat H C _ _ _ _ _ _ _ _ Cs F E) as E'.
  split; [|split].
  - destruct (ask_root H HL C CL _ _ _ _ _ X CF E) as (w1 & R1 & _). destruct (ask_root H HL C CL _ _ _ _ _ X' CF' E') as (w2 & R2 & _). eauto.
  - intros k Lk. destruct (ask H HL C CL _ _ _ _ _ k X E Lk) as [G1 G2]. destruct (ask H HL C CL _ _ _ _ _ k X' E' Lk) as [G3 G4].
    split; [auto|]. split; [auto|].
    destruct (prove_bytes H HL C CL _ _ _ i k l X CF E Lk) as (r1 & z1 & Z1 & B1 & _).
    destruct (prove_bytes H HL C CL _ _ _ i k l X' CF' E' Lk) as (r2 & z2 & Z2 & B2 & _).
    destruct (exec_stands H HL C CL _ _ _ _ _ X E) as (t & St & _). pose proof (proof_bytes_fun H l k r1 r2 t St B1 B2). subst r2. eauto.
  - intros B n. destruct (iterate_ok H HL C CL _ _ _ i _ n X E B) as (t1 & U1 & I1). destruct (iterate_ok H HL C CL _ _ _ i _ n X' E' B) as (t2 & U2 & I2).
    rewrite (stands_fun _ _ _ U2 U1) in I2. eauto.
Qed.
(** Transaction 1 sees the first commit while others insert, commit, inject and clear. *)
Definition busy : list call :=
  [ CTxInsert 2 kfoo v2; CTxCommit 2; CRemove kbar; CTxClear 0; CTxDestroy 0;
    CInject (repeat x00 32); CTxCreate None; CTxInsert 3 kbar v2 ].
Example C21_nonvacuous : exists la w' sp', calls toy toyC (pw demo) (ps demo) busy la w' sp' /\
  Forall (fun c => concerns 1 c = false) busy /\ txat (ps demo) 1 = Some [(kfoo, foo_value)] /\ collision_free toy sp'.
Proof.
  eexists _, _, _. split; [apply calls_played; vm_compute; reflexivity|].
  split; [repeat constructor|]. split; [unfold txat; rewrite (proj1 demo_txs); reflexivity|].
  apply collision_free_b_ok. vm_compute. reflexivity.
Qed.
