(** * Properties of failures, inject and clear, data placement and reading: C22-C25, C31, C38, C44, C45.

    Notation as in Properties_Db.v. *)
From Verif Require Import Demo.
From Verif Require Export Properties_Hist.
From Coq Require Import ZifyBool ZifyNat ZifyN Permutation Sorted.

(** The same program state with the given failures lying ahead. *)
Definition faulty (w : world) (io : list wfault) : world :=
  match w_db w with Some d => mkworld (Some (with_store d (set_io (d_store d) io))) (w_txs w) | None => w end.

Lemma free_failed H sp l : collision_free H (committed sp l) -> collision_free H sp.
Proof.
  intros [NC NZ]. cbn [s_hist committed flat_map] in NC, NZ. split.
  - intros x y Ix Iy. apply NC; apply in_or_app; auto.
  - intros x Ix. apply NZ, in_or_app; auto.
Qed.
Lemma snext_cur_same H sp i l a : txat sp i = Some l -> a <> AOk ->
  snext H sp (CTxCommit i) a = set_tx (commit_failed sp l) i None.
Proof. intros E N. cbn [snext commits]. rewrite E. destruct a; congruence. Qed.

(** ** C22: after a commit that failed without writing part of its data, the root, the
    contents and all other transactions are as before... *)
Theorem C22_failed_commit_partial :
  forall (H : bytes -> bytes), (forall m, length (H m) = 32) ->
  forall (C : bytes -> bytes -> bytes), (forall k m, length (C k m) = 20) ->
  forall key w sp i e w',
  exec H C key w sp -> allowed H sp w (CTxCommit i) -> step H C w (CTxCommit i) = Ok (AErr e, w') ->
  e = EBADWRITE /\ step H C w' CRoot = Ok (AHash (ref_root H (s_cur sp)), w') /\
  step H C w CRoot = Ok (AHash (ref_root H (s_cur sp)), w) /\
  (forall k ro l, length k = 32 -> seen H sp ro = Some l -> exists w1 w2,
     step H C w (CGet k ro) = Ok (found (lookup l k), w1) /\ step H C w' (CGet k ro) = Ok (found (lookup l k), w2)) /\
  (forall j l k, j <> i -> txat sp j = Some l -> length k = 32 ->
     step H C w' (CTxGet j k) = Ok (found (lookup l k), w') /\
     exists raw w1 w2, step H C w (CTxProve j k) = Ok (AProof raw, w1) /\ step H C w' (CTxProve j k) = Ok (AProof raw, w2)).
Proof.
  intros H HL C CL key w sp i e w' X A E. pose proof A as [CF (l & El & OK)].
  destruct (exec_good H HL C CL _ _ _ _ _ _ X A E) as [G X']. rewrite (snext_cur_same _ _ _ l) in X' by (try discriminate; exact El).
  cbn [good] in G. split; [destruct G as [G|[G _]]; congruence|].
  assert (CF' : collision_free H (set_tx (commit_failed sp l) i None)) by exact CF.
  split; [exact (ask_top H HL C CL _ _ _ X' CF')|]. split; [exact (ask_top H HL C CL _ _ _ X CF)|]. split.
  - intros k ro m Lk Es. destruct (ask_db H HL C CL _ _ _ ro m k X CF Es Lk) as (w1 & _ & R1 & _).
    destruct (ask_db H HL C CL _ _ _ ro m k X' CF') as (w2 & _ & R2 & _); [exact Es|exact Lk|]. eauto.
  - intros j m k Nj Ej Lk. assert (Ej' : txat (set_tx (commit_failed sp l) i None) j = Some m) by (rewrite txat_set_neq by congruence; exact Ej).
    split; [apply (ask H HL C CL _ _ _ _ _ k X' Ej' Lk)|].
    destruct (prove_bytes H HL C CL _ _ _ j k m X CF Ej Lk) as (r1 & z1 & Z1 & B1 & _).
    destruct (prove_bytes H HL C CL _ _ _ j k m X' CF' Ej' Lk) as (r2 & z2 & Z2 & B2 & _).
    destruct (exec_stands H HL C CL _ _ _ _ _ X Ej) as (t & St & _). pose proof (proof_bytes_fun H m k r1 r2 t St B1 B2). subst r2. eauto.
Qed.
Lemma exec_faulty io : Forall clean_fault io -> exec toy toyC dkey (faulty (pw demo) io) (ps demo).
Proof.
  intros F. unfold faulty. destruct (w_db (pw demo)) as [d|] eqn:E; [|exact exec_demo].
  eapply ex_faults; [exact exec_demo|exact E|exact F].
Qed.
Definition failing : world := faulty (pw demo) [WShort 0].
Lemma exec_failing : exec toy toyC dkey failing (ps demo).
Proof. apply exec_faulty. constructor; [exact I|constructor]. Qed.
Example C22_nonvacuous : exec toy toyC dkey failing (ps demo) /\ allowed toy (ps demo) failing (CTxCommit 2) /\
  step toy toyC failing (CTxCommit 2) = Ok (AErr EBADWRITE, st_w failing (CTxCommit 2)) /\ txat (ps demo) 0 <> None.
Proof.
  split; [exact exec_failing|]. split; [apply allowed_b_ok; vm_compute; reflexivity|].
  split; [apply st_ok; vm_compute; reflexivity|]. unfold txat. rewrite (proj1 demo_txs). discriminate.
Qed.
(** ... but the failed transaction must not be touched any more, not even to destroy it, and
    urkel_insert itself runs into that. *)
Theorem C22_failed_commit_refuted :
  exists w sp i w', exec toy toyC dkey w sp /\ allowed toy sp w (CTxCommit i) /\ txat sp i <> None /\
    step toy toyC w (CTxCommit i) = Ok (AErr EBADWRITE, w') /\
    (forall k, length k = 32 -> step toy toyC w' (CTxGet i k) = UB) /\
    step toy toyC w' (CTxCommit i) = UB /\ step toy toyC w' (CTxDestroy i) = UB /\
    (exists k v, length k = 32 /\ length v <= 255 /\ step toy toyC w (CInsert k v) = UB).
Proof.
  exists failing, (ps demo), 2, (st_w failing (CTxCommit 2)).
  assert (L : live (st_w failing (CTxCommit 2)) 2 = UB) by (vm_compute; reflexivity).
  assert (D : exists d, w_db (st_w failing (CTxCommit 2)) = Some d).
  { destruct (w_db (st_w failing (CTxCommit 2))) as [d|] eqn:E; [eauto|]. assert (X : is_none (w_db (st_w failing (CTxCommit 2))) = false) by (vm_compute; reflexivity).
    rewrite E in X. discriminate X. }
  destruct D as (d & D).
  split; [exact exec_failing|]. split; [apply allowed_b_ok; vm_compute; reflexivity|].
  split; [unfold txat; rewrite (proj1 demo_txs); discriminate|].
  split; [apply st_ok; vm_compute; reflexivity|].
  split; [intros k _; unfold step; rewrite D, L; reflexivity|].
  split; [unfold step; rewrite D, L; reflexivity|]. split; [unfold step; rewrite D, L; reflexivity|].
  exists kbaz, v1. split; [reflexivity|]. split; [vm_compute; lia|]. vm_compute. reflexivity.
Qed.

(** ** C23: after failures that wrote nothing, later commits succeed and are readable, also after
    reopening... *)
Theorem C23_later_commits_partial :
  forall (H : bytes -> bytes), (forall m, length (H m) = 32) ->
  forall (C : bytes -> bytes -> bytes), (forall k m, length (C k m) = 20) ->
  forall key w sp i l,
  exec H C key w sp -> s_failed sp = true -> quiet w -> txat sp i = Some l -> can_commit sp l -> collision_free H (committed sp l) ->
  exists w', step H C w (CTxCommit i) = Ok (AOk, w') /\
    exec H C key w' (committed sp l) /\ s_failed (committed sp l) = false /\
    forall k, length k = 32 ->
      (exists w1, step H C w' (CGet k None) = Ok (found (lookup l k), w1)) /\
      (aligned (files w') -> exists w1 w2, step H C w' CReopen = Ok (AOk, w1) /\ step H C w1 (CGet k None) = Ok (found (lookup l k), w2)).
Proof.
  intros H HL C CL key w sp i l X F Q E OK CF.
  assert (A : allowed H sp w (CTxCommit i)) by (split; [eapply free_failed, CF|exists l; auto]).
  destruct (exec_do H HL C CL _ _ _ _ X A) as (a & w' & Es & G & X' & _). cbn [good snext commits] in G, X'. rewrite E in X'.
  destruct G as [->|[_ G]]; [|contradiction]. exists w'. split; [exact Es|]. split; [exact X'|]. split; [reflexivity|].
  intros k Lk. split; [destruct (ask_db H HL C CL _ _ _ None l k X' CF eq_refl Lk) as (w1 & _ & R & _); eauto|].
  intros Al. destruct (C17_reopen_partial H HL C CL key w' _ X' CF eq_refl (or_introl Al)) as (w1 & R1 & _ & _ & R2).
  destruct (R2 k Lk) as (w2 & R3). eauto.
Qed.
Definition failed_w : world := st_w failing (CTxCommit 2).
Definition failed_sp : spec := snext toy (ps demo) (CTxCommit 2) (AErr EBADWRITE).
Lemma exec_failed : exec toy toyC dkey failed_w failed_sp.
Proof. eapply ex_call; [exact exec_failing|apply allowed_b_ok; vm_compute; reflexivity|]. apply st_ok; vm_compute; reflexivity. Qed.
Example C23_nonvacuous : exists l, exec toy toyC dkey failed_w failed_sp /\ s_failed failed_sp = true /\ quiet failed_w /\
  txat failed_sp 0 = Some l /\ can_commit failed_sp l /\ collision_free toy (committed failed_sp l) /\ length l = 2.
Proof.
  eexists. split; [exact exec_failed|]. split; [vm_compute; reflexivity|]. split; [apply quiet_b_ok; vm_compute; reflexivity|].
  split; [vm_compute; reflexivity|]. split; [apply can_commit_b_ok; vm_compute; reflexivity|].
  split; [apply collision_free_b_ok; vm_compute; reflexivity|reflexivity].
Qed.
(** ... but after a write that was cut short, a later commit reports success although its
    data cannot be read. *)
Theorem C23_later_commits_refuted :
  exists w sp k v, exec toy toyC dkey w sp /\ quiet w /\ txat sp 0 <> None /\ length k = 32 /\ length v <= 255 /\
    exists l w', run toy toyC (faulty w [WShort 5]) [CTxCommit 2; CTxInsert 0 k v; CTxCommit 0; CTxGet 0 k; CGet kfoo None] = Ok (l, w') /\
      l = [AErr EBADWRITE; AOk; AOk; AErr ECORRUPTION; AErr ECORRUPTION] /\ lookup (s_cur sp) kfoo = Some foo_value.
Proof.
  exists (pw demo), (ps demo), kbaz, v2. split; [exact exec_demo|]. split; [apply quiet_b_ok; vm_compute; reflexivity|].
  split; [unfold txat; rewrite (proj1 demo_txs); discriminate|]. split; [reflexivity|]. split; [vm_compute; lia|].
  eexists _, _. split; [vm_compute; reflexivity|]. split; vm_compute; reflexivity.
Qed.

(** ** C45: a commit reported as failed can be the database state after reopening (here the
    write succeeded and remapping the file failed). *)
Theorem C45_failed_commit_stays_failed_refuted :
  exists w sp l w', exec toy toyC dkey w sp /\ txat sp 2 = Some l /\ lookup l kbaz = Some v2 /\ lookup (s_cur sp) kbaz = None /\
    run toy toyC (faulty w [WMap]) [CTxCommit 2; CGet kbaz None; CReopen; CGet kbaz None] =
      Ok ([AErr EBADWRITE; AErr ENOTFOUND; AOk; AVal v2], w').
Proof.
  exists (pw demo), (ps demo). eexists _, _. split; [exact exec_demo|]. split; [vm_compute; reflexivity|].
  split; [vm_compute; reflexivity|]. split; vm_compute; reflexivity.
Qed.

(** ** C24: unless the database has been injected to an older root, urkel_tx_clear leaves a
    transaction exactly like a new one... *)
Theorem C24_clear_partial :
  forall (H : bytes -> bytes), (forall m, length (H m) = 32) ->
  forall (C : bytes -> bytes -> bytes), (forall k m, length (C k m) = 20) ->
  forall key w sp i,
  exec H C key w sp -> collision_free H sp -> txat sp i <> None -> s_cur sp = hd [] (s_hist sp) ->
  exists w1 w2 j, step H C w (CTxClear i) = Ok (AOk, w1) /\ step H C w (CTxCreate None) = Ok (ATx j, w2) /\
    (exists r v1 v2, step H C w1 (CTxRoot i) = Ok (r, v1) /\ step H C w2 (CTxRoot j) = Ok (r, v2)) /\
    forall k, length k = 32 -> exists a, step H C w1 (CTxGet i k) = Ok (a, w1) /\ step H C w2 (CTxGet j k) = Ok (a, w2).
Proof.
  intros H HL C CL key w sp i X CF E Ec.
  assert (A : allowed H sp w (CTxClear i)) by (split; [exact CF|split; assumption]).
  destruct (exec_do H HL C CL _ _ _ _ X A) as (a & w1 & Es & G & X1 & _). cbn [good snext] in G, X1. subst a.
  destruct (create H HL C CL _ _ _ None _ X CF eq_refl) as (w2 & j & R2 & X2 & T2).
  assert (T1 : txat (set_tx sp i (Some (s_cur sp))) i = Some (s_cur sp)).
  { destruct (txat sp i) as [l|] eqn:El; [|congruence]. eapply txat_set, El. }
  exists w1, w2, j. split; [exact Es|]. split; [exact R2|]. split.
  - destruct (ask_root H HL C CL _ _ _ _ _ X1 CF T1) as (z1 & Z1 & _). destruct (ask_root H HL C CL _ _ _ _ _ X2 CF T2) as (z2 & Z2 & _). eauto.
  - intros k Lk. exists (found (lookup (s_cur sp) k)). split; [apply (ask H HL C CL _ _ _ _ _ k X1 T1 Lk)|apply (ask H HL C CL _ _ _ _ _ k X2 T2 Lk)].
Qed.
Example C24_nonvacuous : txat (ps demo) 2 <> None /\ s_cur (ps demo) = hd [] (s_hist (ps demo)) /\ txat (ps demo) 2 <> Some (s_cur (ps demo)).
Proof. split; [vm_compute; discriminate|]. split; [vm_compute; reflexivity|vm_compute; discriminate]. Qed.
(** ... but after urkel_inject it does not. *)
Theorem C24_clear_refuted :
  exists w sp i j k, exec toy toyC dkey w sp /\ collision_free toy sp /\ txat sp i <> None /\ length k = 32 /\
    exists w1 w2, step toy toyC w (CTxClear i) = Ok (AOk, w1) /\ step toy toyC w (CTxCreate None) = Ok (ATx j, w2) /\
      step toy toyC w1 (CTxGet i k) = Ok (AVal v1, w1) /\ step toy toyC w2 (CTxGet j k) = Ok (AErr ENOTFOUND, w2).
Proof.
  set (cs := demo ++ [CInject (ref_root toy [(kfoo, foo_value)])]).
  exists (pw cs), (ps cs), 2, 3, kbar. split; [apply exec_played; vm_compute; reflexivity|].
  split; [apply collision_free_b_ok; vm_compute; reflexivity|]. split; [vm_compute; discriminate|]. split; [reflexivity|].
  exists (st_w (pw cs) (CTxClear 2)), (st_w (pw cs) (CTxCreate None)).
  split; [apply st_ok; vm_compute; reflexivity|]. split; [apply st_ok; vm_compute; reflexivity|]. split; vm_compute; reflexivity.
Qed.

(** ** C25: inject goes to exactly the named root ...

    Missing in the partial theorem: urkel_inject with a root that was never committed. *)
Lemma unknown_named H hist h : h <> repeat x00 32 -> (forall l, In l hist -> ref_root H l <> h) -> named H hist h = None.
Proof.
  intros Nz Nh. unfold named. destruct (bytes_eqb_spec h (repeat x00 32)); [contradiction|].
  destruct (find _ hist) as [l|] eqn:Ef; [|reflexivity].
  apply find_some in Ef. destruct Ef as [I1 F1]. destruct (bytes_eqb_spec (ref_root H l) h) as [F|]; [|discriminate]. destruct (Nh l I1 F).
Qed.
Theorem C25_inject_partial :
  forall (H : bytes -> bytes), (forall m, length (H m) = 32) ->
  forall (C : bytes -> bytes -> bytes), (forall k m, length (C k m) = 20) ->
  forall key w sp i h, exec H C key w sp -> collision_free H sp -> txat sp i <> None ->
  (* the contents committed under [h], if there are any *)
  (forall l, (h = repeat x00 32 /\ l = []) \/ (In l (s_hist sp) /\ ref_root H l = h) ->
     (exists w1 w2 j, step H C w (CInject h) = Ok (AOk, w1) /\ step H C w1 CRoot = Ok (AHash h, w1) /\
        step H C w1 (CTxCreate None) = Ok (ATx j, w2) /\
        forall k, length k = 32 -> step H C w2 (CTxGet j k) = Ok (found (lookup l k), w2)) /\
     (exists w1, step H C w (CTxInject i h) = Ok (AOk, w1) /\
        (exists w2, step H C w1 (CTxRoot i) = Ok (AHash h, w2)) /\
        forall k, length k = 32 -> step H C w1 (CTxGet i k) = Ok (found (lookup l k), w1))) /\
  (h <> repeat x00 32 -> (forall l, In l (s_hist sp) -> ref_root H l <> h) ->
     exists w2, step H C w (CTxInject i h) = Ok (AErr ENOTFOUND, w2) /\
       exec H C key w2 sp /\ (quiet w -> same_answers H C w sp w2 sp)).
Proof.
  intros H HL C CL key w sp i h X CF E.
  assert (A2 : allowed H sp w (CTxInject i h)) by (split; [exact CF|exact E]).
  destruct (exec_do H HL C CL _ _ _ _ X A2) as (a2 & w2 & E2 & G2 & X2 & Q2 & _).
  cbn [good snext] in G2, X2. split.
  - intros l Hl.
    assert (Nm : exists l', named H (s_hist sp) h = Some l' /\ (forall k, lookup l' k = lookup l k) /\ ref_root H l' = h).
    { destruct Hl as [[-> ->]|[I0 <-]].
      - exists []. split; [reflexivity|]. split; reflexivity.
      - destruct (named_hist H HL C CL _ _ _ _ X CF I0) as (l' & N1 & N2 & N3). eauto. }
    destruct Nm as (l' & Nm & Eq & Er).
    assert (A1 : allowed H sp w (CInject h)) by (split; [exact CF|cbn [call_ok]; congruence]).
    destruct (exec_do H HL C CL _ _ _ _ X A1) as (a1 & w1 & E1 & G1 & X1 & Q1 & _).
    cbn [good snext] in G1, X1. rewrite Nm in G1, G2, X1, X2. subst a1 a2. split.
    + assert (CF1 : collision_free H (mkspec (s_hist sp) l' (s_txs sp) (s_failed sp) (s_bytes sp))) by exact CF.
      destruct (create H HL C CL _ _ _ None l' X1 CF1 eq_refl) as (w3 & j & R & X3 & T3).
      exists w1, w3, j. split; [exact E1|]. split; [rewrite (ask_top H HL C CL _ _ _ X1 CF1); cbn [s_cur]; rewrite Er; reflexivity|].
      split; [exact R|]. intros k Lk. rewrite <- (Eq k). apply (ask H HL C CL _ _ _ _ _ k X3 T3 Lk).
    + assert (T2 : txat (set_tx sp i (Some l')) i = Some l'). { destruct (txat sp i) as [l0|] eqn:El; [|congruence]. eapply txat_set, El. }
      exists w2. split; [exact E2|]. split.
      * destruct (ask_root H HL C CL _ _ _ _ _ X2 CF T2) as (w3 & R & _). rewrite Er in R. eauto.
      * intros k Lk. rewrite <- (Eq k). apply (ask H HL C CL _ _ _ _ _ k X2 T2 Lk).
  - intros Nz Nh. rewrite (unknown_named H _ _ Nz Nh) in G2, X2. subst a2. exists w2. split; [exact E2|]. split; [exact X2|].
    intros Q. eapply same_spec; eauto.
Qed.
(** ... but urkel_inject with any root that was never committed is undefined behaviour, in
    every state (store.c 864-874 clears a node structure that was never initialised). *)
Theorem C25_inject_refuted :
  forall (H : bytes -> bytes), (forall m, length (H m) = 32) ->
  forall (C : bytes -> bytes -> bytes), (forall k m, length (C k m) = 20) ->
  forall key w sp h, exec H C key w sp -> collision_free H sp ->
  h <> repeat x00 32 -> (forall l, In l (s_hist sp) -> ref_root H l <> h) ->
  step H C w (CInject h) = UB.
Proof.
  intros H HL C CL key w sp h X CF Nz Nh.
  assert (A : allowed H sp w (CTxCreate (Some h))) by (split; [exact CF|exact I]).
  destruct (exec_do H HL C CL _ _ _ _ X A) as (a & w1 & E & G & _ & _).
  cbn [good seen] in G. rewrite (unknown_named H _ _ Nz Nh) in G. subst a.
  revert E. unfold step. destruct (w_db w) as [d|]; [|discriminate]. unfold tx_create, db_inject.
  destruct (read_history H C (d_store d) h) as [[[r|] s]|e| | |]; cbn [bind]; try discriminate. reflexivity.
Qed.
(** Both kinds of root occur in [demo]; a commit made after an inject becomes the new state (C16 applies). *)
Example C25_nonvacuous : txat (ps demo) 2 <> None /\ In [(kfoo, foo_value)] (s_hist (ps demo)) /\
  s_cur (ps demo) <> [(kfoo, foo_value)] /\ (forall l, In l (s_hist (ps demo)) -> ref_root toy l <> repeat xff 32).
Proof.
  split; [vm_compute; discriminate|]. rewrite (proj2 demo_txs). split; [right; left; reflexivity|]. split; [vm_compute; discriminate|].
  intros l [<-|[<-|[]]]; vm_compute; discriminate.
Qed.

(** ** C31: everything committed is found where its pointers say: each committed content has
    its tree in the data files ([on_disk]: the bytes at the root pointer decode to the
    root node, whose child pointers lead to the subtrees, whose value pointers
    lead to the value bytes), and no data file ever exceeds 0x7ffff000 bytes. *)
Lemma adds_max V n V' : V <> [] -> adds V n V' -> Forall (fun f => (blen f <= MAX_FILE_SIZE)%N) V -> Forall (fun f => (blen f <= MAX_FILE_SIZE)%N) V'.
Proof.
  intros N A. induction A as [|n V1 d A IH L]; intros F; [exact F|]. specialize (IH F).
  unfold vapp. destruct (N.ltb_spec MAX_FILE_SIZE (blen (last V1 []) + blen d)) as [X|X].
  - apply Forall_app. split; [exact IH|]. constructor; [|constructor]. unfold blen, MAX_FILE_SIZE. lia.
  - apply Forall_app. split.
    + destruct (list_eq_dec (list_eq_dec Byte.byte_eq_dec) V1 []) as [->|N1]; [constructor|].
      rewrite (app_removelast_last [] N1) in IH. apply Forall_app in IH. apply IH.
    + constructor; [|constructor]. unfold blen in *. rewrite app_length. lia.
Qed.
Lemma st_rd_files s V p x : view s V -> st_rd s p = Some x -> rdl (st_fs s) p = Some x.
Proof.
  intros (base & cur & p0 & ps & W & _) E. destruct W as [(extra & Fs & _) Ix Sz _ _ _ _ _].
  unfold st_rd in E. unfold rdl. destruct (pidx p =? 0)%N eqn:Z; [discriminate|]. cbn [orb] in E.
  destruct (st_index s + 1 <? pidx p)%N; [discriminate|]. destruct (nth_error (st_fs s) _) as [f|] eqn:Ef; [|discriminate].
  destruct (psize p =? 0)%N; [exact E|]. destruct (N.eqb_spec (pidx p) (st_index s)) as [Ei|Ei]; [|exact E].
  assert (f = cur) as ->. { rewrite Ei, Ix, Fs in Ef. replace (N.to_nat (N.of_nat (length base + 1)) - 1) with (length base) in Ef by lia.
    rewrite nth_error_app2, Nat.sub_diag in Ef by lia. cbn in Ef. congruence. }
  rewrite Sz in E. exact E.
Qed.
Theorem C31_data_placement :
  forall (H : bytes -> bytes), (forall m, length (H m) = 32) ->
  forall (C : bytes -> bytes -> bytes), (forall k m, length (C k m) = 20) ->
  forall key w sp, exec H C key w sp ->
  Forall (fun f => (blen f <= MAX_FILE_SIZE)%N) (files w) /\
  forall l, In l (s_hist sp) -> l <> [] ->
    exists t p, Permutation (elems t) l /\ thash H t = ref_root H l /\ on_disk H (rdl (files w)) t p.
Proof.
  intros H HL C CL key w sp X. destruct (exec_sim H HL C CL _ _ _ X) as (d & D & V & hist & W & Ew & _ & S & _).
  unfold files. rewrite Ew. split.
  - pose proof (adds_max [[]] W V ltac:(discriminate) (sm_adds _ _ _ _ _ _ _ _ S)) as F. specialize (F ltac:(repeat constructor; discriminate)).
    destruct (sm_view _ _ _ _ _ _ _ _ S) as (base & cur & p0 & ps & Wv & ->). destruct Wv as [(extra & Fs & Fx) _ _ _ _ _ _ _].
    apply Forall_app in F. destruct F as [F1 F2]. inversion F2 as [|? ? F3 F4]; subst. rewrite Fs. apply Forall_app. split; [exact F1|].
    constructor; [unfold blen in *; rewrite app_length in F3; lia|]. destruct Fx as [->|[-> _]]; repeat constructor. discriminate.
  - intros l I0 N. destruct (hist_snd _ _ _ _ _ _ _ (simdb_rdb _ _ _ _ _ _ _ _ S) I0) as (t & wp & It & St).
    destruct (sinv_root H C _ _ _ t wp (sm_inv _ _ _ _ _ _ _ _ S) It) as [[-> _]|(_ & _ & O)].
    + exfalso. apply N. pose proof (stands_perm _ _ St) as P. cbn in P. apply Permutation_sym, Permutation_nil in P. exact P.
    + exists t, wp. split; [symmetry; apply stands_perm, St|]. split; [symmetry; apply (stands_root H HL), St|].
      revert O. apply on_disk_mono. intros p x E. eapply st_rd_files; [exact (sm_view _ _ _ _ _ _ _ _ S)|].
      exact (si_rd _ _ _ _ _ (sm_inv _ _ _ _ _ _ _ _ S) p x E).
Qed.
Example C31_nonvacuous : exec toy toyC dkey (pw demo) (ps demo) /\ In [(kfoo, foo_value)] (s_hist (ps demo)) /\
  exec toy toyC dkey failed_w failed_sp /\ length (s_hist failed_sp) = 2.
Proof. split; [exact exec_demo|]. rewrite (proj2 demo_txs). split; [right; left; reflexivity|]. split; [exact exec_failed|vm_compute; reflexivity]. Qed.

(** ** C38: reading changes nothing: not the data files, not the specified state, not any later
    answer. *)
Theorem C38_reads_pure :
  forall (H : bytes -> bytes), (forall m, length (H m) = 32) ->
  forall (C : bytes -> bytes -> bytes), (forall k m, length (C k m) = 20) ->
  forall key w sp c, exec H C key w sp -> allowed H sp w c -> reading c = true ->
  exists a w', step H C w c = Ok (a, w') /\ exec H C key w' sp /\ files w' = files w /\ log w' = log w /\
    (quiet w -> same_answers H C w sp w' sp).
Proof.
  intros H HL C CL key w sp c X A R. destruct (exec_do H HL C CL _ _ _ _ X A) as (a & w' & E & G & X' & Q & F).
  assert (N : snext H sp c a = sp) by (destruct c; try discriminate R; reflexivity).
  rewrite N in X'. destruct F as [F1 F2]; [destruct c; try discriminate R; reflexivity|].
  exists a, w'. split; [exact E|]. split; [exact X'|]. split; [exact F1|]. split; [exact F2|]. intros Qw. eapply same_spec; eauto.
Qed.
Example C38_nonvacuous : allowed toy (ps demo) (pw demo) (CTxRoot 2) /\ reading (CTxRoot 2) = true /\ quiet (pw demo) /\
  (* computing the root fills caches: the program state does change *)
  st_w (pw demo) (CTxRoot 2) <> pw demo.
Proof.
  split; [apply allowed_b_ok; vm_compute; reflexivity|]. split; [reflexivity|]. split; [apply quiet_b_ok; vm_compute; reflexivity|].
  intros X. assert (Y : option_map (fun n => hashed n) (match live (st_w (pw demo) (CTxRoot 2)) 2 with Ok n => Some n | _ => None end) =
                        option_map (fun n => hashed n) (match live (pw demo) 2 with Ok n => Some n | _ => None end)) by (rewrite X; reflexivity).
  vm_compute in Y. discriminate Y.
Qed.

(** ** C44: whatever is done to transaction [i] before it is destroyed, nobody can tell afterwards:
    any later calls not about [i] answer as if nothing had been done. *)
Lemma ops_eqx key H (HL : forall m, length (H m) = 32) C (CL : forall k m, length (C k m) = 20) i w sp l ops :
  exec H C key w sp -> collision_free H sp -> txat sp i = Some l -> Forall txop_ok ops ->
  exists as1 w1, run H C w (map (txop_call i) ops ++ [CTxDestroy i]) = Ok (as1, w1) /\ exec H C key w1 (set_tx sp i None) /\ files w1 = files w /\ (quiet w -> quiet w1).
Proof.
  revert w sp l. induction ops as [|o ops IH]; intros w sp l X CF E F.
  - assert (A : allowed H sp w (CTxDestroy i)) by (split; [exact CF|cbn [call_ok]; congruence]).
    destruct (exec_do H HL C CL _ _ _ _ X A) as (a & w1 & Es & G & X1 & Qs & Fl). cbn [snext] in X1.
    eexists _, w1. cbn [map app run]. rewrite Es. cbn [bind]. split; [reflexivity|]. split; [exact X1|]. split; [apply Fl; reflexivity|exact Qs].
  - inversion F as [|? ? Fo F']; subst.
    assert (A : allowed H sp w (txop_call i o)).
    { split; [exact CF|]. destruct o; cbn [txop_call call_ok]; (split; [congruence|]); [apply Fo|exact Fo]. }
    destruct (exec_do H HL C CL _ _ _ _ X A) as (a & w1 & Es & G & X1 & Qs & Fl).
    assert (N : exists l1, txat (snext H sp (txop_call i o) a) i = Some l1 /\ forall x, set_tx (snext H sp (txop_call i o) a) i x = set_tx sp i x).
    { assert (Es2 : forall l1 x, set_tx (set_tx sp i (Some l1)) i x = set_tx sp i x).
      { intros l1 x. unfold set_tx. cbn [s_hist s_cur s_txs s_failed s_bytes]. f_equal. generalize (s_txs sp). clear. intros t. revert i.
        induction t as [|y t IH]; intros [|i]; cbn; try reflexivity. f_equal. apply IH. }
      destruct o as [k v|k]; cbn [txop_call snext]; [destruct (1023 <? length v); [eauto|]|]; rewrite ?E.
      - eexists. split; [eapply txat_set, E|apply Es2].
      - destruct (lookup l k); [eexists; split; [eapply txat_set, E|apply Es2]|eauto]. }
    destruct N as (l1 & N1 & N2).
    assert (CF1 : collision_free H (snext H sp (txop_call i o) a)).
    { assert (Hs : s_hist (snext H sp (txop_call i o) a) = s_hist sp).
      { destruct o; cbn [txop_call snext]; repeat match goal with |- context [match ?x with _ => _ end] => destruct x end; reflexivity. }
      unfold collision_free. rewrite Hs. exact CF. }
    destruct (IH w1 _ l1 X1 CF1 N1 F') as (as1 & w2 & R & X2 & F2 & Q2). rewrite N2 in X2.
    eexists _, w2. cbn [map app run]. rewrite Es. cbn [bind]. rewrite R. cbn [bind]. split; [reflexivity|]. split; [exact X2|].
    split; [rewrite F2; apply Fl; destruct o; reflexivity|auto].
Qed.
Theorem C44_destroy_discards :
  forall (H : bytes -> bytes), (forall m, length (H m) = 32) ->
  forall (C : bytes -> bytes -> bytes), (forall k m, length (C k m) = 20) ->
  forall key w sp i l ops, exec H C key w sp -> collision_free H sp -> quiet w -> txat sp i = Some l -> Forall txop_ok ops ->
  exists as1 w1, run H C w (map (txop_call i) ops ++ [CTxDestroy i]) = Ok (as1, w1) /\ files w1 = files w /\
    forall cs l0 l1 v0 v1 sp0 sp1, Forall (fun c => concerns i c = false \/ c = CReopen) cs ->
      calls H C w sp cs l0 v0 sp0 -> calls H C w1 (set_tx sp i None) cs l1 v1 sp1 -> l0 = l1.
Proof.
  intros H HL C CL key w sp i l ops X CF Q E F.
  destruct (ops_eqx key H HL C CL i w sp l ops X CF E F) as (as1 & w1 & R & X1 & Fl & Q1). specialize (Q1 Q).
  exists as1, w1. split; [exact R|]. split; [exact Fl|]. intros cs l0 l1 v0 v1 sp0 sp1 Fc C0 C1.
  assert (Li : i < length (s_txs sp)) by (eapply txat_len, E).
  exact (proj1 (calls_eqx H HL C CL _ _ i _ _ _ _ _ _ _ _ _ _ _ X X1 (eqx_set1 i sp None) Li Q Q1 Fc C0 C1)).
Qed.
Example C44_nonvacuous : exists la v0 sp0 lb v1' sp1 w1 as1, let cs := [CTxGet 0 kfoo; CTxGet 1 kbar; CInsert kbaz v1; CReopen; CRoot] in
  run toy toyC (pw demo) (map (txop_call 2) demo_ops ++ [CTxDestroy 2]) = Ok (as1, w1) /\
  calls toy toyC (pw demo) (ps demo) cs la v0 sp0 /\ calls toy toyC w1 (set_tx (ps demo) 2 None) cs lb v1' sp1 /\ length la = 5.
Proof.
  assert (R : exists as1 w1, run toy toyC (pw demo) (map (txop_call 2) demo_ops ++ [CTxDestroy 2]) = Ok (as1, w1) /\
     is_none (play w1 (set_tx (ps demo) 2 None) [CTxGet 0 kfoo; CTxGet 1 kbar; CInsert kbaz v1; CReopen; CRoot]) = false).
  { destruct (run toy toyC (pw demo) (map (txop_call 2) demo_ops ++ [CTxDestroy 2])) as [[as1 w1]|e| | |] eqn:E.
    1: { exists as1, w1. split; [reflexivity|].
         change w1 with (match Ok (as1, w1) with Ok (_, w) => w | _ => pw demo end). rewrite <- E. vm_compute. reflexivity. }
    all: exfalso; revert E; match goal with |- ?x = _ -> _ => assert (X : match x with Ok _ => true | _ => false end = true) by (vm_compute; reflexivity); destruct x; discriminate end. }
  destruct R as (as1 & w1 & R & P).
  eexists _, _, _, _, _, _, w1, as1. cbv zeta. split; [exact R|]. split; [apply calls_played; vm_compute; reflexivity|].
  split; [apply calls_played; exact P|]. vm_compute. reflexivity.
Qed.
