(** * Every execution of the model is an execution of the specification. *)
From Verif Require Export DbFacts.
From Coq Require Import ZifyBool ZifyNat ZifyN.

Section Sim.
Variable H : bytes -> bytes.
Hypothesis H_len : forall m, length (H m) = 32.
Variable C : bytes -> bytes -> bytes.
Hypothesis C_len : forall k m, length (C k m) = 20.

(** ** The invariant *)
Definition misplaced (b : list bytes) (f : bytes) : Prop :=
  b <> [] /\ (MAX_FILE_SIZE - 30 < blen (last b []))%N /\ length f < 38.
Definition tail_at (D : list bytes) (top : ptr) (hist : list (ptree * ptr)) : Prop :=
  match hist with
  | [] => D = [[]]
  | _ => exists b f r, D = b ++ [f ++ r] /\ length r = 38 /\ top = mkptr (N.of_nat (length D)) (blen f) 0 /\
           ((blen f mod 38 = 0)%N \/ misplaced b f)
  end.

Record simdb (d : db) (sp : spec) (D V : list bytes) (hist : list (ptree * ptr)) (W : nat) : Prop := {
  sm_inv : sinv H C (d_store d) D hist;
  sm_view : view (d_store d) V;
  sm_cut : cutof D V;
  sm_io : Forall clean_fault (st_io (d_store d));
  sm_ok : s_failed sp = false -> clean_st (d_store d) /\ st_fs (d_store d) = D /\ V = D;
  sm_tail : tail_at D (m_meta (st_state (d_store d))) hist;
  sm_max : (blen (last D []) <= MAX_FILE_SIZE)%N;
  sm_adds : adds [[]] W V;
  sm_bytes : (N.of_nat W <= s_bytes sp)%N;
  sm_limit : (s_bytes sp <= LIMIT)%N;
  sm_hist : Forall2 (fun x l => stands l (fst x)) hist (s_hist sp);
  sm_cur : exists t, stands (s_cur sp) t /\ d_hash d = thash H t;
  sm_curin : In (s_cur sp) (s_hist sp) \/ s_cur sp = [];
  sm_rev : d_revert d = false -> s_cur sp = hd [] (s_hist sp);
  sm_small : (s_bytes sp <= MAX_FILE_SIZE - 30)%N -> aligned D }.

(** ** Calls that do not write: their answers and effects depend only on what the store
    can read and on the record chain, whatever is in the write buffer. *)

(** What the calls that do not write rely on. *)
Record rdb (d : db) (sp : spec) (D : list bytes) (hist : list (ptree * ptr)) : Prop := {
  rm_inv : sinv H C (d_store d) D hist;
  rm_hist : Forall2 (fun x l => stands l (fst x)) hist (s_hist sp);
  rm_cur : exists t, stands (s_cur sp) t /\ d_hash d = thash H t;
  rm_curin : In (s_cur sp) (s_hist sp) \/ s_cur sp = [];
  rm_rev : d_revert d = false -> s_cur sp = hd [] (s_hist sp) }.

Definition txsim (s : store) (t : txst) (o : option recs) : Prop :=
  match t, o with
  | TLive n, Some l => holds H s n l
  | TDangling, None | TDead, None => True
  | _, _ => False
  end.

(** ** Small facts *)
Lemma txsim_mono s s' t o : rmono s s' -> txsim s t o -> txsim s' t o.
Proof. intros M. destruct t as [n| |], o as [l|]; cbn; auto. apply holds_mono, M. Qed.
Lemma txs_mono s s' a b : rmono s s' -> Forall2 (txsim s) a b -> Forall2 (txsim s') a b.
Proof. intros M F. induction F; constructor; eauto using txsim_mono. Qed.

Lemma same_rmono s s' : same_db s s' -> rmono s s'.
Proof. intros S p x E. rewrite (same_db_rd _ _ S). exact E. Qed.

Lemma same_rdb d d' sp D hist : rdb d sp D hist -> 
  sinv H C (d_store d') D hist -> d_hash d' = d_hash d -> d_revert d' = d_revert d -> rdb d' sp D hist.
Proof. intros [] I E1 E2. constructor; rewrite ?E1, ?E2; auto. Qed.

Lemma collision_pair sp t1 t2 l1 l2 : collision_free H sp -> In l1 (s_hist sp) -> In l2 (s_hist sp) ->
  stands l1 t1 -> stands l2 t2 -> thash H t1 = thash H t2 -> t1 = t2.
Proof.
  intros [NC NZ] I1 I2 S1 S2 E. destruct (stands_root H H_len l1 t1 S1) as [_ M1]. destruct (stands_root H H_len l2 t2 S2) as [_ M2].
  assert (Q : forall x, In x (msgs H t1 ++ msgs H t2) -> In x (flat_map (ref_msgs H) (s_hist sp))).
  { intros x I. apply in_flat_map. apply in_app_or in I. rewrite <- M1, <- M2 in I. destruct I as [I|I]; eauto. }
  apply (thash_binds_t H H_len); [apply S1|apply S2| | |exact E].
  - intros a b Ia Ib. apply NC; auto.
  - intros a Ia. apply NZ; auto.
Qed.
Lemma collision_zero sp t l : collision_free H sp -> In l (s_hist sp) -> stands l t -> thash H t = zero_hash -> t = PNull.
Proof.
  intros [NC NZ] I S E. destruct (stands_root H H_len l t S) as [_ M]. destruct S as (_ & [W|W] & _); [exact W|].
  exfalso. revert E. apply (thash_nonzero H [] t W). intros a Ia. apply NZ. apply in_flat_map. rewrite <- M in Ia. eauto.
Qed.

Lemma hist_fst sp d D hist t w : rdb d sp D hist -> In (t, w) hist -> exists l, In l (s_hist sp) /\ stands l t.
Proof.
  intros S I. pose proof (rm_hist _ _ _ _ S) as F. clear S. induction F as [|x l h ls X F IH]; [contradiction|].
  destruct I as [->|I]; [exists l; split; [now left|exact X]|]. destruct (IH I) as (l' & I' & X'). exists l'. split; [now right|exact X'].
Qed.
Lemma hist_snd sp d D hist l : rdb d sp D hist -> In l (s_hist sp) -> exists t w, In (t, w) hist /\ stands l t.
Proof.
  intros S I. pose proof (rm_hist _ _ _ _ S) as F. clear S. induction F as [|[t w] l0 h ls X F IH]; [contradiction|].
  destruct I as [->|I]; [exists t, w; split; [now left|exact X]|]. destruct (IH I) as (t' & w' & I' & X'). exists t', w'. split; [now right|exact X'].
Qed.

Lemma holds_root s D hist t w l : sinv H C s D hist -> In (t, w) hist -> stands l t -> holds H s (root_node H t w) l.
Proof.
  intros I In1 S. exists t. pose proof (sinv_root H C s D hist t w I In1) as Ro. destruct (root_ok_wft H D t w Ro) as [_ VL].
  split; [|split; [exact S|intros k v X; specialize (VL k v X); lia]].
  destruct Ro as [[-> ->]|(Wf & _ & Dk)]; [reflexivity|].
  assert (Dk' : on_disk H (st_rd s) t w) by (revert Dk; apply on_disk_mono, (si_rd _ _ _ _ _ I)).
  destruct t; [contradiction Wf|split; [reflexivity|exact Dk']|split; [reflexivity|exact Dk']].
Qed.
Lemma holds_null s : holds H s NNull [].
Proof. exists PNull. split; [reflexivity|]. split; [apply stands_nil|]. intros k v []. Qed.

(** ** Looking up roots *)
Lemma find_named d sp D hist h : rdb d sp D hist -> h <> zero_hash ->
  match named H (s_hist sp) h with
  | Some l => In l (s_hist sp) /\ ref_root H l = h
  | None => forall l, In l (s_hist sp) -> ref_root H l <> h
  end.
Proof.
  intros S Hz. unfold named. change (repeat x00 32) with zero_hash.
  destruct (bytes_eqb_spec h zero_hash) as [X|_]; [congruence|].
  destruct (find _ _) as [l|] eqn:E.
  - apply find_some in E. destruct E as [I E]. split; [exact I|]. apply bytes_eqb_eq, E.
  - intros l I X. pose proof (find_none _ _ E l I) as Y. cbv beta in Y. rewrite X, bytes_eqb_refl in Y. discriminate.
Qed.

Lemma lookup_root d sp D hist h : rdb d sp D hist -> collision_free H sp ->
  exists r s', read_history H C (d_store d) h = Ok (r, s') /\ sinv H C s' D hist /\ same_db (d_store d) s' /\
    match named H (s_hist sp) h with
    | Some l => exists n, r = Some n /\ holds H s' n l /\ (In l (s_hist sp) \/ l = []) /\ h = ref_root H l
    | None => r = None
    end.
Proof.
  intros S CF. destruct (read_history_spec H H_len C C_len _ D hist h (rm_inv _ _ _ _ S)) as (r & s' & E & I & Sd & M).
  exists r, s'. split; [exact E|]. split; [exact I|]. split; [exact Sd|].
  destruct (bytes_eqb_spec h zero_hash) as [Hz|Hz].
  - unfold named. change (repeat x00 32) with zero_hash. rewrite Hz, bytes_eqb_refl.
    destruct r as [n|]; [|destruct M; contradiction]. destruct M as [[_ ->]|[X _]]; [|contradiction].
    exists NNull. split; [reflexivity|]. split; [apply holds_null|]. split; [now right|reflexivity].
  - pose proof (find_named _ _ _ _ h S Hz) as F. destruct (named H (s_hist sp) h) as [l|].
    + destruct F as [Il El]. destruct (hist_snd _ _ _ _ l S Il) as (t & w & It & St).
      assert (Et : thash H t = h) by (rewrite <- El; symmetry; apply (stands_root H H_len), St).
      destruct r as [n|]; [|exfalso; destruct M as [_ M]; apply (M t w It Et)].
      destruct M as [[X _]|(_ & t' & w' & It' & Nt & Et' & ->)]; [contradiction|].
      destruct (hist_fst _ _ _ _ _ _ S It') as (l' & Il' & St').
      assert (t' = t) as -> by (apply (collision_pair sp t' t l' l CF Il' Il St' St); congruence).
      exists (NHash h w'). split; [reflexivity|]. split; [|auto].
      pose proof (holds_root s' D hist t w' l I It' St) as X. destruct t; [congruence| |]; cbn [root_node] in X; rewrite Et in X; exact X.
    + destruct r as [n|]; [|reflexivity]. exfalso.
      destruct M as [[X _]|(_ & t' & w' & It' & Nt & Et' & ->)]; [contradiction|].
      destruct (hist_fst _ _ _ _ _ _ S It') as (l' & Il' & St'). apply (F l' Il'). rewrite <- Et'. apply (stands_root H H_len), St'.
Qed.

Lemma tx_create_ok d sp D hist ro : rdb d sp D hist -> collision_free H sp ->
  exists r d', tx_create H C d ro = Ok (r, d') /\ rdb d' sp D hist /\ same_db (d_store d) (d_store d') /\
    match seen H sp ro with Some l => exists n, r = Some n /\ holds H (d_store d') n l | None => r = None end.
Proof.
  intros S CF.
  assert (R : forall h, exists r d', (let! (r, s) := read_history H C (d_store d) h in Ok (r, with_store d s)) = Ok (r, d') /\
    rdb d' sp D hist /\ same_db (d_store d) (d_store d') /\
    match named H (s_hist sp) h with Some l => exists n, r = Some n /\ holds H (d_store d') n l | None => r = None end).
  { intros h. destruct (lookup_root _ _ _ _ h S CF) as (r & s' & E & I & Sd & M). rewrite E. cbn [bind].
    exists r, (with_store d s'). split; [reflexivity|]. split; [eapply same_rdb; eauto|]. split; [exact Sd|].
    destruct (named H (s_hist sp) h) as [l|]; [|exact M]. destruct M as (n & E1 & E2 & _). eauto. }
  destruct ro as [h|]; cbn [tx_create seen]; [apply R|].
  destruct (rm_cur _ _ _ _ S) as (t & St & Eh). destruct (d_revert d) eqn:Er.
  - destruct (R (d_hash d)) as (r & d' & E1 & E2 & E3 & M). exists r, d'. split; [exact E1|]. split; [exact E2|]. split; [exact E3|].
    rewrite Eh in M. destruct (rm_curin _ _ _ _ S) as [Ic|Ec].
    + destruct (bytes_eqb_spec (thash H t) zero_hash) as [Hz|Hz].
      * pose proof (collision_zero sp t _ CF Ic St Hz) as ->. unfold named in M. change (thash H PNull) with (repeat x00 32) in M.
        rewrite bytes_eqb_refl in M. destruct St as (_ & _ & X). cbn [elems In] in X.
        destruct (s_cur sp) as [|x0 ls]; [exact M|]. destruct (proj1 (X x0)). now left.
      * pose proof (find_named _ _ _ _ _ S Hz) as F. destruct (named H (s_hist sp) (thash H t)) as [l|].
        -- destruct M as (n & -> & (t1 & R1 & S1 & V1)). destruct F as [Il El]. exists n. split; [reflexivity|]. exists t1. split; [exact R1|]. split; [|exact V1].
           assert (t1 = t) as ->; [|exact St]. apply (collision_pair sp t1 t l (s_cur sp) CF Il Ic S1 St).
           rewrite <- El. symmetry. apply (stands_root H H_len), S1.
        -- exfalso. apply (F _ Ic). apply (stands_root H H_len), St.
    + rewrite Ec in *. rewrite (stands_fun _ _ _ St stands_nil) in M. unfold named in M. change (thash H PNull) with (repeat x00 32) in M.
      rewrite bytes_eqb_refl in M. exact M.
  - eexists _, d. split; [reflexivity|]. split; [exact S|]. split; [apply same_db_refl|]. eexists. split; [reflexivity|].
    rewrite (rm_rev _ _ _ _ S Er), (si_node _ _ _ _ _ (rm_inv _ _ _ _ S)).
    pose proof (rm_hist _ _ _ _ S) as F. pose proof (rm_inv _ _ _ _ S) as I.
    destruct F as [|[t0 w0] l0 h ls X F]; [apply holds_null|]. cbn [hd]. eapply holds_root; [exact I|now left|exact X].
Qed.
(** ** Transactions *)
Lemma txs_len s a b : Forall2 (txsim s) a b -> length a = length b.
Proof. induction 1; cbn [length]; congruence. Qed.
Lemma txs_live w sp s i l : Forall2 (txsim s) (w_txs w) (s_txs sp) -> txat sp i = Some l ->
  exists n, live w i = Ok n /\ holds H s n l.
Proof.
  unfold live, txat. intros F. revert i. induction F as [|t o a b X F IH]; intros i E; [destruct i; discriminate E|].
  destruct i as [|i]; [|apply IH, E]. cbn [nth] in *. subst o. destruct t as [n| |]; cbn in X; [eauto|contradiction|contradiction].
Qed.
Lemma txs_upd s a b i t o : Forall2 (txsim s) a b -> txsim s t o -> Forall2 (txsim s) (upd a i t) (upd b i o).
Proof.
  intros F X. revert i. induction F as [|t0 o0 a b X0 F IH]; intros i; [destruct i; constructor|].
  destruct i as [|i]; cbn [upd]; constructor; auto.
Qed.
Lemma txs_upd1 s w sp i n : Forall2 (txsim s) (w_txs w) (s_txs sp) -> txat sp i = Some n ->
  forall m, holds H s m n -> Forall2 (txsim s) (upd (w_txs w) i (TLive m)) (s_txs sp).
Proof.
  unfold txat. intros F. revert i. induction F as [|t0 o0 a b X0 F IH]; intros i E m Hm; [destruct i; constructor|].
  destruct i as [|i]; cbn [upd nth] in *; constructor; auto. subst o0. exact Hm.
Qed.

(** ** One call *)
Definition tsame (sp sp' : spec) : Prop :=
  s_hist sp' = s_hist sp /\ s_cur sp' = s_cur sp /\ s_failed sp' = s_failed sp /\ s_bytes sp' = s_bytes sp.
Lemma tsame_rdb d sp sp' D hist : tsame sp sp' -> rdb d sp D hist -> rdb d sp' D hist.
Proof. intros (E1 & E2 & E3 & E4) []. constructor; rewrite ?E1, ?E2, ?E3, ?E4; auto. Qed.
Lemma tsame_refl sp : tsame sp sp. Proof. repeat split. Qed.
Lemma tsame_set sp i x : tsame sp (set_tx sp i x). Proof. repeat split. Qed.
Lemma tsame_add sp x : tsame sp (add_tx sp x). Proof. repeat split. Qed.

Lemma world_eta w d : w_db w = Some d -> w = mkworld (Some d) (w_txs w).
Proof. destruct w; cbn; congruence. Qed.

Ltac same E := unfold step; rewrite E.


Definition rserved (w : world) (sp : spec) (D : list bytes) (hist : list (ptree * ptr)) (c : call) : Prop :=
  exists a w' d d', w_db w = Some d /\ w_db w' = Some d' /\ step H C w c = Ok (a, w') /\ good H sp w c a /\
    rdb d' (snext H sp c a) D hist /\ Forall2 (txsim (d_store d')) (w_txs w') (s_txs (snext H sp c a)) /\
    same_db (d_store d) (d_store d') /\
    s_hist (snext H sp c a) = s_hist sp /\ s_failed (snext H sp c a) = s_failed sp /\ s_bytes (snext H sp c a) = s_bytes sp.

Lemma rserved_same w sp c d d' D hist txs a :
  w_db w = Some d ->
  step H C w c = Ok (a, mkworld (Some d') txs) -> good H sp w c a -> tsame sp (snext H sp c a) ->
  rdb d' sp D hist -> same_db (d_store d) (d_store d') ->
  Forall2 (txsim (d_store d')) txs (s_txs (snext H sp c a)) -> rserved w sp D hist c.
Proof.
  intros Ew E G T S' Sd F. exists a, (mkworld (Some d') txs), d, d'. split; [exact Ew|]. split; [reflexivity|]. split; [exact E|].
  split; [exact G|]. split; [eapply tsame_rdb; eassumption|]. split; [exact F|]. split; [exact Sd|]. destruct T as (T1&T2&T3&T4). auto.
Qed.

Lemma rdb_read_ok w sp c d D hist ro (op : db -> node -> res answer) :
  w_db w = Some d -> rdb d sp D hist -> Forall2 (txsim (d_store d)) (w_txs w) (s_txs sp) -> collision_free H sp ->
  step H C w c = (let! (a, d) := db_read H C op d ro in Ok (a, mkworld (Some d) (w_txs w))) ->
  (forall a, snext H sp c a = sp) ->
  (forall d' n l, seen H sp ro = Some l -> holds H (d_store d') n l -> exists a, op d' n = Ok a /\ good H sp w c a) ->
  (seen H sp ro = None -> good H sp w c (AErr ENOTFOUND)) ->
  rserved w sp D hist c.
Proof.
  intros Ew S F CF E N P1 P2. destruct (tx_create_ok d sp D hist ro S CF) as (r & d' & E1 & S' & Sd & M).
  unfold db_read in E. rewrite E1 in E. cbn [bind] in E. pose proof (same_rmono _ _ Sd) as Rm.
  assert (Fin : forall a, step H C w c = Ok (a, mkworld (Some d') (w_txs w)) -> good H sp w c a -> rserved w sp D hist c).
  { intros a Ea G. eapply rserved_same; eauto; rewrite N; [apply tsame_refl|eapply txs_mono; eassumption]. }
  destruct (seen H sp ro) as [l|].
  - destruct M as (n & -> & Hn). destruct (P1 d' n l eq_refl Hn) as (a & Ea & G). rewrite Ea in E. cbn [bind] in E. eauto.
  - subst r. cbn [bind] in E. eauto.
Qed.

Theorem rstep_ok w sp d D hist c : w_db w = Some d -> rdb d sp D hist -> Forall2 (txsim (d_store d)) (w_txs w) (s_txs sp) ->
  allowed H sp w c -> writes c = false -> rserved w sp D hist c.
Proof.
  intros Ew S F [CF OK] Wc.
  destruct c as [|h|k ro|k ro|k v|k|k ro|ro|i|i|i|i h|i k|i k|i k v|i k|i k|i|]; cbn [call_ok] in OK.
  - (* root *)
    eapply (rserved_same w sp _ d d D hist (w_txs w)); eauto using tsame_refl, same_db_refl.
    + unfold step. rewrite Ew. rewrite <- (world_eta _ _ Ew). reflexivity.
    + cbn [good]. destruct (rm_cur _ _ _ _ S) as (t & St & ->). rewrite (proj1 (stands_root H H_len _ _ St)). reflexivity.
  - (* inject *)
    destruct (lookup_root _ _ _ _ h S CF) as (r & s' & E & I & Sd & M).
    assert (Es : step H C w (CInject h) = let! (a, d) := db_inject H C d h in Ok (a, mkworld (Some d) (w_txs w))) by (unfold step; rewrite Ew; reflexivity).
    unfold db_inject in Es. rewrite E in Es. cbn [bind] in Es. pose proof (same_rmono _ _ Sd) as Rm.
    destruct (named H (s_hist sp) h) as [l|] eqn:En.
    + destruct M as (n & -> & Hn & Hin & Eh). cbn [bind] in Es. exists AOk, (mkworld (Some (mkdb s' h true)) (w_txs w)), d, (mkdb s' h true).
      split; [exact Ew|]. split; [reflexivity|]. split; [exact Es|]. split; [cbn [good]; rewrite En; reflexivity|].
      cbn [snext]. rewrite En. split; [|split; [cbn [w_txs d_store s_txs]; eapply txs_mono; eassumption|split; [exact Sd|repeat split]]].
      destruct S as [S1 S2 S3 S4 S5]. constructor; cbn [d_store d_hash d_revert s_hist s_cur] in *; auto; [|discriminate].
      destruct Hn as (t & _ & St & _). exists t. split; [exact St|]. rewrite Eh. apply (stands_root H H_len), St.
    + destruct (OK eq_refl).
  - (* get *)
    eapply (rdb_read_ok w sp _ d D hist ro); [exact Ew|exact S|exact F|exact CF|unfold step; rewrite Ew; reflexivity|reflexivity| |].
    + intros d' n l E Hn. exists (get_answer l k). split; [apply (tx_get_ok H H_len); assumption|]. cbn [good]. rewrite E. reflexivity.
    + intros E. cbn [good]. rewrite E. reflexivity.
  - (* has *)
    eapply (rdb_read_ok w sp _ d D hist ro); [exact Ew|exact S|exact F|exact CF|unfold step; rewrite Ew; reflexivity|reflexivity| |].
    + intros d' n l E Hn. exists (has_answer l k). split; [apply (tx_has_ok H H_len); assumption|]. cbn [good]. rewrite E. reflexivity.
    + intros E. cbn [good]. rewrite E. reflexivity.
  - discriminate Wc.
  - discriminate Wc.
  - (* prove *)
    eapply (rdb_read_ok w sp _ d D hist ro); [exact Ew|exact S|exact F|exact CF|unfold step; rewrite Ew; reflexivity|reflexivity| |].
    + intros d' n l E Hn. destruct (tx_prove_ok H H_len d' n l k Hn OK) as (raw & n' & Ep & _ & P & _).
      exists (AProof raw). split; [cbv beta; rewrite Ep; reflexivity|]. cbn [good]. rewrite E. exact P.
    + intros E. cbn [good]. rewrite E. reflexivity.
  - (* tx_create *)
    destruct (tx_create_ok d sp D hist ro S CF) as (r & d' & E1 & S' & Sd & M). pose proof (same_rmono _ _ Sd) as Rm.
    destruct (seen H sp ro) as [l|] eqn:Es.
    + destruct M as (n & -> & Hn). eapply (rserved_same w sp _ d d' D hist (w_txs w ++ [TLive n])); eauto.
      * unfold step. rewrite Ew, E1. reflexivity.
      * cbn [good]. rewrite Es, (txs_len _ _ _ F). reflexivity.
      * cbn [snext]. rewrite Es. apply tsame_add.
      * cbn [snext]. rewrite Es. apply Forall2_app; [eapply txs_mono; eassumption|]. constructor; [exact Hn|constructor].
    + subst r. eapply (rserved_same w sp _ d d' D hist (w_txs w)); eauto.
      * unfold step. rewrite Ew, E1. reflexivity.
      * cbn [good]. rewrite Es. reflexivity.
      * cbn [snext]. rewrite Es. apply tsame_refl.
      * cbn [snext]. rewrite Es. eapply txs_mono; eassumption.
  - (* tx_destroy *)
    destruct (txat sp i) as [l|] eqn:Et; [|congruence]. destruct (txs_live w sp _ i l F Et) as (n & En & Hn).
    eapply (rserved_same w sp _ d d D hist); eauto using same_db_refl, tsame_set.
    + unfold step. rewrite Ew, En. reflexivity.
    + reflexivity.
    + cbn [snext]. apply txs_upd; [exact F|exact I].
  - (* tx_clear *)
    destruct OK as [OK Ec]. destruct (txat sp i) as [l|] eqn:Et; [|congruence]. destruct (txs_live w sp _ i l F Et) as (n & En & Hn).
    eapply (rserved_same w sp _ d d D hist); eauto using same_db_refl, tsame_set.
    + unfold step. rewrite Ew, En. reflexivity.
    + reflexivity.
    + cbn [snext]. apply txs_upd; [exact F|]. cbn [txsim]. rewrite Ec, (si_node _ _ _ _ _ (rm_inv _ _ _ _ S)).
      pose proof (rm_hist _ _ _ _ S) as Fh. pose proof (rm_inv _ _ _ _ S) as I.
      destruct Fh as [|[t0 w0] l0 h ls X Fh]; [apply holds_null|]. cbn [hd]. eapply holds_root; [exact I|now left|exact X].
  - (* tx_root *)
    destruct (txat sp i) as [l|] eqn:Et; [|congruence]. destruct (txs_live w sp _ i l F Et) as (n & En & Hn).
    destruct (tx_root_ok H H_len _ n l Hn) as (n' & E & Hn').
    eapply (rserved_same w sp _ d d D hist (upd (w_txs w) i (TLive n'))); eauto using same_db_refl, tsame_refl.
    + unfold step. rewrite Ew, En. cbn [bind]. rewrite E. reflexivity.
    + cbn [good]. intros l' E'. congruence.
    + cbn [snext]. eapply txs_upd1; eassumption.
  - (* tx_inject *)
    destruct (txat sp i) as [l|] eqn:Et; [|congruence]. destruct (txs_live w sp _ i l F Et) as (n & En & Hn).
    destruct (lookup_root _ _ _ _ h S CF) as (r & s' & E & I & Sd & M). pose proof (same_rmono _ _ Sd) as Rm.
    destruct (named H (s_hist sp) h) as [l'|] eqn:Eh.
    + destruct M as (n' & -> & Hn' & _). eapply (rserved_same w sp _ d (with_store d s') D hist (upd (w_txs w) i (TLive n'))); eauto.
      * unfold step. rewrite Ew, En. cbn [bind]. unfold tx_inject. rewrite E. reflexivity.
      * cbn [good]. rewrite Eh. reflexivity.
      * cbn [snext]. rewrite Eh. apply tsame_set.
      * eapply same_rdb; eauto.
      * cbn [snext]. rewrite Eh. apply txs_upd; [eapply txs_mono; eassumption|exact Hn'].
    + subst r. eapply (rserved_same w sp _ d (with_store d s') D hist (upd (w_txs w) i (TLive n))); eauto.
      * unfold step. rewrite Ew, En. cbn [bind]. unfold tx_inject. rewrite E. reflexivity.
      * cbn [good]. rewrite Eh. reflexivity.
      * cbn [snext]. rewrite Eh. apply tsame_refl.
      * eapply same_rdb; eauto.
      * cbn [snext]. rewrite Eh. eapply txs_upd1; [eapply txs_mono; eassumption|exact Et|eapply holds_mono; eassumption].
  - (* tx_get *)
    destruct OK as [OK Lk]. destruct (txat sp i) as [l|] eqn:Et; [|congruence]. destruct (txs_live w sp _ i l F Et) as (n & En & Hn).
    eapply (rserved_same w sp _ d d D hist (w_txs w)); eauto using same_db_refl, tsame_refl.
    + unfold step. rewrite Ew, En. cbn [bind]. rewrite (tx_get_ok H H_len d n l k Hn Lk). cbn [bind]. rewrite <- (world_eta _ _ Ew). reflexivity.
    + cbn [good]. intros l' E'. congruence.
  - (* tx_has *)
    destruct OK as [OK Lk]. destruct (txat sp i) as [l|] eqn:Et; [|congruence]. destruct (txs_live w sp _ i l F Et) as (n & En & Hn).
    eapply (rserved_same w sp _ d d D hist (w_txs w)); eauto using same_db_refl, tsame_refl.
    + unfold step. rewrite Ew, En. cbn [bind]. rewrite (tx_has_ok H H_len d n l k Hn Lk). cbn [bind]. rewrite <- (world_eta _ _ Ew). reflexivity.
    + cbn [good]. intros l' E'. congruence.
  - (* tx_insert *)
    destruct OK as [OK Lk]. destruct (txat sp i) as [l|] eqn:Et; [|congruence]. destruct (txs_live w sp _ i l F Et) as (n & En & Hn).
    destruct (Nat.ltb_spec 1023 (length v)) as [L|L].
    + eapply (rserved_same w sp _ d d D hist (upd (w_txs w) i (TLive n))); eauto using same_db_refl.
      * unfold step. rewrite Ew, En. cbn [bind]. rewrite (tx_insert_long H H_len C C_len d n k v L). reflexivity.
      * cbn [good]. destruct (Nat.ltb_spec 1023 (length v)); [reflexivity|lia].
      * cbn [snext]. destruct (Nat.ltb_spec 1023 (length v)); [apply tsame_refl|lia].
      * cbn [snext]. destruct (Nat.ltb_spec 1023 (length v)); [|lia]. eapply txs_upd1; eassumption.
    + destruct (tx_insert_ok H H_len C C_len d n l k v Hn Lk L) as (n' & E & Hn').
      eapply (rserved_same w sp _ d d D hist (upd (w_txs w) i (TLive n'))); eauto using same_db_refl.
      * unfold step. rewrite Ew, En. cbn [bind]. rewrite E. reflexivity.
      * cbn [good]. destruct (Nat.ltb_spec 1023 (length v)); [lia|reflexivity].
      * cbn [snext]. destruct (Nat.ltb_spec 1023 (length v)); [lia|]. rewrite Et. apply tsame_set.
      * cbn [snext]. destruct (Nat.ltb_spec 1023 (length v)); [lia|]. rewrite Et. apply txs_upd; [exact F|exact Hn'].
  - (* tx_remove *)
    destruct OK as [OK Lk]. destruct (txat sp i) as [l|] eqn:Et; [|congruence]. destruct (txs_live w sp _ i l F Et) as (n & En & Hn).
    pose proof (tx_remove_ok H H_len d n l k Hn Lk) as R. destruct (lookup l k) as [v|] eqn:El.
    + destruct R as (n' & E & Hn').
      eapply (rserved_same w sp _ d d D hist (upd (w_txs w) i (TLive n'))); eauto using same_db_refl.
      * unfold step. rewrite Ew, En. cbn [bind]. rewrite E. reflexivity.
      * cbn [good]. intros l' E'. replace l' with l by congruence. rewrite El. reflexivity.
      * cbn [snext]. rewrite Et, El. apply tsame_set.
      * cbn [snext]. rewrite Et, El. apply txs_upd; [exact F|exact Hn'].
    + eapply (rserved_same w sp _ d d D hist (upd (w_txs w) i (TLive n))); eauto using same_db_refl.
      * unfold step. rewrite Ew, En. cbn [bind]. rewrite R. reflexivity.
      * cbn [good]. intros l' E'. replace l' with l by congruence. rewrite El. reflexivity.
      * cbn [snext]. rewrite Et, El. apply tsame_refl.
      * cbn [snext]. rewrite Et, El. eapply txs_upd1; eassumption.
  - (* tx_prove *)
    destruct OK as [OK Lk]. destruct (txat sp i) as [l|] eqn:Et; [|congruence]. destruct (txs_live w sp _ i l F Et) as (n & En & Hn).
    destruct (tx_prove_ok H H_len d n l k Hn Lk) as (raw & n' & Ep & Hn' & P & _).
    eapply (rserved_same w sp _ d d D hist (upd (w_txs w) i (TLive n'))); eauto using same_db_refl, tsame_refl.
    + unfold step. rewrite Ew, En. cbn [bind]. rewrite Ep. reflexivity.
    + cbn [good]. intros l' E'. replace l' with l by congruence. exact P.
    + cbn [snext]. eapply txs_upd1; eassumption.
  - discriminate Wc.
  - discriminate Wc.
Qed.

(** ** All calls *)
Definition sim (key : bytes) (w : world) (sp : spec) : Prop :=
  exists d D V hist W, w_db w = Some d /\ st_key (d_store d) = key /\ simdb d sp D V hist W /\
    Forall2 (txsim (d_store d)) (w_txs w) (s_txs sp).

Lemma same_view s s' V : same_db s s' -> view s V -> view s' V.
Proof.
  intros (A1&A2&A3&A4&A5&A6&A7&A8) (b & c & p & ps & W & E). exists b, c, p, ps. split; [|exact E].
  destruct W. constructor; rewrite ?A1, ?A4, ?A6, ?A7; assumption.
Qed.
Lemma same_clean s s' : same_db s s' -> clean_st s -> clean_st s'.
Proof.
  intros (A1&A2&A3&A4&A5&A6&A7&A8) []. constructor; rewrite ?A1, ?A4, ?A6, ?A7; assumption.
Qed.

Lemma same_simdb d d' sp D V hist W : simdb d sp D V hist W -> same_db (d_store d) (d_store d') ->
  sinv H C (d_store d') D hist -> d_hash d' = d_hash d -> d_revert d' = d_revert d -> simdb d' sp D V hist W.
Proof.
  intros [] S I E1 E2. pose proof S as (A1&A2&A3&A4&A5&A6&A7&A8).
  constructor; rewrite ?E1, ?E2, ?A1, ?A5, ?A8; auto.
  - eauto using same_view.
  - intros F. destruct (sm_ok0 F) as (X1 & X2). split; [eauto using same_clean|exact X2].
Qed.

Lemma simdb_rdb d sp D V hist W : simdb d sp D V hist W -> rdb d sp D hist.
Proof. intros []. constructor; assumption. Qed.
Lemma rdb_simdb d d' sp sp' D V hist W : simdb d sp D V hist W -> same_db (d_store d) (d_store d') -> rdb d' sp' D hist ->
  s_failed sp' = s_failed sp -> s_bytes sp' = s_bytes sp -> simdb d' sp' D V hist W.
Proof.
  intros [] S [] E1 E2. pose proof S as (A1&A2&A3&A4&A5&A6&A7&A8).
  constructor; rewrite ?E1, ?E2, ?A1, ?A5, ?A8; auto.
  - eauto using same_view.
  - intros F. destruct (sm_ok0 F) as (X1 & X2). split; [eauto using same_clean|exact X2].
Qed.


(** ** Without failing system calls a commit succeeds *)
Lemma quiet_write s d : st_io s = [] ->
  match store_write s d with Ok (ok, s') => ok = true /\ st_io s' = [] | Abort => True | _ => False end.
Proof.
  intros Q. unfold store_write, check. rewrite Q. cbn [tl].
  assert (F : forall s0, st_io s0 = [] -> let '(ok, s') := file_write s0 WOk d in ok = true /\ st_io s' = []).
  { intros s0 Q0. unfold file_write. destruct d; cbn; auto. }
  destruct (_ <? _)%N.
  - destruct (_ <? _)%N; [|exact I]. 
    match goal with |- context [file_write ?x WOk d] => specialize (F x); destruct (file_write x WOk d); apply F end.
    destruct (_ <? _)%N; reflexivity.
  - match goal with |- context [file_write ?x WOk d] => specialize (F x); destruct (file_write x WOk d); apply F end. reflexivity.
Qed.
Lemma quiet_flush_loop cs : forall s i d, st_io s = [] ->
  match flush_loop s i cs d with Ok (r, s') => r = None /\ st_io s' = [] | Abort => True | _ => False end.
Proof.
  induction cs as [|c cs IH]; intros s i d Q; [cbn; auto|]. cbn [flush_loop]. pose proof (quiet_write s (firstn c d) Q) as W.
  destruct (store_write s (firstn c d)) as [[ok s1]| | | |]; cbn [bind]; try exact W. destruct W as [-> W]. apply IH, W.
Qed.
Lemma quiet_flush s : st_io s = [] ->
  match store_flush s with Ok (ok, s') => ok = true /\ st_io s' = [] | Abort => True | _ => False end.
Proof.
  intros Q. unfold store_flush. 
  match goal with |- context [flush_loop ?a ?b ?c ?d] => pose proof (quiet_flush_loop c a b d Q) as W; destruct (flush_loop a b c d) as [[r s1]| | | |] end;
    cbn [bind]; try exact W. destruct W as [-> W]. auto.
Qed.

Lemma slab_write_io sl d : match slab_write sl d with Ok _ => True | Abort => True | _ => False end.
Proof. unfold slab_write, check. destruct (_ <=? _)%N; exact I. Qed.

Lemma quiet_node s n n' s' : st_io s = [] -> write_node s n = Ok (n', s') -> st_io s' = [].
Proof.
  intros Q E. unfold write_node in E. destruct (node_write n); cbn [bind] in E; try discriminate E.
  destruct n as [|h [w|] p l r|h [w|] k v vp|h w]; try discriminate E;
  (destruct (slab_write _ _); cbn [bind] in E; try discriminate E; apply Ok_inj in E; injection E as _ <-; exact Q).
Qed.
Lemma quiet_value s n n' s' : st_io s = [] -> write_value s n = Ok (n', s') -> st_io s' = [].
Proof.
  intros Q E. unfold write_value in E. destruct n as [|h w p l r|h w k [v|] [vp|]|h w]; try discriminate E.
  destruct (slab_write _ _); cbn [bind] in E; try discriminate E; apply Ok_inj in E; injection E as _ <-; exact Q.
Qed.

Lemma quiet_tree_write n : forall s, st_io s = [] ->
  match tree_write H s n with Ok (r, s') => r <> None /\ st_io s' = [] | _ => True end.
Proof.
  induction n as [|h w p l IHl r IHr|h w k v vp|h w]; intros s Q; cbn [tree_write].
  - split; [discriminate|exact Q].
  - specialize (IHl s Q). destruct (tree_write H s l) as [[[l'|] s1]| | | |]; cbn [bind]; try exact I; [|destruct IHl; congruence].
    destruct IHl as [_ Q1]. specialize (IHr s1 Q1). destruct (tree_write H s1 r) as [[[r'|] s2]| | | |]; cbn [bind]; try exact I; [|destruct IHr; congruence].
    destruct IHr as [_ Q2].
    assert (Fin : forall n s3, st_io s3 = [] -> match (let! (_, n) := node_hash H n in let! out := node_to_hash n in Ok (Some out, s3)) with
        | Ok (r0, s') => r0 <> None /\ st_io s' = [] | _ => True end).
    { intros n s3 Q3. destruct (node_hash H n) as [[? n1]| | | |]; cbn [bind]; try exact I. destruct (node_to_hash n1); cbn [bind]; try exact I.
      split; [discriminate|exact Q3]. }
    destruct w as [w|]; cbn [bind negb]; [apply Fin, Q2|].
    destruct (write_node s2 (NInt h None p l' r')) as [[n3 s3]| | | |] eqn:E3; cbn [bind]; try exact I.
    pose proof (quiet_node _ _ _ _ Q2 E3) as Q3.
    destruct (needs_flush s3); cbn [bind negb]; [|apply Fin, Q3].
    pose proof (quiet_flush s3 Q3) as F. destruct (store_flush s3) as [[ok s4]| | | |]; cbn [bind]; try exact I.
    destruct F as [-> Q4]. cbn [negb]. apply Fin, Q4.
  - assert (Fin : forall n s3, st_io s3 = [] -> match (let! (_, n) := node_hash H n in let! out := node_to_hash n in Ok (Some out, s3)) with
        | Ok (r0, s') => r0 <> None /\ st_io s' = [] | _ => True end).
    { intros n s3 Q3. destruct (node_hash H n) as [[? n1]| | | |]; cbn [bind]; try exact I. destruct (node_to_hash n1); cbn [bind]; try exact I.
      split; [discriminate|exact Q3]. }
    destruct w as [w|]; cbn [bind negb]; [apply Fin, Q|].
    destruct (write_value s _) as [[n2 s2]| | | |] eqn:E2; cbn [bind]; try exact I.
    pose proof (quiet_value _ _ _ _ Q E2) as Q2.
    destruct (write_node s2 n2) as [[n3 s3]| | | |] eqn:E3; cbn [bind]; try exact I.
    pose proof (quiet_node _ _ _ _ Q2 E3) as Q3.
    destruct (needs_flush s3); cbn [bind negb]; [|apply Fin, Q3].
    pose proof (quiet_flush s3 Q3) as F. destruct (store_flush s3) as [[ok s4]| | | |]; cbn [bind]; try exact I.
    destruct F as [-> Q4]. cbn [negb]. apply Fin, Q4.
  - split; [discriminate|exact Q].
Qed.

Lemma quiet_meta s1 root : st_io s1 = [] -> match write_meta C s1 root with Ok (_, s2) => st_io s2 = [] | _ => True end.
Proof.
  intros Q1. unfold write_meta. destruct (written root) as [w|]; [|exact I]. destruct (node_to_hash root) as [rn| | | |]; cbn [bind]; try exact I.
  match goal with |- context [bind ?x _] => destruct x as [sl| | | |] end; cbn [bind]; try exact I.
  match goal with |- context [bind ?x _] => destruct x as [sl2| | | |] end; cbn [bind]; try exact I. exact Q1.
Qed.

Lemma quiet_commit s n s' : st_io s = [] -> tree_commit H C s n <> Ok (None, s').
Proof.
  intros Q E. unfold tree_commit in E. pose proof (quiet_tree_write n s Q) as W.
  destruct (tree_write H s n) as [[[root|] s1]| | | |]; cbn [bind] in E; try discriminate E; [|destruct W; congruence].
  destruct W as [_ Q1]. unfold store_commit in E.
  destruct (write_meta C s1 root) as [[mt s2]| | | |] eqn:E2; cbn [bind] in E; try discriminate E.
  pose proof (quiet_meta s1 root Q1) as Q2. rewrite E2 in Q2.
  pose proof (quiet_flush s2 Q2) as F. destruct (store_flush s2) as [[ok s3]| | | |]; cbn [bind] in E; try discriminate E.
  destruct F as [-> Q3]. cbn [negb bind] in E.
  destruct (m_node mt); cbn [bind] in E; try discriminate E; destruct (cache_insert _ _); cbn [bind] in E; discriminate E.
Qed.

(** ** Commit *)
Lemma vcommit_tail V r : V <> [] -> length r = 38 ->
  exists b f, vcommit V r = b ++ [f ++ r] /\ ((blen f mod 38 = 0)%N \/ misplaced b f).
Proof.
  intros N L. assert (Br : blen r = 38%N) by (unfold blen; rewrite L; reflexivity).
  destruct (N.le_gt_cases (blen (last V [])) (MAX_FILE_SIZE - 30)) as [R|R].
  { destruct (vcommit_end V r N R Br) as (b & f & E & A). eauto. }
  unfold vcommit. unfold vapp at 1. rewrite Br. destruct (N.ltb_spec MAX_FILE_SIZE (blen (last (vpad V) []) + 38)) as [X|X].
  - exists (vpad V), []. split; [reflexivity|]. left. reflexivity.
  - exists (removelast (vpad V)), (last (vpad V) []). split; [reflexivity|]. right. revert X. unfold vpad, misplaced.
    assert (Hm : (blen (last V []) mod 38 < 38)%N) by (apply N.mod_lt; lia).
    destruct (N.eqb_spec (blen (last V []) mod 38) 0) as [E|E]. { unfold MAX_FILE_SIZE in *. lia. }
    rewrite last_vapp by exact N. unfold vapp. rewrite blen_repeat.
    destruct (N.ltb_spec MAX_FILE_SIZE (blen (last V []) + N.of_nat (38 - N.to_nat (blen (last V []) mod 38)))) as [Y|Y].
    + intros _. rewrite removelast_last, repeat_length. split; [exact N|]. split; [exact R|]. lia.
    + rewrite blen_app, blen_repeat. unfold MAX_FILE_SIZE in *. lia.
Qed.

Lemma total_adds V n V' : adds V n V' -> V <> [] -> total V' = total V + n.
Proof.
  intros A N. assert (G : V' <> [] /\ total V' = total V + n).
  { induction A as [|m V1 d A IH L]; [split; [exact N|lia]|]. destruct IH as [N1 E]. split; [apply vapp_nonnil|].
    rewrite (total_vapp H H_len C C_len) by exact N1. lia. }
  apply G.
Qed.
Lemma last_total V : (blen (last V []) <= N.of_nat (total V))%N.
Proof.
  unfold blen. destruct (exists_last (l := [] :: V) ltac:(discriminate)) as (b & f & E).
  destruct V as [|v V]; [cbn; lia|]. destruct (exists_last (l := v :: V) ltac:(discriminate)) as (b' & f' & ->).
  rewrite last_last, total_app. unfold total, list_sum. cbn [map fold_right]. lia.
Qed.

Lemma files_bound d sp D V hist W m : simdb d sp D V hist W -> (s_bytes sp + m <= LIMIT)%N ->
  (N.of_nat (length V) + 1 + m / (MAX_FILE_SIZE - 254) < MAX_FILES)%N.
Proof.
  intros S L. pose proof (sm_adds _ _ _ _ _ _ S) as A. apply (adds_files H H_len) in A; [|discriminate].
  pose proof (sm_bytes _ _ _ _ _ _ S) as B. cbn [length] in A.
  assert (X : (N.of_nat W / (MAX_FILE_SIZE - 254) + m / (MAX_FILE_SIZE - 254) <= (N.of_nat W + m) / (MAX_FILE_SIZE - 254))%N).
  { apply N.div_le_lower_bound; [unfold MAX_FILE_SIZE; lia|].
    pose proof (N.mul_div_le (N.of_nat W) (MAX_FILE_SIZE - 254)). pose proof (N.mul_div_le m (MAX_FILE_SIZE - 254)).
    unfold MAX_FILE_SIZE in *. lia. }
  assert (Y : ((N.of_nat W + m) / (MAX_FILE_SIZE - 254) <= LIMIT / (MAX_FILE_SIZE - 254))%N).
  { apply N.div_le_mono; [unfold MAX_FILE_SIZE; lia|lia]. }
  change (LIMIT / (MAX_FILE_SIZE - 254))%N with 32596%N in Y. unfold MAX_FILES.
  revert A X Y. generalize (N.of_nat W / (MAX_FILE_SIZE - 254))%N (m / (MAX_FILE_SIZE - 254))%N ((N.of_nat W + m) / (MAX_FILE_SIZE - 254))%N.
  clear. intros. lia.
Qed.

Lemma tx_commit_ok d sp D V hist W n l : simdb d sp D V hist W -> holds H (d_store d) n l -> can_commit sp l ->
  exists a d' t, tx_commit H C d n = Ok (a, d', t) /\ rmono (d_store d) (d_store d') /\ iosub (d_store d) (d_store d') /\ st_key (d_store d') = st_key (d_store d) /\
    ((a = AOk /\ exists n' D' W' hist', t = TLive n' /\ holds H (d_store d') n' l /\
        simdb d' (committed sp l) D' D' hist' W' /\ logs (d_store d) (d_store d') D') \/
     (a = AErr EBADWRITE /\ t = TDangling /\ st_io (d_store d) <> [] /\
        exists V' W', simdb d' (commit_failed sp l) D V' hist W')).
Proof.
  intros S (t & R & St & VL) [F255 Lim]. pose proof S as [S1 S2 S3 S4 S5 S6 S7 S8 S9 S10 S11 S12 S13 S14 S15].
  pose proof (vals_le_stands _ _ _ St F255) as V255. pose proof St as (_ & Wt & _). pose proof (tcost_weight l t St) as Cw.
  pose proof (tree_commit_spec H H_len C C_len (d_store d) V D hist n t S1 S2 S3 R Wt V255) as T.
  pose proof (tree_commit_no_abort H H_len C C_len (d_store d) V D hist n t S1 S2 S3 R Wt V255) as NA.
  pose proof (fun s' => quiet_commit (d_store d) n s') as QC. unfold tx_commit.
  destruct (tree_commit H C (d_store d) n) as [[[n'|] s']| | | |]; [| |contradiction| |contradiction|contradiction]; cbn [bind].
  - destruct T as (w & V1 & T). cbv zeta in T. set (V' := vcommit V1 (the_record C (d_store d) w)) in *.
    destruct T as (E1 & T1 & T2 & T3 & T4 & T5 & T6 & T7 & T8 & T9 & (m & M & A) & T10 & K).
    eexists _, _, _. split; [reflexivity|]. cbn [d_store]. split; [exact T6|]. split; [exact T8|].
    split; [exact K|]. left. split; [reflexivity|].
    assert (NV1 : V1 <> []) by apply (cutof_nonnil _ _ (cutof_trans _ _ _ S3 T1)).
    assert (Lr : length (the_record C (d_store d) w) = 38) by apply meta_write_length, C_len.
    destruct (vcommit_adds H H_len C C_len V1 (the_record C (d_store d) w) NV1 Lr) as (m2 & M2 & A2). fold V' in A2.
    exists n', V', (W + (m + m2)), ((t, w) :: hist). split; [reflexivity|].
    assert (Hh : holds H s' (root_node H t w) l) by (eapply holds_root; [exact T5|now left|exact St]).
    split; [rewrite E1; exact Hh|]. split; [|exact T7].
    constructor; cbn [d_store d_hash d_revert committed s_failed s_bytes s_hist s_cur]; auto.
    + rewrite <- T3. apply clean_view, T4.
    + apply cutof_refl'. apply vapp_nonnil.
    + cbn [tail_at]. destruct (vcommit_tail V1 _ NV1 Lr) as (b & f & E & Pl). fold V' in E. exists b, f, (the_record C (d_store d) w).
      split; [exact E|]. split; [exact Lr|]. split; [|exact Pl]. rewrite T10. f_equal. rewrite E, last_last, blen_app. unfold blen at 2. rewrite Lr. lia.
    + eapply adds_trans; [exact S8|]. eapply adds_trans; [exact A|exact A2].
    + lia.
    + exists t. split; [exact St|]. rewrite E1. destruct t; reflexivity.
    + left. now left.
    + intros Sm. destruct (vcommit_end V1 (the_record C (d_store d) w) NV1) as (b & f & E & Af).
      { unfold room. pose proof (total_adds _ _ _ (adds_trans _ _ _ _ _ S8 A) ltac:(discriminate)) as TV.
        assert (L1 : (blen (last V1 []) <= N.of_nat (total V1))%N) by apply last_total.
        change (total [[]]) with 0 in TV. lia. }
      { unfold blen. rewrite Lr. reflexivity. }
      fold V' in E. unfold aligned. rewrite E, last_last, blen_app. unfold blen at 2. rewrite Lr.
      replace (blen f + N.of_nat 38)%N with (blen f + 1 * 38)%N by lia. rewrite N.mod_add by lia. exact Af.
  - destruct T as (T1 & T2 & T3 & T4 & T5 & _). eexists _, _, _. split; [reflexivity|]. cbn [with_store d_store].
    split; [exact T3|]. split; [exact T4|]. split; [apply T2|]. right. split; [reflexivity|]. split; [reflexivity|]. split.
    { intros Q. exact (QC s' Q eq_refl). }
    destruct (T5 S4) as (V' & m & M & A & Cv & Vv). exists V', (W + m).
    constructor; cbn [with_store d_store d_hash d_revert commit_failed s_failed s_bytes s_hist s_cur]; auto; try discriminate.
    + eapply cutof_trans; eassumption.
    + destruct T2 as (_ & -> & _). exact S6.
    + eapply adds_trans; eassumption.
    + lia.
    + intros Sm. apply S15. lia.
  - exfalso. apply NA; [|reflexivity]. 
    pose proof (files_bound _ _ _ _ _ _ (weight l) S Lim) as FB.
    assert (Q : (N.of_nat (tcost t + 75) / (MAX_FILE_SIZE - 254) <= weight l / (MAX_FILE_SIZE - 254))%N) by (apply N.div_le_mono; [unfold MAX_FILE_SIZE; lia|exact Cw]).
    revert FB Q. generalize (N.of_nat (tcost t + 75) / (MAX_FILE_SIZE - 254))%N (weight l / (MAX_FILE_SIZE - 254))%N. clear. intros. lia.
Qed.

(** ** Opening *)
Lemma aligned_sealed D top hist : tail_at D top hist -> aligned D -> sealed D top hist.
Proof.
  unfold tail_at, sealed, aligned. destruct hist as [|x h]; [auto|]. intros (b & f & r & E & L & T & _) A. exists b, f, r.
  split; [exact E|]. split; [|auto]. rewrite E, last_last, blen_app in A. unfold blen in A at 2. rewrite L in A.
  replace (blen f + N.of_nat 38)%N with (blen f + 1 * 38)%N in A by lia. rewrite N.mod_add in A by lia. exact A.
Qed.

Lemma simdb_dinv d sp D V hist W : simdb d sp D V hist W -> aligned D ->
  dinv H C (st_key (d_store d)) D (m_meta (st_state (d_store d))) hist.
Proof.
  intros S A. pose proof S as [S1 S2 S3 S4 S5 S6 S7 S8 S9 S10 S11 S12 S13 S14 S15]. constructor.
  - apply S1.
  - apply S1.
  - apply aligned_sealed; assumption.
  - apply (cut_length H H_len) in S3. pose proof (files_bound _ _ _ _ _ _ 0%N S ltac:(lia)) as X.
    revert S3 X. change (0 / (MAX_FILE_SIZE - 254))%N with 0%N. clear. lia.
  - exact S7.
Qed.

Lemma open_sim key D top hist A sp W : dinv H C key D top hist -> image C key D hist A ->
  adds [[]] W D -> (N.of_nat W <= s_bytes sp)%N -> (s_bytes sp <= LIMIT)%N ->
  Forall2 (fun x l => stands l (fst x)) hist (s_hist sp) -> s_cur sp = hd [] (s_hist sp) -> 
  exists d, db_open H C key A [] = Ok (Some d) /\ st_key (d_store d) = key /\ st_io (d_store d) = [] /\ simdb d sp D D hist W.
Proof.
  intros DI IM Ad B L F Ec. destruct (store_open_spec H H_len C C_len key D top hist A DI IM) as (s' & E & Fs & Cs & I & K & T & Io & _).
  unfold db_open. rewrite E. cbn [bind]. eexists. split; [reflexivity|]. split; [exact K|]. split; [exact Io|].
  assert (Nd : D <> []) by (rewrite <- Fs; apply Cs).
  constructor; cbn [d_store d_hash d_revert]; auto.
  - rewrite <- Fs. apply clean_view, Cs.
  - apply cutof_refl', Nd.
  - rewrite Io. constructor.
  - rewrite T. pose proof (di_seal _ _ _ _ _ _ DI) as X. unfold sealed in X. unfold tail_at. destruct hist; [exact X|].
    destruct X as (b & f & r & X1 & X2 & X3 & X4). exists b, f, r. auto 6.
  - apply DI.
  - rewrite (si_node _ _ _ _ _ I), Ec. destruct F as [|[t w] l h ls X F].
    + exists PNull. split; [apply stands_nil|reflexivity].
    + exists t. split; [exact X|]. destruct t; reflexivity.
  - rewrite Ec. destruct (s_hist sp); [now right|left; now left].
  - intros _. pose proof (di_seal _ _ _ _ _ _ DI) as X. unfold sealed, aligned in *. destruct hist; [rewrite X; reflexivity|].
    destruct X as (b & f & r & X1 & X2 & X3 & X4). rewrite X1, last_last, blen_app. unfold blen at 2. rewrite X3.
    replace (blen f + N.of_nat 38)%N with (blen f + 1 * 38)%N by lia. rewrite N.mod_add by lia. exact X2.
Qed.
Lemma tsame_simdb d sp sp' D V hist W : tsame sp sp' -> simdb d sp D V hist W -> simdb d sp' D V hist W.
Proof. intros (E1 & E2 & E3 & E4) []. constructor; rewrite ?E1, ?E2, ?E3, ?E4; auto. Qed.

(** What a call other than reopening does to the files when no system call fails. *)
Definition effect (w w' : world) : Prop :=
  match w_db w, w_db w' with
  | Some d, Some d' => logs (d_store d) (d_store d') (st_fs (d_store d'))
  | _, _ => False
  end.
Lemma same_logs s s' : st_fs s <> [] -> same_db s s' -> logs s s' (st_fs s').
Proof.
  intros N (A1&A2&_). exists []. rewrite app_nil_r, A1, A2. split; [reflexivity|]. split; [reflexivity|].
  intros A Cr. inversion Cr; subst. split; apply cutof_refl', N.
Qed.
Lemma simdb_fs d sp D V hist W : simdb d sp D V hist W -> st_fs (d_store d) <> [].
Proof. intros S. apply (cutof_nonnil _ _ (view_cut _ _ (sm_view _ _ _ _ _ _ S))). Qed.

Lemma iosub_nil s s' : iosub s s' -> st_io s = [] -> st_io s' = [].
Proof. intros I E. specialize (I (fun _ => False)). rewrite E in I. specialize (I (Forall_nil _)). destruct (st_io s'); [reflexivity|inversion I; contradiction]. Qed.

Definition served (key : bytes) (w : world) (sp : spec) (c : call) : Prop :=
  exists a w', step H C w c = Ok (a, w') /\ good H sp w c a /\ sim key w' (snext H sp c a) /\
    (c <> CReopen -> quiet w -> effect w w') /\ (quiet w -> quiet w') /\
    (writes c = false -> files w' = files w /\ log w' = log w).

Lemma same_rest w w' d d' c : w_db w = Some d -> w_db w' = Some d' -> same_db (d_store d) (d_store d') ->
  (quiet w -> quiet w') /\ (writes c = false -> files w' = files w /\ log w' = log w).
Proof.
  unfold quiet, files, log. intros -> -> (A1&A2&_&_&_&_&_&A8). rewrite A1, A2, A8. auto.
Qed.

Lemma served_same key w sp c d d' D V hist W txs a :
  w_db w = Some d -> st_key (d_store d) = key ->
  step H C w c = Ok (a, mkworld (Some d') txs) -> good H sp w c a -> tsame sp (snext H sp c a) ->
  simdb d sp D V hist W -> simdb d' sp D V hist W -> same_db (d_store d) (d_store d') ->
  Forall2 (txsim (d_store d')) txs (s_txs (snext H sp c a)) -> served key w sp c.
Proof.
  intros Ew K E G T S S' Sd F. exists a, (mkworld (Some d') txs). split; [exact E|]. split; [exact G|]. split.
  - exists d', D, V, hist, W. split; [reflexivity|]. split; [destruct Sd as (_&_&X&_); congruence|].
    split; [eapply tsame_simdb; eassumption|exact F].
  - split; [|eapply same_rest; [exact Ew|reflexivity|exact Sd]].
    intros _ _. unfold effect. rewrite Ew. cbn [w_db]. apply same_logs; [eapply simdb_fs, S|exact Sd].
Qed.

Lemma db_write_ok key w sp c d D V hist W (op : db -> node -> res (answer * node)) :
  w_db w = Some d -> st_key (d_store d) = key -> simdb d sp D V hist W -> Forall2 (txsim (d_store d)) (w_txs w) (s_txs sp) -> collision_free H sp ->
  step H C w c = (let! (a, d) := db_write H C op d in Ok (a, mkworld (Some d) (w_txs w))) -> writes c = true ->
  (forall d' n, holds H (d_store d') n (s_cur sp) ->
     exists a n', op d' n = Ok (a, n') /\ good H sp w c a /\
       match commits sp c with
       | Some l => a = AOk /\ holds H (d_store d') n' l /\ can_commit sp l /\ quiet w /\ snext H sp c AOk = committed sp l
       | None => a <> AOk /\ snext H sp c a = sp
       end) ->
  served key w sp c.
Proof.
  intros Ew K S F CF E Wr P. destruct (tx_create_ok d sp D hist None (simdb_rdb _ _ _ _ _ _ S) CF) as (r & d' & E1 & S1' & Sd & M).
  pose proof (rdb_simdb _ _ _ _ _ _ _ _ S Sd S1' eq_refl eq_refl) as S'.
  unfold db_write in E. rewrite E1 in E. cbn [bind] in E. pose proof (same_rmono _ _ Sd) as Rm.
  cbn [seen] in M. destruct M as (n & -> & Hn). destruct (P d' n Hn) as (a & n' & E2 & G & M). rewrite E2 in E. cbn [bind] in E.
  destruct (commits sp c) as [l|].
  - destruct M as (-> & Hl & Cc & Q & Nx). destruct (tx_commit_ok d' sp D V hist W n' l S' Hl Cc) as (a' & d2 & t & E3 & Rm2 & Io2 & K2 & M).
    rewrite E3 in E. cbn [bind] in E. 
    assert (Q' : st_io (d_store d') = []). { unfold quiet in Q. rewrite Ew in Q. destruct Sd as (_&_&_&_&_&_&_&X). congruence. }
    destruct M as [(-> & n2 & D' & W' & hist' & -> & Hn2 & S2 & Lg)|(_ & _ & X & _)]; [|contradiction].
    cbn [bind] in E. exists AOk, (mkworld (Some d2) (w_txs w)). split; [exact E|]. split; [exact G|]. split.
    + rewrite Nx. exists d2, D', D', hist', W'. split; [reflexivity|]. split; [destruct Sd as (_&_&X&_); congruence|]. split; [exact S2|].
      cbn [w_txs committed s_txs]. eapply txs_mono; [exact Rm2|]. eapply txs_mono; eassumption.
    + split; [|split; [intros _; cbn [quiet w_db]; apply (iosub_nil _ _ Io2 Q')|congruence]].
      intros _ _. unfold effect. rewrite Ew. cbn [w_db]. destruct (sm_ok _ _ _ _ _ _ S2 eq_refl) as (_ & Fs & _). rewrite Fs.
      destruct Lg as (ops & L1 & L2 & L3). destruct Sd as (X1 & X2 & _). exists ops. rewrite X1, X2 in *. auto.
  - destruct M as [Na Nx]. assert (E' : step H C w c = Ok (a, mkworld (Some d') (w_txs w))) by (destruct a; [congruence|exact E..]).
    eapply served_same; eauto; rewrite Nx; [apply tsame_refl|eapply txs_mono; eassumption].
Qed.

Theorem step_ok key w sp c : sim key w sp -> allowed H sp w c -> served key w sp c.
Proof.
  intros (d & D & V & hist & W & Ew & K & S & F) A. destruct (writes c) eqn:Wc.
  2:{ destruct (rstep_ok w sp d D hist c Ew (simdb_rdb _ _ _ _ _ _ S) F A Wc) as (a & w' & d0 & d' & Ew0 & Ew' & E & G & R & F' & Sd & X1 & X2 & X3).
      rewrite Ew in Ew0. injection Ew0 as <-. exists a, w'. split; [exact E|]. split; [exact G|]. split.
      - exists d', D, V, hist, W. split; [exact Ew'|]. split; [destruct Sd as (_&_&X&_); congruence|]. split; [eapply rdb_simdb; eassumption|exact F'].
      - split; [|eapply same_rest; [exact Ew|exact Ew'|exact Sd]].
        intros _ _. unfold effect. rewrite Ew, Ew'. apply same_logs; [eapply simdb_fs, S|exact Sd]. }
  destruct A as [CF OK].
  destruct c as [|h|k ro|k ro|k v|k|k ro|ro|i|i|i|i h|i k|i k|i k v|i k|i k|i|]; cbn [call_ok] in OK; try discriminate Wc.
  - (* insert *)
    destruct OK as [Lk OK]. eapply (db_write_ok key w sp _ d D V hist W); [exact Ew|exact K|exact S|exact F|exact CF|unfold step; rewrite Ew; reflexivity|reflexivity|].
    intros d' n Hn. cbn [good commits snext] in *. destruct (Nat.ltb_spec 1023 (length v)) as [L|L].
    + rewrite (tx_insert_long H H_len C C_len d' n k v L). eexists _, _. split; [reflexivity|]. split; [reflexivity|]. split; [discriminate|reflexivity].
    + destruct (tx_insert_ok H H_len C C_len d' n _ k v Hn Lk L) as (n' & E & Hn'). exists AOk, n'. split; [exact E|]. split; [reflexivity|].
      split; [reflexivity|]. split; [exact Hn'|]. destruct (OK _ eq_refl) as [O1 O2]. split; [exact O1|]. split; [exact O2|]. reflexivity.
  - (* remove *)
    destruct OK as [Lk OK]. eapply (db_write_ok key w sp _ d D V hist W); [exact Ew|exact K|exact S|exact F|exact CF|unfold step; rewrite Ew; reflexivity|reflexivity|].
    intros d' n Hn. cbn [good commits snext] in *. pose proof (tx_remove_ok H H_len d' n _ k Hn Lk) as R.
    destruct (lookup (s_cur sp) k) as [v|].
    + destruct R as (n' & E & Hn'). exists AOk, n'. split; [exact E|]. split; [reflexivity|].
      split; [reflexivity|]. split; [exact Hn'|]. destruct (OK _ eq_refl) as [O1 O2]. split; [exact O1|]. split; [exact O2|]. reflexivity.
    + rewrite R. eexists _, _. split; [reflexivity|]. split; [reflexivity|]. split; [discriminate|reflexivity].
  - (* tx_commit *)
    destruct OK as (l & Et & Cc). destruct (txs_live w sp _ i l F Et) as (n & En & Hn).
    destruct (tx_commit_ok d sp D V hist W n l S Hn Cc) as (a' & d2 & t & E3 & Rm2 & Io2 & K2 & M).
    exists a', (put_tx w d2 i t). split; [unfold step; rewrite Ew, En; cbn [bind]; rewrite E3; reflexivity|].
    destruct M as [(-> & n2 & D' & W' & hist' & -> & Hn2 & S2 & Lg)|(-> & -> & X & V' & W' & S2)].
    + split; [now left|]. split.
      * exists d2, D', D', hist', W'. split; [reflexivity|]. split; [congruence|]. cbn [snext commits]. rewrite Et. split; [exact S2|].
        cbn [put_tx w_txs committed s_txs]. eapply txs_upd1; [eapply txs_mono; eassumption|exact Et|exact Hn2].
      * split; [|split; [unfold quiet; rewrite Ew; cbn [put_tx w_db]; apply iosub_nil, Io2|discriminate]].
        intros _ _. unfold effect. rewrite Ew. cbn [w_db put_tx]. destruct (sm_ok _ _ _ _ _ _ S2 eq_refl) as (_ & Fs & _). rewrite Fs. exact Lg.
    + assert (NQ : ~ quiet w) by (unfold quiet; rewrite Ew; exact X). split; [now right|]. split.
      * exists d2, D, V', hist, W'. split; [reflexivity|]. split; [congruence|]. cbn [snext commits]. rewrite Et.
        split; [eapply tsame_simdb; [apply tsame_set|exact S2]|].
        cbn [put_tx w_txs set_tx commit_failed s_txs]. apply txs_upd; [eapply txs_mono; eassumption|exact I].
      * split; [intros _ Q; contradiction|]. split; [intros Q; contradiction|discriminate].
  - (* reopen *)
    destruct OK as [Fa Al]. destruct (sm_ok _ _ _ _ _ _ S Fa) as (Cs & Fs & EV). unfold files in Al. rewrite Ew, Fs in Al. subst V.
    pose proof (simdb_dinv _ _ _ _ _ _ S Al) as DI. rewrite K in DI.
    destruct (open_sim key D _ hist D (snext H sp CReopen AOk) W DI) as (d' & E & K' & Q' & S').
    { left. split; [apply S|apply (noforge_refl H H_len C C_len)]. }
    { apply S. } { apply S. } { apply S. } { apply S. } { reflexivity. }
    exists AOk, (mkworld (Some d') (map (fun _ => TDead) (w_txs w))). split.
    { unfold step. rewrite Ew, K, Fs, E. reflexivity. }
    split; [reflexivity|]. split; [|split; [congruence|split; [intros _; exact Q'|discriminate]]].
    exists d', D, D, hist, W. split; [reflexivity|]. split; [exact K'|]. split; [exact S'|].
    cbn [w_txs snext s_txs]. clear - F. induction F; cbn [map]; constructor; [exact I|assumption].
Qed.


(** ** Crashes *)
Lemma reopened_image key D top hist A B : dinv H C key D top hist -> image C key D hist A -> reopened H C key A B -> image C key D hist B.
Proof.
  intros DI IM R. induction R as [|B s B' R IH E Cr]; [exact IM|].
  destruct (store_open_spec H H_len C C_len key D top hist B DI IH) as (s' & E' & _ & _ & _ & _ & _ & _ & _ & X).
  rewrite E in E'. apply Ok_inj in E'. injection E' as ->. apply X, Cr.
Qed.

Lemma snext_failed sp w c a : good H sp w c a -> quiet w -> s_failed sp = false -> s_failed (snext H sp c a) = false.
Proof.
  intros G Q F. destruct c; cbn [snext commits]; auto.
  - destruct (named H (s_hist sp) h); auto.
  - destruct (1023 <? length v); auto.
  - destruct (lookup (s_cur sp) k); auto.
  - destruct (seen H sp ro); auto.
  - destruct (named H (s_hist sp) h); auto.
  - destruct (1023 <? length v); auto. destruct (txat sp i); auto.
  - destruct (txat sp i) as [l|]; auto. destruct (lookup l k); auto.
  - destruct (txat sp i); auto. cbn [good] in G. destruct G as [->|[_ X]]; [reflexivity|contradiction].
Qed.

Lemma sim_image key w sp : sim key w sp -> s_failed sp = false -> aligned (files w) ->
  exists D top hist W, files w = D /\ dinv H C key D top hist /\ adds [[]] W D /\ (N.of_nat W <= s_bytes sp)%N /\ (s_bytes sp <= LIMIT)%N /\
    Forall2 (fun x l => stands l (fst x)) hist (s_hist sp) /\ cutof D D.
Proof.
  intros (d & D & V & hist & W & Ew & K & S & F) Fa Al. destruct (sm_ok _ _ _ _ _ _ S Fa) as (Cs & Fs & EV). subst V.
  unfold files in *. rewrite Ew, Fs in *. exists D, (m_meta (st_state (d_store d))), hist, W. split; [reflexivity|].
  split; [rewrite <- K; eapply simdb_dinv; eassumption|]. destruct S. auto 10.
Qed.

Lemma image_sim key D top hist W sp B :
  dinv H C key D top hist -> image C key D hist B -> adds [[]] W D -> (N.of_nat W <= s_bytes sp)%N -> (s_bytes sp <= LIMIT)%N ->
  Forall2 (fun x l => stands l (fst x)) hist (s_hist sp) ->
  exists d, db_open H C key B [] = Ok (Some d) /\ sim key (mkworld (Some d) []) (crashed sp) /\ st_fs (d_store d) = D.
Proof.
  intros DI IM A1 A2 A3 A4. destruct (open_sim key D top hist B (crashed sp) W DI IM A1 A2 A3 A4 eq_refl) as (d & E & K & _ & S).
  exists d. split; [exact E|]. split; [|apply (sm_ok _ _ _ _ _ _ S eq_refl)]. exists d, D, D, hist, W. split; [reflexivity|]. split; [exact K|]. split; [exact S|]. constructor.
Qed.

(** ** Crashes *)
Lemma effect_refl key w sp : sim key w sp -> effect w w.
Proof.
  intros (d & D & V & hist & W & Ew & _ & S & _). unfold effect. rewrite Ew. apply same_logs; [eapply simdb_fs, S|apply same_db_refl].
Qed.
Lemma effect_cut w w1 : effect w w1 -> cutof (files w) (files w1).
Proof.
  unfold effect, files. destruct (w_db w) as [d|]; [|contradiction]. destruct (w_db w1) as [d1|]; [|contradiction].
  intros (ops & _ & _ & L). apply (L (st_fs (d_store d))). constructor.
Qed.
Lemma effect_trans w w1 w2 : effect w w1 -> effect w1 w2 -> effect w w2.
Proof.
  intros E1 E2. pose proof (effect_cut _ _ E2) as Cu. unfold effect, files in *.
  destruct (w_db w) as [d|]; [|contradiction]. destruct (w_db w1) as [d1|]; [|contradiction]. destruct (w_db w2) as [d2|]; [|contradiction].
  eapply logs_trans; [eapply logs_mono; [exact E1|exact Cu]|exact E2].
Qed.
Lemma effect_crash w w1 ops A : effect w w1 -> log w1 = log w ++ ops -> crash (files w) ops A -> cutof (files w) A /\ cutof A (files w1).
Proof.
  unfold effect, files, log. destruct (w_db w) as [d|]; [|contradiction]. destruct (w_db w1) as [d1|]; [|contradiction].
  intros (ops' & L1 & L2 & L3) El Cr. rewrite L1 in El. apply app_inv_head in El. subst ops'. apply L3, Cr.
Qed.
Lemma effect_ops w w1 : effect w w1 -> exists ops, log w1 = log w ++ ops /\ crash (files w) ops (files w1).
Proof.
  unfold effect, files, log. destruct (w_db w) as [d|]; [|contradiction]. destruct (w_db w1) as [d1|]; [|contradiction].
  intros (ops & L1 & L2 & L3). exists ops. split; [exact L1|]. rewrite <- L2. apply crash_end.
Qed.

(** Steps that keep to the specification. *)
Definition keeps (key : bytes) (R : world -> spec -> world -> spec -> Prop) : Prop :=
  forall w sp w1 sp1, sim key w sp -> quiet w -> s_failed sp = false -> R w sp w1 sp1 ->
    sim key w1 sp1 /\ quiet w1 /\ s_failed sp1 = false /\ effect w w1.
Lemma keeps_move key : keeps key (move H C).
Proof.
  intros w sp w1 sp1 S Q Fa (c & a & OK & Nc & E & ->). destruct (step_ok key w sp c S OK) as (a' & w1' & E' & G & S1 & Ef & Q1 & _).
  rewrite E in E'. apply Ok_inj in E'. injection E' as <- <-. eauto 10 using snext_failed.
Qed.
Lemma trail_ok key R w sp l w1 sp1 : keeps key R -> trail R w sp l w1 sp1 -> sim key w sp -> quiet w -> s_failed sp = false ->
  sim key w1 sp1 /\ quiet w1 /\ s_failed sp1 = false /\ effect w w1 /\
  Forall (fun x => sim key (fst x) (snd x) /\ quiet (fst x) /\ s_failed (snd x) = false /\ effect (fst x) w1) ((w, sp) :: l).
Proof.
  intros K T. induction T as [w sp|w sp w1 sp1 l w2 sp2 R1 T IH]; intros S Q Fa.
  - pose proof (effect_refl _ _ _ S). repeat split; auto.
  - destruct (K _ _ _ _ S Q Fa R1) as (S1 & Q1 & F1 & E1). destruct (IH S1 Q1 F1) as (S2 & Q2 & F2 & E2 & Al).
    assert (E : effect w w2) by (eapply effect_trans; eassumption). repeat split; auto.
Qed.

Lemma trail_mem key R w sp l w1 sp1 : keeps key R -> trail R w sp l w1 sp1 -> sim key w sp -> quiet w -> s_failed sp = false ->
  forall x, In x ((w, sp) :: l) -> cutof (files w) (files (fst x)).
Proof.
  intros K T. induction T as [w sp|w sp w1 sp1 l w2 sp2 R1 T IH]; intros S Q Fa x [<-|I].
  - apply effect_cut, (effect_refl _ _ _ S).
  - destruct I.
  - apply effect_cut, (effect_refl _ _ _ S).
  - destruct (K _ _ _ _ S Q Fa R1) as (S1 & Q1 & F1 & E1). eapply cutof_trans; [apply effect_cut, E1|]. apply (IH S1 Q1 F1), I.
Qed.
Lemma trail_from R w sp l w1 sp1 : trail R w sp l w1 sp1 -> forall l1 x l2, (w, sp) :: l = l1 ++ x :: l2 -> trail R (fst x) (snd x) l2 w1 sp1.
Proof.
  intros T. induction T as [w sp|w sp w1 sp1 l w2 sp2 R1 T IH]; intros l1 x l2 E.
  - destruct l1 as [|y l1]; cbn [app] in E; injection E as <- E; [subst l2; constructor|destruct l1; discriminate].
  - destruct l1 as [|y l1]; cbn [app] in E; injection E as <- E; [subst l2; econstructor; eassumption|]. eapply IH, E.
Qed.

Lemma cut_within D A : cutof D A -> within D A.
Proof.
  intros Cu. split; [|intros i; apply (cut_prefix), Cu].
  destruct Cu as (b & f & x & c & -> & ->). rewrite !app_length. cbn [length]. lia.
Qed.
Lemma within_cut D A V : cutof D V -> cutof A V -> within D A -> cutof D A.
Proof.
  intros (b1 & f1 & x1 & c1 & -> & E1) (b2 & f2 & x2 & c2 & -> & E2) [L P]. rewrite !app_length in L. cbn [length] in L. rewrite E1 in E2.
  assert (Lb : length b1 <= length b2) by lia.
  assert (Eb : b1 = firstn (length b1) b2).
  { apply (f_equal (firstn (length b1))) in E2. rewrite firstn_app, Nat.sub_diag, firstn_all, firstn_O, app_nil_r in E2.
    rewrite firstn_app in E2. replace (length b1 - length b2) with 0 in E2 by lia. rewrite firstn_O, app_nil_r in E2. exact E2. }
  specialize (P (length b1)). rewrite nth_app_new in P.
  assert (Sp : exists c, b2 ++ [f2] = b1 ++ nth (length b1) (b2 ++ [f2]) [] :: c).
  { exists (skipn (Datatypes.S (length b1)) (b2 ++ [f2])).
    assert (Lt : length b1 < length (b2 ++ [f2])) by (rewrite app_length; cbn [length]; lia).
    rewrite <- (firstn_skipn (length b1) (b2 ++ [f2])) at 1. f_equal.
    - rewrite firstn_app. replace (length b1 - length b2) with 0 by lia. rewrite firstn_O, app_nil_r. auto.
    - destruct (nth_error (b2 ++ [f2]) (length b1)) as [y|] eqn:En; [|apply nth_error_None in En; lia].
      rewrite (nth_error_nth _ _ _ En). apply nth_error_split in En. destruct En as (l1 & l2 & -> & <-).
      rewrite (skipn_app_exact l1) by reflexivity. rewrite skipn_app, skipn_all2 by lia.
      replace (Datatypes.S (length l1) - length l1) with 1 by lia. reflexivity. }
  destruct Sp as (c & Sp). destruct P as (x & P). exists b1, f1, x, c. split; [reflexivity|]. rewrite Sp, P. reflexivity.
Qed.
Lemma within_dec D A : {within D A} + {~ within D A}.
Proof.
  destruct (le_dec (length D) (length A)) as [L|L]; [|right; intros [X _]; contradiction].
  assert (Q : forall n, {forall i, i < n -> exists x, nth i A [] = nth i D [] ++ x} + {~ forall i, i < n -> exists x, nth i A [] = nth i D [] ++ x}).
  { induction n as [|n [IH|IH]].
    - left. intros i X. lia.
    - destruct (bytes_eq_dec (firstn (length (nth n D [])) (nth n A [])) (nth n D [])) as [E|E].
      + left. intros i X. destruct (Nat.eq_dec i n) as [->|Ni]; [|apply IH; lia].
        exists (skipn (length (nth n D [])) (nth n A [])). rewrite <- E at 1. symmetry. apply firstn_skipn.
      + right. intros X. destruct (X n) as (x & Ex); [lia|]. apply E. rewrite Ex, firstn_app, Nat.sub_diag, firstn_all, firstn_O. apply app_nil_r.
    - right. intros X. apply IH. intros i Li. apply X. lia. }
  destruct (Q (length D)) as [P|P]; [left|right; intros [_ X]; apply P; intros; apply X]. split; [exact L|]. intros i.
  destruct (Nat.lt_ge_cases i (length D)) as [Li|Li]; [apply P, Li|]. exists (nth i A []). rewrite (nth_overflow D) by exact Li. reflexivity.
Qed.
Lemma kept_dec A x : {kept A x} + {~ kept A x}.
Proof.
  unfold kept. destruct (N.eq_dec (blen (last (files (fst x)) []) mod 38) 0) as [E|E]; [|right; intros [X _]; contradiction].
  destruct (within_dec (files (fst x)) A) as [P|P]; [left|right; intros [_ X]; contradiction]. split; assumption.
Qed.
Lemma survivor_exists A x l : kept A x -> exists y, survivor A (x :: l) y.
Proof.
  revert x. induction l as [|z l IH]; intros x K.
  - exists x, [], []. repeat split; auto; apply K.
  - destruct (kept_dec A z) as [Kz|Nz].
    + destruct (IH z Kz) as (y & l1 & l2 & E & Ky & F). exists y, (x :: l1), l2. rewrite E. auto.
    + destruct (IH x K) as (y & l1 & l2 & E & Ky & F). destruct l1 as [|x' l1]; cbn [app] in E; injection E as <- E.
      * exists x, [], (z :: l2). rewrite E. split; [reflexivity|]. split; [exact K|]. constructor; assumption.
      * exists y, (x :: z :: l1), l2. rewrite E. auto.
Qed.

(** What recovery needs of the files left behind. *)
Lemma crashes_gen key R w sp l w1 sp1 A B wi spi : keeps key R ->
  sim key w sp -> quiet w -> s_failed sp = false -> aligned (files w) ->
  trail R w sp l w1 sp1 ->
  (forall x, In x ((w, sp) :: l) -> within (files (fst x)) A -> cutof (files (fst x)) A) ->
  (forall i j m, length (nth i (files w) []) <= 38 * j -> 38 * j + 38 <= length (nth i A []) ->
     meta_read C key (blk (nth i A []) j) = Ok (Some m) ->
     exists x, In x l /\ Datatypes.S i = length (files (fst x)) /\ 38 * j + 38 = length (nth i (files (fst x)) []) /\ within (files (fst x)) A) ->
  reopened H C key A B -> survivor A ((w, sp) :: l) (wi, spi) ->
  exists d, db_open H C key B [] = Ok (Some d) /\ sim key (mkworld (Some d) []) (crashed spi) /\ st_fs (d_store d) = files wi.
Proof.
  intros K S Q Fa Al T Cu NF Ro (l1 & l2 & E & (Ai & Wi) & Nl).
  destruct (trail_ok _ _ _ _ _ _ _ K T S Q Fa) as (S1 & Q1 & F1 & E1 & All).
  rewrite E in All. rewrite Forall_forall in All.
  destruct (All (wi, spi)) as (Si & Qi & Fi & Ei); [apply in_app_iff; right; now left|]. cbn [fst snd] in *.
  assert (Ci : cutof (files wi) A) by (apply (Cu (wi, spi)); [rewrite E; apply in_app_iff; right; now left|exact Wi]).
  destruct (sim_image key wi _ Si Fi Ai) as (D & top & hist & W & EF & DI & A1 & A2 & A3 & A4 & A5).
  rewrite EF. eapply image_sim; try eassumption. eapply reopened_image; [exact DI| |exact Ro]. left. rewrite <- EF. split; [exact Ci|].
  intros i j L1 L2.
  destruct (meta_read_total H H_len C C_len key (blk (nth i A []) j)) as ([m|] & Em); [|exfalso|exact Em].
  { unfold blk. rewrite firstn_length, skipn_length. lia. }
  assert (Cw : cutof (files w) (files wi)).
  { apply (trail_mem key R w sp l w1 sp1 K T S Q Fa (wi, spi)). rewrite E. apply in_app_iff. right. now left. }
  destruct (NF i j m) as (x & Ix & Y1 & Y2 & Wx).
  - destruct (cut_prefix _ _ i Cw) as (z & Ez). rewrite Ez, app_length in L1. lia.
  - exact L2.
  - exact Em.
  - assert (Ix' : In x (l1 ++ (wi, spi) :: l2)). { rewrite <- E. now right. }
    destruct (All x Ix') as (_ & _ & _ & Ex). apply effect_cut in Ex.
    assert (Ne : files (fst x) <> []) by apply (cutof_nonnil _ _ Ex).
    destruct (exists_last Ne) as (b & f & Ef). assert (i = length b) as -> by (rewrite Ef, app_length in Y1; cbn [length] in Y1; lia).
    rewrite Ef, nth_app_new in Y2.
    assert (Kx : kept A x).
    { split; [unfold aligned; rewrite Ef, last_last; unfold blen; rewrite <- Y2; replace (N.of_nat (38 * j + 38)) with ((N.of_nat j + 1) * 38)%N by lia; apply N.mod_mul; lia|exact Wx]. }
    (* so it is not later than the survivor, which contains the block *)
    apply in_app_iff in Ix'. destruct Ix' as [Ix'|[<-|Ix']].
    + assert (Cx : cutof (files (fst x)) (files wi)).
      { destruct (All x) as (Sx & Qx & Fx & _); [apply in_app_iff; now left|].
        apply in_split in Ix'. destruct Ix' as (la & lb & ->). rewrite <- app_assoc in E. cbn [app] in E.
        apply (trail_mem key R _ _ _ w1 sp1 K (trail_from _ _ _ _ _ _ T _ _ _ E) Sx Qx Fx (wi, spi)).
        right. apply in_app_iff. right. now left. }
      destruct (cut_prefix _ _ (length b) Cx) as (z & Ez). rewrite Ef, nth_app_new in Ez. rewrite Ez, app_length in L1. lia.
    + cbn [fst] in *. rewrite Ef, nth_app_new in L1. lia.
    + rewrite Forall_forall in Nl. apply (Nl x Ix'), Kx.
Qed.

Lemma nth_firstn_lt {A} (d : A) l n i : i < n -> nth i (firstn n l) d = nth i l d.
Proof. revert n i. induction l as [|x l IH]; intros [|n] [|i] L; cbn; try lia; auto; apply IH; lia. Qed.
Lemma power_cut D V A F : power_loss D V A -> cutof F V -> within F A -> cutof F A.
Proof.
  intros (_ & LV & P) (b & f & x & c & -> & ->) [LA Wi]. rewrite app_length in LA. cbn [length] in LA.
  destruct (Wi (length b)) as (y & Ey). rewrite nth_app_new in Ey.
  exists b, f, y, (skipn (Datatypes.S (length b)) A). split; [reflexivity|].
  assert (Eb : firstn (length b) A = b).
  { apply nth_ext with (d := []) (d' := []); [rewrite firstn_length; lia|]. intros n Ln. rewrite firstn_length in Ln.
    rewrite (nth_firstn_lt [] A (length b) n) by lia. destruct (Wi n) as (z & Ez). destruct (P n) as [Pn _]. rewrite app_nth1 in Ez by lia. rewrite app_nth1 in Pn by lia.
    rewrite Ez in *. rewrite app_length in Pn. destruct z; [now rewrite app_nil_r|cbn [length] in Pn; lia]. }
  rewrite <- (firstn_skipn (length b) A) at 1. rewrite Eb. f_equal. rewrite <- Ey.
  clear - LA. assert (L : length b < length A) by lia. clear LA. revert A L. induction b as [|u b IH]; intros [|a A] L; cbn [length skipn nth] in *; try lia; [reflexivity|].
  apply IH. lia.
Qed.
Theorem crashes_ok key R w sp l w1 sp1 ops A B wi spi : keeps key R ->
  sim key w sp -> quiet w -> s_failed sp = false -> aligned (files w) ->
  trail R w sp l w1 sp1 -> log w1 = log w ++ ops -> no_forgery C key (files w) (files w1) (map (fun x => files (fst x)) l) ->
  remains C key (files w) (files w1) ops A -> reopened H C key A B -> survivor A ((w, sp) :: l) (wi, spi) ->
  exists d, db_open H C key B [] = Ok (Some d) /\ sim key (mkworld (Some d) []) (crashed spi) /\ st_fs (d_store d) = files wi.
Proof.
  intros K S Q Fa Al T El NF Cr Ro Sv.
  destruct (trail_ok _ _ _ _ _ _ _ K T S Q Fa) as (S1 & Q1 & F1 & E1 & All). rewrite Forall_forall in All.
  assert (CV : forall x, In x ((w, sp) :: l) -> cutof (files (fst x)) (files w1)) by (intros x I; apply effect_cut, (All x I)).
  eapply (crashes_gen key R w sp l w1 sp1 A B wi spi); try eassumption.
  - intros x I Wx. destruct Cr as [Cr|[Pw _]].
    + destruct (effect_crash _ _ _ _ E1 El Cr) as [X1 X2]. eapply within_cut; [exact (CV x I)|exact X2|exact Wx].
    + eapply power_cut; [exact Pw|exact (CV x I)|exact Wx].
  - intros i j m L1 L2 Em.
    (* up to this block everything is as written *)
    assert (P : length A <= length (files w1) /\ (forall i', i' < i -> nth i' A [] = nth i' (files w1) []) /\
                firstn (38 * j + 38) (nth i A []) = firstn (38 * j + 38) (nth i (files w1) [])).
    { destruct Cr as [Cr|[(_ & LV & _) Or]].
      - destruct (effect_crash _ _ _ _ E1 El Cr) as [X1 (b & f & y & c & -> & EV)]. rewrite EV. split; [rewrite !app_length; cbn [length]; lia|].
        assert (Li : i <= length b).
        { destruct (Nat.le_gt_cases i (length b)) as [L|L]; [exact L|]. rewrite nth_overflow in L2 by (rewrite app_length; cbn [length]; lia). cbn [length] in L2. lia. }
        split; [intros i' Li'; rewrite !app_nth1 by lia; reflexivity|].
        destruct (Nat.eq_dec i (length b)) as [->|Ni]; [|rewrite !app_nth1 by lia; reflexivity].
        rewrite !nth_app_new in *. rewrite firstn_app. replace (38 * j + 38 - length f) with 0 by lia. now rewrite firstn_O, app_nil_r.
      - split; [exact LV|]. apply (Or i j m L1 L2). exact Em. }
    destruct P as (LV & Pb & Pi).
    assert (Lv : 38 * j + 38 <= length (nth i (files w1) [])).
    { apply (f_equal (@length _)) in Pi. rewrite !firstn_length in Pi. lia. }
    destruct (NF i j m) as (F & IF & Y1 & Y2); [exact L1|exact Lv| |].
    { rewrite <- Em. f_equal. unfold blk. rewrite <- (firstn_skipn (38 * j + 38) (nth i A [])), <- (firstn_skipn (38 * j + 38) (nth i (files w1) [])), Pi.
      fold (blk (firstn (38 * j + 38) (nth i (files w1) []) ++ skipn (38 * j + 38) (nth i (files w1) [])) j).
      fold (blk (firstn (38 * j + 38) (nth i (files w1) []) ++ skipn (38 * j + 38) (nth i A [])) j).
      rewrite !(blk_prefix H H_len C C_len); [reflexivity|rewrite firstn_length; lia|rewrite firstn_length; lia]. }
    apply in_map_iff in IF. destruct IF as (x & <- & Ix). exists x. split; [exact Ix|]. split; [exact Y1|]. split; [exact Y2|].
    specialize (CV x (or_intror Ix)). destruct CV as (b & f & y & c & Ef & EV). rewrite Ef in *. rewrite app_length in Y1. cbn [length] in Y1.
    assert (i = length b) as -> by lia. rewrite nth_app_new in Y2. rewrite EV in *. rewrite nth_app_new in *.
    split.
    + rewrite app_length. cbn [length]. destruct (Nat.le_gt_cases (length b + 1) (length A)) as [L|L]; [exact L|]. rewrite nth_overflow in L2 by lia. cbn [length] in L2. lia.
    + intros i. destruct (Nat.lt_trichotomy i (length b)) as [L|[->|L]].
      * exists []. rewrite (Pb i L), !app_nth1 by lia. now rewrite app_nil_r.
      * rewrite nth_app_new. exists (skipn (38 * j + 38) (nth (length b) A [])). rewrite <- (firstn_skipn (38 * j + 38) (nth (length b) A [])) at 1. rewrite Pi. f_equal.
        rewrite firstn_app, Y2, Nat.sub_diag, firstn_all, firstn_O. apply app_nil_r.
      * exists (nth i A []). rewrite (nth_overflow (b ++ [f])) by (rewrite app_length; cbn [length]; lia). reflexivity.
Qed.

(** One call. *)
Lemma crash_survivor key R w sp w1 sp1 ops A : keeps key R -> sim key w sp -> quiet w -> s_failed sp = false -> R w sp w1 sp1 ->
  log w1 = log w ++ ops -> aligned (files w) -> aligned (files w1) -> crash (files w) ops A ->
  survivor A [(w, sp); (w1, sp1)] (if fs_eq_dec A (files w1) then (w1, sp1) else (w, sp)).
Proof.
  intros K S Q Fa R1 El Al Al1 Cr. destruct (K _ _ _ _ S Q Fa R1) as (S1 & Q1 & F1 & E1).
  destruct (effect_crash _ _ _ _ E1 El Cr) as [X1 X2]. destruct (fs_eq_dec A (files w1)) as [EA|NA].
  - exists [(w, sp)], []. split; [reflexivity|]. split; [|constructor]. split; [exact Al1|]. cbn [fst]. rewrite EA. apply cut_within.
    apply cutof_refl'. apply (cutof_nonnil _ _ X2).
  - exists [], [(w1, sp1)]. split; [reflexivity|]. split; [split; [exact Al|apply cut_within, X1]|]. constructor; [|constructor].
    intros [_ Wi]. cbn [fst] in Wi. apply NA. clear - X2 Wi. destruct X2 as (b & f & x & c & -> & Ev). rewrite Ev in *. destruct Wi as [L P].
    rewrite !app_length in L. cbn [length] in L. destruct c as [|c0 c]; [|cbn [length] in L; lia]. specialize (P (length b)). rewrite !nth_app_new in P.
    destruct P as (y & P). apply (f_equal (@length _)) in P. rewrite !app_length in P. destruct x; [rewrite app_nil_r; reflexivity|cbn [length] in P; lia].
Qed.
Theorem crash_ok key w sp c a w1 ops A B :
  sim key w sp -> allowed H sp w c -> quiet w -> s_failed sp = false ->
  step H C w c = Ok (a, w1) -> log w1 = log w ++ ops -> c <> CReopen ->
  aligned (files w) -> aligned (files w1) -> no_forgery C key (files w) (files w1) [files w1] ->
  crash (files w) ops A -> reopened H C key A B ->
  exists d, db_open H C key B [] = Ok (Some d) /\
    sim key (mkworld (Some d) []) (crashed (if fs_eq_dec A (files w1) then snext H sp c a else sp)).
Proof.
  intros S OK Q Fa E El Nc Al Al1 NF Cr Ro.
  assert (M : move H C w sp w1 (snext H sp c a)) by (exists c, a; auto).
  pose proof (crash_survivor key _ _ _ _ _ _ _ (keeps_move key) S Q Fa M El Al Al1 Cr) as Sv.
  assert (T : trail (move H C) w sp [(w1, snext H sp c a)] w1 (snext H sp c a)) by (econstructor; [exact M|constructor]).
  destruct (fs_eq_dec A (files w1)).
  - destruct (crashes_ok key _ w sp _ w1 _ ops A B _ _ (keeps_move key) S Q Fa Al T El NF (or_introl Cr) Ro Sv) as (d & X & Y & _). eauto.
  - destruct (crashes_ok key _ w sp _ w1 _ ops A B _ _ (keeps_move key) S Q Fa Al T El NF (or_introl Cr) Ro Sv) as (d & X & Y & _). eauto.
Qed.

(** ** All executions *)
Lemma open_new key : exists d, db_open H C key [] [] = Ok (Some d) /\ sim key (mkworld (Some d) []) spec0.
Proof.
  assert (DI : dinv H C key [[]] ptr0 []).
  { constructor; [reflexivity|cbn [length]; lia|reflexivity|reflexivity|unfold MAX_FILE_SIZE, blen; cbn [last length]; lia]. }
  destruct (image_sim key [[]] ptr0 [] 0 spec0 [] DI) as (d & E & S & _).
  - right. auto. - constructor. - cbn; lia. - unfold LIMIT; cbn; lia. - constructor.
  - exists d. split; [exact E|exact S].
Qed.

Theorem exec_sim key w sp : exec H C key w sp -> sim key w sp.
Proof.
  induction 1 as [d E|w sp c a w' X IH A E|w sp d io X IH Ew F|w sp l w1 sp1 ops A B wi spi d X IH Q Fa Al T El NF Cr Ro Sv Eo].
  - destruct (open_new key) as (d' & E' & S). rewrite E in E'. apply Ok_inj in E'. injection E' as <-. exact S.
  - destruct (step_ok key w sp c IH A) as (a' & w1 & E' & _ & S & _). rewrite E in E'. apply Ok_inj in E'. injection E' as <- <-. exact S.
  - destruct IH as (d0 & D & V & hist & W & Ew' & K & S & Ft). rewrite Ew in Ew'. injection Ew' as <-.
    exists (with_store d (set_io (d_store d) io)), D, V, hist, W. split; [reflexivity|]. split; [exact K|]. split.
    + destruct S as [S1 S2 S3 S4 S5 S6 S7 S8 S9 S10 S11 S12 S13 S14 S15]. constructor; cbn [with_store d_store d_hash d_revert set_io st_state st_io st_fs]; auto.
      * destruct S1; constructor; auto.
      * destruct S2 as (b & c & p & ps & Wv & EV). exists b, c, p, ps. split; [|exact EV]. destruct Wv; constructor; auto.
      * intros Fa. destruct (S5 Fa) as (Cs & X1). split; [destruct Cs; constructor; auto|exact X1].
    + cbn [w_txs]. exact Ft.
  - destruct (crashes_ok key _ w sp l w1 sp1 ops A B wi spi (keeps_move key) IH Q Fa Al T El NF Cr Ro Sv) as (d' & E' & S & _).
    rewrite Eo in E'. apply Ok_inj in E'. injection E' as <-. exact S.
Qed.

(** A database of less than 2 GB: every commit record is where recovery looks. *)
Theorem exec_small key w sp : exec H C key w sp -> s_failed sp = false -> (s_bytes sp <= 2147479522)%N -> aligned (files w).
Proof.
  intros X Fa L. destruct (exec_sim _ _ _ X) as (d & D & V & hist & W & Ew & K & S & _).
  unfold files. rewrite Ew. destruct (sm_ok _ _ _ _ _ _ S Fa) as (_ & -> & _). apply (sm_small _ _ _ _ _ _ S). exact L.
Qed.

Theorem exec_step key w sp c : exec H C key w sp -> allowed H sp w c ->
  exists a w', step H C w c = Ok (a, w') /\ good H sp w c a.
Proof. intros X A. destruct (step_ok key w sp c (exec_sim _ _ _ X) A) as (a & w' & E & G & _). eauto. Qed.

(** The process dies during one call; both states aligned. *)
Lemma ex_crash key w sp c a w1 ops A B d :
  exec H C key w sp -> allowed H sp w c -> quiet w -> s_failed sp = false ->
  step H C w c = Ok (a, w1) -> log w1 = log w ++ ops -> c <> CReopen ->
  aligned (files w) -> aligned (files w1) -> no_forgery C key (files w) (files w1) [files w1] ->
  crash (files w) ops A -> reopened H C key A B -> db_open H C key B [] = Ok (Some d) ->
  exec H C key (mkworld (Some d) []) (crashed (if fs_eq_dec A (files w1) then snext H sp c a else sp)).
Proof.
  intros X OK Q Fa E El Nc Al Al1 NF Cr Ro Eo.
  assert (M : move H C w sp w1 (snext H sp c a)) by (exists c, a; auto).
  pose proof (crash_survivor key _ _ _ _ _ _ _ (keeps_move key) (exec_sim _ _ _ X) Q Fa M El Al Al1 Cr) as Sv.
  assert (T : trail (move H C) w sp [(w1, snext H sp c a)] w1 (snext H sp c a)) by (econstructor; [exact M|constructor]).
  destruct (fs_eq_dec A (files w1)); eapply ex_crashes; eauto; left; exact Cr.
Qed.
End Sim.
