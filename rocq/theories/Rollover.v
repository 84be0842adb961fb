(** * A commit whose padding starts a new data file (store.c 747-775 with 169-210). *)
From Verif Require Export Limits.
From Coq Require Import ZifyBool ZifyNat ZifyN.

Section R.
Variable H : bytes -> bytes.
Hypothesis H_len : forall m, length (H m) = 32.
Variable C : bytes -> bytes -> bytes.
Hypothesis C_len : forall k m, length (C k m) = 20.

(** Committing an unchanged transaction writes a record and nothing else. *)
Lemma commit_stored key w sp i h p l : exec H C key w sp -> s_failed sp = false -> quiet w -> allowed H sp w (CTxCommit i) ->
  txat sp i = Some l -> live w i = Ok (NHash h p) ->
  exists w' r, step H C w (CTxCommit i) = Ok (AOk, w') /\ exec H C key w' (committed sp l) /\ quiet w' /\
    w_txs w' = upd (w_txs w) i (TLive (NHash h p)) /\ length r = 38 /\ files w' = vcommit (files w) r.
Proof.
  intros X Fa Q A Et En. destruct (exec_do H H_len C C_len _ _ _ _ X A) as (a & w' & E & G & X' & Qw & _).
  cbn [good] in G. destruct G as [->|[_ N]]; [|contradiction]. cbn [snext commits] in X'. rewrite Et in X'.
  destruct (exec_sim H H_len C C_len _ _ _ X) as (d & D & V & hist & W & Ew & K & S & F).
  destruct (sm_ok _ _ _ _ _ _ _ _ S Fa) as (Cs & Fs & ->).
  destruct (txs_live H w sp _ i l F Et) as (n & En' & t & R & St & V10). rewrite En in En'. apply Ok_inj in En'. subst n.
  destruct A as [_ (l' & Et' & [F255 Lim])]. rewrite Et in Et'. injection Et' as <-.
  pose proof (vals_le_stands _ _ _ St F255) as V255. pose proof St as (_ & Wt & _). destruct R as [Eh Od].
  assert (Nt : t <> PNull) by (intros ->; contradiction Od).
  assert (Rn : NHash h p = root_node H t p) by (rewrite Eh; destruct t; [contradiction|reflexivity|reflexivity]).
  pose proof (store_commit_spec H H_len C C_len (d_store d) D D hist t p (sm_inv _ _ _ _ _ _ _ _ S) (sm_view _ _ _ _ _ _ _ _ S) (sm_cut _ _ _ _ _ _ _ _ S) Wt V255) as SC.
  assert (Od' : on_disk H (rdl D) t p).
  { revert Od. apply (on_disk_mono H). intros q x. rewrite (clean_rd _ Cs), Fs. auto. }
  specialize (SC (or_intror (conj Nt (fun _ => Od')))). cbv zeta in SC. rewrite <- Rn in SC.
  exists w', (the_record C (d_store d) p). split; [exact E|]. split; [exact X'|]. split; [exact (Qw Q)|].
  revert E. unfold step. rewrite Ew, En. cbn [bind]. unfold tx_commit, tree_commit. cbn [tree_write bind].
  destruct (store_commit C (d_store d) (NHash h p)) as [[[] s']| | | |] eqn:Ec; cbn [bind]; try discriminate; intros E; apply Ok_inj in E; injection E as <-.
  unfold put_tx. cbn [w_txs]. split; [reflexivity|]. split; [apply meta_write_length, C_len|].
  unfold files. rewrite Ew, Fs. cbn [w_db d_store]. apply SC.
Qed.

(** Where the end of the last file was when [d] had just been appended to it. *)
Definition newest (V : list bytes) (d : bytes) : ptr :=
  mark_ptr (N.of_nat (length V)) (blen (last V []) - blen d) (blen d).

(** Committing a single new record: its value, its leaf node, then the commit record. *)
Lemma commit_leaf_at key w sp i h k v l : exec H C key w sp -> s_failed sp = false -> quiet w -> allowed H sp w (CTxCommit i) ->
  txat sp i = Some l -> live w i = Ok (NLeaf (Some h) None k (Some v) None) ->
  exists w' raw r, step H C w (CTxCommit i) = Ok (AOk, w') /\ exec H C key w' (committed sp l) /\ quiet w' /\
    length raw = 40 /\ length r = 38 /\ files w' = vcommit (vapp (vapp (files w) v) raw) r /\
    raw = write8 2 ++ pointer_write (newest (vapp (files w) v) v) ++ k /\
    exists prev, ptr_ok prev /\ r = meta_write C key (mkmeta prev (newest (vapp (vapp (files w) v) raw) raw) NNull).
Proof.
  intros X Fa Q A Et En. destruct (exec_do H H_len C C_len _ _ _ _ X A) as (a & w' & E & G & X' & Qw & _).
  cbn [good] in G. destruct G as [->|[_ N]]; [|contradiction]. cbn [snext commits] in X'. rewrite Et in X'.
  destruct (exec_sim H H_len C C_len _ _ _ X) as (d & D & V & hist & W & Ew & K & S & F).
  destruct (sm_ok _ _ _ _ _ _ _ _ S Fa) as (Cs & Fs & ->).
  destruct (txs_live H w sp _ i l F Et) as (n & En' & t & R & St & V10). rewrite En in En'. apply Ok_inj in En'. subst n.
  destruct A as [_ (l' & Et' & [F255 Lim])]. rewrite Et in Et'. injection Et' as <-.
  pose proof (vals_le_stands _ _ _ St F255) as V255. pose proof St as (_ & Wt & _).
  destruct R as (x & -> & Hh & _ & Hv & _). destruct (Hv eq_refl) as [Ev _]. injection Ev as <-.
  destruct Hh as [X0|X0]; [discriminate X0|]. injection X0 as ->.
  assert (Lk : length k = 32) by (eapply wft_elems_len; [exact Wt|now left]).
  assert (Lv : length v <= 255) by (apply (V255 k); now left).
  pose proof (sm_view _ _ _ _ _ _ _ _ S) as VV.
  assert (Go : exists raw r, length raw = 40 /\ length r = 38 /\ files w' = vcommit (vapp (vapp (files w) v) raw) r /\
    raw = write8 2 ++ pointer_write (newest (vapp (files w) v) v) ++ k /\
    exists prev, ptr_ok prev /\ r = meta_write C key (mkmeta prev (newest (vapp (vapp (files w) v) raw) raw) NNull)).
  2:{ destruct Go as (raw & r & G1 & G2 & G3). exists w', raw, r. split; [exact E|]. split; [exact X'|]. split; [exact (Qw Q)|]. auto. }
  assert (FD : files w = D) by (unfold files; rewrite Ew; exact Fs).
  revert E. unfold step. rewrite Ew, En. cbn [bind]. unfold tx_commit, tree_commit.
  destruct (slab_step H H_len (d_store d) D v VV) as (sl & Es & V1 & P1 & I1 & Ps1 & M1). { unfold MAX_FILE_SIZE, blen. lia. }
  set (q := mark_ptr (sl_index sl) (sl_pos sl - blen v) (blen v)).
  set (raw := write8 2 ++ pointer_write q ++ k).
  assert (Lr : length raw = 40) by (unfold raw; rewrite !app_length, pointer_write_length, Lk; reflexivity).
  destruct (slab_step H H_len (set_slab (d_store d) sl) (vapp D v) raw V1) as (sl2 & Es2 & V2 & P2 & I2 & Ps2 & M2). { unfold MAX_FILE_SIZE, blen. lia. }
  set (w2 := mark_ptr (sl_index sl2) (sl_pos sl2 - blen raw) (blen raw)).
  assert (Nf : needs_flush (set_slab (set_slab (d_store d) sl) sl2) = false).
  { unfold needs_flush. cbn [st_slab set_slab]. apply N.leb_gt. pose proof (cl_slab _ Cs) as Sl. clear - Es Es2 Sl Lv Lr.
    cbn [st_slab set_slab] in Es2. revert Es Es2. rewrite Sl. unfold slab_write, check. cbn [sl_data sl_pos sl_off sl_offsets sl_start sl_index].
    destruct (blen v <=? MAX_FILE_SIZE)%N; [|discriminate]. intros E. apply Ok_inj in E.
    assert (Sd : sl_data sl = v) by (rewrite <- E; destruct (MAX_FILE_SIZE <? _)%N; reflexivity). clear E.
    destruct (blen raw <=? MAX_FILE_SIZE)%N; [|discriminate]. intros E. apply Ok_inj in E. rewrite <- E.
    assert (Hd : sl_data (if (MAX_FILE_SIZE <? sl_pos sl + blen raw)%N then mkslab (sl_data sl) 0 (sl_offsets sl ++ [sl_off sl]) (sl_start sl) 0 (sl_index sl + 1) else sl) = v)
      by (destruct (MAX_FILE_SIZE <? _)%N; exact Sd).
    cbn [sl_data]. rewrite Hd. unfold blen, WRITE_BUFFER. rewrite app_length. lia. }
  assert (TW : tree_write H (d_store d) (NLeaf (Some (hash_value H k v)) None k (Some v) None) =
    Ok (Some (NHash (thash H (PLeaf k v)) w2), set_slab (set_slab (d_store d) sl) sl2)).
  { cbn [tree_write write_value]. rewrite Es. cbn [bind]. unfold write_node. cbn [node_write bind]. fold q. fold raw. rewrite Es2. cbn [bind]. rewrite Nf. fold w2. cbn [bind negb node_hash node_to_hash]. reflexivity. }
  rewrite TW. cbn [bind]. set (s2 := set_slab (set_slab (d_store d) sl) sl2) in *.
  assert (I2' : sinv H C s2 D hist).
  { destruct (sm_inv _ _ _ _ _ _ _ _ S) as [A1 A2 A3 A4 A5 A6 A7]. constructor; auto. }
  assert (Cu : cutof D (vapp (vapp D v) raw)).
  { eapply cutof_trans; [apply vapp_cut|apply vapp_cut, vapp_nonnil]. apply (view_nonnil _ _ VV). }
  assert (Od : cap16 (vapp (vapp D v) raw) -> on_disk H (rdl (vapp (vapp D v) raw)) (PLeaf k v) w2).
  { intros Cap. assert (Lv' : (blen v < 256)%N) by (unfold blen; lia). assert (Lr' : (blen raw < 256)%N) by (unfold blen; lia).
    destruct (mark_read H H_len _ raw sl2 (vapp_nonnil D v) I2 Ps2 M2 Lr' Cap) as (R & R1 & R2 & R3).
    assert (C2 : cutof (vapp D v) (vapp (vapp D v) raw)) by apply vapp_cut, vapp_nonnil.
    destruct (mark_read H H_len D v sl (view_nonnil _ _ VV) I1 Ps1 M1 Lv' (cap16_cut H H_len _ _ C2 Cap)) as (Q' & Q1 & Q2 & Q3).
    fold q in Q', Q1, Q2, Q3. fold w2 in R, R1, R2, R3. clearbody w2.
    destruct (node_roundtrip (NLeaf None None k (Some v) (Some q)) []) as (raw' & m & E' & Em & Er & Len).
    { split; [exact Lk|]. unfold ptr_ok. lia. }
    cbn [node_write] in E'. apply Ok_inj in E'. fold raw in E'. subst raw'. rewrite app_nil_r in Er.
    cbn [stored] in Em. injection Em as <-.
    cbn [on_disk]. split. { unfold node_ptr. rewrite R3. unfold blen. lia. }
    exists raw, q. split; [exact R|]. split; [exact Er|]. split; [unfold blen in *; lia|].
    revert Q'. apply rdl_mono, cutof_ext, C2. }
  assert (Eq : q = newest (vapp D v) v) by (unfold q, newest; rewrite I1, Ps1; reflexivity).
  assert (Ew2 : w2 = newest (vapp (vapp D v) raw) raw) by (unfold w2, newest; rewrite I2, Ps2; reflexivity).
  assert (Eraw : raw = write8 2 ++ pointer_write (newest (vapp D v) v) ++ k) by (rewrite <- Eq; reflexivity).
  assert (Rec : exists prev, ptr_ok prev /\ the_record C s2 w2 = meta_write C key (mkmeta prev w2 NNull)).
  { exists (m_meta (st_state s2)). split; [exact (proj1 (chain_ptr H H_len C C_len _ _ _ _ (si_chain _ _ _ _ _ I2')))|].
    unfold the_record. change (st_key s2) with (st_key (d_store d)). rewrite K. reflexivity. }
  clear Es2 P2 I2 Ps2 M2 Es V1 P1 I1 Ps1 M1 Nf Eq. clearbody s2 w2 raw. clear q.
  pose proof (store_commit_spec H H_len C C_len s2 (vapp (vapp D v) raw) D hist (PLeaf k v) w2 I2' V2 Cu Wt V255) as SC.
  assert (Nn : PLeaf k v <> PNull) by discriminate. specialize (SC (or_intror (conj Nn Od))).
  cbv zeta in SC. change (root_node H (PLeaf k v) w2) with (NHash (thash H (PLeaf k v)) w2) in SC.
  destruct (store_commit C s2 (NHash (thash H (PLeaf k v)) w2)) as [[[] s']| | | |] eqn:Ec; cbn [bind]; try discriminate; intros E; apply Ok_inj in E; injection E as <-.
  exists raw, (the_record C s2 w2). split; [exact Lr|].
  split; [apply meta_write_length, C_len|]. rewrite FD. split; [unfold files; cbn [w_db d_store put_tx]; apply SC|].
  split; [exact Eraw|]. destruct Rec as (prev & Pp & Er). exists prev. split; [exact Pp|]. rewrite <- Ew2. exact Er.
Qed.
Lemma commit_leaf key w sp i h k v l : exec H C key w sp -> s_failed sp = false -> quiet w -> allowed H sp w (CTxCommit i) ->
  txat sp i = Some l -> live w i = Ok (NLeaf (Some h) None k (Some v) None) ->
  exists w' raw r, step H C w (CTxCommit i) = Ok (AOk, w') /\ exec H C key w' (committed sp l) /\ quiet w' /\
    length raw = 40 /\ length r = 38 /\ files w' = vcommit (vapp (vapp (files w) v) raw) r.
Proof.
  intros X Fa Q A Et En. destruct (commit_leaf_at _ _ _ _ _ _ _ _ X Fa Q A Et En) as (w' & raw & r & X1 & X2 & X3 & X4 & X5 & X6 & _).
  exists w', raw, r. auto 10.
Qed.
End R.
