(** * C60: a commit writes only what changed.

    The data files grow by a price paid for each update and each commit.  The price of an
    update depends on its value and on the number of levels above its key, not on how many
    records the database holds. *)
From Verif Require Export Growth Demo.
From Coq Require Import ZifyBool ZifyNat ZifyN.

(** A node record takes at most 113 bytes, a leaf record 40, a commit record 38 with up to
    37 bytes of padding before it. *)
Definition insert_price (l : recs) (k v : bytes) : nat := 113 * (levels l k + 1) + 40 + length v.
Definition remove_price (l : recs) (k : bytes) : nat := 113 * levels l k.
Definition commit_price : nat := 75.
Definition of_tx (sp : spec) (i : nat) (f : recs -> nat) : nat := match txat sp i with Some l => f l | None => 0 end.

Definition price (sp : spec) (c : call) : nat :=
  match c with
  | CInsert k v => insert_price (s_cur sp) k v + commit_price
  | CRemove k => remove_price (s_cur sp) k + commit_price
  | CTxInsert i k v => of_tx sp i (fun l => insert_price l k v)
  | CTxRemove i k => of_tx sp i (fun l => remove_price l k)
  | CTxCommit _ => commit_price
  | _ => 0
  end.

(** The sum over a sequence of calls, each priced in the state it finds. *)
Fixpoint bill (H : bytes -> bytes) (sp : spec) (cs : list call) (l : list answer) : nat :=
  match cs, l with
  | c :: cs, a :: l => price sp c + bill H (snext H sp c a) cs l
  | _, _ => 0
  end.

Definition size (fs : list bytes) : nat := list_sum (map (@length byte) fs).

Local Opaque TREE_FUEL.
Section P.
Variable H : bytes -> bytes.
Hypothesis H_len : forall m, length (H m) = 32.
Variable C : bytes -> bytes -> bytes.
Hypothesis C_len : forall k m, length (C k m) = 20.

Lemma step_growth key w sp c a w' : exec H C key w sp -> allowed H sp w c -> quiet w -> s_failed sp = false ->
  step H C w c = Ok (a, w') -> total (files w') + owed w' <= total (files w) + owed w + price sp c.
Proof.
  intros X A Q Fa E. pose proof (exec_do H H_len C C_len key w sp c X A) as (a1 & w1 & E1 & Gd & _ & _ & Fw).
  rewrite E in E1. apply Ok_inj in E1. injection E1 as <- <-.
  destruct (exec_sim H H_len C C_len _ _ _ X) as (d & D & V & hist & W & Ew & _ & S & F). destruct A as [CF OK].
  assert (Lv : forall i l, txat sp i = Some l -> exists n, live w i = Ok n /\ holds H (d_store d) n l) by (intros; eapply txs_live; eassumption).
  assert (NW : writes c = false -> owed w' <= owed w + price sp c -> total (files w') + owed w' <= total (files w) + owed w + price sp c).
  { intros Wc L. destruct (Fw Wc) as [-> _]. lia. }
  revert E. unfold step. rewrite Ew.
  destruct c as [|h|k ro|k ro|k v|k|k ro|ro|i|i|i|i h|i k|i k|i k v|i k|i k|i|]; cbn [call_ok] in OK; intros E.
  - apply NW; [reflexivity|]. apply Ok_inj in E. injection E as <- <-. lia.
  - apply NW; [reflexivity|]. destruct (db_inject H C d h) as [[a2 d2]| | | |]; cbn [bind] in E; try discriminate E.
    apply Ok_inj in E. injection E as <- <-. unfold owed. cbn [w_txs]. lia.
  - apply NW; [reflexivity|]. destruct (db_read H C _ d ro) as [[a2 d2]| | | |]; cbn [bind] in E; try discriminate E.
    apply Ok_inj in E. injection E as <- <-. unfold owed. cbn [w_txs]. lia.
  - apply NW; [reflexivity|]. destruct (db_read H C _ d ro) as [[a2 d2]| | | |]; cbn [bind] in E; try discriminate E.
    apply Ok_inj in E. injection E as <- <-. unfold owed. cbn [w_txs]. lia.
  - (* insert *) destruct OK as [Lk OK].
    destruct (db_write H C _ d) as [[a2 d2]| | | |] eqn:Ed; cbn [bind] in E; try discriminate E.
    apply Ok_inj in E. injection E as <- <-.
    assert (Gr : total (st_fs (d_store d2)) <= total (st_fs (d_store d)) + insert_price (s_cur sp) k v + 75).
    { eapply write_growth; [exact H_len|exact C_len|exact S|exact Fa|exact CF| |exact Ed]. cbv beta. intros d3 n Hn a3 n3 E3. split.
      - pose proof (tx_insert_wcost H H_len C C_len d3 n _ k v a3 n3 Hn Lk E3). unfold insert_price. lia.
      - intros ->. destruct (Nat.ltb_spec 1023 (length v)) as [L|L].
        { rewrite (tx_insert_long H H_len C C_len d3 n k v L) in E3. apply Ok_inj in E3. discriminate E3. }
        destruct (tx_insert_ok H H_len C C_len d3 n _ k v Hn Lk L) as (n4 & E4 & Hn4). rewrite E3 in E4. apply Ok_inj in E4. injection E4 as <-.
        exists (put (s_cur sp) k v). split; [exact Hn4|]. cbn [commits] in OK. destruct (Nat.ltb_spec 1023 (length v)) as [L'|_]; [lia|].
        apply (OK _ eq_refl). }
    unfold files, owed. rewrite Ew. cbn [w_db w_txs price]. unfold commit_price. lia.
  - (* remove *) destruct OK as [Lk OK].
    destruct (db_write H C _ d) as [[a2 d2]| | | |] eqn:Ed; cbn [bind] in E; try discriminate E.
    apply Ok_inj in E. injection E as <- <-.
    assert (Gr : total (st_fs (d_store d2)) <= total (st_fs (d_store d)) + remove_price (s_cur sp) k + 75).
    { eapply write_growth; [exact H_len|exact C_len|exact S|exact Fa|exact CF| |exact Ed]. cbv beta. intros d3 n Hn a3 n3 E3. split.
      - pose proof (tx_remove_wcost H H_len C C_len d3 n _ k a3 n3 Hn Lk E3). unfold remove_price. lia.
      - intros ->. pose proof (tx_remove_ok H H_len d3 n _ k Hn Lk) as R. cbn [commits] in OK.
        destruct (lookup (s_cur sp) k) as [v|].
        + destruct R as (n4 & E4 & Hn4). rewrite E3 in E4. apply Ok_inj in E4. injection E4 as <-.
          exists (del (s_cur sp) k). split; [exact Hn4|]. apply (OK _ eq_refl).
        + rewrite E3 in R. apply Ok_inj in R. discriminate R. }
    unfold files, owed. rewrite Ew. cbn [w_db w_txs price]. unfold commit_price. lia.
  - apply NW; [reflexivity|]. destruct (db_read H C _ d ro) as [[a2 d2]| | | |]; cbn [bind] in E; try discriminate E.
    apply Ok_inj in E. injection E as <- <-. unfold owed. cbn [w_txs]. lia.
  - (* tx_create *) apply NW; [reflexivity|]. destruct (tx_create H C d ro) as [[[n|] d2]| | | |] eqn:Ec; cbn [bind] in E; try discriminate E;
      apply Ok_inj in E; injection E as <- <-; unfold owed; cbn [w_txs]; [|lia].
    rewrite owed_app. pose proof (wcost_stored _ (create_stored H H_len C C_len _ _ _ _ _ _ _ _ _ S Ec)) as Z.
    unfold list_sum at 2. cbn [map debt fold_right]. lia.
  - (* tx_destroy *) apply NW; [reflexivity|]. destruct (live w i) as [n| | | |] eqn:El; cbn [bind] in E; try discriminate E.
    apply Ok_inj in E. injection E as <- <-. pose proof (owed_put w d i TDead n El) as P. cbn [debt] in P. lia.
  - (* tx_clear *) apply NW; [reflexivity|]. destruct (live w i) as [n| | | |] eqn:El; cbn [bind] in E; try discriminate E.
    apply Ok_inj in E. injection E as <- <-. pose proof (owed_put w d i (TLive (m_node (st_state (d_store d)))) n El) as P. cbn [debt] in P.
    rewrite (wcost_stored (m_node (st_state (d_store d)))) in P; [lia|]. eapply (state_stored H C), S.
  - (* tx_root *) apply NW; [reflexivity|]. destruct (live w i) as [n| | | |] eqn:El; cbn [bind] in E; try discriminate E.
    unfold tx_root in E. destruct (node_hash H n) as [[hh n2]| | | |] eqn:Eh; cbn [bind] in E; try discriminate E.
    apply Ok_inj in E. injection E as <- <-. pose proof (owed_put w d i (TLive n2) n El) as P. cbn [debt] in P.
    apply hash_wcost in Eh. lia.
  - (* tx_inject *) apply NW; [reflexivity|]. destruct (live w i) as [n| | | |] eqn:El; cbn [bind] in E; try discriminate E.
    unfold tx_inject in E. destruct (read_history H C (d_store d) h) as [[[n2|] s2]| | | |] eqn:Eh; cbn [bind] in E; try discriminate E;
      apply Ok_inj in E; injection E as <- <-.
    + pose proof (owed_put w (with_store d s2) i (TLive n2) n El) as P. cbn [debt] in P.
      rewrite (wcost_stored n2) in P; [lia|]. eapply history_stored; [exact H_len|exact C_len|apply S|exact Eh].
    + pose proof (owed_put w (with_store d s2) i (TLive n) n El) as P. cbn [debt] in P. lia.
  - apply NW; [reflexivity|]. destruct (live w i) as [n| | | |]; cbn [bind] in E; try discriminate E.
    destruct (tx_get d n k); cbn [bind] in E; try discriminate E. apply Ok_inj in E. injection E as <- <-. lia.
  - apply NW; [reflexivity|]. destruct (live w i) as [n| | | |]; cbn [bind] in E; try discriminate E.
    destruct (tx_has d n k); cbn [bind] in E; try discriminate E. apply Ok_inj in E. injection E as <- <-. lia.
  - (* tx_insert *) apply NW; [reflexivity|]. destruct OK as [Nt Lk]. destruct (txat sp i) as [l|] eqn:Et; [|congruence].
    destruct (Lv i l Et) as (n & El & Hn). rewrite El in E. cbn [bind] in E.
    destruct (tx_insert H d n k v) as [[a2 n2]| | | |] eqn:Ei; cbn [bind] in E; try discriminate E. apply Ok_inj in E. injection E as <- <-.
    pose proof (owed_put w d i (TLive n2) n El) as P. cbn [debt] in P. pose proof (tx_insert_wcost H H_len C C_len d n l k v a2 n2 Hn Lk Ei).
    cbn [price]. unfold of_tx, insert_price. rewrite Et. lia.
  - (* tx_remove *) apply NW; [reflexivity|]. destruct OK as [Nt Lk]. destruct (txat sp i) as [l|] eqn:Et; [|congruence].
    destruct (Lv i l Et) as (n & El & Hn). rewrite El in E. cbn [bind] in E.
    destruct (tx_remove d n k) as [[a2 n2]| | | |] eqn:Ei; cbn [bind] in E; try discriminate E. apply Ok_inj in E. injection E as <- <-.
    pose proof (owed_put w d i (TLive n2) n El) as P. cbn [debt] in P. pose proof (tx_remove_wcost H H_len C C_len d n l k a2 n2 Hn Lk Ei).
    cbn [price]. unfold of_tx, remove_price. rewrite Et. lia.
  - (* tx_prove *) apply NW; [reflexivity|]. destruct (live w i) as [n| | | |] eqn:El; cbn [bind] in E; try discriminate E.
    assert (Wc : forall a2 n2, tx_prove H d n k = Ok (a2, n2) -> wcost n2 = wcost n).
    { intros a2 n2. unfold tx_prove. destruct (tree_prove H (st_rd (d_store d)) TREE_FUEL [] n k 0) as [[p n3]|e| | |] eqn:Ep; try discriminate.
      - destruct (proof_size p) as [z| | | |]; cbn [bind]; try discriminate. destruct (proof_write p) as [raw| | | |]; cbn [bind]; try discriminate.
        destruct (length raw =? z); [|discriminate]. intros E2. apply Ok_inj in E2. injection E2 as <- <-. eapply (prove_wcost H H_len C C_len), Ep.
      - intros E2. apply Ok_inj in E2. injection E2 as <- <-. reflexivity. }
    destruct (tx_prove H d n k) as [[a2 n2]| | | |]; cbn [bind] in E; try discriminate E. apply Ok_inj in E. injection E as <- <-.
    specialize (Wc _ _ eq_refl). pose proof (owed_put w d i (TLive n2) n El) as P. cbn [debt] in P. lia.
  - (* tx_commit *) destruct OK as (l & Et & [F255 _]). destruct (Lv i l Et) as (n & El & Hn). rewrite El in E. cbn [bind] in E.
    destruct (tx_commit H C d n) as [[[a2 d2] t]| | | |] eqn:Ec; cbn [bind] in E; try discriminate E. apply Ok_inj in E. injection E as <- <-.
    destruct Gd as [->|[_ NQ]]; [|contradiction]. destruct (commit_wcost H H_len C C_len _ _ _ _ _ _ _ _ _ _ S Fa Hn F255 Ec) as [Gr (m & -> & Zm)].
    pose proof (owed_put w d2 i (TLive m) n El) as P. cbn [debt] in P. unfold files at 1 2. rewrite Ew. cbn [put_tx w_db price]. unfold commit_price. 
    change (mkworld (Some d2) (upd (w_txs w) i (TLive m))) with (put_tx w d2 i (TLive m)). lia.
  - (* reopen *) destruct OK as [_ Al].
    destruct (sm_ok _ _ _ _ _ _ _ _ S Fa) as (Cs & Fs & EV). unfold files in Al. rewrite Ew, Fs in Al. subst V.
    pose proof (simdb_dinv H H_len C C_len _ _ _ _ _ _ S Al) as DI.
    destruct (open_sim H H_len C C_len _ D _ hist D (snext H sp CReopen AOk) W DI) as (d' & Eo & K' & Q' & S').
    { left. split; [apply S|apply (noforge_refl H H_len C C_len)]. }
    { apply S. } { apply S. } { apply S. } { apply S. } { reflexivity. }
    cbv zeta in E. rewrite Fs, Eo in E. cbn [bind] in E. apply Ok_inj in E. injection E as <- <-.
    unfold files, owed. rewrite Ew. cbn [w_db w_txs]. rewrite owed_dead, Fs.
    destruct (sm_ok _ _ _ _ _ _ _ _ S' eq_refl) as (_ & -> & _). lia.
Qed.

Lemma exec_quiet key w sp c a w' : exec H C key w sp -> allowed H sp w c -> quiet w -> step H C w c = Ok (a, w') -> quiet w'.
Proof.
  intros X A Q E. destruct (exec_do H H_len C C_len key w sp c X A) as (a1 & w1 & E1 & _ & _ & Qw & _).
  rewrite E in E1. apply Ok_inj in E1. injection E1 as <- <-. auto.
Qed.

Lemma calls_growth key w sp cs l w' sp' : calls H C w sp cs l w' sp' -> exec H C key w sp -> quiet w -> s_failed sp = false ->
  total (files w') + owed w' <= total (files w) + owed w + bill H sp cs l.
Proof.
  intros Cs. induction Cs as [|w sp c a w1 cs l w2 sp2 A E Cs IH]; intros X Q Fa; [cbn [bill]; lia|].
  destruct (exec_good H H_len C C_len key w sp c a w1 X A E) as [Gd X1].
  pose proof (step_growth key w sp c a w1 X A Q Fa E) as S1. pose proof (exec_quiet _ _ _ _ _ _ X A Q E) as Q1.
  specialize (IH X1 Q1 (snext_failed H sp w c a Gd Q Fa)). cbn [bill]. lia.
Qed.

(** ** The theorems *)

(** Over any sequence of calls without failing system calls, starting where no transaction
    is open, the data files grow by at most the prices of the calls. *)
Theorem C60_growth key w sp cs l w' sp' : exec H C key w sp -> quiet w -> s_failed sp = false ->
  Forall (fun t => t = None) (s_txs sp) -> calls H C w sp cs l w' sp' ->
  size (files w') <= size (files w) + bill H sp cs l.
Proof.
  intros X Q Fa Nt Cs. pose proof (calls_growth key w sp cs l w' sp' Cs X Q Fa) as G.
  assert (Z : owed w = 0).
  { destruct (exec_sim H H_len C C_len _ _ _ X) as (d & D & V & hist & W & Ew & _ & S & F). unfold owed, list_sum.
    clear - F Nt. induction F as [|t o ts os R F IH]; [reflexivity|]. inversion Nt as [|? ? N1 N2]; subst.
    cbn [map fold_right]. rewrite (IH N2). destruct t; cbn [debt txsim] in *; [contradiction|reflexivity|reflexivity]. }
  unfold size. fold (total (files w')). fold (total (files w)). lia.
Qed.

(** One urkel_insert or urkel_remove, whatever transactions are open. *)
Theorem C60_insert key w sp k v a w' : exec H C key w sp -> quiet w -> s_failed sp = false ->
  allowed H sp w (CInsert k v) -> step H C w (CInsert k v) = Ok (a, w') ->
  size (files w') <= size (files w) + 113 * (levels (s_cur sp) k + 1) + 40 + length v + 75.
Proof.
  intros X Q Fa A E. pose proof (step_growth key w sp _ a w' X A Q Fa E) as G.
  assert (Z : owed w' = owed w).
  { revert E. unfold step. destruct (w_db w) as [d|]; [|discriminate].
    destruct (db_write H C (fun d n => tx_insert H d n k v) d) as [[a2 d2]| | | |]; cbn [bind]; intros E; try discriminate E.
    apply Ok_inj in E. injection E as <- <-. reflexivity. }
  unfold size. fold (total (files w')). fold (total (files w)). cbn [price] in G. unfold insert_price, commit_price in G. lia.
Qed.
Theorem C60_remove key w sp k a w' : exec H C key w sp -> quiet w -> s_failed sp = false ->
  allowed H sp w (CRemove k) -> step H C w (CRemove k) = Ok (a, w') ->
  size (files w') <= size (files w) + 113 * levels (s_cur sp) k + 75.
Proof.
  intros X Q Fa A E. pose proof (step_growth key w sp _ a w' X A Q Fa E) as G.
  assert (Z : owed w' = owed w).
  { revert E. unfold step. destruct (w_db w) as [d|]; [|discriminate].
    destruct (db_write H C (fun d n => tx_remove d n k) d) as [[a2 d2]| | | |]; cbn [bind]; intros E; try discriminate E.
    apply Ok_inj in E. injection E as <- <-. reflexivity. }
  unfold size. fold (total (files w')). fold (total (files w)). cbn [price] in G. unfold remove_price, commit_price in G. lia.
Qed.

(** A bound that does not depend on the contents at all. *)
Definition flat_price (c : call) : N :=
  match c with
  | CInsert _ v => 29156 + N.of_nat (length v)
  | CRemove _ => 29003
  | CTxInsert _ _ v => 29081 + N.of_nat (length v)
  | CTxRemove _ _ => 28928
  | CTxCommit _ => 75
  | _ => 0
  end.
Definition flat_bill (cs : list call) : N := fold_right (fun c n => flat_price c + n)%N 0%N cs.

Lemma stands_keys l t : stands l t -> Forall (fun e => length (fst e) = 32) l.
Proof. intros ((_ & R) & _). exact R. Qed.

Lemma price_flat key w sp c : exec H C key w sp -> allowed H sp w c -> (N.of_nat (price sp c) <= flat_price c)%N.
Proof.
  intros X [_ OK]. destruct c; cbn [price flat_price call_ok] in *; unfold of_tx, insert_price, remove_price, commit_price; try lia.
  - destruct OK as [Lk _]. destruct (exec_cur H H_len C C_len key w sp X) as (t & St).
    pose proof (levels_256 (s_cur sp) k (stands_keys _ _ St) Lk) as B. revert B. generalize (levels (s_cur sp) k). lia.
  - destruct OK as [Lk _]. destruct (exec_cur H H_len C C_len key w sp X) as (t & St).
    pose proof (levels_256 (s_cur sp) k (stands_keys _ _ St) Lk) as B. revert B. generalize (levels (s_cur sp) k). lia.
  - destruct OK as [_ Lk]. destruct (txat sp i) as [l|] eqn:Et; [|lia]. destruct (exec_stands H H_len C C_len key w sp i l X Et) as (t & St & _).
    pose proof (levels_256 l k (stands_keys _ _ St) Lk) as B. revert B. generalize (levels l k). lia.
  - destruct OK as [_ Lk]. destruct (txat sp i) as [l|] eqn:Et; [|lia]. destruct (exec_stands H H_len C C_len key w sp i l X Et) as (t & St & _).
    pose proof (levels_256 l k (stands_keys _ _ St) Lk) as B. revert B. generalize (levels l k). lia.
Qed.

Theorem C60_flat key w sp cs l w' sp' : exec H C key w sp -> calls H C w sp cs l w' sp' ->
  (N.of_nat (bill H sp cs l) <= flat_bill cs)%N.
Proof.
  intros X Cs. induction Cs as [|w sp c a w1 cs l w2 sp2 A E Cs IH]; [cbn; lia|].
  destruct (exec_good H H_len C C_len key w sp c a w1 X A E) as [_ X1]. specialize (IH X1).
  pose proof (price_flat key w sp c X A). cbn [bill flat_bill fold_right]. fold (flat_bill cs). lia.
Qed.
End P.

(** The calls of [demo] (Demo.v): two committed inserts, one not committed. *)
Theorem C60_nonvacuous : exec toy toyC dkey w0 spec0 /\ quiet w0 /\ s_failed spec0 = false /\
  Forall (fun t => t = None) (s_txs spec0) /\
  calls toy toyC w0 spec0 demo (pl demo) (pw demo) (ps demo) /\
  size (files (pw demo)) = 304 /\ bill toy spec0 demo (pl demo) = 943.
Proof.
  split; [apply exec_w0|]. split; [apply quiet_b_ok; vm_compute; reflexivity|]. split; [reflexivity|]. split; [constructor|]. split.
  { apply calls_played. vm_compute. reflexivity. }
  split; vm_compute; reflexivity.
Qed.
