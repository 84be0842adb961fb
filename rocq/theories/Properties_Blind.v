(** * C61, committing: a commit depends on no byte of the data files. *)
From Verif Require Import Blind Properties_Local Properties_Fail Demo.
From Coq Require Import ZifyBool ZifyNat ZifyN.
Local Opaque TREE_FUEL.

(** In any state, valid or not, whatever fails while writing: with the data files replaced by any
    others of the same lengths, the commit answers the same, leaves the same handle (root, cache,
    what is pending) and transaction, and adds the same bytes to the files. *)
Theorem C61_commit_local :
  forall (H : bytes -> bytes) (C : bytes -> bytes -> bytes) w i a w1,
  step H C w (CTxCommit i) = Ok (a, w1) ->
  exists ops, Forall appending ops /\ files w1 = apply_ops (files w) ops /\
    forall fs', map (@length byte) fs' = map (@length byte) (files w) ->
      step H C (damaged w fs') (CTxCommit i) = Ok (a, damaged w1 (apply_ops fs' ops)).
Proof.
  intros H C w i a w1 E. destruct (step_grows H C w (CTxCommit i) a w1 ltac:(discriminate) E) as (d & d1 & Ew & Ew1 & ops & L & Ap & Fl).
  exists ops. unfold files. rewrite Ew, Ew1. split; [exact Ap|]. split; [exact Fl|]. intros fs' Ls.
  assert (T : twin (d_store d) (on_files (d_store d) fs')) by (exists fs'; auto).
  revert E. unfold step, damaged. rewrite Ew, Ew1. cbn [w_db w_txs].
  replace (live (mkworld (Some (with_store d (on_files (d_store d) fs'))) (w_txs w)) i) with (live w i) by reflexivity.
  destruct (live w i) as [n| | | |]; cbn [bind]; try discriminate. unfold tx_commit. cbn [with_store d_store d_revert].
  pose proof (tree_commit_twin H C _ _ n T) as X.
  destruct (tree_commit H C (d_store d) n) as [[o s1]| | | |] eqn:E1; cbn [bind]; try discriminate.
  destruct (tree_commit H C (on_files (d_store d) fs') n) as [[o' s1']| | | |] eqn:E2; cbn [alike] in X; try contradiction. destruct X as [<- (fs1 & -> & Ls1)].
  assert (Fs : fs1 = apply_ops fs' ops \/ st_log s1 <> st_log (d_store d) ++ ops).
  { destruct (tree_commit_grows H C _ _ _ _ E2) as (ops' & L' & _ & F'). cbn [on_files st_log st_fs] in L', F'.
    destruct (list_eq_dec (fun x y : fop => ltac:(decide equality; try apply Nat.eq_dec; apply (list_eq_dec Byte.byte_eq_dec))) (st_log s1) (st_log (d_store d) ++ ops)) as [Q|Q]; [left|right; exact Q].
    rewrite L' in Q. apply app_inv_head in Q. subst ops'. exact F'. }
  cbn [bind]. destruct o as [root|]; cbn [bind]; intros E; apply Ok_inj in E; injection E as <- <-; cbn [put_tx w_db w_txs] in Ew1 |- *; injection Ew1 as <-;
    (destruct Fs as [->|Fs]; [reflexivity|exfalso; apply Fs; exact L]).
Qed.

(** The second commit of [demo] with every byte of the file overwritten (304 zero bytes). *)
Example C61_commit_nonvacuous :
  map (@length byte) [repeat x00 304] = map (@length byte) (files (pw demo)) /\ files (pw demo) <> [repeat x00 304] /\
  st_b (pw demo) (CTxCommit 2) = true /\ st_a (pw demo) (CTxCommit 2) = AOk /\
  st_b (faulty (pw demo) [WShort 200]) (CTxCommit 2) = true /\ st_a (faulty (pw demo) [WShort 200]) (CTxCommit 2) = AErr EBADWRITE.
Proof.
  split; [vm_compute; reflexivity|]. split. { intros E. assert (X : bytes_eqb (nth 0 (files (pw demo)) []) (repeat x00 304) = false) by (vm_compute; reflexivity). rewrite E in X. vm_compute in X. discriminate X. }
  repeat split; vm_compute; reflexivity.
Qed.
