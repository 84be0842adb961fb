(** * C61: a lookup depends on few bytes of the files; damage elsewhere does not matter. *)
From Verif Require Export Local Demo Properties_Db.
From Coq Require Import ZifyBool ZifyNat ZifyN Permutation.
Local Opaque TREE_FUEL.

(** The world [w] with the data files replaced under it. *)
Definition damaged (w : world) (fs' : list bytes) : world :=
  match w_db w with
  | Some d => mkworld (Some (with_store d (on_files (d_store d) fs'))) (w_txs w)
  | None => w
  end.

(** The [n] bytes at position [o] of file number [i] (counted from 1). *)
Definition extent : Type := nat * N * N.
Definition place (p : ptr) : extent := (N.to_nat (pidx p), ppos p, psize p).
Definition spares (fs fs' : list bytes) (x : extent) : Prop :=
  let '(i, o, n) := x in forall f, nth_error fs (i - 1) = Some f ->
  exists f', nth_error fs' (i - 1) = Some f' /\ length f' = length f /\ slice f' o n = slice f o n.
Fixpoint extents (L : list extent) : N := match L with [] => 0 | (_, _, n) :: r => n + extents r end%N.

Section P.
Lemma forall2_len {A B} (R : A -> B -> Prop) a b : Forall2 R a b -> length a = length b.
Proof. induction 1; cbn [length]; congruence. Qed.
Variable H : bytes -> bytes.
Hypothesis H_len : forall m, length (H m) = 32.
Variable C : bytes -> bytes -> bytes.
Hypothesis C_len : forall k m, length (C k m) = 20.

Lemma extents_app a b : extents (a ++ b) = (extents a + extents b)%N.
Proof. induction a as [|[[i o] n] a IH]; [reflexivity|]. cbn [app extents]. rewrite IH. lia. Qed.
Lemma extents_place L : extents (map place L) = bytes_of L.
Proof. induction L as [|p L IH]; [reflexivity|]. cbn [map extents bytes_of place]. now rewrite IH. Qed.
Lemma spares_agree s fs' L : length fs' = length (st_fs s) -> Forall (spares (st_fs s) fs') (map place L) ->
  agree (st_rd s) (st_rd (on_files s fs')) L.
Proof.
  intros E F. apply agree_intact; [exact E|]. intros p I. rewrite Forall_map in F. rewrite Forall_forall in F. exact (F p I).
Qed.
Lemma node_few d n l k : holds H (d_store d) n l ->
  length (map place (visited (st_rd (d_store d)) TREE_FUEL n k 0)) <= Datatypes.S (Nat.min 257 (length l)) /\
  (extents (map place (visited (st_rd (d_store d)) TREE_FUEL n k 0)) <= 113 * N.of_nat (Nat.min 257 (length l)) + 1023)%N.
Proof.
  intros (t & R & S & V). rewrite map_length, extents_place.
  rewrite (Permutation_length (stands_perm l t S)). exact (visited_root H H_len _ k n t R (proj1 (proj2 S))).
Qed.

Lemma get_on d n k fs' : agree (st_rd (d_store d)) (st_rd (on_files (d_store d) fs')) (visited (st_rd (d_store d)) TREE_FUEL n k 0) ->
  tx_get (with_store d (on_files (d_store d) fs')) n k = tx_get d n k.
Proof. intros A. unfold tx_get. cbn [with_store d_store]. now rewrite (get_agree (st_rd (d_store d))) by exact A. Qed.
Lemma has_on d n k fs' : agree (st_rd (d_store d)) (st_rd (on_files (d_store d) fs')) (visited (st_rd (d_store d)) TREE_FUEL n k 0) ->
  tx_has (with_store d (on_files (d_store d) fs')) n k = tx_has d n k.
Proof. intros A. unfold tx_has. cbn [with_store d_store]. now rewrite (get_agree (st_rd (d_store d))) by exact A. Qed.
Lemma prove_on d n k fs' : agree (st_rd (d_store d)) (st_rd (on_files (d_store d) fs')) (visited (st_rd (d_store d)) TREE_FUEL n k 0) ->
  tx_prove H (with_store d (on_files (d_store d) fs')) n k = tx_prove H d n k.
Proof. intros A. unfold tx_prove. cbn [with_store d_store]. now rewrite (prove_agree H (st_rd (d_store d))) by exact A. Qed.

Lemma damaged_some w d fs' : w_db w = Some d -> damaged w fs' = mkworld (Some (with_store d (on_files (d_store d) fs'))) (w_txs w).
Proof. intros E. unfold damaged. now rewrite E. Qed.
Lemma live_damaged w i fs' : live (damaged w fs') i = live w i.
Proof. unfold live, damaged. destruct (w_db w); reflexivity. Qed.
End P.

(** ** C61: transactions *)
Theorem C61_tx_lookup_local :
  forall (H : bytes -> bytes), (forall m, length (H m) = 32) ->
  forall (C : bytes -> bytes -> bytes), (forall k m, length (C k m) = 20) ->
  forall key w sp i l k,
  exec H C key w sp -> txat sp i = Some l -> length k = 32 ->
  exists L raw w1,
    length L <= Datatypes.S (Nat.min 257 (length l)) /\
    (extents L <= 113 * N.of_nat (Nat.min 257 (length l)) + 1023)%N /\
    step H C w (CTxGet i k) = Ok (found (lookup l k), w) /\
    step H C w (CTxHas i k) = Ok (present (lookup l k), w) /\
    step H C w (CTxProve i k) = Ok (AProof raw, w1) /\ proves H l k (AProof raw) /\
    forall fs', length fs' = length (files w) -> Forall (spares (files w) fs') L ->
      step H C (damaged w fs') (CTxGet i k) = Ok (found (lookup l k), damaged w fs') /\
      step H C (damaged w fs') (CTxHas i k) = Ok (present (lookup l k), damaged w fs') /\
      step H C (damaged w fs') (CTxProve i k) = Ok (AProof raw, damaged w1 fs').
Proof.
  intros H HL C CL key w sp i l k X E Lk. destruct (exec_tx H HL C CL _ _ _ _ _ X E) as (d & n & Ew & En & Hn).
  destruct (tx_prove_ok H HL d n l k Hn Lk) as (raw & n' & Ep & _ & P & _).
  exists (map place (visited (st_rd (d_store d)) TREE_FUEL n k 0)), raw, (put_tx w d i (TLive n')).
  destruct (node_few H HL d n l k Hn) as [F1 F2]. split; [exact F1|]. split; [exact F2|].
  pose proof (tx_get_ok H HL d n l k Hn Lk) as Eg. pose proof (tx_has_ok H HL d n l k Hn Lk) as Eh.
  split; [unfold step; rewrite Ew, En; cbn [bind]; rewrite Eg; reflexivity|].
  split; [unfold step; rewrite Ew, En; cbn [bind]; rewrite Eh; reflexivity|].
  split; [unfold step; rewrite Ew, En; cbn [bind]; rewrite Ep; reflexivity|]. split; [exact P|].
  intros fs' Lf Sp. unfold files in Lf, Sp. rewrite Ew in Lf, Sp. pose proof (spares_agree _ _ _ Lf Sp) as A.
  pose proof (live_damaged w i fs') as El. rewrite En in El. rewrite (damaged_some w d fs' Ew) in El |- *.
  split; [|split]; unfold step; cbn [w_db]; rewrite El; cbn [bind].
  - rewrite (get_on d n k fs' A), Eg. reflexivity.
  - rewrite (has_on d n k fs' A), Eh. reflexivity.
  - rewrite (prove_on H d n k fs' A), Ep. reflexivity.
Qed.

(** Updates of a transaction read few bytes as well. *)
Lemma insert_on H d n k v fs' : agree (st_rd (d_store d)) (st_rd (on_files (d_store d) fs')) (read_insert (st_rd (d_store d)) TREE_FUEL n k 0) ->
  tx_insert H (with_store d (on_files (d_store d) fs')) n k v = tx_insert H d n k v.
Proof. intros A. unfold tx_insert. cbn [with_store d_store]. now rewrite (insert_agree H (st_rd (d_store d))) by exact A. Qed.
Lemma remove_on d n k fs' : agree (st_rd (d_store d)) (st_rd (on_files (d_store d) fs')) (read_remove (st_rd (d_store d)) TREE_FUEL n k 0) ->
  tx_remove (with_store d (on_files (d_store d) fs')) n k = tx_remove d n k.
Proof. intros A. unfold tx_remove. cbn [with_store d_store]. now rewrite (remove_agree (st_rd (d_store d))) by exact A. Qed.

Theorem C61_tx_update_local :
  forall (H : bytes -> bytes), (forall m, length (H m) = 32) ->
  forall (C : bytes -> bytes -> bytes), (forall k m, length (C k m) = 20) ->
  forall key w sp i l k,
  exec H C key w sp -> txat sp i = Some l -> length k = 32 ->
  exists L,
    length L <= 2 * Nat.min 257 (length l) + 1 /\
    (extents L <= 113 * (2 * N.of_nat (Nat.min 257 (length l)) + 1))%N /\
    (forall v, length v <= 1023 -> exists w1, step H C w (CTxInsert i k v) = Ok (AOk, w1) /\
       forall fs', length fs' = length (files w) -> Forall (spares (files w) fs') L ->
       step H C (damaged w fs') (CTxInsert i k v) = Ok (AOk, damaged w1 fs')) /\
    (exists w1, step H C w (CTxRemove i k) = Ok (present (lookup l k), w1) /\
       forall fs', length fs' = length (files w) -> Forall (spares (files w) fs') L ->
       step H C (damaged w fs') (CTxRemove i k) = Ok (present (lookup l k), damaged w1 fs')).
Proof.
  intros H HL C CL key w sp i l k X E Lk. destruct (exec_tx H HL C CL _ _ _ _ _ X E) as (d & n & Ew & En & Hn).
  exists (map place (read_insert (st_rd (d_store d)) TREE_FUEL n k 0 ++ read_remove (st_rd (d_store d)) TREE_FUEL n k 0)).
  assert (B : only (2 * Nat.min 257 (length l) + 1) (read_insert (st_rd (d_store d)) TREE_FUEL n k 0 ++ read_remove (st_rd (d_store d)) TREE_FUEL n k 0)).
  { destruct Hn as (t & R & S & V). rewrite (Permutation_length (stands_perm l t S)). exact (updates_root H HL _ k n t R (proj1 (proj2 S))). }
  destruct B as [B1 B2]. split; [rewrite map_length; exact B1|]. split; [rewrite extents_place; lia|].
  assert (A : forall fs', length fs' = length (files w) ->
    Forall (spares (files w) fs') (map place (read_insert (st_rd (d_store d)) TREE_FUEL n k 0 ++ read_remove (st_rd (d_store d)) TREE_FUEL n k 0)) ->
    agree (st_rd (d_store d)) (st_rd (on_files (d_store d) fs')) (read_insert (st_rd (d_store d)) TREE_FUEL n k 0) /\
    agree (st_rd (d_store d)) (st_rd (on_files (d_store d) fs')) (read_remove (st_rd (d_store d)) TREE_FUEL n k 0) /\
    live (mkworld (Some (with_store d (on_files (d_store d) fs'))) (w_txs w)) i = Ok n).
  { intros fs' Lf Sp. unfold files in Lf, Sp. rewrite Ew in Lf, Sp. pose proof (spares_agree _ _ _ Lf Sp) as A.
    split; [eapply agree_l, A|]. split; [eapply agree_r, A|]. rewrite <- (damaged_some w d fs' Ew), live_damaged. exact En. }
  split.
  - intros v Lv. destruct (tx_insert_ok H HL C CL d n l k v Hn Lk Lv) as (n' & Ei & _). exists (put_tx w d i (TLive n')).
    split; [unfold step; rewrite Ew, En; cbn [bind]; rewrite Ei; reflexivity|].
    intros fs' Lf Sp. destruct (A fs' Lf Sp) as (A1 & A2 & El). rewrite (damaged_some w d fs' Ew). unfold step. cbn [w_db].
    rewrite El. cbn [bind]. rewrite (insert_on H d n k v fs' A1), Ei. reflexivity.
  - assert (Er : exists a n', tx_remove d n k = Ok (a, n') /\ a = present (lookup l k)).
    { pose proof (tx_remove_ok H HL d n l k Hn Lk) as R. destruct (lookup l k); [destruct R as (n' & R & _)|]; rewrite R; eexists _, _; split; reflexivity. }
    destruct Er as (a & n' & Er & <-). exists (put_tx w d i (TLive n')).
    split; [unfold step; rewrite Ew, En; cbn [bind]; rewrite Er; reflexivity|].
    intros fs' Lf Sp. destruct (A fs' Lf Sp) as (A1 & A2 & El). rewrite (damaged_some w d fs' Ew). unfold step. cbn [w_db].
    rewrite El. cbn [bind]. rewrite (remove_on d n k fs' A2), Er. reflexivity.
Qed.

(** ** C61: the database, with the lookup of the root *)
Lemma create_on H (HL : forall m, length (H m) = 32) C (CL : forall k m, length (C k m) = 20) d sp D hist ro n d' fs' L :
  rdb H C d sp D hist -> tx_create H C d ro = Ok (Some n, d') ->
  L = map place (match (match ro with Some h => Some h | None => if d_revert d then Some (d_hash d) else None end) with
                 | Some h => looked_up H C (d_store d) h | None => [] end) ->
  map (@length byte) fs' = map (@length byte) (st_fs (d_store d)) -> Forall (spares (st_fs (d_store d)) fs') L ->
  tx_create H C (with_store d (on_files (d_store d) fs')) ro = Ok (Some n, with_store d' (on_files (d_store d') fs')).
Proof.
  intros R E EL Lf Sp. subst L. assert (Ln : length fs' = length (st_fs (d_store d))) by (rewrite <- (map_length (@length byte)), Lf; apply map_length).
  apply spares_agree in Sp; [|exact Ln].
  assert (Q : forall h, agree (st_rd (d_store d)) (st_rd (on_files (d_store d) fs')) (looked_up H C (d_store d) h) ->
    (let! (r, s) := read_history H C (d_store d) h in Ok (r, with_store d s)) = Ok (Some n, d') ->
    (let! (r, s) := read_history H C (on_files (d_store d) fs') h in Ok (r, with_store (with_store d (on_files (d_store d) fs')) s)) = Ok (Some n, with_store d' (on_files (d_store d') fs'))).
  { intros h A. rewrite (history_on H C _ h fs' Lf A). destruct (read_history H C (d_store d) h) as [[r s]| | | |]; cbn [bind onto]; try discriminate.
    intros Q. apply Ok_inj in Q. injection Q as -> <-. reflexivity. }
  destruct ro as [h|]; cbn [tx_create] in E |- *; cbn [with_store d_store d_revert d_hash] in *; [apply Q; assumption|].
  destruct (d_revert d); [apply Q; assumption|]. apply Ok_inj in E. injection E as <- <-. reflexivity.
Qed.

Theorem C61_lookup_local :
  forall (H : bytes -> bytes), (forall m, length (H m) = 32) ->
  forall (C : bytes -> bytes -> bytes), (forall k m, length (C k m) = 20) ->
  forall key w sp ro l k,
  exec H C key w sp -> collision_free H sp -> seen H sp ro = Some l -> length k = 32 ->
  exists L raw w1 w2,
    length L <= 3 * length (s_hist sp) + Datatypes.S (Nat.min 257 (length l)) /\
    (extents L <= 1174 * N.of_nat (length (s_hist sp)) + 113 * N.of_nat (Nat.min 257 (length l)) + 1023)%N /\
    step H C w (CGet k ro) = Ok (found (lookup l k), w1) /\
    step H C w (CHas k ro) = Ok (present (lookup l k), w1) /\
    step H C w (CProve k ro) = Ok (AProof raw, w1) /\ proves H l k (AProof raw) /\
    step H C w (CTxCreate ro) = Ok (ATx (length (s_txs sp)), w2) /\
    forall fs', map (@length byte) fs' = map (@length byte) (files w) -> Forall (spares (files w) fs') L ->
      step H C (damaged w fs') (CGet k ro) = Ok (found (lookup l k), damaged w1 fs') /\
      step H C (damaged w fs') (CHas k ro) = Ok (present (lookup l k), damaged w1 fs') /\
      step H C (damaged w fs') (CProve k ro) = Ok (AProof raw, damaged w1 fs') /\
      step H C (damaged w fs') (CTxCreate ro) = Ok (ATx (length (s_txs sp)), damaged w2 fs').
Proof.
  intros H HL C CL key w sp ro l k X CF Es Lk.
  destruct (exec_sim H HL C CL _ _ _ X) as (d & D & V & hist & W & Ew & Ek & S & F). pose proof (simdb_rdb _ _ _ _ _ _ _ _ S) as R.
  destruct (tx_create_ok H HL C CL d sp D hist ro R CF) as (r & d' & E1 & R' & Sd & M). rewrite Es in M. destruct M as (n & -> & Hn).
  destruct (tx_prove_ok H HL d' n l k Hn Lk) as (raw & n' & Ep & _ & P & _).
  pose proof (tx_get_ok H HL d' n l k Hn Lk) as Eg. pose proof (tx_has_ok H HL d' n l k Hn Lk) as Eh.
  set (L0 := match (match ro with Some h => Some h | None => if d_revert d then Some (d_hash d) else None end) with
                 | Some h => looked_up H C (d_store d) h | None => [] end).
  set (L1 := visited (st_rd (d_store d')) TREE_FUEL n k 0).
  exists (map place L0 ++ map place L1), raw, (mkworld (Some d') (w_txs w)), (mkworld (Some d') (w_txs w ++ [TLive n])).
  assert (B : length L0 <= 3 * length (s_hist sp) /\ (bytes_of L0 <= 1174 * N.of_nat (length (s_hist sp)))%N).
  { unfold L0. rewrite <- (forall2_len _ _ _ (rm_hist _ _ _ _ _ _ R)).
    destruct (match ro with Some h => Some h | None => if d_revert d then Some (d_hash d) else None end) as [h|]; [|cbn; lia].
    exact (looked_up_few H HL C CL _ D hist h (rm_inv _ _ _ _ _ _ R)). }
  destruct (node_few H HL d' n l k Hn) as [F1 F2]. fold L1 in F1, F2.
  split; [rewrite app_length, (map_length place L0); lia|]. split; [rewrite extents_app, (extents_place L0); lia|].
  split; [unfold step; rewrite Ew; unfold db_read; rewrite E1; cbn [bind]; rewrite Eg; reflexivity|].
  split; [unfold step; rewrite Ew; unfold db_read; rewrite E1; cbn [bind]; rewrite Eh; reflexivity|].
  split; [unfold step; rewrite Ew; unfold db_read; rewrite E1; cbn [bind]; rewrite Ep; reflexivity|]. split; [exact P|].
  split; [unfold step; rewrite Ew, E1; cbn [bind]; rewrite (txs_len _ _ _ _ F); reflexivity|].
  intros fs' Lf Sp. unfold files in Lf, Sp. rewrite Ew in Lf, Sp. apply Forall_app in Sp. destruct Sp as [Sp0 Sp1].
  pose proof (create_on H HL C CL d sp D hist ro n d' fs' _ R E1 eq_refl Lf Sp0) as E2.
  destruct Sd as (Sf & _). rewrite <- Sf in Sp1.
  assert (Ln : length fs' = length (st_fs (d_store d'))) by (rewrite Sf, <- (map_length (@length byte)), Lf; apply map_length).
  pose proof (spares_agree _ _ _ Ln Sp1) as A. fold L1 in A. rewrite (damaged_some w d fs' Ew).
  split; [|split; [|split]]; unfold step; cbn [w_db w_txs]; unfold db_read; rewrite E2; cbn [bind].
  - rewrite (get_on d' n k fs' A), Eg. reflexivity.
  - rewrite (has_on d' n k fs' A), Eh. reflexivity.
  - rewrite (prove_on H d' n k fs' A), Ep. reflexivity.
  - rewrite (txs_len _ _ _ _ F). reflexivity.
Qed.

(** ** The hypotheses are met: the demo session, with the leaf of one key overwritten by zeros *)
Definition said (r : res (answer * world)) : option answer := match r with Ok (a, _) => Some a | _ => None end.
Definition zeroed (o n : nat) (fs : list bytes) : list bytes := map (fun f => firstn o f ++ repeat x00 n ++ skipn (o + n) f) fs.
Example C61_nonvacuous :
  exec toy toyC dkey (pw demo) (ps demo) /\ collision_free toy (ps demo) /\
  txat (ps demo) 2 = Some [(kbaz, v2); (kbar, v1); (kfoo, foo_value)] /\
  seen toy (ps demo) (Some (ref_root toy [(kfoo, foo_value)])) = Some [(kfoo, foo_value)] /\
  (let fs := files (pw demo) in
   map (@length byte) (zeroed 0 44 fs) = map (@length byte) fs /\ zeroed 0 44 fs <> fs /\
   Forall (spares fs (zeroed 0 44 fs)) [(1, 118%N, 40%N); (1, 114%N, 4%N)] /\
   said (step toy toyC (damaged (pw demo) (zeroed 0 44 fs)) (CTxGet 2 kbar)) = Some (AVal v1) /\
   said (step toy toyC (damaged (pw demo) (zeroed 0 44 fs)) (CTxGet 2 kfoo)) <> Some (AVal foo_value) /\
   said (step toy toyC (damaged (pw demo) (zeroed 114 44 fs)) (CTxInsert 2 kfoo v2)) = Some AOk /\
   (* the other way round, for a lookup that walks the commit records *)
   said (step toy toyC (damaged (pw demo) (zeroed 114 44 fs)) (CGet kfoo (Some (ref_root toy [(kfoo, foo_value)])))) = Some (AVal foo_value) /\
   said (step toy toyC (damaged (pw demo) (zeroed 114 44 fs)) (CTxGet 2 kbar)) <> Some (AVal v1)).
Proof.
  split; [exact exec_demo|]. split; [exact demo_free|]. split; [unfold txat; rewrite (proj1 demo_txs); reflexivity|].
  split; [unfold seen; rewrite (proj2 demo_txs); vm_compute; reflexivity|]. cbv zeta.
  split; [vm_compute; reflexivity|]. split; [vm_compute; discriminate|].
  split. { repeat constructor; intros f E; (eexists; split; [vm_compute; reflexivity|]); vm_compute in E; injection E as <-; split; vm_compute; reflexivity. }
  split; [vm_compute; reflexivity|]. split; [vm_compute; discriminate|]. split; [vm_compute; reflexivity|]. split; [vm_compute; reflexivity|]. vm_compute. discriminate.
Qed.
