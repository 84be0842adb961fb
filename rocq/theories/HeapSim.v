(** * Sessions on the heap follow sessions of Db.v. *)
From Verif Require Export HeapDb.
From Coq Require Import ZifyBool ZifyNat ZifyN.

(** A transaction and the cells it owns. *)
Definition txmem (m : heap) (t : txst) (o : option loc) (F : list loc) : Prop :=
  match t with
  | TLive n => exists a, o = Some a /\ holds m a n F
  | TDangling => F = [] /\ exists a, o = Some a /\ at_ m a = None /\ a < length m
  | TDead => F = [] /\ o = None
  end.

Record hsim (hw : hworld) (w : world) (Fs : nat -> list loc) : Prop := {
  hs_db : hw_db hw = w_db w;
  hs_flat : forall d, w_db w = Some d -> flat_store (d_store d);
  hs_len : length (hw_txs hw) = length (w_txs w);
  hs_tx : forall i, txmem (hw_mem hw) (nth i (w_txs w) TDead) (nth i (hw_txs hw) None) (Fs i);
  hs_disj : forall i j x, i <> j -> In x (Fs i) -> ~ In x (Fs j);
  hs_all : forall x c, at_ (hw_mem hw) x = Some c -> exists i, In x (Fs i) }.

Definition setF (Fs : nat -> list loc) (i : nat) (G : list loc) : nat -> list loc := fun j => if j =? i then G else Fs j.

Lemma txmem_lt m t o F x : txmem m t o F -> In x F -> x < length m.
Proof. destruct t; cbn [txmem]; [intros (a & _ & Hh); apply (holds_lt _ _ _ _ Hh)|intros [-> _] []|intros [-> _] []]. Qed.
Lemma txmem_alive m t o F x : txmem m t o F -> In x F -> exists c, at_ m x = Some c.
Proof. destruct t; cbn [txmem]; [intros (a & _ & Hh); apply (holds_all _ _ _ _ Hh)|intros [-> _] []|intros [-> _] []]. Qed.
Lemma txmem_moves m F m' F' t o G : moves m F m' F' -> (forall x, In x F -> exists c, at_ m x = Some c) ->
  txmem m t o G -> (forall x, In x F -> ~ In x G) -> txmem m' t o G.
Proof.
  intros M Al T D. destruct t; cbn [txmem] in *.
  - destruct T as (a & E & Hh). exists a. split; [exact E|]. eapply holds_moves; eassumption.
  - destruct T as (-> & a & E & Ea & La). split; [reflexivity|]. exists a. split; [exact E|]. split; [|eapply moves_len; eassumption].
    rewrite (moves_keep _ _ _ _ a M La); [exact Ea|]. intros I1. destruct (Al a I1) as (c & Ec). congruence.
  - exact T.
Qed.

(** One transaction changes. *)
Lemma hsim_change hw w Fs i d' m' t' o' G : hsim hw w Fs -> i < length (w_txs w) ->
  moves (hw_mem hw) (Fs i) m' G -> txmem m' t' o' G -> flat_store (d_store d') ->
  hsim (mkhw (Some d') m' (upd (hw_txs hw) i o')) (mkworld (Some d') (upd (w_txs w) i t')) (setF Fs i G).
Proof.
  intros [S1 S2 S3 S4 S5 S6] Li M T Fl.
  assert (Al : forall x, In x (Fs i) -> exists c, at_ (hw_mem hw) x = Some c) by (intros x; apply (txmem_alive _ _ _ _ _ (S4 i))).
  assert (Av : forall j x, j <> i -> In x (Fs j) -> ~ In x G).
  { intros j x Nj I1 I2. eapply moves_avoid; [exact M|eapply (txmem_lt _ _ _ _ _ (S4 j)), I1| |exact I2]. intros I3. exact (S5 j i x Nj I1 I3). }
  constructor; cbn [hw_db w_db hw_mem hw_txs w_txs].
  - reflexivity.
  - intros d [= <-]. exact Fl.
  - rewrite !upd_length. exact S3.
  - intros j. unfold setF. destruct (Nat.eqb_spec j i) as [->|Nj].
    + rewrite !nth_upd_eq by (rewrite ?S3; exact Li). exact T.
    + rewrite !nth_upd_neq by congruence. eapply txmem_moves; [exact M|exact Al|apply S4|]. intros x I1 I2. apply (S5 i j x); [congruence|exact I1|exact I2].
  - intros j k x Njk. unfold setF. destruct (Nat.eqb_spec j i) as [->|Nj], (Nat.eqb_spec k i) as [->|Nk]; try congruence.
    + intros I1 I2. exact (Av k x Nk I2 I1).
    + intros I1 I2. exact (Av j x Nj I1 I2).
    + apply S5. exact Njk.
  - intros x c E. destruct (in_dec Nat.eq_dec x G) as [I1|I1]; [exists i; unfold setF; rewrite Nat.eqb_refl; exact I1|].
    destruct (in_dec Nat.eq_dec x (Fs i)) as [I2|I2]; [rewrite (mv_gone _ _ _ _ M x I2 I1) in E; discriminate|].
    rewrite (mv_rest _ _ _ _ M x I2 I1) in E. destruct (S6 x c E) as (j & I3). exists j. unfold setF.
    destruct (Nat.eqb_spec j i) as [->|]; [contradiction|exact I3].
Qed.
(** None does. *)
Lemma hsim_same hw w Fs d' m' : hsim hw w Fs -> moves (hw_mem hw) [] m' [] -> flat_store (d_store d') ->
  hsim (mkhw (Some d') m' (hw_txs hw)) (mkworld (Some d') (w_txs w)) Fs.
Proof.
  intros [S1 S2 S3 S4 S5 S6] M Fl. constructor; cbn [hw_db w_db hw_mem hw_txs w_txs]; auto.
  - intros d [= <-]. exact Fl.
  - intros i. eapply txmem_moves; [exact M|intros ? []|apply S4|intros ? []].
  - intros x c E. rewrite (mv_rest _ _ _ _ M x) in E by (intros []). eapply S6, E.
Qed.
(** A new one appears. *)
Lemma hsim_new hw w Fs d' m' n a G : hsim hw w Fs -> moves (hw_mem hw) [] m' G -> holds m' a n G -> flat_store (d_store d') ->
  hsim (mkhw (Some d') m' (hw_txs hw ++ [Some a])) (mkworld (Some d') (w_txs w ++ [TLive n])) (setF Fs (length (w_txs w)) G).
Proof.
  intros [S1 S2 S3 S4 S5 S6] M Hh Fl.
  assert (E0 : Fs (length (w_txs w)) = []).
  { pose proof (S4 (length (w_txs w))) as T. rewrite nth_overflow in T by lia. apply T. }
  assert (Av : forall j x, In x (Fs j) -> ~ In x G).
  { intros j x I1 I2. eapply moves_avoid; [exact M|eapply (txmem_lt _ _ _ _ _ (S4 j)), I1|intros []|exact I2]. }
  constructor; cbn [hw_db w_db hw_mem hw_txs w_txs].
  - reflexivity.
  - intros d [= <-]. exact Fl.
  - rewrite !app_length, S3. reflexivity.
  - intros j. unfold setF. destruct (Nat.eqb_spec j (length (w_txs w))) as [->|Nj].
    + rewrite app_nth2, Nat.sub_diag by lia. rewrite <- S3, app_nth2, Nat.sub_diag by lia. exists a. auto.
    + assert (X : nth j (w_txs w ++ [TLive n]) TDead = nth j (w_txs w) TDead /\ nth j (hw_txs hw ++ [Some a]) None = nth j (hw_txs hw) None).
      { destruct (Nat.lt_ge_cases j (length (w_txs w))) as [L|L]; [rewrite !app_nth1 by lia; auto|].
        rewrite !nth_overflow by (rewrite ?app_length; cbn [length]; lia). auto. }
      destruct X as [-> ->]. eapply txmem_moves; [exact M|intros ? []|apply S4|intros ? []].
  - intros j k x Njk. unfold setF. destruct (Nat.eqb_spec j (length (w_txs w))) as [->|Nj], (Nat.eqb_spec k (length (w_txs w))) as [->|Nk]; try congruence.
    + intros I1 I2. exact (Av k x I2 I1).
    + intros I1 I2. exact (Av j x I1 I2).
    + apply S5. exact Njk.
  - intros x c E. destruct (in_dec Nat.eq_dec x G) as [I1|I1]; [exists (length (w_txs w)); unfold setF; rewrite Nat.eqb_refl; exact I1|].
    rewrite (mv_rest _ _ _ _ M x (fun I => I) I1) in E. destruct (S6 x c E) as (j & I3). exists j. unfold setF.
    destruct (Nat.eqb_spec j (length (w_txs w))) as [->|]; [rewrite E0 in I3; contradiction|exact I3].
Qed.

Section HSim.
Variable H : bytes -> bytes.
Variable C : bytes -> bytes -> bytes.

Lemma hcopy_ok m n : flatn n = true -> exists a m' F, hcopy m n = Ok (a, m') /\ holds m' a n F /\ moves m [] m' F.
Proof.
  intros Fl. destruct n as [| | |h w]; try discriminate; unfold hcopy, alloc; eexists _, _, [length m]; (split; [reflexivity|]);
    (split; [constructor; rewrite at_app, Nat.eqb_refl; reflexivity|apply alloc_moves]).
Qed.
(** What urkel_store_get_history and urkel_tx_create give. *)
Definition got (m : heap) (r : option node) (d' : db) (hr : res (option loc * db * heap)) : Prop :=
  match r with
  | None => exists m', hr = Ok (None, d', m') /\ moves m [] m' []
  | Some n => exists a m' F, hr = Ok (Some a, d', m') /\ holds m' a n F /\ moves m [] m' F
  end.
Lemma hget_history_ok d m h r s' : flat_store (d_store d) -> read_history H C (d_store d) h = Ok (r, s') ->
  flat_store s' /\ got m r (with_store d s') (hget_history H C d m h).
Proof.
  intros Fl E. destruct (read_history_flat _ _ _ _ _ _ Fl E) as [Fl' Fn]. split; [exact Fl'|].
  unfold hget_history, alloc. rewrite E. cbn [bind].
  assert (E0 : at_ (m ++ [Some KNew]) (length m) = Some KNew) by (rewrite at_app, Nat.eqb_refl; reflexivity).
  assert (G : forall c, (forall m', at_ m' (length m) = Some c -> exists n F, r = Some n /\ holds m' (length m) n F /\ F = [length m]) ->
     (let! m1 := put (m ++ [Some KNew]) (length m) c in Ok (Some (length m), with_store d s', m1)) = hget_history H C d m h ->
     got m r (with_store d s') (let! m1 := put (m ++ [Some KNew]) (length m) c in Ok (Some (length m), with_store d s', m1))).
  { intros c Hc _. rewrite (put_ok _ _ _ _ E0). cbn [bind].
    destruct (Hc (upd (m ++ [Some KNew]) (length m) (Some c)) ltac:(rewrite (at_put _ _ _ _ _ E0), Nat.eqb_refl; reflexivity)) as (n & F & -> & Hh & EF).
    cbn [got]. exists (length m), (upd (m ++ [Some KNew]) (length m) (Some c)), F. split; [reflexivity|]. split; [exact Hh|]. subst F.
    eapply moves_trans; [apply alloc_moves|eapply put_moves; [exact E0|left; reflexivity]]. }
  assert (U : hget_history H C d m h = let! (r, s) := Ok (r, s') in match r with
    | None => let! m := free (m ++ [Some KNew]) (length m) in Ok (None, with_store d s, m)
    | Some NNull => let! m1 := put (m ++ [Some KNew]) (length m) KNull in Ok (Some (length m), with_store d s, m1)
    | Some (NHash h w) => let! m1 := put (m ++ [Some KNew]) (length m) (KHash h w) in Ok (Some (length m), with_store d s, m1)
    | Some _ => UB end) by (unfold hget_history, alloc; rewrite E; reflexivity).
  destruct r as [n|].
  - specialize (Fn n eq_refl). destruct n as [| | |h0 w0]; try discriminate.
    + apply G; [|rewrite U; reflexivity]. intros m' Em. exists NNull, [length m]. split; [reflexivity|]. split; [constructor; exact Em|reflexivity].
    + apply G; [|rewrite U; reflexivity]. intros m' Em. exists (NHash h0 w0), [length m]. split; [reflexivity|]. split; [constructor; exact Em|reflexivity].
  - rewrite (free_ok _ _ _ E0). cbn [bind got]. eexists. split; [reflexivity|]. eapply moves_trans; [apply alloc_moves|eapply free_moves; [exact E0|intros []]].
Qed.
Lemma htx_create_ok d m ro r d' : flat_store (d_store d) -> tx_create H C d ro = Ok (r, d') ->
  flat_store (d_store d') /\ got m r d' (htx_create H C d m ro).
Proof.
  intros Fl. unfold tx_create, htx_create.
  assert (G : forall h, (let! (r, s) := read_history H C (d_store d) h in Ok (r, with_store d s)) = Ok (r, d') ->
     flat_store (d_store d') /\ got m r d' (hget_history H C d m h)).
  { intros h. destruct (read_history H C (d_store d) h) as [[r1 s1]|e| | |] eqn:E; cbn [bind]; try discriminate.
    intros E'. apply Ok_inj in E'. injection E' as <- <-. apply hget_history_ok; assumption. }
  destruct ro as [h|]; [apply G|]. destruct (d_revert d); [apply G|]. intros E. apply Ok_inj in E. injection E as <- <-. split; [exact Fl|].
  destruct (hcopy_ok m _ (proj1 Fl)) as (a & m' & F & E & Hh & M). rewrite E. cbn [bind got]. exists a, m', F. auto.
Qed.

(** ** Single operations *)
Lemma htx_get_ok d m a n F k x : holds m a n F -> tx_get d n k = Ok x -> exists m', htx_get d m a k = Ok (x, m') /\ moves m [] m' [].
Proof.
  intros Hh. unfold tx_get, htx_get. pose proof (hget_ok H (st_rd (d_store d)) TREE_FUEL m a n F k 0 true Hh) as O.
  destruct (tree_get (st_rd (d_store d)) TREE_FUEL n k 0 true) as [v|e| | |]; cbn [outcome] in O; intros E; try discriminate; apply Ok_inj in E; subst x;
    destruct O as (m' & E' & M); rewrite E'; cbn [bind]; exists m'; auto.
Qed.
Lemma htx_has_ok d m a n F k x : holds m a n F -> tx_has d n k = Ok x -> exists m', htx_has d m a k = Ok (x, m') /\ moves m [] m' [].
Proof.
  intros Hh. unfold tx_has, htx_has. pose proof (hget_ok H (st_rd (d_store d)) TREE_FUEL m a n F k 0 false Hh) as O.
  destruct (tree_get (st_rd (d_store d)) TREE_FUEL n k 0 false) as [v|e| | |]; cbn [outcome] in O; intros E; try discriminate; apply Ok_inj in E; subst x;
    destruct O as (m' & E' & M); rewrite E'; cbn [bind]; exists m'; auto.
Qed.
Definition changed (m : heap) (a : loc) (F : list loc) (x : answer) (n' : node) (hr : res (answer * loc * heap)) : Prop :=
  exists a' m' F', hr = Ok (x, a', m') /\ holds m' a' n' F' /\ moves m F m' F'.
Lemma htx_insert_ok d m a n F k v x n' : holds m a n F -> tx_insert H d n k v = Ok (x, n') -> changed m a F x n' (htx_insert H d m a k v).
Proof.
  intros Hh. unfold tx_insert, htx_insert, changed. destruct (1023 <? length v).
  { intros E. apply Ok_inj in E. injection E as <- <-. exists a, m, F. split; [reflexivity|]. split; [exact Hh|apply moves_refl]. }
  pose proof (hinsert_ok H (st_rd (d_store d)) TREE_FUEL m a n F k v 0 Hh) as O.
  destruct (tree_insert H (st_rd (d_store d)) TREE_FUEL n k v 0) as [z|e| | |]; cbn [outcome] in O; try discriminate.
  - intros E. apply Ok_inj in E. injection E as <- <-. destruct O as (b & m' & F' & E' & Hb & M). rewrite E'. cbn [bind]. exists b, m', F'. auto.
  - destruct O as (m' & E' & M). rewrite E'. cbn [bind]. intros E. exists a, m', F.
    assert (Hh' : holds m' a n F) by (eapply (holds_moves _ _ _ _ _ _ _ M Hh); intros ? []).
    assert (M' : moves m F m' F) by (apply moves_same, M).
    destruct e; apply Ok_inj in E; injection E as <- <-; auto.
Qed.
Lemma htx_remove_ok d m a n F k x n' : holds m a n F -> tx_remove d n k = Ok (x, n') -> changed m a F x n' (htx_remove d m a k).
Proof.
  intros Hh. unfold tx_remove, htx_remove, changed. pose proof (hremove_ok H (st_rd (d_store d)) TREE_FUEL m a n F k 0 Hh) as O.
  destruct (tree_remove (st_rd (d_store d)) TREE_FUEL n k 0) as [z|e| | |]; cbn [outcome] in O; try discriminate.
  - intros E. apply Ok_inj in E. injection E as <- <-. destruct O as (b & m' & F' & E' & Hb & M). rewrite E'. cbn [bind]. exists b, m', F'. auto.
  - destruct O as (m' & E' & M). rewrite E'. cbn [bind]. intros E. apply Ok_inj in E. injection E as <- <-. exists a, m', F.
    split; [reflexivity|]. split; [eapply (holds_moves _ _ _ _ _ _ _ M Hh); intros ? []|apply moves_same, M].
Qed.
(** The node may have more hashes cached than Db.v keeps when the call fails. *)
Lemma htx_prove_ok d m a n F k x n' : holds m a n F -> tx_prove H d n k = Ok (x, n') ->
  exists m' n1 F', htx_prove H d m a k = Ok (x, m') /\ holds m' a n1 F' /\ moves m F m' F' /\ ((forall e, x <> AErr e) -> n1 = n').
Proof.
  intros Hh. unfold tx_prove, htx_prove. pose proof (hprove_ok H (st_rd (d_store d)) TREE_FUEL [] m a n F k 0 Hh) as O.
  destruct (tree_prove H (st_rd (d_store d)) TREE_FUEL [] n k 0) as [[p z]|e| | |]; cbn [outcome fst snd] in O; try discriminate.
  - destruct O as (m' & F' & E' & Hb & M). rewrite E'. cbn [bind].
    destruct (proof_size p) as [sz|e| | |]; cbn [bind]; try discriminate. destruct (proof_write p) as [raw|e| | |]; cbn [bind]; try discriminate.
    destruct (length raw =? sz); try discriminate. intros E. apply Ok_inj in E. injection E as <- <-. exists m', z, F'. auto.
  - destruct O as (m' & n1 & F' & E' & Hb & M). rewrite E'. cbn [bind]. intros E. apply Ok_inj in E. injection E as <- <-. exists m', n1, F'.
    split; [reflexivity|]. split; [exact Hb|]. split; [exact M|]. intros N. destruct (N e eq_refl).
Qed.
Lemma htx_commit_ok d m a n F x d' t : flat_store (d_store d) -> holds m a n F -> tx_commit H C d n = Ok (x, d', t) ->
  flat_store (d_store d') /\ exists a' m' F', htx_commit H C d m a = Ok (x, d', a', m') /\ txmem m' t (Some a') F' /\ moves m F m' F'.
Proof.
  intros Fl Hh. unfold tx_commit, htx_commit. pose proof (hcommit_ok H C (d_store d) m a n F Hh) as O.
  destruct (tree_commit H C (d_store d) n) as [[[root|] s1]|e| | |] eqn:Ec; cbn [bind]; try discriminate; apply tree_commit_flat in Ec; try exact Fl; intros E; apply Ok_inj in E; injection E as <- <- <-.
  - split; [exact Ec|]. destruct O as (b & m' & F' & E' & Hb & M & _). rewrite E'. cbn [bind]. exists b, m', F'. split; [reflexivity|]. split; [exists b; auto|exact M].
  - split; [exact Ec|]. destruct O as (m' & E' & M & N). rewrite E'. cbn [bind]. exists a, m', []. split; [reflexivity|]. split; [|exact M].
    split; [reflexivity|]. exists a. split; [reflexivity|]. pose proof (holds_self _ _ _ _ Hh) as Ia. split; [apply N, Ia|].
    eapply moves_len; [exact M|]. eapply holds_lt; [exact Hh|exact Ia].
Qed.

Lemma hdb_read_ok op hop d m ro x d' : flat_store (d_store d) ->
  (forall m a n F d x, holds m a n F -> op d n = Ok x -> exists m' n1 F', hop d m a = Ok (x, m') /\ holds m' a n1 F' /\ moves m F m' F') ->
  db_read H C op d ro = Ok (x, d') ->
  flat_store (d_store d') /\ exists m', hdb_read H C hop d m ro = Ok (x, d', m') /\ moves m [] m' [].
Proof.
  intros Fl Hop. unfold db_read, hdb_read. destruct (tx_create H C d ro) as [[r d1]|e| | |] eqn:Et; cbn [bind]; try discriminate.
  destruct (htx_create_ok d m ro r d1 Fl Et) as [Fl1 G]. destruct r as [n|]; cbn [got] in G.
  - destruct G as (a & m1 & F & E1 & Hh & M1). rewrite E1. cbn [bind]. destruct (op d1 n) as [y|e| | |] eqn:Eo; cbn [bind]; try discriminate.
    intros E. apply Ok_inj in E. injection E as <- <-. split; [exact Fl1|]. destruct (Hop _ _ _ _ _ _ Hh Eo) as (m2 & n1 & F2 & E2 & H2 & M2). rewrite E2. cbn [bind].
    destruct (node_destroy_all _ _ _ _ H2) as (m3 & E3 & M3). rewrite E3. cbn [bind]. exists m3. split; [reflexivity|].
    eapply moves_trans; [exact M1|]. eapply moves_trans; eassumption.
  - destruct G as (m1 & E1 & M1). rewrite E1. cbn [bind]. intros E. apply Ok_inj in E. injection E as <- <-. split; [exact Fl1|]. exists m1. auto.
Qed.
Lemma hdb_write_ok op hop d m x d' : flat_store (d_store d) ->
  (forall m a n F d x n', holds m a n F -> op d n = Ok (x, n') -> changed m a F x n' (hop d m a)) ->
  db_write H C op d = Ok (x, d') ->
  flat_store (d_store d') /\ exists m', hdb_write H C hop d m = Ok (x, d', m') /\ moves m [] m' [].
Proof.
  intros Fl Hop. unfold db_write, hdb_write. destruct (tx_create H C d None) as [[r d1]|e| | |] eqn:Et; cbn [bind]; try discriminate.
  destruct (htx_create_ok d m None r d1 Fl Et) as [Fl1 G]. destruct r as [n|]; cbn [got] in G.
  2:{ destruct G as (m1 & E1 & M1). rewrite E1. cbn [bind]. intros E. apply Ok_inj in E. injection E as <- <-. split; [exact Fl1|]. exists m1. auto. }
  destruct G as (a & m1 & F & E1 & Hh & M1). rewrite E1. cbn [bind]. destruct (op d1 n) as [[y n1]|e| | |] eqn:Eo; cbn [bind]; try discriminate.
  destruct (Hop _ _ _ _ _ _ _ Hh Eo) as (b & m2 & F2 & E2 & H2 & M2). rewrite E2. cbn [bind].
  assert (D : forall y', y <> AOk -> Ok (y, d1) = Ok (y', d') -> flat_store (d_store d') /\ exists m', (let! m := node_destroy m2 b true in Ok (y, d1, m)) = Ok (y', d', m') /\ moves m [] m' []).
  { intros y' _ E. apply Ok_inj in E. injection E as <- <-. split; [exact Fl1|]. destruct (node_destroy_all _ _ _ _ H2) as (m3 & E3 & M3). rewrite E3. cbn [bind]. exists m3.
    split; [reflexivity|]. eapply moves_trans; [exact M1|]. eapply moves_trans; eassumption. }
  destruct y; try (intros E; apply D; [discriminate|exact E]). clear D.
  destruct (tx_commit H C d1 n1) as [[[y d2] t]|e| | |] eqn:Ec; cbn [bind]; try discriminate.
  destruct (htx_commit_ok d1 m2 b n1 F2 y d2 t Fl1 H2 Ec) as [Fl2 (b' & m3 & F3 & E3 & T3 & M3)]. rewrite E3. cbn [bind].
  destruct t as [n2| |]; intros E; try discriminate. apply Ok_inj in E. injection E as <- <-. split; [exact Fl2|]. cbn [txmem] in T3. destruct T3 as (b2 & [= <-] & H3).
  destruct (node_destroy_all _ _ _ _ H3) as (m4 & E4 & M4). rewrite E4. cbn [bind]. exists m4. split; [reflexivity|].
  eapply moves_trans; [exact M1|]. eapply moves_trans; [exact M2|]. eapply moves_trans; eassumption.
Qed.

(** ** Every call *)
Lemma live_mem hw w Fs i n : hsim hw w Fs -> live w i = Ok n ->
  exists a, hlive hw i = Ok a /\ holds (hw_mem hw) a n (Fs i) /\ i < length (w_txs w) /\ nth i (w_txs w) TDead = TLive n /\ nth i (hw_txs hw) None = Some a.
Proof.
  intros [S1 S2 S3 S4 S5 S6]. unfold live, hlive. specialize (S4 i). destruct (nth i (w_txs w) TDead) as [n0| |] eqn:En; try discriminate.
  intros E. apply Ok_inj in E. subst n0. cbn [txmem] in S4. destruct S4 as (a & Ea & Hh). rewrite Ea. exists a. repeat split; auto.
  destruct (Nat.lt_ge_cases i (length (w_txs w))) as [L|L]; [exact L|]. rewrite nth_overflow in En by exact L. discriminate.
Qed.
Lemma upd_nth {A} (l : list A) i d : upd l i (nth i l d) = l.
Proof. revert i. induction l as [|x l IH]; intros [|i]; cbn [upd nth]; try reflexivity. f_equal. apply IH. Qed.
Lemma nth_none {A B} (l : list A) i (d : B) : nth i (map (fun _ => d) l) d = d.
Proof. revert i. induction l as [|x l IH]; intros [|i]; cbn [map nth]; auto. Qed.
(** A transaction is read. *)
Lemma hsim_read hw w Fs d i n a m' : hsim hw w Fs -> w_db w = Some d -> nth i (w_txs w) TDead = TLive n -> nth i (hw_txs hw) None = Some a ->
  moves (hw_mem hw) [] m' [] -> hsim (hput_tx hw d m' i (Some a)) w Fs.
Proof.
  intros S Ed En Ea M. unfold hput_tx. rewrite <- Ea, upd_nth.
  replace w with (mkworld (Some d) (w_txs w)) at 1 by (destruct w; cbn in *; congruence).
  apply hsim_same; [exact S|exact M|apply S, Ed].
Qed.

Theorem hsim_step hw w Fs c a w' : hsim hw w Fs -> step H C w c = Ok (a, w') ->
  (forall i k, c = CTxProve i k -> forall e, a <> AErr e) ->
  (c = CReopen -> forall i n, nth i (w_txs w) TDead <> TLive n) ->
  exists hw' Fs', hstep H C hw c = Ok (a, hw') /\ hsim hw' w' Fs'.
Proof.
  intros S E Pr Re. revert E. unfold step, hstep. rewrite (hs_db _ _ _ S). destruct (w_db w) as [d|] eqn:Ed; [|discriminate].
  pose proof (hs_flat _ _ _ S d Ed) as Fl. destruct c as [|h|k ro|k ro|k v|k|k ro|ro|i|i|i|i h|i k|i k|i k v|i k|i k|i|].
  - intros E. apply Ok_inj in E. injection E as <- <-. exists hw, Fs. auto.
  - unfold db_inject. destruct (read_history H C (d_store d) h) as [[[n|] s1]|e| | |] eqn:Er; cbn [bind]; try discriminate. intros E. apply Ok_inj in E. injection E as <- <-.
    eexists _, Fs. split; [reflexivity|]. apply hsim_same; [exact S|apply moves_refl|]. apply (read_history_flat _ _ _ _ _ _ Fl Er).
  - destruct (db_read H C (fun d n => tx_get d n k) d ro) as [[x d1]|e| | |] eqn:Er; cbn [bind]; try discriminate. intros E. apply Ok_inj in E. injection E as <- <-.
    edestruct (fun X => hdb_read_ok (fun d n => tx_get d n k) (fun d m a => htx_get d m a k) d (hw_mem hw) ro x d1 Fl X Er) as [Fl1 (m1 & E1 & M1)].
    { intros m a0 n F d0 x0 Hh Ex. destruct (htx_get_ok _ _ _ _ _ _ _ Hh Ex) as (m2 & E2 & M2). exists m2, n, F. split; [exact E2|].
      split; [eapply (holds_moves _ _ _ _ _ _ _ M2 Hh); intros ? []|apply moves_same, M2]. }
    rewrite E1. cbn [bind]. eexists _, Fs. split; [reflexivity|]. apply hsim_same; assumption.
  - destruct (db_read H C (fun d n => tx_has d n k) d ro) as [[x d1]|e| | |] eqn:Er; cbn [bind]; try discriminate. intros E. apply Ok_inj in E. injection E as <- <-.
    edestruct (fun X => hdb_read_ok (fun d n => tx_has d n k) (fun d m a => htx_has d m a k) d (hw_mem hw) ro x d1 Fl X Er) as [Fl1 (m1 & E1 & M1)].
    { intros m a0 n F d0 x0 Hh Ex. destruct (htx_has_ok _ _ _ _ _ _ _ Hh Ex) as (m2 & E2 & M2). exists m2, n, F. split; [exact E2|].
      split; [eapply (holds_moves _ _ _ _ _ _ _ M2 Hh); intros ? []|apply moves_same, M2]. }
    rewrite E1. cbn [bind]. eexists _, Fs. split; [reflexivity|]. apply hsim_same; assumption.
  - destruct (db_write H C (fun d n => tx_insert H d n k v) d) as [[x d1]|e| | |] eqn:Er; cbn [bind]; try discriminate. intros E. apply Ok_inj in E. injection E as <- <-.
    edestruct (fun X => hdb_write_ok (fun d n => tx_insert H d n k v) (fun d m a => htx_insert H d m a k v) d (hw_mem hw) x d1 Fl X Er) as [Fl1 (m1 & E1 & M1)].
    { intros m a0 n F d0 x0 n' Hh Ex. apply (htx_insert_ok _ _ _ _ _ _ _ _ _ Hh Ex). }
    rewrite E1. cbn [bind]. eexists _, Fs. split; [reflexivity|]. apply hsim_same; assumption.
  - destruct (db_write H C (fun d n => tx_remove d n k) d) as [[x d1]|e| | |] eqn:Er; cbn [bind]; try discriminate. intros E. apply Ok_inj in E. injection E as <- <-.
    edestruct (fun X => hdb_write_ok (fun d n => tx_remove d n k) (fun d m a => htx_remove d m a k) d (hw_mem hw) x d1 Fl X Er) as [Fl1 (m1 & E1 & M1)].
    { intros m a0 n F d0 x0 n' Hh Ex. apply (htx_remove_ok _ _ _ _ _ _ _ _ Hh Ex). }
    rewrite E1. cbn [bind]. eexists _, Fs. split; [reflexivity|]. apply hsim_same; assumption.
  - destruct (db_read H C (fun d n => let! (a, _) := tx_prove H d n k in Ok a) d ro) as [[x d1]|e| | |] eqn:Er; cbn [bind]; try discriminate. intros E. apply Ok_inj in E. injection E as <- <-.
    edestruct (fun X => hdb_read_ok (fun d n => let! (a, _) := tx_prove H d n k in Ok a) (fun d m a => htx_prove H d m a k) d (hw_mem hw) ro x d1 Fl X Er) as [Fl1 (m1 & E1 & M1)].
    { intros m a0 n F d0 x0 Hh Ex. destruct (tx_prove H d0 n k) as [[y n2]|e| | |] eqn:Ep; cbn [bind] in Ex; try discriminate. apply Ok_inj in Ex. subst y.
      destruct (htx_prove_ok _ _ _ _ _ _ _ _ Hh Ep) as (m2 & n1 & F2 & E2 & H2 & M2 & _). exists m2, n1, F2. auto. }
    rewrite E1. cbn [bind]. eexists _, Fs. split; [reflexivity|]. apply hsim_same; assumption.
  - destruct (tx_create H C d ro) as [[r d1]|e| | |] eqn:Et; cbn [bind]; try discriminate. destruct (htx_create_ok d (hw_mem hw) ro r d1 Fl Et) as [Fl1 G].
    destruct r as [n|]; cbn [got] in G; intros E; apply Ok_inj in E; injection E as <- <-.
    + destruct G as (b & m1 & F & E1 & Hh & M1). rewrite E1. cbn [bind]. eexists _, _. split; [rewrite (hs_len _ _ _ S); reflexivity|]. eapply hsim_new; eassumption.
    + destruct G as (m1 & E1 & M1). rewrite E1. cbn [bind]. eexists _, Fs. split; [reflexivity|]. apply hsim_same; assumption.
  - destruct (live w i) as [n|e| | |] eqn:El; cbn [bind]; try discriminate. intros E. apply Ok_inj in E. injection E as <- <-.
    destruct (live_mem _ _ _ _ _ S El) as (b & E1 & Hh & Li & En & Ea). rewrite E1. cbn [bind]. destruct (node_destroy_all _ _ _ _ Hh) as (m1 & E2 & M2). rewrite E2. cbn [bind].
    eexists _, _. split; [reflexivity|]. apply (hsim_change hw w Fs i _ _ _ _ ([])); try assumption. split; reflexivity.
  - destruct (live w i) as [n|e| | |] eqn:El; cbn [bind]; try discriminate. intros E. apply Ok_inj in E. injection E as <- <-.
    destruct (live_mem _ _ _ _ _ S El) as (b & E1 & Hh & Li & En & Ea). rewrite E1. cbn [bind]. destruct (node_destroy_all _ _ _ _ Hh) as (m1 & E2 & M2). rewrite E2. cbn [bind].
    destruct (hcopy_ok m1 _ (proj1 Fl)) as (b' & m2 & F & E3 & H3 & M3). rewrite E3. cbn [bind].
    eexists _, _. split; [reflexivity|]. apply (hsim_change hw w Fs i _ _ _ _ (F)); try assumption; [eapply moves_trans; eassumption|]. exists b'. auto.
  - destruct (live w i) as [n|e| | |] eqn:El; cbn [bind]; try discriminate. destruct (tx_root H n) as [[x n']|e| | |] eqn:Ex; cbn [bind]; try discriminate. intros E. apply Ok_inj in E. injection E as <- <-.
    destruct (live_mem _ _ _ _ _ S El) as (b & E1 & Hh & Li & En & Ea). rewrite E1. cbn [bind]. unfold tx_root in Ex. destruct (node_hash H n) as [[h n2]|e| | |] eqn:Eh; cbn [bind] in Ex; try discriminate.
    apply Ok_inj in Ex. injection Ex as <- <-. destruct (hnode_hash_ok H _ _ _ _ _ _ Hh Eh) as (m1 & E2 & H2 & M2). rewrite E2. cbn [bind].
    eexists _, _. split; [reflexivity|]. apply (hsim_change hw w Fs i _ _ _ _ (Fs i)); try assumption. exists b. auto.
  - destruct (live w i) as [n|e| | |] eqn:El; cbn [bind]; try discriminate. unfold tx_inject. destruct (read_history H C (d_store d) h) as [[r s1]|e| | |] eqn:Er; cbn [bind]; try discriminate.
    destruct (live_mem _ _ _ _ _ S El) as (b & E1 & Hh & Li & En & Ea). rewrite E1. cbn [bind]. destruct (hget_history_ok d (hw_mem hw) h r s1 Fl Er) as [Fl1 G].
    destruct r as [n1|]; cbn [bind got] in *; intros E; apply Ok_inj in E; injection E as <- <-.
    + destruct G as (b' & m1 & F & E2 & H2 & M2). rewrite E2. cbn [bind].
      assert (Hh1 : holds m1 b n (Fs i)) by (eapply (holds_moves _ _ _ _ _ _ _ M2 Hh); intros ? []).
      destruct (node_destroy_all _ _ _ _ Hh1) as (m2 & E3 & M3). rewrite E3. cbn [bind].
      assert (D : forall x, In x (Fs i) -> ~ In x F).
      { intros x I1 I2. eapply moves_avoid; [exact M2|eapply holds_lt; [exact Hh|exact I1]|intros []|exact I2]. }
      eexists _, _. split; [reflexivity|]. apply (hsim_change hw w Fs i _ _ _ _ (F)); try assumption.
      * apply (moves_trans _ _ m1 (F ++ Fs i)); [eapply (moves_part _ _ _ _ (Fs i)); [exact M2|intros x; apply (holds_lt _ _ _ _ Hh)|intros ? []|sets|sets]|].
        eapply (moves_part _ _ _ _ F); [exact M3|intros x; apply (holds_lt _ _ _ _ H2)|exact D|sets|sets].
      * exists b'. split; [reflexivity|]. eapply (holds_moves _ _ _ _ _ _ _ M3 H2). intros x I1 I2. exact (D x I1 I2).
    + destruct G as (m1 & E2 & M2). rewrite E2. cbn [bind]. eexists _, _. split; [reflexivity|]. apply (hsim_change hw w Fs i _ _ _ _ (Fs i)); try assumption; [apply moves_same, M2|].
      exists b. split; [reflexivity|]. eapply (holds_moves _ _ _ _ _ _ _ M2 Hh). intros ? [].
  - destruct (live w i) as [n|e| | |] eqn:El; cbn [bind]; try discriminate. destruct (tx_get d n k) as [x|e| | |] eqn:Ex; cbn [bind]; try discriminate. intros E. apply Ok_inj in E. injection E as <- <-.
    destruct (live_mem _ _ _ _ _ S El) as (b & E1 & Hh & Li & En & Ea). rewrite E1. cbn [bind]. destruct (htx_get_ok _ _ _ _ _ _ _ Hh Ex) as (m1 & E2 & M2). rewrite E2. cbn [bind].
    eexists _, Fs. split; [reflexivity|]. eapply hsim_read; eassumption.
  - destruct (live w i) as [n|e| | |] eqn:El; cbn [bind]; try discriminate. destruct (tx_has d n k) as [x|e| | |] eqn:Ex; cbn [bind]; try discriminate. intros E. apply Ok_inj in E. injection E as <- <-.
    destruct (live_mem _ _ _ _ _ S El) as (b & E1 & Hh & Li & En & Ea). rewrite E1. cbn [bind]. destruct (htx_has_ok _ _ _ _ _ _ _ Hh Ex) as (m1 & E2 & M2). rewrite E2. cbn [bind].
    eexists _, Fs. split; [reflexivity|]. eapply hsim_read; eassumption.
  - destruct (live w i) as [n|e| | |] eqn:El; cbn [bind]; try discriminate. destruct (tx_insert H d n k v) as [[x n']|e| | |] eqn:Ex; cbn [bind]; try discriminate. intros E. apply Ok_inj in E. injection E as <- <-.
    destruct (live_mem _ _ _ _ _ S El) as (b & E1 & Hh & Li & En & Ea). rewrite E1. cbn [bind]. destruct (htx_insert_ok _ _ _ _ _ _ _ _ _ Hh Ex) as (b' & m1 & F & E2 & H2 & M2). rewrite E2. cbn [bind].
    eexists _, _. split; [reflexivity|]. apply (hsim_change hw w Fs i _ _ _ _ (F)); try assumption. exists b'. auto.
  - destruct (live w i) as [n|e| | |] eqn:El; cbn [bind]; try discriminate. destruct (tx_remove d n k) as [[x n']|e| | |] eqn:Ex; cbn [bind]; try discriminate. intros E. apply Ok_inj in E. injection E as <- <-.
    destruct (live_mem _ _ _ _ _ S El) as (b & E1 & Hh & Li & En & Ea). rewrite E1. cbn [bind]. destruct (htx_remove_ok _ _ _ _ _ _ _ _ Hh Ex) as (b' & m1 & F & E2 & H2 & M2). rewrite E2. cbn [bind].
    eexists _, _. split; [reflexivity|]. apply (hsim_change hw w Fs i _ _ _ _ (F)); try assumption. exists b'. auto.
  - destruct (live w i) as [n|e| | |] eqn:El; cbn [bind]; try discriminate. destruct (tx_prove H d n k) as [[x n']|e| | |] eqn:Ex; cbn [bind]; try discriminate. intros E. apply Ok_inj in E. injection E as <- <-.
    destruct (live_mem _ _ _ _ _ S El) as (b & E1 & Hh & Li & En & Ea). rewrite E1. cbn [bind]. destruct (htx_prove_ok _ _ _ _ _ _ _ _ Hh Ex) as (m1 & n1 & F & E2 & H2 & M2 & Q). rewrite E2. cbn [bind].
    rewrite (Q (Pr _ _ eq_refl)) in H2. eexists _, _. split; [reflexivity|]. apply (hsim_change hw w Fs i _ _ _ _ (F)); try assumption. exists b. auto.
  - destruct (live w i) as [n|e| | |] eqn:El; cbn [bind]; try discriminate. destruct (tx_commit H C d n) as [[[x d1] t]|e| | |] eqn:Ex; cbn [bind]; try discriminate. intros E. apply Ok_inj in E. injection E as <- <-.
    destruct (live_mem _ _ _ _ _ S El) as (b & E1 & Hh & Li & En & Ea). rewrite E1. cbn [bind]. destruct (htx_commit_ok _ _ _ _ _ _ _ _ Fl Hh Ex) as [Fl1 (b' & m1 & F & E2 & H2 & M2)]. rewrite E2. cbn [bind].
    eexists _, _. split; [reflexivity|]. apply (hsim_change hw w Fs i _ _ _ _ (F)); try assumption.
  - destruct (db_open H C (st_key (d_store d)) (st_fs (d_store d)) []) as [r|e| | |] eqn:Eo; cbn [bind]; try discriminate.
    assert (Z : forall i, Fs i = []).
    { intros i. pose proof (hs_tx _ _ _ S i) as T. specialize (Re eq_refl i). destruct (nth i (w_txs w) TDead) as [n| |]; cbn [txmem] in T; [destruct (Re n eq_refl)|apply T|apply T]. }
    assert (Z' : forall d', (forall x, d' = Some x -> flat_store (d_store x)) -> hsim (mkhw d' (hw_mem hw) (map (fun _ => None) (hw_txs hw))) (mkworld d' (map (fun _ => TDead) (w_txs w))) Fs).
    { intros d' Hd. constructor; cbn [hw_db w_db hw_mem hw_txs w_txs]; auto.
      - rewrite !map_length. apply S.
      - intros i. rewrite !nth_none. cbn [txmem]. auto.
      - apply S.
      - apply S. }
    destruct r as [d1|]; intros E; apply Ok_inj in E; injection E as <- <-; eexists _, Fs; (split; [reflexivity|]); apply Z'; intros x [= <-].
    revert Eo. unfold db_open. destruct (store_open H C _ _ []) as [[s1|]|e| | |] eqn:Es; cbn [bind]; try discriminate. intros E. apply Ok_inj in E. injection E as <-. cbn [d_store].
    eapply store_open_flat, Es.
Qed.
End HSim.
