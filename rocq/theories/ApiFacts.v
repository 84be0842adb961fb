(** * Consequences of the simulation used by the property theorems. *)
From Verif Require Export Sim IterFacts.
From Coq Require Import ZifyBool ZifyNat ZifyN Permutation Sorted.

Lemma lookup_put_map l k v k' : lookup (put l k v) k' = m_set (lookup l) k v k'.
Proof. rewrite lookup_put. reflexivity. Qed.
Lemma lookup_del_map l k k' : lookup (del l k) k' = m_del (lookup l) k k'.
Proof. rewrite lookup_del. reflexivity. Qed.

Definition same_map (m m' : kvmap) : Prop := forall k, m k = m' k.
Lemma txop_map_ext m m' o : same_map m m' -> same_map (txop_map m o) (txop_map m' o).
Proof. intros E k. destruct o; cbn [txop_map]; unfold m_set, m_del; destruct (bytes_eq_dec _ k); auto. Qed.
Lemma txop_fold_ext ops : forall m m', same_map m m' -> same_map (fold_left txop_map ops m) (fold_left txop_map ops m').
Proof. induction ops as [|o ops IH]; intros m m' E; [exact E|]. cbn [fold_left]. apply IH, txop_map_ext, E. Qed.
Lemma txop_answers_ext ops : forall m m', same_map m m' -> txop_answers m ops = txop_answers m' ops.
Proof.
  induction ops as [|o ops IH]; intros m m' E; [reflexivity|]. cbn [txop_answers]. rewrite (IH _ _ (txop_map_ext m m' o E)).
  f_equal. destruct o; cbn [txop_answer]; [reflexivity|]. rewrite (E k). reflexivity.
Qed.

Lemma nth_upd_eq {A} (l : list A) i x d : i < length l -> nth i (upd l i x) d = x.
Proof. revert i; induction l as [|y l IH]; intros [|i] L; cbn in *; try lia; [reflexivity|]. apply IH. lia. Qed.
Lemma nth_upd_neq {A} (l : list A) i j x d : i <> j -> nth j (upd l i x) d = nth j l d.
Proof.
  revert i j; induction l as [|y l IH]; intros i j N; [destruct i; reflexivity|].
  destruct i, j; cbn; try congruence; apply IH; lia.
Qed.
Lemma nth_nones {A B} (l : list A) j : nth j (map (fun _ => @None B) l) None = None.
Proof. revert j; induction l as [|x l IH]; intros [|j]; cbn; auto. Qed.
Lemma txat_len sp i l : txat sp i = Some l -> i < length (s_txs sp).
Proof.
  unfold txat. intros E. destruct (Nat.lt_ge_cases i (length (s_txs sp))) as [L|L]; [exact L|].
  rewrite nth_overflow in E by exact L. discriminate.
Qed.
Lemma txat_set sp i x l : txat sp i = Some l -> txat (set_tx sp i x) i = x.
Proof. intros E. unfold txat, set_tx. cbn [s_txs]. apply nth_upd_eq. eapply txat_len, E. Qed.
Lemma txat_set_neq sp i j x : i <> j -> txat (set_tx sp i x) j = txat sp j.
Proof. intros E. unfold txat, set_tx. cbn [s_txs]. apply nth_upd_neq, E. Qed.

(** ** Depth of the tree and common prefixes of keys *)
Lemma common2_comm a b : length (common2 a b) = length (common2 b a).
Proof. revert b; induction a as [|x a IH]; intros [|y b]; cbn; try reflexivity. destruct x, y; cbn; auto. Qed.
Lemma ih_witness path t : wfn path t -> exists e ds, In e (elems t) /\ NoDup ds /\ length ds = ih t /\
  forall d, In d ds -> length path <= d /\
    exists e', In e' (elems t) /\ fst e' <> fst e /\ length (common2 (kbits (fst e)) (kbits (fst e'))) = d.
Proof.
  revert path. induction t as [|k v|pre l IHl r IHr]; intros path W.
  - contradiction W.
  - exists (k, v), []. split; [now left|]. split; [constructor|]. split; [reflexivity|]. intros d [].
  - pose proof W as [Wl Wr].
    destruct (IHl _ Wl) as (el & dl & I1 & N1 & L1 & D1). destruct (IHr _ Wr) as (er & dr & I2 & N2 & L2 & D2).
    assert (Hl : has (path ++ pre ++ [false]) (fst el)) by (destruct el; exact (proj2 (wfn_elems _ _ Wl _ _ I1))).
    assert (Hr : has (path ++ pre ++ [true]) (fst er)) by (destruct er; exact (proj2 (wfn_elems _ _ Wr _ _ I2))).
    destruct Hl as (sl & El). destruct Hr as (sr & Er).
    assert (Cm : common2 (kbits (fst el)) (kbits (fst er)) = path ++ pre).
    { apply (common2_has _ _ (path ++ pre) sl sr false); [rewrite El|rewrite Er]; rewrite <- !app_assoc; reflexivity. }
    assert (Ne : fst el <> fst er).
    { intros X. rewrite X in El. rewrite Er in El. rewrite <- !app_assoc in El. apply app_inv_head, app_inv_head in El. discriminate El. }
    cbn [ih elems]. destruct (Nat.max_spec (ih l) (ih r)) as [[_ M]|[_ M]]; rewrite M.
    + exists er, (length (path ++ pre) :: dr). split; [apply in_or_app; auto|]. split.
      * constructor; [|exact N2]. intros X. apply D2 in X. destruct X as [X _]. rewrite !app_length in X. cbn in X. lia.
      * split; [cbn; lia|]. intros d [<-|X].
        -- split; [rewrite app_length; lia|]. exists el. split; [apply in_or_app; auto|]. split; [exact Ne|]. rewrite common2_comm, Cm. reflexivity.
        -- apply D2 in X. destruct X as (X & e' & X1 & X2 & X3). split; [rewrite !app_length in X; lia|]. exists e'. split; [apply in_or_app; auto|auto].
    + exists el, (length (path ++ pre) :: dl). split; [apply in_or_app; auto|]. split.
      * constructor; [|exact N1]. intros X. apply D1 in X. destruct X as [X _]. rewrite !app_length in X. cbn in X. lia.
      * split; [cbn; lia|]. intros d [<-|X].
        -- split; [rewrite app_length; lia|]. exists er. split; [apply in_or_app; auto|]. split; [congruence|]. rewrite Cm. reflexivity.
        -- apply D1 in X. destruct X as (X & e' & X1 & X2 & X3). split; [rewrite !app_length in X; lia|]. exists e'. split; [apply in_or_app; auto|auto].
Qed.
Lemma ih_levels l t n : stands l t -> (forall k v, In (k, v) l -> levels l k <= n) -> ih t <= n.
Proof.
  intros (R & W & E) B. destruct W as [->|W]; [cbn; lia|].
  destruct (ih_witness [] t W) as ([k v] & ds & I & N & <- & D). cbn [fst] in D. apply E in I.
  apply Nat.le_trans with (2 := B k v I). unfold levels. apply NoDup_incl_length; [exact N|].
  intros d X. apply nodup_In. apply D in X. destruct X as (_ & e' & X1 & X2 & <-). apply in_map_iff. exists e'. split; [reflexivity|].
  apply in_del. split; [apply E, X1|exact X2].
Qed.

Section A.
Variable H : bytes -> bytes.
Hypothesis H_len : forall m, length (H m) = 32.
Variable C : bytes -> bytes -> bytes.
Hypothesis C_len : forall k m, length (C k m) = 20.

Lemma exec_good key w sp c a w' : exec H C key w sp -> allowed H sp w c -> step H C w c = Ok (a, w') ->
  good H sp w c a /\ exec H C key w' (snext H sp c a).
Proof.
  intros X A E. split; [|eapply ex_call; eassumption].
  destruct (exec_step H H_len C C_len key w sp c X A) as (a1 & w1 & E1 & G). rewrite E in E1. apply Ok_inj in E1. injection E1 as <- <-. exact G.
Qed.

Lemma exec_do key w sp c : exec H C key w sp -> allowed H sp w c ->
  exists a w', step H C w c = Ok (a, w') /\ good H sp w c a /\ exec H C key w' (snext H sp c a) /\
    (quiet w -> quiet w') /\ (writes c = false -> files w' = files w /\ log w' = log w).
Proof.
  intros X A. destruct (step_ok H H_len C C_len key w sp c (exec_sim H H_len C C_len _ _ _ X) A) as (a & w' & E & G & _ & _ & Q & F).
  exists a, w'. split; [exact E|]. split; [exact G|]. split; [eapply ex_call; eassumption|]. auto.
Qed.

Lemma exec_calls key w sp cs l w' sp' : exec H C key w sp -> calls H C w sp cs l w' sp' -> exec H C key w' sp'.
Proof. intros X Cs. induction Cs as [|w sp c a w1 cs l w2 sp2 A E Cs IH]; [exact X|]. apply IH. eapply ex_call; eassumption. Qed.

(** Contents of transactions are records. *)
Lemma exec_tx key w sp i l : exec H C key w sp -> txat sp i = Some l ->
  exists d n, w_db w = Some d /\ live w i = Ok n /\ holds H (d_store d) n l.
Proof.
  intros X E. destruct (exec_sim H H_len C C_len _ _ _ X) as (d & D & V & hist & W & Ew & _ & _ & F).
  destruct (txs_live H w sp _ i l F E) as (n & En & Hn). eauto.
Qed.
Lemma exec_stands key w sp i l : exec H C key w sp -> txat sp i = Some l -> exists t, stands l t /\ vals_le 1023 t.
Proof. intros X E. destruct (exec_tx _ _ _ _ _ X E) as (d & n & _ & _ & t & _ & S & V). eauto. Qed.
Lemma exec_hist key w sp l : exec H C key w sp -> In l (s_hist sp) -> exists t, stands l t /\ vals_le 255 t.
Proof.
  intros X E. destruct (exec_sim H H_len C C_len _ _ _ X) as (d & D & V & hist & W & Ew & _ & S & F).
  destruct (hist_snd _ _ _ _ _ _ _ (simdb_rdb _ _ _ _ _ _ _ _ S) E) as (t & wp & It & St). exists t. split; [exact St|].
  pose proof (sinv_root H C _ _ _ t wp (sm_inv _ _ _ _ _ _ _ _ S) It) as Ro. apply (root_ok_wft H _ _ _ Ro).
Qed.
Lemma exec_cur key w sp : exec H C key w sp -> exists t, stands (s_cur sp) t.
Proof.
  intros X. destruct (exec_sim H H_len C C_len _ _ _ X) as (d & D & V & hist & W & Ew & _ & S & F).
  destruct (sm_cur _ _ _ _ _ _ _ _ S) as (t & St & _). eauto.
Qed.

(** ** Sequences of updates *)
Lemma tx_ops key i ops : forall w sp l, exec H C key w sp -> collision_free H sp -> txat sp i = Some l -> Forall txop_ok ops ->
  exists w' l', run H C w (map (txop_call i) ops) = Ok (txop_answers (lookup l) ops, w') /\
    exec H C key w' (set_tx sp i (Some l')) /\ txat (set_tx sp i (Some l')) i = Some l' /\
    same_map (lookup l') (fold_left txop_map ops (lookup l)).
Proof.
  induction ops as [|o ops IH]; intros w sp l X CF Et F.
  - exists w, l. split; [reflexivity|]. split.
    + replace (set_tx sp i (Some l)) with sp; [exact X|]. unfold set_tx. destruct sp as [h c t f b]. cbn [s_hist s_cur s_txs s_failed s_bytes]. f_equal.
      unfold txat in Et. cbn [s_txs] in Et. clear - Et. revert i Et. induction t as [|x t IH]; intros [|i] E; cbn in *; try discriminate; [congruence|]. f_equal. auto.
    + split; [apply (txat_set _ _ _ l), Et|]. intros k. reflexivity.
  - inversion F as [|? ? Fo F']; subst.
    assert (A : allowed H sp w (txop_call i o)).
    { split; [exact CF|]. destruct o; cbn [txop_call call_ok]; (split; [congruence|]); [apply Fo|exact Fo]. }
    destruct (exec_do key w sp _ X A) as (a & w1 & E & G & X1 & _).
    assert (N : exists l1, snext H sp (txop_call i o) a = set_tx sp i (Some l1) /\ same_map (lookup l1) (txop_map (lookup l) o) /\ a = txop_answer (lookup l) o
              \/ (snext H sp (txop_call i o) a = sp /\ l1 = l /\ same_map (lookup l1) (txop_map (lookup l) o) /\ a = txop_answer (lookup l) o)).
    { destruct o as [k v|k]; cbn [txop_call snext good txop_map txop_answer txop_ok] in *.
      - destruct Fo as [Lk Lv]. destruct (Nat.ltb_spec 1023 (length v)); [lia|]. rewrite Et. exists (put l k v). left.
        split; [reflexivity|]. split; [intros k'; apply lookup_put_map|exact G].
      - rewrite Et. specialize (G l Et). destruct (lookup l k) as [v|] eqn:El.
        + exists (del l k). left. split; [reflexivity|]. split; [intros k'; apply lookup_del_map|exact G].
        + exists l. right. split; [reflexivity|]. split; [reflexivity|]. split; [|exact G]. intros k'. unfold m_del.
          destruct (bytes_eq_dec k k') as [<-|]; [exact El|reflexivity]. }
    destruct N as (l1 & N).
    assert (N' : exec H C key w1 (set_tx sp i (Some l1)) /\ same_map (lookup l1) (txop_map (lookup l) o) /\ a = txop_answer (lookup l) o).
    { destruct N as [(N1 & N2 & N3)|(N1 & -> & N2 & N3)]; (split; [|auto]).
      - rewrite <- N1. exact X1.
      - rewrite N1 in X1. replace (set_tx sp i (Some l)) with sp; [exact X1|]. clear - Et. unfold set_tx. destruct sp as [h c t f b]. cbn [s_hist s_cur s_txs s_failed s_bytes]. f_equal.
        unfold txat in Et. cbn [s_txs] in Et. clear - Et. revert i Et. induction t as [|x t IH]; intros [|i] E; cbn in *; try discriminate; [congruence|]. f_equal. auto. }
    destruct N' as (X1' & M & Ea). clear N X1.
    destruct (IH w1 (set_tx sp i (Some l1)) l1 X1' CF (txat_set _ _ _ _ Et) F') as (w2 & l2 & E2 & X2 & T2 & M2).
    assert (Es : forall x, set_tx (set_tx sp i (Some l1)) i x = set_tx sp i x).
    { intros x. unfold set_tx. cbn [s_hist s_cur s_txs s_failed s_bytes]. f_equal. generalize (s_txs sp). clear. intros t. revert i.
      induction t as [|y t IH]; intros [|i]; cbn; try reflexivity. f_equal. apply IH. }
    rewrite Es in *. exists w2, l2. split; [|split; [exact X2|split; [exact T2|]]].
    + cbn [map run]. rewrite E. cbn [bind]. rewrite E2. cbn [bind txop_answers]. rewrite Ea.
      rewrite (txop_answers_ext ops _ _ M). reflexivity.
    + intros k. rewrite (M2 k). cbn [fold_left]. apply txop_fold_ext, M.
Qed.

(** ** Different listings of the same contents *)
Lemma stands_listing l t l' : stands l t -> NoDup (map fst l') -> (forall k v, In (k, v) l' <-> lookup l k = Some v) -> stands l' t.
Proof.
  intros S ND E. pose proof S as ([ND0 F0] & W & E0).
  assert (I : forall x, In x l' <-> In x l). { intros [k v]. rewrite E. apply find_lookup, ND0. }
  split; [split; [exact ND|]|].
  - apply Forall_forall. intros x Ix. rewrite Forall_forall in F0. apply F0, I, Ix.
  - split; [exact W|]. intros x. rewrite I. apply E0.
Qed.
Lemma stands_same_map l1 l2 t : stands l1 t -> stands l2 t -> same_map (lookup l1) (lookup l2).
Proof.
  intros ([N1 _] & _ & E1) ([N2 _] & _ & E2) k. destruct (lookup l1 k) as [v|] eqn:L1.
  - symmetry. apply find_lookup; [exact N2|]. apply E2, E1, find_lookup; assumption.
  - symmetry. apply lookup_none; [exact N2|]. intros v I. apply E2, E1 in I. revert I. apply lookup_none; assumption.
Qed.
Lemma same_map_stands l1 l2 t1 t2 : stands l1 t1 -> stands l2 t2 -> same_map (lookup l1) (lookup l2) -> t1 = t2.
Proof.
  intros S1 S2 M. apply wft_unique; [apply S1|apply S2|]. intros k L. rewrite <- (lookup_tget _ _ _ S1 L), <- (lookup_tget _ _ _ S2 L). apply M.
Qed.

(** Proof bytes depend on the contents only. *)
Lemma prove_bytes key w sp i k l : exec H C key w sp -> collision_free H sp -> txat sp i = Some l -> length k = 32 ->
  exists raw w', step H C w (CTxProve i k) = Ok (AProof raw, w') /\ proof_bytes H l k raw /\ exec H C key w' sp.
Proof.
  intros X CF Et Lk. assert (A : allowed H sp w (CTxProve i k)) by (split; [exact CF|split; [congruence|exact Lk]]).
  destruct (exec_tx _ _ _ _ _ X Et) as (d & n & Ew & En & Hn).
  destruct (tx_prove_ok H H_len d n l k Hn Lk) as (raw & n' & Ep & _ & _ & B).
  assert (E : step H C w (CTxProve i k) = Ok (AProof raw, put_tx w d i (TLive n'))).
  { unfold step. rewrite Ew, En. cbn [bind]. rewrite Ep. reflexivity. }
  eexists raw, _. split; [exact E|]. split; [exact B|].
  exact (ex_call H C key w sp _ _ _ X A E).
Qed.
Lemma db_prove_bytes key w sp k ro l : exec H C key w sp -> collision_free H sp -> seen H sp ro = Some l -> length k = 32 ->
  exists raw w', step H C w (CProve k ro) = Ok (AProof raw, w') /\ proof_bytes H l k raw.
Proof.
  intros X CF Es Lk.
  destruct (exec_sim H H_len C C_len _ _ _ X) as (d & D & V & hist & W & Ew & _ & S & F).
  destruct (tx_create_ok H H_len C C_len d sp D hist ro (simdb_rdb _ _ _ _ _ _ _ _ S) CF) as (r & d' & E1 & S' & Sd & M).
  rewrite Es in M. destruct M as (n & -> & Hn). destruct (tx_prove_ok H H_len d' n l k Hn Lk) as (raw & n' & Ep & _ & _ & B).
  eexists raw, _. split; [|exact B]. unfold step. rewrite Ew. unfold db_read. rewrite E1. cbn [bind]. rewrite Ep. reflexivity.
Qed.
Lemma proof_bytes_fun l k r1 r2 t : stands l t -> proof_bytes H l k r1 -> proof_bytes H l k r2 -> r1 = r2.
Proof. intros S P1 P2. specialize (P1 t S). specialize (P2 t S). rewrite P1 in P2. apply Ok_inj in P2. exact P2. Qed.

(** ** Answers depend on the specification state only *)
Lemma seen_stands key w sp ro l : exec H C key w sp -> seen H sp ro = Some l -> exists t, stands l t.
Proof.
  intros X E. destruct ro as [h|]; cbn [seen] in E.
  - unfold named in E. destruct (bytes_eqb h (repeat x00 32)); [injection E as <-; exists PNull; apply stands_nil|].
    apply find_some in E. destruct (exec_hist _ _ _ _ X (proj1 E)) as (t & S & _). eauto.
  - injection E as <-. eapply exec_cur, X.
Qed.

Theorem answers_fun key1 key2 w1 w2 sp c a1 a2 w1' w2' :
  exec H C key1 w1 sp -> exec H C key2 w2 sp -> quiet w1 -> quiet w2 ->
  allowed H sp w1 c -> allowed H sp w2 c -> step H C w1 c = Ok (a1, w1') -> step H C w2 c = Ok (a2, w2') -> a1 = a2.
Proof.
  intros X1 X2 Q1 Q2 A1 A2 E1 E2.
  destruct (exec_good _ _ _ _ _ _ X1 A1 E1) as [G1 _]. destruct (exec_good _ _ _ _ _ _ X2 A2 E2) as [G2 _].
  destruct A1 as [CF A1]. destruct A2 as [_ A2].
  destruct c as [|h|k ro|k ro|k v|k|k ro|ro|i|i|i|i h|i k|i k|i k v|i k|i k|i|]; cbn [good call_ok] in *; try congruence.
  - destruct (seen H sp ro) as [l|] eqn:Es; [|congruence].
    destruct (db_prove_bytes _ _ _ k ro l X1 CF Es A1) as (r1 & v1 & F1 & B1). destruct (db_prove_bytes _ _ _ k ro l X2 CF Es A1) as (r2 & v2 & F2 & B2).
    destruct (seen_stands _ _ _ _ _ X1 Es) as (t & St). pose proof (proof_bytes_fun l k r1 r2 t St B1 B2). congruence.
  - destruct (txat sp i) as [l|]; [|congruence]. rewrite (G1 l eq_refl), (G2 l eq_refl). reflexivity.
  - destruct A1 as [A1 Lk]. destruct (txat sp i) as [l|]; [|congruence]. rewrite (G1 l eq_refl), (G2 l eq_refl). reflexivity.
  - destruct A1 as [A1 Lk]. destruct (txat sp i) as [l|]; [|congruence]. rewrite (G1 l eq_refl), (G2 l eq_refl). reflexivity.
  - destruct A1 as [A1 Lk]. destruct (txat sp i) as [l|]; [|congruence]. rewrite (G1 l eq_refl), (G2 l eq_refl). reflexivity.
  - destruct A1 as [A1 Lk]. destruct (txat sp i) as [l|] eqn:Et; [|congruence].
    destruct (prove_bytes _ _ _ i k l X1 CF Et Lk) as (r1 & v1 & F1 & B1 & _). destruct (prove_bytes _ _ _ i k l X2 CF Et Lk) as (r2 & v2 & F2 & B2 & _).
    destruct (exec_stands _ _ _ _ _ X1 Et) as (t & St & _). pose proof (proof_bytes_fun l k r1 r2 t St B1 B2). congruence.
  - destruct G1 as [->|[_ X]]; [|contradiction]. destruct G2 as [->|[_ X]]; [|contradiction]. reflexivity.
Qed.

Theorem calls_fun key1 key2 w1 w2 sp cs l1 l2 w1' w2' sp1 sp2 :
  exec H C key1 w1 sp -> exec H C key2 w2 sp -> quiet w1 -> quiet w2 ->
  calls H C w1 sp cs l1 w1' sp1 -> calls H C w2 sp cs l2 w2' sp2 -> l1 = l2 /\ sp1 = sp2.
Proof.
  intros X1 X2 Q1 Q2 C1. revert w2 X2 Q2 l2 w2' sp2.
  induction C1 as [w1 sp|w1 sp c a w1' cs l1 w1'' sp1 A E Cs IH]; intros w2 X2 Q2 l2 w2' sp2 C2; inversion C2; subst; [auto|].
  assert (a = a0) as <- by (eapply (answers_fun key1 key2 w1 w2); eassumption).
  destruct (exec_do _ _ _ _ X1 A) as (b1 & v1 & E1 & _ & Y1 & Z1 & _). rewrite E in E1. apply Ok_inj in E1. injection E1 as <- <-.
  match goal with A2 : allowed _ _ w2 c, E2 : step _ _ w2 c = _ |- _ =>
    destruct (exec_do _ _ _ _ X2 A2) as (b2 & v2 & F2 & _ & Y2 & Z2 & _); rewrite E2 in F2; apply Ok_inj in F2; injection F2 as <- <- end.
  match goal with C3 : calls _ _ _ _ cs _ _ _ |- _ => destruct (IH Y1 (Z1 Q1) _ Y2 (Z2 Q2) _ _ _ C3) as [-> ->]; auto end.
Qed.

(** ** Transactions not concerned *)
Lemma snext_txat sp c a i l : concerns i c = false -> txat sp i = Some l -> txat (snext H sp c a) i = Some l.
Proof.
  intros N E. assert (Ad : forall x, txat (add_tx sp x) i = Some l).
  { intros x. unfold txat, add_tx. cbn [s_txs]. rewrite app_nth1 by (eapply txat_len, E). exact E. }
  destruct c as [|h|k ro|k ro|k v|k|k ro|ro|j|j|j|j h|j k|j k|j k v|j k|j k|j|]; cbn [concerns] in N; try discriminate N;
    try (apply Nat.eqb_neq in N); cbn [snext commits]; auto.
  - destruct (named H (s_hist sp) h); exact E.
  - destruct (1023 <? length v); exact E.
  - destruct (lookup (s_cur sp) k); exact E.
  - destruct (seen H sp ro); auto.
  - rewrite txat_set_neq by congruence. exact E.
  - rewrite txat_set_neq by congruence. exact E.
  - destruct (named H (s_hist sp) h); [|exact E]. rewrite txat_set_neq by congruence. exact E.
  - destruct (1023 <? length v); [exact E|]. destruct (txat sp j); [|exact E]. rewrite txat_set_neq by congruence. exact E.
  - destruct (txat sp j) as [lj|]; [|exact E]. destruct (lookup lj k); [|exact E]. rewrite txat_set_neq by congruence. exact E.
  - destruct (txat sp j) as [lj|]; [|exact E]. destruct a; try exact E; rewrite txat_set_neq by congruence; exact E.
Qed.
Lemma calls_txat w sp cs l w' sp' i c : calls H C w sp cs l w' sp' -> Forall (fun c => concerns i c = false) cs ->
  txat sp i = Some c -> txat sp' i = Some c.
Proof.
  intros Cs. induction Cs as [|w sp x a w1 cs l w2 sp2 A E Cs IH]; intros F Et; [exact Et|].
  inversion F; subst. apply IH; [assumption|]. apply snext_txat; assumption.
Qed.
(** ** Specification states that differ in transaction [i] only *)
Definition eqx (i : nat) (a b : spec) : Prop :=
  s_hist a = s_hist b /\ s_cur a = s_cur b /\ s_failed a = s_failed b /\ s_bytes a = s_bytes b /\
  length (s_txs a) = length (s_txs b) /\ forall j, j <> i -> txat a j = txat b j.

Lemma eqx_set i a b j x : eqx i a b -> eqx i (set_tx a j x) (set_tx b j x).
Proof.
  intros (E1 & E2 & E3 & E4 & E5 & E6). unfold set_tx. repeat split; cbn [s_hist s_cur s_failed s_bytes s_txs]; auto.
  - rewrite !upd_length. exact E5.
  - intros k N. specialize (E6 k N). unfold txat in *. cbn [s_txs].
    destruct (Nat.eq_dec j k) as [->|D]; [|rewrite !nth_upd_neq by exact D; exact E6].
    destruct (Nat.lt_ge_cases k (length (s_txs a))) as [L|L].
    + rewrite !nth_upd_eq by lia. reflexivity.
    + rewrite !nth_overflow; [reflexivity| |]; rewrite upd_length; lia.
Qed.
Lemma eqx_set1 i a x : eqx i a (set_tx a i x).
Proof.
  unfold set_tx. repeat split; cbn [s_txs]; [rewrite upd_length; reflexivity|].
  intros j N. unfold txat. cbn [s_txs]. rewrite nth_upd_neq by congruence. reflexivity.
Qed.
Lemma eqx_trans i a b c : eqx i a b -> eqx i b c -> eqx i a c.
Proof. unfold eqx. intros (A1&A2&A3&A4&A5&A6) (B1&B2&B3&B4&B5&B6). repeat split; try congruence. intros j N. rewrite A6, B6 by exact N. reflexivity. Qed.
Lemma eqx_add i a b x : eqx i a b -> i < length (s_txs a) -> eqx i (add_tx a x) (add_tx b x).
Proof.
  intros (E1 & E2 & E3 & E4 & E5 & E6) L. unfold add_tx. repeat split; cbn [s_hist s_cur s_failed s_bytes s_txs]; auto.
  - rewrite !app_length. cbn. lia.
  - intros j N. specialize (E6 j N). unfold txat in *. cbn [s_txs].
    destruct (Nat.lt_ge_cases j (length (s_txs a))) as [Lj|Lj].
    + rewrite !app_nth1 by lia. exact E6.
    + rewrite !app_nth2 by lia. rewrite E5. reflexivity.
Qed.
Lemma eqx_snext i a b c r : eqx i a b -> i < length (s_txs a) -> concerns i c = false \/ c = CReopen ->
  eqx i (snext H a c r) (snext H b c r).
Proof.
  intros E L N. pose proof E as (E1 & E2 & E3 & E4 & E5 & E6).
  destruct N as [N| ->].
  - assert (Ec : forall l, eqx i (committed a l) (committed b l)).
    { intros l. unfold committed. repeat split; cbn [s_hist s_cur s_failed s_bytes s_txs]; try congruence. intros j Nj. apply E6, Nj. }
    destruct c as [|h|k ro|k ro|k v|k|k ro|ro|j|j|j|j h|j k|j k|j k v|j k|j k|j|]; cbn [concerns] in N; try discriminate N;
    try (apply Nat.eqb_neq in N); cbn [snext commits]; auto.
    + rewrite E1. destruct (named H (s_hist b) h); [|exact E]. repeat split; cbn [s_hist s_cur s_failed s_bytes s_txs]; auto.
    + rewrite E2. destruct (1023 <? length v); auto.
    + rewrite E2. destruct (lookup (s_cur b) k); auto.
    + unfold seen. rewrite E1, E2. destruct ro as [h|]; [destruct (named H (s_hist b) h)|]; auto using eqx_add.
    + apply eqx_set, E.
    + rewrite E2. apply eqx_set, E.
    + rewrite E1. destruct (named H (s_hist b) h); [|exact E]. apply eqx_set, E.
    + destruct (1023 <? length v); [exact E|]. rewrite (E6 j) by congruence. destruct (txat b j); [|exact E]. apply eqx_set, E.
    + rewrite (E6 j) by congruence. destruct (txat b j) as [lj|]; [|exact E]. destruct (lookup lj k); [|exact E]. apply eqx_set, E.
    + rewrite (E6 j) by congruence. destruct (txat b j) as [lj|]; [|exact E].
      assert (Ef : eqx i (set_tx (commit_failed a lj) j None) (set_tx (commit_failed b lj) j None)).
      { apply eqx_set. unfold commit_failed. repeat split; cbn [s_hist s_cur s_failed s_bytes s_txs]; try congruence. intros k Nk. apply E6, Nk. }
      destruct r; auto.
  - cbn [snext]. repeat split; cbn [s_hist s_cur s_failed s_bytes s_txs]; try congruence.
    + rewrite !map_length. exact E5.
    + intros j _. unfold txat. cbn [s_txs]. rewrite !nth_nones. reflexivity.
Qed.
Lemma snext_len sp c a : length (s_txs sp) <= length (s_txs (snext H sp c a)).
Proof.
  destruct c; cbn [snext commits]; unfold set_tx, add_tx, committed, commit_failed;
  repeat match goal with |- context [match ?x with _ => _ end] => destruct x end;
  cbn [s_txs]; rewrite ?upd_length, ?app_length, ?map_length; lia.
Qed.

Theorem answers_eqx key1 key2 i w1 w2 sp sp2 c a1 a2 w1' w2' :
  exec H C key1 w1 sp -> exec H C key2 w2 sp2 -> eqx i sp sp2 -> concerns i c = false \/ c = CReopen -> quiet w1 -> quiet w2 ->
  allowed H sp w1 c -> allowed H sp2 w2 c -> step H C w1 c = Ok (a1, w1') -> step H C w2 c = Ok (a2, w2') -> a1 = a2.
Proof.
  intros X1 X2 Q N Q1 Q2 A1 A2 E1 E2. destruct Q as (E3 & E4 & E5 & E6 & E7 & E8).
  destruct (exec_good _ _ _ _ _ _ X1 A1 E1) as [G1 _]. destruct (exec_good _ _ _ _ _ _ X2 A2 E2) as [G2 _].
  destruct A1 as [CF A1]. destruct A2 as [CF2 A2].
  assert (Es : forall ro, seen H sp2 ro = seen H sp ro). { intros ro. unfold seen. rewrite E3, E4. reflexivity. }
  assert (Et : forall j, concerns i c = false -> (i =? j) = concerns i c -> txat sp2 j = txat sp j).
  { intros j Nj Ej. symmetry. apply E8. rewrite Nj in Ej. apply Nat.eqb_neq in Ej. congruence. }
  destruct c as [|h|k ro|k ro|k v|k|k ro|ro|j|j|j|j h|j k|j k|j k v|j k|j k|j|]; cbn [good call_ok] in *; rewrite ?Es, <- ?E3, <- ?E4, <- ?E7 in *; try congruence.
  - destruct (seen H sp ro) as [l|] eqn:Er; [|congruence].
    destruct (db_prove_bytes _ _ _ k ro l X1 CF Er A1) as (r1 & v1 & F1 & B1).
    destruct (db_prove_bytes _ _ _ k ro l X2 CF2) as (r2 & v2 & F2 & B2); [rewrite Es; exact Er|exact A1|].
    destruct (seen_stands _ _ _ _ _ X1 Er) as (t & St). pose proof (proof_bytes_fun l k r1 r2 t St B1 B2). congruence.
  - destruct N as [N|N]; [|discriminate N]. rewrite (Et j N eq_refl) in *. destruct (txat sp j) as [l|]; [|congruence]. rewrite (G1 l eq_refl), (G2 l eq_refl). reflexivity.
  - destruct N as [N|N]; [|discriminate N]. rewrite (Et j N eq_refl) in *. destruct A1 as [A1 Lk]. destruct (txat sp j) as [l|]; [|congruence]. rewrite (G1 l eq_refl), (G2 l eq_refl). reflexivity.
  - destruct N as [N|N]; [|discriminate N]. rewrite (Et j N eq_refl) in *. destruct A1 as [A1 Lk]. destruct (txat sp j) as [l|]; [|congruence]. rewrite (G1 l eq_refl), (G2 l eq_refl). reflexivity.
  - destruct N as [N|N]; [|discriminate N]. rewrite (Et j N eq_refl) in *. destruct A1 as [A1 Lk]. destruct (txat sp j) as [l|]; [|congruence]. rewrite (G1 l eq_refl), (G2 l eq_refl). reflexivity.
  - destruct N as [N|N]; [|discriminate N]. pose proof (Et j N eq_refl) as Ej. destruct A1 as [A1 Lk]. destruct (txat sp j) as [l|] eqn:Etj; [|congruence].
    destruct (prove_bytes _ _ _ j k l X1 CF Etj Lk) as (r1 & v1 & F1 & B1 & _). destruct (prove_bytes _ _ _ j k l X2 CF2 Ej Lk) as (r2 & v2 & F2 & B2 & _).
    destruct (exec_stands _ _ _ _ _ X1 Etj) as (t & St & _). pose proof (proof_bytes_fun l k r1 r2 t St B1 B2). congruence.
  - destruct G1 as [->|[_ X]]; [|contradiction]. destruct G2 as [->|[_ X]]; [|contradiction]. reflexivity.
Qed.

Theorem calls_eqx key1 key2 i w1 w2 sp sp' cs l1 l2 w1' w2' sp1 sp2 :
  exec H C key1 w1 sp -> exec H C key2 w2 sp' -> eqx i sp sp' -> i < length (s_txs sp) -> quiet w1 -> quiet w2 ->
  Forall (fun c => concerns i c = false \/ c = CReopen) cs ->
  calls H C w1 sp cs l1 w1' sp1 -> calls H C w2 sp' cs l2 w2' sp2 -> l1 = l2 /\ eqx i sp1 sp2.
Proof.
  intros X1 X2 Q L Q1 Q2 F C1. revert w2 sp' X2 Q2 Q l2 w2' sp2.
  induction C1 as [w1 sp|w1 sp c a w1' cs l1 w1'' sp1 A E Cs IH]; intros w2 sp' X2 Q2 Q l2 w2' sp2 C2; inversion C2; subst; [auto|].
  inversion F as [|? ? Fc F']; subst.
  assert (a = a0) as <- by (eapply (answers_eqx key1 key2 i w1 w2); eassumption).
  destruct (exec_do _ _ _ _ X1 A) as (b1 & v1 & E1 & _ & Y1 & Z1 & _). rewrite E in E1. apply Ok_inj in E1. injection E1 as <- <-.
  match goal with A2 : allowed _ _ w2 c, E2 : step _ _ w2 c = _ |- _ =>
    destruct (exec_do _ _ _ _ X2 A2) as (b2 & v2 & F2 & _ & Y2 & Z2 & _); rewrite E2 in F2; apply Ok_inj in F2; injection F2 as <- <- end.
  assert (Q' : eqx i (snext H sp c a) (snext H sp' c a)) by (apply eqx_snext; assumption).
  assert (L' : i < length (s_txs (snext H sp c a))) by (eapply Nat.lt_le_trans; [exact L|apply snext_len]).
  match goal with C3 : calls _ _ _ _ cs _ _ _ |- _ => destruct (IH Y1 L' (Z1 Q1) F' _ _ Y2 (Z2 Q2) Q' _ _ _ C3) as [-> Q3]; auto end.
Qed.
End A.
