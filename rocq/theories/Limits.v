(** * Facts behind Properties_Limits.v: how deep trees get, and what iterating costs. *)
From Verif Require Export Demo.
From Coq Require Import ZifyBool ZifyNat ZifyN.

(** Every record is below at most [ih t] inner nodes. *)
Lemma levels_witness path t : wfn path t -> forall k v, In (k, v) (elems t) -> exists ds, length ds <= ih t /\
  forall k' v', In (k', v') (elems t) -> k' <> k -> In (length (common2 (kbits k) (kbits k'))) ds.
Proof.
  revert path. induction t as [|k0 v0|pre l IHl r IHr]; intros path W k v I.
  - contradiction W.
  - exists []. split; [cbn; lia|]. intros k' v' [X|[]] N. destruct I as [Y|[]]. congruence.
  - pose proof W as [Wl Wr]. cbn [elems ih] in *.
    assert (Cm : forall a va b vb, In (a, va) (elems l) -> In (b, vb) (elems r) -> common2 (kbits a) (kbits b) = path ++ pre).
    { intros a va b vb Ia Ib. destruct (proj2 (wfn_elems _ _ Wl _ _ Ia)) as (sl & El). destruct (proj2 (wfn_elems _ _ Wr _ _ Ib)) as (sr & Er).
      apply (common2_has _ _ (path ++ pre) sl sr false); [rewrite El|rewrite Er]; rewrite <- !app_assoc; reflexivity. }
    apply in_app_or in I. destruct I as [I|I].
    + destruct (IHl _ Wl k v I) as (ds & L & D). exists (length (path ++ pre) :: ds). split; [cbn; lia|].
      intros k' v' I' N. apply in_app_or in I'. destruct I' as [I'|I']; [right; eapply D; eassumption|].
      left. rewrite (Cm _ _ _ _ I I'). reflexivity.
    + destruct (IHr _ Wr k v I) as (ds & L & D). exists (length (path ++ pre) :: ds). split; [cbn; lia|].
      intros k' v' I' N. apply in_app_or in I'. destruct I' as [I'|I']; [|right; eapply D; eassumption].
      left. rewrite common2_comm, (Cm _ _ _ _ I' I). reflexivity.
Qed.
Lemma levels_ih l t k v : stands l t -> In (k, v) l -> levels l k <= ih t.
Proof.
  intros (R & W & E) I. destruct W as [->|W]; [apply E in I; contradiction I|].
  destruct (levels_witness [] t W k v (proj1 (E _) I)) as (ds & L & D). unfold levels.
  apply Nat.le_trans with (2 := L). apply NoDup_incl_length; [apply NoDup_nodup|].
  intros d X. apply nodup_In, in_map_iff in X. destruct X as ([k' v'] & <- & X). apply in_del in X. destruct X as [X N].
  apply (D k' v'); [apply E, X|exact N].
Qed.

(** Calls after which transaction [i] holds a root just taken from the store. *)
Definition loads (c : call) (a : answer) : option nat :=
  match c, a with
  | CTxCommit i, AOk | CTxInject i _, AOk | CTxClear i, AOk => Some i
  | CTxCreate _, ATx i => Some i
  | _, _ => None
  end.
Definition stored (n : node) : Prop := n = NNull \/ exists h w, n = NHash h w.

Section L.
Variable H : bytes -> bytes.
Hypothesis H_len : forall m, length (H m) = 32.
Variable C : bytes -> bytes -> bytes.
Hypothesis C_len : forall k m, length (C k m) = 20.

Lemma tree_write_stored s n n' s' : tree_write H s n = Ok (Some n', s') -> stored n'.
Proof.
  assert (Th : forall n m, node_to_hash n = Ok m -> stored m).
  { intros m m' E. destruct m as [|[h|] [w|] p l r|[h|] [w|] k v vp|h w]; cbn in E; try discriminate; apply Ok_inj in E; subst; [left|right|right|right]; eauto. }
  revert s n' s'. induction n as [|h w p l IHl r IHr|h w k v vp|h w]; intros s n' s' E.
  - cbn in E. apply Ok_inj in E. injection E as <- <-. now left.
  - cbn [tree_write] in E.
    destruct (tree_write H s l) as [[[l'|] s1]| | | |]; cbn [bind] in E; try discriminate E.
    destruct (tree_write H s1 r) as [[[r'|] s2]| | | |]; cbn [bind] in E; try discriminate E.
    destruct (match w with Some _ => _ | None => _ end) as [[[n1 s3] ok]| | | |]; cbn [bind] in E; try discriminate E.
    destruct ok; cbn [negb] in E; [|discriminate E].
    destruct (node_hash H n1) as [[hh n2]| | | |]; cbn [bind] in E; try discriminate E.
    destruct (node_to_hash n2) as [out| | | |] eqn:En; cbn [bind] in E; try discriminate E.
    apply Ok_inj in E. injection E as <- <-. eapply Th, En.
  - cbn [tree_write] in E.
    destruct (match w with Some _ => _ | None => _ end) as [[[n1 s3] ok]| | | |]; cbn [bind] in E; try discriminate E.
    destruct ok; cbn [negb] in E; [|discriminate E].
    destruct (node_hash H n1) as [[hh n2]| | | |]; cbn [bind] in E; try discriminate E.
    destruct (node_to_hash n2) as [out| | | |] eqn:En; cbn [bind] in E; try discriminate E.
    apply Ok_inj in E. injection E as <- <-. eapply Th, En.
  - cbn in E. apply Ok_inj in E. injection E as <- <-. right. eauto.
Qed.

Lemma history_stored s D hist h n s' : sinv H C s D hist -> read_history H C s h = Ok (Some n, s') -> stored n.
Proof.
  intros I E. destruct (read_history_spec H H_len C C_len s D hist h I) as (r & s1 & E1 & _ & _ & M). rewrite E in E1.
  apply Ok_inj in E1. injection E1 as <- <-. destruct M as [[_ ->]|(_ & t & w & _ & _ & _ & ->)]; [now left|right; eauto].
Qed.
Lemma state_stored s D hist : sinv H C s D hist -> stored (m_node (st_state s)).
Proof. intros I. rewrite (si_node _ _ _ _ _ I). destruct hist as [|[t w] r]; [now left|]. destruct t; [now left|right|right]; cbn; eauto. Qed.

Lemma live_put w d i n x : live w i = Ok x -> live (put_tx w d i (TLive n)) i = Ok n.
Proof.
  unfold live, put_tx. cbn [w_txs]. intros E. rewrite nth_upd_eq; [reflexivity|].
  destruct (Nat.lt_ge_cases i (length (w_txs w))) as [L|G]; [exact L|]. rewrite nth_overflow in E by exact G. discriminate E.
Qed.

Lemma loads_stored key w sp c a w' i : exec H C key w sp -> step H C w c = Ok (a, w') -> loads c a = Some i ->
  exists n, live w' i = Ok n /\ stored n.
Proof.
  intros X E L. destruct (exec_sim H H_len C C_len _ _ _ X) as (d & D & V & hist & W & Ew & _ & S & F).
  pose proof (sm_inv _ _ _ _ _ _ _ _ S) as I. revert E. unfold step. rewrite Ew.
  destruct c; cbn [loads] in L; try discriminate L.
  - assert (Q : forall r d', tx_create H C d ro = Ok (Some r, d') -> stored r).
    { intros r d' Q. unfold tx_create in Q. destruct ro as [h|]; [|destruct (d_revert d)].
      - destruct (read_history H C (d_store d) h) as [[[n|] s1]| | | |] eqn:Er; cbn [bind] in Q; try discriminate Q.
        apply Ok_inj in Q. injection Q as <- <-. eapply history_stored; eassumption.
      - destruct (read_history H C (d_store d) (d_hash d)) as [[[n|] s1]| | | |] eqn:Er; cbn [bind] in Q; try discriminate Q.
        apply Ok_inj in Q. injection Q as <- <-. eapply history_stored; eassumption.
      - apply Ok_inj in Q. injection Q as <- <-. eapply state_stored, I. }
    destruct (tx_create H C d ro) as [[[n|] d1]| | | |]; cbn [bind]; intros E; try discriminate E; apply Ok_inj in E; injection E as <- <-; [|discriminate L].
    injection L as <-. exists n. split; [|eapply Q; reflexivity]. unfold live. cbn [w_txs]. rewrite app_nth2, Nat.sub_diag by lia. reflexivity.
  - destruct (live w i0) as [n| | | |] eqn:El; cbn [bind]; intros E; try discriminate E. apply Ok_inj in E. injection E as <- <-. injection L as <-.
    eexists. split; [eapply live_put, El|eapply state_stored, I].
  - destruct (live w i0) as [n| | | |] eqn:El; cbn [bind]; try discriminate. unfold tx_inject.
    destruct (read_history H C (d_store d) h) as [[[n1|] s1]| | | |] eqn:Er; cbn [bind]; intros E; try discriminate E; apply Ok_inj in E; injection E as <- <-; [|discriminate L].
    injection L as <-. exists n1. split; [eapply live_put, El|]. eapply history_stored; eassumption.
  - destruct (live w i0) as [n| | | |] eqn:El; cbn [bind]; try discriminate. unfold tx_commit.
    destruct (tree_commit H C (d_store d) n) as [[[n1|] s1]| | | |] eqn:Et; cbn [bind]; intros E; try discriminate E; apply Ok_inj in E; injection E as <- <-; [|discriminate L].
    injection L as <-. exists n1. split; [eapply live_put, El|]. unfold tree_commit in Et.
    destruct (tree_write H (d_store d) n) as [[[n2|] s2]| | | |] eqn:Ew2; cbn [bind] in Et; try discriminate Et.
    destruct (store_commit C s2 n2) as [[[] s3]| | | |]; cbn [bind] in Et; try discriminate Et. apply Ok_inj in Et. injection Et as <- <-.
    eapply tree_write_stored, Ew2.
Qed.

Lemma stored_cost n t rd : rep H rd n t -> wft t -> stored n -> cost n t = 2 * ih t + 2 \/ (t = PNull /\ cost n t = 1).
Proof. intros R W [->|(h & w & ->)]; cbn [cost]; [right|left; reflexivity]. split; [exact R|reflexivity]. Qed.

(** A transaction aborts when iterated if some record is 256 levels down, or 128 levels down
    in a transaction just loaded. *)
Lemma iterate_aborts key w sp i l k v n : exec H C key w sp -> txat sp i = Some l -> In (k, v) l ->
  256 <= levels l k \/ (128 <= levels l k /\ exists nd, live w i = Ok nd /\ stored nd) -> length l <= n -> tx_iterate w i n = Abort.
Proof.
  intros X E I B Ln. destruct (exec_tx H H_len C C_len _ _ _ _ _ X E) as (d & nd & Ew & En & t & R & S & V).
  unfold tx_iterate. rewrite Ew, En. cbn [bind]. pose proof S as (Rl & W & Eq).
  apply (iterate_exact H H_len _ _ _ R W V).
  - pose proof (levels_ih l t k v S I). pose proof (cost_ge H H_len (st_rd (d_store d)) nd t R).
    destruct B as [B|(B & nd' & En' & Sn)]; [lia|]. rewrite En in En'. apply Ok_inj in En'. subst nd'.
    destruct (stored_cost _ _ _ R W Sn) as [->|[-> _]]; [lia|]. apply Eq in I. contradiction I.
  - rewrite <- (Permutation.Permutation_length (stands_perm _ _ S)). exact Ln.
Qed.
End L.

(** ** Keys that differ from the zero key in one bit *)
Definition bitkey (j : nat) : bytes :=
  repeat x00 (j / 8) ++ [n2b (2 ^ N.of_nat (7 - j mod 8))] ++ repeat x00 (31 - j / 8).
Definition zkey : bytes := repeat x00 32.
Definition deep (n : nat) : recs := map (fun j => (bitkey j, [x01])) (seq 0 n).
Definition deep0 (n : nat) : recs := (zkey, [x01]) :: deep n.

Lemma deep_lcp : map (fun e => length (common2 (kbits zkey) (kbits (fst e)))) (deep 256) = seq 0 256.
Proof. vm_compute. reflexivity. Qed.
Lemma deep_len : forallb (fun e => length (fst e) =? 32) (deep 256) = true.
Proof. vm_compute. reflexivity. Qed.
Lemma deep_incl n : n <= 256 -> exists r, deep 256 = deep n ++ r.
Proof. intros L. exists (map (fun j => (bitkey j, [x01])) (seq n (256 - n))). unfold deep. rewrite <- map_app, <- seq_app. f_equal. f_equal. lia. Qed.
Lemma deep_lcp_n n : n <= 256 -> map (fun e => length (common2 (kbits zkey) (kbits (fst e)))) (deep n) = seq 0 n.
Proof.
  intros L. destruct (deep_incl n L) as (r & E). pose proof deep_lcp as D. rewrite E, map_app in D.
  assert (Ld : length (deep n) = n) by (unfold deep; rewrite map_length, seq_length; reflexivity).
  apply (f_equal (firstn n)) in D. rewrite firstn_app, map_length, Ld, Nat.sub_diag in D.
  rewrite firstn_all2 in D by (rewrite map_length; lia). cbn [firstn] in D. rewrite app_nil_r in D. rewrite D.
  replace 256 with (n + (256 - n)) by lia. rewrite seq_app, firstn_app, seq_length, Nat.sub_diag, firstn_all2 by (rewrite seq_length; lia).
  cbn [firstn]. apply app_nil_r.
Qed.
Lemma deep_keys n k v : n <= 256 -> In (k, v) (deep n) -> length k = 32 /\ v = [x01] /\ k <> zkey.
Proof.
  intros L I. split; [|split].
  - destruct (deep_incl n L) as (r & E). pose proof deep_len as D. rewrite E, forallb_app, andb_true_iff in D. destruct D as [D _].
    rewrite forallb_forall in D. apply D in I. apply Nat.eqb_eq, I.
  - unfold deep in I. apply in_map_iff in I. destruct I as (j & [= _ <-] & _). reflexivity.
  - intros ->. apply (in_map (fun e => length (common2 (kbits zkey) (kbits (fst e))))) in I. rewrite deep_lcp_n in I by exact L.
    apply in_seq in I. cbn [fst] in I. revert I. replace (length (common2 (kbits zkey) (kbits zkey))) with 256 by (vm_compute; reflexivity). lia.
Qed.
Lemma deep_nodup n : n <= 256 -> NoDup (map fst (deep0 n)).
Proof.
  intros L. unfold deep0. cbn [map fst]. constructor.
  - intros I. apply in_map_iff in I. destruct I as ([k v] & E & I). cbn [fst] in E. subst k. apply deep_keys in I; [|exact L]. tauto.
  - apply (NoDup_map_inv (fun k => length (common2 (kbits zkey) (kbits k)))). rewrite map_map, deep_lcp_n by exact L. apply seq_NoDup.
Qed.
Lemma deep_levels n l : n <= 256 -> (forall k v, In (k, v) (deep0 n) -> In (k, v) l) -> n <= levels l zkey.
Proof.
  intros L I. unfold levels. rewrite <- (seq_length n 0) at 1. apply NoDup_incl_length; [apply seq_NoDup|].
  intros d X. rewrite <- (deep_lcp_n n L) in X. apply in_map_iff in X. destruct X as ([k v] & <- & X). apply nodup_In, in_map_iff.
  exists (k, v). split; [reflexivity|]. apply in_del. cbn [fst]. split; [apply I; now right|]. eapply deep_keys; eassumption.
Qed.
Definition puts (l : recs) : list txop := map (fun e => TPut (fst e) (snd e)) l.
Lemma fold_puts l : forall m k v, NoDup (map fst l) -> In (k, v) l -> fold_left txop_map (puts l) m k = Some v.
Proof.
  assert (O : forall l m k, ~ In k (map fst l) -> fold_left txop_map (puts l) m k = m k).
  { clear l. induction l as [|[k v] l IH]; intros m k' N; [reflexivity|]. cbn [puts map fst snd fold_left]. cbn [map fst In] in N.
    change (map (fun e => TPut (fst e) (snd e)) l) with (puts l). rewrite IH by tauto. cbn [txop_map]. unfold m_set. destruct (bytes_eq_dec k k'); [tauto|reflexivity]. }
  induction l as [|[k0 v0] l IH]; intros m k v ND I; [contradiction I|]. cbn [map fst] in ND. inversion ND as [|? ? N ND']; subst.
  cbn [puts map fst snd fold_left]. change (map (fun e => TPut (fst e) (snd e)) l) with (puts l).
  destruct I as [[= -> ->]|I]; [|auto]. rewrite O by exact N. cbn [txop_map]. unfold m_set. destruct (bytes_eq_dec k k); [reflexivity|contradiction].
Qed.
Lemma puts_ok n : n <= 256 -> Forall txop_ok (puts (deep0 n)).
Proof.
  intros L. apply Forall_forall. intros o I. unfold puts in I. apply in_map_iff in I. destruct I as ([k v] & <- & [I|I]); cbn [txop_ok fst snd].
  - injection I as <- <-. cbn. lia.
  - apply deep_keys in I; [|exact L]. destruct I as (I1 & -> & _). split; [exact I1|cbn; lia].
Qed.
