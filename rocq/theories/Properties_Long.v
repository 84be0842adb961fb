(** * C18, the other half: what happens to values of 256 to 1023 bytes. *)
From Verif Require Export Long Demo Properties_Db Properties_Hist Properties_Proof.
From Coq Require Import ZifyBool ZifyNat ZifyN.

Local Opaque TREE_FUEL.
Section P.
Variable H : bytes -> bytes.
Hypothesis H_len : forall m, length (H m) = 32.
Variable C : bytes -> bytes -> bytes.
Hypothesis C_len : forall k m, length (C k m) = 20.

Lemma hist_young d sp D hist t w : rdb H C d sp D hist -> In (t, w) hist -> t <> PNull -> old H (st_rd (d_store d)) w.
Proof.
  intros S I N. pose proof (sinv_root H C _ _ _ t w (rm_inv _ _ _ _ _ _ S) I) as [[-> _]|(_ & V & D0)]; [congruence|].
  exists t. split; [|exact V]. revert D0. apply on_disk_mono, (rm_inv _ _ _ _ _ _ S).
Qed.
Lemma history_young d sp D hist h n s' : rdb H C d sp D hist -> read_history H C (d_store d) h = Ok (Some n, s') -> young H (st_rd s') n.
Proof.
  intros S E. destruct (read_history_spec H H_len C C_len _ D hist h (rm_inv _ _ _ _ _ _ S)) as (r & s1 & E1 & _ & Sd & M). rewrite E in E1.
  apply Ok_inj in E1. injection E1 as <- <-. destruct M as [[_ ->]|(_ & t & w & I & N & _ & ->)]; [exact Logic.I|].
  cbn [young]. generalize (hist_young _ _ _ _ _ _ S I N). apply old_mono. intros p x. rewrite (same_db_rd _ _ Sd). auto.
Qed.
Lemma create_young d sp D hist n d' : rdb H C d sp D hist -> tx_create H C d None = Ok (Some n, d') -> young H (st_rd (d_store d')) n.
Proof.
  intros S. unfold tx_create. destruct (d_revert d).
  - destruct (read_history H C (d_store d) (d_hash d)) as [[[m|] s1]| | | |] eqn:Er; cbn [bind]; intros Q; try discriminate Q.
    apply Ok_inj in Q. injection Q as <- <-. eapply history_young; eassumption.
  - intros Q. apply Ok_inj in Q. injection Q as <- <-. rewrite (si_node _ _ _ _ _ (rm_inv _ _ _ _ _ _ S)).
    destruct hist as [|[t w] r]; [exact I|]. assert (X : t <> PNull -> old H (st_rd (d_store d)) w) by (eapply hist_young; [exact S|now left]).
    destruct t; cbn [root_node young]; [exact I|apply X; discriminate..].
Qed.

Lemma tx_insert_young d n k v a n' : young H (st_rd (d_store d)) n -> tx_insert H d n k v = Ok (a, n') -> young H (st_rd (d_store d)) n'.
Proof.
  intros Y. unfold tx_insert. destruct (1023 <? length v). { intros E. apply Ok_inj in E. injection E as _ <-. exact Y. }
  destruct (tree_insert H (st_rd (d_store d)) TREE_FUEL n k v 0) as [n1|[]| | |] eqn:Et; intros E; try discriminate E; apply Ok_inj in E; injection E as _ <-; try exact Y.
  eapply insert_young; [exact H_len|exact C_len|exact Y|exact Et].
Qed.

(** What the database answers after a commit of [l]. *)
Lemma long_core d sp D V hist W n l a d' t :
  simdb H C d sp D V hist W -> holds H (d_store d) n l -> young H (st_rd (d_store d)) n ->
  tx_commit H C d n = Ok (a, d', t) -> a = AOk ->
  d_hash d' = ref_root H l /\
  exists tr, stands l tr /\ vals_le 1023 tr /\
    (tr = PNull /\ m_node (st_state (d_store d')) = NNull \/
     tr <> PNull /\ exists w, m_node (st_state (d_store d')) = NHash (thash H tr) w /\ clipped H (st_rd (d_store d')) tr w).
Proof.
  intros S (tr & R & St & VL) Y E ->. pose proof S as [S1 S2 S3 S4 S5 S6 S7 S8 S9 S10 S11 S12 S13 S14 S15].
  revert E. unfold tx_commit. destruct (tree_commit H C (d_store d) n) as [[[n'|] s']| | | |] eqn:Ec; cbn [bind]; intros E; try discriminate E.
  apply Ok_inj in E. injection E as <- <-. cbn [d_hash d_store].
  destruct (long_commit H H_len C C_len (d_store d) V n tr n' s') as [En K]; auto; [apply S1|apply (proj1 (proj2 St))|].
  destruct (stands_root H H_len l tr St) as [-> _].
  split. { destruct K as [[-> ->]|(_ & w & -> & _)]; reflexivity. }
  exists tr. split; [exact St|]. split; [exact VL|]. rewrite En. exact K.
Qed.

(** Answers of a database whose committed contents are [l], if the leaves of [l] have gone
    through the disk: existence and the root are right, values are cut to their length
    modulo 256, and proofs of the values that were cut are refused. *)
Definition answers_clipped (w : world) (l : recs) : Prop :=
  step H C w CRoot = Ok (AHash (ref_root H l), w) /\
  (forall k, length k = 32 ->
     step H C w (CGet k None) = Ok (found (option_map (fun v => firstn (length v mod 256) v) (lookup l k)), w) /\
     step H C w (CHas k None) = Ok (present (lookup l k), w)) /\
  (forall k v, length k = 32 -> lookup l k = Some v -> exists raw, step H C w (CProve k None) = Ok (AProof raw, w) /\
     (length v <= 255 -> urkel_verify H raw k (Some (ref_root H l)) = Ok (mkverdict None true v)) /\
     (256 <= length v -> no_collision H (ref_msgs H l ++ verify_msgs H raw k) -> no_zero H (ref_msgs H l ++ verify_msgs H raw k) ->
      exists e, urkel_verify H raw k (Some (ref_root H l)) = Ok (mkverdict (Some e) false []))).

Lemma create_current d l tr : d_hash d = ref_root H l -> (l = [] \/ ref_root H l <> zero_hash) -> stands l tr ->
  (tr = PNull /\ m_node (st_state (d_store d)) = NNull \/
   tr <> PNull /\ exists w, m_node (st_state (d_store d)) = NHash (thash H tr) w /\ clipped H (st_rd (d_store d)) tr w) ->
  tx_create H C d None = Ok (Some (m_node (st_state (d_store d))), d).
Proof.
  intros Eh Z St K. unfold tx_create. destruct (d_revert d) eqn:Er; [|reflexivity].
  destruct (stands_root H H_len l tr St) as [Rt _]. unfold read_history.
  assert (Ed : with_store d (d_store d) = d) by (destruct d; reflexivity).
  destruct (bytes_eqb_spec (d_hash d) zero_hash) as [E|N].
  - destruct Z as [->|Z]; [|congruence]. destruct K as [[_ ->]|[N _]]; [cbn [bind]; now rewrite Ed|].
    exfalso. apply N. destruct St as (_ & W & X). destruct tr as [|k v|pre a b]; [reflexivity| |].
    + exfalso. apply (proj2 (X (k, v))). cbn; auto.
    + exfalso. destruct W as [W|W]; [discriminate W|]. apply wfn_nonempty in W. destruct W as (k & v & I). apply (proj2 (X (k, v)) I).
  - destruct K as [[-> Em]|(Nt & w & Em & _)].
    + exfalso. apply N. rewrite Eh, Rt. reflexivity.
    + rewrite Em. cbn [hash_field hashed]. rewrite Eh, Rt, bytes_eqb_refl. cbn [bind]. now rewrite Ed.
Qed.

Lemma clip_cut v : 256 <= length v -> clip v <> v.
Proof. intros L E. pose proof (clip_len v) as X. rewrite E in X. lia. Qed.

Lemma clip_proof p v : ok_proof p -> clean_proof p -> p_tail p = TExists v -> forall v', length v' <= 1023 ->
  ok_proof (mkproof (p_depth p) (p_nodes p) (TExists v')) /\ clean_proof (mkproof (p_depth p) (p_nodes p) (TExists v')).
Proof. intros (A & B & D & _) [E _] _ v' L. split; [split; [exact A|split; [exact B|split; [exact D|exact L]]]|split; [exact E|exact Logic.I]]. Qed.

Lemma refused l raw k v x : records l -> length k = 32 -> lookup l k = Some v ->
  urkel_verify H raw k (Some (ref_root H l)) = Ok x ->
  no_collision H (ref_msgs H l ++ verify_msgs H raw k) -> no_zero H (ref_msgs H l ++ verify_msgs H raw k) ->
  v_err x = None -> v_exists x = true /\ v_value x = v.
Proof.
  intros R Lk Lu E NC NZ N. destruct x as [e ex u]. cbn in N |- *. subst e.
  pose proof (C08_C09_sound H l raw k ex u H_len R Lk E NC NZ) as X. destruct ex.
  - split; [reflexivity|]. apply (find_lookup l k (proj1 R)) in X. congruence.
  - exfalso. apply (find_lookup l k (proj1 R)) in Lu. exact (X v Lu).
Qed.

Lemma answers_now d ts l tr : d_hash d = ref_root H l -> (l = [] \/ ref_root H l <> zero_hash) -> stands l tr -> vals_le 1023 tr ->
  (tr = PNull /\ m_node (st_state (d_store d)) = NNull \/
   tr <> PNull /\ exists w, m_node (st_state (d_store d)) = NHash (thash H tr) w /\ clipped H (st_rd (d_store d)) tr w) ->
  answers_clipped (mkworld (Some d) ts) l.
Proof.
  intros Eh Z St VL K. pose proof (create_current d l tr Eh Z St K) as Ec.
  split; [cbn [step w_db]; now rewrite Eh|]. split.
  - intros k Lk. unfold step. cbn [w_db w_txs]. unfold db_read. rewrite Ec. cbn [bind]. unfold tx_get, tx_has.
    rewrite (lookup_tget l tr k St Lk).
    assert (Q : forall want, tree_get (st_rd (d_store d)) TREE_FUEL (m_node (st_state (d_store d))) k 0 want =
      match tget 0 tr k with Some v => Ok (if want then clip v else []) | None => Fail ENOTFOUND end).
    { intros want. destruct K as [[-> ->]|(Nt & w & -> & D)]; [reflexivity|].
      destruct St as (_ & W & _). destruct W as [->|W]; [contradiction|].
      apply (get_clipped H H_len C C_len _ tr w [] TREE_FUEL k want D W (has_nil _) Lk). Local Transparent TREE_FUEL. unfold TREE_FUEL. Local Opaque TREE_FUEL. cbn [length]. lia. }
    rewrite !Q. destruct (tget 0 tr k) as [v|]; cbn [bind found present option_map]; auto.
  - intros k v Lk Lu. pose proof Lu as G. rewrite (lookup_tget l tr k St Lk) in G.
    destruct K as [[-> _]|(Nt & w & Em & D)]; [discriminate G|]. destruct St as (Rl & W & X). pose proof W as W0. destruct W as [->|W]; [contradiction|].
    destruct (prove_clipped H H_len C C_len _ tr w [] TREE_FUEL [] k v D W (has_nil _) Lk) as (ns & e & Et & Ep); auto.
    { Local Transparent TREE_FUEL. unfold TREE_FUEL. Local Opaque TREE_FUEL. cbn [length]. lia. }
    destruct (the_proof_ok H H_len tr k W0 VL Lk) as (O & Cl & raw0 & Ew0 & Ev0).
    unfold the_proof in O, Cl, Ew0. cbn [length] in Et. rewrite Et in O, Cl, Ew0.
    destruct (clip_proof _ v O Cl eq_refl (clip v)) as [O' Cl']. { pose proof (clip_len v). lia. }
    cbn [p_depth p_nodes] in O', Cl'. destruct (proof_size_ok _ O') as (raw & E1 & E2 & E3).
    exists raw. split.
    { unfold step. cbn [w_db w_txs]. unfold db_read. rewrite Ec. cbn [bind]. unfold tx_prove. rewrite Em.
      cbn [length] in Ep. rewrite Ep. cbn [app]. rewrite E2, E1. cbn [bind]. rewrite Nat.eqb_refl. reflexivity. }
    split.
    + intros L. rewrite (clip_short v L) in E1. rewrite E1 in Ew0. apply Ok_inj in Ew0. subst raw0.
      destruct (stands_root H H_len l tr (conj Rl (conj W0 X))) as [-> _]. rewrite Ev0, G. reflexivity.
    + intros L NC NZ. destruct (C10_verifier_total H H_len raw k (Some (ref_root H l)) Lk) as (x & Ex & _ & F & _).
      destruct (v_err x) as [er|] eqn:Ee.
      * destruct F as [F1 F2]; [discriminate|]. exists er. rewrite Ex. destruct x as [e1 e2 e3]. cbn in Ee, F1, F2. congruence.
      * exfalso. destruct (refused l raw k v x Rl Lk Lu Ex NC NZ Ee) as [A B].
        assert (Pr : proof_read raw = Ok (Some (mkproof e ns (TExists (clip v))))) by (apply proof_roundtrip; auto).
        unfold urkel_verify in Ex. rewrite Pr in Ex. cbn [bind] in Ex.
        destruct (proof_verify H (mkproof e ns (TExists (clip v))) k (ref_root H l)) as [u|eu| | |]; try discriminate Ex; apply Ok_inj in Ex; subst x.
        { cbn in B. exact (clip_cut v L B). }
        { discriminate Ee. }
Qed.

Lemma insert_long d sp D V hist W k v a d' :
  simdb H C d sp D V hist W -> collision_free H sp -> length k = 32 -> length v <= 1023 ->
  db_write H C (fun d n => tx_insert H d n k v) d = Ok (a, d') -> a = AOk ->
  let l := put (s_cur sp) k v in
  d_hash d' = ref_root H l /\ exists tr, stands l tr /\ vals_le 1023 tr /\
    (tr = PNull /\ m_node (st_state (d_store d')) = NNull \/
     tr <> PNull /\ exists w, m_node (st_state (d_store d')) = NHash (thash H tr) w /\ clipped H (st_rd (d_store d')) tr w).
Proof.
  intros S CF Lk Lv. destruct (tx_create_ok H H_len C C_len d sp D hist None (simdb_rdb _ _ _ _ _ _ _ _ S) CF) as (r & d1 & E1 & S1' & Sd & M).
  pose proof (rdb_simdb _ _ _ _ _ _ _ _ _ _ S Sd S1' eq_refl eq_refl) as S'.
  unfold db_write. rewrite E1. cbn [bind]. cbn [seen] in M. destruct M as (n & -> & Hn).
  pose proof (create_young _ _ _ _ _ _ (simdb_rdb _ _ _ _ _ _ _ _ S) E1) as Y.
  destruct (tx_insert_ok H H_len C C_len d1 n (s_cur sp) k v Hn Lk Lv) as (n1 & Ei & Hn1). rewrite Ei. cbn [bind].
  pose proof (tx_insert_young d1 n k v AOk n1 Y Ei) as Y1. intros E Ea. subst a.
  destruct (tx_commit H C d1 n1) as [[[a2 d2] t]| | | |] eqn:Et; cbn [bind] in E; try discriminate E.
  assert (A2 : a2 = AOk /\ d2 = d').
  { destruct t; try discriminate E. apply Ok_inj in E. injection E as -> ->. auto. }
  destruct A2 as [-> ->]. exact (long_core d1 sp D V hist W n1 _ AOk d' t S' Hn1 Y1 Et eq_refl).
Qed.

(** ** In every execution all live transactions are young. *)
Lemma hash_young rd n : forall h n', young H rd n -> node_hash H n = Ok (h, n') -> young H rd n'.
Proof.
  induction n as [|h w p l IHl r IHr|h w k v vp|h w]; intros h0 n' Y E.
  - apply Ok_inj in E. injection E as _ <-. exact Logic.I.
  - cbn [node_hash] in E. destruct h as [h|]; [apply Ok_inj in E; injection E as _ <-; exact Y|]. destruct Y as (Yw & Yl & Yr).
    destruct (node_hash H l) as [[lh l']| | | |] eqn:El; cbn [bind] in E; try discriminate E.
    destruct (node_hash H r) as [[rh r']| | | |] eqn:Er; cbn [bind] in E; try discriminate E.
    apply Ok_inj in E. injection E as _ <-. cbn [young]. split; [exact Yw|]. split; [eapply IHl|eapply IHr]; eauto.
  - cbn [node_hash] in E. destruct h as [h|]; [apply Ok_inj in E; injection E as _ <-; exact Y|].
    destruct v as [v|]; [|discriminate E]. apply Ok_inj in E. injection E as _ <-. exact Y.
  - apply Ok_inj in E. injection E as _ <-. exact Y.
Qed.
Lemma remove_young rd key fuel : forall n depth n', young H rd n -> tree_remove rd fuel n key depth = Ok n' -> young H rd n'.
Proof.
  induction fuel as [|fuel IH]; intros n depth n' Y E; [discriminate E|]. cbn [tree_remove] in E.
  destruct n as [|h w p l r|h w k v vp|h w].
  - discriminate E.
  - destruct Y as (Yw & Yl & Yr). destruct (bits_has p key depth) as [m| | | |]; cbn [bind] in E; try discriminate E.
    destruct (negb m); [discriminate E|]. cbv zeta in E.
    destruct (get_bit key (depth + bsize p)) as [bit| | | |]; cbn [bind] in E; try discriminate E.
    destruct (tree_remove rd fuel (child l r bit) key (depth + bsize p + 1)) as [z| | | |] eqn:Ez; cbn [bind] in E; try discriminate E.
    assert (Yz : young H rd z) by (eapply IH; [|exact Ez]; apply child_young; assumption).
    assert (Yy : young H rd (child l r (negb bit))) by (apply child_young; assumption).
    assert (Side : forall side, (match child l r (negb bit) with
        | NHash h w => let! s := resolve rd h w in match s with None => Abort | Some s => Ok s end
        | _ => Ok (child l r (negb bit)) end) = Ok side -> young H rd side).
    { intros side Es. destruct (child l r (negb bit)) as [|h1 w1 p1 l1 r1|h1 w1 k1 v1 vp1|h1 w1]; try (apply Ok_inj in Es; subst side; exact Yy).
      destruct (resolve rd h1 w1) as [[s|]| | | |] eqn:Er; cbn [bind] in Es; try discriminate Es. apply Ok_inj in Es. subst side.
      eapply (resolve_young H H_len C C_len); [exact Yy|exact Er]. }
    assert (Rest : Ok (create_internal p z (child l r (negb bit)) bit) = Ok n' -> young H rd n').
    { intros Q. apply Ok_inj in Q. subst n'. apply internal_young; assumption. }
    destruct z as [|zh zw zp zl zr|zh zw zk zv zvp|zh zw]; try exact (Rest E).
    revert E Side. generalize (match child l r (negb bit) with
        | NHash h w => let! s := resolve rd h w in match s with None => Abort | Some s => Ok s end
        | _ => Ok (child l r (negb bit)) end). intros [side| | | |] E Side; cbn [bind] in E; try discriminate E.
    specialize (Side side eq_refl). destruct side as [|sh sw q sl sr|sh sw sk sv svp|sh sw]; try (apply Ok_inj in E; subst n'; exact Side).
    destruct (bits_join p q (negb bit)) as [pre| | | |]; cbn [bind] in E; try discriminate E. apply Ok_inj in E. subst n'.
    destruct Side as (_ & S1 & S2). apply internal_young; assumption.
  - destruct (negb (bytes_eqb k key)); [discriminate E|]. apply Ok_inj in E. subst n'. exact Logic.I.
  - destruct (resolve rd h w) as [[rn|]| | | |] eqn:Er; cbn [bind] in E; try discriminate E.
    eapply IH; [|exact E]. eapply (resolve_young H H_len C C_len); [exact Y|exact Er].
Qed.
Lemma prove_young rd key fuel : forall acc n depth p n', young H rd n -> tree_prove H rd fuel acc n key depth = Ok (p, n') -> young H rd n'.
Proof.
  induction fuel as [|fuel IH]; intros acc n depth pr n' Y E; [discriminate E|]. cbn [tree_prove] in E.
  destruct n as [|h w p l r|h w k v vp|h w].
  - apply Ok_inj in E. injection E as _ <-. exact Y.
  - pose proof Y as (Yw & Yl & Yr). destruct (bits_has p key depth) as [m| | | |]; cbn [bind] in E; try discriminate E.
    destruct (negb m).
    + destruct (node_hash H l) as [[lh l']| | | |] eqn:El; cbn [bind] in E; try discriminate E.
      destruct (node_hash H r) as [[rh r']| | | |] eqn:Er; cbn [bind] in E; try discriminate E.
      apply Ok_inj in E. injection E as _ <-. cbn [young]. split; [exact Yw|]. split; [eapply hash_young; [exact Yl|exact El]|eapply hash_young; [exact Yr|exact Er]].
    + cbv zeta in E. destruct (get_bit key (depth + bsize p)) as [bit| | | |]; cbn [bind] in E; try discriminate E.
      destruct (node_hash H (child l r (negb bit))) as [[yh y]| | | |] eqn:Ey; cbn [bind] in E; try discriminate E.
      destruct (proof_push acc p yh) as [acc'| | | |]; cbn [bind] in E; try discriminate E.
      destruct (tree_prove H rd fuel acc' (child l r bit) key (depth + bsize p + 1)) as [[pr' x]| | | |] eqn:Ex; cbn [bind] in E; try discriminate E.
      assert (Yy : young H rd y) by (eapply hash_young; [|exact Ey]; apply child_young; assumption).
      assert (Yx : young H rd x) by (eapply IH; [|exact Ex]; apply child_young; assumption).
      apply Ok_inj in E. injection E as _ <-. destruct bit; cbn [young]; auto.
  - destruct (retrieve rd v vp) as [[x|]| | | |]; cbn [bind] in E; try discriminate E.
    destruct (bytes_eqb k key); apply Ok_inj in E; injection E as _ <-; exact Y.
  - destruct (resolve rd h w) as [[rn|]| | | |]; cbn [bind] in E; try discriminate E.
    destruct (tree_prove H rd fuel acc rn key depth) as [[pr' x]| | | |]; cbn [bind] in E; try discriminate E.
    apply Ok_inj in E. injection E as _ <-. exact Y.
Qed.

Definition fresh_tx (s : store) (t : txst) : Prop := match t with TLive n => young H (st_rd s) n | _ => True end.
Definition fresh_txs (w : world) : Prop := match w_db w with Some d => Forall (fresh_tx (d_store d)) (w_txs w) | None => True end.
Lemma fresh_mono s s' ts : rmono s s' -> Forall (fresh_tx s) ts -> Forall (fresh_tx s') ts.
Proof. intros M. apply Forall_impl. intros [n| |]; cbn [fresh_tx]; auto. apply young_mono. exact M. Qed.
Lemma fresh_upd s ts : forall i t, Forall (fresh_tx s) ts -> fresh_tx s t -> Forall (fresh_tx s) (upd ts i t).
Proof. induction ts as [|x ts IH]; intros i t F T; [exact F|]. inversion F; subst. destruct i; cbn [upd]; constructor; auto. Qed.
Lemma fresh_live d ts i n w : w_txs w = ts -> Forall (fresh_tx (d_store d)) ts -> live w i = Ok n -> young H (st_rd (d_store d)) n.
Proof.
  intros <- F. unfold live. destruct (Nat.lt_ge_cases i (length (w_txs w))) as [L|G].
  - rewrite Forall_forall in F. specialize (F _ (nth_In _ TDead L)). destruct (nth i (w_txs w) TDead) as [m| |]; intros E; try discriminate E.
    apply Ok_inj in E. subst m. exact F.
  - rewrite nth_overflow by exact G. discriminate.
Qed.
Lemma fresh_dead s (ts : list txst) : Forall (fresh_tx s) (map (fun _ => TDead) ts).
Proof. apply Forall_forall. intros t I. apply in_map_iff in I. destruct I as (x & <- & _). exact Logic.I. Qed.

Lemma state_young d sp D hist : rdb H C d sp D hist -> young H (st_rd (d_store d)) (m_node (st_state (d_store d))).
Proof.
  intros S. rewrite (si_node _ _ _ _ _ (rm_inv _ _ _ _ _ _ S)).
  destruct hist as [|[t w] r]; [exact Logic.I|]. assert (X : t <> PNull -> old H (st_rd (d_store d)) w) by (eapply hist_young; [exact S|now left]).
  destruct t; cbn [root_node young]; [exact Logic.I|apply X; discriminate..].
Qed.
Lemma create_young_any d sp D hist ro n d' : rdb H C d sp D hist -> tx_create H C d ro = Ok (Some n, d') -> young H (st_rd (d_store d')) n.
Proof.
  intros S. destruct ro as [h|]; [|apply create_young with (1 := S)]. unfold tx_create.
  destruct (read_history H C (d_store d) h) as [[[m|] s1]| | | |] eqn:Er; cbn [bind]; intros Q; try discriminate Q.
  apply Ok_inj in Q. injection Q as <- <-. eapply history_young; eassumption.
Qed.
Lemma write_mono d sp D V hist W w c (op : db -> node -> res (answer * node)) a d' :
  simdb H C d sp D V hist W -> collision_free H sp -> w_db w = Some d ->
  (forall d' n, holds H (d_store d') n (s_cur sp) -> forall a n', op d' n = Ok (a, n') -> a = AOk ->
     exists l, commits sp c = Some l /\ holds H (d_store d') n' l /\ can_commit sp l) ->
  db_write H C op d = Ok (a, d') -> rmono (d_store d) (d_store d').
Proof.
  intros S CF Ew P. destruct (tx_create_ok H H_len C C_len d sp D hist None (simdb_rdb _ _ _ _ _ _ _ _ S) CF) as (r & d1 & E1 & S1' & Sd & M).
  pose proof (rdb_simdb _ _ _ _ _ _ _ _ _ _ S Sd S1' eq_refl eq_refl) as S'. pose proof (same_rmono _ _ Sd) as Rm.
  unfold db_write. rewrite E1. cbn [bind]. cbn [seen] in M. destruct M as (n & -> & Hn).
  destruct (op d1 n) as [[a1 n1]| | | |] eqn:Eo; cbn [bind]; try discriminate.
  destruct a1; intros E; try (apply Ok_inj in E; injection E as <- <-; exact Rm).
  destruct (P d1 n Hn _ _ Eo eq_refl) as (l & _ & Hl & Cc).
  destruct (tx_commit_ok H H_len C C_len d1 sp D V hist W n1 l S' Hl Cc) as (a2 & d2 & t & E2 & Rm2 & _).
  rewrite E2 in E. cbn [bind] in E. destruct t; try discriminate E. apply Ok_inj in E. injection E as _ <-.
  eapply rmono_trans; eassumption.
Qed.

Lemma step_young key w sp c a w' : exec H C key w sp -> allowed H sp w c -> fresh_txs w -> step H C w c = Ok (a, w') -> fresh_txs w'.
Proof.
  intros X A Fr. destruct (exec_sim H H_len C C_len _ _ _ X) as (d & D & V & hist & W & Ew & _ & S & F). destruct A as [CF OK].
  unfold fresh_txs in Fr. rewrite Ew in Fr. pose proof (simdb_rdb _ _ _ _ _ _ _ _ S) as R.
  assert (Lv : forall i n, live w i = Ok n -> young H (st_rd (d_store d)) n) by (intros i n; eapply fresh_live; [reflexivity|exact Fr]).
  assert (Rd : forall ro r d', tx_create H C d ro = Ok (r, d') -> Forall (fresh_tx (d_store d')) (w_txs w)).
  { intros ro r d' E. destruct (tx_create_ok H H_len C C_len d sp D hist ro R CF) as (r1 & d1 & E1 & _ & Sd & _). rewrite E in E1. apply Ok_inj in E1. injection E1 as <- <-.
    eapply fresh_mono; [apply same_rmono, Sd|exact Fr]. }
  assert (RR : forall op ro a' d', db_read H C op d ro = Ok (a', d') -> Forall (fresh_tx (d_store d')) (w_txs w)).
  { intros op ro a' d'. unfold db_read. destruct (tx_create H C d ro) as [[r d1]| | | |] eqn:E; cbn [bind]; try discriminate.
    destruct r as [n|]; [destruct (op d1 n); cbn [bind]; try discriminate|]; intros Q; apply Ok_inj in Q; injection Q as _ <-; eapply Rd, E. }
  unfold step. rewrite Ew.
  destruct c as [|h|k ro|k ro|k v|k|k ro|ro|i|i|i|i h|i k|i k|i k v|i k|i k|i|]; cbn [call_ok] in OK.
  - intros E. apply Ok_inj in E. injection E as _ <-. unfold fresh_txs. rewrite Ew. exact Fr.
  - unfold db_inject. destruct (lookup_root H H_len C C_len _ _ _ _ h R CF) as (r & s' & E & _ & Sd & _). rewrite E. cbn [bind].
    destruct r; cbn [bind]; try discriminate. intros Q. apply Ok_inj in Q. injection Q as _ <-. cbn [fresh_txs w_db w_txs d_store].
    eapply fresh_mono; [apply same_rmono, Sd|exact Fr].
  - destruct (db_read H C _ d ro) as [[a' d']| | | |] eqn:E; cbn [bind]; intros Q; try discriminate Q. apply Ok_inj in Q. injection Q as _ <-. eapply RR, E.
  - destruct (db_read H C _ d ro) as [[a' d']| | | |] eqn:E; cbn [bind]; intros Q; try discriminate Q. apply Ok_inj in Q. injection Q as _ <-. eapply RR, E.
  - destruct OK as [Lk OK]. destruct (db_write H C _ d) as [[a' d']| | | |] eqn:E; cbn [bind]; intros Q; try discriminate Q. apply Ok_inj in Q. injection Q as _ <-.
    cbn [fresh_txs w_db w_txs]. eapply fresh_mono; [|exact Fr].
    eapply (write_mono d sp D V hist W w (CInsert k v)); [exact S|exact CF|exact Ew| |exact E]. cbv beta. intros d3 n Hn a3 n3 E3 ->.
    cbn [commits] in OK |- *. destruct (Nat.ltb_spec 1023 (length v)) as [L|L].
    { rewrite (tx_insert_long H H_len C C_len d3 n k v L) in E3. apply Ok_inj in E3. discriminate E3. }
    destruct (tx_insert_ok H H_len C C_len d3 n _ k v Hn Lk L) as (n4 & E4 & Hn4). rewrite E3 in E4. apply Ok_inj in E4. injection E4 as <-.
    eexists. split; [reflexivity|]. split; [exact Hn4|]. apply (OK _ eq_refl).
  - destruct OK as [Lk OK]. destruct (db_write H C _ d) as [[a' d']| | | |] eqn:E; cbn [bind]; intros Q; try discriminate Q. apply Ok_inj in Q. injection Q as _ <-.
    cbn [fresh_txs w_db w_txs]. eapply fresh_mono; [|exact Fr].
    eapply (write_mono d sp D V hist W w (CRemove k)); [exact S|exact CF|exact Ew| |exact E]. cbv beta. intros d3 n Hn a3 n3 E3 ->.
    pose proof (tx_remove_ok H H_len d3 n _ k Hn Lk) as Rk. cbn [commits] in OK |- *. destruct (lookup (s_cur sp) k) as [v|].
    + destruct Rk as (n4 & E4 & Hn4). rewrite E3 in E4. apply Ok_inj in E4. injection E4 as <-. eexists. split; [reflexivity|]. split; [exact Hn4|]. apply (OK _ eq_refl).
    + rewrite E3 in Rk. apply Ok_inj in Rk. discriminate Rk.
  - destruct (db_read H C _ d ro) as [[a' d']| | | |] eqn:E; cbn [bind]; intros Q; try discriminate Q. apply Ok_inj in Q. injection Q as _ <-. eapply RR, E.
  - destruct (tx_create H C d ro) as [[[n|] d']| | | |] eqn:E; cbn [bind]; intros Q; try discriminate Q; apply Ok_inj in Q; injection Q as _ <-; cbn [fresh_txs w_db w_txs].
    + apply Forall_app. split; [eapply Rd, E|]. constructor; [|constructor]. cbn [fresh_tx]. eapply create_young_any; [exact R|exact E].
    + eapply Rd, E.
  - destruct (live w i) as [n| | | |]; cbn [bind]; intros Q; try discriminate Q. apply Ok_inj in Q. injection Q as _ <-. cbn [fresh_txs put_tx w_db w_txs].
    apply fresh_upd; [exact Fr|exact Logic.I].
  - destruct (live w i) as [n| | | |]; cbn [bind]; intros Q; try discriminate Q. apply Ok_inj in Q. injection Q as _ <-. cbn [fresh_txs put_tx w_db w_txs].
    apply fresh_upd; [exact Fr|]. cbn [fresh_tx]. eapply state_young, R.
  - destruct (live w i) as [n| | | |] eqn:El; cbn [bind]; intros Q; try discriminate Q. unfold tx_root in Q.
    destruct (node_hash H n) as [[h n']| | | |] eqn:Eh; cbn [bind] in Q; try discriminate Q. apply Ok_inj in Q. injection Q as _ <-. cbn [fresh_txs put_tx w_db w_txs].
    apply fresh_upd; [exact Fr|]. cbn [fresh_tx]. eapply hash_young; [eapply Lv, El|exact Eh].
  - destruct (live w i) as [n| | | |] eqn:El; cbn [bind]; intros Q; try discriminate Q. unfold tx_inject in Q.
    destruct (lookup_root H H_len C C_len _ _ _ _ h R CF) as (r & s' & E & _ & Sd & _). rewrite E in Q. cbn [bind] in Q.
    pose proof (fresh_mono _ _ _ (same_rmono _ _ Sd) Fr) as Fr'.
    destruct r as [m|]; cbn [bind] in Q; apply Ok_inj in Q; injection Q as _ <-; cbn [fresh_txs put_tx w_db w_txs d_store with_store]; apply fresh_upd; auto; cbn [fresh_tx].
    + eapply history_young; [exact R|exact E].
    + eapply young_mono; [|eapply Lv, El]. apply same_rmono, Sd.
  - destruct (live w i) as [n| | | |]; cbn [bind]; intros Q; try discriminate Q. destruct (tx_get d n k); cbn [bind] in Q; try discriminate Q.
    apply Ok_inj in Q. injection Q as _ <-. unfold fresh_txs. rewrite Ew. exact Fr.
  - destruct (live w i) as [n| | | |]; cbn [bind]; intros Q; try discriminate Q. destruct (tx_has d n k); cbn [bind] in Q; try discriminate Q.
    apply Ok_inj in Q. injection Q as _ <-. unfold fresh_txs. rewrite Ew. exact Fr.
  - destruct (live w i) as [n| | | |] eqn:El; cbn [bind]; intros Q; try discriminate Q.
    destruct (tx_insert H d n k v) as [[a' n']| | | |] eqn:E; cbn [bind] in Q; try discriminate Q. apply Ok_inj in Q. injection Q as _ <-. cbn [fresh_txs put_tx w_db w_txs].
    apply fresh_upd; [exact Fr|]. cbn [fresh_tx]. eapply tx_insert_young; [eapply Lv, El|exact E].
  - destruct (live w i) as [n| | | |] eqn:El; cbn [bind]; intros Q; try discriminate Q.
    destruct (tx_remove d n k) as [[a' n']| | | |] eqn:E; cbn [bind] in Q; try discriminate Q. apply Ok_inj in Q. injection Q as _ <-. cbn [fresh_txs put_tx w_db w_txs].
    apply fresh_upd; [exact Fr|]. cbn [fresh_tx]. specialize (Lv _ _ El). revert E. unfold tx_remove.
    destruct (tree_remove (st_rd (d_store d)) TREE_FUEL n k 0) as [m| | | |] eqn:Et; intros E; try discriminate E; apply Ok_inj in E; injection E as _ <-; [|exact Lv].
    eapply remove_young; [exact Lv|exact Et].
  - destruct (live w i) as [n| | | |] eqn:El; cbn [bind]; intros Q; try discriminate Q.
    destruct (tx_prove H d n k) as [[a' n']| | | |] eqn:E; cbn [bind] in Q; try discriminate Q. apply Ok_inj in Q. injection Q as _ <-. cbn [fresh_txs put_tx w_db w_txs].
    apply fresh_upd; [exact Fr|]. cbn [fresh_tx]. specialize (Lv _ _ El). revert E. unfold tx_prove.
    destruct (tree_prove H (st_rd (d_store d)) TREE_FUEL [] n k 0) as [[p m]| | | |] eqn:Et; intros E; try discriminate E.
    2:{ apply Ok_inj in E; injection E as _ <-. exact Lv. }
    destruct (proof_size p) as [z| | | |]; cbn [bind] in E; try discriminate E. destruct (proof_write p) as [raw| | | |]; cbn [bind] in E; try discriminate E.
    destruct (length raw =? z); try discriminate E. apply Ok_inj in E. injection E as _ <-. eapply prove_young; [exact Lv|exact Et].
  - destruct OK as (l & Et & Cc). destruct (txs_live H w sp _ i l F Et) as (n & En & Hn). rewrite En. cbn [bind].
    destruct (tx_commit_ok H H_len C C_len d sp D V hist W n l S Hn Cc) as (a' & d2 & t & E3 & Rm2 & _ & _ & M). rewrite E3. cbn [bind].
    intros Q. apply Ok_inj in Q. injection Q as _ <-. cbn [fresh_txs put_tx w_db w_txs]. apply fresh_upd; [eapply fresh_mono; eassumption|].
    destruct M as [(-> & n2 & D' & W' & hist' & -> & Hn2 & S2 & Lg)|(-> & -> & _)]; [|exact Logic.I]. cbn [fresh_tx].
    pose proof (state_young _ _ _ _ (simdb_rdb _ _ _ _ _ _ _ _ S2)) as Y2.
    destruct Hn as (tr & Rn & St & VL). pose proof (simdb_rdb _ _ _ _ _ _ _ _ S) as R0.
    assert (Em : m_node (st_state (d_store d2)) = n2); [|rewrite Em in Y2; exact Y2].
    revert E3. unfold tx_commit. destruct (tree_commit H C (d_store d) n) as [[[n'|] s']| | | |] eqn:Ec; cbn [bind]; intros E3; try discriminate E3.
    apply Ok_inj in E3. injection E3 as <- <-. cbn [d_store].
    apply (long_commit H H_len C C_len (d_store d) V n tr n' s'); auto; [apply S|apply S|eapply Lv, En|apply St].
  - cbv zeta. destruct (db_open H C _ _ []) as [[d'|]| | | |]; cbn [bind]; intros Q; try discriminate Q; apply Ok_inj in Q; injection Q as _ <-; [apply fresh_dead|exact Logic.I].
Qed.
Lemma exec_young key w sp : exec H C key w sp -> fresh_txs w.
Proof.
  induction 1 as [d E|w sp c a w' X IH A E|w sp d io X IH Ew Ci|].
  - constructor.
  - eapply step_young; eassumption.
  - unfold fresh_txs in *. rewrite Ew in IH. cbn [w_db w_txs]. exact IH.
  - constructor.
Qed.
End P.

(** ** C18 for all accepted lengths: after an insertion of a value of up to 1023 bytes into a
    database that has gone through allowed calls only. *)
Theorem C18_long_values :
  forall (H : bytes -> bytes), (forall m, length (H m) = 32) ->
  forall (C : bytes -> bytes -> bytes), (forall k m, length (C k m) = 20) ->
  forall key w sp k v w', let l := put (s_cur sp) k v in
  exec H C key w sp -> length k = 32 -> length v <= 1023 -> collision_free H sp ->
  step H C w (CInsert k v) = Ok (AOk, w') -> ref_root H l <> repeat x00 32 ->
  answers_clipped H C w' l.
Proof.
  intros H HL C CL key w sp k v w' l X Lk Lv CF E Z.
  destruct (exec_sim H HL C CL _ _ _ X) as (d & D & V & hist & W & Ew & _ & S & _).
  revert E. unfold step. rewrite Ew. destruct (db_write H C _ d) as [[a d']| | | |] eqn:Ed; cbn [bind]; intros E; try discriminate E.
  apply Ok_inj in E. injection E as -> <-.
  destruct (insert_long H HL C CL d sp D V hist W k v AOk d' S CF Lk Lv Ed eq_refl) as (Eh & tr & St & VL & K).
  eapply answers_now; eauto.
Qed.

(** The same for the commit of a transaction into which any values of up to 1023 bytes were inserted. *)
Theorem C18_long_commit :
  forall (H : bytes -> bytes), (forall m, length (H m) = 32) ->
  forall (C : bytes -> bytes -> bytes), (forall k m, length (C k m) = 20) ->
  forall key w sp i l w',
  exec H C key w sp -> txat sp i = Some l ->
  step H C w (CTxCommit i) = Ok (AOk, w') -> (l = [] \/ ref_root H l <> repeat x00 32) ->
  answers_clipped H C w' l.
Proof.
  intros H HL C CL key w sp i l w' X Et E Z. pose proof (exec_young H HL C CL key w sp X) as Fr.
  destruct (exec_sim H HL C CL _ _ _ X) as (d & D & V & hist & W & Ew & _ & S & F).
  unfold fresh_txs in Fr. rewrite Ew in Fr. destruct (txs_live H w sp _ i l F Et) as (n & En & Hn).
  pose proof (fresh_live H d _ i n w eq_refl Fr En) as Y.
  revert E. unfold step. rewrite Ew, En. cbn [bind]. destruct (tx_commit H C d n) as [[[a d'] t]| | | |] eqn:Ed; cbn [bind]; intros E; try discriminate E.
  apply Ok_inj in E. injection E as -> <-.
  destruct (long_core H HL C CL d sp D V hist W n l AOk d' t S Hn Y Ed eq_refl) as (Eh & tr & St & VL & K).
  eapply answers_now; eauto.
Qed.

(** Nonvacuity: a transaction with a value of 300 and one of 100 bytes over a committed database. *)
Definition long_demo : list call := demo ++ [CTxInsert 2 kfoo v300].
Example C18_long_nonvacuous : exec toy toyC dkey (pw long_demo) (ps long_demo) /\ collision_free toy (ps long_demo) /\
  (exists l, txat (ps long_demo) 2 = Some l /\ In (kfoo, v300) l /\ ref_root toy l <> repeat x00 32) /\
  (exists w', step toy toyC (pw long_demo) (CTxCommit 2) = Ok (AOk, w')) /\
  (exists w', step toy toyC (pw long_demo) (CInsert kfoo v300) = Ok (AOk, w')) /\
  (exists e raw w1 w2, step toy toyC (pw long_demo) (CInsert kfoo v300) = Ok (AOk, w1) /\ step toy toyC w1 (CProve kfoo None) = Ok (AProof raw, w2) /\
     let l := put (s_cur (ps long_demo)) kfoo v300 in
     no_collision toy (ref_msgs toy l ++ verify_msgs toy raw kfoo) /\ no_zero toy (ref_msgs toy l ++ verify_msgs toy raw kfoo) /\
     urkel_verify toy raw kfoo (Some (ref_root toy l)) = Ok (mkverdict (Some e) false [])).
Proof.
  split; [apply exec_played; vm_compute; reflexivity|]. split; [apply collision_free_b_ok; vm_compute; reflexivity|]. split.
  { eexists. split; [vm_compute; reflexivity|]. split; [vm_compute; auto|]. vm_compute. discriminate. }
  split; [eexists; vm_compute; reflexivity|]. split; [eexists; vm_compute; reflexivity|].
  eexists _, _, _, _. split; [vm_compute; reflexivity|]. split; [vm_compute; reflexivity|]. cbv zeta.
  split; [apply nocoll_b_ok; vm_compute; reflexivity|]. split; [apply nozero_b_ok; vm_compute; reflexivity|]. vm_compute. reflexivity.
Qed.

Print Assumptions C18_long_values.
Print Assumptions C18_long_commit.
