(** * The verifier: totality, soundness, error codes, uniqueness. *)
From Verif Require Export ProofFacts.
From Coq Require Import ZifyBool ZifyNat ZifyN.

(** Number of key bits consumed by a list of proof nodes. *)
Fixpoint span (nodes : list (bits * bytes)) : nat :=
  match nodes with [] => 0 | (p, _) :: ns => bsize p + 1 + span ns end.

(** From the root down: every prefix lies on the key's path. *)
Fixpoint on_path (nodes : list (bits * bytes)) (key : bytes) (d : nat) : Prop :=
  match nodes with
  | [] => True
  | (p, _) :: ns =>
    is_prefix (bools p) (skipn d (kbits key)) = true /\ on_path ns key (d + bsize p + 1)
  end.

Section V.
Variable H : bytes -> bytes.
Hypothesis H_len : forall m, length (H m) = 32.

(** The hash of the node list from the root down, starting at key bit [d]. *)
Fixpoint top (nodes : list (bits * bytes)) (key : bytes) (d : nat) (leaf : bytes) : bytes :=
  match nodes with
  | [] => leaf
  | (p, h) :: ns =>
    let next := top ns key (d + bsize p + 1) leaf in
    if kbit key (d + bsize p) then hash_internal H p h next else hash_internal H p next h
  end.

(** The messages hashed by the node loop. *)
Fixpoint top_msgs (nodes : list (bits * bytes)) (key : bytes) (d : nat) (leaf : bytes) : list bytes :=
  match nodes with
  | [] => []
  | (p, h) :: ns =>
    let next := top ns key (d + bsize p + 1) leaf in
    (if kbit key (d + bsize p) then msg_internal p h next else msg_internal p next h)
    :: top_msgs ns key (d + bsize p + 1) leaf
  end.

Definition tail_msgs (t : ptail) (key : bytes) : list bytes :=
  match t with
  | TDeadend => []
  | TShort p l r => [msg_internal p l r]
  | TCollision k h => [msg_leaf k h]
  | TExists v => [v; msg_leaf key (H v)]
  end.

Definition tail_hash (t : ptail) (key : bytes) : bytes :=
  match t with
  | TDeadend => zero_hash
  | TShort p l r => hash_internal H p l r
  | TCollision k h => hash_leaf H k h
  | TExists v => hash_value H key v
  end.

(** The tail excludes / describes the key. *)
Definition tail_fits (t : ptail) (key : bytes) (depth : nat) : Prop :=
  match t with
  | TDeadend => True
  | TShort p _ _ => is_prefix (bools p) (skipn depth (kbits key)) = false
  | TCollision k _ => k <> key
  | TExists _ => True
  end.

(** Messages hashed when a proof is verified. *)
Definition proof_msgs (p : proof) (key : bytes) : list bytes :=
  tail_msgs (p_tail p) key ++ top_msgs (p_nodes p) key 0 (tail_hash (p_tail p) key).
(** The same for an encoded proof. *)
Definition verify_msgs (raw key : bytes) : list bytes :=
  match proof_read raw with Ok (Some p) => proof_msgs p key | _ => [] end.

Lemma verify_loop_app a b key next depth :
  verify_loop H (a ++ b) key next depth =
  let! (n, d) := verify_loop H a key next depth in verify_loop H b key n d.
Proof.
  revert next depth; induction a as [|[p h] a IH]; intros next depth; cbn [app verify_loop bind]; auto.
  destruct (depth <? bsize p + 1); [reflexivity|].
  destruct (get_bit key (depth - 1)) as [x| | | |]; cbn [bind]; auto.
  destruct (bits_has p key (depth - 1 - bsize p)) as [m| | | |]; cbn [bind]; auto.
  destruct (negb m); auto.
Qed.

(** One node. *)
Lemma verify_one p h key next depth : length key = 32 -> ok_bits p -> depth <= 256 ->
  verify_loop H [(p, h)] key next depth =
  if depth <? bsize p + 1 then Fail ENEGDEPTH else
  let d := depth - 1 - bsize p in
  if is_prefix (bools p) (skipn d (kbits key))
  then Ok (top [(p, h)] key d next, d)
  else Fail EPATHMISMATCH.
Proof.
  intros Lk O Ld. cbn [verify_loop]. destruct (Nat.ltb_spec depth (bsize p + 1)) as [X|G]; [reflexivity|].
  destruct (get_bit_ok key (depth - 1) ltac:(lia)) as (x & -> & Nx). cbn [bind].
  rewrite bits_has_spec by (auto; lia). cbn [bind].
  destruct (is_prefix _ _); cbn [negb]; [|reflexivity]. cbn [top].
  assert (E : kbit key (depth - 1 - bsize p + bsize p) = x).
  { unfold kbit. replace (depth - 1 - bsize p + bsize p) with (depth - 1) by lia.
    apply nth_error_nth. exact Nx. }
  rewrite E. destruct x; reflexivity.
Qed.

(** The bottom-up loop, described from the root down. *)
Inductive loop_result (nodes : list (bits * bytes)) (key next : bytes) (depth : nat)
  : res (bytes * nat) -> Prop :=
| LR_ok d : depth = d + span nodes -> on_path nodes key d ->
    loop_result nodes key next depth (Ok (top nodes key d next, d))
| LR_neg : depth < span nodes ->
    loop_result nodes key next depth (Fail ENEGDEPTH)
| LR_mis a p h b d : nodes = a ++ (p, h) :: b -> depth = d + span ((p, h) :: b) ->
    is_prefix (bools p) (skipn d (kbits key)) = false -> on_path b key (d + bsize p + 1) ->
    loop_result nodes key next depth (Fail EPATHMISMATCH).

Lemma verify_loop_spec nodes key next depth :
  length key = 32 -> Forall ok_node nodes -> depth <= 256 ->
  loop_result nodes key next depth (verify_loop H (rev nodes) key next depth).
Proof.
  intros Lk F Ld. induction F as [|[p h] ns [O Lh] F IH].
  - cbn. apply (LR_ok [] key next depth depth); cbn; auto.
  - cbn [rev]. rewrite verify_loop_app. cbn [fst] in O.
    inversion IH as [d Ed P Er|G Er|a q hq b d En Ed M P Er]; cbn [bind].
    + rewrite verify_one by (auto; lia).
      destruct (Nat.ltb_spec d (bsize p + 1)) as [X|G].
      * apply LR_neg. cbn [span]. lia.
      * cbv zeta. destruct (is_prefix (bools p) (skipn (d - 1 - bsize p) (kbits key))) eqn:E.
        -- replace (top [(p, h)] key (d - 1 - bsize p) (top ns key d next)) with
             (top ((p, h) :: ns) key (d - 1 - bsize p) next).
           2:{ cbn [top]. replace (d - 1 - bsize p + bsize p + 1) with d by lia. reflexivity. }
           apply LR_ok; cbn [span on_path]; [lia|]. split; auto.
           replace (d - 1 - bsize p + bsize p + 1) with d by lia. assumption.
        -- apply (LR_mis _ _ _ _ [] p h ns (d - 1 - bsize p)); auto; cbn [span]; [lia|].
           replace (d - 1 - bsize p + bsize p + 1) with d by lia. assumption.
    + apply LR_neg. cbn [span]. lia.
    + apply (LR_mis _ _ _ _ ((p, h) :: a) q hq b d); auto. rewrite En. reflexivity.
Qed.

Lemma ok_sane p : ok_proof p -> proof_is_sane p = true.
Proof.
  intros (D & Ln & F & T). unfold proof_is_sane, KEY_BITS, VALUE_SIZE.
  repeat (apply andb_true_iff; split); try (apply Nat.leb_le; assumption).
  - apply forallb_forall. intros n I. rewrite Forall_forall in F. destruct (F n I) as [[_ S] _].
    apply Nat.leb_le. exact S.
  - destruct (p_tail p) as [|q l r|k h|v]; auto.
    + destruct T as ([_ S] & Nz & _). apply andb_true_iff. split; [|apply Nat.leb_le; exact S].
      destruct (Nat.eqb_spec (bsize q) 0); [contradiction|reflexivity].
    + apply Nat.leb_le. exact T.
Qed.

Inductive leaf_result (p : proof) (key : bytes) : res bytes -> Prop :=
| LF_ok : tail_fits (p_tail p) key (p_depth p) -> leaf_result p key (Ok (tail_hash (p_tail p) key))
| LF_path q l r : p_tail p = TShort q l r ->
    is_prefix (bools q) (skipn (p_depth p) (kbits key)) = true -> leaf_result p key (Fail ESAMEPATH)
| LF_key h : p_tail p = TCollision key h -> leaf_result p key (Fail ESAMEKEY).

Lemma verify_leaf_spec p key : ok_proof p -> length key = 32 -> leaf_result p key (verify_leaf H p key).
Proof.
  intros (D & _ & _ & T) Lk. unfold verify_leaf. 
  destruct (p_tail p) as [|q l r|k h|v] eqn:E; cbn [ok_tail] in T.
  - replace zero_hash with (tail_hash (p_tail p) key) by (rewrite E; reflexivity).
    constructor. rewrite E. exact I.
  - rewrite bits_has_spec by tauto. cbn [bind].
    destruct (is_prefix _ _) eqn:P.
    + eapply LF_path; eauto.
    + replace (hash_internal H q l r) with (tail_hash (p_tail p) key) by (rewrite E; reflexivity).
      constructor. rewrite E. exact P.
  - destruct (bytes_eqb_spec k key) as [->|N].
    + eapply LF_key; eauto.
    + replace (hash_leaf H k h) with (tail_hash (p_tail p) key) by (rewrite E; reflexivity).
      constructor. rewrite E. exact N.
  - replace (hash_value H key v) with (tail_hash (p_tail p) key) by (rewrite E; reflexivity).
    constructor. rewrite E. exact I.
Qed.

(** Everything [proof_verify] can say about a decoded proof. *)
Inductive verify_result (p : proof) (key root : bytes) : res unit -> Prop :=
| VR_ok : tail_fits (p_tail p) key (p_depth p) -> p_depth p = span (p_nodes p) ->
    on_path (p_nodes p) key 0 -> top (p_nodes p) key 0 (tail_hash (p_tail p) key) = root ->
    verify_result p key root (Ok tt)
| VR_samepath q l r : p_tail p = TShort q l r ->
    is_prefix (bools q) (skipn (p_depth p) (kbits key)) = true -> verify_result p key root (Fail ESAMEPATH)
| VR_samekey h : p_tail p = TCollision key h -> verify_result p key root (Fail ESAMEKEY)
| VR_neg : p_depth p < span (p_nodes p) -> verify_result p key root (Fail ENEGDEPTH)
| VR_mismatch a q h b d : p_nodes p = a ++ (q, h) :: b -> p_depth p = d + span ((q, h) :: b) ->
    is_prefix (bools q) (skipn d (kbits key)) = false -> verify_result p key root (Fail EPATHMISMATCH)
| VR_deep : span (p_nodes p) < p_depth p -> verify_result p key root (Fail ETOODEEP)
| VR_hash : tail_fits (p_tail p) key (p_depth p) -> p_depth p = span (p_nodes p) ->
    on_path (p_nodes p) key 0 -> top (p_nodes p) key 0 (tail_hash (p_tail p) key) <> root ->
    verify_result p key root (Fail EHASHMISMATCH).

Lemma proof_verify_spec p key root : ok_proof p -> length key = 32 ->
  verify_result p key root (proof_verify H p key root).
Proof.
  intros O Lk. pose proof O as (D & Ln & F & T).
  unfold proof_verify. rewrite ok_sane by assumption. cbn [negb].
  destruct (verify_leaf_spec p key O Lk) as [Fit|q l r E P|h E]; cbn [bind].
  - destruct (verify_loop_spec (p_nodes p) key (tail_hash (p_tail p) key) (p_depth p) Lk F D)
      as [d Ed P|G|a q h b d En Ed M P]; cbn [bind].
    + destruct (Nat.eqb_spec d 0) as [->|Nd]; cbn [negb].
      * destruct (bytes_eqb_spec (top (p_nodes p) key 0 (tail_hash (p_tail p) key)) root) as [E|N]; cbn [negb].
        -- apply VR_ok; auto.
        -- apply VR_hash; auto.
      * apply VR_deep. lia.
    + apply VR_neg. assumption.
    + eapply VR_mismatch; eauto.
  - eapply VR_samepath; eauto.
  - eapply VR_samekey; eauto.
Qed.

Lemma top_len nodes key d leaf : length leaf = 32 -> length (top nodes key d leaf) = 32.
Proof. destruct nodes as [|[p h] ns]; cbn; auto. intros. destruct (kbit _ _); apply H_len. Qed.

Lemma tail_hash_len t key : length (tail_hash t key) = 32.
Proof. destruct t; cbn; [reflexivity|apply H_len..]. Qed.

(** ** Totality *)
Lemma urkel_verify_total raw key root : length key = 32 ->
  exists v, urkel_verify H raw key root = Ok v /\ length (v_value v) <= 1023 /\
    (v_err v <> None -> v_exists v = false /\ v_value v = []).
Proof.
  intros Lk. unfold urkel_verify. destruct root as [root|].
  2:{ eexists. split; [reflexivity|]. cbn. split; [lia|auto]. }
  destruct (proof_read_total raw) as (r & -> & R). cbn [bind]. destruct r as [p|].
  2:{ eexists. split; [reflexivity|]. cbn. split; [lia|auto]. }
  destruct (R p eq_refl) as [O C].
  destruct (proof_verify_spec p key root O Lk) as
    [Fit Ed P Er|q l r E P|h E|G|a q h b d En Ed M|G|Fit Ed P Er];
    try (eexists; split; [reflexivity|]; cbn; split; [lia|auto]; fail).
  destruct O as (_ & _ & _ & T).
  destruct (p_tail p); eexists; (split; [reflexivity|]); cbn [v_value v_err v_exists length];
    (split; [cbn [ok_tail] in T; lia || exact T|congruence]).
Qed.

(** ** Acceptance *)
Definition tail_answer (t : ptail) : option bytes := match t with TExists v => Some v | _ => None end.

Lemma urkel_verify_accept raw key root ex v : length key = 32 ->
  urkel_verify H raw key (Some root) = Ok (mkverdict None ex v) ->
  exists p, proof_read raw = Ok (Some p) /\ ok_proof p /\ clean_proof p /\
    tail_fits (p_tail p) key (p_depth p) /\ p_depth p = span (p_nodes p) /\
    on_path (p_nodes p) key 0 /\ top (p_nodes p) key 0 (tail_hash (p_tail p) key) = root /\
    tail_answer (p_tail p) = (if ex then Some v else None).
Proof.
  intros Lk. unfold urkel_verify.
  destruct (proof_read_total raw) as (r & -> & R). cbn [bind]. destruct r as [p|]; [|discriminate].
  destruct (R p eq_refl) as [O C].
  destruct (proof_verify_spec p key root O Lk) as
    [Fit Ed P Er|q l r E P|h E|G|a q h b d En Ed M|G|Fit Ed P Er]; try discriminate.
  intros E. exists p. do 7 (split; [auto|]).
  destruct (p_tail p); cbn [tail_answer]; injection E as <- <-; reflexivity.
Qed.

Lemma accept_urkel_verify raw key root p : length key = 32 -> proof_read raw = Ok (Some p) ->
  tail_fits (p_tail p) key (p_depth p) -> p_depth p = span (p_nodes p) ->
  on_path (p_nodes p) key 0 -> top (p_nodes p) key 0 (tail_hash (p_tail p) key) = root ->
  urkel_verify H raw key (Some root) =
  Ok (match tail_answer (p_tail p) with
      | Some v => mkverdict None true v | None => mkverdict None false [] end).
Proof.
  intros Lk E Fit Ed P Er. destruct (proof_read_total raw) as (r & E' & R).
  rewrite E in E'. apply Ok_inj in E'. subst r. destruct (R p eq_refl) as [O C].
  unfold urkel_verify. rewrite E. cbn [bind].
  assert (V : proof_verify H p key root = Ok tt).
  { unfold proof_verify. rewrite ok_sane by assumption. cbn [negb].
    destruct (verify_leaf_spec p key O Lk) as [_|q l r Et Pt|h Et]; cbn [bind].
    - pose proof O as (D & Ln & F & T).
      destruct (verify_loop_spec (p_nodes p) key (tail_hash (p_tail p) key) (p_depth p) Lk F D)
        as [d Ed' P'|G|a q h b d En Ed' M P']; cbn [bind].
      + assert (d = 0) by lia. subst d. cbn [Nat.eqb negb]. rewrite Er, bytes_eqb_refl. reflexivity.
      + lia.
      + exfalso. rewrite En in *. clear - P M Ed Ed'. 
        assert (Q : forall c d0, on_path (c ++ (q, h) :: b) key d0 ->
           is_prefix (bools q) (skipn (d0 + span c) (kbits key)) = true).
        { intros c. induction c as [|[x y] c IH]; intros d0; cbn [app on_path span].
          - rewrite Nat.add_0_r. tauto.
          - intros [_ K]. apply IH in K. replace (d0 + (bsize x + 1 + span c)) with (d0 + bsize x + 1 + span c) by lia. exact K. }
        assert (S : forall c e, span (c ++ e) = span c + span e).
        { intros c. induction c as [|[x y] c IH]; intros e; cbn [app span]; [reflexivity|]. rewrite IH. lia. }
        specialize (Q a 0 P). rewrite S in Ed. replace (0 + span a) with d in Q by lia. congruence.
    - exfalso. rewrite Et in Fit. cbn in Fit. congruence.
    - exfalso. rewrite Et in Fit. cbn in Fit. congruence. }
  rewrite V. destruct (p_tail p); reflexivity.
Qed.

(** ** Soundness *)
Lemma sound_at nodes : forall t path key tail depth,
  length key = 32 -> has path key -> wfn path t ->
  Forall ok_node nodes -> ok_tail tail -> tail_fits tail key depth ->
  depth = length path + span nodes -> on_path nodes key (length path) ->
  top nodes key (length path) (tail_hash tail key) = thash H t ->
  no_collision H (msgs H t ++ tail_msgs tail key ++ top_msgs nodes key (length path) (tail_hash tail key)) ->
  no_zero H (msgs H t ++ tail_msgs tail key ++ top_msgs nodes key (length path) (tail_hash tail key)) ->
  tget (length path) t key = tail_answer tail.
Proof.
  induction nodes as [|[p h] ns IH]; intros t path key tail depth Lk Hp W F OT Fit Ed P E NC NZ.
  - cbn [top span] in *. rewrite Nat.add_0_r in Ed. subst depth.
    destruct tail as [|q l r|k hh|v]; cbn [tail_hash tail_answer tail_fits ok_tail tail_msgs] in *.
    + exfalso. symmetry in E. revert E. eapply thash_nonzero; eauto.
      intros a I. apply NZ. apply in_or_app; auto.
    + destruct t as [|tk tv|pre tl tr]; [contradiction W| |].
      * exfalso. cbn in E. unfold hash_internal, hash_value, hash_leaf in E.
        apply NC in E; [|rewrite !in_app_iff; cbn; auto 10..]. apply msg_int_leaf in E. exact E.
      * cbn in E. unfold hash_internal in E. pose proof (wfn_pre_ok _ _ _ _ W) as Lp.
        apply NC in E; [|rewrite !in_app_iff; cbn; auto 10..].
        apply msg_internal_inj in E; auto using thash_len, wf_ok, of_bools_wf; try tauto.
        destruct E as (_ & _ & Eb & _). rewrite bools_of_bools in Eb by assumption.
        cbn [tget]. rewrite <- Eb, Fit. reflexivity.
    + destruct t as [|tk tv|pre tl tr]; [contradiction W| |].
      * cbn in E. unfold hash_value, hash_leaf in E.
        apply NC in E; [|rewrite !in_app_iff; cbn; auto 10..].
        destruct W as [Ltk _]. apply msg_leaf_inj in E; [|tauto|tauto].
        destruct E as [-> _]. cbn. destruct (bytes_eq_dec tk key); [contradiction|reflexivity].
      * exfalso. cbn in E. unfold hash_internal, hash_value, hash_leaf in E.
        apply NC in E; [|rewrite !in_app_iff; cbn; auto 10..]. symmetry in E. apply msg_int_leaf in E. exact E.
    + destruct t as [|tk tv|pre tl tr]; [contradiction W| |].
      * cbn in E. unfold hash_value, hash_leaf in E.
        apply NC in E; [|rewrite !in_app_iff; cbn; auto 10..].
        destruct W as [Ltk _]. apply msg_leaf_inj in E; [|tauto|tauto].
        destruct E as [-> E]. apply NC in E; [|rewrite !in_app_iff; cbn; auto 10..]. subst v.
        cbn. destruct (bytes_eq_dec tk tk); [reflexivity|contradiction].
      * exfalso. cbn in E. unfold hash_internal, hash_value, hash_leaf in E.
        apply NC in E; [|rewrite !in_app_iff; cbn; auto 10..]. symmetry in E. apply msg_int_leaf in E. exact E.
  - inversion F as [|? ? [O Lh] F']; subst. cbn [fst snd] in *. cbn [on_path] in P. destruct P as [P1 P2].
    cbn [span] in *.
    pose proof (top_len ns key (length path + bsize p + 1) (tail_hash tail key) (tail_hash_len _ _)) as Lt.
    set (nx := top ns key (length path + bsize p + 1) (tail_hash tail key)) in *.
    destruct t as [|tk tv|pre tl tr]; [contradiction W| |].
    + exfalso. cbn [top thash] in E. fold nx in E. unfold hash_internal, hash_value, hash_leaf in E.
      destruct (kbit key (length path + bsize p)) eqn:B.
      * apply NC in E; [|rewrite !in_app_iff; cbn [top_msgs]; fold nx; rewrite ?B; cbn; auto 10..]. apply msg_int_leaf in E. exact E.
      * apply NC in E; [|rewrite !in_app_iff; cbn [top_msgs]; fold nx; rewrite ?B; cbn; auto 10..]. apply msg_int_leaf in E. exact E.
    + pose proof (wfn_pre_ok _ _ _ _ W) as Lp. pose proof (wfn_int_len _ _ _ _ W) as Lpp.
      assert (Q : bools p = pre /\ nx = thash H (if kbit key (length path + bsize p) then tr else tl)).
      { cbn [top thash] in E. fold nx in E. unfold hash_internal in E.
        destruct (kbit key (length path + bsize p)) eqn:B.
        - apply NC in E; [|rewrite !in_app_iff; cbn [top_msgs]; fold nx; rewrite ?B; cbn; auto 10..].
          apply msg_internal_inj in E; auto using thash_len, wf_ok, of_bools_wf.
          destruct E as (_ & _ & Eb & _ & Er). rewrite bools_of_bools in Eb by assumption. auto.
        - apply NC in E; [|rewrite !in_app_iff; cbn [top_msgs]; fold nx; rewrite ?B; cbn; auto 10..].
          apply msg_internal_inj in E; auto using thash_len, wf_ok, of_bools_wf.
          destruct E as (_ & _ & Eb & El & _). rewrite bools_of_bools in Eb by assumption. auto. }
      destruct Q as [Eb En].
      assert (Sz : bsize p = length pre) by (rewrite <- Eb; symmetry; apply bools_length; assumption).
      rewrite Eb in P1.
      pose proof (step_has path pre key Hp Lk Lpp P1) as Hs.
      rewrite (tget_int_child _ _ _ _ _ _ Hs).
      assert (Ll : length path + bsize p + 1 = length (path ++ pre ++ [kbit key (length path + length pre)]))
        by (rewrite !app_length; cbn [length]; lia).
      rewrite Sz in En. rewrite Ll in P2.
      assert (incl (msgs H (if kbit key (length path + length pre) then tr else tl) ++ tail_msgs tail key ++
                    top_msgs ns key (length path + bsize p + 1) (tail_hash tail key))
                   (msgs H (PInt pre tl tr) ++ tail_msgs tail key ++
                    top_msgs ((p, h) :: ns) key (length path) (tail_hash tail key))) as IN.
      { intros x I. rewrite !in_app_iff in I. rewrite !in_app_iff. cbn [msgs top_msgs In]. rewrite in_app_iff.
        destruct (kbit key (length path + length pre)); tauto. }
      rewrite Ll in IN.
      eapply (IH _ _ key tail); eauto.
      * destruct W as [Wl Wr]. destruct (kbit key (length path + length pre)); assumption.
      * rewrite <- Ll. lia.
      * rewrite <- Ll. exact En.
      * eapply nocoll_incl; eauto.
      * eapply nozero_incl; eauto.
Qed.

Lemma sound t raw key ex v : wft t -> length key = 32 ->
  urkel_verify H raw key (Some (thash H t)) = Ok (mkverdict None ex v) ->
  no_collision H (msgs H t ++ verify_msgs raw key) ->
  no_zero H (msgs H t ++ verify_msgs raw key) ->
  tget 0 t key = if ex then Some v else None.
Proof.
  intros W Lk V NC NZ. destruct (urkel_verify_accept _ _ _ _ _ Lk V) as
    (p & ER & O & C & Fit & Ed & P & Er & Ea).
  rewrite <- Ea. unfold verify_msgs in NC, NZ. rewrite ER in NC, NZ. unfold proof_msgs in NC, NZ.
  pose proof O as (D & Ln & F & T).
  destruct W as [->|W].
  - cbn in *. destruct (p_nodes p) as [|[q h] ns] eqn:En.
    + cbn in Er. destruct (p_tail p) as [|q l r|k hh|u]; cbn [tail_hash tail_answer tail_msgs] in *; auto.
      exfalso. apply (NZ (msg_leaf key (H u))); [cbn; auto|]. exact Er.
    + exfalso. cbn [top] in Er. unfold hash_internal in Er. cbn [top_msgs] in NZ.
      destruct (kbit key (0 + bsize q)); eapply NZ; try exact Er; apply in_or_app; right; left; reflexivity.
  - apply (sound_at (p_nodes p) t [] key (p_tail p) (p_depth p)); auto using has_nil.
Qed.

(** ** Uniqueness of the decoded proof *)
Lemma clean_ext a b : ok_bits a -> ok_bits b -> clean a -> clean b ->
  bsize a = bsize b -> prefix_bytes a = prefix_bytes b -> a = b.
Proof.
  intros Oa Ob Ca Cb E1 E2. unfold clean in *. destruct a as [n d], b as [m e]. cbn [bsize bdata] in *.
  f_equal; auto. etransitivity; [exact Ca|]. etransitivity; [|symmetry; exact Cb]. rewrite E2, E1. reflexivity.
Qed.

Lemma is_prefix_ok a b key d : ok_bits a -> ok_bits b -> bools a = bools b ->
  is_prefix (bools a) (skipn d (kbits key)) = is_prefix (bools b) (skipn d (kbits key)).
Proof. congruence. Qed.

Lemma unique_at n1 : forall n2 key d t1 t2,
  length key = 32 -> Forall ok_node n1 -> Forall ok_node n2 ->
  Forall (fun n => clean (fst n)) n1 -> Forall (fun n => clean (fst n)) n2 ->
  ok_tail t1 -> ok_tail t2 -> clean_tail t1 -> clean_tail t2 ->
  tail_fits t1 key (d + span n1) -> tail_fits t2 key (d + span n2) ->
  on_path n1 key d -> on_path n2 key d ->
  top n1 key d (tail_hash t1 key) = top n2 key d (tail_hash t2 key) ->
  let ms := (tail_msgs t1 key ++ top_msgs n1 key d (tail_hash t1 key)) ++
            (tail_msgs t2 key ++ top_msgs n2 key d (tail_hash t2 key)) in
  no_collision H ms -> no_zero H ms -> n1 = n2 /\ t1 = t2.
Proof.
  induction n1 as [|[p1 h1] n1 IH]; intros [|[p2 h2] n2] key d t1 t2 Lk F1 F2 C1 C2 O1 O2 K1 K2 T1 T2 P1 P2 E ms NC NZ.
  - split; [reflexivity|]. cbn [span top top_msgs app] in *. rewrite Nat.add_0_r in *. subst ms. rewrite !app_nil_r in NC, NZ.
    destruct t1 as [|q1 l1 r1|k1 hh1|v1], t2 as [|q2 l2 r2|k2 hh2|v2];
      cbn [tail_hash tail_msgs ok_tail clean_tail tail_fits app] in *; auto;
      unfold hash_internal, hash_value, hash_leaf in E;
      try (exfalso; eapply NZ; [|first [exact E|symmetry; exact E]]; cbn; auto; fail);
      (apply NC in E; [|cbn; auto..]);
      try (exfalso; eapply msg_int_leaf; first [exact E|symmetry; exact E]; fail).
    + apply msg_internal_inj in E; try tauto. destruct E as (Es & Ep & _ & -> & ->).
      f_equal. apply clean_ext; tauto.
    + apply msg_leaf_inj in E; try tauto. destruct E as [-> ->]. reflexivity.
    + exfalso. apply msg_leaf_inj in E; try tauto; destruct E; congruence.
    + exfalso. apply msg_leaf_inj in E; try tauto; destruct E; congruence.
    + apply msg_leaf_inj in E; try tauto. destruct E as [_ E].
      apply NC in E; [|cbn; auto..]. subst. reflexivity.
  - exfalso. cbn [top top_msgs span] in *. inversion F2 as [|? ? [Op Lh] F2']; subst.
    pose proof (top_len n2 key (d + bsize p2 + 1) (tail_hash t2 key) (tail_hash_len _ _)) as Ln.
    set (nx := top n2 key (d + bsize p2 + 1) (tail_hash t2 key)) in *.
    set (m := if kbit key (d + bsize p2) then msg_internal p2 h2 nx else msg_internal p2 nx h2) in *.
    assert (Em : (if kbit key (d + bsize p2) then hash_internal H p2 h2 nx else hash_internal H p2 nx h2) = H m)
      by (unfold m, hash_internal; destruct (kbit key _); reflexivity).
    rewrite Em in E. cbn [fst snd] in *.
    assert (Im : In m ms) by (unfold ms; rewrite !in_app_iff; cbn; auto).
    destruct t1 as [|q1 l1 r1|k1 hh1|v1]; cbn [tail_hash tail_msgs ok_tail tail_fits] in *;
      unfold hash_internal, hash_value, hash_leaf in E.
    + eapply NZ; [exact Im|symmetry; exact E].
    + apply NC in E; [|unfold ms; cbn; auto|exact Im].
      assert (bools q1 = bools p2).
      { unfold m in E. destruct (kbit _ _); apply msg_internal_inj in E; tauto. }
      rewrite Nat.add_0_r in T1. destruct P2 as [P2 _]. congruence.
    + apply NC in E; [|unfold ms; cbn; auto|exact Im].
      unfold m in E. symmetry in E. destruct (kbit _ _); apply msg_int_leaf in E; exact E.
    + apply NC in E; [|unfold ms; cbn; auto|exact Im].
      unfold m in E. symmetry in E. destruct (kbit _ _); apply msg_int_leaf in E; exact E.
  - exfalso. cbn [top top_msgs span] in *. inversion F1 as [|? ? [Op Lh] F1']; subst.
    pose proof (top_len n1 key (d + bsize p1 + 1) (tail_hash t1 key) (tail_hash_len _ _)) as Ln.
    set (nx := top n1 key (d + bsize p1 + 1) (tail_hash t1 key)) in *.
    set (m := if kbit key (d + bsize p1) then msg_internal p1 h1 nx else msg_internal p1 nx h1) in *.
    assert (Em : (if kbit key (d + bsize p1) then hash_internal H p1 h1 nx else hash_internal H p1 nx h1) = H m)
      by (unfold m, hash_internal; destruct (kbit key _); reflexivity).
    rewrite Em in E. cbn [fst snd] in *.
    assert (Im : In m ms) by (unfold ms; rewrite !in_app_iff; cbn; auto).
    destruct t2 as [|q2 l2 r2|k2 hh2|v2]; cbn [tail_hash tail_msgs ok_tail tail_fits] in *;
      unfold hash_internal, hash_value, hash_leaf in E.
    + eapply NZ; [exact Im|exact E].
    + apply NC in E; [|exact Im|unfold ms; rewrite !in_app_iff; cbn; auto].
      assert (bools p1 = bools q2).
      { unfold m in E. destruct (kbit _ _); apply msg_internal_inj in E; tauto. }
      rewrite Nat.add_0_r in T2. destruct P1 as [P1 _]. congruence.
    + apply NC in E; [|exact Im|unfold ms; rewrite !in_app_iff; cbn; auto].
      unfold m in E. destruct (kbit _ _); apply msg_int_leaf in E; exact E.
    + apply NC in E; [|exact Im|unfold ms; rewrite !in_app_iff; cbn; auto].
      unfold m in E. destruct (kbit _ _); apply msg_int_leaf in E; exact E.
  - inversion F1 as [|? ? [Op1 Lh1] F1']; subst. inversion F2 as [|? ? [Op2 Lh2] F2']; subst.
    inversion C1 as [|? ? Cp1 C1']; subst. inversion C2 as [|? ? Cp2 C2']; subst.
    cbn [top top_msgs span on_path fst snd] in *. destruct P1 as [P1 P1'], P2 as [P2 P2'].
    pose proof (top_len n1 key (d + bsize p1 + 1) (tail_hash t1 key) (tail_hash_len _ _)) as Ln1.
    pose proof (top_len n2 key (d + bsize p2 + 1) (tail_hash t2 key) (tail_hash_len _ _)) as Ln2.
    set (nx1 := top n1 key (d + bsize p1 + 1) (tail_hash t1 key)) in *.
    set (nx2 := top n2 key (d + bsize p2 + 1) (tail_hash t2 key)) in *.
    set (m1 := if kbit key (d + bsize p1) then msg_internal p1 h1 nx1 else msg_internal p1 nx1 h1) in *.
    set (m2 := if kbit key (d + bsize p2) then msg_internal p2 h2 nx2 else msg_internal p2 nx2 h2) in *.
    assert (Em1 : (if kbit key (d + bsize p1) then hash_internal H p1 h1 nx1 else hash_internal H p1 nx1 h1) = H m1)
      by (unfold m1, hash_internal; destruct (kbit key (d + bsize p1)); reflexivity).
    assert (Em2 : (if kbit key (d + bsize p2) then hash_internal H p2 h2 nx2 else hash_internal H p2 nx2 h2) = H m2)
      by (unfold m2, hash_internal; destruct (kbit key (d + bsize p2)); reflexivity).
    rewrite Em1, Em2 in E.
    apply NC in E; [|unfold ms; rewrite !in_app_iff; cbn; auto..].
    assert (Q : bsize p1 = bsize p2 /\ prefix_bytes p1 = prefix_bytes p2 /\ h1 = h2 /\ nx1 = nx2).
    { assert (bsize p1 = bsize p2) as Es.
      { unfold m1, m2 in E. destruct (kbit key (d + bsize p1)), (kbit key (d + bsize p2));
          apply msg_internal_inj in E; tauto. }
      unfold m1, m2 in E. rewrite Es in E. destruct (kbit key (d + bsize p2));
        apply msg_internal_inj in E; try tauto; try (rewrite <- Es; tauto). }
    destruct Q as (Es & Ep & -> & En).
    assert (p1 = p2) by (apply clean_ext; auto). subst p2.
    destruct (IH n2 key (d + bsize p1 + 1) t1 t2) as [-> ->]; auto.
    + replace (d + bsize p1 + 1 + span n1) with (d + (bsize p1 + 1 + span n1)) by lia. exact T1.
    + replace (d + bsize p1 + 1 + span n2) with (d + (bsize p1 + 1 + span n2)) by lia. exact T2.
    + eapply nocoll_incl; [|exact NC]. unfold ms. intros x I. rewrite !in_app_iff in *. cbn [In]. tauto.
    + eapply nozero_incl; [|exact NZ]. unfold ms. intros x I. rewrite !in_app_iff in *. cbn [In]. tauto.
Qed.

Lemma unique raw1 raw2 key root e1 v1 e2 v2 : length key = 32 ->
  urkel_verify H raw1 key (Some root) = Ok (mkverdict None e1 v1) ->
  urkel_verify H raw2 key (Some root) = Ok (mkverdict None e2 v2) ->
  no_collision H (verify_msgs raw1 key ++ verify_msgs raw2 key) ->
  no_zero H (verify_msgs raw1 key ++ verify_msgs raw2 key) ->
  (exists p, proof_read raw1 = Ok (Some p) /\ proof_read raw2 = Ok (Some p)) /\
  (pad_bits raw1 = pad_bits raw2 -> raw1 = raw2).
Proof.
  intros Lk V1 V2 NC NZ.
  destruct (urkel_verify_accept _ _ _ _ _ Lk V1) as (p1 & R1 & O1 & C1 & T1 & D1 & P1 & E1 & A1).
  destruct (urkel_verify_accept _ _ _ _ _ Lk V2) as (p2 & R2 & O2 & C2 & T2 & D2 & P2 & E2 & A2).
  unfold verify_msgs in NC, NZ. rewrite R1, R2 in NC, NZ. unfold proof_msgs in NC, NZ.
  assert (Ep : p1 = p2).
  { destruct O1 as (_ & _ & F1 & OT1), O2 as (_ & _ & F2 & OT2), C1 as [CN1 CT1], C2 as [CN2 CT2].
    destruct (unique_at (p_nodes p1) (p_nodes p2) key 0 (p_tail p1) (p_tail p2)) as [En Et]; auto.
    - cbn. congruence.
    - cbn. congruence.
    - congruence.
    - destruct p1 as [d1 n1 t1], p2 as [d2 n2 t2]. cbn [p_depth p_nodes p_tail] in *. congruence. }
  subst p2. split; [eauto|]. intros Pad.
  destruct (proof_read_inv raw1) as [X|(q1 & Q1 & _ & _ & xn1 & xt1 & m1 & Wn1 & Wt1 & Er1 & L1 & K1)]; [congruence|].
  destruct (proof_read_inv raw2) as [X|(q2 & Q2 & _ & _ & xn2 & xt2 & m2 & Wn2 & Wt2 & Er2 & L2 & K2)]; [congruence|].
  assert (q1 = p1) by congruence. assert (q2 = p1) by congruence. subst q1 q2.
  assert (xn1 = xn2) by congruence. assert (xt1 = xt2) by congruence. subst xn2 xt2.
  assert (m1 = m2) by (apply kbits_inj; congruence). subst m2. congruence.
Qed.
End V.
