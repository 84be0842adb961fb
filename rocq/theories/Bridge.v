(** * From record lists (Spec) to trees and back. *)
From Verif Require Export TreeFacts.
From Coq Require Import ZifyBool ZifyNat ZifyN.

Lemma tins_wft t k v : wft t -> length k = 32 ->
  wft (tins 0 k v t) /\
  forall k', length k' = 32 -> tget 0 (tins 0 k v t) k' = if bytes_eq_dec k k' then Some v else tget 0 t k'.
Proof.
  intros [->|W] L.
  - split.
    + right. cbn. split; [exact L|apply has_nil].
    + intros k' _. cbn. reflexivity.
  - destruct (tins_spec [] t W k v (has_nil k) L) as [W' G]. split; [right; exact W'|].
    intros k' L'. apply (G k' (has_nil k') L').
Qed.

Lemma trem_wft t k : wft t -> length k = 32 ->
  match trem 0 k t with
  | Some t' => tget 0 t k <> None /\ wft t' /\
    forall k', length k' = 32 -> tget 0 t' k' = if bytes_eq_dec k k' then None else tget 0 t k'
  | None => tget 0 t k = None
  end.
Proof.
  intros [->|W] L; [reflexivity|].
  pose proof (trem_none [] t W k (has_nil k) L) as N. cbn [length] in N.
  destruct (trem 0 k t) as [t'|] eqn:E; [|tauto].
  destruct (trem_spec [] t W k t' (has_nil k) L E) as [W' G].
  split; [intros X; apply N in X; discriminate X|]. split; [exact W'|].
  intros k' L'. apply (G k' (has_nil k') L').
Qed.

Lemma tget_len t k v : wft t -> length k = 32 -> tget 0 t k = Some v -> In (k, v) (elems t).
Proof. intros W L. apply wft_get_in; auto. Qed.

(** Distinct 32-byte keys. *)
Lemma tree_of l : records l -> exists t, wft t /\ forall x, In x l <-> In x (elems t).
Proof.
  induction l as [|[k v] l IH]; intros [ND F].
  - exists PNull. split; [left; reflexivity|]. intros x. cbn. tauto.
  - cbn [map fst] in ND. inversion ND as [|? ? Nk ND']; subst. inversion F as [|? ? Lk F']; subst.
    cbn [fst] in Lk. destruct (IH (conj ND' F')) as (t & W & E).
    destruct (tins_wft t k v W Lk) as [W' G]. exists (tins 0 k v t). split; [exact W'|].
    intros [k' v']. assert (Q : length k' = 32 -> (In (k', v') ((k, v) :: l) <-> In (k', v') (elems (tins 0 k v t)))).
    { intros L'. rewrite <- (wft_get_in _ W') by assumption. rewrite G by assumption.
      destruct (bytes_eq_dec k k') as [->|N].
      - cbn [In]. split.
        + intros [X|X]; [congruence|]. exfalso. apply Nk. apply in_map_iff. exists (k', v'). auto.
        + intros X. left. congruence.
      - rewrite (wft_get_in _ W) by assumption. rewrite <- E. cbn [In]. split; [intros [X|X]; congruence|tauto]. }
    destruct (Nat.eq_dec (length k') 32) as [L'|L']; [auto|]. split; intros I; exfalso; apply L'.
    + destruct I as [X|X]; [congruence|]. rewrite Forall_forall in F'. apply (F' _ X).
    + eapply wft_elems_len; eauto.
Qed.

Lemma elems_records t : wft t -> records (elems t).
Proof.
  intros W. split.
  - apply sorted_nodup. apply wft_sorted. exact W.
  - apply Forall_forall. intros [k v] I. cbn. eapply wft_elems_len; eauto.
Qed.

Lemma ref_root_tree H l t : (forall m, length (H m) = 32) -> records l -> wft t -> (forall x, In x l <-> In x (elems t)) ->
  ref_root H l = thash H t /\ ref_msgs H l = msgs H t.
Proof. intros HL [ND _] W E. apply ref_root_spec; auto. Qed.

Lemma lcp_common2 a b : lcp a b = length (common2 a b).
Proof.
  revert b; induction a as [|x a IH]; intros [|y b]; cbn; auto.
  destruct (Bool.eqb x y); cbn; auto.
Qed.

(** ** The messages hashed by the verifier are all it depends on. *)
Section Dep.
Variables H H' : bytes -> bytes.

Lemma top_dep nodes key : forall d leaf,
  (forall m, In m (top_msgs H nodes key d leaf) -> H' m = H m) ->
  top H' nodes key d leaf = top H nodes key d leaf.
Proof.
  induction nodes as [|[p h] ns IH]; intros d leaf A; [reflexivity|]. cbn [top top_msgs] in *.
  rewrite IH by (intros m I; apply A; right; exact I).
  unfold hash_internal in *. destruct (kbit key (d + bsize p)); apply A; left; reflexivity.
Qed.

Lemma tail_dep t key : (forall m, In m (tail_msgs H t key) -> H' m = H m) ->
  tail_hash H' t key = tail_hash H t key.
Proof.
  intros A. destruct t as [|q l r|k h|v]; cbn [tail_hash tail_msgs] in *; auto.
  - apply A. left. reflexivity.
  - apply A. left. reflexivity.
  - unfold hash_value, hash_leaf. rewrite (A v) by (left; reflexivity). apply A. right. left. reflexivity.
Qed.

(** The control flow of the loop does not depend on the hash function. *)
Lemma loop_shape nodes key : forall n n' d,
  match verify_loop H nodes key n d, verify_loop H' nodes key n' d with
  | Ok (_, a), Ok (_, b) => a = b
  | Fail e, Fail e' => e = e'
  | Abort, Abort | UB, UB | NoFuel, NoFuel => True
  | _, _ => False
  end.
Proof.
  induction nodes as [|[p h] ns IH]; intros n n' d; cbn [verify_loop]; [reflexivity|].
  destruct (d <? bsize p + 1); [reflexivity|].
  destruct (get_bit key (d - 1)) as [b|e| | |]; cbn [bind]; auto.
  destruct (bits_has p key (d - 1 - bsize p)) as [m|e| | |]; cbn [bind]; auto.
  destruct m; cbn [negb]; [apply IH|reflexivity].
Qed.

Lemma verify_dep raw key root : length key = 32 ->
  (forall m, length (H m) = 32) -> (forall m, length (H' m) = 32) ->
  (forall m, In m (verify_msgs H raw key) -> H' m = H m) ->
  urkel_verify H' raw key (Some root) = urkel_verify H raw key (Some root).
Proof.
  intros Lk HL HL' A. unfold urkel_verify, verify_msgs in *.
  destruct (proof_read_total raw) as (r & E & R). rewrite E in *. cbn [bind]. destruct r as [p|]; [|reflexivity].
  destruct (R p eq_refl) as [O C]. unfold proof_msgs in A.
  assert (T : tail_hash H' (p_tail p) key = tail_hash H (p_tail p) key).
  { apply tail_dep. intros m I. apply A. apply in_or_app; auto. }
  assert (V : proof_verify H' p key root = proof_verify H p key root).
  { unfold proof_verify. rewrite ok_sane by exact O. cbn [negb].
    assert (LF : verify_leaf H' p key = verify_leaf H p key).
    { unfold verify_leaf. destruct (p_tail p) as [|q l r|k h|v]; cbn [tail_hash] in T; auto.
      - destruct (bits_has q key (p_depth p)) as [[]|e| | |]; cbn [bind]; congruence.
      - destruct (bytes_eqb k key); congruence.
      - congruence. }
    rewrite LF. destruct (verify_leaf_spec H p key O Lk) as [Fit|q l r Et P|h Et]; cbn [bind]; auto.
    pose proof O as (D & Ln & F & _).
    set (leaf := tail_hash H (p_tail p) key) in *.
    pose proof (loop_shape (rev (p_nodes p)) key leaf leaf (p_depth p)) as SH.
    pose proof (verify_loop_spec H HL (p_nodes p) key leaf (p_depth p) Lk F D) as L1.
    pose proof (verify_loop_spec H' HL' (p_nodes p) key leaf (p_depth p) Lk F D) as L2.
    destruct (verify_loop H (rev (p_nodes p)) key leaf (p_depth p)) as [[n1 d1]|e1| | |];
    destruct (verify_loop H' (rev (p_nodes p)) key leaf (p_depth p)) as [[n2 d2]|e2| | |];
      try contradiction; cbn [bind]; [|congruence|reflexivity..].
    subst d2. inversion L1; subst. inversion L2; subst.
    destruct (Nat.eqb_spec d1 0) as [->|]; [|reflexivity]. cbn [negb].
    rewrite top_dep; [reflexivity|]. intros m I. apply A. apply in_or_app; auto. }
  rewrite V. reflexivity.
Qed.
End Dep.

Lemma verify_msgs_bound H raw key : length key = 32 -> length (verify_msgs H raw key) <= 258.
Proof.
  intros Lk. unfold verify_msgs. destruct (proof_read_total raw) as (r & E & R). rewrite E.
  destruct r as [p|]; [|cbn; lia]. destruct (R p eq_refl) as [(D & Ln & F & T) _].
  unfold proof_msgs. rewrite app_length.
  assert (X : forall ns d leaf, length (top_msgs H ns key d leaf) = length ns).
  { induction ns as [|[q h] ns IH]; intros; cbn [top_msgs length]; auto. }
  rewrite X. assert (length (tail_msgs H (p_tail p) key) <= 2) by (destruct (p_tail p); cbn; lia). lia.
Qed.
