(** * get/insert/remove/prove refine the pure tree operations. *)
From Verif Require Export Tree VerifyFacts.
From Coq Require Import ZifyBool ZifyNat ZifyN.

(** The pure proof of a key. *)
Fixpoint tproof (H : bytes -> bytes) (d : nat) (t : ptree) (key : bytes) : list (bits * bytes) * nat * ptail :=
  match t with
  | PNull => ([], d, TDeadend)
  | PLeaf k v => ([], d, if bytes_eqb k key then TExists v else TCollision k (H v))
  | PInt pre l r =>
    if is_prefix pre (skipn d (kbits key)) then
      let bit := kbit key (d + length pre) in
      let '(ns, e, tl) := tproof H (d + length pre + 1) (if bit then r else l) key in
      ((of_bools pre, thash H (if bit then l else r)) :: ns, e, tl)
    else ([], d, TShort (of_bools pre) (thash H l) (thash H r))
  end.

Section T.
Variable H : bytes -> bytes.
Hypothesis H_len : forall m, length (H m) = 32.

(** ** Hashing *)
Lemma on_disk_nonnull rd t p : on_disk H rd t p -> t <> PNull.
Proof. destruct t; cbn; [tauto|discriminate..]. Qed.

Lemma node_hash_rep rd n : forall t, rep H rd n t ->
  exists n', node_hash H n = Ok (thash H t, n') /\ rep H rd n' t /\ hashed n' = Some (thash H t) /\
    written n' = written n.
Proof.
  induction n as [|h w p l IHl r IHr|h w k v vp|h w]; intros t R.
  - cbn in R. subst t. exists NNull. cbn. auto.
  - pose proof R as (pre & tl & tr & -> & Hh & Hw & -> & Rl & Rr).
    destruct h as [h|].
    + destruct Hh as [X|Hh]; [discriminate X|]. injection Hh as ->. eexists. split; [reflexivity|]. auto.
    + destruct (IHl _ Rl) as (l' & El & Rl' & _). destruct (IHr _ Rr) as (r' & Er & Rr' & _).
      cbn [node_hash]. rewrite El, Er. cbn [bind]. eexists. split; [reflexivity|]. cbn [hashed written].
      split; [|auto]. exists pre, tl, tr. repeat split; auto. right. reflexivity.
  - pose proof R as (x & -> & Hh & Hw & Hn & Hv). destruct h as [h|].
    + destruct Hh as [X|Hh]; [discriminate X|]. injection Hh as ->. eexists. split; [reflexivity|]. auto.
    + destruct Hv as [->|(_ & X & _)]; [|congruence]. eexists. split; [reflexivity|].
      cbn [hashed written]. split; [|auto]. exists x. repeat split; auto. right; reflexivity. now apply Hn.
  - pose proof R as (-> & D). eexists. split; [reflexivity|]. auto.
Qed.

(** ** Resolving *)
Lemma resolve_rep rd t w : on_disk H rd t w ->
  exists n, resolve rd (thash H t) w = Ok (Some n) /\ rep H rd n t /\
    (forall h' w', n <> NHash h' w') /\ n <> NNull.
Proof.
  intros D. unfold resolve, read_node.
  destruct t as [|k v|pre l r]; [contradiction D| |].
  - pose proof D as (P & raw & vp & E1 & E2 & E3 & E4).
    destruct P as (_ & _ & P). destruct (N.eqb_spec (psize w) 0) as [X|_]; [lia|].
    destruct (N.ltb_spec 113 (psize w)) as [X|_]; [lia|]. cbn [orb].
    rewrite E1, E2. cbn [bind set_ptr set_hash]. eexists. split; [reflexivity|].
    split; [|split; discriminate]. exists v. split; [reflexivity|]. split; [right; reflexivity|].
    split; [exact D|]. split; [discriminate|]. right. split; [reflexivity|]. split; [discriminate|]. eauto.
  - pose proof D as (P & raw & lp & rp & E1 & E2 & Dl & Dr).
    destruct P as (_ & _ & P). destruct (N.eqb_spec (psize w) 0) as [X|_]; [lia|].
    destruct (N.ltb_spec 113 (psize w)) as [X|_]; [lia|]. cbn [orb].
    rewrite E1, E2. cbn [bind set_ptr set_hash]. eexists. split; [reflexivity|].
    split; [|split; discriminate]. exists pre, l, r. split; [reflexivity|]. split; [right; reflexivity|].
    split; [exact D|]. split; [reflexivity|]. split; (split; [reflexivity|assumption]).
Qed.

Lemma retrieve_rep rd v vp x : length x <= 1023 ->
  (v = Some x \/ (v = None /\ exists q, vp = Some q /\ (psize q <= 1023)%N /\ rd q = Some x)) ->
  retrieve rd v vp = Ok (Some x).
Proof.
  intros L [->|(-> & q & -> & Lq & E)]; unfold retrieve.
  - unfold check, VALUE_SIZE. destruct (Nat.leb_spec (length x) 1023); [reflexivity|lia].
  - destruct (N.ltb_spec 1023 (psize q)); [lia|]. now rewrite E.
Qed.

Lemma vals_le_child n pre l r (b : bool) : vals_le n (PInt pre l r) -> vals_le n (if b then r else l).
Proof. intros V k v I. apply (V k v). cbn. apply in_or_app. destruct b; auto. Qed.

Lemma get_bit_kbit key i : i < 256 -> length key = 32 -> get_bit key i = Ok (kbit key i).
Proof.
  intros L Lk. destruct (get_bit_ok key i ltac:(lia)) as (x & -> & N). unfold kbit.
  f_equal. symmetry. now apply nth_error_nth.
Qed.

Lemma child_rep rd l r tl tr (b : bool) : rep H rd l tl -> rep H rd r tr ->
  rep H rd (child l r b) (if b then tr else tl).
Proof. destruct b; auto. Qed.

(** Reduction of every operation on hash nodes to the resolved node. *)
Definition not_hash (n : node) : Prop := forall h w, n <> NHash h w.

Lemma wfn_child path pre l r b : wfn path (PInt pre l r) -> wfn (path ++ pre ++ [b]) (if b then r else l).
Proof. intros [Wl Wr]. destruct b; assumption. Qed.

Lemma path_len (path pre : list bool) b : length (path ++ pre ++ [b]) = length path + length pre + 1.
Proof. rewrite !app_length. cbn [length]. lia. Qed.

Lemma get_rep rd t : forall n path fuel key want,
  rep H rd n t -> wfn path t -> vals_le 1023 t -> has path key -> length key = 32 ->
  2 * (257 - length path) <= fuel ->
  tree_get rd fuel n key (length path) want =
  match tget (length path) t key with
  | Some v => Ok (if want then v else [])
  | None => Fail ENOTFOUND
  end.
Proof.
  induction t as [|tk tv|pre tl IHl tr IHr]; intros n path fuel key want R W V Hp Lk F.
  - contradiction W.
  - pose proof (wfn_len _ _ W) as Lp.
    assert (Q : forall n fuel, not_hash n -> rep H rd n (PLeaf tk tv) -> 1 <= fuel ->
      tree_get rd fuel n key (length path) want =
      match tget (length path) (PLeaf tk tv) key with Some v => Ok (if want then v else []) | None => Fail ENOTFOUND end).
    { clear n fuel R F. intros n fuel NH R F. destruct fuel as [|fuel]; [lia|].
      destruct n as [|h w p l r|h w k v vp|h w]; cbn [rep] in R.
      - discriminate R.
      - destruct R as (? & ? & ? & X & _). discriminate X.
      - destruct R as (x & E & _ & _ & _ & Hv). injection E as <- <-. cbn [tree_get tget].
        destruct (bytes_eqb_spec tk key) as [->|N]; cbn [negb].
        + destruct (bytes_eq_dec key key) as [_|X]; [|contradiction].
          destruct want; [|reflexivity].
          rewrite (retrieve_rep rd v vp tv); [reflexivity| |tauto].
          apply (V key). cbn; auto.
        + destruct (bytes_eq_dec tk key) as [X|_]; [contradiction|reflexivity].
      - exfalso. eapply NH; reflexivity. }
    destruct n as [|h w p l r|h w k v vp|h w]; try (apply Q; [intros ? ?; discriminate|assumption|lia]).
    destruct R as [-> D]. destruct (resolve_rep rd _ _ D) as (n' & E & R' & NH & _).
    destruct fuel as [|fuel]; [lia|]. cbn [tree_get]. rewrite E. cbn [bind]. apply Q; auto; lia.
  - pose proof (wfn_int_len _ _ _ _ W) as Lp. pose proof (wfn_pre_ok _ _ _ _ W) as Lpre.
    assert (Q : forall n fuel, not_hash n -> rep H rd n (PInt pre tl tr) -> 2 * (257 - length path) <= S fuel ->
      tree_get rd fuel n key (length path) want =
      match tget (length path) (PInt pre tl tr) key with Some v => Ok (if want then v else []) | None => Fail ENOTFOUND end).
    { clear n fuel R F. intros n fuel NH R F. destruct fuel as [|fuel]; [lia|].
      destruct n as [|h w p l r|h w k v vp|h w]; cbn [rep] in R.
      - discriminate R.
      - destruct R as (pre' & tl' & tr' & E & _ & _ & -> & Rl & Rr). injection E as <- <- <-.
        cbn [tree_get].
        rewrite bits_has_spec by (auto using wf_ok, of_bools_wf; lia).
        rewrite bools_of_bools by assumption. cbn [bind].
        destruct (int_cases path pre key Hp Lk Lp) as [(b & Hb)|[E N]].
        + destruct (has_step _ _ _ _ Hb) as [E1 E2]. rewrite E1. cbn [negb].
          change (bsize (of_bools pre)) with (length pre).
          rewrite get_bit_kbit by (auto; lia). rewrite E2. cbn [bind].
          rewrite (tget_int_child _ _ _ _ _ _ Hb). rewrite <- path_len with (b := b).
          destruct b; cbn [child].
          * apply IHr; auto; try (apply (vals_le_child _ _ _ _ true V)); try (apply (wfn_child _ _ _ _ true W)).
            rewrite path_len. lia.
          * apply IHl; auto; try (apply (vals_le_child _ _ _ _ false V)); try (apply (wfn_child _ _ _ _ false W)).
            rewrite path_len. lia.
        + cbn [tget]. rewrite E. reflexivity.
      - destruct R as (x & E & _). discriminate E.
      - exfalso. eapply NH; reflexivity. }
    destruct n as [|h w p l r|h w k v vp|h w]; try (apply Q; [intros ? ?; discriminate|assumption|lia]).
    destruct R as [-> D]. destruct (resolve_rep rd _ _ D) as (n' & E & R' & NH & _).
    destruct fuel as [|fuel]; [lia|]. cbn [tree_get]. rewrite E. cbn [bind]. apply Q; auto; lia.
Qed.

Lemma get_root_rep rd n t key want :
  rep H rd n t -> wft t -> vals_le 1023 t -> length key = 32 ->
  tree_get rd TREE_FUEL n key 0 want =
  match tget 0 t key with Some v => Ok (if want then v else []) | None => Fail ENOTFOUND end.
Proof.
  intros R [->|W] V L.
  - assert (n = NNull).
    { destruct n as [|h w p l r|h w k v vp|h w]; cbn in R; auto.
      - destruct R as (? & ? & ? & X & _). discriminate X.
      - destruct R as (? & X & _). discriminate X.
      - destruct R as [_ []]. }
    subst n. reflexivity.
  - apply (get_rep rd t n [] TREE_FUEL key want); auto using has_nil. unfold TREE_FUEL. cbn [length]. lia.
Qed.

(** ** Insert *)
Lemma create_leaf_rep rd k v : rep H rd (create_leaf H k v) (PLeaf k v).
Proof.
  exists v. repeat split; auto. right; reflexivity.
Qed.

Lemma create_internal_rep rd pre x y tx ty (b : bool) :
  rep H rd x tx -> rep H rd y ty -> rep H rd (create_internal (of_bools pre) x y b) (mkint pre tx ty b).
Proof.
  intros Rx Ry. unfold create_internal, mkint.
  destruct b; [exists pre, ty, tx|exists pre, tx, ty]; repeat split; auto; left; reflexivity.
Qed.

Lemma tins_same path t : wfn path t -> forall k v, has path k -> length k = 32 ->
  tget (length path) t k = Some v -> tins (length path) k v t = t.
Proof.
  revert path; induction t as [|k0 v0|pre l IHl r IHr]; intros path W k v Hp L E.
  - contradiction W.
  - cbn in *. destruct (bytes_eq_dec k0 k) as [->|]; [|discriminate]. congruence.
  - pose proof (wfn_int_len _ _ _ _ W) as Lp.
    destruct (int_cases path pre k Hp L Lp) as [(b & Hb)|[E' _]].
    2:{ cbn in E. rewrite E' in E. discriminate. }
    rewrite (tget_int_child _ _ _ _ _ _ Hb) in E.
    destruct (has_step _ _ _ _ Hb) as [E1 E2]. cbn [tins]. rewrite lcp_full, E1.
    assert (Ec : lcp pre (skipn (length path) (kbits k)) = length pre)
      by (apply Nat.eqb_eq; rewrite lcp_full; exact E1).
    rewrite Ec, E2. rewrite <- path_len with (b := b). destruct W as [Wl Wr].
    destruct b; f_equal; [apply IHr|apply IHl]; auto.
Qed.

Lemma insert_rep rd t : forall n path fuel key value,
  rep H rd n t -> wfn path t -> has path key -> length key = 32 ->
  2 * (257 - length path) <= fuel ->
  (exists n', tree_insert H rd fuel n key value (length path) = Ok n' /\
              rep H rd n' (tins (length path) key value t)) \/
  (tree_insert H rd fuel n key value (length path) = Fail ENOUPDATE /\
   tget (length path) t key = Some value).
Proof.
  induction t as [|tk tv|pre tl IHl tr IHr]; intros n path fuel key value R W Hp Lk F.
  - contradiction W.
  - pose proof (wfn_len _ _ W) as Lp.
    assert (Q : forall n fuel, not_hash n -> rep H rd n (PLeaf tk tv) -> 1 <= fuel ->
      (exists n', tree_insert H rd fuel n key value (length path) = Ok n' /\
              rep H rd n' (tins (length path) key value (PLeaf tk tv))) \/
      (tree_insert H rd fuel n key value (length path) = Fail ENOUPDATE /\
       tget (length path) (PLeaf tk tv) key = Some value)).
    { clear n fuel R F. intros n fuel NH R F. destruct fuel as [|fuel]; [lia|].
      destruct n as [|h w p l r|h w k v vp|h w]; [discriminate R| | |exfalso; eapply NH; reflexivity].
      { destruct R as (? & ? & ? & X & _). discriminate X. }
      assert (k = tk) by (destruct R as (x & E & _); congruence). subst k.
      cbn [tree_insert tins tget].
      destruct (bytes_eqb_spec tk key) as [->|N].
      - destruct (bytes_eq_dec key key) as [_|X]; [|contradiction].
        destruct (value_equals v value) eqn:E.
        + right. split; [reflexivity|]. unfold value_equals in E. destruct v as [v|]; [|discriminate].
          destruct (bytes_eqb_spec v value) as [->|]; [|discriminate].
          destruct R as (x & Ex & _ & _ & _ & Hv). injection Ex as <-.
          destruct Hv as [Hv|[Hv _]]; congruence.
        + left. eexists. split; [reflexivity|]. apply create_leaf_rep.
      - destruct (bytes_eq_dec tk key) as [X|_]; [contradiction|]. left.
        destruct W as [Ltk Htk].
        rewrite bits_collide_spec by auto. cbn [bind].
        set (c := lcp (skipn (length path) (kbits tk)) (skipn (length path) (kbits key))).
        assert (Hc : length path + c < 256).
        { destruct (Nat.lt_ge_cases (length path + c) 256) as [G|G]; auto. exfalso. apply N.
          pose proof (has_skipn _ _ Hp) as E1. pose proof (has_skipn _ _ Htk) as E2.
          apply kbits_inj. rewrite E1, E2. f_equal.
          assert (L1 : length (skipn (length path) (kbits tk)) = 256 - length path)
            by (rewrite skipn_length, kbits_length; lia).
          assert (L2 : length (skipn (length path) (kbits key)) = 256 - length path)
            by (rewrite skipn_length, kbits_length; lia).
          assert (Ef : c =? length (skipn (length path) (kbits tk)) = true).
          { apply Nat.eqb_eq. pose proof (lcp_le_l (skipn (length path) (kbits tk)) (skipn (length path) (kbits key))). fold c in H0. lia. }
          unfold c in Ef. rewrite lcp_full in Ef. apply is_prefix_iff in Ef. destruct Ef as (s & Es).
          assert (s = []). { apply length_zero_iff_nil. apply (f_equal (@length bool)) in Es. rewrite app_length in Es. lia. }
          subst s. rewrite app_nil_r in Es. symmetry. exact Es. }
        change (bsize (of_bools ?x)) with (length x).
        assert (Lf : length (firstn c (skipn (length path) (kbits tk))) = c).
        { rewrite firstn_length, skipn_length, kbits_length. lia. }
        rewrite Lf.
        rewrite get_bit_kbit by auto. cbn [bind].
        eexists. split; [reflexivity|]. apply create_internal_rep; auto using create_leaf_rep. }
    destruct n as [|h w p l r|h w k v vp|h w]; try (apply Q; [intros ? ?; discriminate|assumption|lia]).
    destruct R as [-> D]. destruct (resolve_rep rd _ _ D) as (n' & E & R' & NH & _).
    destruct fuel as [|fuel]; [lia|]. cbn [tree_insert]. rewrite E. cbn [bind]. apply Q; auto; lia.
  - pose proof (wfn_int_len _ _ _ _ W) as Lp. pose proof (wfn_pre_ok _ _ _ _ W) as Lpre.
    assert (Q : forall n fuel, not_hash n -> rep H rd n (PInt pre tl tr) -> 2 * (257 - length path) <= S fuel ->
      (exists n', tree_insert H rd fuel n key value (length path) = Ok n' /\
              rep H rd n' (tins (length path) key value (PInt pre tl tr))) \/
      (tree_insert H rd fuel n key value (length path) = Fail ENOUPDATE /\
       tget (length path) (PInt pre tl tr) key = Some value)).
    { clear n fuel R F. intros n fuel NH R F. destruct fuel as [|fuel]; [lia|].
      destruct n as [|h w p l r|h w k v vp|h w]; [discriminate R| | |exfalso; eapply NH; reflexivity].
      2:{ destruct R as (x & E & _). discriminate E. }
      destruct R as (pre' & tl' & tr' & E & _ & _ & -> & Rl & Rr). injection E as <- <- <-.
      cbn [tree_insert tins].
      rewrite bits_count_spec by (auto using wf_ok, of_bools_wf; lia).
      rewrite bools_of_bools by assumption. cbn [bind].
      set (c := lcp pre (skipn (length path) (kbits key))).
      pose proof (lcp_le_l pre (skipn (length path) (kbits key))) as Lc. fold c in Lc.
      rewrite get_bit_kbit by (auto; lia). cbn [bind].
      change (bsize (of_bools pre)) with (length pre).
      destruct (Nat.eqb_spec c (length pre)) as [Ec|Nc]; cbn [negb].
      - assert (E1 : is_prefix pre (skipn (length path) (kbits key)) = true)
          by (rewrite <- lcp_full; apply Nat.eqb_eq; exact Ec).
        pose proof (step_has _ _ _ Hp Lk Lp E1) as Hb. rewrite Ec.
        set (b := kbit key (length path + length pre)) in *.
        rewrite <- path_len with (b := b).
        assert (IHb : 
          (exists n', tree_insert H rd fuel (child l r b) key value (length (path ++ pre ++ [b])) = Ok n' /\
             rep H rd n' (tins (length (path ++ pre ++ [b])) key value (if b then tr else tl))) \/
          (tree_insert H rd fuel (child l r b) key value (length (path ++ pre ++ [b])) = Fail ENOUPDATE /\
             tget (length (path ++ pre ++ [b])) (if b then tr else tl) key = Some value)).
        { pose proof (wfn_child _ _ _ _ b W) as Wb. assert (2 * (257 - length (path ++ pre ++ [b])) <= fuel) by (rewrite path_len; lia).
          destruct b; [apply IHr|apply IHl]; auto. }
        destruct IHb as [(n' & E & R')|[E Eg]]; rewrite E; cbn [bind].
        + left. eexists. split; [reflexivity|].
          assert (Ry : rep H rd (child l r (negb b)) (if b then tl else tr)) by (destruct b; assumption).
          pose proof (create_internal_rep rd pre _ _ _ _ b R' Ry) as RR. destruct b; exact RR.
        + right. split; [reflexivity|]. rewrite (tget_int_child _ _ _ _ _ _ Hb). exact Eg.
      - left. rewrite bits_split_spec.
        2: auto using wf_ok, of_bools_wf. 2: cbn [of_bools bsize]; lia.
        rewrite bools_of_bools by assumption. cbn [bind].
        eexists. split; [reflexivity|]. apply create_internal_rep; auto using create_leaf_rep.
        apply (create_internal_rep rd (skipn (S c) pre) l r tl tr false); auto. }
    destruct n as [|h w p l r|h w k v vp|h w]; try (apply Q; [intros ? ?; discriminate|assumption|lia]).
    destruct R as [-> D]. destruct (resolve_rep rd _ _ D) as (n' & E & R' & NH & _).
    destruct fuel as [|fuel]; [lia|]. cbn [tree_insert]. rewrite E. cbn [bind]. apply Q; auto; lia.
Qed.

Lemma rep_null rd n : rep H rd n PNull -> n = NNull.
Proof.
  destruct n as [|h w p l r|h w k v vp|h w]; cbn; auto; intros R.
  - destruct R as (? & ? & ? & X & _). discriminate X.
  - destruct R as (? & X & _). discriminate X.
  - destruct R as [_ []].
Qed.

Lemma insert_root_rep rd n t key value :
  rep H rd n t -> wft t -> length key = 32 ->
  (exists n', tree_insert H rd TREE_FUEL n key value 0 = Ok n' /\ rep H rd n' (tins 0 key value t)) \/
  (tree_insert H rd TREE_FUEL n key value 0 = Fail ENOUPDATE /\ tget 0 t key = Some value).
Proof.
  intros R [->|W] L.
  - apply rep_null in R. subst n. left. eexists. split; [reflexivity|]. apply create_leaf_rep.
  - apply (insert_rep rd t n []); auto using has_nil. unfold TREE_FUEL. cbn [length]. lia.
Qed.

(** ** Remove *)
Lemma rep_nonnull rd n t : rep H rd n t -> t <> PNull -> n <> NNull.
Proof. intros R N ->. cbn in R. contradiction. Qed.

Lemma remove_rep rd t : forall n path fuel key,
  rep H rd n t -> wfn path t -> has path key -> length key = 32 ->
  2 * (257 - length path) <= fuel ->
  match trem (length path) key t with
  | Some t' => exists n', tree_remove rd fuel n key (length path) = Ok n' /\ rep H rd n' t'
  | None => tree_remove rd fuel n key (length path) = Fail ENOTFOUND
  end.
Proof.
  induction t as [|tk tv|pre tl IHl tr IHr]; intros n path fuel key R W Hp Lk F.
  - contradiction W.
  - pose proof (wfn_len _ _ W) as Lp.
    assert (Q : forall n fuel, not_hash n -> rep H rd n (PLeaf tk tv) -> 1 <= fuel ->
      match trem (length path) key (PLeaf tk tv) with
      | Some t' => exists n', tree_remove rd fuel n key (length path) = Ok n' /\ rep H rd n' t'
      | None => tree_remove rd fuel n key (length path) = Fail ENOTFOUND
      end).
    { clear n fuel R F. intros n fuel NH R F. destruct fuel as [|fuel]; [lia|].
      destruct n as [|h w p l r|h w k v vp|h w]; [discriminate R| | |exfalso; eapply NH; reflexivity].
      { destruct R as (? & ? & ? & X & _). discriminate X. }
      assert (k = tk) by (destruct R as (x & E & _); congruence). subst k.
      cbn [tree_remove trem]. destruct (bytes_eqb_spec tk key) as [->|N]; cbn [negb].
      - destruct (bytes_eq_dec key key) as [_|X]; [|contradiction]. eexists. split; [reflexivity|]. reflexivity.
      - destruct (bytes_eq_dec tk key) as [X|_]; [contradiction|reflexivity]. }
    destruct n as [|h w p l r|h w k v vp|h w]; try (apply Q; [intros ? ?; discriminate|assumption|lia]).
    destruct R as [-> D]. destruct (resolve_rep rd _ _ D) as (n' & E & R' & NH & _).
    destruct fuel as [|fuel]; [lia|]. cbn [tree_remove]. rewrite E. cbn [bind]. apply Q; auto; lia.
  - pose proof (wfn_int_len _ _ _ _ W) as Lp. pose proof (wfn_pre_ok _ _ _ _ W) as Lpre.
    assert (Q : forall n fuel, not_hash n -> rep H rd n (PInt pre tl tr) -> 2 * (257 - length path) <= S fuel ->
      match trem (length path) key (PInt pre tl tr) with
      | Some t' => exists n', tree_remove rd fuel n key (length path) = Ok n' /\ rep H rd n' t'
      | None => tree_remove rd fuel n key (length path) = Fail ENOTFOUND
      end).
    { clear n fuel R F. intros n fuel NH R F. destruct fuel as [|fuel]; [lia|].
      destruct n as [|h w p l r|h w k v vp|h w]; [discriminate R| | |exfalso; eapply NH; reflexivity].
      2:{ destruct R as (x & E & _). discriminate E. }
      destruct R as (pre' & tl' & tr' & E & _ & _ & -> & Rl & Rr). injection E as <- <- <-.
      cbn [tree_remove trem].
      rewrite bits_has_spec by (auto using wf_ok, of_bools_wf; lia).
      rewrite bools_of_bools by assumption. cbn [bind].
      destruct (is_prefix pre (skipn (length path) (kbits key))) eqn:E1; cbn [negb]; [|reflexivity].
      change (bsize (of_bools pre)) with (length pre).
      rewrite get_bit_kbit by (auto; lia). cbn [bind].
      pose proof (step_has _ _ _ Hp Lk Lp E1) as Hb.
      set (b := kbit key (length path + length pre)) in *.
      rewrite <- path_len with (b := b).
      assert (IHb : match trem (length (path ++ pre ++ [b])) key (if b then tr else tl) with
         | Some t' => exists n', tree_remove rd fuel (child l r b) key (length (path ++ pre ++ [b])) = Ok n' /\ rep H rd n' t'
         | None => tree_remove rd fuel (child l r b) key (length (path ++ pre ++ [b])) = Fail ENOTFOUND
         end).
      { pose proof (wfn_child _ _ _ _ b W) as Wb. assert (2 * (257 - length (path ++ pre ++ [b])) <= fuel) by (rewrite path_len; lia).
        destruct b; [apply IHr|apply IHl]; auto. }
      assert (Goal2 : match
          match trem (length (path ++ pre ++ [b])) key (if b then tr else tl) with
          | None => None
          | Some PNull => Some (collapse pre (if b then tl else tr) (negb b))
          | Some z => Some (mkint pre z (if b then tl else tr) b)
          end with
        | Some t' => exists n', (let! z := tree_remove rd fuel (child l r b) key (length (path ++ pre ++ [b])) in
           match z with
           | NNull =>
             let! side := (match child l r (negb b) with
                      | NHash h w =>
                        let! s := resolve rd h w in
                        match s with None => Abort | Some s => Ok s end
                      | _ => Ok (child l r (negb b))
                      end) in
             match side with
             | NInt _ _ q sl sr =>
               let! pre := bits_join (of_bools pre) q (negb b) in
               Ok (create_internal pre sl sr false)
             | _ => Ok side
             end
           | _ => Ok (create_internal (of_bools pre) z (child l r (negb b)) b)
           end) = Ok n' /\ rep H rd n' t'
        | None => (let! z := tree_remove rd fuel (child l r b) key (length (path ++ pre ++ [b])) in
           match z with
           | NNull =>
             let! side := (match child l r (negb b) with
                      | NHash h w =>
                        let! s := resolve rd h w in
                        match s with None => Abort | Some s => Ok s end
                      | _ => Ok (child l r (negb b))
                      end) in
             match side with
             | NInt _ _ q sl sr =>
               let! pre := bits_join (of_bools pre) q (negb b) in
               Ok (create_internal pre sl sr false)
             | _ => Ok side
             end
           | _ => Ok (create_internal (of_bools pre) z (child l r (negb b)) b)
           end) = Fail ENOTFOUND
        end).
      2:{ destruct b; cbn [negb mkint child] in Goal2 |- *; exact Goal2. }
      assert (Ry : rep H rd (child l r (negb b)) (if b then tl else tr)) by (destruct b; assumption).
      assert (Wy : wfn (path ++ pre ++ [negb b]) (if b then tl else tr)).
      { pose proof (wfn_child _ _ _ _ (negb b) W) as Wy. destruct b; exact Wy. }
      set (y := child l r (negb b)) in *. set (ty := if b then tl else tr) in *.
      destruct (trem (length (path ++ pre ++ [b])) key (if b then tr else tl)) as [t'|] eqn:ET.
      2:{ rewrite IHb. reflexivity. }
      destruct IHb as (n' & En & Rn). rewrite En. cbn [bind].
      destruct t' as [|k' v'|q' l' r'].
      - apply rep_null in Rn. subst n'.
        assert (S : exists side, (match y with
                      | NHash h w => let! s := resolve rd h w in match s with None => Abort | Some s => Ok s end
                      | _ => Ok y end) = Ok side /\ rep H rd side ty /\ not_hash side).
        { destruct y as [|h' w' p' l' r'|h' w' k' v' vp'|h' w'];
            try (eexists; split; [reflexivity|]; split; [assumption|intros ? ?; discriminate]).
          destruct Ry as [-> D]. destruct (resolve_rep rd _ _ D) as (s & -> & Rs & NHs & _).
          cbn [bind]. eauto. }
        destruct S as (side & -> & Rs & NHs). cbn [bind].
        destruct side as [|hs ws ps ls rs|hs ws ks vs vps|hs ws].
        + cbn in Rs. rewrite Rs in Wy. contradiction Wy.
        + destruct Rs as (q & sl & sr & Es & _ & _ & -> & Rsl & Rsr). rewrite Es in Wy |- *.
          pose proof (wfn_int_len _ _ _ _ Wy) as Lq. rewrite path_len in Lq.
          rewrite bits_join_spec.
          2: apply of_bools_wf; lia. 2: apply wf_ok, of_bools_wf; lia. 2: cbn [of_bools bsize]; lia.
          rewrite !bools_of_bools by lia. cbn [bind collapse]. eexists. split; [reflexivity|].
          apply (create_internal_rep rd (pre ++ negb b :: q) ls rs sl sr false); auto.
        + pose proof Rs as (x & Es & _). eexists. split; [reflexivity|]. rewrite Es in Rs |- *. exact Rs.
        + exfalso. eapply NHs; reflexivity.
      - assert (n' <> NNull) by (eapply rep_nonnull; eauto; discriminate).
        eexists. split; [destruct n'; [contradiction|reflexivity..]|].
        apply create_internal_rep; auto.
      - assert (n' <> NNull) by (eapply rep_nonnull; eauto; discriminate).
        eexists. split; [destruct n'; [contradiction|reflexivity..]|].
        apply create_internal_rep; auto. }
    destruct n as [|h w p l r|h w k v vp|h w]; try (apply Q; [intros ? ?; discriminate|assumption|lia]).
    destruct R as [-> D]. destruct (resolve_rep rd _ _ D) as (n' & E & R' & NH & _).
    destruct fuel as [|fuel]; [lia|]. cbn [tree_remove]. rewrite E. cbn [bind]. apply Q; auto; lia.
Qed.

Lemma remove_root_rep rd n t key :
  rep H rd n t -> wft t -> length key = 32 ->
  match trem 0 key t with
  | Some t' => exists n', tree_remove rd TREE_FUEL n key 0 = Ok n' /\ rep H rd n' t'
  | None => tree_remove rd TREE_FUEL n key 0 = Fail ENOTFOUND
  end.
Proof.
  intros R [->|W] L.
  - apply rep_null in R. subst n. reflexivity.
  - apply (remove_rep rd t n []); auto using has_nil. unfold TREE_FUEL. cbn [length]. lia.
Qed.

(** ** Prove *)
Lemma prove_rep rd t : forall n path fuel acc key,
  rep H rd n t -> wfn path t -> vals_le 1023 t -> has path key -> length key = 32 ->
  length acc <= length path -> 2 * (257 - length path) <= fuel ->
  exists n', tree_prove H rd fuel acc n key (length path) =
    (let '(ns, e, tl) := tproof H (length path) t key in Ok (mkproof e (acc ++ ns) tl, n')) /\
    rep H rd n' t /\ hashed n' = hashed n /\ written n' = written n.
Proof.
  induction t as [|tk tv|pre tl IHl tr IHr]; intros n path fuel acc key R W V Hp Lk La F.
  - contradiction W.
  - pose proof (wfn_len _ _ W) as Lp.
    assert (Q : forall n fuel, not_hash n -> rep H rd n (PLeaf tk tv) -> 1 <= fuel ->
      exists n', tree_prove H rd fuel acc n key (length path) =
      (let '(ns, e, tl) := tproof H (length path) (PLeaf tk tv) key in Ok (mkproof e (acc ++ ns) tl, n')) /\
      rep H rd n' (PLeaf tk tv) /\ hashed n' = hashed n /\ written n' = written n).
    { clear n fuel R F. intros n fuel NH R F. destruct fuel as [|fuel]; [lia|].
      destruct n as [|h w p l r|h w k v vp|h w]; [discriminate R| | |exfalso; eapply NH; reflexivity].
      { destruct R as (? & ? & ? & X & _). discriminate X. }
      assert (k = tk) by (destruct R as (x & E & _); congruence). subst k.
      exists (NLeaf h w tk v vp). split; [|auto].
      cbn [tree_prove tproof]. destruct R as (x & E & _ & _ & _ & Hv). injection E as <-.
      rewrite (retrieve_rep rd v vp tv); [|apply (V tk); cbn; auto|tauto]. cbn [bind].
      rewrite app_nil_r. destruct (bytes_eqb tk key); reflexivity. }
    destruct n as [|h w p l r|h w k v vp|h w]; try (apply Q; [intros ? ?; discriminate|assumption|lia]).
    destruct R as [-> D]. destruct (resolve_rep rd _ _ D) as (n' & E & R' & NH & _).
    destruct fuel as [|fuel]; [lia|]. cbn [tree_prove]. rewrite E. cbn [bind].
    destruct (Q n' fuel NH R' ltac:(lia)) as (n'' & E' & _). rewrite E'.
    exists (NHash (thash H (PLeaf tk tv)) w). split; [|split; [split; [reflexivity|exact D]|auto]].
    destruct (tproof H (length path) (PLeaf tk tv) key) as [[ns e] tail]. reflexivity.
  - pose proof (wfn_int_len _ _ _ _ W) as Lp. pose proof (wfn_pre_ok _ _ _ _ W) as Lpre.
    assert (Q : forall n fuel, not_hash n -> rep H rd n (PInt pre tl tr) -> 2 * (257 - length path) <= S fuel ->
      exists n', tree_prove H rd fuel acc n key (length path) =
      (let '(ns, e, tl) := tproof H (length path) (PInt pre tl tr) key in Ok (mkproof e (acc ++ ns) tl, n')) /\
      rep H rd n' (PInt pre tl tr) /\ hashed n' = hashed n /\ written n' = written n).
    { clear n fuel R F. intros n fuel NH R F. destruct fuel as [|fuel]; [lia|].
      destruct n as [|h w p l r|h w k v vp|h w]; [discriminate R| | |exfalso; eapply NH; reflexivity].
      2:{ destruct R as (x & E & _). discriminate E. }
      destruct R as (pre' & tl' & tr' & E & Hh & Hw & -> & Rl & Rr). injection E as <- <- <-.
      cbn [tree_prove tproof].
      rewrite bits_has_spec by (auto using wf_ok, of_bools_wf; lia).
      rewrite bools_of_bools by assumption. cbn [bind].
      destruct (is_prefix pre (skipn (length path) (kbits key))) eqn:E1; cbn [negb].
      - change (bsize (of_bools pre)) with (length pre).
        rewrite get_bit_kbit by (auto; lia). cbn [bind].
        pose proof (step_has _ _ _ Hp Lk Lp E1) as Hb.
        set (b := kbit key (length path + length pre)) in *.
        assert (Ry : rep H rd (child l r (negb b)) (if b then tl else tr)) by (destruct b; assumption).
        destruct (node_hash_rep rd _ _ Ry) as (y & Ey & Ry' & _). rewrite Ey. cbn [bind].
        unfold proof_push, check, KEY_BITS.
        destruct (Nat.ltb_spec (length acc) 256) as [_|X]; [|lia]. cbn [bind].
        rewrite <- path_len with (b := b).
        assert (IHb : exists n', tree_prove H rd fuel (acc ++ [(of_bools pre, thash H (if b then tl else tr))]) (child l r b) key (length (path ++ pre ++ [b])) =
           (let '(ns, e, tl0) := tproof H (length (path ++ pre ++ [b])) (if b then tr else tl) key in
            Ok (mkproof e ((acc ++ [(of_bools pre, thash H (if b then tl else tr))]) ++ ns) tl0, n')) /\
           rep H rd n' (if b then tr else tl)).
        { pose proof (wfn_child _ _ _ _ b W) as Wb. pose proof (vals_le_child _ _ _ _ b V) as Vb.
          assert (2 * (257 - length (path ++ pre ++ [b])) <= fuel) by (rewrite path_len; lia).
          assert (length (acc ++ [(of_bools pre, thash H (if b then tl else tr))]) <= length (path ++ pre ++ [b]))
            by (rewrite path_len, app_length; cbn [length]; lia).
          assert (Rb : rep H rd (child l r b) (if b then tr else tl)) by (destruct b; assumption).
          destruct b; [destruct (IHr _ _ fuel _ key Rb Wb Vb Hb Lk H1 H0) as (z & Ez & Rz & _)
                      |destruct (IHl _ _ fuel _ key Rb Wb Vb Hb Lk H1 H0) as (z & Ez & Rz & _)]; eauto. }
        destruct IHb as (x & Ex & Rx). rewrite Ex.
        destruct (tproof H (length (path ++ pre ++ [b])) (if b then tr else tl) key) as [[ns e] tail].
        cbn [bind]. rewrite <- app_assoc. eexists. split; [reflexivity|].
        destruct b; (split; [|auto]); exists pre, tl, tr; auto 10.
      - destruct (node_hash_rep rd _ _ Rl) as (l' & El & Rl' & _).
        destruct (node_hash_rep rd _ _ Rr) as (r' & Er & Rr' & _).
        rewrite El, Er. cbn [bind]. rewrite app_nil_r. eexists. split; [reflexivity|].
        split; [|auto]. exists pre, tl, tr. auto 10. }
    destruct n as [|h w p l r|h w k v vp|h w]; try (apply Q; [intros ? ?; discriminate|assumption|lia]).
    destruct R as [-> D]. destruct (resolve_rep rd _ _ D) as (n' & E & R' & NH & _).
    destruct fuel as [|fuel]; [lia|]. cbn [tree_prove]. rewrite E. cbn [bind].
    destruct (Q n' fuel NH R' ltac:(lia)) as (n'' & E' & _). rewrite E'.
    exists (NHash (thash H (PInt pre tl tr)) w). split; [|split; [split; [reflexivity|exact D]|auto]].
    destruct (tproof H (length path) (PInt pre tl tr) key) as [[ns e] tail]. reflexivity.
Qed.

Definition the_proof (t : ptree) (key : bytes) : proof :=
  let '(ns, e, tl) := tproof H 0 t key in mkproof e ns tl.

Lemma prove_root_rep rd n t key :
  rep H rd n t -> wft t -> vals_le 1023 t -> length key = 32 ->
  exists n', tree_prove H rd TREE_FUEL [] n key 0 = Ok (the_proof t key, n') /\ rep H rd n' t.
Proof.
  intros R [->|W] V L.
  - apply rep_null in R. subst n. eexists. split; reflexivity.
  - destruct (prove_rep rd t n [] TREE_FUEL [] key) as (n' & E & R' & _); auto using has_nil.
    { unfold TREE_FUEL. cbn [length]. lia. }
    exists n'. split; [|exact R']. unfold the_proof. change (length (@nil bool)) with 0 in E.
    rewrite E. destruct (tproof H 0 t key) as [[ns e] tail]. reflexivity.
Qed.

Lemma tproof_ok t : forall path key, wfn path t -> vals_le 1023 t -> has path key -> length key = 32 ->
  let '(ns, e, tl) := tproof H (length path) t key in
  e = length path + span ns /\ e <= 256 /\ length ns <= span ns /\
  Forall ok_node ns /\ Forall (fun n => clean (fst n)) ns /\
  ok_tail tl /\ clean_tail tl /\ tail_fits tl key e /\ on_path ns key (length path) /\
  top H ns key (length path) (tail_hash H tl key) = thash H t /\
  tail_answer tl = tget (length path) t key.
Proof.
  induction t as [|tk tv|pre l IHl r IHr]; intros path key W V Hp Lk.
  - contradiction W.
  - pose proof (wfn_len _ _ W) as Lp. destruct W as [Ltk Htk]. cbn [tproof tget span].
    assert (length tv <= 1023) by (apply (V tk); cbn; auto).
    do 5 (split; [auto; lia|]).
    destruct (bytes_eqb_spec tk key) as [->|N].
    + destruct (bytes_eq_dec key key) as [_|X]; [|contradiction]. cbn [tail_fits ok_tail clean_tail on_path]. auto 10.
    + destruct (bytes_eq_dec tk key) as [X|_]; [contradiction|]. cbn [tail_fits ok_tail clean_tail on_path]. auto 10.
  - pose proof (wfn_int_len _ _ _ _ W) as Lp. pose proof (wfn_pre_ok _ _ _ _ W) as Lpre.
    cbn [tproof]. destruct (is_prefix pre (skipn (length path) (kbits key))) eqn:E1.
    + pose proof (step_has _ _ _ Hp Lk Lp E1) as Hb.
      set (b := kbit key (length path + length pre)) in *.
      pose proof (wfn_child _ _ _ _ b W) as Wb. pose proof (vals_le_child _ _ _ _ b V) as Vb.
      rewrite (tget_int_child _ _ _ _ _ _ Hb).
      rewrite <- path_len with (b := b).
      assert (IHb : let '(ns, e, tl) := tproof H (length (path ++ pre ++ [b])) (if b then r else l) key in
        e = length (path ++ pre ++ [b]) + span ns /\ e <= 256 /\ length ns <= span ns /\
        Forall ok_node ns /\ Forall (fun n => clean (fst n)) ns /\
        ok_tail tl /\ clean_tail tl /\ tail_fits tl key e /\ on_path ns key (length (path ++ pre ++ [b])) /\
        top H ns key (length (path ++ pre ++ [b])) (tail_hash H tl key) = thash H (if b then r else l) /\
        tail_answer tl = tget (length (path ++ pre ++ [b])) (if b then r else l) key).
      { destruct b; [apply IHr|apply IHl]; auto. }
      destruct (tproof H (length (path ++ pre ++ [b])) (if b then r else l) key) as [[ns e] tail].
      destruct IHb as (A1 & A2 & A3 & A4 & A5 & A6 & A7 & A8 & A9 & A10 & A11).
      rewrite path_len in A1, A9, A10. cbn [span length on_path top].
      change (bsize (of_bools pre)) with (length pre). fold b.
      split; [lia|]. split; [auto|]. split; [lia|].
      split. { constructor; [|auto]. split; cbn [fst snd]; [apply wf_ok, of_bools_wf; auto|apply thash_len; auto]. }
      split. { constructor; [|auto]. cbn [fst]. apply wf_clean, of_bools_wf; auto. }
      do 3 (split; [assumption|]).
      split. { rewrite bools_of_bools by assumption. auto. }
      split; [|assumption]. rewrite A10. destruct b; reflexivity.
    + cbn [span on_path top length].
      do 3 (split; [lia|]). do 2 (split; [constructor|]).
      assert (pre <> []) by (intros ->; discriminate E1).
      split. { cbn [ok_tail]. split; [apply wf_ok, of_bools_wf; auto|]. split; [|split; apply thash_len; auto].
               change (bsize (of_bools pre)) with (length pre). destruct pre; [contradiction|discriminate]. }
      split. { apply wf_clean, of_bools_wf; auto. }
      split. { cbn [tail_fits]. rewrite bools_of_bools by assumption. exact E1. }
      split; [exact I|]. split; [reflexivity|]. cbn [tget]. rewrite E1. reflexivity.
Qed.

Lemma the_proof_ok t key : wft t -> vals_le 1023 t -> length key = 32 ->
  ok_proof (the_proof t key) /\ clean_proof (the_proof t key) /\
  exists raw, proof_write (the_proof t key) = Ok raw /\
    urkel_verify H raw key (Some (thash H t)) =
    Ok (match tget 0 t key with Some v => mkverdict None true v | None => mkverdict None false [] end).
Proof.
  intros W V Lk.
  assert (Q : let p := the_proof t key in
    p_depth p = span (p_nodes p) /\ p_depth p <= 256 /\ length (p_nodes p) <= span (p_nodes p) /\
    Forall ok_node (p_nodes p) /\ Forall (fun n => clean (fst n)) (p_nodes p) /\
    ok_tail (p_tail p) /\ clean_tail (p_tail p) /\ tail_fits (p_tail p) key (p_depth p) /\ on_path (p_nodes p) key 0 /\
    top H (p_nodes p) key 0 (tail_hash H (p_tail p) key) = thash H t /\
    tail_answer (p_tail p) = tget 0 t key).
  { destruct W as [->|W].
    - cbn. auto 20 using Nat.le_0_l.
    - pose proof (tproof_ok t [] key W V (has_nil _) Lk) as Q. unfold the_proof.
      change (length (@nil bool)) with 0 in Q.
      destruct (tproof H 0 t key) as [[ns e] tail]. exact Q. }
  cbv zeta in Q. set (p := the_proof t key) in *.
  destruct Q as (A1 & A2 & A3 & A4 & A5 & A6 & A7 & A8 & A9 & A10 & A11).
  assert (O : ok_proof p) by (split; [auto|split; [lia|auto]]).
  assert (C : clean_proof p) by (split; auto).
  split; [exact O|]. split; [exact C|].
  destruct (proof_size_ok p O) as (raw' & Ew & _).
  exists raw'. split; [exact Ew|].
  pose proof (proof_roundtrip p _ O C Ew) as Er.
  rewrite (accept_urkel_verify H H_len raw' key (thash H t) p); auto. rewrite A11. reflexivity.
Qed.
End T.
