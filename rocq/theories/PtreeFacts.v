(** * Order, uniqueness, reference root, binding of the root hash. *)
From Verif Require Export Ptree.
From Coq Require Import ZifyBool ZifyNat ZifyN Sorted.

(** ** Lexicographic order *)

Lemma lex_irrefl a : ~ lex_lt a a.
Proof. induction a as [|x a IH]; cbn; [tauto|]. intros [Hl|[_ Hl]]; [lia|auto]. Qed.

Lemma lex_trans a b c : lex_lt a b -> lex_lt b c -> lex_lt a c.
Proof.
  revert b c; induction a as [|x a IH]; intros [|y b] [|z c]; cbn; try tauto.
  intros [H1|[-> H1]] [H2|[-> H2]]; try (left; lia); auto.
  right. split; auto. eapply IH; eauto.
Qed.

Definition first_diff_lt (x y : byte) : bool :=
  let fix go (a b : list bool) : bool :=
    match a, b with
    | p :: a', q :: b' => if Bool.eqb p q then go a' b' else negb p
    | _, _ => false
    end in go (bits_of_byte x) (bits_of_byte y).

Lemma first_diff_sweep : forall x y, first_diff_lt x y = (b2n x <? b2n y)%N.
Proof.
  intros x y.
  pose (P := fun x => forallb (fun y => Bool.eqb (first_diff_lt x y) (b2n x <? b2n y)%N) all_bytes).
  assert (HP : forallb P all_bytes = true) by (vm_compute; reflexivity).
  pose proof (byte_sweep P HP x) as Hx. unfold P in Hx.
  pose proof (byte_sweep _ Hx y) as Hy. cbn beta in Hy.
  apply Bool.eqb_prop in Hy. exact Hy.
Qed.

Lemma byte_bits_lt x y p s s' :
  bits_of_byte x = p ++ false :: s -> bits_of_byte y = p ++ true :: s' -> (b2n x < b2n y)%N.
Proof.
  intros Ex Ey. apply N.ltb_lt. rewrite <- first_diff_sweep. unfold first_diff_lt.
  rewrite Ex, Ey. clear. induction p as [|b p IH]; cbn; [reflexivity|].
  rewrite Bool.eqb_reflx. exact IH.
Qed.

Lemma kbits_lex a b p s s' :
  kbits a = p ++ false :: s -> kbits b = p ++ true :: s' -> lex_lt a b.
Proof.
  revert b p; induction a as [|x a IH]; intros b p Ea Eb.
  { destruct p; discriminate Ea. }
  destruct b as [|y b]; [destruct p; discriminate Eb|].
  rewrite kbits_cons in Ea, Eb. cbn [lex_lt].
  destruct (Nat.lt_ge_cases (length p) 8) as [Hp|Hp].
  - left. apply byte_bits_lt with (p := p)
      (s := firstn (7 - length p) s) (s' := firstn (7 - length p) s').
    + apply (f_equal (firstn 8)) in Ea. rewrite firstn_app_exact in Ea by reflexivity.
      rewrite Ea, firstn_app. rewrite firstn_all2 by lia.
      replace (8 - length p) with (S (7 - length p)) by lia. reflexivity.
    + apply (f_equal (firstn 8)) in Eb. rewrite firstn_app_exact in Eb by reflexivity.
      rewrite Eb, firstn_app. rewrite firstn_all2 by lia.
      replace (8 - length p) with (S (7 - length p)) by lia. reflexivity.
  - right. rewrite <- (firstn_skipn 8 p) in Ea, Eb. rewrite <- app_assoc in Ea, Eb.
    assert (L8 : length (firstn 8 p) = 8) by (rewrite firstn_length; lia).
    apply app_eq_len in Ea; [|rewrite L8; reflexivity].
    apply app_eq_len in Eb; [|rewrite L8; reflexivity].
    destruct Ea as [Ea1 Ea2], Eb as [Eb1 Eb2]. split.
    + apply bits_of_byte_inj. congruence.
    + eapply IH; eauto.
Qed.

Definition klt (a b : bytes * bytes) : Prop := lex_lt (fst a) (fst b).

Lemma sorted_app {A} (R : A -> A -> Prop) l1 l2 :
  StronglySorted R l1 -> StronglySorted R l2 ->
  (forall x y, In x l1 -> In y l2 -> R x y) -> StronglySorted R (l1 ++ l2).
Proof.
  induction l1 as [|x l1 IH]; intros S1 S2 Hx; cbn; auto.
  inversion S1 as [|? ? S1' F1]; subst. constructor.
  - apply IH; auto. intros; apply Hx; cbn; auto.
  - apply Forall_app. split; auto. apply Forall_forall. intros y Iy. apply Hx; cbn; auto.
Qed.

Lemma wfn_sorted path t : wfn path t -> StronglySorted klt (elems t).
Proof.
  revert path; induction t as [|k v|pre l IHl r IHr]; intros path W; cbn.
  - constructor.
  - constructor; constructor.
  - destruct W as [Wl Wr]. apply sorted_app; eauto.
    intros [k v] [k' v'] I I'.
    destruct (wfn_elems _ _ Wl _ _ I) as [_ (s & E)].
    destruct (wfn_elems _ _ Wr _ _ I') as [_ (s' & E')].
    unfold klt; cbn [fst]. eapply kbits_lex with (p := path ++ pre).
    + rewrite E, <- !app_assoc. reflexivity.
    + rewrite E', <- !app_assoc. reflexivity.
Qed.

Lemma wft_sorted t : wft t -> StronglySorted klt (elems t).
Proof. intros [->|W]; [constructor|eapply wfn_sorted; eauto]. Qed.

Lemma sorted_nodup l : StronglySorted klt l -> NoDup (map fst l).
Proof.
  induction l as [|x l IH]; intros S; cbn; [constructor|].
  inversion S as [|? ? S' F]; subst. constructor; auto.
  intros I. apply in_map_iff in I. destruct I as (y & E & I).
  rewrite Forall_forall in F. specialize (F y I). unfold klt in F. rewrite E in F.
  eapply lex_irrefl; eauto.
Qed.

Lemma sorted_ext l1 l2 :
  StronglySorted klt l1 -> StronglySorted klt l2 ->
  (forall x, In x l1 <-> In x l2) -> l1 = l2.
Proof.
  revert l2; induction l1 as [|x l1 IH]; intros l2 S1 S2 E.
  - destruct l2 as [|y l2]; auto. exfalso. apply (E y). cbn; auto.
  - destruct l2 as [|y l2]; [exfalso; apply (E x); cbn; auto|].
    inversion S1 as [|? ? S1' F1]; subst. inversion S2 as [|? ? S2' F2]; subst.
    rewrite Forall_forall in F1, F2.
    assert (x = y).
    { destruct (proj1 (E x) (or_introl eq_refl)) as [->|Ix]; auto.
      destruct (proj2 (E y) (or_introl eq_refl)) as [->|Iy]; auto.
      exfalso. apply (lex_irrefl (fst x)). eapply lex_trans; [apply (F1 y Iy)|apply (F2 x Ix)]. }
    subst y. f_equal. apply IH; auto. intros z. split; intros I.
    + destruct (proj1 (E z) (or_intror I)) as [->|]; auto.
      exfalso. eapply lex_irrefl. apply (F1 _ I).
    + destruct (proj2 (E z) (or_intror I)) as [->|]; auto.
      exfalso. eapply lex_irrefl. apply (F2 _ I).
Qed.

(** ** A canonical tree is determined by its records *)

Lemma has_comparable p q k : has p k -> has q k -> length p <= length q -> exists s, q = p ++ s.
Proof.
  intros (s & E) (s' & E') L. exists (skipn (length p) q).
  rewrite E in E'. apply (f_equal (firstn (length p))) in E'.
  rewrite firstn_app_exact in E' by reflexivity.
  rewrite firstn_app in E'. replace (length p - length q) with 0 in E' by lia.
  cbn [firstn] in E'. rewrite app_nil_r in E'.
  rewrite E' at 1. symmetry. apply firstn_skipn.
Qed.

Lemma wfn_pre_le path p1 l1 r1 p2 l2 r2 :
  wfn path (PInt p1 l1 r1) -> wfn path (PInt p2 l2 r2) ->
  (forall x, In x (elems (PInt p1 l1 r1)) -> In x (elems (PInt p2 l2 r2))) ->
  length p2 <= length p1.
Proof.
  intros [Wl Wr] W2 Inc.
  destruct (wfn_nonempty _ _ Wl) as (k0 & v0 & I0).
  destruct (wfn_nonempty _ _ Wr) as (k1 & v1 & I1).
  destruct (wfn_elems _ _ Wl _ _ I0) as [L0 P0].
  destruct (wfn_elems _ _ Wr _ _ I1) as [L1 P1].
  assert (J0 := Inc (k0, v0) ltac:(cbn; apply in_or_app; auto)).
  assert (J1 := Inc (k1, v1) ltac:(cbn; apply in_or_app; auto)).
  assert (Q : forall k v, In (k, v) (elems (PInt p2 l2 r2)) -> has (path ++ p2) k).
  { intros k v I. cbn in I. apply in_app_or in I. destruct W2 as [W2l W2r], I as [I|I].
    - destruct (wfn_elems _ _ W2l _ _ I) as [_ P]. rewrite app_assoc in P. eapply has_app_inv; eauto.
    - destruct (wfn_elems _ _ W2r _ _ I) as [_ P]. rewrite app_assoc in P. eapply has_app_inv; eauto. }
  pose proof (Q _ _ J0) as Q0. pose proof (Q _ _ J1) as Q1.
  destruct (Nat.le_gt_cases (length p2) (length p1)) as [|G]; auto. exfalso.
  assert (LL : length (path ++ p1 ++ [false]) <= length (path ++ p2))
    by (rewrite !app_length; cbn; lia).
  destruct (has_comparable _ _ _ P0 Q0 LL) as (s0 & E0).
  assert (LL' : length (path ++ p1 ++ [true]) <= length (path ++ p2))
    by (rewrite !app_length; cbn; lia).
  destruct (has_comparable _ _ _ P1 Q1 LL') as (s1 & E1).
  rewrite E0 in E1. rewrite <- !app_assoc in E1.
  apply app_inv_head in E1. apply app_inv_head in E1. discriminate E1.
Qed.

Lemma wfn_unique path t1 t2 :
  wfn path t1 -> wfn path t2 -> (forall x, In x (elems t1) <-> In x (elems t2)) -> t1 = t2.
Proof.
  revert path t2; induction t1 as [|k1 v1|p1 l1 IHl r1 IHr]; intros path t2 W1 W2 E.
  - contradiction W1.
  - destruct t2 as [|k2 v2|p2 l2 r2].
    + contradiction W2.
    + pose proof (proj1 (E (k1, v1)) (or_introl eq_refl)) as [Q|[]]. congruence.
    + exfalso. destruct W2 as [Wl Wr].
      destruct (wfn_nonempty _ _ Wl) as (k0 & v0 & I0).
      destruct (wfn_nonempty _ _ Wr) as (k3 & v3 & I3).
      destruct (wfn_elems _ _ Wl _ _ I0) as [_ P0].
      destruct (wfn_elems _ _ Wr _ _ I3) as [_ P3].
      destruct (proj2 (E (k0, v0)) ltac:(cbn; apply in_or_app; auto)) as [Q|[]].
      destruct (proj2 (E (k3, v3)) ltac:(cbn; apply in_or_app; auto)) as [Q'|[]].
      assert (k0 = k3) by congruence. subst k3.
      rewrite app_assoc in P0, P3. eapply has_disj; [exact P0|exact P3].
  - destruct t2 as [|k2 v2|p2 l2 r2].
    + contradiction W2.
    + exfalso. destruct W1 as [Wl Wr].
      destruct (wfn_nonempty _ _ Wl) as (k0 & v0 & I0).
      destruct (wfn_nonempty _ _ Wr) as (k3 & v3 & I3).
      destruct (wfn_elems _ _ Wl _ _ I0) as [_ P0].
      destruct (wfn_elems _ _ Wr _ _ I3) as [_ P3].
      destruct (proj1 (E (k0, v0)) ltac:(cbn; apply in_or_app; auto)) as [Q|[]].
      destruct (proj1 (E (k3, v3)) ltac:(cbn; apply in_or_app; auto)) as [Q'|[]].
      assert (k0 = k3) by congruence. subst k3.
      rewrite app_assoc in P0, P3. eapply has_disj; [exact P0|exact P3].
    + assert (Lp : length p1 = length p2).
      { apply Nat.le_antisymm; eapply wfn_pre_le; eauto; intros x; apply E. }
      destruct W1 as [W1l W1r], W2 as [W2l W2r].
      assert (p1 = p2).
      { destruct (wfn_nonempty _ _ W1l) as (k0 & v0 & I0).
        destruct (wfn_elems _ _ W1l _ _ I0) as [_ P0].
        pose proof (proj1 (E (k0, v0)) ltac:(cbn; apply in_or_app; auto)) as J.
        assert (Q : has (path ++ p2) k0).
        { cbn in J. apply in_app_or in J. destruct J as [J|J].
          - destruct (wfn_elems _ _ W2l _ _ J) as [_ P]. rewrite app_assoc in P. eapply has_app_inv; eauto.
          - destruct (wfn_elems _ _ W2r _ _ J) as [_ P]. rewrite app_assoc in P. eapply has_app_inv; eauto. }
        rewrite app_assoc in P0. apply has_app_inv in P0.
        destruct P0 as (s & Es), Q as (s' & Es'). rewrite Es in Es'. rewrite <- !app_assoc in Es'.
        apply app_inv_head in Es'. apply app_eq_len in Es'; [|exact Lp]. tauto. }
      subst p2. f_equal.
      * apply (IHl (path ++ p1 ++ [false])); auto. intros [k v]. split; intros I.
        -- destruct (wfn_elems _ _ W1l _ _ I) as [_ P].
           pose proof (proj1 (E (k, v)) ltac:(cbn; apply in_or_app; auto)) as J.
           cbn in J. apply in_app_or in J. destruct J as [J|J]; auto.
           destruct (wfn_elems _ _ W2r _ _ J) as [_ P']. exfalso.
           rewrite app_assoc in P, P'. eapply has_disj; [exact P|exact P'].
        -- destruct (wfn_elems _ _ W2l _ _ I) as [_ P].
           pose proof (proj2 (E (k, v)) ltac:(cbn; apply in_or_app; auto)) as J.
           cbn in J. apply in_app_or in J. destruct J as [J|J]; auto.
           destruct (wfn_elems _ _ W1r _ _ J) as [_ P']. exfalso.
           rewrite app_assoc in P, P'. eapply has_disj; [exact P|exact P'].
      * apply (IHr (path ++ p1 ++ [true])); auto. intros [k v]. split; intros I.
        -- destruct (wfn_elems _ _ W1r _ _ I) as [_ P].
           pose proof (proj1 (E (k, v)) ltac:(cbn; apply in_or_app; auto)) as J.
           cbn in J. apply in_app_or in J. destruct J as [J|J]; auto.
           destruct (wfn_elems _ _ W2l _ _ J) as [_ P']. exfalso.
           rewrite app_assoc in P, P'. eapply has_disj; [exact P'|exact P].
        -- destruct (wfn_elems _ _ W2r _ _ I) as [_ P].
           pose proof (proj2 (E (k, v)) ltac:(cbn; apply in_or_app; auto)) as J.
           cbn in J. apply in_app_or in J. destruct J as [J|J]; auto.
           destruct (wfn_elems _ _ W1l _ _ J) as [_ P']. exfalso.
           rewrite app_assoc in P, P'. eapply has_disj; [exact P'|exact P].
Qed.

Lemma wft_unique t1 t2 :
  wft t1 -> wft t2 -> (forall k, length k = 32 -> tget 0 t1 k = tget 0 t2 k) -> t1 = t2.
Proof.
  intros W1 W2 E.
  assert (EI : forall x, In x (elems t1) <-> In x (elems t2)).
  { intros [k v]. split; intros I.
    - pose proof (wft_elems_len _ W1 _ _ I) as L. apply (wft_get_in _ W2); auto.
      rewrite <- E by assumption. apply (wft_get_in _ W1); auto.
    - pose proof (wft_elems_len _ W2 _ _ I) as L. apply (wft_get_in _ W1); auto.
      rewrite E by assumption. apply (wft_get_in _ W2); auto. }
  destruct W1 as [->|W1], W2 as [->|W2]; auto.
  - destruct (wfn_nonempty _ _ W2) as (k & v & I). apply EI in I. contradiction I.
  - destruct (wfn_nonempty _ _ W1) as (k & v & I). apply EI in I. contradiction I.
  - eapply wfn_unique; eauto.
Qed.

(** ** Hash messages *)

Lemma write16_inj n m : (n < 65536)%N -> (m < 65536)%N -> write16 n = write16 m -> n = m.
Proof.
  unfold write16. intros Hn Hm E. injection E as E1 E2.
  apply (f_equal b2n) in E1, E2. rewrite !b2n_n2b in E1, E2. lia.
Qed.

Lemma prefix_bytes_length p : ok_bits p -> length (prefix_bytes p) = nbytes (bsize p).
Proof.
  intros [L S]. unfold prefix_bytes. rewrite firstn_length. 
  pose proof (nbytes_bound (bsize p) 32). lia.
Qed.

Lemma bools_prefix_bytes p : ok_bits p -> bools p = firstn (bsize p) (kbits (prefix_bytes p)).
Proof.
  intros [L S]. unfold bools, prefix_bytes. rewrite <- firstn_kbits, firstn_firstn.
  rewrite Nat.min_l by apply nbytes_le. reflexivity.
Qed.

Lemma msg_internal_inj p q l r l' r' :
  ok_bits p -> ok_bits q -> length l = 32 -> length l' = 32 -> length r = 32 -> length r' = 32 ->
  msg_internal p l r = msg_internal q l' r' ->
  bsize p = bsize q /\ prefix_bytes p = prefix_bytes q /\ bools p = bools q /\ l = l' /\ r = r'.
Proof.
  intros Op Oq Ll Ll' Lr Lr'. unfold msg_internal.
  assert (Fin : bsize p = bsize q -> prefix_bytes p = prefix_bytes q -> bools p = bools q).
  { intros E1 E2. rewrite !bools_prefix_bytes by assumption. congruence. }
  destruct (Nat.eqb_spec (bsize p) 0) as [Zp|Zp], (Nat.eqb_spec (bsize q) 0) as [Zq|Zq]; try discriminate.
  - intros E. injection E as E. apply app_eq_len in E; [|congruence]. destruct E as [-> ->].
    assert (prefix_bytes p = prefix_bytes q) by (unfold prefix_bytes; rewrite Zp, Zq; reflexivity).
    repeat split; auto; try congruence. apply Fin; congruence.
  - intros E. assert (E' : write16 (N.of_nat (bsize p)) = write16 (N.of_nat (bsize q)) /\
        prefix_bytes p ++ l ++ r = prefix_bytes q ++ l' ++ r').
    { injection E as Ea Eb Ec. split; [unfold write16; congruence|exact Ec]. }
    destruct E' as [E1 E2]. pose proof Op as [_ Sp]. pose proof Oq as [_ Sq].
    apply write16_inj in E1; [|lia|lia]. assert (Eb : bsize p = bsize q) by lia.
    apply app_eq_len in E2; [|rewrite !prefix_bytes_length by assumption; congruence].
    destruct E2 as [E2 E3]. apply app_eq_len in E3; [|congruence]. destruct E3 as [-> ->].
    repeat split; auto.
Qed.

Lemma msg_leaf_inj k h k' h' :
  length k = 32 -> length k' = 32 -> msg_leaf k h = msg_leaf k' h' -> k = k' /\ h = h'.
Proof. intros L L' E. injection E as E. apply app_eq_len in E; [auto|congruence]. Qed.

Lemma msg_int_leaf p l r k h : msg_internal p l r <> msg_leaf k h.
Proof. unfold msg_internal, msg_leaf. destruct (bsize p =? 0); discriminate. Qed.

Lemma prefix_bytes_of_bools p : length p <= 256 -> prefix_bytes (of_bools p) = pack (nbytes (length p)) p.
Proof.
  intros L. unfold prefix_bytes, of_bools; cbn [bsize bdata]. apply kbits_inj.
  rewrite <- firstn_kbits, !kbits_pack by (try apply nbytes_le; lia).
  rewrite firstn_app, firstn_all2 by apply nbytes_le. f_equal.
  assert (Hfn : forall n m, n <= m -> firstn n (repeat false m) = repeat false n).
  { intros n m Hnm. replace m with (n + (m - n)) by lia. rewrite repeat_app.
    apply firstn_app_exact. now rewrite repeat_length. }
  apply Hfn. pose proof (nbytes_bound (length p) 32). lia.
Qed.

Section Binding.
Variable H : bytes -> bytes.
Hypothesis H_len : forall m, length (H m) = 32.

Lemma thash_len t : length (thash H t) = 32.
Proof. destruct t; cbn; [reflexivity|apply H_len|apply H_len]. Qed.

(** Every message hashed while computing the root of a tree. *)
Fixpoint msgs (t : ptree) : list bytes :=
  match t with
  | PNull => []
  | PLeaf k v => [v; msg_leaf k (H v)]
  | PInt pre l r => msg_internal (of_bools pre) (thash H l) (thash H r) :: msgs l ++ msgs r
  end.

Notation nocoll := (no_collision H).
Notation nozero := (no_zero H).

Lemma nocoll_incl l l' : incl l l' -> nocoll l' -> nocoll l.
Proof. intros I N a b Ha Hb. apply N; auto. Qed.
Lemma nozero_incl l l' : incl l l' -> nozero l' -> nozero l.
Proof. intros I N a Ha. apply N; auto. Qed.

Lemma wfn_pre_ok path pre l r : wfn path (PInt pre l r) -> length pre <= 256.
Proof. intros W. apply wfn_int_len in W. lia. Qed.

Lemma thash_binds path t1 t2 :
  wfn path t1 -> wfn path t2 -> nocoll (msgs t1 ++ msgs t2) ->
  thash H t1 = thash H t2 -> t1 = t2.
Proof.
  revert path t2; induction t1 as [|k1 v1|p1 l1 IHl r1 IHr]; intros path t2 W1 W2 NC E.
  - contradiction W1.
  - destruct t2 as [|k2 v2|p2 l2 r2].
    + contradiction W2.
    + cbn in E. unfold hash_value, hash_leaf in E.
      apply NC in E; [|apply in_or_app; cbn; auto..].
      destruct W1 as [L1 _], W2 as [L2 _].
      apply msg_leaf_inj in E; auto. destruct E as [-> E].
      apply NC in E; [|apply in_or_app; cbn; auto..]. congruence.
    + cbn in E. unfold hash_value, hash_leaf, hash_internal in E.
      apply NC in E; [|apply in_or_app; cbn; auto..].
      symmetry in E. apply msg_int_leaf in E. contradiction.
  - destruct t2 as [|k2 v2|p2 l2 r2].
    + contradiction W2.
    + cbn in E. unfold hash_value, hash_leaf, hash_internal in E.
      apply NC in E; [|apply in_or_app; cbn; auto..].
      apply msg_int_leaf in E. contradiction.
    + pose proof (wfn_pre_ok _ _ _ _ W1) as O1. pose proof (wfn_pre_ok _ _ _ _ W2) as O2.
      cbn in E. unfold hash_internal in E.
      apply NC in E; [|apply in_or_app; cbn; auto..].
      apply msg_internal_inj in E; auto using thash_len, wf_ok, of_bools_wf.
      destruct E as (_ & _ & Eb & El & Er). rewrite !bools_of_bools in Eb by assumption. subst p2.
      destruct W1 as [W1l W1r], W2 as [W2l W2r].
      f_equal.
      * eapply IHl; eauto. eapply nocoll_incl; [|exact NC].
        intros x I. apply in_app_or in I. cbn. rewrite !in_app_iff. cbn. rewrite !in_app_iff. tauto.
      * eapply IHr; eauto. eapply nocoll_incl; [|exact NC].
        intros x I. apply in_app_or in I. cbn. rewrite !in_app_iff. cbn. rewrite !in_app_iff. tauto.
Qed.

Lemma thash_nonzero path t : wfn path t -> nozero (msgs t) -> thash H t <> zero_hash.
Proof.
  destruct t as [|k v|p l r]; intros W NZ; [contradiction W| |];
    cbn; unfold hash_value, hash_leaf, hash_internal; apply NZ; cbn; auto.
Qed.

Lemma thash_binds_t t1 t2 :
  wft t1 -> wft t2 -> nocoll (msgs t1 ++ msgs t2) -> nozero (msgs t1 ++ msgs t2) ->
  thash H t1 = thash H t2 -> t1 = t2.
Proof.
  intros W1 W2 NC NZ E. destruct W1 as [->|W1], W2 as [->|W2]; auto.
  - exfalso. symmetry in E. revert E. cbn. eapply thash_nonzero; eauto.
  - exfalso. revert E. cbn. eapply thash_nonzero; eauto.
    eapply nozero_incl; [|exact NZ]. intros x I. apply in_or_app; auto.
  - eapply thash_binds; eauto.
Qed.

(** ** The reference root *)

Lemma common2_has a b p a' b' x :
  a = p ++ x :: a' -> b = p ++ negb x :: b' -> common2 a b = p.
Proof.
  intros -> ->. induction p as [|y p IH]; cbn.
  - destruct x; reflexivity.
  - rewrite Bool.eqb_reflx. congruence.
Qed.

Lemma common2_prefix a b : exists s s', a = common2 a b ++ s /\ b = common2 a b ++ s'.
Proof.
  revert b; induction a as [|x a IH]; intros [|y b]; cbn; eauto.
  destruct (Bool.eqb x y) eqn:E; cbn; eauto.
  apply Bool.eqb_prop in E. subst. destruct (IH b) as (s & s' & E1 & E2).
  exists s, s'. split; congruence.
Qed.

Lemma common2_ge p a b : (exists s, a = p ++ s) -> (exists s, b = p ++ s) -> exists s, common2 a b = p ++ s.
Proof.
  intros (s & ->) (s' & ->). induction p as [|x p IH]; cbn; eauto.
  rewrite Bool.eqb_reflx. destruct IH as (s2 & E). exists s2. congruence.
Qed.

Lemma fold_common_ge p xs x : (forall y, In y (x :: xs) -> exists s, y = p ++ s) ->
  exists s, fold_left common2 xs x = p ++ s.
Proof.
  revert x; induction xs as [|y xs IH]; intros x A; cbn.
  - apply A; cbn; auto.
  - apply IH. intros z [<-|Iz].
    + apply common2_ge; apply A; cbn; auto.
    + apply A; cbn; auto.
Qed.

Lemma fold_common_prefix xs x : forall y, In y (x :: xs) -> exists s, y = fold_left common2 xs x ++ s.
Proof.
  revert x; induction xs as [|z xs IH]; intros x y I; cbn.
  - destruct I as [<-|[]]. exists []. now rewrite app_nil_r.
  - destruct (common2_prefix x z) as (s & s' & E1 & E2).
    assert (Q : exists s2, common2 x z = fold_left common2 xs (common2 x z) ++ s2)
      by (apply IH; cbn; auto).
    destruct Q as (s2 & E3). destruct I as [<-|[<-|I]].
    + exists (s2 ++ s). rewrite app_assoc, <- E3. exact E1.
    + exists (s2 ++ s'). rewrite app_assoc, <- E3. exact E2.
    + apply IH. cbn; auto.
Qed.

Lemma common_spec ls p x a b :
  (forall y, In y ls -> exists s, y = p ++ s) ->
  In (p ++ x :: a) ls -> In (p ++ negb x :: b) ls -> common ls = p.
Proof.
  intros A I1 I2. destruct ls as [|l0 ls]; [contradiction I1|]. cbn [common].
  destruct (fold_common_ge p ls l0 A) as (s & E).
  destruct (fold_common_prefix ls l0 _ I1) as (s1 & E1).
  destruct (fold_common_prefix ls l0 _ I2) as (s2 & E2).
  rewrite E in *. destruct s as [|c s]; [apply app_nil_r|]. exfalso.
  rewrite <- app_assoc in E1, E2. apply app_inv_head in E1, E2. cbn in E1, E2.
  injection E1 as -> _. injection E2 as E2 _. destruct c; discriminate E2.
Qed.

Lemma ref_internal_hash p l r : length p <= 256 ->
  ref_internal_msg p l r = msg_internal (of_bools p) l r.
Proof.
  intros L. unfold ref_internal_msg, msg_internal. destruct p as [|b p].
  - reflexivity.
  - rewrite prefix_bytes_of_bools by assumption. reflexivity.
Qed.

Lemma nodup_filter_map (f : bytes * bytes -> bool) l : NoDup (map fst l) -> NoDup (map fst (filter f l)).
Proof.
  induction l as [|x l IH]; cbn; intros N; [constructor|].
  inversion N as [|? ? N1 N2]; subst. destruct (f x); cbn; auto.
  constructor; auto. intros I. apply N1. apply in_map_iff in I. destruct I as (y & E & I).
  apply filter_In in I. apply in_map_iff. exists y. tauto.
Qed.

Lemma ref_root_at_spec t : forall path l fuel,
  wfn path t -> NoDup (map fst l) -> (forall x, In x l <-> In x (elems t)) ->
  257 - length path <= fuel ->
  ref_root_at H fuel (length path) l = thash H t /\ ref_msgs_at H fuel (length path) l = msgs t.
Proof.
  induction t as [|k v|pre tl IHl tr IHr]; intros path l fuel W ND E F.
  - contradiction W.
  - (* one record *)
    assert (l = [(k, v)]).
    { destruct l as [|x [|y l]].
      - exfalso. apply (E (k, v)). cbn; auto.
      - destruct (proj1 (E x) (or_introl eq_refl)) as [<-|[]]. reflexivity.
      - exfalso. destruct (proj1 (E x) (or_introl eq_refl)) as [<-|[]].
        destruct (proj1 (E y) (or_intror (or_introl eq_refl))) as [<-|[]].
        cbn in ND. inversion ND as [|? ? N _]. apply N. cbn; auto. }
    subst l. destruct fuel; split; reflexivity.
  - pose proof (wfn_int_len _ _ _ _ W) as Hl. destruct W as [Wl Wr].
    destruct (wfn_nonempty _ _ Wl) as (k0 & v0 & I0).
    destruct (wfn_nonempty _ _ Wr) as (k1 & v1 & I1).
    destruct (wfn_elems _ _ Wl _ _ I0) as [L0 P0].
    destruct (wfn_elems _ _ Wr _ _ I1) as [L1 P1].
    assert (J0 : In (k0, v0) l) by (apply E; cbn; apply in_or_app; auto).
    assert (J1 : In (k1, v1) l) by (apply E; cbn; apply in_or_app; auto).
    assert (NE : k0 <> k1).
    { intros <-. rewrite app_assoc in P0, P1. eapply has_disj; [exact P0|exact P1]. }
    destruct fuel as [|fuel]; [lia|].
    set (p := common (map (fun e => skipn (length path) (kbits (fst e))) l)).
    set (d := length path + length p).
    set (side := fun b : bool => filter (fun e => Bool.eqb (nth d (kbits (fst e)) false) b) l).
    set (m := ref_internal_msg p (ref_root_at H fuel (S d) (side false)) (ref_root_at H fuel (S d) (side true))).
    assert (UNF : ref_root_at H (S fuel) (length path) l = H m /\
       ref_msgs_at H (S fuel) (length path) l =
         m :: ref_msgs_at H fuel (S d) (side false) ++ ref_msgs_at H fuel (S d) (side true)).
    { clear IHl IHr. destruct l as [|[ka va] [|y l]]; [contradiction J0| |destruct y; split; reflexivity].
      exfalso. destruct J0 as [J0|[]], J1 as [J1|[]]. congruence. }
    destruct UNF as [-> ->].
    assert (EC : p = pre).
    { destruct P0 as (s0 & E0), P1 as (s1 & E1). rewrite <- !app_assoc in E0, E1.
      apply common_spec with (x := false) (a := s0) (b := s1).
      - intros y I. apply in_map_iff in I. destruct I as ([k v] & <- & I). cbn [fst].
        apply E in I. cbn in I. apply in_app_or in I. destruct I as [I|I].
        + destruct (wfn_elems _ _ Wl _ _ I) as [_ (s & Es)]. rewrite <- !app_assoc in Es.
          rewrite Es, skipn_app_exact by reflexivity. eauto.
        + destruct (wfn_elems _ _ Wr _ _ I) as [_ (s & Es)]. rewrite <- !app_assoc in Es.
          rewrite Es, skipn_app_exact by reflexivity. eauto.
      - apply in_map_iff. exists (k0, v0). split; auto. cbn [fst].
        rewrite E0, skipn_app_exact by reflexivity. reflexivity.
      - apply in_map_iff. exists (k1, v1). split; auto. cbn [fst].
        rewrite E1, skipn_app_exact by reflexivity. reflexivity. }
    assert (D : forall b, S d = length (path ++ pre ++ [b]))
      by (intros; unfold d; rewrite EC, !app_length; cbn [length]; lia).
    assert (Dd : d = length path + length pre) by (unfold d; rewrite EC; reflexivity).
    assert (QL : ref_root_at H fuel (S d) (side false) = thash H tl /\
                 ref_msgs_at H fuel (S d) (side false) = msgs tl).
    { rewrite (D false). apply IHl; unfold side; auto using nodup_filter_map.
      * intros [k v]. rewrite filter_In. cbn [fst]. rewrite Dd. split.
        -- intros [I B]. apply E in I. cbn in I. apply in_app_or in I. destruct I as [I|I]; auto.
           destruct (wfn_elems _ _ Wr _ _ I) as [_ P]. apply has_step in P. unfold kbit in P.
           destruct P as [_ P]. rewrite P in B. discriminate B.
        -- intros I. split; [apply E; cbn; apply in_or_app; auto|].
           destruct (wfn_elems _ _ Wl _ _ I) as [_ P]. apply has_step in P. unfold kbit in P.
           destruct P as [_ P]. rewrite P. reflexivity.
      * rewrite !app_length. cbn [length]. lia. }
    assert (QR : ref_root_at H fuel (S d) (side true) = thash H tr /\
                 ref_msgs_at H fuel (S d) (side true) = msgs tr).
    { rewrite (D true). apply IHr; unfold side; auto using nodup_filter_map.
      * intros [k v]. rewrite filter_In. cbn [fst]. rewrite Dd. split.
        -- intros [I B]. apply E in I. cbn in I. apply in_app_or in I. destruct I as [I|I]; auto.
           destruct (wfn_elems _ _ Wl _ _ I) as [_ P]. apply has_step in P. unfold kbit in P.
           destruct P as [_ P]. rewrite P in B. discriminate B.
        -- intros I. split; [apply E; cbn; apply in_or_app; auto|].
           destruct (wfn_elems _ _ Wr _ _ I) as [_ P]. apply has_step in P. unfold kbit in P.
           destruct P as [_ P]. rewrite P. reflexivity.
      * rewrite !app_length. cbn [length]. lia. }
    subst m. destruct QL as [-> ->], QR as [-> ->].
    rewrite EC, ref_internal_hash by lia. cbn [thash msgs]. unfold hash_internal. auto.
Qed.

Lemma ref_root_spec t l :
  wft t -> NoDup (map fst l) -> (forall x, In x l <-> In x (elems t)) ->
  ref_root H l = thash H t /\ ref_msgs H l = msgs t.
Proof.
  intros [->|W] ND E.
  - destruct l as [|x l]; [split; reflexivity|]. exfalso. apply (E x). cbn; auto.
  - apply (ref_root_at_spec t [] l 257); auto.
Qed.
End Binding.
