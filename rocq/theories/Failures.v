(** * Any number of failing commits in one session.

    Whatever fails in store.c 528-551, 673-745, 777-800 (the functions of Store.v and Tree.v with
    any schedule of failures), what could be read from the store before can be read after. *)
From Verif Require Export FaultFacts Backup.
From Coq Require Import ZifyBool ZifyNat ZifyN.

(** Only the file being written and later ones change. *)
Definition tail_only (s s' : store) : Prop :=
  (st_index s <= st_index s')%N /\ within (st_fs s) (st_fs s') /\
  firstn (N.to_nat (st_index s) - 1) (st_fs s') = firstn (N.to_nat (st_index s) - 1) (st_fs s).
Definition harm (s s' : store) : Prop :=
  fit s' /\ keep s s' /\ rmono s s' /\ ((st_index s < MAX_FILES)%N -> (st_index s' < MAX_FILES)%N) /\ tail_only s s'.

Lemma tail_only_refl s s' : st_fs s' = st_fs s -> st_index s' = st_index s -> tail_only s s'.
Proof. intros E I. split; [rewrite I; lia|]. rewrite E. split; [apply within_refl|reflexivity]. Qed.
Lemma tail_only_trans a b c : tail_only a b -> tail_only b c -> tail_only a c.
Proof.
  intros (I1 & W1 & F1) (I2 & W2 & F2). split; [lia|]. split; [eapply within_trans; eassumption|].
  apply (f_equal (firstn (N.to_nat (st_index a) - 1))) in F2. rewrite !firstn_firstn in F2.
  replace (Nat.min (N.to_nat (st_index a) - 1) (N.to_nat (st_index b) - 1)) with (N.to_nat (st_index a) - 1) in F2 by lia.
  rewrite F2. exact F1.
Qed.
Lemma harm_trans a b c : harm a b -> harm b c -> harm a c.
Proof.
  intros (F1 & K1 & M1 & C1 & T1) (F2 & K2 & M2 & C2 & T2). split; [exact F2|]. split; [eapply keep_trans; eassumption|].
  split; [eapply rmono_trans; eassumption|]. split; [auto|]. eapply tail_only_trans; eassumption.
Qed.
Lemma harm_same s s' : fit s -> st_fs s' = st_fs s -> st_index s' = st_index s -> st_size s' = st_size s -> keep s s' -> harm s s'.
Proof.
  intros F E1 E2 E3 K. split; [unfold fit in *; rewrite E1, E2, E3; exact F|]. split; [exact K|].
  split; [intros p x; unfold st_rd; rewrite E1, E2, E3; exact (fun X => X)|]. split; [rewrite E2; auto|]. apply tail_only_refl; assumption.
Qed.
Lemma firstn_upd {A} (l : list A) i x : firstn i (upd l i x) = firstn i l.
Proof. revert i; induction l as [|a l IH]; intros [|i]; cbn [upd firstn]; try reflexivity. f_equal. apply IH. Qed.

Lemma harm_app s s' i x : fit s -> i = N.to_nat (st_index s) - 1 ->
  st_fs s' = upd (st_fs s) i (fget (st_fs s) i ++ x) -> st_index s' = st_index s -> (st_size s <= st_size s' <= st_size s + blen x)%N -> keep s s' -> harm s s'.
Proof.
  intros F Ei Ef Ex Es K. pose proof F as [[I1 I2] Sz]. assert (Li : i < length (st_fs s)) by lia.
  split; [|split; [exact K|split; [eapply rmono_app; try eassumption; lia|split; [rewrite Ex; auto|]]]].
  - unfold fit. rewrite Ex, Ef, FaultFacts.upd_length, <- Ei. unfold fget at 1. rewrite upd_same by exact Li. rewrite blen_app. rewrite <- Ei in Sz. lia.
  - split; [lia|]. rewrite Ef, <- Ei, firstn_upd. split; [|reflexivity]. split; [rewrite FaultFacts.upd_length; lia|]. intros j. apply upd_more.
Qed.
Lemma harm_next s s' extra : fit s -> st_fs s' = st_fs s ++ extra -> keep s s' ->
  (st_index s' = st_index s /\ st_size s' = st_size s) \/
  (st_index s' = (st_index s + 1)%N /\ (st_index s + 1 < MAX_FILES)%N /\ (st_index s + 1 <= N.of_nat (length (st_fs s')))%N /\
   st_size s' = blen (fget (st_fs s') (N.to_nat (st_index s') - 1))) -> harm s s'.
Proof.
  intros F Ef K Ei. pose proof F as [[I1 I2] Sz].
  assert (Gf : forall i f, nth_error (st_fs s) i = Some f -> nth_error (st_fs s') i = Some f).
  { intros i f En. rewrite Ef, nth_error_app1; [exact En|]. apply nth_error_Some. congruence. }
  split; [|split; [exact K|split; [apply rmono_next; [exact F|exact Gf|destruct Ei as [Ei|(X & _ & _ & Y)]; auto]|split]]].
  - destruct Ei as [[X Y]|(X & _ & L & Y)]; split.
    + rewrite X, Ef, app_length. lia.
    + rewrite X, Y, Ef. unfold fget. rewrite app_nth1 by lia. exact Sz.
    + rewrite X. lia.
    + rewrite Y. lia.
  - destruct Ei as [[X _]|(X & L & _)]; rewrite X; auto.
  - split; [destruct Ei as [[X _]|(X & _)]; lia|]. rewrite Ef. split.
    + split; [rewrite app_length; lia|]. intros i. destruct (Nat.lt_ge_cases i (length (st_fs s))) as [L|L].
      * exists []. rewrite app_nil_r. now rewrite app_nth1.
      * eexists. rewrite (nth_overflow (st_fs s)) by exact L. reflexivity.
    + rewrite firstn_app. replace (N.to_nat (st_index s) - 1 - length (st_fs s)) with 0 by lia. rewrite firstn_O. apply app_nil_r.
Qed.

Lemma file_write_harm s f d : fit s -> harm s (snd (file_write s f d)).
Proof.
  intros F. unfold file_write. set (i := N.to_nat (st_index s) - 1).
  destruct d as [|b d]; [apply harm_same; try reflexivity; [exact F|apply keep_refl]|]. set (x := b :: d). clearbody x.
  destruct f; cbn [snd]; eapply (harm_app s _ i); try reflexivity; try exact F; try (repeat split; fail);
    cbn [set_cur set_fs st_size]; lia.
Qed.
Lemma store_write_harm s d ok s' : fit s -> store_write s d = Ok (ok, s') -> harm s s'.
Proof.
  intros F. unfold store_write. set (f := match st_io s with x :: _ => x | [] => WOk end). clearbody f. cbv zeta.
  set (s0 := set_io s (tl (st_io s))). assert (H0 : harm s s0) by (apply harm_same; try reflexivity; [exact F|repeat split]).
  assert (F0 : fit s0) by apply H0. clearbody s0.
  destruct (MAX_FILE_SIZE <? _)%N.
  - set (s1 := if (N.of_nat (length (st_fs s0)) <? st_index s0 + 1)%N then set_fs s0 (st_fs s0 ++ [[]]) [ONew] else s0).
    assert (H1 : harm s0 s1 /\ st_index s1 = st_index s0 /\ (st_index s0 + 1 <= N.of_nat (length (st_fs s1)))%N).
    { subst s1. pose proof F0 as [[I1 I2] _]. destruct (N.ltb_spec (N.of_nat (length (st_fs s0))) (st_index s0 + 1)) as [L|L].
      - split; [|split; [reflexivity|cbn [set_fs st_fs]; rewrite app_length; cbn [length]; lia]].
        eapply harm_next with (extra := [[]]); [exact F0|reflexivity|repeat split|left; split; reflexivity].
      - split; [apply harm_same; try reflexivity; [exact F0|apply keep_refl]|]. split; [reflexivity|exact L]. }
    destruct H1 as (H1 & Ei & L1). assert (F1 : fit s1) by apply H1. clearbody s1. unfold check. rewrite Ei.
    set (t := set_cur s1 (st_index s0 + 1) (blen (fget (st_fs s1) (N.to_nat (st_index s0 + 1) - 1)))).
    assert (Ht : (st_index s0 + 1 < MAX_FILES)%N -> harm s1 t).
    { intros Lm. apply (harm_next s1 t []); [exact F1|cbn [t set_cur st_fs]; now rewrite app_nil_r|repeat split|]. right.
      cbn [t set_cur st_index st_size st_fs]. rewrite Ei. auto. }
    destruct f.
    2:{ intros E. apply Ok_inj in E. injection E as <- <-. exact H0. }
    all: destruct (N.ltb_spec (st_index s0 + 1) MAX_FILES) as [Lm|Lm]; try discriminate; intros E; apply Ok_inj in E.
    2:{ injection E as <- <-. eapply harm_trans; eassumption. }
    all: specialize (Ht Lm); (eapply harm_trans; [exact H0|]; eapply harm_trans; [exact H1|]; eapply harm_trans; [exact Ht|]);
      match type of E with file_write ?a ?b ?c = _ => pose proof (file_write_harm a b c) as X; rewrite E in X; apply X end; apply Ht.
  - intros E. apply Ok_inj in E. eapply harm_trans; [exact H0|]. pose proof (file_write_harm s0 f d F0) as X. rewrite E in X. exact X.
Qed.
Lemma flush_loop_harm cs : forall s i d r s', fit s -> flush_loop s i cs d = Ok (r, s') -> harm s s'.
Proof.
  induction cs as [|n cs IH]; intros s i d r s' F; cbn [flush_loop].
  - intros E. apply Ok_inj in E. injection E as <- <-. apply harm_same; try reflexivity; [exact F|apply keep_refl].
  - destruct (store_write s (firstn n d)) as [[ok s1]| | | |] eqn:Ew; cbn [bind]; try discriminate.
    pose proof (store_write_harm _ _ _ _ F Ew) as G1. destruct ok; intros E.
    + eapply harm_trans; [exact G1|]. eapply IH; [apply G1|exact E].
    + apply Ok_inj in E. injection E as <- <-. exact G1.
Qed.
Lemma flush_harm s r s' : fit s -> store_flush s = Ok (r, s') -> harm s s'.
Proof.
  intros F. unfold store_flush. cbv zeta. destruct (flush_loop s _ _ _) as [[o s1]| | | |] eqn:El; cbn [bind]; try discriminate.
  pose proof (flush_loop_harm _ _ _ _ _ _ F El) as G1. assert (F1 : fit s1) by apply G1. intros E.
  destruct o; apply Ok_inj in E; injection E as <- <-; (eapply harm_trans; [exact G1|]; apply harm_same; try reflexivity; [exact F1|repeat split]).
Qed.
Lemma buffers_harm {A} (f : store -> res (A * store)) s x s' : buffers f -> fit s -> f s = Ok (x, s') -> harm s s'.
Proof.
  intros B F E. destruct (B s (st_io s) x s') as (sl & E1 & E2). { replace (set_io s (st_io s)) with s by (destruct s; reflexivity). exact E. }
  rewrite E1 in E. apply Ok_inj in E. injection E as <-. apply harm_same; try reflexivity; [exact F|repeat split].
Qed.

Section F.
Variable H : bytes -> bytes.
Variable C : bytes -> bytes -> bytes.

Lemma finish_harm (n : node) s r s' : fit s ->
  (let! (n, s, ok) := (if needs_flush s then let! (ok, s) := store_flush s in Ok (n, s, ok) else Ok (n, s, true)) in
   if negb ok then Ok (None, s) else
   let! (_, n) := node_hash H n in let! out := node_to_hash n in Ok (Some out, s)) = Ok (r, s') -> harm s s'.
Proof.
  intros F E.
  assert (X : exists m t ok, (if needs_flush s then let! (ok, s) := store_flush s in Ok (n, s, ok) else Ok (n, s, true)) = Ok (m, t, ok) /\ harm s t).
  { destruct (needs_flush s); [|eexists _, _, _; split; [reflexivity|]; apply harm_same; try reflexivity; [exact F|apply keep_refl]].
    destruct (store_flush s) as [[ok t]| | | |] eqn:Ef; cbn [bind] in *; try discriminate E.
    eexists _, _, _. split; [reflexivity|]. eapply flush_harm; [exact F|exact Ef]. }
  destruct X as (m & t & ok & Em & G). rewrite Em in E. cbn [bind] in E. destruct ok; cbn [negb] in E.
  - destruct (node_hash H m) as [[h m2]| | | |]; cbn [bind] in E; try discriminate E.
    destruct (node_to_hash m2) as [o| | | |]; cbn [bind] in E; try discriminate E. apply Ok_inj in E. injection E as <- <-. exact G.
  - apply Ok_inj in E. injection E as <- <-. exact G.
Qed.
Lemma tree_write_harm n : forall s r s', fit s -> tree_write H s n = Ok (r, s') -> harm s s'.
Proof.
  assert (Rf : forall s, fit s -> harm s s) by (intros s F; apply harm_same; try reflexivity; [exact F|apply keep_refl]).
  induction n as [|h w p l IHl r IHr|h w k v vp|h w]; intros s r0 s' F; cbn [tree_write].
  - intros E. apply Ok_inj in E. injection E as <- <-. apply Rf, F.
  - destruct (tree_write H s l) as [[l' s1]| | | |] eqn:El; cbn [bind]; try discriminate. pose proof (IHl _ _ _ F El) as G1.
    destruct l' as [l'|]. 2:{ intros E. apply Ok_inj in E. injection E as <- <-. exact G1. }
    destruct (tree_write H s1 r) as [[r' s2]| | | |] eqn:Er; cbn [bind]; try discriminate.
    pose proof (harm_trans _ _ _ G1 (IHr _ _ _ (proj1 G1) Er)) as G2. assert (F2 : fit s2) by apply G2.
    destruct r' as [r'|]. 2:{ intros E. apply Ok_inj in E. injection E as <- <-. exact G2. }
    cbv zeta. destruct w as [w|].
    + cbn [bind negb]. intros E. destruct (node_hash H _) as [[h2 m2]| | | |]; cbn [bind] in E; try discriminate E.
      destruct (node_to_hash m2) as [o| | | |]; cbn [bind] in E; try discriminate E. apply Ok_inj in E. injection E as <- <-. exact G2.
    + destruct (write_node s2 _) as [[n1 s3]| | | |] eqn:Ew; cbn [bind]; try discriminate. intros E.
      pose proof (buffers_harm _ _ _ _ (write_node_buffers _) F2 Ew) as G3.
      apply finish_harm in E; [|apply G3]. eapply harm_trans; [exact G2|]. eapply harm_trans; [exact G3|exact E].
  - destruct w as [w|].
    + cbn [bind negb]. intros E. destruct (node_hash H _) as [[h2 m2]| | | |]; cbn [bind] in E; try discriminate E.
      destruct (node_to_hash m2) as [o| | | |]; cbn [bind] in E; try discriminate E. apply Ok_inj in E. injection E as <- <-. apply Rf, F.
    + destruct (write_value s _) as [[n1 s1]| | | |] eqn:Ev; cbn [bind]; try discriminate.
      pose proof (buffers_harm _ _ _ _ (write_value_buffers _) F Ev) as G1.
      destruct (write_node s1 n1) as [[n2 s2]| | | |] eqn:Ew; cbn [bind]; try discriminate. intros E.
      pose proof (buffers_harm _ _ _ _ (write_node_buffers _) (proj1 G1) Ew) as G2.
      apply finish_harm in E; [|apply G2]. eapply harm_trans; [exact G1|]. eapply harm_trans; [exact G2|exact E].
  - intros E. apply Ok_inj in E. injection E as <- <-. apply Rf, F.
Qed.
(** A commit that fails, in any way. *)
Lemma commit_harm s n s' : fit s -> tree_commit H C s n = Ok (None, s') -> harm s s'.
Proof.
  intros F. unfold tree_commit. destruct (tree_write H s n) as [[o s1]| | | |] eqn:Et; cbn [bind]; try discriminate.
  pose proof (tree_write_harm _ _ _ _ F Et) as G1. destruct o as [root|]. 2:{ intros E. apply Ok_inj in E. injection E as <-. exact G1. }
  unfold store_commit. destruct (write_meta C s1 root) as [[mt s2]| | | |] eqn:Em; cbn [bind]; try discriminate.
  pose proof (buffers_harm _ _ _ _ (write_meta_buffers C root) (proj1 G1) Em) as G2.
  destruct (store_flush s2) as [[ok s3]| | | |] eqn:Ef; cbn [bind]; try discriminate.
  pose proof (flush_harm _ _ _ (proj1 G2) Ef) as G3. destruct ok; cbn [negb].
  - destruct (m_node mt); try (destruct (cache_insert _ _) as [cc| | | |]); cbn [bind]; discriminate.
  - cbn [bind]. intros E. apply Ok_inj in E. injection E as <-. eapply harm_trans; [exact G1|]. eapply harm_trans; eassumption.
Qed.
End F.
