(** * C34: the number of open data files. *)
From Verif Require Import Evict.
From Coq Require Import Permutation ZifyBool ZifyNat ZifyN.

(** ** Specification *)

(** The files held open. *)
Definition held (s : fstate) : list nat := flat_map (fun o => match o with Some f => [f] | None => [] end) (items s).
(** The file being written is open in the table, under its number. *)
Definition writing (s : fstate) : Prop := exists c, fcurrent s = Some c /\ 1 <= findex s /\ nth (findex s) (items s) None = Some c.
(** Every file ever opened is either held, once, or was closed, once. *)
Definition accounted (s : fstate) : Prop := NoDup (held s ++ closed s) /\ forall f, In f (held s ++ closed s) <-> f < fresh s.

(** ** Facts *)
Definition hold (its : list (option nat)) : list nat := flat_map (fun o => match o with Some f => [f] | None => [] end) its.

Lemma hold_open its : forall i f, i < length its -> nth i its None = None -> Permutation (hold (upd its i (Some f))) (f :: hold its).
Proof.
  induction its as [|o its IH]; intros i f L N; cbn [length] in L; [lia|]. destruct i as [|i]; cbn [nth] in N; cbn [upd hold flat_map].
  - subst o. reflexivity.
  - fold (hold its). fold (hold (upd its i (Some f))). rewrite (IH i f) by (assumption || lia). destruct o; cbn [app]; [apply perm_swap|reflexivity].
Qed.
Lemma hold_close its : forall i f, nth i its None = Some f -> Permutation (hold its) (f :: hold (upd its i None)).
Proof.
  induction its as [|o its IH]; intros i f N; [destruct i; discriminate|]. destruct i as [|i]; cbn [nth] in N; cbn [upd hold flat_map].
  - subst o. reflexivity.
  - fold (hold its). fold (hold (upd its i None)). rewrite (IH i f) by assumption. destruct o; cbn [app]; [apply perm_swap|reflexivity].
Qed.
Lemma hold_nones its n : hold (its ++ repeat None n) = hold its.
Proof. unfold hold. rewrite flat_map_app. assert (E : flat_map (fun o : option nat => match o with Some f => [f] | None => [] end) (repeat None n) = []) by (induction n; auto). rewrite E. apply app_nil_r. Qed.
Lemma nth_grow (its : list (option nat)) n i : nth i (its ++ repeat None n) None = nth i its None.
Proof.
  destruct (Nat.lt_ge_cases i (length its)) as [L|L]; [apply app_nth1; exact L|]. rewrite app_nth2 by exact L. rewrite nth_repeat. symmetry. apply nth_overflow. exact L.
Qed.
Lemma nth_upd (its : list (option nat)) i j x : i < length its -> nth j (upd its i x) None = if j =? i then x else nth j its None.
Proof.
  revert i j. induction its as [|o its IH]; intros i j L; cbn [length] in L; [lia|]. destruct i as [|i], j as [|j]; cbn [upd nth Nat.eqb]; try reflexivity.
  apply IH. lia.
Qed.
Lemma hold_in its i f : nth i its None = Some f -> In f (hold its).
Proof.
  revert i. induction its as [|o its IH]; intros i N; [destruct i; discriminate|]. unfold hold. cbn [flat_map]. apply in_app_iff. destruct i as [|i]; cbn [nth] in N.
  - subst o. left. now left.
  - right. apply (IH i N).
Qed.

(** Entries that may be evicted. *)
Fixpoint cnt (its : list (option nat)) (off k : nat) : nat :=
  match its with
  | [] => 0
  | o :: its => (match o with Some _ => if off =? k then 0 else 1 | None => 0 end) + cnt its (S off) k
  end.
Lemma cnt_far its : forall off k, k < off -> cnt its off k = length (hold its).
Proof.
  induction its as [|o its IH]; intros off k L; [reflexivity|]. cbn [cnt hold flat_map]. rewrite app_length. rewrite IH by lia. unfold hold.
  destruct o; [|reflexivity]. destruct (Nat.eqb_spec off k); [lia|reflexivity].
Qed.
Lemma cnt_all its : forall off k c, nth k its None = Some c -> S (cnt its off (off + k)) = length (hold its).
Proof.
  induction its as [|o its IH]; intros off k c N; [destruct k; discriminate|]. cbn [cnt hold flat_map]. rewrite app_length. destruct k as [|k]; cbn [nth] in N.
  - subst o. rewrite Nat.add_0_r, Nat.eqb_refl. cbn [length]. rewrite cnt_far by lia. reflexivity.
  - specialize (IH (S off) k c N). replace (off + S k) with (S off + k) by lia. unfold hold in IH. destruct o; [destruct (Nat.eqb_spec off (S off + k)); [lia|]|]; cbn [length]; lia.
Qed.

Lemma pick_spec : forall n s i tries, i + n = length (items s) -> (tries < N.of_nat (cnt (skipn i (items s)) i (findex s)))%N ->
  exists j f, j <> findex s /\ fm_lookup s j = Some f /\ evict_pick n s i tries = close_file s j.
Proof.
  induction n as [|n IH]; intros s i tries L T.
  - rewrite skipn_all2 in T by lia. cbn in T. lia.
  - assert (E : skipn i (items s) = nth i (items s) None :: skipn (S i) (items s)).
    { assert (G : forall (l : list (option nat)) i, i < length l -> skipn i l = nth i l None :: skipn (S i) l).
      { clear. induction l as [|x l IH]; intros i L; cbn [length] in L; [lia|]. destruct i as [|i]; [reflexivity|]. cbn [skipn nth]. rewrite (IH i) by lia. reflexivity. }
      apply G. lia. }
    rewrite E in T. cbn [cnt] in T. cbn [evict_pick]. change (fm_lookup s i) with (nth i (items s) None). destruct (nth i (items s) None) as [f|] eqn:X.
    + destruct (Nat.eqb_spec i (findex s)) as [Y|Y].
      * replace (i + 1) with (S i) by lia. apply IH; [lia|]. lia.
      * destruct (N.eqb_spec tries 0) as [->|Z].
        -- exists i, f. auto.
        -- replace (i + 1) with (S i) by lia. apply IH; [lia|]. lia.
    + replace (i + 1) with (S i) by lia. apply IH; [lia|]. lia.
Qed.

Record finv (n : nat) (s : fstate) : Prop := {
  fi_size : fsize s = length (held s);
  fi_zero : nth 0 (items s) None = None;
  fi_len : length (items s) <= findex s + 2;
  fi_nodup : NoDup (held s ++ closed s);
  fi_acc : forall f, In f (held s ++ closed s) <-> f < n }.

(** How a state may change while the file being written stays. *)
Definition shrinks (s t : fstate) : Prop := findex t = findex s /\ fcurrent t = fcurrent s /\ fresh t = fresh s /\ length (items t) = length (items s) /\
  nth (findex s) (items t) None = nth (findex s) (items s) None /\ forall i, nth i (items t) None = nth i (items s) None \/ nth i (items t) None = None.

Lemma close_shrinks n s j f : finv n s -> writing s -> j <> findex s -> fm_lookup s j = Some f ->
  finv n (close_file s j) /\ writing (close_file s j) /\ fsize (close_file s j) = fsize s - 1 /\ shrinks s (close_file s j).
Proof.
  intros [Z0 Zz Zl Nd Fr] (c & Ec & I1 & Nc) Nj Ej. unfold close_file. rewrite Ej. rewrite Ec. unfold fm_lookup in Ej.
  assert (Lj : j < length (items s)).
  { destruct (Nat.lt_ge_cases j (length (items s))) as [L|L]; [exact L|]. rewrite nth_overflow in Ej by exact L. discriminate. }
  pose proof (hold_close _ _ _ Ej) as P. change (hold (items s)) with (held s) in P.
  assert (Cf : c <> f).
  { intros ->. assert (Nd' : NoDup (held s)). { clear - Nd. induction (held s) as [|x l IH]; [constructor|]. cbn [app] in Nd. inversion Nd as [|? ? X Y]; subst. constructor; [intros I; apply X, in_app_iff; now left|apply IH, Y]. }
    rewrite P in Nd'. inversion Nd' as [|? ? X Y]; subst. apply X. apply (hold_in _ (findex s)). rewrite nth_upd by exact Lj.
    destruct (Nat.eqb_spec (findex s) j); [congruence|exact Nc]. }
  destruct (Nat.eqb_spec c f); [contradiction|].
  split; [|split; [|split; [reflexivity|]]].
  - constructor; unfold held; cbn [items fsize findex closed fresh].
    + apply Permutation_length in P. cbn [length] in P. unfold hold in P. lia.
    + rewrite nth_upd by exact Lj. destruct (0 =? j); auto.
    + rewrite upd_length. exact Zl.
    + assert (P' : Permutation (held s ++ closed s) (hold (upd (items s) j None) ++ f :: closed s)).
      { rewrite P. cbn [app]. apply Permutation_middle. }
      fold (hold (upd (items s) j None)). rewrite <- P'. exact Nd.
    + assert (P' : Permutation (held s ++ closed s) (hold (upd (items s) j None) ++ f :: closed s)).
      { rewrite P. cbn [app]. apply Permutation_middle. }
      fold (hold (upd (items s) j None)).
      intros g. rewrite <- Fr. split; intros I; [rewrite P'|rewrite <- P']; exact I.
  - exists c. cbn [items findex fcurrent]. split; [reflexivity|]. split; [exact I1|]. rewrite nth_upd by exact Lj. destruct (Nat.eqb_spec (findex s) j); [congruence|exact Nc].
  - repeat split; cbn [items findex fcurrent fresh]; [symmetry; exact Ec|apply upd_length| |].
    + rewrite nth_upd by exact Lj. destruct (Nat.eqb_spec (findex s) j); [congruence|reflexivity].
    + intros i. rewrite nth_upd by exact Lj. destruct (i =? j); auto.
Qed.

Lemma shrinks_trans s t u : shrinks s t -> shrinks t u -> shrinks s u.
Proof.
  intros (A1 & A2 & A3 & A4 & A5 & A6) (B1 & B2 & B3 & B4 & B5 & B6). rewrite A1 in B5. repeat split; try congruence.
  intros i. destruct (B6 i) as [->|X]; [apply A6|right; exact X].
Qed.
Lemma shrinks_refl s : shrinks s s.
Proof. repeat split; auto. Qed.

Lemma evict_spec rnd n : forall fuel s, finv n s -> writing s -> fsize s <= fuel -> exists t, evict fuel rnd s = Ok t /\ finv n t /\ writing t /\
  shrinks s t /\ fsize t = Nat.min (fsize s) 32.
Proof.
  induction fuel as [|fuel IH]; intros s I W L; cbn [evict]; unfold MAX_OPEN_FILES.
  - destruct (Nat.leb_spec (fsize s) 32); [|lia]. exists s. split; [reflexivity|]. split; [exact I|]. split; [exact W|]. split; [apply shrinks_refl|lia].
  - destruct (Nat.leb_spec (fsize s) 32) as [G|G].
    { exists s. split; [reflexivity|]. split; [exact I|]. split; [exact W|]. split; [apply shrinks_refl|lia]. }
    set (s1 := {| items := items s; fsize := fsize s; findex := findex s; fcurrent := fcurrent s; fresh := fresh s; closed := closed s; rpos := rpos s + 1 |}).
    assert (I1 : finv n s1). { destruct I as [A B C D E]. constructor; assumption. }
    assert (W1 : writing s1) by exact W.
    assert (S1 : shrinks s s1) by (repeat split; auto).
    destruct (pick_spec (length (items s) - 1) s1 1 (rnd (rpos s) mod N.of_nat (fsize s - 1))%N) as (j & f & Nj & Ej & E).
    + cbn [items s1]. destruct W as (c & _ & _ & X). destruct (items s); [destruct (findex s); discriminate|cbn; lia].
    + cbn [items findex s1]. destruct W as (c & _ & Ge & X). destruct I as [Zs Zz _ _ _].
      destruct (items s) as [|o its] eqn:Ei; [destruct (findex s); discriminate|]. cbn [nth] in Zz. subst o.
      assert (Q : S (cnt (None :: its) 0 (0 + findex s)) = fsize s). { rewrite Zs. unfold held. rewrite Ei. eapply (cnt_all _ 0). exact X. }
      cbn [cnt] in Q. change (skipn 1 (None :: its)) with its. change (0 + findex s) with (findex s) in Q.
      pose proof (N.mod_lt (rnd (rpos s)) (N.of_nat (fsize s - 1))) as M. clear - Q M G. generalize dependent (rnd (rpos s) mod N.of_nat (fsize s - 1))%N. intros m M. assert (X : N.of_nat (fsize s - 1) <> 0%N) by lia. specialize (M X). lia.
    + fold s1. cbn [items s1] in E |- *. rewrite E. destruct (close_shrinks n s1 j f I1 W1 Nj Ej) as (I2 & W2 & Z2 & S2).
      destruct (IH (close_file s1 j) I2 W2) as (t & Et & It & Wt & St & Zt); [rewrite Z2; cbn [fsize s1]; lia|].
      exists t. split; [exact Et|]. split; [exact It|]. split; [exact Wt|]. split; [eapply shrinks_trans; [exact S1|eapply shrinks_trans; eassumption]|].
      rewrite Zt, Z2. cbn [fsize s1]. lia.
Qed.

(** A file entering the table. *)
Lemma insert_spec s i f : finv f s -> fm_lookup s i = None -> 1 <= i -> i <= findex s + 1 -> (N.of_nat i < MAX_FILES)%N ->
  exists t, fm_insert s i f = Ok t /\ finv (S f) t /\ nth i (items t) None = Some f /\ (forall j, j <> i -> nth j (items t) None = nth j (items s) None) /\
    findex t = findex s /\ fcurrent t = fcurrent s /\ fresh t = fresh s /\ closed t = closed s /\ fsize t = S (fsize s).
Proof.
  intros [Zs Zz Zl Nd Fr] Lk G1 G2 M. unfold fm_insert. apply N.ltb_lt in M. rewrite M, orb_true_r. cbn [check].
  set (its := items s ++ repeat None (i + 1 - length (items s))). assert (Hn : forall j, nth j its None = nth j (items s) None) by (intros j; apply nth_grow).
  rewrite (Hn i). unfold fm_lookup in Lk. rewrite Lk.
  assert (Li : i < length its) by (unfold its; rewrite app_length, repeat_length; lia).
  assert (P : Permutation (hold (upd its i (Some f))) (f :: held s)).
  { rewrite hold_open; [|exact Li|rewrite Hn; exact Lk]. unfold its. rewrite hold_nones. reflexivity. }
  eexists. split; [reflexivity|]. cbn [items findex fcurrent fresh closed fsize]. split; [|split; [|split; [|repeat split; lia]]].
  - constructor; unfold held; cbn [items fsize findex closed fresh]; fold (hold (upd its i (Some f))).
    + apply Permutation_length in P. cbn [length] in P. lia.
    + rewrite nth_upd by exact Li. destruct (Nat.eqb_spec 0 i); [lia|]. rewrite Hn. exact Zz.
    + rewrite upd_length. unfold its. rewrite app_length, repeat_length. lia.
    + rewrite P. cbn [app]. constructor; [|exact Nd]. intros I. apply Fr in I. lia.
    + intros g. rewrite P. cbn [app]. specialize (Fr g). split.
      * intros [<-|I]; [lia|]. apply Fr in I. lia.
      * intros I. destruct (Nat.eq_dec f g) as [->|N]; [now left|right]. apply Fr. lia.
  - rewrite nth_upd by exact Li. rewrite Nat.eqb_refl. reflexivity.
  - intros j Nj. rewrite nth_upd by exact Li. destruct (Nat.eqb_spec j i); [contradiction|apply Hn].
Qed.

Lemma open_spec rnd s i w ok : finv (fresh s) s -> writing s -> (N.of_nat (findex s + 1) < MAX_FILES)%N ->
  exists t f, open_file rnd s i w ok = Ok (t, f) /\ finv (fresh t) t /\ writing t /\ findex t = findex s /\ fcurrent t = fcurrent s /\
    (forall g, f = Some g -> nth i (items t) None = Some g).
Proof.
  intros I W M. unfold open_file. destruct ((i =? 0) || (findex s + 1 <? i)) eqn:B.
  { exists s, None. repeat (split; [auto; fail|]). discriminate. }
  destruct (fm_lookup s i) as [f|] eqn:Lk.
  { exists s, (Some f). repeat (split; [auto; fail|]). intros g [= <-]. exact Lk. }
  destruct ok; cbn [negb].
  2:{ exists s, None. repeat (split; [auto; fail|]). discriminate. }
  set (s1 := {| items := items s; fsize := fsize s; findex := findex s; fcurrent := fcurrent s; fresh := fresh s + 1; closed := closed s; rpos := rpos s |}).
  assert (I1 : finv (fresh s) s1). { destruct I as [A B' C D E]. constructor; assumption. }
  assert (W1 : writing s1) by exact W.
  assert (Ev : exists s2, (if w then evict (fsize s1) rnd s1 else Ok s1) = Ok s2 /\ finv (fresh s) s2 /\ writing s2 /\ shrinks s1 s2).
  { destruct w; [|exists s1; repeat (split; [auto; fail|]); apply shrinks_refl].
    destruct (evict_spec rnd _ (fsize s1) s1 I1 W1 (Nat.le_refl _)) as (s2 & E2 & I2 & W2 & S2 & _). exists s2. auto. }
  destruct Ev as (s2 & E2 & I2 & W2 & (A1 & A2 & A3 & A4 & A5 & A6)). fold s1. rewrite E2. cbn [bind].
  cbn [items findex fcurrent fresh s1] in A1, A2, A3, A4, A5, A6.
  destruct (insert_spec s2 i (fresh s) I2) as (t & Et & It & Nt & Nj & B1 & B2 & B3 & _).
  - unfold fm_lookup in *. destruct (A6 i) as [X|X]; [rewrite X; exact Lk|exact X].
  - lia.
  - rewrite A1. lia.
  - clear - M B. lia.
  - rewrite Et. cbn [bind]. exists t, (Some (fresh s)). split; [reflexivity|]. split; [rewrite B3, A3, Nat.add_1_r; exact It|].
    split; [|split; [congruence|split; [congruence|intros g [= <-]; exact Nt]]].
    destruct W as (c & Ec & G & Nc). exists c. split; [congruence|]. rewrite B1, A1. split; [exact G|].
    rewrite Nj; [rewrite A5; exact Nc|]. intros <-. unfold fm_lookup in Lk. congruence.
Qed.

Lemma hold_inj its : NoDup (hold its) -> forall i j f, nth i its None = Some f -> nth j its None = Some f -> i = j.
Proof.
  induction its as [|o its IH]; intros N i j f A B; [destruct i; discriminate|]. unfold hold in N. cbn [flat_map] in N. fold (hold its) in N.
  destruct i as [|i], j as [|j]; cbn [nth] in A, B; [reflexivity| | |].
  - subst o. inversion N as [|? ? X _]; subst. destruct X. eapply hold_in, B.
  - subst o. inversion N as [|? ? X _]; subst. destruct X. eapply hold_in, A.
  - f_equal. apply (IH ltac:(destruct o; [inversion N; assumption|exact N]) i j f A B).
Qed.
Lemma NoDup_app_l {A} (a b : list A) : NoDup (a ++ b) -> NoDup a.
Proof. induction a as [|x a IH]; intros N; [constructor|]. inversion N as [|? ? X Y]; subst. constructor; [intros I; apply X, in_app_iff; now left|auto]. Qed.

Lemma step_spec rnd s o : finv (fresh s) s -> writing s -> (N.of_nat (findex s + 1) < MAX_FILES)%N ->
  exists t, fstep rnd s o = Ok t /\ finv (fresh t) t /\ writing t /\ findex t <= findex s + (match o with FRoll _ _ => 1 | _ => 0 end) /\
    (o = FCommit -> length (held t) = Nat.min (length (held s)) 32 /\ incl (held t) (held s)).
Proof.
  intros I W M. destruct o as [i ok|ok sync|]; cbn [fstep].
  - destruct (open_spec rnd s i false ok I W M) as (t & f & E & It & Wt & Ei & _). rewrite E. cbn [bind]. exists t. repeat (split; [auto; fail|]). split; [lia|discriminate].
  - destruct (open_spec rnd s (findex s + 1) true ok I W M) as (t & f & E & It & Wt & Ei & Ec & Nf). rewrite E. cbn [bind].
    destruct f as [f|]; [|exists t; repeat (split; [auto; fail|]); split; [lia|discriminate]].
    destruct sync; cbn [negb]; [|exists t; repeat (split; [auto; fail|]); split; [lia|discriminate]].
    specialize (Nf f eq_refl). destruct Wt as (c & Fc & G & Nc). destruct It as [Zs Zz Zl Nd Fr].
    assert (Lc : findex t < length (items t)).
    { destruct (Nat.lt_ge_cases (findex t) (length (items t))) as [L|L]; [exact L|]. rewrite nth_overflow in Nc by exact L. discriminate. }
    pose proof (hold_close _ _ _ Nc) as P. change (hold (items t)) with (held t) in P.
    assert (P' : Permutation (held t ++ closed t) (hold (upd (items t) (findex t) None) ++ c :: closed t)).
    { rewrite P. cbn [app]. apply Permutation_middle. }
    unfold close_file. unfold fm_lookup. rewrite Nc, Fc, Nat.eqb_refl.
    eexists. split; [reflexivity|]. cbn [items fsize findex fcurrent fresh closed].
    split; [|split; [|split; [lia|discriminate]]].
    + constructor; unfold held; cbn [items fsize findex closed fresh]; fold (hold (upd (items t) (findex t) None)).
      * apply Permutation_length in P. cbn [length] in P. lia.
      * rewrite nth_upd by exact Lc. destruct (0 =? findex t); auto.
      * rewrite upd_length. lia.
      * rewrite <- P'. exact Nd.
      * intros g. rewrite <- Fr. split; intros J; [rewrite P'|rewrite <- P']; exact J.
    + exists f. cbn [items findex fcurrent]. split; [reflexivity|]. split; [lia|]. rewrite nth_upd by exact Lc. destruct (Nat.eqb_spec (findex s + 1) (findex t)); [lia|exact Nf].
  - destruct (evict_spec rnd _ (fsize s) s I W (Nat.le_refl _)) as (t & E & It & Wt & (A1 & A2 & A3 & A4 & A5 & A6) & Z). exists t. split; [exact E|].
    rewrite A3. split; [exact It|]. split; [exact Wt|]. split; [lia|]. intros _. destruct I as [Zs _ _ _ _], It as [Zt _ _ _ _]. split; [lia|].
    unfold held. intros g J. apply in_flat_map in J. destruct J as (o & Io & Jo). destruct o as [f|]; [|destruct Jo]. destruct Jo as [<-|[]].
    apply (In_nth _ _ None) in Io. destruct Io as (j & _ & Ej). destruct (A6 j) as [X|X]; [|congruence]. rewrite Ej in X. symmetry in X. apply (hold_in _ j _ X).
Qed.

Definition rolls (os : list fop) : nat := length (filter (fun o => match o with FRoll _ _ => true | _ => false end) os).

(** ** The theorems *)

(** Eviction alone: for every random sequence it ends, keeps the file being written open,
    closes only files that were open, and leaves min(n, 32) of n. *)
Theorem C34_evict : forall rnd s, writing s -> accounted s -> fsize s = length (held s) -> nth 0 (items s) None = None -> length (items s) <= findex s + 2 ->
  exists t, evict (fsize s) rnd s = Ok t /\ writing t /\ fcurrent t = fcurrent s /\ findex t = findex s /\
    length (held t) = Nat.min (length (held s)) 32 /\ incl (held t) (held s) /\ accounted t.
Proof.
  intros rnd s W [Nd Fr] Zs Zz Zl. destruct (evict_spec rnd (fresh s) (fsize s) s) as (t & E & [A B C D F] & Wt & (A1 & A2 & A3 & A4 & A5 & A6) & Z); [constructor; assumption|exact W|lia|].
  exists t. split; [exact E|]. split; [exact Wt|]. split; [exact A2|]. split; [exact A1|]. split; [lia|]. split; [|split; [exact D|rewrite A3; exact F]].
  unfold held. intros g J. apply in_flat_map in J. destruct J as (o & Io & Jo). destruct o as [f|]; [|destruct Jo]. destruct Jo as [<-|[]].
  apply (In_nth _ _ None) in Io. destruct Io as (j & _ & Ej). destruct (A6 j) as [X|X]; [|congruence]. rewrite Ej in X. symmetry in X. apply (hold_in _ j _ X).
Qed.
Print Assumptions C34_evict.

(** From urkel_open on, whatever is read, written and committed in whatever order and
    whichever system calls fail: nothing aborts (as long as file numbers stay below 32766),
    the file being written is open and in the table, no file is leaked or closed twice, and
    after each commit at most 32 files are open. *)
Theorem C34_open_files : forall rnd i ops, 1 <= i -> (N.of_nat (i + rolls ops + 1) < MAX_FILES)%N ->
  exists s0 s, finit rnd i = Ok s0 /\ frun rnd s0 ops = Ok s /\ writing s /\ accounted s /\
    (forall before, ops = before ++ [FCommit] -> length (held s) <= 32).
Proof.
  intros rnd i ops G M.
  assert (I0 : exists s0, finit rnd i = Ok s0 /\ finv (fresh s0) s0 /\ writing s0 /\ findex s0 = i).
  { unfold finit, open_file. cbn [items fsize findex fcurrent fresh closed rpos]. destruct (Nat.eqb_spec i 0); [lia|]. destruct (Nat.ltb_spec (i + 1) i); [lia|]. cbn [orb].
    unfold fm_lookup. cbn [items]. replace (nth i [] None) with (@None nat) by (destruct i; reflexivity). cbn [negb bind evict fsize Nat.leb MAX_OPEN_FILES].
    set (s1 := {| items := []; fsize := 0; findex := i; fcurrent := None; fresh := 0 + 1; closed := []; rpos := 0 |}).
    destruct (insert_spec s1 i 0) as (t & Et & It & Nt & _ & B1 & B2 & B3 & _).
    - constructor; [reflexivity|reflexivity|cbn; lia|constructor|]. intros f. split; [intros []|lia].
    - unfold fm_lookup. cbn. destruct i; reflexivity.
    - exact G.
    - cbn. lia.
    - clear - M. lia.
    - rewrite Et. cbn [bind]. eexists. split; [reflexivity|]. cbn [fresh findex]. split; [|split; [|exact B1]].
      + rewrite B3. cbn [fresh s1]. destruct It as [A B C D E]. constructor; assumption.
      + exists 0. cbn [items fcurrent findex]. rewrite B1. cbn [findex s1]. auto. }
  destruct I0 as (s0 & E0 & Inv & W & Ei).
  assert (R : forall ops s, finv (fresh s) s -> writing s -> (N.of_nat (findex s + rolls ops + 1) < MAX_FILES)%N ->
    exists t, frun rnd s ops = Ok t /\ finv (fresh t) t /\ writing t /\ forall before, ops = before ++ [FCommit] -> length (held t) <= 32).
  { clear. induction ops as [|o ops IH]; intros s I W M.
    - exists s. repeat (split; [auto; fail|]). intros before E. destruct before; discriminate.
    - assert (M1 : (N.of_nat (findex s + 1) < MAX_FILES)%N) by (clear - M; unfold rolls in M; lia).
      destruct (step_spec rnd s o I W M1) as (t & E & It & Wt & L & Ct). cbn [frun]. rewrite E. cbn [bind].
      destruct (IH t It Wt) as (u & Eu & Iu & Wu & Cu).
      { clear - M L. unfold rolls in *. cbn [filter] in M. destruct o; cbn [length] in M; lia. }
      exists u. split; [exact Eu|]. split; [exact Iu|]. split; [exact Wu|]. intros before Eb. destruct before as [|b before].
      + injection Eb as -> ->. cbn [frun] in Eu. injection Eu as <-. destruct (Ct eq_refl) as [-> _]. lia.
      + injection Eb as -> Eb. eapply Cu, Eb. }
  destruct (R ops s0 Inv W) as (s & E & [A B C D F] & Ws & Cs); [rewrite Ei; exact M|].
  exists s0, s. split; [exact E0|]. split; [exact E|]. split; [exact Ws|]. split; [split; assumption|exact Cs].
Qed.
Print Assumptions C34_open_files.

(** Forty files are read, two written, then a commit. *)
Definition c34_ops : list fop := map (fun i => FRead i true) (seq 1 40) ++ [FRoll true true; FRoll true false; FRoll true true; FCommit].
Example c34_witness : exists s0 s, finit (fun k => N.of_nat (7 * k)) 40 = Ok s0 /\ frun (fun k => N.of_nat (7 * k)) s0 c34_ops = Ok s /\
  length (held s) = 32 /\ findex s = 42 /\ length (closed s) = 10.
Proof. vm_compute. eexists _, _. split; [reflexivity|]. split; [reflexivity|]. auto. Qed.
