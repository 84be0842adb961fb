(** * C28: concurrent readers and the table of open files. *)
From Verif Require Import Race.
From Coq Require Import ZifyBool ZifyNat ZifyN.

Lemma rx_cons g1 j g2 g3 : rstep j g1 g2 -> rexec g2 g3 -> rexec g1 g3.
Proof. intros S X. induction X; [econstructor; [constructor|exact S]|econstructor; eauto]. Qed.
Lemma nth_upd_r {A} (l : list A) j x i y : nth_error (upd l j x) i = Some y -> (j = i /\ y = x) \/ (j <> i /\ nth_error l i = Some y).
Proof.
  destruct (Nat.eq_dec j i) as [<-|N]; intros E.
  - left. split; [reflexivity|]. rewrite nth_error_upd_eq in E; [congruence|]. rewrite <- (upd_length l j x). apply nth_error_Some. congruence.
  - right. split; [exact N|]. rewrite nth_error_upd_neq in E by exact N. exact E.
Qed.

Lemma fm_insert_lookup s i f s' : fm_insert s i f = Ok s' -> fm_lookup s' i = Some f /\ findex s' = findex s /\ forall k, k <> i -> fm_lookup s' k = fm_lookup s k.
Proof.
  unfold fm_insert, check, fm_lookup. destruct (_ || _); [|discriminate].
  set (its := items s ++ repeat None (i + 1 - length (items s))).
  assert (Li : i < length its) by (unfold its; rewrite app_length, repeat_length; lia).
  assert (Q : forall k, nth k its None = nth k (items s) None).
  { intros k. unfold its. destruct (Nat.lt_ge_cases k (length (items s))) as [L|L]; [apply app_nth1; exact L|].
    rewrite app_nth2 by exact L. rewrite nth_repeat. symmetry. apply nth_overflow. exact L. }
  clearbody its. destruct (nth i its None); [discriminate|]. intros E. injection E as <-. cbn [items findex].
  assert (U : forall x k, nth k (upd its i x) None = if k =? i then x else nth k its None).
  { intros x. clear - Li. revert i Li. induction its as [|o its IH]; intros i L [|k]; cbn [length] in L; try lia; destruct i as [|i]; cbn [upd nth Nat.eqb]; try reflexivity.
    apply IH. lia. }
  split; [rewrite U, Nat.eqb_refl; reflexivity|]. split; [reflexivity|]. intros k N. rewrite U. destruct (Nat.eqb_spec k i); [congruence|apply Q].
Qed.

Lemma fm_insert_abort s i f f' : fm_lookup s i = Some f' -> fm_insert s i f = Abort.
Proof.
  unfold fm_lookup, fm_insert, check. intros L. assert (Li : i < length (items s)).
  { destruct (Nat.lt_ge_cases i (length (items s))) as [Q|Q]; [exact Q|]. rewrite nth_overflow in L by exact Q. discriminate. }
  destruct (_ || _); [|reflexivity]. rewrite app_nth1 by exact Li. rewrite L. reflexivity.
Qed.

(** ** The step model agrees with Evict.v's urkel_store_open_file for a thread alone. *)
Theorem C28_alone_agrees :
  forall rnd s i is ok s' r, open_file rnd s i false ok = Ok (s', r) -> rexec (Running s [RNext (i :: is)]) (Running s' [RNext is]).
Proof.
  intros rnd s i is ok s' r. unfold open_file. destruct ((i =? 0) || (findex s + 1 <? i)) eqn:B.
  - intros E. injection E as <- _. eapply rx_cons; [|constructor]. apply (rs_bad 0 s [RNext (i :: is)] i is eq_refl). lia.
  - assert (R : 1 <= i <= findex s + 1) by lia. destruct (fm_lookup s i) as [f|] eqn:L.
    + intros E. injection E as <- _. eapply rx_cons; [|constructor]. eapply (rs_hit 0 s [RNext (i :: is)] i is f eq_refl R L).
    + destruct ok; cbn [negb].
      * cbn [bind]. fold (set_fresh s (fresh s + 1)). destruct (fm_insert (set_fresh s (fresh s + 1)) i (fresh s)) as [s1|e| | |] eqn:I; try discriminate.
        cbn [bind]. intros E. injection E as <- _.
        eapply rx_cons; [apply (rs_miss 0 s [RNext (i :: is)] i is eq_refl R L)|]. cbn [upd].
        eapply rx_cons; [apply (rs_open 0 s [ROpening i is] i is eq_refl)|]. cbn [upd].
        eapply rx_cons; [eapply (rs_insert 0 _ [ROpened i (fresh s) is] i _ is s1 eq_refl I)|]. constructor.
      * intros E. injection E as <- _. eapply rx_cons; [apply (rs_miss 0 s [RNext (i :: is)] i is eq_refl R L)|]. cbn [upd].
        eapply rx_cons; [apply (rs_fail 0 s [ROpening i is] i is eq_refl)|]. constructor.
Qed.

(** ** C28: two threads reading from the same file that is not open can abort the process. *)
Theorem C28_abort_refuted :
  forall s ts j1 j2 i is1 is2,
  j1 <> j2 -> nth_error ts j1 = Some (RNext (i :: is1)) -> nth_error ts j2 = Some (RNext (i :: is2)) ->
  1 <= i <= findex s + 1 -> fm_lookup s i = None ->
  rexec (Running s ts) Aborted.
Proof.
  intros s ts j1 j2 i is1 is2 N E1 E2 R L.
  eapply rx_cons; [apply (rs_miss j1 s ts i is1 E1 R L)|].
  assert (L1 : j1 < length ts) by (apply nth_error_Some; congruence).
  assert (L2 : j2 < length ts) by (apply nth_error_Some; congruence).
  eapply rx_cons; [apply (rs_miss j2 s _ i is2); [rewrite nth_error_upd_neq by exact N; exact E2|exact R|exact L]|].
  eapply rx_cons; [apply (rs_open j1 s _ i is1); rewrite nth_error_upd_neq by congruence; apply nth_error_upd_eq; exact L1|].
  eapply rx_cons; [apply (rs_open j2 _ _ i is2); rewrite nth_error_upd_neq by exact N; apply nth_error_upd_eq; rewrite upd_length; exact L2|].
  set (s2 := set_fresh (set_fresh s (fresh s + 1)) (fresh (set_fresh s (fresh s + 1)) + 1)).
  set (ts2 := upd (upd _ j1 _) j2 _).
  assert (T1 : nth_error ts2 j1 = Some (ROpened i (fresh s) is1)).
  { unfold ts2. rewrite nth_error_upd_neq by congruence. apply nth_error_upd_eq. rewrite !upd_length. exact L1. }
  assert (T2 : nth_error ts2 j2 = Some (ROpened i (fresh (set_fresh s (fresh s + 1))) is2)).
  { unfold ts2. apply nth_error_upd_eq. rewrite !upd_length. exact L2. }
  clearbody ts2. destruct (fm_insert s2 i (fresh s)) as [s3|e| | |] eqn:I.
  - eapply rx_cons; [apply (rs_insert j1 s2 ts2 i (fresh s) is1 s3 T1 I)|].
    eapply rx_cons; [|constructor]. eapply (rs_abort j2); [rewrite nth_error_upd_neq by exact N; exact T2|].
    eapply fm_insert_abort. apply (fm_insert_lookup _ _ _ _ I).
  - exfalso. revert I. unfold fm_insert, check. destruct (_ || _); [|discriminate]. destruct (nth i _ None); discriminate.
  - eapply rx_cons; [|constructor]. eapply (rs_abort j1); [exact T1|exact I].
  - exfalso. revert I. unfold fm_insert, check. destruct (_ || _); [|discriminate]. destruct (nth i _ None); discriminate.
  - exfalso. revert I. unfold fm_insert, check. destruct (_ || _); [|discriminate]. destruct (nth i _ None); discriminate.
Qed.
(** After opening a database with two data files only the second one is open: two threads that
    look up keys stored in the first one. *)
Example C28_nonvacuous : exists s, finit (fun _ => 0%N) 2 = Ok s /\ fm_lookup s 1 = None /\ 1 <= 1 <= findex s + 1 /\
  rexec (Running s [RNext [2; 1]; RNext [1]]) Aborted.
Proof.
  eexists. split; [reflexivity|]. split; [reflexivity|]. split; [cbn; lia|].
  eapply rx_cons; [eapply (rs_hit 0 _ _ 2 [1]); [reflexivity|cbn; lia|reflexivity]|]. cbn [upd].
  apply (C28_abort_refuted _ _ 0 1 1 [] []); [lia|reflexivity|reflexivity|cbn; lia|reflexivity].
Qed.

(** ** What does hold: no abort if each file that is not open yet is read by one thread only -
    in particular if all files are open (a database with one data file), or with one reader. *)
Definition pending (t : rthread) : list nat :=
  match t with RNext is => is | ROpening i is => i :: is | ROpened i _ is => i :: is end.
Definition started (ts : list rthread) : Prop := forall t, In t ts -> exists is, t = RNext is.
Definition owner (s : fstate) (ts : list rthread) : Prop :=
  forall i j1 j2 t1 t2, 1 <= i <= findex s + 1 -> fm_lookup s i = None ->
    nth_error ts j1 = Some t1 -> nth_error ts j2 = Some t2 -> In i (pending t1) -> In i (pending t2) -> j1 = j2.
Definition rinv (s : fstate) (ts : list rthread) : Prop :=
  owner s ts /\ (N.of_nat (findex s) + 1 < MAX_FILES)%N /\
  forall j t, nth_error ts j = Some t ->
    match t with RNext _ => True | ROpening i _ | ROpened i _ _ => 1 <= i <= findex s + 1 /\ fm_lookup s i = None end.

Lemma owner_less s ts j t t' : owner s ts -> nth_error ts j = Some t -> incl (pending t') (pending t) -> owner s (upd ts j t').
Proof.
  intros O E I i j1 j2 t1 t2 R L E1 E2 I1 I2. apply nth_upd_r in E1. apply nth_upd_r in E2.
  destruct E1 as [[<- ->]|[N1 E1]], E2 as [[<- ->]|[N2 E2]]; eauto.
Qed.
Lemma rinv_step s ts j g : rinv s ts -> rstep j (Running s ts) g -> exists s' ts', g = Running s' ts' /\ rinv s' ts'.
Proof.
  intros (O & M & P) S. remember (Running s ts) as g0 eqn:E0. destruct S as
    [s0 ts0 i is E B|s0 ts0 i is f E R L|s0 ts0 i is E R L|s0 ts0 i is E|s0 ts0 i is E|s0 ts0 i f is s' E I|s0 ts0 i f is E I];
    injection E0 as -> ->; try (do 2 eexists; split; [reflexivity|]); try (split; [|split; [exact M|]]).
  - eapply owner_less; [exact O|exact E|]. intros x Ix. now right.
  - intros j' t E'. apply nth_upd_r in E'. destruct E' as [[<- ->]|[N E']]; [exact Logic.I|eapply P, E'].
  - eapply owner_less; [exact O|exact E|]. intros x Ix. now right.
  - intros j' t E'. apply nth_upd_r in E'. destruct E' as [[<- ->]|[N E']]; [exact Logic.I|eapply P, E'].
  - eapply owner_less; [exact O|exact E|]. intros x Ix. exact Ix.
  - intros j' t E'. apply nth_upd_r in E'. destruct E' as [[<- ->]|[N E']]; [auto|eapply P, E'].
  - eapply owner_less; [exact O|exact E|]. intros x Ix. now right.
  - intros j' t E'. apply nth_upd_r in E'. destruct E' as [[<- ->]|[N E']]; [exact Logic.I|eapply P, E'].
  - change (owner s (upd ts j (ROpened i (fresh s) is))). eapply owner_less; [exact O|exact E|]. intros x Ix. exact Ix.
  - intros j' t E'. apply nth_upd_r in E'. destruct E' as [[<- ->]|[N E']]; [exact (P _ _ E)|exact (P _ _ E')].
  - destruct (fm_insert_lookup _ _ _ _ I) as (L1 & F1 & K). destruct (P _ _ E) as [R L]. split; [|split; [rewrite F1; exact M|]].
    + intros k j1 j2 t1 t2 Rk Lk E1 E2 I1 I2. destruct (Nat.eq_dec k i) as [->|N]; [congruence|]. rewrite K in Lk by exact N. rewrite F1 in Rk.
      apply (owner_less s ts j _ (RNext is) O E ltac:(intros x Ix; now right) k j1 j2 t1 t2 Rk Lk E1 E2 I1 I2).
    + intros j' t E'. apply nth_upd_r in E'. destruct E' as [[<- ->]|[N E']]; [exact Logic.I|].
      assert (Dif : forall i', In i' (pending t) -> 1 <= i' <= findex s + 1 -> i' <> i).
      { intros i' Ii Ri ->. apply N. eapply (O i j j'); [exact Ri|exact L|exact E|exact E'|now left|exact Ii]. }
      pose proof (P _ _ E') as Pt. destruct t as [is'|i' is'|i' f' is']; [exact Logic.I| |]; rewrite F1; (split; [apply Pt|]);
        rewrite K; try apply Pt; apply Dif; try (now left); apply Pt.
  - exfalso. destruct (P _ _ E) as [R L]. revert I. unfold fm_insert, check.
    replace ((i <? length (items s)) || (N.of_nat i <? MAX_FILES)%N) with true by (symmetry; unfold MAX_FILES in *; lia).
    replace (nth i (items s ++ _) None) with (@None nat); [discriminate|]. symmetry.
    unfold fm_lookup in L. destruct (Nat.lt_ge_cases i (length (items s))) as [Q|Q]; [rewrite app_nth1 by exact Q; exact L|].
    rewrite app_nth2 by exact Q. apply nth_repeat.
Qed.

Theorem C28_no_abort_partial :
  forall s ts g, started ts -> owner s ts -> (N.of_nat (findex s) + 1 < MAX_FILES)%N ->
  rexec (Running s ts) g -> g <> Aborted.
Proof.
  intros s ts g St O M X. assert (Q : exists s' ts', g = Running s' ts' /\ rinv s' ts').
  { remember (Running s ts) as g0 eqn:E0. induction X as [|g1 j g2 X IH S].
    - exists s, ts. split; [exact E0|]. split; [exact O|]. split; [exact M|]. intros j t E. destruct (St t (nth_error_In _ _ E)) as (is & ->). exact Logic.I.
    - destruct IH as (s1 & ts1 & -> & I). eapply rinv_step; eauto. }
  destruct Q as (s' & ts' & -> & _). discriminate.
Qed.
(** A database with one data file, any number of readers. *)
Theorem C28_one_file_partial :
  forall rnd s is_s g, finit rnd 1 = Ok s -> Forall (fun is => ~ In 2 is) is_s ->
  rexec (Running s (map RNext is_s)) g -> g <> Aborted.
Proof.
  intros rnd s is_s g F N X. assert (Es : items s = [None; Some 0] /\ findex s = 1).
  { revert F. unfold finit, open_file. cbn. intros F. injection F as <-. cbn. auto. }
  destruct Es as [Ei Ef]. apply (C28_no_abort_partial s (map RNext is_s)).
  - intros t It. apply in_map_iff in It. destruct It as (is & <- & _). eauto.
  - intros i j1 j2 t1 t2 R L E1 E2 I1 I2. exfalso. unfold fm_lookup in L. rewrite Ei in L. rewrite Ef in R.
    assert (i = 2) as -> by (destruct i as [|[|[|i]]]; cbn in L; try discriminate; lia).
    rewrite nth_error_map in E1. destruct (nth_error is_s j1) as [is|] eqn:En; [|discriminate]. injection E1 as <-. cbn [pending] in I1.
    rewrite Forall_forall in N. exact (N is (nth_error_In _ _ En) I1).
  - rewrite Ef. reflexivity.
  - exact X.
Qed.
Example C28_partial_nonvacuous : exists s, finit (fun _ => 0%N) 2 = Ok s /\ started [RNext [2; 1; 1]; RNext [2; 0; 2]; RNext [7; 2]] /\
  owner s [RNext [2; 1; 1]; RNext [2; 0; 2]; RNext [7; 2]].
Proof.
  eexists. split; [reflexivity|]. split; [intros t [<-|[<-|[<-|[]]]]; eauto|].
  intros i j1 j2 t1 t2 R L E1 E2 I1 I2. cbn [findex finit] in R. cbn in R.
  assert (Q : i = 1 \/ i = 3) by (destruct i as [|[|[|[|i]]]]; cbn in L; try discriminate; lia).
  destruct j1 as [|[|[|j1]]], j2 as [|[|[|j2]]]; cbn in E1, E2; try reflexivity; try (destruct j1; discriminate); try (destruct j2; discriminate);
    injection E1 as <-; injection E2 as <-; cbn in I1, I2; intuition lia.
Qed.
