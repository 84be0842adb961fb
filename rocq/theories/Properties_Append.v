(** * C64: what has been written is never changed. *)
From Verif Require Import Backup FaultFacts Properties_Lost Properties_Db Properties_Hist Properties_Backup Demo.
From Coq Require Import ZifyBool ZifyNat ZifyN.

Lemma apply_all_within ops : forall fs, Forall appending ops -> within fs (apply_ops fs ops).
Proof.
  induction ops as [|o ops IH]; intros fs F; [apply within_refl|]. inversion F; subst.
  eapply within_trans; [apply apply_within; eassumption|]. apply (IH (apply_op fs o)). assumption.
Qed.

(** ** C64, one session: any database, any calls, any failures of system calls.  The bytes that
    are in the data files stay as and where they are; at no moment, also in the middle
    of a call ([A]: after any part of the operations), is one of them missing or different. *)
Theorem C64_session : forall (H : bytes -> bytes) (C : bytes -> bytes -> bytes) cs w l w1,
  ~ In CReopen cs -> run H C w cs = Ok (l, w1) ->
  within (files w) (files w1) /\
  exists ops, log w1 = log w ++ ops /\ forall A, crash (files w) ops A -> within (files w) A.
Proof.
  intros H C cs w l w1 N E.
  assert (X : exists ops, log w1 = log w ++ ops /\ Forall appending ops /\ files w1 = apply_ops (files w) ops).
  { revert w l w1 N E. induction cs as [|c cs IH]; intros w l w1 N; cbn [run].
    - intros E. apply Ok_inj in E. injection E as _ <-. exists []. rewrite app_nil_r. auto.
    - destruct (step H C w c) as [[a w2]| | | |] eqn:Es; cbn [bind]; try discriminate.
      destruct (run H C w2 cs) as [[l2 w3]| | | |] eqn:Er; cbn [bind]; try discriminate. intros E. apply Ok_inj in E. injection E as _ <-.
      destruct (step_appends H C w c a w2) as (o1 & L1 & A1 & P1); [intros ->; apply N; now left|exact Es|].
      destruct (IH w2 l2 w3) as (o2 & L2 & A2 & P2); [intros X; apply N; now right|exact Er|].
      exists (o1 ++ o2). rewrite L2, L1, app_assoc. split; [reflexivity|]. split; [apply Forall_app; auto|].
      rewrite P2, P1. unfold apply_ops. rewrite fold_left_app. reflexivity. }
  destruct X as (ops & L & Ap & P). split; [rewrite P; apply apply_all_within, Ap|]. exists ops. split; [exact L|].
  intros A Cr. eapply crash_within; eassumption.
Qed.

(** ** C64, opening: whatever is in the directory, opening only cuts the ends of files and removes
    the last ones; also when it dies or fails. *)
Definition shrinking (o : fop) : Prop := match o with OCut _ _ | ODrop => True | _ => False end.
Lemma nth_removelast (A : list bytes) i : nth i (removelast A) [] = nth i A [] \/ nth i (removelast A) [] = [].
Proof.
  destruct (Nat.lt_ge_cases i (length A - 1)) as [L|L].
  - left. destruct A as [|a A] using rev_ind; [reflexivity|]. rewrite removelast_last. rewrite app_length in L. cbn [length] in L. now rewrite app_nth1 by lia.
  - right. apply nth_overflow. destruct A as [|a A] using rev_ind; [cbn; lia|]. rewrite removelast_last. rewrite app_length in L. cbn [length] in L. lia.
Qed.
Lemma shrink_within fs o : shrinking o -> within (apply_op fs o) fs.
Proof.
  destruct o as [|i x|i n|]; try contradiction; intros _; cbn [apply_op]; split.
  - rewrite Prelude.upd_length. lia.
  - intros j. revert i j. unfold fget. induction fs as [|f fs IH]; intros i j.
    + exists []. rewrite app_nil_r. destruct i; reflexivity.
    + destruct i as [|i], j as [|j]; cbn [upd nth].
      * exists (skipn n f). symmetry. apply firstn_skipn.
      * exists []. now rewrite app_nil_r.
      * exists []. now rewrite app_nil_r.
      * apply IH.
  - destruct fs as [|f fs] using rev_ind; [cbn; lia|]. rewrite removelast_last, app_length. cbn [length]. lia.
  - intros i. destruct (nth_removelast fs i) as [-> | ->]; [exists []; now rewrite app_nil_r|eexists; reflexivity].
Qed.
Lemma shrink_crash fs ops A : crash fs ops A -> Forall shrinking ops -> within A fs.
Proof.
  induction 1 as [fs ops|fs i x n ops|fs o ops A Cr IH]; intros F; [apply within_refl|inversion F; contradiction|].
  inversion F; subst. eapply within_trans; [apply IH; assumption|]. apply shrink_within. assumption.
Qed.
Lemma recover_shrinks C key n : forall fs io fs' ops st m, recover C key n fs io = Ok (fs', ops, st, m) -> n = length fs ->
  Forall shrinking ops /\ fs' = apply_ops fs ops.
Proof.
  induction n as [|n IH]; intros fs io fs' ops st m; cbn [recover].
  - intros E _. apply Ok_inj in E. injection E as <- <- _ _. auto.
  - destruct (if hd false io then _ else _) as [[[m1 off]|]| | | |]; cbn [bind]; try discriminate.
    + intros E _. apply Ok_inj in E. injection E as <- <- _ _. split; [repeat constructor|reflexivity].
    + destruct (recover C key n (removelast fs) (tl io)) as [[[[fs2 o2] st2] m2]| | | |] eqn:Er; cbn [bind]; try discriminate.
      intros E L. apply Ok_inj in E. injection E as <- <- _ _.
      destruct (IH _ _ _ _ _ _ Er) as [F P].
      { destruct fs as [|f fs _] using rev_ind; [discriminate L|]. rewrite removelast_last. rewrite app_length in L. cbn [length] in L. lia. }
      split; [constructor; [exact I|exact F]|]. rewrite P. reflexivity.
Qed.
Lemma crash_app o2 : forall o1 fs A, crash fs (o1 ++ o2) A -> crash fs o1 A \/ crash (apply_ops fs o1) o2 A.
Proof.
  induction o1 as [|o o1 IH]; intros fs A Cr; [now right|]. cbn [app] in Cr. inversion Cr; subst.
  - left. constructor.
  - left. apply crash_torn.
  - match goal with X : crash _ (o1 ++ o2) _ |- _ => destruct (IH _ _ X) as [Y|Y] end; [left; now apply crash_later|right; exact Y].
Qed.

Theorem C64_open : forall (H : bytes -> bytes) (C : bytes -> bytes -> bytes) key A io d,
  A <> [] -> db_open H C key A io = Ok (Some d) ->
  within (st_fs (d_store d)) A /\ forall B, crash A (st_log (d_store d)) B -> within B A.
Proof.
  intros H C key A io d Ne. unfold db_open, store_open.
  destruct (recover C key (length A) A io) as [[[[fs ops] st] m]| | | |] eqn:Er; cbn [bind]; try discriminate.
  destruct (recover_shrinks _ _ _ _ _ _ _ _ _ Er eq_refl) as [F P].
  set (fo := match fs with [] => ([[]], ops ++ [ONew]) | _ => (fs, ops) end).
  assert (G : within (fst fo) A /\ forall B, crash A (snd fo) B -> within B A).
  { assert (W0 : forall B, crash A ops B -> within B A) by (intros B Cr; eapply shrink_crash; eassumption).
    assert (W1 : within fs A) by (apply W0; rewrite P; apply crash_end).
    assert (L : 0 < length A) by (destruct A; [congruence|cbn; lia]).
    unfold fo. destruct fs as [|f fs]; cbn [fst snd]; [|auto]. split.
    - split; [cbn; lia|]. intros i. exists (nth i A []). destruct i as [|[|i]]; reflexivity.
    - intros B Cr. apply crash_app in Cr. destruct Cr as [Cr|Cr]; [apply W0, Cr|]. rewrite <- P in Cr. inversion Cr as [| |? ? ? ? Cr']; subst.
      + exact W1.
      + inversion Cr'; subst. cbn [apply_op app]. split; [cbn; lia|]. intros i. exists (nth i A []). destruct i as [|[|i]]; reflexivity. }
  destruct fo as [fs2 ops2]. cbn [fst snd] in G. unfold check. destruct (_ <? MAX_FILES)%N; [|discriminate].
  set (s := mkstore _ _ _ _ _ _ _ _ _ _). destruct (read_root H s (m_root st)) as [[r s2]| | | |] eqn:Rr; cbn [bind]; try discriminate.
  apply (read_root_log H) in Rr. destruct Rr as [R1 R2]. destruct r as [r|]; cbn [bind]; [|discriminate].
  intros E. apply Ok_inj in E. injection E as <-. cbn [d_store set_state st_fs st_log]. rewrite R1, R2. exact G.
Qed.

(** ** C64, across sessions.  All that can follow a state [w0]: calls, system calls failing without
    effect, crashes and power failures as in [exec], beginning after [w0]. *)
Inductive onward (H : bytes -> bytes) (C : bytes -> bytes -> bytes) (key : bytes) (w0 : world) (sp0 : spec) : world -> spec -> Prop :=
| on_start : onward H C key w0 sp0 w0 sp0
| on_call w sp c a w' :
    onward H C key w0 sp0 w sp -> allowed H sp w c -> step H C w c = Ok (a, w') -> onward H C key w0 sp0 w' (snext H sp c a)
| on_faults w sp d io :
    onward H C key w0 sp0 w sp -> w_db w = Some d -> Forall clean_fault io ->
    onward H C key w0 sp0 (mkworld (Some (with_store d (set_io (d_store d) io))) (w_txs w)) sp
| on_crash w sp l w1 sp1 ops A B wi spi d :
    onward H C key w0 sp0 w sp -> quiet w -> s_failed sp = false -> aligned (files w) ->
    trail (move H C) w sp l w1 sp1 -> log w1 = log w ++ ops ->
    no_forgery C key (files w) (files w1) (map (fun x => files (fst x)) l) ->
    remains C key (files w) (files w1) ops A -> reopened H C key A B -> survivor A ((w, sp) :: l) (wi, spi) ->
    db_open H C key B [] = Ok (Some d) ->
    onward H C key w0 sp0 (mkworld (Some d) []) (crashed spi).

Lemma onward_ok H (HL : forall m, length (H m) = 32) C (CL : forall k m, length (C k m) = 20) key w0 sp0 w sp :
  exec H C key w0 sp0 -> onward H C key w0 sp0 w sp ->
  exec H C key w sp /\ within (files w0) (files w) /\ exists newer, s_hist sp = newer ++ s_hist sp0.
Proof.
  intros X O. induction O as [|w sp c a w' O (IH & Wi & x & Hx) A E|w sp d io O (IH & Wi & x & Hx) Ew F|w sp l w1 sp1 ops A B wi spi d O (IH & Wi & x & Hx) Q Fa Al T L NF Cr Ro Sv Eo].
  - split; [exact X|]. split; [apply within_refl|]. exists []. reflexivity.
  - split; [eapply ex_call; eassumption|]. split.
    + eapply within_trans; [exact Wi|]. assert (D : c = CReopen \/ c <> CReopen) by (destruct c; try (right; discriminate); now left).
      destruct D as [->|Nc].
      * (* reopening at a record cuts nothing *)
        pose proof (exec_sim H HL C CL _ _ _ IH) as S. destruct A as [CF [Fa Al]].
        destruct (sim_image H HL C CL key w sp S Fa Al) as (D & top & hist & W & EF & DI & A1 & A2 & A3 & A4 & A5).
        destruct (image_sim H HL C CL key D top hist W sp D DI) as (d' & Eo & _ & Ef); auto.
        { left. split; [exact A5|apply (noforge_refl H HL C CL)]. }
        destruct S as (d & D' & V & hist' & W' & Ew & K & S & _). unfold step in E. rewrite Ew in E. unfold files in EF. rewrite Ew in EF.
        rewrite K, EF, Eo in E. cbn [bind] in E. apply Ok_inj in E. injection E as _ <-. unfold files. rewrite Ew. cbn [w_db]. rewrite Ef, EF. apply within_refl.
      * destruct (step_appends H C _ _ _ _ Nc E) as (o & _ & Ap & ->). apply apply_all_within, Ap.
    + destruct (snext_hist H sp c a) as (y & ->). exists (y ++ x). rewrite Hx, app_assoc. reflexivity.
  - split; [eapply ex_faults; eassumption|]. split; [|exists x; exact Hx]. unfold files in *. rewrite Ew in Wi. exact Wi.
  - pose proof (exec_sim H HL C CL _ _ _ IH) as S. split; [eapply ex_crashes; eassumption|]. split.
    + destruct (crashes_ok H HL C CL key _ w sp l w1 sp1 ops A B wi spi (keeps_move H HL C CL key) S Q Fa Al T L NF Cr Ro Sv) as (d' & Eo' & _ & Ef).
      rewrite Eo in Eo'. apply Ok_inj in Eo'. injection Eo' as <-. eapply within_trans; [exact Wi|].
      replace (files (mkworld (Some d) [])) with (files wi) by (symmetry; exact Ef).
      apply (cut_within H HL C CL). destruct Sv as (l1 & l2 & El & _).
      apply (trail_mem H C key _ w sp l w1 sp1 (keeps_move H HL C CL key) T S Q Fa (wi, spi)). rewrite El. apply in_app_iff. right. now left.
    + destruct Sv as (l1 & l2 & El & _). destruct (trail_hist _ _ _ _ _ _ _ T wi spi) as (y & Hy). { rewrite El. apply in_app_iff. right. now left. }
      exists (y ++ x). cbn [crashed s_hist]. rewrite Hy, Hx, app_assoc. reflexivity.
Qed.

Theorem C64_for_ever_partial :
  forall (H : bytes -> bytes), (forall m, length (H m) = 32) ->
  forall (C : bytes -> bytes -> bytes), (forall k m, length (C k m) = 20) ->
  forall key w0 sp0 w sp, exec H C key w0 sp0 -> onward H C key w0 sp0 w sp ->
  within (files w0) (files w) /\
  (collision_free H sp -> forall r k, In r (s_hist sp0) -> length k = 32 ->
   exists w', step H C w (CGet k (Some (ref_root H r))) = Ok (found (lookup r k), w')).
Proof.
  intros H HL C CL key w0 sp0 w sp X O. destruct (onward_ok H HL C CL key w0 sp0 w sp X O) as (X1 & Wi & x & Hx).
  split; [exact Wi|]. intros CF r k I Lk.
  destruct (named_hist H HL C CL _ _ _ r X1 CF) as (l' & El' & Lu & _). { rewrite Hx. apply in_app_iff. now right. }
  rewrite <- (Lu k). destruct (ask_db H HL C CL _ _ _ (Some (ref_root H r)) l' k X1 CF El' Lk) as (w3 & _ & R & _). eauto.
Qed.

Lemma pick_last {A} (P : A -> Prop) a b c l1 x l2 : [a; b; c] = l1 ++ x :: l2 -> Forall (fun y => ~ P y) l2 -> P b -> x = b \/ x = c.
Proof.
  intros E N Pb. destruct l1 as [|y l1]; cbn [app] in E; injection E as E1 E.
  - rewrite <- E in N. inversion N; contradiction.
  - destruct l1 as [|y1 l1]; cbn [app] in E; injection E as E2 E; [now left|].
    destruct l1 as [|y2 l1]; cbn [app] in E; injection E as E3 E; [now right|]. destruct l1; discriminate E.
Qed.

(** The hypotheses are met: two commits, the process dying 100 bytes into the second, opening. *)
Example C64_nonvacuous : exists w sp,
  exec toy toyC dkey (pw demo) (ps demo) /\ onward toy toyC dkey (pw demo) (ps demo) w sp /\ s_hist sp <> s_hist (ps demo).
Proof.
  destruct C19_history_nonvacuous as (X1 & X2 & X3 & X4 & X5 & X6 & X7 & X8 & X9 & X10 & _ & L1 & L2 & _ & Nh). cbv zeta in *.
  destruct (remains_history toy toy_len toyC toyC_len dkey _ _ _ _ _ two_ops two_cut two_cut X1 X2 X3 X4 X5 X6 X7 X8 (or_introl X9) X10) as (d & wi & spi & Eo & Sv & _).
  exists (mkworld (Some d) []), (crashed spi). split; [exact X1|]. split.
  { eapply on_crash; [apply on_start|exact X2|exact X3|exact X4|exact X5|exact X7|exact X8|left; exact X9|exact X10|exact Sv|exact Eo]. }
  destruct Sv as (l1 & l2 & El & Ki & Nk).
  assert (K1 : kept two_cut (two_w1, two_s1)).
  { split; [vm_compute; reflexivity|]. assert (G : exists f x, files two_w1 = [f] /\ two_cut = [f ++ x]).
    { exists (nth 0 (files two_w1) []), (skipn 646 (nth 0 two_cut [])). split; vm_compute; reflexivity. }
    destruct G as (f & x & E1 & E2). unfold fst. rewrite E1, E2. split; [cbn; lia|]. intros [|[|i]]; cbn [nth]; [exists x|exists []|exists []]; reflexivity. }
  assert (Ls : spi = two_s1 \/ spi = two_s2).
  { destruct (pick_last (kept two_cut) _ _ _ _ _ _ El Nk K1) as [E|E]; [left|right]; exact (f_equal snd E). }
  intros E. apply (f_equal (@length _)) in E. cbn [crashed s_hist] in E.
  destruct Ls as [-> | ->]; revert E; vm_compute; discriminate.
Qed.
Print Assumptions C64_session.
Print Assumptions C64_open.
Print Assumptions C64_for_ever_partial.
