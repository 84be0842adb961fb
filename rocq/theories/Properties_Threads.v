(** * C62: a crash of a program that uses one database from several threads. *)
From Verif Require Import Demo Properties_Hist.
From Verif Require Import Demo Properties_Hist Properties_Conc Conc ConcFacts.

Lemma snext_grows H sp c a : exists x, s_hist (snext H sp c a) = x ++ s_hist sp.
Proof.
  assert (Nil : forall sp', s_hist sp' = s_hist sp -> exists x, s_hist sp' = x ++ s_hist sp) by (intros sp' ->; exists []; reflexivity).
  destruct c as [|h|k ro|k ro|k v|k|k ro|ro|i|i|i|i h|i k|i k|i k v|i k|i k|i|]; cbn [snext]; try (apply Nil; reflexivity).
  - destruct (named H (s_hist sp) h); apply Nil; reflexivity.
  - destruct (commits sp (CInsert k v)) as [l|]; [exists [l]; reflexivity|apply Nil; reflexivity].
  - destruct (commits sp (CRemove k)) as [l|]; [exists [l]; reflexivity|apply Nil; reflexivity].
  - destruct (seen H sp ro); apply Nil; reflexivity.
  - destruct (named H (s_hist sp) h); apply Nil; reflexivity.
  - destruct (1023 <? length v); [apply Nil; reflexivity|]. destruct (txat sp i); apply Nil; reflexivity.
  - destruct (txat sp i) as [l|]; [destruct (lookup l k)|]; apply Nil; reflexivity.
  - destruct (commits sp (CTxCommit i)) as [l|]; [|apply Nil; reflexivity]. destruct a; try (apply Nil; reflexivity). exists [l]. reflexivity.
Qed.
Lemma after_grows H l : forall sp, exists x, s_hist (after_calls H sp l) = x ++ s_hist sp.
Proof.
  induction l as [|[c a] l IH]; intros sp; [exists []; reflexivity|]. rewrite after_cons. destruct (IH (snext H sp c a)) as (x & Ex).
  destruct (snext_grows H sp c a) as (y & Ey). exists (x ++ y). rewrite Ex, Ey. apply app_assoc.
Qed.

Section P.
Variable H : bytes -> bytes.
Hypothesis H_len : forall m, length (H m) = 32.
Variable C : bytes -> bytes -> bytes.
Hypothesis C_len : forall k m, length (C k m) = 20.

Lemma seq_fun w l w1 : seq H C w l w1 -> forall w2, seq H C w l w2 -> w2 = w1.
Proof.
  induction 1 as [|l w1 c a w2 S IH E]; intros w' S'.
  - remember [] as l eqn:El. destruct S' as [|l w1 c a w2 S' E]; [reflexivity|]. symmetry in El. apply app_cons_not_nil in El. contradiction.
  - destruct (seq_app H C _ _ _ _ S') as (v1 & S1 & S2). rewrite (IH _ S1) in S2.
    destruct (seq_cons H C _ _ _ _ S2) as (c0 & a0 & v2 & Ec & E2 & S3). injection Ec as <- <-. rewrite E in E2. apply Ok_inj in E2. injection E2 as <-.
    remember [] as l0 eqn:El. destruct S3 as [|l0 w3 c0 a0 w4 S3 E3]; [reflexivity|]. symmetry in El. apply app_cons_not_nil in El. contradiction.
Qed.
Lemma seq_ready key w sp l w' : exec H C key w sp -> seq H C w l w' -> lawful H sp l -> quiet w -> s_failed sp = false ->
  quiet w' /\ s_failed (after_calls H sp l) = false.
Proof.
  intros X S. induction S as [|l w1 c a w2 S IH E]; intros L Q F; [auto|].
  assert (L1 : lawful H sp l). { intros pre c' a' post El. subst l. apply (L pre c' a' (post ++ [(c, a)])). rewrite <- app_assoc. reflexivity. }
  destruct (IH L1 Q F) as [Q1 F1]. pose proof (seq_exec H C key w sp l w1 X S L1) as X1.
  assert (A : allowed H (after_calls H sp l) w1 c) by (eapply (L l c a []); reflexivity).
  destruct (exec_do H H_len C C_len _ _ _ _ X1 A) as (a' & w' & E' & G & _ & Q' & _). rewrite E in E'. apply Ok_inj in E'. injection E' as <- <-.
  split; [auto|]. rewrite after_app. exact (snext_failed H _ _ _ _ G Q1 F1).
Qed.
(** What one step of a thread does to the program state. *)
Lemma effects_app l e : effects (l ++ e) = effects l ++ effects e.
Proof. apply flat_map_app. Qed.
Lemma step_effect grant j g e g' : cstep H C grant j g e g' ->
  (effects e = [] /\ c_world g' = c_world g) \/ exists c a, effects e = [(c, a)].
Proof. destruct 1; try (left; split; reflexivity). right. eexists _, _. reflexivity. Qed.
End P.

(** ** C62.  [effects l] are the calls that had taken effect when a thread made its last step
    [e], during which the process died; some of the bytes written by that step are lost.
    The database opened afterwards holds the contents after the calls of [effects l], or of
    [effects (l ++ e)], made one after the other, and every commit among [effects l]. *)
Theorem C62_threads_crash_partial :
  forall (H : bytes -> bytes), (forall m, length (H m) = 32) ->
  forall (C : bytes -> bytes -> bytes), (forall k m, length (C k m) = 20) ->
  forall grant key w sp ps l g j e g' ops A B,
  exec H C key w sp -> quiet w -> s_failed sp = false -> Forall core_prog ps ->
  cexec H C grant (start w ps) l g -> cstep H C grant j g e g' ->
  lawful H sp (effects (l ++ e)) -> collision_free H (after_calls H sp (effects (l ++ e))) ->
  aligned (files (c_world g)) -> aligned (files (c_world g')) ->
  no_forgery C key (files (c_world g)) (files (c_world g')) [files (c_world g')] ->
  log (c_world g') = log (c_world g) ++ ops -> crash (files (c_world g)) ops A -> reopened H C key A B ->
  exists d sp', db_open H C key B [] = Ok (Some d) /\
    (sp' = after_calls H sp (effects l) \/ sp' = after_calls H sp (effects (l ++ e))) /\
    let w2 := mkworld (Some d) [] in
    exec H C key w2 (crashed sp') /\
    step H C w2 CRoot = Ok (AHash (ref_root H (hd [] (s_hist sp'))), w2) /\
    (forall k, length k = 32 -> exists w3, step H C w2 (CGet k None) = Ok (found (lookup (hd [] (s_hist sp')) k), w3)) /\
    (* what was committed before is there, under its root *)
    (forall l1 j' i l2 lc, l = l1 ++ (j', EEff (CTxCommit i) AOk) :: l2 -> txat (after_calls H sp (effects l1)) i = Some lc ->
       List.In lc (s_hist sp') /\
       forall k, length k = 32 -> exists w3, step H C w2 (CGet k (Some (ref_root H lc))) = Ok (found (lookup lc k), w3)).
Proof.
  intros H HL C CL grant key w sp ps l g j e g' ops A B X Q F Fp Cx Cs Lw CF Al Al1 NF El Cr Ro.
  pose proof (proj1 (C27_linearizable H C grant w ps l g Fp Cx)) as Sq.
  assert (Cx' : cexec H C grant (start w ps) (l ++ e) g') by (eapply cx_snoc; eassumption).
  pose proof (proj1 (C27_linearizable H C grant w ps _ g' Fp Cx')) as Sq'.
  assert (L0 : lawful H sp (effects l)).
  { intros pre c a po E. rewrite effects_app in Lw. apply (Lw pre c a (po ++ effects e)). rewrite E, <- app_assoc. reflexivity. }
  pose proof (seq_exec H C key w sp _ _ X Sq L0) as X0. destruct (seq_ready H HL C CL key w sp _ _ X Sq L0 Q F) as [Q0 F0].
  set (s0 := after_calls H sp (effects l)) in *.
  assert (M : exists c a, allowed H s0 (c_world g) c /\ c <> CReopen /\ step H C (c_world g) c = Ok (a, c_world g') /\
    snext H s0 c a = after_calls H sp (effects (l ++ e))).
  { rewrite effects_app, after_app. fold s0. destruct (step_effect H C grant j g e g' Cs) as [[Ee Ew]|(c & a & Ee)].
    - rewrite Ee. assert (CF0 : collision_free H s0). { rewrite effects_app, Ee, app_nil_r in CF. exact CF. }
      exists CRoot. destruct (exec_do H HL C CL _ _ _ CRoot X0 (conj CF0 Logic.I)) as (a & w' & E & _). exists a.
      split; [split; [exact CF0|exact Logic.I]|]. split; [discriminate|]. rewrite Ew. split; [|reflexivity].
      rewrite E. revert E. unfold step. destruct (w_db (c_world g)); [|discriminate]. intros E. apply Ok_inj in E. injection E as <- <-. reflexivity.
    - rewrite Ee. exists c, a. rewrite effects_app, Ee in Lw, Sq'. split; [eapply (Lw (effects l) c a []); reflexivity|].
      destruct (seq_app H C _ _ _ _ Sq') as (w1 & S1 & S2). rewrite (seq_fun H C _ _ _ Sq _ S1) in S2.
      destruct (seq_cons H C _ _ _ _ S2) as (c0 & a0 & v2 & Ec & E2 & S3). injection Ec as <- <-.
      assert (v2 = c_world g') as <-. { remember [] as l0 eqn:El0. destruct S3 as [|l0 w3 c0 a0 w4 S3 E3]; [reflexivity|]. symmetry in El0. apply app_cons_not_nil in El0. contradiction. }
      split; [|split; [exact E2|reflexivity]].
      assert (K : core c).
      { pose proof (inv_exec H C grant _ _ _ (inv_start w ps Fp) Cx) as [_ Gd]. clear - Cs Ee Gd.
        destruct Cs; cbn [effects flat_map snd app] in Ee; try discriminate Ee. injection Ee as <- <-. cbn [c_threads] in Gd.
        match goal with N : nth_error _ _ = Some _ |- _ => destruct (Gd _ _ N) as (f & ph & K1 & _) end. exact K1. }
      destruct c; try discriminate. contradiction K. }
  destruct M as (c & a & Aw & Nc & E & Sn).
  assert (CF1 : collision_free H (snext H s0 c a)) by (rewrite Sn; exact CF).
  destruct (C19_crash_atomic_partial H HL C CL key (c_world g) s0 c a (c_world g') ops A B X0 Aw CF1 Q0 F0 E El Nc Al Al1 NF Cr Ro)
    as (d & sp' & Eo & Es & X2 & Rt & Gt).
  exists d, sp'. split; [exact Eo|]. rewrite <- Sn. split; [exact Es|]. cbv zeta. split; [exact X2|]. split; [exact Rt|]. split; [exact Gt|].
  intros l1 j' i l2 lc Ell Tx.
  assert (I0 : List.In lc (s_hist s0)).
  { unfold s0. rewrite Ell, effects_app. change (effects ((j', EEff (CTxCommit i) AOk) :: l2)) with ((CTxCommit i, AOk) :: effects l2). rewrite after_app, after_cons.
    destruct (after_grows H (effects l2) (snext H (after_calls H sp (effects l1)) (CTxCommit i) AOk)) as (x & Ex). rewrite Ex. apply in_or_app. right.
    cbn [snext commits]. rewrite Tx. now left. }
  assert (I1 : List.In lc (s_hist sp')).
  { destruct Es as [->| ->]; [exact I0|]. destruct (snext_grows H s0 c a) as (x & Ex). rewrite Ex. apply in_or_app. right. exact I0. }
  split; [exact I1|]. intros k Lk.
  assert (CF2 : collision_free H (crashed sp')) by (destruct Es as [->| ->]; [exact (proj1 Aw)|exact CF1]).
  destruct (named_hist H HL C CL _ _ _ lc X2 CF2 I1) as (l' & El' & Lu & _). rewrite <- (Lu k).
  destruct (ask_db H HL C CL _ _ _ (Some (ref_root H lc)) l' k X2 CF2 El' Lk) as (w3 & _ & R & _). eauto.
Qed.

(** ** The hypotheses are met: one thread commits transaction 0, then looks up a key in it; the
    process dies while another thread commits transaction 2 and the lookup waits for the lock. *)
Definition two : list prog :=
  [PCall (CTxCommit 2) PDone; PCall (CTxCommit 0) (fun _ => PCall (CTxGet 0 kbar) PDone)].
Definition two_w1 : world := st_w (pw demo) (CTxCommit 0).
Definition two_w2 : world := st_w two_w1 (CTxCommit 2).
Definition two_ops : list fop := skipn (length (log two_w1)) (log two_w2).
Definition two_torn : list bytes := tear 200 (files two_w1) two_ops.
Lemma regs_same c w : valid_tx c w = true -> with_regs c w (w_db w, tx_value c w) = w.
Proof.
  intros V. unfold with_regs, tx_value, valid_tx in *. cbn [fst snd]. replace (if uses_tree c then w_db w else w_db w) with (w_db w) by (destruct (uses_tree c); reflexivity).
  destruct (tx_of c) as [i|]; [|destruct w; reflexivity]. apply Nat.ltb_lt in V. destruct w as [d txs]. cbn [w_db w_txs] in *. f_equal.
  clear - V. revert i V. induction txs as [|t txs IH]; intros [|i] V; cbn [length] in V; try lia; cbn [upd nth]; [reflexivity|]. f_equal. apply IH. lia.
Qed.
Example C62_nonvacuous : exists l g e g',
  exec toy toyC dkey (pw demo) (ps demo) /\ quiet (pw demo) /\ s_failed (ps demo) = false /\ Forall core_prog two /\
  cexec toy toyC (fun _ _ => True) (start (pw demo) two) l g /\ cstep toy toyC (fun _ _ => True) 0 g e g' /\
  effects l = [(CTxCommit 0, AOk)] /\ effects e = [(CTxCommit 2, AOk)] /\
  lawful toy (ps demo) (effects (l ++ e)) /\ collision_free toy (after_calls toy (ps demo) (effects (l ++ e))) /\
  aligned (files (c_world g)) /\ aligned (files (c_world g')) /\
  no_forgery toyC dkey (files (c_world g)) (files (c_world g')) [files (c_world g')] /\
  log (c_world g') = log (c_world g) ++ two_ops /\ crash (files (c_world g)) two_ops two_torn /\
  map (@length byte) (files (c_world g)) = [342] /\ map (@length byte) two_torn = [542] /\ map (@length byte) (files (c_world g')) = [684].
Proof.
  assert (G : conserving (fun _ _ => True)) by (intros g l _ (j & W); exists j; auto).
  assert (E1 : step toy toyC (pw demo) (CTxCommit 0) = Ok (AOk, two_w1)) by (apply st_ok; vm_compute; reflexivity).
  assert (E2 : step toy toyC two_w1 (CTxCommit 2) = Ok (AOk, two_w2)) by (apply st_ok; vm_compute; reflexivity).
  assert (V2 : valid_tx (CTxCommit 2) two_w1 = true) by (vm_compute; reflexivity).
  assert (Go : exists l g e g', cexec toy toyC (fun _ _ => True) (start (pw demo) two) l g /\ cstep toy toyC (fun _ _ => True) 0 g e g' /\
    effects l = [(CTxCommit 0, AOk)] /\ effects e = [(CTxCommit 2, AOk)] /\ c_world g = two_w1 /\ c_world g' = two_w2).
  { revert E1 E2 V2. generalize (pw demo) two_w1 two_w2. intros w w1 w2 E1 E2 V2. do 4 eexists. split; [|split; [|split; [|split; [|split]]]].
    - unfold start, two. cbn [map].
      eapply cexec_trans; [eapply (solo_call toy toyC _ G _ _ 1); [reflexivity| |exact Logic.I|exact E1]|].
      { intros [|[|j']] t Nj Et; cbn in Et; [injection Et as <-; eauto|congruence|destruct j'; discriminate Et]. }
      cbn [upd].
      eapply cexec_cons; [eapply (cs_call toy toyC _ 0); reflexivity|]. cbn [upd code].
      eapply cexec_cons; [eapply (cs_req toy toyC _ 0); reflexivity|]. cbn [upd].
      eapply cexec_cons; [eapply (cs_acq toy toyC _ 0); [reflexivity| |exact Logic.I]|]; [intros t l' m' [<-|[<-|[]]] []|]. cbn [upd].
      eapply cexec_cons; [eapply (cs_req toy toyC _ 0); reflexivity|]. cbn [upd].
      eapply cexec_cons; [eapply (cs_acq toy toyC _ 0); [reflexivity| |exact Logic.I]|];
        [intros t l' m' [<-|[<-|[]]]; [intros [Q|[]]; injection Q as <- <-; discriminate|intros []]|]. cbn [upd].
      eapply cexec_cons; [eapply (cs_load toy toyC _ 0); [reflexivity|exact V2]|]. cbn [upd].
      eapply cexec_cons; [eapply (cs_call toy toyC _ 1); reflexivity|]. cbn [upd code].
      eapply cexec_cons; [eapply (cs_req toy toyC _ 1); reflexivity|]. cbn [upd].
      eapply cexec_cons; [eapply (cs_acq toy toyC _ 1); [reflexivity| |exact Logic.I]|];
        [intros t l' m' [<-|[<-|[]]]; [intros [Q|[Q|[]]]; injection Q as <- <-; discriminate|intros []]|]. cbn [upd].
      eapply cexec_cons; [eapply (cs_req toy toyC _ 1); reflexivity|]. cbn [upd]. apply cx_nil.
    - eapply (cs_store toy toyC _ 0); [reflexivity|]. rewrite regs_same by exact V2. exact E2.
    - reflexivity.
    - reflexivity.
    - reflexivity.
    - reflexivity. }
  destruct Go as (l & g & e & g' & Cx & Cs & El & Ee & Eg & Eg'). exists l, g, e, g'. rewrite effects_app, El, Ee, Eg, Eg'. cbn [app].
  split; [exact exec_demo|]. split; [apply quiet_b_ok; vm_compute; reflexivity|]. split; [vm_compute; reflexivity|].
  split; [unfold two; repeat constructor|]. split; [exact Cx|]. split; [exact Cs|]. split; [reflexivity|]. split; [reflexivity|].
  split; [apply all_ok_lawful; [repeat constructor|vm_compute; reflexivity]|].
  split; [apply collision_free_b_ok; vm_compute; reflexivity|].
  split; [vm_compute; reflexivity|]. split; [vm_compute; reflexivity|]. split; [apply no_forgery_b_ok; vm_compute; reflexivity|].
  split; [vm_compute; reflexivity|]. split; [apply tear_crash|]. split; [vm_compute; reflexivity|]. split; vm_compute; reflexivity.
Qed.
