(** * C17, C19, C32: which commit is found again after closing or a crash, for every history
    and wherever the commit records are. *)
From Verif Require Import Rollover Properties_Db Properties_Hist Properties_Reopen.
From Coq Require Import ZifyBool ZifyNat ZifyN.

Lemma free_mono H sp sp' : (forall l, In l (s_hist sp) -> In l (s_hist sp')) -> collision_free H sp' -> collision_free H sp.
Proof.
  intros I [A B]. assert (J : forall m, In m (flat_map (ref_msgs H) (s_hist sp)) -> In m (flat_map (ref_msgs H) (s_hist sp'))).
  { intros m X. apply in_flat_map in X. destruct X as (l & Il & X). apply in_flat_map. eauto. }
  split; [intros a b Ia Ib; apply A; auto|intros a Ia; apply B; auto].
Qed.
Lemma trail_free H C w sp l w1 sp1 : trail (move H C) w sp l w1 sp1 -> collision_free H sp1 -> collision_free H (crashed sp).
Proof.
  intros T. apply free_mono. cbn [crashed s_hist]. induction T as [w sp|w sp w1 sp1 l w2 sp2 (c & a & _ & _ & _ & ->) T IH]; intros r I; [exact I|].
  apply IH. exact (proj1 (history_grows H sp c a r I)).
Qed.

Lemma remains_history :
  forall (H : bytes -> bytes), (forall m, length (H m) = 32) ->
  forall (C : bytes -> bytes -> bytes), (forall k m, length (C k m) = 20) ->
  forall key w sp l w1 sp1 ops A B,
  exec H C key w sp -> quiet w -> s_failed sp = false -> aligned (files w) ->
  trail (move H C) w sp l w1 sp1 -> collision_free H sp1 -> log w1 = log w ++ ops ->
  no_forgery C key (files w) (files w1) (map (fun x => files (fst x)) l) ->
  remains C key (files w) (files w1) ops A -> reopened H C key A B ->
  exists d wi spi, db_open H C key B [] = Ok (Some d) /\ survivor A ((w, sp) :: l) (wi, spi) /\
    let w2 := mkworld (Some d) [] in let r := hd [] (s_hist spi) in
    exec H C key w2 (crashed spi) /\
    step H C w2 CRoot = Ok (AHash (ref_root H r), w2) /\
    forall k, length k = 32 -> exists w3, step H C w2 (CGet k None) = Ok (found (lookup r k), w3).
Proof.
  intros H HL C CL key w sp l w1 sp1 ops A B X Q F Al T CF1 L NF Cr Ro.
  pose proof (exec_sim H HL C CL _ _ _ X) as S.
  destruct (trail_ok H C key _ w sp l w1 sp1 (keeps_move H HL C CL key) T S Q F) as (S1 & Q1 & F1 & E1 & All).
  assert (X1 : within (files w) A) by (destruct Cr as [Cr|[[Wi _] _]]; [apply (cut_within H HL C CL), (effect_crash _ _ _ _ E1 L Cr)|exact Wi]).
  destruct (survivor_exists A (w, sp) l) as ([wi spi] & Sv); [split; [exact Al|exact X1]|].
  destruct (crashes_ok H HL C CL key _ w sp l w1 sp1 ops A B wi spi (keeps_move H HL C CL key) S Q F Al T L NF Cr Ro Sv) as (d & Eo & _).
  pose proof (ex_crashes H C key w sp l w1 sp1 ops A B wi spi d X Q F Al T L NF Cr Ro Sv Eo) as X3.
  exists d, wi, spi. split; [exact Eo|]. split; [exact Sv|].
  assert (CF2 : collision_free H (crashed spi)).
  { destruct Sv as (l1 & l2 & E & _). exact (trail_free _ _ _ _ _ _ _ (trail_from _ _ _ _ _ _ T _ _ _ E) CF1). }
  split; [exact X3|]. split; [apply (ask_top H HL C CL _ _ _ X3 CF2)|]. intros k Lk.
  destruct (ask_db H HL C CL _ _ _ None _ k X3 CF2 eq_refl Lk) as (w3 & _ & R & _). eauto.
Qed.

(** The same for any number of calls made before the process dies, and without conditions
    on where their commit records are: opening shows the last state [spi] of the history that
    was written completely to the files that remain and whose commit record is at a multiple of 38 bytes. *)
Theorem C19_crash_history_partial :
  forall (H : bytes -> bytes), (forall m, length (H m) = 32) ->
  forall (C : bytes -> bytes -> bytes), (forall k m, length (C k m) = 20) ->
  forall key w sp l w1 sp1 ops A B,
  exec H C key w sp -> quiet w -> s_failed sp = false -> aligned (files w) ->
  trail (move H C) w sp l w1 sp1 -> collision_free H sp1 -> log w1 = log w ++ ops ->
  no_forgery C key (files w) (files w1) (map (fun x => files (fst x)) l) ->
  crash (files w) ops A -> reopened H C key A B ->
  exists d wi spi, db_open H C key B [] = Ok (Some d) /\ survivor A ((w, sp) :: l) (wi, spi) /\
    let w2 := mkworld (Some d) [] in let r := hd [] (s_hist spi) in
    exec H C key w2 (crashed spi) /\
    step H C w2 CRoot = Ok (AHash (ref_root H r), w2) /\
    forall k, length k = 32 -> exists w3, step H C w2 (CGet k None) = Ok (found (lookup r k), w3).
Proof.
  intros H HL C CL key w sp l w1 sp1 ops A B X Q F Al T CF1 L NF Cr Ro.
  exact (remains_history H HL C CL key w sp l w1 sp1 ops A B X Q F Al T CF1 L NF (or_introl Cr) Ro).
Qed.
Print Assumptions C19_crash_history_partial.

(** ** C17: closing and reopening finds the last state of the history whose commit record is at a
    multiple of 38 bytes; the commits behind it are lost, nothing else. *)
Theorem C17_reopen_exact_partial :
  forall (H : bytes -> bytes), (forall m, length (H m) = 32) ->
  forall (C : bytes -> bytes -> bytes), (forall k m, length (C k m) = 20) ->
  forall key w sp l w1 sp1,
  exec H C key w sp -> quiet w -> s_failed sp = false -> aligned (files w) ->
  trail (move H C) w sp l w1 sp1 -> collision_free H sp1 ->
  no_forgery C key (files w) (files w1) (map (fun x => files (fst x)) l) ->
  exists before wi spi lost w2, (w, sp) :: l = before ++ (wi, spi) :: lost /\
    aligned (files wi) /\ Forall (fun y => ~ aligned (files (fst y))) lost /\
    step H C w1 CReopen = Ok (AOk, w2) /\
    let r := hd [] (s_hist spi) in
    (exists d, w_db w2 = Some d /\ exec H C key (mkworld (Some d) []) (crashed spi)) /\
    step H C w2 CRoot = Ok (AHash (ref_root H r), w2) /\
    forall k, length k = 32 -> exists w3, step H C w2 (CGet k None) = Ok (found (lookup r k), w3).
Proof.
  intros H HL C CL key w sp l w1 sp1 X Q F Al T CF1 NF.
  pose proof (exec_sim H HL C CL _ _ _ X) as S.
  destruct (trail_ok H C key _ w sp l w1 sp1 (keeps_move H HL C CL key) T S Q F) as (S1 & Q1 & F1 & E1 & All).
  destruct (effect_ops _ _ E1) as (ops & L & Cr).
  destruct (C19_crash_history_partial H HL C CL key w sp l w1 sp1 ops (files w1) (files w1) X Q F Al T CF1 L NF Cr (ro_here _ _ _ _))
    as (d & wi & spi & Eo & (l1 & l2 & E & [Ai _] & Nl) & X2 & R1 & R2).
  destruct S1 as (d1 & D & V & hist & W & Ew1 & K1 & _).
  exists l1, wi, spi, l2, (mkworld (Some d) (map (fun _ => TDead) (w_txs w1))). split; [exact E|]. split; [exact Ai|]. split.
  - rewrite Forall_forall in *. intros y I A. apply (Nl y I). split; [exact A|]. apply (cut_within H HL C CL), effect_cut.
    apply All. rewrite E. apply in_app_iff. right. now right.
  - split. { unfold step. rewrite Ew1, K1. unfold files in Eo. rewrite Ew1 in Eo. rewrite Eo. reflexivity. }
    cbv zeta in *. split; [exists d; split; [reflexivity|exact X2]|]. split.
    + unfold step in *. cbn [w_db w_txs] in *. apply Ok_inj in R1. injection R1 as ->. reflexivity.
    + intros k Lk. destruct (R2 k Lk) as (w3 & R3). eapply get_indep, R3.
Qed.
Print Assumptions C17_reopen_exact_partial.

(** The conditions hold where a commit is lost: the database of C17_reopen_refuted, 2 GB large. *)
Theorem C17_lost_nonvacuous : exists w w1, let sp := fb_spec 56512614 in let sp1 := committed sp l1 in let l := [(w1, sp1)] in
  exec toy toyC dkey w sp /\ quiet w /\ s_failed sp = false /\ aligned (files w) /\
  trail (move toy toyC) w sp l w1 sp1 /\ collision_free toy sp1 /\
  no_forgery toyC dkey (files w) (files w1) (map (fun x => files (fst x)) l) /\ ~ aligned (files w1).
Proof.
  destruct full_done as (w1 & w2 & f & raw & r & (X1 & Q1 & T1 & _) & Er & Ec & X2 & F1 & Lf & Lw & Lr & F2).
  exists w1, w2. cbv zeta. split; [exact X1|]. split; [exact Q1|]. split; [reflexivity|].
  split; [unfold aligned; rewrite F1; cbn [last]; rewrite Lf; reflexivity|].
  assert (A : allowed toy (fb_spec 56512614) w1 (CTxCommit 1)) by (apply full_allowed; lia).
  split. { econstructor; [|constructor]. exists (CTxCommit 1), AOk. split; [exact A|]. split; [discriminate|]. split; [exact Ec|reflexivity]. }
  split. { apply fb_free. intros l I. cbn [fb_spec committed s_hist] in I. destruct I as [<-|I]; [now right|left]. apply repeat_spec in I. exact I. }
  split.
  - cbn [map fst]. rewrite F1, F2. intros i j m L1 L2 M. pose proof (full_noforge toyC dkey f znew raw r Lf eq_refl Lw Lr i j L1 L2) as N.
    unfold blk in N. rewrite N in M. discriminate.
  - unfold aligned. rewrite F2. change (last [f ++ znew ++ raw; repeat x00 18 ++ r] []) with (repeat x00 18 ++ r).
    unfold blen. rewrite app_length, repeat_length, Lr. discriminate.
Qed.
(** A crash 200 bytes into the second of two commits. *)
Definition two_w1 : world := st_w (pw demo) (CTxCommit 2).
Definition two_s1 : spec := snext toy (ps demo) (CTxCommit 2) AOk.
Definition two_w2 : world := st_w two_w1 (CRemove kfoo).
Definition two_s2 : spec := snext toy two_s1 (CRemove kfoo) AOk.
Definition forge_free_b (key : bytes) (D V : list bytes) (l : list (list bytes)) : bool :=
  forallb (fun i => forallb (fun j =>
    if (length (nth i D []) <=? 38 * j) && (38 * j + 38 <=? length (nth i V [])) then
      match meta_read toyC key (firstn 38 (skipn (38 * j) (nth i V []))) with
      | Ok (Some _) => existsb (fun F => (S i =? length F) && (38 * j + 38 =? length (nth i F []))) l
      | _ => true
      end
    else true) (seq 0 (length (nth i V []) / 38))) (seq 0 (length V)).
Lemma forge_free_b_ok key D V l : forge_free_b key D V l = true -> no_forgery toyC key D V l.
Proof.
  intros B i j m L1 L2 E. unfold forge_free_b in B. rewrite forallb_forall in B.
  assert (Li : i < length V). { destruct (Nat.lt_ge_cases i (length V)) as [X|X]; [exact X|]. rewrite (nth_overflow V) in L2 by exact X. cbn in L2. lia. }
  specialize (B i). rewrite in_seq in B. specialize (B ltac:(lia)). rewrite forallb_forall in B.
  specialize (B j). rewrite in_seq in B.
  assert (Lj : j < length (nth i V []) / 38). { apply Nat.div_le_lower_bound with (b := 38) (q := S j); lia. }
  specialize (B ltac:(lia)).
  destruct (Nat.leb_spec (length (nth i D [])) (38 * j)); [|lia]. destruct (Nat.leb_spec (38 * j + 38) (length (nth i V []))); [|lia].
  cbn [andb] in B. rewrite E in B. apply existsb_exists in B. destruct B as (F & I & B). apply andb_true_iff in B. destruct B as [B1 B2]. apply Nat.eqb_eq in B1, B2. eauto.
Qed.
Definition two_ops : list fop := skipn (length (log (pw demo))) (log two_w2).
Definition two_cut : list bytes :=
  match two_ops with [OApp i x; OApp j y] => apply_op (apply_op (files (pw demo)) (OApp i x)) (OApp j (firstn 100 y)) | _ => [] end.
Example C19_history_nonvacuous : let w := pw demo in let sp := ps demo in let l := [(two_w1, two_s1); (two_w2, two_s2)] in
  exec toy toyC dkey w sp /\ quiet w /\ s_failed sp = false /\ aligned (files w) /\
  trail (move toy toyC) w sp l two_w2 two_s2 /\ collision_free toy two_s2 /\ log two_w2 = log w ++ two_ops /\
  no_forgery toyC dkey (files w) (files two_w2) (map (fun x => files (fst x)) l) /\
  crash (files w) two_ops two_cut /\ reopened toy toyC dkey two_cut two_cut /\
  map (@length byte) (files w) = [304] /\ map (@length byte) (files two_w1) = [646] /\
  map (@length byte) two_cut = [746] /\ map (@length byte) (files two_w2) = [798] /\
  length (hd [] (s_hist two_s1)) <> length (hd [] (s_hist two_s2)).
Proof.
  cbv zeta. split; [exact exec_demo|]. split; [apply quiet_b_ok; vm_compute; reflexivity|]. split; [vm_compute; reflexivity|].
  split; [vm_compute; reflexivity|]. split.
  { econstructor; [exists (CTxCommit 2), AOk|econstructor; [exists (CRemove kfoo), AOk|constructor]].
    - split; [apply allowed_b_ok; vm_compute; reflexivity|]. split; [discriminate|]. split; [apply st_ok; vm_compute; reflexivity|reflexivity].
    - split; [apply allowed_b_ok; vm_compute; reflexivity|]. split; [discriminate|]. split; [apply st_ok; vm_compute; reflexivity|reflexivity]. }
  split; [apply collision_free_b_ok; vm_compute; reflexivity|]. split; [vm_compute; reflexivity|].
  split; [apply forge_free_b_ok; vm_compute; reflexivity|]. split.
  { unfold two_cut. set (o := two_ops). assert (E : exists i x j y, o = [OApp i x; OApp j y]) by (vm_compute; eauto).
    clearbody o. destruct E as (i & x & j & y & ->). apply crash_later, crash_torn. }
  split; [constructor|]. vm_compute. repeat split; auto; discriminate.
Qed.
