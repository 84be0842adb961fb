(** * C52: iterators and other calls, in the same thread and in others.

    [iexec H C grant (istart w ps) l g]: threads with programs [ps], which may also create, use
    and destroy iterators whenever they are between calls, can reach [g] from the program state
    [w] with the events [l] (ConcIter.v).  [open g n i]: iterator [n] is open, on transaction [i]. *)
From Verif Require Import Demo Properties_Conc ConcIter ConcIterFacts Properties_Db.
From Coq Require Import ZifyBool ZifyNat ZifyN Permutation Sorted.

(** While an iterator is open neither its transaction nor the database changes, and what it has
    returned so far is what iterating the transaction without other threads returns. *)
Theorem C52_snapshot :
  forall H C grant w ps l g n i,
  Forall core_prog ps -> iexec H C grant (istart w ps) l g -> open g n i ->
  tx_iterate (iworld g) i (length (nexts n l)) = Ok (nexts n l) /\
  forall l' g', iexec H C grant g l' g' -> open g' n i ->
    w_db (iworld g') = w_db (iworld g) /\ nth i (w_txs (iworld g')) TDead = nth i (w_txs (iworld g)) TDead.
Proof.
  intros H C grant w ps l g n i F X O. pose proof (iinv_exec H C grant _ _ _ (iinv_start w ps F) X) as I. split.
  - pose proof O as (o & it & E). destruct (exec_answers H C grant w ps l g n F X) as [A _]. pose proof (A o i it E) as R.
    destruct I as (_ & _ & Pl). pose proof (Pl _ (nth_error_In _ _ E)) as [_ L]. cbn [ci_tx ci_stage] in L. destruct L as [L D].
    unfold tx_iterate. rewrite L. cbn [bind]. destruct (w_db (iworld g)) as [d|]; [|congruence].
    pose proof (itrun_calls _ _ _ _ R 0 [] eq_refl) as Q. rewrite Nat.add_0_r, app_nil_r in Q. exact Q.
  - intros l' g' X' O'. destruct (exec_stable H C grant g l' g' n i I X' O O') as (A & B & _). auto.
Qed.

(** Hence it returns the records of the transaction in key order, then the end, whatever the
    other threads do in between; and the calls of all threads take effect one after the other. *)
Theorem C52_contents :
  forall (H : bytes -> bytes), (forall m, length (H m) = 32) ->
  forall (C : bytes -> bytes -> bytes), (forall k m, length (C k m) = 20) ->
  forall grant key w sp ps l g n i c,
  exec H C key w sp -> Forall core_prog ps -> iexec H C grant (istart w ps) l g ->
  lawful H sp (ieffects l) -> open g n i ->
  txat (after_calls H sp (ieffects l)) i = Some c -> (forall k v, List.In (k, v) c -> levels c k <= 127) ->
  seq H C w (ieffects l) (iworld g) /\
  exists sorted, Permutation sorted c /\ StronglySorted (fun a b => lex_lt (fst a) (fst b)) sorted /\
    nexts n l = firstn (length (nexts n l))
      (map (fun e => IRec (fst e) (snd e)) sorted ++ repeat (IErr EITEREND) (length (nexts n l))).
Proof.
  intros H HL C CL grant key w sp ps l g n i c X F Y Lw O T B.
  pose proof (iexec_seq H C grant _ _ _ (iinv_start w ps F) Y) as Sq. change (iworld (istart w ps)) with w in Sq. split; [exact Sq|].
  pose proof (seq_exec H C key w sp _ _ X Sq Lw) as Xf.
  destruct (C14_iteration H HL C CL _ _ _ _ _ Xf T B) as (sorted & P1 & P2 & P3). exists sorted. split; [exact P1|]. split; [exact P2|].
  pose proof (proj1 (C52_snapshot H C grant w ps l g n i F Y O)) as Q. rewrite P3 in Q. apply Ok_inj in Q. symmetry. exact Q.
Qed.

(** Calls that would change the database or the transaction (and lookups of historical roots)
    do not take effect while the iterator is open, in whatever thread and under every policy. *)
Theorem C52_waits :
  forall H C grant w ps l g n i l' g' j c a,
  Forall core_prog ps -> iexec H C grant (istart w ps) l g -> open g n i ->
  iexec H C grant g l' g' -> open g' n i ->
  List.In (j, ICall (EEff c a)) l' -> ~ hangs i (iworld g) c.
Proof.
  intros H C grant w ps l g n i l' g' j c a F X O X' O' Ie Hg.
  destruct (exec_stable H C grant g l' g' n i (iinv_exec H C grant _ _ _ (iinv_start w ps F) X) X' O O') as (_ & _ & Q).
  exact (Q j c a Ie (hangs_needs _ _ _ Hg)).
Qed.

(** All other calls can be made while iterators are open, by any thread (the one that iterates
    included) when the others are between calls, under every policy that grants a request
    nobody is in the way of. *)
Theorem C52_reads_complete_partial :
  forall H C grant w ts its j c k a w',
  eager grant -> (forall j', ~ creating its j') ->
  nth_error ts j = Some (Idle (PCall c k)) -> others_idle ts j -> core c ->
  step H C w c = Ok (a, w') ->
  (forall n i, open (mkic (mkconf w ts) its) n i -> ~ hangs i w c) ->
  iexec H C grant (mkic (mkconf w ts) its) (map lift [(j, EInv c); (j, EEff c a); (j, ERet c a)])
    (mkic (mkconf w' (upd ts j (Idle (k a)))) its).
Proof.
  intros H C grant w ts its j c k a w' Eg Nc E Ot K S Nh. eapply solo_call_i; eauto.
  intros y it Iy Es. apply In_nth_error in Iy. destruct Iy as [n Iy]. apply (Nh n). exists (ci_owner y), it. cbn [ic_iters].
  rewrite Iy. f_equal. destruct y. cbn in *. congruence.
Qed.

(** Not so: a thread that makes one of the calls of [hangs] while it has an iterator open never
    returns from it, under every policy and whatever the other threads do. *)
Theorem C52_own_thread_refuted :
  forall H C grant w ps l g n i j it x,
  Forall core_prog ps -> iexec H C grant (istart w ps) l g ->
  nth_error (ic_iters g) n = Some (mkit j i (IOpen it)) ->
  nth_error (c_threads (ic_conf g)) j = Some (In x) -> i_ans x = None -> hangs i (iworld g) (i_call x) ->
  forall l' g', iexec H C grant g l' g' ->
  (forall c a, ~ List.In (j, ICall (ERet c a)) l') /\
  exists x', nth_error (c_threads (ic_conf g')) j = Some (In x') /\ i_call x' = i_call x /\ i_ans x' = None.
Proof.
  intros H C grant w ps l g n i j it x F X E Et Ea Hg l' g' X'.
  destruct (own_exec H C grant g l' g' j n i it x (iinv_exec H C grant _ _ _ (iinv_start w ps F) X) X' E Et Ea (hangs_needs _ _ _ Hg))
    as (_ & (x' & A & B & D & _) & R).
  split; [exact R|]. exists x'. auto.
Qed.

(** Nor is reading while iterating safe: with locks that prefer waiting writers a get in the
    iterating thread and a commit of another transaction in a second thread wait for each
    other. *)
Theorem C52_writer_preference_refuted :
  forall H C w i i' k root, live w i = Ok root -> i' < length (w_txs w) -> i <> i' -> w_db w <> None ->
  eager writers_first /\ ~ hangs i w (CTxGet i k) /\
  exists l g, iexec H C writers_first (istart w [PCall (CTxGet i k) PDone; PCall (CTxCommit i') PDone]) l g /\
    open g 0 i /\
    (forall t, List.In t (c_threads (ic_conf g)) -> ~ finished t) /\
    forall j e g', ~ istep H C writers_first j g e g'.
Proof.
  intros H C w i i' k root Lv Li' Ni Dn. split; [|split; [intros []|]].
  { intros g j Sole l j' D R W. apply D. apply (Sole l); auto. }
  assert (Li : i < length (w_txs w)).
  { unfold live in Lv. destruct (Nat.lt_ge_cases i (length (w_txs w))) as [L|L]; [exact L|]. rewrite nth_overflow in Lv by exact L. discriminate Lv. }
  assert (Ncr : forall it j, ~ creating [mkit 0 i (IOpen it)] j).
  { intros it j ([|[|n]] & i0 & st & E & [->| ->]); cbn in E; discriminate E. }
  assert (Nc0 : forall j, ~ creating [] j) by (intros j ([|n] & i0 & st & E & _); discriminate E).
  do 2 eexists. split; [|split; [|split]].
  - unfold istart, start. cbn [map].
    (* thread 0 creates the iterator *)
    eapply iexec_cons; [eapply (is_begin _ _ _ 0); [reflexivity|apply Nc0|exact Li]|]. cbn [app].
    eapply iexec_cons; [eapply (is_tx _ _ _ 0 _ _ 0); [reflexivity| |]|]; [intros t [<-|[<-|[]]] []| |].
    { intros l [|[|j']] D R (x & rest & E & Ec); cbn in E; try discriminate E. destruct j'; discriminate E. }
    cbn [upd]. eapply iexec_cons; [eapply (is_tree _ _ _ 0 _ _ 0); [reflexivity| | |exact Dn|exact Lv]|]; [intros t [<-|[<-|[]]] []| |].
    { intros l [|[|j']] D R (x & rest & E & Ec); cbn in E; try discriminate E. destruct j'; discriminate E. }
    cbn [upd].
    (* thread 1: urkel_tx_commit up to the request for the tree's lock *)
    eapply iexec_cons; [eapply (is_call _ _ _ 1); [apply Ncr|eapply (cs_call _ _ _ 1); reflexivity]|]. cbn [upd code].
    eapply iexec_cons; [eapply (is_call _ _ _ 1); [apply Ncr|eapply (cs_req _ _ _ 1); reflexivity]|]. cbn [upd].
    eapply iexec_cons; [eapply (is_call _ _ _ 1); [apply Ncr|eapply (cs_acq _ _ _ 1); [reflexivity| |split]]|].
    { intros t l' m' [<-|[<-|[]]] []. }
    { intros l [|[|j']] D R (x & rest & E & Ec); cbn in E; try discriminate E; [congruence|destruct j'; discriminate E]. }
    { intros x l rest E Ec y [<-|[]] Il. cbn in E. injection E as <-. cbn in Ec. injection Ec as <- <-. cbn in Il. intuition congruence. }
    cbn [upd].
    eapply iexec_cons; [eapply (is_call _ _ _ 1); [apply Ncr|eapply (cs_req _ _ _ 1); reflexivity]|]. cbn [upd].
    (* thread 0: urkel_tx_get up to the request for the tree's lock *)
    eapply iexec_cons; [eapply (is_call _ _ _ 0); [apply Ncr|eapply (cs_call _ _ _ 0); reflexivity]|]. cbn [upd code].
    eapply iexec_cons; [eapply (is_call _ _ _ 0); [apply Ncr|eapply (cs_req _ _ _ 0); reflexivity]|]. cbn [upd].
    eapply iexec_cons; [eapply (is_call _ _ _ 0); [apply Ncr|eapply (cs_acq _ _ _ 0); [reflexivity| |split]]|].
    { intros t l' m' [<-|[<-|[]]]; [intros []|intros [Q|[]]; injection Q as <- <-; congruence]. }
    { intros l [|[|j']] D R (x & rest & E & Ec); cbn in E; try discriminate E; [congruence| |destruct j'; discriminate E].
      injection E as <-. cbn in Ec. injection Ec as <- <-. destruct R as [(x & r & E & Er)|[(n & m & E & Q)|(n & m & E & Q)]].
      - cbn in E. injection E as <-. discriminate Er.
      - destruct n as [|[|n]]; discriminate E.
      - destruct n as [|[|n]]; discriminate E. }
    { intros x l rest E Ec. cbn in E. injection E as <-. discriminate Ec. }
    cbn [upd].
    eapply iexec_cons; [eapply (is_call _ _ _ 0); [apply Ncr|eapply (cs_req _ _ _ 0); reflexivity]|]. cbn [upd].
    apply ix_nil.
  - do 2 eexists. reflexivity.
  - cbn [ic_conf c_threads]. intros t [<-|[<-|[]]] (a & Q); discriminate Q.
  - intros j e g' S. inversion S as
      [g its e0 g0 Nc S'|g its p i0 E Nc Lx|g its m i0 E NW Gr|g its m i0 rt E NW Gr Dx Lx|g its m o0 i0 it0 p d r it' E Nc En Ed Nx|g its m i0 it0 p E Nc En]; subst;
      cbn [c_threads ic_conf] in *.
    2,5,6: destruct j as [|[|[|j]]]; discriminate E.
    2,3: destruct m as [|[|m]]; discriminate E.
    inversion S'; subst; destruct j as [|[|[|j]]]; try discriminate;
      match goal with E : nth_error _ _ = Some _ |- _ => cbn [nth_error] in E; try discriminate E; injection E; intros; subst end.
    + match goal with G : writers_first _ _ /\ _ |- _ => destruct G as [G _]; rename G into Gw end.
      apply (Gw LTree 1); [lia| |].
      * left. do 2 eexists. split; reflexivity.
      * do 2 eexists. split; reflexivity.
    + match goal with G : writers_first _ _ /\ _ |- _ => destruct G as [_ G]; rename G into Gw end.
      eapply Gw; [reflexivity|reflexivity|left; reflexivity|cbn; auto].
Qed.

(** ** Examples: an iterator returns two records while a second thread creates a transaction;
    a thread commits the transaction it iterates. *)
Lemma iterate_two w i a b : tx_iterate w i 2 = Ok [a; b] -> exists d root it1 it2, w_db w = Some d /\ live w i = Ok root /\
  iter_next (st_rd (d_store d)) (iter_create root) = Ok (a, it1) /\ iter_next (st_rd (d_store d)) it1 = Ok (b, it2).
Proof.
  unfold tx_iterate. destruct (w_db w) as [d|]; [|discriminate]. destruct (live w i) as [root|e| | |]; cbn [bind]; try discriminate.
  cbn [iter_calls]. destruct (iter_next _ (iter_create root)) as [[r it1]|e| | |] eqn:E1; cbn [bind]; try discriminate.
  destruct (iter_next _ it1) as [[r2 it2]|e| | |] eqn:E2; cbn [bind]; try discriminate. intros Q. apply Ok_inj in Q. injection Q as -> ->. eauto 10.
Qed.
Lemma open_one H C w ps i root : live w i = Ok root -> w_db w <> None -> ps <> [] ->
  iexec H C (fun _ _ => True) (istart w ps) [] (mkic (start w ps) [mkit 0 i (IOpen (iter_create root))]).
Proof.
  intros Lv Dn Np. destruct ps as [|p ps]; [congruence|]. unfold istart, start.
  assert (NW : forall l, no_writer (mkconf w (map Idle (p :: ps))) l).
  { intros l t It. cbn [c_threads] in It. apply in_map_iff in It. destruct It as (q & <- & _). intros []. }
  assert (Li : i < length (w_txs w)).
  { unfold live in Lv. destruct (Nat.lt_ge_cases i (length (w_txs w))) as [L|L]; [exact L|]. rewrite nth_overflow in Lv by exact L. discriminate Lv. }
  eapply (iexec_cons H C _ _ 0 [] _ []); [eapply (is_begin _ _ _ 0); [reflexivity| |exact Li]|].
  { intros ([|n] & i0 & st & E & _); discriminate E. }
  eapply (iexec_cons H C _ _ 0 [] _ []); [eapply (is_tx _ _ _ 0 _ _ 0); [reflexivity|apply NW|exact I]|].
  eapply (iexec_cons H C _ _ 0 [] _ []); [eapply (is_tree _ _ _ 0 _ _ 0); [reflexivity|apply NW|exact I|exact Dn|exact Lv]|].
  apply ix_nil.
Qed.
Example C52_nonvacuous : exists l g,
  iexec toy toyC (fun _ _ => True) (istart (pw demo) [PDone AOk; PCall (CTxCreate None) PDone]) l g /\ open g 0 2 /\
  Forall core_prog [PDone AOk; PCall (CTxCreate None) PDone] /\ exec toy toyC dkey (pw demo) (ps demo) /\
  nexts 0 l = [IRec kbaz v2; IRec kbar v1] /\ ieffects l = [(CTxCreate None, ATx 3)] /\ lawful toy (ps demo) (ieffects l).
Proof.
  assert (T : tx_iterate (pw demo) 2 2 = Ok [IRec kbaz v2; IRec kbar v1]) by (vm_compute; reflexivity).
  destruct (iterate_two _ _ _ _ T) as (d & root & it1 & it2 & Ed & Lv & N1 & N2).
  assert (S : exists w1, step toy toyC (pw demo) (CTxCreate None) = Ok (ATx 3, w1)) by (eexists; apply st_ok; vm_compute; reflexivity).
  destruct S as (w1 & S).
  assert (Fs : fast (CTxCreate None) (pw demo) = true) by (vm_compute; reflexivity).
  assert (Db : w_db w1 = Some d).
  { rewrite <- Ed. apply (step_foot toy toyC (pw demo) (CTxCreate None) _ w1 I S). rewrite Fs. reflexivity. }
  assert (Nc : forall it j, ~ creating [mkit 0 2 (IOpen it)] j).
  { intros it j ([|[|n]] & i0 & st & E & [->| ->]); cbn in E; discriminate E. }
  do 2 eexists. split; [|split; [|split; [|split; [|split; [|split]]]]].
  - eapply iexec_trans; [apply (open_one toy toyC _ _ 2 root Lv); [congruence|discriminate]|]. unfold start. cbn [map].
    eapply iexec_cons; [eapply (is_next _ _ _ 0 _ _ 0); [reflexivity|apply Nc|reflexivity|exact Ed|exact N1]|]. cbn [upd].
    eapply iexec_trans; [eapply (solo_call_i toy toyC _ _ _ _ _ _ 1 (CTxCreate None)); [reflexivity| |exact I|exact S|]|].
    + intros [|[|[|j']]] t Nj Et; cbn in Et; try discriminate Et; injection Et as <-; eauto.
    + intros y it [<-|[]] _ (d' & Ed' & Rv). cbn [fast] in Fs. rewrite Ed' in Fs. rewrite Rv in Fs. discriminate Fs.
    + cbn [upd]. rewrite <- (app_nil_r [_]). eapply iexec_cons; [eapply (is_next _ _ _ 0 _ _ 0); [reflexivity|apply Nc|reflexivity|exact Db|exact N2]|]. apply ix_nil.
  - do 2 eexists. reflexivity.
  - repeat constructor; intros; exact I.
  - exact exec_demo.
  - reflexivity.
  - reflexivity.
  - change (lawful toy (ps demo) [(CTxCreate None, ATx 3)]). apply all_ok_lawful; [repeat constructor|vm_compute; reflexivity].
  Unshelve. intros g j _. exact I. apply Nc.
Qed.
Example C52_own_thread_nonvacuous : exists l g it x,
  iexec toy toyC (fun _ _ => True) (istart (pw demo) [PCall (CTxCommit 2) PDone]) l g /\
  nth_error (ic_iters g) 0 = Some (mkit 0 2 (IOpen it)) /\ nth_error (c_threads (ic_conf g)) 0 = Some (In x) /\ i_ans x = None /\
  hangs 2 (iworld g) (i_call x).
Proof.
  assert (T : tx_iterate (pw demo) 2 2 = Ok [IRec kbaz v2; IRec kbar v1]) by (vm_compute; reflexivity).
  destruct (iterate_two _ _ _ _ T) as (d & root & it1 & it2 & Ed & Lv & N1 & N2).
  do 4 eexists. split; [|split; [|split; [|split]]].
  - eapply iexec_trans; [apply (open_one toy toyC _ _ 2 root Lv); [congruence|discriminate]|]. unfold start. cbn [map].
    eapply iexec_cons; [eapply (is_call _ _ _ 0); [|eapply (cs_call _ _ _ 0); reflexivity]|apply ix_nil].
    intros ([|[|n]] & i0 & st & E & [->| ->]); cbn in E; discriminate E.
  - reflexivity.
  - reflexivity.
  - reflexivity.
  - exact I.
Qed.
Example C52_writer_preference_nonvacuous : (exists root, live (pw demo) 2 = Ok root) /\ 1 < length (w_txs (pw demo)) /\ w_db (pw demo) <> None.
Proof.
  assert (T : tx_iterate (pw demo) 2 2 = Ok [IRec kbaz v2; IRec kbar v1]) by (vm_compute; reflexivity).
  destruct (iterate_two _ _ _ _ T) as (d & root & it1 & it2 & Ed & Lv & N1 & N2).
  split; [eauto|]. split; [vm_compute; lia|congruence].
Qed.
