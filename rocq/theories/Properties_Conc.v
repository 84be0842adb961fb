(** * Properties of concurrent use: C26, C27, C29.

    Threads run programs made of API calls (Conc.v); [cexec H C grant (start w ps) l g]: the
    threads with programs [ps], started in the program state [w], can reach [g] by some
    interleaving with the events [l]; [grant] is the scheduling policy of the locks. *)
From Verif Require Import Demo Conc ConcFacts.
From Coq Require Import ZifyBool ZifyNat ZifyN.

(** ** C27: a call excludes all calls that use an object it changes, hence every concurrent
    execution has the effects of the same calls made one after the other. *)

(** Whatever happens while thread [j] is about to read or write its objects: if its call, made
    now, would change an object, no other thread is about to test, read or write it. *)
Theorem C27_exclusive :
  forall H C grant w ps l w1 ts j x j' x' o a w2,
  Forall core_prog ps -> cexec H C grant (start w ps) l (mkconf w1 ts) ->
  nth_error ts j = Some (In x) -> (exists rest, i_code x = ILoad :: rest \/ i_code x = IStore :: rest) ->
  nth_error ts j' = Some (In x') -> working x' -> j <> j' ->
  step H C w1 (i_call x) = Ok (a, w2) -> valid_tx (i_call x') w1 = true ->
  uses o (i_call x') -> same o w1 w2.
Proof.
  intros H C grant w ps l w1 ts j x j' x' o a w2 F X E (rest & Ec) E' Wk N S V U.
  pose proof (inv_exec H C grant _ _ _ (inv_start w ps F) X) as [Ex Gd]. cbn [c_threads c_world] in *.
  destruct (Gd _ _ E) as (f & ph & K1 & K2 & O & K4 & _). destruct (Gd _ _ E') as (f' & ph' & K1' & K2' & O' & _).
  assert (Cx : covers (i_call x) (i_held x) f) by (destruct Ec as [Ec|Ec]; rewrite Ec in O; inversion O; assumption).
  assert (Cx' : covers (i_call x') (i_held x') true).
  { unfold working in Wk. destruct (i_code x') as [|[| | |y| |] r] eqn:Ec'; try contradiction; inversion O'; subst; try assumption;
      match goal with A : covers _ _ _ |- _ => destruct A as [A1 A2] end; (split; [intros Uu; destruct (A1 Uu) as (m & Im & _)|intros i Uu; destruct (A2 i Uu) as (m & Im & _)]; exists m; split; [exact Im|discriminate|exact Im|discriminate]). }
  destruct (step_foot H C w1 (i_call x) a w2 K1 S) as (F1 & F2 & F3).
  assert (Lk : forall lk m m', List.In (lk, m) (i_held x) -> List.In (lk, m') (i_held x') -> m = MR).
  { intros lk m m' I1 I2. eapply (Ex j j' _ _ lk m m'); eauto. }
  destruct o as [|i]; cbn [uses same] in *.
  - apply F1. destruct (writes_tree (i_call x)) eqn:W; [|reflexivity]. cbn [andb]. destruct f; [destruct (K4 eq_refl) as [_ ->]; reflexivity|exfalso].
    destruct Cx as [Ct _]. assert (Uc : uses_tree (i_call x) = true) by (destruct (i_call x); try discriminate W; reflexivity).
    destruct (Ct Uc) as (m & I1 & I2). rewrite (I2 W eq_refl) in I1. destruct Cx' as [Cv _]. destruct (Cv U) as (m' & I3 & _).
    specialize (Lk _ _ _ I1 I3). discriminate.
  - assert (Li : i < length (w_txs w1)) by (unfold valid_tx in V; rewrite U in V; apply Nat.ltb_lt; exact V).
    apply F2; [exact Li|]. destruct (tx_of (i_call x)) as [i'|] eqn:T; [|left; discriminate]. destruct (Nat.eq_dec i' i) as [->|D]; [|left; congruence]. right.
    destruct (writes_tx (i_call x)) eqn:W; [|reflexivity]. cbn [andb]. destruct f; [destruct (K4 eq_refl) as [_ ->]; reflexivity|exfalso].
    destruct Cx as [_ Ct]. destruct (Ct i T) as (m & I1 & I2). rewrite (I2 W eq_refl) in I1. destruct Cx' as [_ Cv]. destruct (Cv i U) as (m' & I3 & _).
    specialize (Lk _ _ _ I1 I3). discriminate.
Qed.

(** Linearizability: the calls take effect one after the other, with the answers the threads
    get, each between its beginning and its return. *)
Theorem C27_linearizable :
  forall H C grant w ps l g,
  Forall core_prog ps -> cexec H C grant (start w ps) l g ->
  seq H C w (effects l) (c_world g) /\
  forall j p, nth_error ps j = Some p -> follows p (events_of j l).
Proof.
  intros H C grant w ps l g F X. split.
  - exact (exec_seq H C grant _ _ _ (inv_start w ps F) X).
  - intros j p P. destruct (exec_follows H C grant w ps l g F X j p P) as (t & _ & W). eapply went_follows, W.
Qed.

(** Readers overlap: any two get calls on one transaction can be inside at once. *)
Theorem C27_readers_overlap :
  forall H C w i k k', i < length (w_txs w) ->
  exists l g x x', cexec H C (fun _ _ => True) (start w [PCall (CTxGet i k) PDone; PCall (CTxGet i k') PDone]) l g /\
    c_threads g = [In x; In x'] /\ i_code x = IStore :: skipn 4 (code (CTxGet i k)) /\ i_code x' = IStore :: skipn 4 (code (CTxGet i k')).
Proof.
  intros H C w i k k' L.
  assert (V : forall q, valid_tx (CTxGet i q) w = true) by (intros q; apply Nat.ltb_lt; exact L).
  assert (Tr : forall (g : config) (j : nat), (fun _ _ => True) g j) by (intros; exact I).
  do 4 eexists. split; [|split].
  - unfold start. cbn [map].
    eapply cexec_cons; [eapply (cs_call H C _ 0); reflexivity|]. cbn [upd code].
    eapply cexec_cons; [eapply (cs_req H C _ 0); reflexivity|]. cbn [upd].
    eapply cexec_cons; [eapply (cs_acq H C _ 0); [reflexivity| |exact I]|]; [intros t l' m' [<-|[<-|[]]] []|]. cbn [upd].
    eapply cexec_cons; [eapply (cs_req H C _ 0); reflexivity|]. cbn [upd].
    eapply cexec_cons; [eapply (cs_acq H C _ 0); [reflexivity| |exact I]|]; [intros t l' m' [<-|[<-|[]]]; [intros [Q|[]]; injection Q as <- <-; discriminate|intros []]|]. cbn [upd].
    eapply cexec_cons; [eapply (cs_load H C _ 0); [reflexivity|apply V]|]. cbn [upd].
    eapply cexec_cons; [eapply (cs_call H C _ 1); reflexivity|]. cbn [upd code].
    eapply cexec_cons; [eapply (cs_req H C _ 1); reflexivity|]. cbn [upd].
    eapply cexec_cons; [eapply (cs_acq H C _ 1); [reflexivity| |exact I]|]; [intros t l' m' [<-|[<-|[]]]; [intros [Q|[Q|[]]]; injection Q as <- <-; auto|intros []]|]. cbn [upd].
    eapply cexec_cons; [eapply (cs_req H C _ 1); reflexivity|]. cbn [upd].
    eapply cexec_cons; [eapply (cs_acq H C _ 1); [reflexivity| |exact I]|]; [intros t l' m' [<-|[<-|[]]]; [intros [Q|[Q|[]]]; injection Q as <- <-; auto|intros [Q|[]]; injection Q as <- <-; auto]|]. cbn [upd].
    eapply cexec_cons; [eapply (cs_load H C _ 1); [reflexivity|apply V]|]. cbn [upd].
    apply cx_nil.
  - cbn [c_threads]. reflexivity.
  - split; reflexivity.
Qed.

(** ** C26: calls can deadlock. *)

(** urkel_tx_prove and urkel_tx_commit on one transaction with uncommitted changes: under every
    policy the threads can reach a state in which none of them can ever move again. *)
Theorem C26_deadlock_refuted :
  forall H C grant w i k, conserving grant ->
  i < length (w_txs w) -> fast (CTxProve i k) w = false ->
  exists l g, cexec H C grant (start w [PCall (CTxProve i k) PDone; PCall (CTxCommit i) PDone]) l g /\
    (forall t, List.In t (c_threads g) -> ~ finished t) /\
    forall grant' j e g', ~ cstep H C grant' j g e g'.
Proof.
  intros H C grant w i k G L Fs.
  assert (V : valid_tx (CTxProve i k) w = true) by (apply Nat.ltb_lt; exact L).
  assert (Sole : forall ts j l, free (mkconf w ts) l -> waits (mkconf w ts) j l -> (forall j', waits (mkconf w ts) j' l -> j' = j) ->
    grant (mkconf w ts) j).
  { intros ts j l Fr W U. destruct (G _ _ Fr (ex_intro _ j W)) as (j' & W' & Gr). rewrite <- (U j' W'). exact Gr. }
  do 2 eexists. split; [|split].
  - unfold start. cbn [map].
    eapply cexec_cons; [eapply (cs_call H C _ 0); reflexivity|]. cbn [upd code].
    eapply cexec_cons; [eapply (cs_req H C _ 0); reflexivity|]. cbn [upd].
    eapply cexec_cons; [eapply (cs_acq H C _ 0); [reflexivity| |]|].
    { intros t l' m' [<-|[<-|[]]] []. }
    { eapply (Sole _ _ (LTx i)); [intros t m [<-|[<-|[]]] []|do 3 eexists; split; reflexivity|].
      intros [|[|[|j']]] (x & m & rest & E & Ec); cbn in E; try discriminate E; reflexivity. }
    cbn [upd].
    eapply cexec_cons; [eapply (cs_req H C _ 0); reflexivity|]. cbn [upd].
    eapply cexec_cons; [eapply (cs_acq H C _ 0); [reflexivity| |]|].
    { intros t l' m' [<-|[<-|[]]]; [intros [Q|[]]; injection Q as <- <-; discriminate|intros []]. }
    { eapply (Sole _ _ LTree); [intros t m [<-|[<-|[]]]; [intros [Q|[]]; discriminate Q|intros []]|do 3 eexists; split; reflexivity|].
      intros [|[|[|j']]] (x & m & rest & E & Ec); cbn in E; try discriminate E; reflexivity. }
    cbn [upd].
    eapply cexec_cons; [eapply (cs_test H C _ 0); [reflexivity|exact V]|]. rewrite Fs. cbn [upd app].
    eapply cexec_cons; [eapply (cs_rel H C _ 0); reflexivity|]. cbn [upd]. unfold drop_lock. cbn [filter fst].
    destruct (lockid_eq_dec LTree (LTx i)) as [Q|_]; [discriminate Q|]. destruct (lockid_eq_dec (LTx i) (LTx i)) as [_|Q]; [|congruence].
    eapply cexec_cons; [eapply (cs_call H C _ 1); reflexivity|]. cbn [upd code].
    eapply cexec_cons; [eapply (cs_req H C _ 1); reflexivity|]. cbn [upd].
    eapply cexec_cons; [eapply (cs_acq H C _ 1); [reflexivity| |]|].
    { intros t l' m' [<-|[<-|[]]]; [intros [Q|[]]; injection Q as <- <-; discriminate|intros []]. }
    { eapply (Sole _ _ (LTx i)); [intros t m [<-|[<-|[]]]; [intros [Q|[]]; discriminate Q|intros []]|do 3 eexists; split; reflexivity|].
      intros [|[|[|j']]] (x & m & rest & E & Ec); cbn in E; try discriminate E; [injection E as <-; discriminate Ec|reflexivity]. }
    cbn [upd].
    eapply cexec_cons; [eapply (cs_req H C _ 1); reflexivity|]. cbn [upd].
    eapply cexec_cons; [eapply (cs_req H C _ 0); reflexivity|]. cbn [upd].
    apply cx_nil.
  - cbn [c_threads]. intros t [<-|[<-|[]]] (a & Q); discriminate Q.
  - intros grant' j e g' S. inversion S; subst; destruct j as [|[|[|j]]]; try discriminate;
      match goal with E : nth_error _ _ = Some _ |- _ => cbn [nth_error] in E; try discriminate E; injection E; intros; subst end.
    + match goal with Cm : compatible _ _ _ |- _ => destruct (Cm _ _ _ (or_intror (or_introl eq_refl)) (or_introl eq_refl) eq_refl) as [Q _]; discriminate Q end.
    + match goal with Cm : compatible _ _ _ |- _ => destruct (Cm _ _ _ (or_introl eq_refl) (or_introl eq_refl) eq_refl) as [Q _]; discriminate Q end.
Qed.
Example C26_nonvacuous : conserving (fun _ _ => True) /\ 2 < length (w_txs (pw demo)) /\ fast (CTxProve 2 kfoo) (pw demo) = false.
Proof. split; [intros g l _ (j & W); exists j; auto|]. vm_compute. split; [lia|reflexivity]. Qed.

(** What does hold: no execution is infinite, and one that has stopped has finished all its
    programs, or a call is about to violate its requirements, or urkel_tx_prove waits for a
    transaction another thread is inside a call on. *)
Theorem C26_progress_partial :
  forall H C grant w ps l g,
  conserving grant -> Forall core_prog ps -> cexec H C grant (start w ps) l g ->
  Acc (fun g' g => exists j e, cstep H C grant j g e g') g /\
  ((exists j e g', cstep H C grant j g e g') \/
   (forall t, List.In t (c_threads g) -> finished t) \/
   (exists j, faulty H C g j) \/ upgrade g).
Proof.
  intros H C grant w ps l g G F X. split; [apply acc_config|].
  destruct (progress H C grant G g (inv_exec H C grant _ _ _ (inv_start w ps F) X)) as [A|[A|[A|A]]]; auto.
Qed.

(** In particular threads finish that never prove, or that never are inside calls on one
    transaction at the same time. *)
Fixpoint proves_nothing (p : prog) : Prop :=
  match p with PDone _ => True | PCall c k => (forall i key, c <> CTxProve i key) /\ forall a, proves_nothing (k a) end.
Definition unshared (g : config) : Prop :=
  forall j j' x x' i, j <> j' -> nth_error (c_threads g) j = Some (In x) -> nth_error (c_threads g) j' = Some (In x') ->
    tx_of (i_call x) = Some i -> tx_of (i_call x') <> Some i.
Lemma proves_nothing_inv H C grant w ps l g : Forall proves_nothing ps -> cexec H C grant (start w ps) l g ->
  forall j t, nth_error (c_threads g) j = Some t ->
  match t with Idle p => proves_nothing p | In x => (forall i key, i_call x <> CTxProve i key) /\ forall a, proves_nothing (i_cont x a) end.
Proof.
  intros F X. induction X as [|l g1 j e g2 X IH S]; intros j' t E.
  - cbn [start c_threads] in E. rewrite nth_error_map in E. destruct (nth_error ps j') as [p|] eqn:P; [|discriminate]. injection E as <-.
    rewrite Forall_forall in F. apply F. eapply nth_error_In, P.
  - destruct S as
    [v ts c k E0|v ts c l0 m rest r h a k E0|v ts c l0 m rest r h a k E0 Cm Gr|v ts c l0 rest r h a k E0|v ts c extra rest r h a k E0 V
    |v ts c rest r h a k E0 V|v ts c rest r h a k a' v' E0 S|v ts c r h a k E0];
    cbn [c_threads] in *; apply nth_error_upd in E; (destruct E as [[<- ->]|[N E]]; [|eapply IH; exact E]);
      specialize (IH _ _ E0); cbn in IH |- *; try exact IH; try apply IH.
Qed.
Theorem C26_completes_partial :
  forall H C grant w ps l g,
  conserving grant -> Forall core_prog ps -> cexec H C grant (start w ps) l g ->
  Forall proves_nothing ps \/ unshared g -> (forall j, ~ faulty H C g j) ->
  (forall j e g', ~ cstep H C grant j g e g') ->
  forall t, List.In t (c_threads g) -> finished t.
Proof.
  intros H C grant w ps l g G F X U Nf Ns.
  destruct (C26_progress_partial H C grant w ps l g G F X) as [_ [(j & e & g' & A)|[A|[(j & A)|A]]]]; [destruct (Ns _ _ _ A)|exact A|destruct (Nf _ A)|exfalso].
  destruct A as (j & x & i & k & m & rest & j' & x' & E & Ec & _ & _ & N & E' & T). destruct U as [U|U].
  - pose proof (proves_nothing_inv H C grant w ps l g U X j _ E) as [Q _]. exact (Q i k Ec).
  - apply (U j j' x x' i); auto. rewrite Ec. reflexivity.
Qed.

(** ** C29: an acknowledged insert can be lost. *)

Lemma free_tail H sp l : collision_free H (committed sp l) -> collision_free H sp.
Proof.
  intros [A B]. unfold committed in *. cbn [s_hist flat_map] in *. split.
  - intros x y Ix Iy. apply A; apply in_or_app; now right.
  - intros x Ix. apply B. apply in_or_app. now right.
Qed.

(** Two threads insert different keys with urkel_insert: whatever the database holds, they can be
    interleaved so that both calls succeed and only the second key is stored. *)
Theorem C29_lost_update_refuted :
  forall (H : bytes -> bytes), (forall m, length (H m) = 32) ->
  forall (C : bytes -> bytes -> bytes), (forall k m, length (C k m) = 20) ->
  forall grant key w sp k1 v1 k2 v2,
  conserving grant -> exec H C key w sp -> quiet w -> length k1 = 32 -> length k2 = 32 -> k1 <> k2 ->
  let l1 := put (s_cur sp) k1 v1 in let l2 := put (s_cur sp) k2 v2 in
  can_commit sp l1 -> can_commit (committed sp l1) l2 -> collision_free H (committed (committed sp l1) l2) ->
  exists l g, cexec H C grant (start w [urkel_insert k1 v1; urkel_insert k2 v2]) l g /\
    c_threads g = [Idle (PDone AOk); Idle (PDone AOk)] /\
    (exists w', step H C (c_world g) (CGet k1 None) = Ok (get_answer (s_cur sp) k1, w')) /\
    (exists w', step H C (c_world g) (CGet k2 None) = Ok (AVal v2, w')).
Proof.
  intros H HL C CL grant key w sp k1 v1 k2 v2 G X Qt L1 L2 Nk l1 l2 C1 C2 F2.
  assert (F1 : collision_free H (committed sp l1)) by (eapply free_tail; exact F2).
  assert (F0 : collision_free H sp) by (eapply free_tail; exact F1).
  assert (V1 : length v1 <= 1023).
  { destruct C1 as [C1 _]. rewrite Forall_forall in C1. specialize (C1 (k1, v1) (or_introl eq_refl)). cbn [snd] in C1. lia. }
  assert (V2 : length v2 <= 1023).
  { destruct C2 as [C2 _]. rewrite Forall_forall in C2. specialize (C2 (k2, v2) (or_introl eq_refl)). cbn [snd] in C2. lia. }
  assert (B1 : (1023 <? length v1) = false) by (apply Nat.ltb_ge; exact V1).
  assert (B2 : (1023 <? length v2) = false) by (apply Nat.ltb_ge; exact V2).
  set (n := length (s_txs sp)).
  (* the calls in order *)
  destruct (exec_do H HL C CL _ _ _ (CTxCreate None) X (conj F0 I)) as (a1 & w1 & E1 & G1 & X1 & Q1 & _).
  cbn [good seen snext] in G1, X1. subst a1. fold n in E1.
  destruct (exec_do H HL C CL _ _ _ (CTxCreate None) X1 (conj F0 I)) as (a2 & w2 & E2 & G2 & X2 & Q2 & _).
  cbn [good seen snext add_tx s_cur s_txs] in G2, X2. rewrite app_length in G2. cbn [length] in G2. fold n in G2. subst a2.
  assert (T2 : txat (add_tx (add_tx sp (Some (s_cur sp))) (Some (s_cur (add_tx sp (Some (s_cur sp)))))) n = Some (s_cur sp)).
  { unfold txat, add_tx. cbn [s_txs s_cur]. rewrite app_nth1 by (rewrite app_length; cbn; unfold n; lia). rewrite app_nth2 by (unfold n; lia).
    unfold n. rewrite Nat.sub_diag. reflexivity. }
  assert (T2' : txat (add_tx (add_tx sp (Some (s_cur sp))) (Some (s_cur (add_tx sp (Some (s_cur sp)))))) (n + 1) = Some (s_cur sp)).
  { unfold txat, add_tx. cbn [s_txs s_cur]. rewrite app_nth2 by (rewrite app_length; cbn; unfold n; lia). rewrite app_length. cbn [length]. unfold n.
    rewrite Nat.sub_diag. reflexivity. }
  set (sp2 := add_tx (add_tx sp _) _) in *.
  assert (R2 : s_hist sp2 = s_hist sp /\ s_cur sp2 = s_cur sp /\ s_bytes sp2 = s_bytes sp) by (repeat split).
  clearbody sp2. destruct R2 as (Rh2 & Rc2 & Rb2).
  assert (A3 : allowed H sp2 w2 (CTxInsert n k1 v1)).
  { split; [unfold collision_free; rewrite Rh2; exact F0|]. split; [rewrite T2; discriminate|exact L1]. }
  destruct (exec_do H HL C CL _ _ _ _ X2 A3) as (a3 & w3 & E3 & G3 & X3 & Q3 & _).
  cbn [good snext] in G3, X3. rewrite B1 in G3, X3. rewrite T2 in X3. fold l1 in X3. subst a3.
  pose proof (txat_set sp2 n (Some l1) _ T2) as T3.
  pose proof (txat_set_neq sp2 n (n + 1) (Some l1) ltac:(lia)) as T3'. rewrite T2' in T3'.
  set (sp3 := set_tx sp2 n (Some l1)) in *.
  assert (R3 : s_hist sp3 = s_hist sp /\ s_cur sp3 = s_cur sp /\ s_bytes sp3 = s_bytes sp) by (repeat split; assumption).
  clearbody sp3. destruct R3 as (Rh3 & Rc3 & Rb3).
  assert (A4 : allowed H sp3 w3 (CTxCommit n)).
  { split; [unfold collision_free; rewrite Rh3; exact F0|]. exists l1. split; [exact T3|]. unfold can_commit. rewrite Rb3. exact C1. }
  destruct (exec_do H HL C CL _ _ _ _ X3 A4) as (a4 & w4 & E4 & G4 & X4 & Q4 & _).
  cbn [good] in G4. destruct G4 as [->|[_ Nq]]; [|exfalso; auto]. cbn [snext commits] in X4. rewrite T3 in X4.
  set (sp4 := committed sp3 l1) in *.
  assert (R4 : s_hist sp4 = l1 :: s_hist sp /\ s_bytes sp4 = (s_bytes sp + weight l1)%N /\ txat sp4 n = Some l1 /\ txat sp4 (n + 1) = Some (s_cur sp)).
  { unfold sp4, committed. cbn [s_hist s_bytes]. rewrite Rh3, Rb3. repeat split; assumption. }
  clearbody sp4. destruct R4 as (Rh4 & Rb4 & T4 & T4').
  assert (A5 : allowed H sp4 w4 (CTxDestroy n)).
  { split; [unfold collision_free; rewrite Rh4; exact F1|]. cbn [call_ok]. rewrite T4. discriminate. }
  destruct (exec_do H HL C CL _ _ _ _ X4 A5) as (a5 & w5 & E5 & G5 & X5 & Q5 & _).
  cbn [good snext] in G5, X5. subst a5.
  pose proof (txat_set_neq sp4 n (n + 1) None ltac:(lia)) as T5. rewrite T4' in T5.
  set (sp5 := set_tx sp4 n None) in *.
  assert (R5 : s_hist sp5 = l1 :: s_hist sp /\ s_bytes sp5 = (s_bytes sp + weight l1)%N) by (split; assumption).
  clearbody sp5. destruct R5 as (Rh5 & Rb5).
  assert (A6 : allowed H sp5 w5 (CTxInsert (n + 1) k2 v2)).
  { split; [unfold collision_free; rewrite Rh5; exact F1|]. split; [rewrite T5; discriminate|exact L2]. }
  destruct (exec_do H HL C CL _ _ _ _ X5 A6) as (a6 & w6 & E6 & G6 & X6 & Q6 & _).
  cbn [good snext] in G6, X6. rewrite B2 in G6, X6. rewrite T5 in X6. fold l2 in X6. subst a6.
  pose proof (txat_set sp5 (n + 1) (Some l2) _ T5) as T6.
  set (sp6 := set_tx sp5 (n + 1) (Some l2)) in *.
  assert (R6 : s_hist sp6 = l1 :: s_hist sp /\ s_bytes sp6 = (s_bytes sp + weight l1)%N) by (split; assumption).
  clearbody sp6. destruct R6 as (Rh6 & Rb6).
  assert (A7 : allowed H sp6 w6 (CTxCommit (n + 1))).
  { split; [unfold collision_free; rewrite Rh6; exact F1|]. exists l2. split; [exact T6|]. unfold can_commit. rewrite Rb6. exact C2. }
  destruct (exec_do H HL C CL _ _ _ _ X6 A7) as (a7 & w7 & E7 & G7 & X7 & Q7 & _).
  cbn [good] in G7. destruct G7 as [->|[_ Nq]]; [|exfalso; auto 10]. cbn [snext commits] in X7. rewrite T6 in X7.
  set (sp7 := committed sp6 l2) in *.
  assert (R7 : s_hist sp7 = l2 :: l1 :: s_hist sp /\ s_cur sp7 = l2 /\ txat sp7 (n + 1) = Some l2).
  { unfold sp7, committed. cbn [s_hist s_cur]. rewrite Rh6. repeat split; assumption. }
  clearbody sp7. destruct R7 as (Rh7 & Rc7 & T7).
  assert (A8 : allowed H sp7 w7 (CTxDestroy (n + 1))).
  { split; [unfold collision_free; rewrite Rh7; exact F2|]. cbn [call_ok]. rewrite T7. discriminate. }
  destruct (exec_do H HL C CL _ _ _ _ X7 A8) as (a8 & w8 & E8 & G8 & X8 & Q8 & _).
  cbn [good snext] in G8, X8. subst a8.
  set (sp8 := set_tx sp7 (n + 1) None) in *.
  assert (R8 : s_hist sp8 = l2 :: l1 :: s_hist sp /\ s_cur sp8 = l2) by (split; assumption).
  clearbody sp8. destruct R8 as (Rh8 & Rc8).
  do 2 eexists. split; [|split; [|split]].
  - unfold start, urkel_insert, write_prog. cbn [map].
    assert (Ot : forall p q j, others_idle [Idle p; Idle q] j).
    { intros p q j [|[|[|j']]] t Nj Et; cbn in Et; try discriminate Et; injection Et as <-; eauto. }
    eapply cexec_trans; [eapply (solo_call H C grant G _ _ 0); [reflexivity|apply Ot|exact I|exact E1]|]. cbn [upd].
    eapply cexec_trans; [eapply (solo_call H C grant G _ _ 1); [reflexivity|apply Ot|exact I|exact E2]|]. cbn [upd].
    eapply cexec_trans; [eapply (solo_call H C grant G _ _ 0); [reflexivity|apply Ot|exact V1|exact E3]|]. cbn [upd].
    eapply cexec_trans; [eapply (solo_call H C grant G _ _ 0); [reflexivity|apply Ot|exact I|exact E4]|]. cbn [upd].
    eapply cexec_trans; [eapply (solo_call H C grant G _ _ 0); [reflexivity|apply Ot|exact I|exact E5]|]. cbn [upd].
    eapply cexec_trans; [eapply (solo_call H C grant G _ _ 1); [reflexivity|apply Ot|exact V2|exact E6]|]. cbn [upd].
    eapply cexec_trans; [eapply (solo_call H C grant G _ _ 1); [reflexivity|apply Ot|exact I|exact E7]|]. cbn [upd].
    eapply (solo_call H C grant G _ _ 1); [reflexivity|apply Ot|exact I|exact E8].
  - reflexivity.
  - cbn [c_world]. assert (A : allowed H sp8 w8 (CGet k1 None)) by (split; [unfold collision_free; rewrite Rh8; exact F2|exact L1]).
    destruct (exec_do H HL C CL _ _ _ _ X8 A) as (a & w' & E & Ga & _). exists w'. cbn [good seen] in Ga. rewrite E, Ga, Rc8. unfold get_answer, l2.
    rewrite lookup_put. destruct (bytes_eq_dec k2 k1); [congruence|reflexivity].
  - cbn [c_world]. assert (A : allowed H sp8 w8 (CGet k2 None)) by (split; [unfold collision_free; rewrite Rh8; exact F2|exact L2]).
    destruct (exec_do H HL C CL _ _ _ _ X8 A) as (a & w' & E & Ga & _). exists w'. cbn [good seen] in Ga. rewrite E, Ga, Rc8. unfold get_answer, l2.
    rewrite lookup_put. destruct (bytes_eq_dec k2 k2); [reflexivity|congruence].
Qed.

Definition kz : bytes := repeat xff 32.
Example C29_nonvacuous : conserving (fun _ _ => True) /\ exec toy toyC dkey (pw demo) (ps demo) /\ quiet (pw demo) /\ length kbaz = 32 /\ length kz = 32 /\
  kbaz <> kz /\ lookup (s_cur (ps demo)) kbaz = None /\
  can_commit (ps demo) (put (s_cur (ps demo)) kbaz v1) /\
  can_commit (committed (ps demo) (put (s_cur (ps demo)) kbaz v1)) (put (s_cur (ps demo)) kz v2) /\
  collision_free toy (committed (committed (ps demo) (put (s_cur (ps demo)) kbaz v1)) (put (s_cur (ps demo)) kz v2)).
Proof.
  split; [intros g l _ (j & W); exists j; auto|]. split; [exact exec_demo|].
  split; [apply quiet_b_ok; vm_compute; reflexivity|]. split; [reflexivity|]. split; [reflexivity|]. split; [discriminate|].
  split; [vm_compute; reflexivity|]. split; [apply can_commit_b_ok; vm_compute; reflexivity|].
  split; [apply can_commit_b_ok; vm_compute; reflexivity|]. apply collision_free_b_ok. vm_compute. reflexivity.
Qed.

(** What does hold: an update is kept if no other commit or inject takes effect between the
    creation and the commit of its transaction, and so is everything stored before. *)
Definition after_calls (H : bytes -> bytes) (sp : spec) (l : list (call * answer)) : spec :=
  fold_left (fun sp e => snext H sp (fst e) (snd e)) l sp.
(** All calls respect the requirements of the API when they take effect. *)
Definition lawful (H : bytes -> bytes) (sp : spec) (l : list (call * answer)) : Prop :=
  forall pre c a post, l = pre ++ (c, a) :: post -> forall w, allowed H (after_calls H sp pre) w c.
Definition no_update (e : call * answer) : Prop :=
  match fst e with CTxCommit _ | CInject _ => False | c => core c end.

Lemma after_app H sp a b : after_calls H sp (a ++ b) = after_calls H (after_calls H sp a) b.
Proof. apply fold_left_app. Qed.
Lemma after_cons H sp c a b : after_calls H sp ((c, a) :: b) = after_calls H (snext H sp c a) b.
Proof. reflexivity. Qed.
Lemma seq_exec H C key w sp l w' : exec H C key w sp -> seq H C w l w' -> lawful H sp l -> exec H C key w' (after_calls H sp l).
Proof.
  intros X S. induction S as [|l w1 c a w2 S IH E]; intros L; [exact X|].
  unfold after_calls. rewrite fold_left_app. cbn [fold_left fst snd]. fold (after_calls H sp l). eapply ex_call; [apply IH| |exact E].
  - intros pre c' a' post El. subst l. apply (L pre c' a' (post ++ [(c, a)])). rewrite <- app_assoc. reflexivity.
  - eapply (L l c a []). reflexivity.
Qed.
Lemma no_update_cur H sp e : no_update e -> s_cur (snext H sp (fst e) (snd e)) = s_cur sp.
Proof.
  destruct e as [c a]. unfold no_update. cbn [fst snd]. destruct c; cbn [snext core]; intros N; try contradiction; try reflexivity.
  - destruct (seen H sp ro); reflexivity.
  - destruct (named H (s_hist sp) h); reflexivity.
  - destruct (1023 <? length v); [reflexivity|]. destruct (txat sp i); reflexivity.
  - destruct (txat sp i) as [l|]; [destruct (lookup l k)|]; reflexivity.
Qed.
Lemma no_updates_cur H l : Forall no_update l -> forall sp, s_cur (after_calls H sp l) = s_cur sp.
Proof.
  induction 1 as [|e l N _ IH]; intros sp; [reflexivity|]. unfold after_calls in *. cbn [fold_left]. rewrite IH. apply no_update_cur, N.
Qed.
Lemma after_txat H l i x : Forall (fun e => concerns i (fst e) = false) l -> forall sp, txat sp i = Some x -> txat (after_calls H sp l) i = Some x.
Proof.
  induction 1 as [|e l N _ IH]; intros sp E; [exact E|]. unfold after_calls in *. cbn [fold_left]. apply IH. apply snext_txat; assumption.
Qed.

Theorem C29_no_overlap_partial :
  forall (H : bytes -> bytes), (forall m, length (H m) = 32) ->
  forall (C : bytes -> bytes -> bytes), (forall k m, length (C k m) = 20) ->
  forall grant key w sp ps l g before mid1 mid2 post i k v,
  exec H C key w sp -> Forall core_prog ps -> cexec H C grant (start w ps) l g ->
  effects l = before ++ (CTxCreate None, ATx i) :: mid1 ++ (CTxInsert i k v, AOk) :: mid2 ++ (CTxCommit i, AOk) :: post ->
  Forall no_update (mid1 ++ mid2 ++ post) -> Forall (fun e => concerns i (fst e) = false) (mid1 ++ mid2) ->
  length v <= 1023 -> lawful H sp (effects l) -> collision_free H (after_calls H sp (effects l)) ->
  forall k', length k' = 32 ->
  exists w', step H C (c_world g) (CGet k' None) =
    Ok (if bytes_eq_dec k k' then AVal v else get_answer (s_cur (after_calls H sp before)) k', w').
Proof.
  intros H HL C CL grant key w sp ps l g before mid1 mid2 post i k v X F Cx El Nu Nc Lv Lw CF k' Lk.
  pose proof (proj1 (C27_linearizable H C grant w ps l g F Cx)) as Sq.
  pose proof (seq_exec H C key w sp _ _ X Sq Lw) as Xf.
  apply Forall_app in Nu. destruct Nu as [Nu1 Nu]. apply Forall_app in Nu. destruct Nu as [Nu2 Nu3]. apply Forall_app in Nc. destruct Nc as [Nc1 Nc2].
  assert (Cur : s_cur (after_calls H sp (effects l)) = put (s_cur (after_calls H sp before)) k v).
  { assert (Li : i = length (s_txs (after_calls H sp before))).
    { assert (L0 : lawful H sp before).
      { intros pre c a po E. apply (Lw pre c a (po ++ (CTxCreate None, ATx i) :: mid1 ++ (CTxInsert i k v, AOk) :: mid2 ++ (CTxCommit i, AOk) :: post)).
        rewrite El, E, <- app_assoc. reflexivity. }
      rewrite El in Sq. destruct (seq_app H C _ _ _ _ Sq) as (wb & Sb & Sr).
      pose proof (seq_exec H C key w sp _ _ X Sb L0) as Xb.
      destruct (seq_cons H C _ _ _ _ Sr) as (c & a & wc & Ec & Est & _). injection Ec as <- <-.
      assert (Al : allowed H (after_calls H sp before) wb (CTxCreate None)) by (eapply Lw; exact El).
      destruct (exec_good H HL C CL _ _ _ _ _ _ Xb Al Est) as [Gd _]. cbn [good seen] in Gd. congruence. }
    rewrite El. repeat first [rewrite after_app|rewrite after_cons].
    set (sb := after_calls H sp before) in *.
    rewrite no_updates_cur by exact Nu3. 
    assert (T1 : txat (snext H sb (CTxCreate None) (ATx i)) i = Some (s_cur sb)).
    { cbn [snext seen]. unfold txat, add_tx. cbn [s_txs]. rewrite Li, app_nth2, Nat.sub_diag by lia. reflexivity. }
    set (s1 := snext H sb (CTxCreate None) (ATx i)) in *. clearbody s1.
    pose proof (after_txat H mid1 i _ Nc1 s1 T1) as T2. set (s2 := after_calls H s1 mid1) in *. clearbody s2.
    assert (T3 : txat (snext H s2 (CTxInsert i k v) AOk) i = Some (put (s_cur sb) k v)).
    { cbn [snext]. replace (1023 <? length v) with false by (symmetry; apply Nat.ltb_ge; exact Lv). rewrite T2. eapply txat_set, T2. }
    set (s3 := snext H s2 (CTxInsert i k v) AOk) in *. clearbody s3.
    pose proof (after_txat H mid2 i _ Nc2 s3 T3) as T4. set (s4 := after_calls H s3 mid2) in *. clearbody s4.
    cbn [snext commits]. rewrite T4. reflexivity. }
  assert (Al : allowed H (after_calls H sp (effects l)) (c_world g) (CGet k' None)) by (split; [exact CF|exact Lk]).
  destruct (exec_do H HL C CL _ _ _ _ Xf Al) as (a & w' & E & Ga & _). exists w'. rewrite E. f_equal. f_equal. cbn [good seen] in Ga. rewrite Ga, Cur.
  unfold get_answer. rewrite lookup_put. destruct (bytes_eq_dec k k'); reflexivity.
Qed.
Lemma lawful_cons H sp c a l : (forall w, allowed H sp w c) -> lawful H (snext H sp c a) l -> lawful H sp ((c, a) :: l).
Proof.
  intros A L [|e pre] c' a' post E w; cbn [app] in E; [injection E as -> -> ->; apply A|]. injection E as <- ->.
  cbn [after_calls fold_left fst snd]. apply (L pre c' a' post). reflexivity.
Qed.
Definition demo_effects : list (call * answer) :=
  [(CTxCreate None, ATx 3); (CTxInsert 3 kz v1, AOk); (CTxCommit 3, AOk); (CTxDestroy 3, AOk)].
Definition all_ok (sp : spec) (l : list (call * answer)) : bool :=
  (fix go sp l := match l with [] => true | e :: l => allowed_b sp (mkworld None []) (fst e) && go (snext toy sp (fst e) (snd e)) l end) sp l.
Lemma all_ok_lawful l : forall sp, Forall (fun e => core (fst e)) l -> all_ok sp l = true -> lawful toy sp l.
Proof.
  induction l as [|[c a] l IH]; intros sp F E; [intros [|] c a post Q; discriminate Q|].
  inversion F as [|? ? F1 F2]; subst. cbn [fst] in F1. cbn in E. apply andb_prop in E. destruct E as [E1 E2]. apply lawful_cons; [|apply IH; [exact F2|exact E2]].
  intros w. apply allowed_b_ok. destruct c; cbn [core] in F1; try contradiction; exact E1.
Qed.
Example C29_no_overlap_nonvacuous : exists l g,
  cexec toy toyC (fun _ _ => True) (start (pw demo) [urkel_insert kz v1]) l g /\ c_threads g = [Idle (PDone AOk)] /\
  effects l = demo_effects /\ Forall core_prog [urkel_insert kz v1] /\
  lawful toy (ps demo) (effects l) /\ collision_free toy (after_calls toy (ps demo) (effects l)).
Proof.
  assert (G : conserving (fun _ _ => True)) by (intros g l _ (j & W); exists j; auto).
  assert (Ot : forall p j, others_idle [Idle p] j).
  { intros p j [|[|j']] t Nj Et; cbn in Et; try discriminate Et; injection Et as <-; eauto. }
  assert (E1 : exists w1, step toy toyC (pw demo) (CTxCreate None) = Ok (ATx 3, w1) /\
    exists w2, step toy toyC w1 (CTxInsert 3 kz v1) = Ok (AOk, w2) /\
    exists w3, step toy toyC w2 (CTxCommit 3) = Ok (AOk, w3) /\
    exists w4, step toy toyC w3 (CTxDestroy 3) = Ok (AOk, w4)).
  { eexists; split; [apply st_ok; vm_compute; reflexivity|]. eexists; split; [apply st_ok; vm_compute; reflexivity|].
    eexists; split; [apply st_ok; vm_compute; reflexivity|]. eexists. apply st_ok; vm_compute; reflexivity. }
  destruct E1 as (w1 & E1 & w2 & E2 & w3 & E3 & w4 & E4).
  do 2 eexists. split; [|split; [|split; [|split; [|split]]]].
  - unfold start, urkel_insert, write_prog. cbn [map].
    eapply cexec_trans; [eapply (solo_call toy toyC _ G _ _ 0); [reflexivity|apply Ot|exact I|exact E1]|]. cbn [upd].
    eapply cexec_trans; [eapply (solo_call toy toyC _ G _ _ 0); [reflexivity|apply Ot|cbn; lia|exact E2]|]. cbn [upd].
    eapply cexec_trans; [eapply (solo_call toy toyC _ G _ _ 0); [reflexivity|apply Ot|exact I|exact E3]|]. cbn [upd].
    eapply (solo_call toy toyC _ G _ _ 0); [reflexivity|apply Ot|exact I|exact E4].
  - reflexivity.
  - reflexivity.
  - constructor; [|constructor]. cbn. repeat split; auto; try lia; intros []; cbn; auto. repeat split; auto; try lia. intros []; cbn; auto.
  - change (lawful toy (ps demo) demo_effects). apply all_ok_lawful; [repeat constructor; cbn; lia|vm_compute; reflexivity].
  - change (collision_free toy (after_calls toy (ps demo) demo_effects)). apply collision_free_b_ok. vm_compute. reflexivity.
Qed.
