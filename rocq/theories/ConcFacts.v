(** * Facts about threads: the lock discipline is an invariant. *)
From Verif Require Import Conc.
Import ListNotations.

(** The objects a call may change. *)
Definition writes_tree (c : call) : bool :=
  match c with CInject _ | CTxCreate _ | CTxInject _ _ | CTxCommit _ => true | _ => false end.
Definition writes_tx (c : call) : bool :=
  match c with CTxGet _ _ | CTxHas _ _ => false | _ => true end.

Definition covers (c : call) (h : list (lockid * mode)) (f : bool) : Prop :=
  (uses_tree c = true -> exists m, List.In (LTree, m) h /\ (writes_tree c = true -> f = false -> m = MW)) /\
  (forall i, tx_of c = Some i -> exists m, List.In (LTx i, m) h /\ (writes_tx c = true -> f = false -> m = MW)).

(** Order of acquisition: a transaction's lock first, the tree's lock last - except that
    urkel_tx_prove takes the transaction's lock again while it holds the tree's. *)
Definition order (c : call) (l : lockid) (h : list (lockid * mode)) : Prop :=
  ~ List.In l (map fst h) /\
  match l with
  | LTree => h = [] \/ (exists i m, tx_of c = Some i /\ h = [(LTx i, m)])
  | LTx i => tx_of c = Some i /\ (h = [] \/ exists k, c = CTxProve i k /\ h = [(LTree, MR)])
  end.

(** [okc c h f ph code]: with the locks [h] held, the rest [code] of call [c] keeps the
    discipline; [f]: the fast path has been chosen; [ph]: nothing loaded, loaded, stored. *)
Inductive okc (c : call) : list (lockid * mode) -> bool -> nat -> list instr -> Prop :=
| ok_done : okc c [] false 2 []
| ok_acq l m h r : order c l h -> okc c ((l, m) :: h) false 0 r -> okc c h false 0 (IAcq l m :: r)
| ok_wait l m h r : order c l h -> okc c ((l, m) :: h) false 0 r -> okc c h false 0 (IWait l m :: r)
| ok_rel l h ph r : ph <> 1 -> okc c (drop_lock l h) false ph r -> okc c h false ph (IRel l :: r)
| ok_test h x r : covers c h true -> okc c h true 0 r -> okc c h false 0 (x ++ r) -> okc c h false 0 (ITest x :: r)
| ok_load h f r : covers c h f -> okc c h f 1 r -> okc c h f 0 (ILoad :: r)
| ok_store h f r : covers c h f -> okc c h false 2 r -> okc c h f 1 (IStore :: r).

Ltac wit := eexists; split; [cbn; eauto 6|cbn; try discriminate; try reflexivity].
Ltac cov := split; [first [discriminate|intros _; wit]|let e := fresh in intros ? e; first [discriminate e|injection e as <-; wit]].
Ltac dropl := unfold drop_lock; cbn [filter fst]; repeat (destruct (lockid_eq_dec _ _) as [?E|?E]; [discriminate E||idtac|congruence||idtac]).
Lemma code_ok c : core c -> okc c [] false 0 (code c).
Proof.
  destruct c; cbn [core code]; intros K; try contradiction K.
  all: repeat (first [ apply ok_done | apply ok_acq; [split; [cbn; intuition discriminate|cbn; eauto 8]|]
                     | apply ok_rel; [lia|dropl]
                     | apply ok_test; [cov| |cbn [app]]
                     | apply ok_load; [cov|]
                     | apply ok_store; [cov|] ]).
Qed.

(** ** What each call leaves alone *)

Section Foot.
Variable H : bytes -> bytes.
Variable C : bytes -> bytes -> bytes.

Lemma root_same n a n' x : hashed n = Some x -> tx_root H n = Ok (a, n') -> n' = n.
Proof.
  unfold tx_root. destruct n; cbn [hashed]; intros E; try injection E as ->; subst; cbn [node_hash bind]; intros F; apply Ok_inj in F; congruence.
Qed.
Lemma prove_same d n k a n' :
  n = NNull \/ (exists h p, n = NHash h p) -> tx_prove H d n k = Ok (a, n') -> n' = n.
Proof.
  intros K. unfold tx_prove.
  assert (G : forall p m, tree_prove H (st_rd (d_store d)) TREE_FUEL [] n k 0 = Ok (p, m) -> m = n).
  { intros p m. generalize TREE_FUEL. intros [|f]; cbn [tree_prove]; [discriminate|].
    destruct K as [->|(h & q & ->)]; [intros E; apply Ok_inj in E; congruence|].
    destruct (resolve _ _ _) as [[rn|]|e| | |]; cbn [bind]; try discriminate.
    destruct (tree_prove _ _ _ _ _ _ _) as [[pr x]|e| | |]; cbn [bind]; try discriminate. intros E; apply Ok_inj in E; congruence. }
  destruct (tree_prove _ _ _ _ _ _ _) as [[p m]|e| | |] eqn:E; try discriminate.
  - specialize (G _ _ eq_refl). destruct (proof_size p); cbn [bind]; try discriminate.
    destruct (proof_write p); cbn [bind]; try discriminate. destruct (_ =? _); [|discriminate]. intros F; apply Ok_inj in F; congruence.
  - intros F; apply Ok_inj in F; congruence.
Qed.

Lemma step_foot w c a w' : core c -> step H C w c = Ok (a, w') ->
  (writes_tree c && negb (fast c w) = false -> w_db w' = w_db w) /\
  (forall i, i < length (w_txs w) -> tx_of c <> Some i \/ writes_tx c && negb (fast c w) = false ->
     nth i (w_txs w') TDead = nth i (w_txs w) TDead) /\
  length (w_txs w) <= length (w_txs w').
Proof.
  intros K. unfold step. destruct (w_db w) as [d|] eqn:D; [|discriminate].
  assert (P : forall i d' t, i < length (w_txs w) ->
    (forall j, j < length (w_txs w) -> Some i <> Some j \/ (nth i (w_txs w) TDead = t) ->
       nth j (w_txs (put_tx w d' i t)) TDead = nth j (w_txs w) TDead) /\ length (w_txs w) <= length (w_txs (put_tx w d' i t))).
  { intros i d' t L. unfold put_tx. cbn [w_txs]. split; [|rewrite upd_length; lia].
    intros j Lj Q. destruct (Nat.eq_dec i j) as [<-|N]; [|apply nth_upd_neq; exact N].
    rewrite nth_upd_eq by exact L. destruct Q as [Q|Q]; congruence. }
  assert (Lv : forall i n, live w i = Ok n -> i < length (w_txs w) /\ nth i (w_txs w) TDead = TLive n).
  { intros i n. unfold live. destruct (Nat.lt_ge_cases i (length (w_txs w))) as [L|L]; [|rewrite nth_overflow by exact L; discriminate].
    destruct (nth i (w_txs w) TDead); try discriminate. intros E; apply Ok_inj in E; subst; auto. }
  assert (Z : forall i d' t, i < length (w_txs w) -> w_db (put_tx w d' i t) = Some d') by reflexivity.
  destruct c; cbn [core] in K; try contradiction K; cbn [writes_tree writes_tx tx_of andb].
  - intros E; apply Ok_inj in E. injection E as <- <-. repeat split; auto.
  - destruct (db_inject H C d h) as [[b d']|e| | |]; cbn [bind]; try discriminate. intros E; apply Ok_inj in E. injection E as <- <-.
    cbn [w_db w_txs fast negb]. repeat split; auto. discriminate.
  - unfold tx_create. cbn [fast]. rewrite D. destruct ro as [h|].
    + destruct (read_history H C (d_store d) h) as [[[r|] s]|e| | |]; cbn [bind]; try discriminate; intros E; apply Ok_inj in E; injection E as <- <-; cbn [w_db w_txs negb];
        (split; [discriminate|split; [|rewrite ?app_length; lia]]); intros i L _; [|reflexivity]. apply app_nth1; exact L.
    + destruct (d_revert d) eqn:R; cbn [negb].
      * destruct (read_history H C (d_store d) (d_hash d)) as [[[r|] s]|e| | |]; cbn [bind]; try discriminate; intros E; apply Ok_inj in E; injection E as <- <-; cbn [w_db w_txs negb];
          (split; [discriminate|split; [|rewrite ?app_length; lia]]); intros i L _; [|reflexivity]. apply app_nth1; exact L.
      * cbn [bind]. intros E; apply Ok_inj in E; injection E as <- <-; cbn [w_db w_txs]. split; [reflexivity|]. split; [|rewrite app_length; lia].
        intros i L _. apply app_nth1; exact L.
  - destruct (live w i) as [n|e| | |] eqn:L; cbn [bind]; try discriminate. destruct (Lv _ _ L) as [L1 L2]. intros E; apply Ok_inj in E; injection E as <- <-.
    destruct (P i d TDead L1) as [P1 P2]. split; [reflexivity|]. split; [|exact P2]. intros j Lj Q. apply P1; [exact Lj|]. destruct Q as [Q|Q]; [left; exact Q|discriminate Q].
  - destruct (live w i) as [n|e| | |] eqn:L; cbn [bind]; try discriminate. destruct (Lv _ _ L) as [L1 L2]. intros E; apply Ok_inj in E; injection E as <- <-.
    match goal with |- context [put_tx w d i ?t] => destruct (P i d t L1) as [P1 P2] end. split; [reflexivity|]. split; [|exact P2]. intros j Lj Q. apply P1; [exact Lj|]. destruct Q as [Q|Q]; [left; exact Q|discriminate Q].
  - destruct (live w i) as [n|e| | |] eqn:L; cbn [bind]; try discriminate. destruct (Lv _ _ L) as [L1 L2].
    destruct (tx_root H n) as [[b n']|e| | |] eqn:T; cbn [bind]; try discriminate. intros E; apply Ok_inj in E; injection E as <- <-.
    destruct (P i d (TLive n') L1) as [P1 P2]. split; [reflexivity|]. split; [|exact P2]. intros j Lj Q. apply P1; [exact Lj|].
    destruct Q as [Q|Q]; [left; exact Q|]. right. cbn [fast] in Q. rewrite L2 in Q |- *. f_equal.
    destruct (hashed n) as [x|] eqn:Hn; [symmetry; eapply root_same; eauto|]. destruct n; discriminate.
  - destruct (live w i) as [n|e| | |] eqn:L; cbn [bind]; try discriminate. destruct (Lv _ _ L) as [L1 L2].
    destruct (tx_inject H C d n h) as [[[b d'] n']|e| | |] eqn:T; cbn [bind]; try discriminate. intros E; apply Ok_inj in E; injection E as <- <-.
    destruct (P i d' (TLive n') L1) as [P1 P2]. split; [discriminate|]. split; [|exact P2]. intros j Lj Q. apply P1; [exact Lj|]. destruct Q as [Q|Q]; [left; exact Q|discriminate Q].
  - destruct (live w i) as [n|e| | |] eqn:L; cbn [bind]; try discriminate. destruct (tx_get d n k) as [b|e| | |]; cbn [bind]; try discriminate.
    intros E; apply Ok_inj in E; injection E as <- <-. repeat split; auto.
  - destruct (live w i) as [n|e| | |] eqn:L; cbn [bind]; try discriminate. destruct (tx_has d n k) as [b|e| | |]; cbn [bind]; try discriminate.
    intros E; apply Ok_inj in E; injection E as <- <-. repeat split; auto.
  - destruct (live w i) as [n|e| | |] eqn:L; cbn [bind]; try discriminate. destruct (Lv _ _ L) as [L1 L2].
    destruct (tx_insert H d n k v) as [[b n']|e| | |] eqn:T; cbn [bind]; try discriminate. intros E; apply Ok_inj in E; injection E as <- <-.
    destruct (P i d (TLive n') L1) as [P1 P2]. split; [reflexivity|]. split; [|exact P2]. intros j Lj Q. apply P1; [exact Lj|]. destruct Q as [Q|Q]; [left; exact Q|discriminate Q].
  - destruct (live w i) as [n|e| | |] eqn:L; cbn [bind]; try discriminate. destruct (Lv _ _ L) as [L1 L2].
    destruct (tx_remove d n k) as [[b n']|e| | |] eqn:T; cbn [bind]; try discriminate. intros E; apply Ok_inj in E; injection E as <- <-.
    destruct (P i d (TLive n') L1) as [P1 P2]. split; [reflexivity|]. split; [|exact P2]. intros j Lj Q. apply P1; [exact Lj|]. destruct Q as [Q|Q]; [left; exact Q|discriminate Q].
  - destruct (live w i) as [n|e| | |] eqn:L; cbn [bind]; try discriminate. destruct (Lv _ _ L) as [L1 L2].
    destruct (tx_prove H d n k) as [[b n']|e| | |] eqn:T; cbn [bind]; try discriminate. intros E; apply Ok_inj in E; injection E as <- <-.
    destruct (P i d (TLive n') L1) as [P1 P2]. split; [reflexivity|]. split; [|exact P2]. intros j Lj Q. apply P1; [exact Lj|].
    destruct Q as [Q|Q]; [left; exact Q|]. right. cbn [fast] in Q. rewrite L2 in Q |- *. f_equal. symmetry. eapply prove_same; [|exact T].
    destruct n; try discriminate Q; eauto.
  - destruct (live w i) as [n|e| | |] eqn:L; cbn [bind]; try discriminate. destruct (Lv _ _ L) as [L1 L2].
    destruct (tx_commit H C d n) as [[[b d'] t]|e| | |] eqn:T; cbn [bind]; try discriminate. intros E; apply Ok_inj in E; injection E as <- <-.
    destruct (P i d' t L1) as [P1 P2]. split; [discriminate|]. split; [|exact P2]. intros j Lj Q. apply P1; [exact Lj|]. destruct Q as [Q|Q]; [left; exact Q|discriminate Q].
Qed.
Lemma step_valid w c a w' : step H C w c = Ok (a, w') -> valid_tx c w = true.
Proof.
  intros E. unfold valid_tx. destruct (tx_of c) as [i|] eqn:T; [|reflexivity]. apply Nat.ltb_lt.
  destruct (Nat.lt_ge_cases i (length (w_txs w))) as [L|L]; [exact L|exfalso]. revert E.
  assert (Lv : live w i = UB) by (unfold live; rewrite nth_overflow by exact L; reflexivity).
  unfold step. destruct (w_db w); [|discriminate]. destruct c; cbn [tx_of] in T; try discriminate T; injection T as ->; rewrite Lv; discriminate.
Qed.
End Foot.

Lemma fast_same c w w' : (forall o, uses o c -> same o w w') -> fast c w' = fast c w.
Proof.
  intros S. destruct c; cbn [fast]; try reflexivity.
  - destruct ro; [reflexivity|]. specialize (S LTree eq_refl). cbn [same] in S. rewrite S. reflexivity.
  - specialize (S (LTx i) eq_refl). cbn [same] in S. rewrite S. reflexivity.
  - specialize (S (LTx i) eq_refl). cbn [same] in S. rewrite S. reflexivity.
Qed.

(** ** The invariant *)
Definition xgood (w : world) (x : inside) (f : bool) (ph : nat) : Prop :=
  core (i_call x) /\ (forall a, core_prog (i_cont x a)) /\
  okc (i_call x) (i_held x) f ph (i_code x) /\
  (f = true -> valid_tx (i_call x) w = true /\ fast (i_call x) w = true) /\
  (ph = 1 -> valid_tx (i_call x) w = true /\ exists r, i_regs x = Some r /\
     (uses_tree (i_call x) = true -> fst r = w_db w) /\ snd r = tx_value (i_call x) w) /\
  (i_ans x = None <-> ph <> 2).
Definition tgood (w : world) (t : thread) : Prop :=
  match t with Idle p => core_prog p | In x => exists f ph, xgood w x f ph end.
Definition excl (ts : list thread) : Prop :=
  forall j1 j2 t1 t2 l m1 m2, j1 <> j2 -> nth_error ts j1 = Some t1 -> nth_error ts j2 = Some t2 ->
    List.In (l, m1) (held t1) -> List.In (l, m2) (held t2) -> m1 = MR /\ m2 = MR.
Definition inv (g : config) : Prop :=
  excl (c_threads g) /\ forall j t, nth_error (c_threads g) j = Some t -> tgood (c_world g) t.

Lemma protected_covers c h f ph code : okc c h f ph code -> f = true \/ ph = 1 -> covers c h f.
Proof. intros O. destruct O; intros [E|E]; try discriminate E; try congruence; try assumption; lia. Qed.

(** A change of the world leaves a thread in good state if it spares its objects while it works on them. *)
Lemma good_world w w' x f ph : xgood w x f ph -> length (w_txs w) <= length (w_txs w') ->
  (f = true \/ ph = 1 -> forall o, uses o (i_call x) -> same o w w') -> xgood w' x f ph.
Proof.
  intros (K1 & K2 & K3 & K4 & K5 & K6) L S. repeat (split; [assumption|]).
  assert (V : valid_tx (i_call x) w = true -> valid_tx (i_call x) w' = true).
  { unfold valid_tx. destruct (tx_of (i_call x)); [|reflexivity]. rewrite !Nat.ltb_lt. lia. }
  split; [|split; [|exact K6]].
  - intros E. destruct (K4 E) as [A B]. split; [auto|]. rewrite (fast_same _ w w'); [exact B|]. apply S. now left.
  - intros E. destruct (K5 E) as (A & r & R1 & R2 & R3). split; [auto|]. exists r. split; [exact R1|]. split.
    + intros U. rewrite R2 by exact U. specialize (S (or_intror E) LTree U). cbn [same] in S. symmetry. exact S.
    + rewrite R3. unfold tx_value. destruct (tx_of (i_call x)) as [i|] eqn:T; [|reflexivity].
      specialize (S (or_intror E) (LTx i) T). cbn [same] in S. symmetry. exact S.
Qed.

Lemma upd_same {A} (l : list A) i d : upd l i (nth i l d) = l.
Proof. revert i; induction l as [|y l IH]; intros [|i]; cbn; f_equal; auto. Qed.
Lemma regs_current c w r : valid_tx c w = true -> (uses_tree c = true -> fst r = w_db w) -> snd r = tx_value c w -> with_regs c w r = w.
Proof.
  intros V U T. unfold with_regs. destruct w as [d txs]. cbn [w_db w_txs] in *. f_equal.
  - destruct (uses_tree c); auto.
  - unfold tx_value in T. destruct (tx_of c) as [i|]; [|reflexivity]. rewrite T. cbn [w_txs]. apply upd_same.
Qed.

Lemma nth_error_upd {A} (l : list A) j x j' y : nth_error (upd l j x) j' = Some y ->
  (j = j' /\ y = x) \/ (j <> j' /\ nth_error l j' = Some y).
Proof.
  destruct (Nat.eq_dec j j') as [<-|N].
  - intros E. left. split; [reflexivity|]. assert (L : j < length l).
    { rewrite <- (upd_length l j x). apply nth_error_Some. congruence. }
    rewrite nth_error_upd_eq in E by exact L. congruence.
  - intros E. right. split; [exact N|]. rewrite nth_error_upd_neq in E by exact N. exact E.
Qed.

Lemma inv_start w ps : Forall core_prog ps -> inv (start w ps).
Proof.
  intros F. split; cbn [c_threads c_world start].
  - intros j1 j2 t1 t2 l m1 m2 _ E1 _ I1. rewrite nth_error_map in E1. destruct (nth_error ps j1); [|discriminate]. injection E1 as <-. destruct I1.
  - intros j t E. rewrite nth_error_map in E. destruct (nth_error ps j) as [p|] eqn:P; [|discriminate]. injection E as <-. cbn [tgood].
    rewrite Forall_forall in F. apply F. eapply nth_error_In, P.
Qed.

(** Replacing a thread by one that holds no more locks. *)
Lemma excl_less ts j t t' : excl ts -> nth_error ts j = Some t -> (forall e, List.In e (held t') -> List.In e (held t)) -> excl (upd ts j t').
Proof.
  intros X N S j1 j2 t1 t2 l m1 m2 D E1 E2 I1 I2.
  apply nth_error_upd in E1. apply nth_error_upd in E2.
  destruct E1 as [[<- ->]|[N1 E1]], E2 as [[<- ->]|[N2 E2]]; try congruence; eauto.
Qed.

Section Inv.
Variable H : bytes -> bytes.
Variable C : bytes -> bytes -> bytes.
Variable grant : config -> nat -> Prop.

(** At a store the loaded objects are the current ones, and the objects other threads are
    working on stay as they are. *)
Lemma inv_store w ts j c rest r h a k a' w' : inv (mkconf w ts) ->
  nth_error ts j = Some (In (mkin c (IStore :: rest) (Some r) h a k)) ->
  with_regs c w r = w /\ core c /\ valid_tx c w = true /\
  (step H C w c = Ok (a', w') -> forall j' x f ph, j <> j' -> nth_error ts j' = Some (In x) -> xgood w x f ph ->
     covers (i_call x) (i_held x) true -> valid_tx (i_call x) w = true -> forall o, uses o (i_call x) -> same o w w').
Proof.
  intros [X G] E. cbn [c_threads c_world] in *. destruct (G _ _ E) as (f & ph & K1 & K2 & K3 & K4 & K5 & K6). cbn [i_call i_code i_regs i_held i_ans i_cont] in *.
  assert (Q : ph = 1 /\ covers c h f) by (inversion K3; subst; auto). destruct Q as [-> Cc].
  destruct (K5 eq_refl) as (V & r' & R1 & R2 & R3). injection R1 as <-.
  split; [apply regs_current; auto|]. split; [exact K1|]. split; [exact V|]. intros S j' x f' ph' N E' G' Cv V' o U.
  destruct (step_foot H C w c a' w' K1 S) as (F1 & F2 & F3).
  assert (Lk : forall l m m', List.In (l, m) h -> List.In (l, m') (i_held x) -> m = MR).
  { intros l m m' I1 I2. eapply (X j j' _ _ l m m'); eauto. }
  destruct o as [|i]; cbn [uses same] in *.
  - apply F1. destruct (writes_tree c) eqn:W; [|reflexivity]. cbn [andb]. destruct f; [destruct (K4 eq_refl) as [_ ->]; reflexivity|exfalso].
    destruct Cc as [Ct _]. assert (Uc : uses_tree c = true) by (destruct c; try discriminate W; reflexivity).
    destruct (Ct Uc) as (m & I1 & I2). rewrite (I2 W eq_refl) in I1. destruct Cv as [Cv _]. destruct (Cv U) as (m' & I3 & _).
    specialize (Lk _ _ _ I1 I3). discriminate.
  - assert (Li : i < length (w_txs w)) by (unfold valid_tx in V'; rewrite U in V'; apply Nat.ltb_lt; exact V').
    apply F2; [exact Li|]. destruct (tx_of c) as [i'|] eqn:T; [|left; discriminate]. destruct (Nat.eq_dec i' i) as [->|D]; [|left; congruence]. right.
    destruct (writes_tx c) eqn:W; [|reflexivity]. cbn [andb]. destruct f; [destruct (K4 eq_refl) as [_ ->]; reflexivity|exfalso].
    destruct Cc as [_ Ct]. destruct (Ct i T) as (m & I1 & I2). rewrite (I2 W eq_refl) in I1. destruct Cv as [_ Cv]. destruct (Cv i U) as (m' & I3 & _).
    specialize (Lk _ _ _ I1 I3). discriminate.
Qed.

Lemma inv_step j g e g' : inv g -> cstep H C grant j g e g' -> inv g'.
Proof.
  intros I S. pose proof I as [X G]. destruct S as
    [w ts c k E|w ts c l m rest r h a k E|w ts c l m rest r h a k E Cm Gr|w ts c l rest r h a k E|w ts c extra rest r h a k E V
    |w ts c rest r h a k E V|w ts c rest r h a k a' w' E S|w ts c r h a k E];
    cbn [c_threads c_world] in *; pose proof (G _ _ E) as Gj; cbn [tgood] in Gj.
  - destruct Gj as [K1 K2]. split; cbn [c_threads c_world].
    + eapply excl_less; [exact X|exact E|]. intros e [].
    + intros j' t E'. apply nth_error_upd in E'. destruct E' as [[<- ->]|[N E']]; [|eapply G; eauto].
      cbn [tgood]. exists false, 0. repeat split; cbn; try discriminate; auto. apply code_ok, K1.
  - destruct Gj as (f & ph & K1 & K2 & K3 & K4 & K5 & K6). cbn [i_call i_code i_regs i_held i_ans i_cont] in *. split; cbn [c_threads c_world].
    + eapply excl_less; [exact X|exact E|]. intros e Ie; exact Ie.
    + intros j' t E'. apply nth_error_upd in E'. destruct E' as [[<- ->]|[N E']]; [|eapply G; eauto].
      cbn [tgood]. exists f, ph. split; [exact K1|]. split; [exact K2|]. split; [|split; [exact K4|split; [exact K5|exact K6]]]. cbn.
      inversion K3; subst. apply ok_wait; assumption.
  - destruct Gj as (f & ph & K1 & K2 & K3 & K4 & K5 & K6). cbn [i_call i_code i_regs i_held i_ans i_cont] in *. split; cbn [c_threads c_world].
    + intros j1 j2 t1 t2 l0 m1 m2 D E1 E2 I1 I2. apply nth_error_upd in E1. apply nth_error_upd in E2.
      destruct E1 as [[<- ->]|[N1 E1]], E2 as [[<- ->]|[N2 E2]]; try congruence; [| |eauto]; cbn [held i_held List.In] in I1, I2.
      * destruct I1 as [I1|I1]; [|eapply (X j j2); eauto]. injection I1 as <- <-. eapply Cm; [eapply nth_error_In, E2|exact I2|reflexivity].
      * destruct I2 as [I2|I2]; [|eapply (X j1 j); eauto]. injection I2 as <- <-. apply and_comm. eapply Cm; [eapply nth_error_In, E1|exact I1|reflexivity].
    + intros j' t E'. apply nth_error_upd in E'. destruct E' as [[<- ->]|[N E']]; [|eapply G; eauto].
      cbn [tgood]. exists false, 0. inversion K3; subst. split; [exact K1|]. split; [exact K2|]. split; [assumption|]. split; [discriminate|]. split; [discriminate|exact K6].
  - destruct Gj as (f & ph & K1 & K2 & K3 & K4 & K5 & K6). cbn [i_call i_code i_regs i_held i_ans i_cont] in *. split; cbn [c_threads c_world].
    + eapply excl_less; [exact X|exact E|]. cbn. intros e Ie. unfold drop_lock in Ie. apply filter_In in Ie. apply Ie.
    + intros j' t E'. apply nth_error_upd in E'. destruct E' as [[<- ->]|[N E']]; [|eapply G; eauto].
      cbn [tgood]. exists false, ph. inversion K3; subst. split; [exact K1|]. split; [exact K2|]. split; [assumption|]. split; [discriminate|split; [exact K5|exact K6]].
  - destruct Gj as (f & ph & K1 & K2 & K3 & K4 & K5 & K6). cbn [i_call i_code i_regs i_held i_ans i_cont] in *. split; cbn [c_threads c_world].
    + eapply excl_less; [exact X|exact E|]. intros e Ie; exact Ie.
    + intros j' t E'. apply nth_error_upd in E'. destruct E' as [[<- ->]|[N E']]; [|eapply G; eauto].
      cbn [tgood]. inversion K3; subst. exists (fast c w), 0. split; [exact K1|]. split; [exact K2|].
      split; [cbn; destruct (fast c w); assumption|]. split; [cbn; auto|split; [discriminate|exact K6]].
  - destruct Gj as (f & ph & K1 & K2 & K3 & K4 & K5 & K6). cbn [i_call i_code i_regs i_held i_ans i_cont] in *. split; cbn [c_threads c_world].
    + eapply excl_less; [exact X|exact E|]. intros e Ie; exact Ie.
    + intros j' t E'. apply nth_error_upd in E'. destruct E' as [[<- ->]|[N E']]; [|eapply G; eauto].
      cbn [tgood]. exists f, 1. inversion K3; subst. split; [exact K1|]. split; [exact K2|]. split; [assumption|]. split; [exact K4|].
      split; [|split; [lia|intros _; apply K6; discriminate]]. cbn. intros _. split; [exact V|]. eexists. split; [reflexivity|]. cbn. auto.
  - destruct (inv_store w ts j c rest r h a k a' w' I E) as (R & Kc & V & F). rewrite R in S.
    pose proof (step_foot H C w c a' w' Kc S) as (_ & _ & L).
    destruct Gj as (f & ph & K1 & K2 & K3 & K4 & K5 & K6). cbn [i_call i_code i_regs i_held i_ans i_cont] in *. split; cbn [c_threads c_world].
    + eapply excl_less; [exact X|exact E|]. intros e Ie; exact Ie.
    + intros j' t E'. apply nth_error_upd in E'. destruct E' as [[<- ->]|[N E']].
      * cbn [tgood]. exists false, 2. inversion K3; subst. split; [exact K1|]. split; [exact K2|]. split; [assumption|]. split; [discriminate|]. split; [discriminate|cbn; split; congruence].
      * pose proof (G _ _ E') as Gt. destruct t as [p|x]; [exact Gt|]. cbn [tgood] in *. destruct Gt as (f' & ph' & Gx). exists f', ph'.
        apply (good_world w); [exact Gx|exact L|]. intros P. pose proof Gx as (_ & _ & Ox & Fx & Px & _). pose proof (protected_covers _ _ _ _ _ Ox P) as Cv.
        apply (F S j' x f' ph' N E' Gx).
        -- destruct Cv as [C1 C2]. split.
           ++ intros U. destruct (C1 U) as (m & Im & _). exists m. split; [exact Im|discriminate].
           ++ intros i U. destruct (C2 i U) as (m & Im & _). exists m. split; [exact Im|discriminate].
        -- destruct P as [P|P]; [apply Fx, P|apply Px, P].
  - destruct Gj as (f & ph & K1 & K2 & K3 & K4 & K5 & K6). cbn [i_call i_code i_regs i_held i_ans i_cont] in *. split; cbn [c_threads c_world].
    + eapply excl_less; [exact X|exact E|]. intros e [].
    + intros j' t E'. apply nth_error_upd in E'. destruct E' as [[<- ->]|[N E']]; [|eapply G; eauto]. cbn [tgood]. apply K2.
Qed.

Lemma inv_exec g l g' : inv g -> cexec H C grant g l g' -> inv g'.
Proof. intros I X. induction X; eauto using inv_step. Qed.

(** Every call takes effect at once, on the current state. *)
Lemma exec_seq g l g' : inv g -> cexec H C grant g l g' -> seq H C (c_world g) (effects l) (c_world g').
Proof.
  intros I X. induction X as [|l g1 j e g2 X IH S]; [constructor|].
  pose proof (inv_exec _ _ _ I X) as I1. unfold effects in *. rewrite flat_map_app.
  destruct S; cbn [c_world flat_map snd app] in *; rewrite ?app_nil_r; try exact IH.
  match goal with E : nth_error _ _ = _ |- _ => destruct (inv_store w ts j c rest r h a k a' w' I1 E) as (R & _) end.
  rewrite R in H1. econstructor; eauto.
Qed.

(** ** The events of one thread *)
Inductive went (p : prog) : list event -> thread -> Prop :=
| we_nil : went p [] (Idle p)
| we_inv es c k x : went p es (Idle (PCall c k)) -> i_call x = c -> i_cont x = k -> i_ans x = None -> went p (es ++ [EInv c]) (In x)
| we_eff es c k x a : went p es (Idle (PCall c k)) -> i_call x = c -> i_cont x = k -> i_ans x = Some a -> went p (es ++ [EInv c; EEff c a]) (In x)
| we_ret es c k a : went p es (Idle (PCall c k)) -> went p (es ++ [EInv c; EEff c a; ERet c a]) (Idle (k a)).

Lemma follows_app p es q es' : went p es (Idle q) -> follows q es' -> follows p (es ++ es').
Proof.
  remember (Idle q) as t. intros W. revert q Heqt es'. induction W; intros q Et es' F; try discriminate.
  - injection Et as <-. exact F.
  - injection Et as <-. rewrite <- app_assoc. eapply IHW; [reflexivity|]. cbn [app]. apply fo_ret. exact F.
Qed.
Lemma went_follows p es t : went p es t -> follows p es.
Proof.
  intros W. destruct W as [|es c k x W|es c k x a W|es c k a W]; [constructor| | |].
  - eapply follows_app; [exact W|]. constructor.
  - eapply follows_app; [exact W|]. constructor.
  - eapply follows_app; [exact W|]. constructor. constructor.
Qed.

Lemma went_in p es x : went p es (In x) -> exists es0, went p es0 (Idle (PCall (i_call x) (i_cont x))) /\
  es = es0 ++ EInv (i_call x) :: match i_ans x with None => [] | Some a => [EEff (i_call x) a] end.
Proof.
  remember (In x) as t eqn:Et. intros W. destruct W as [|es c k y W E1 E2 E3|es c k y a W E1 E2 E3|es c k a W]; try discriminate;
    injection Et as ->; rewrite E1, E2, E3; eauto.
Qed.
Lemma went_step p es t t' : went p es t -> 
  match t, t' with In x, In x' => i_call x' = i_call x /\ i_cont x' = i_cont x /\ i_ans x' = i_ans x | _, _ => False end -> went p es t'.
Proof.
  intros W. destruct W as [|es c k x W E1 E2 E3|es c k x a W E1 E2 E3|es c k a W]; destruct t' as [q|x']; try contradiction;
    intros (A & B & D); [eapply we_inv|eapply we_eff]; eauto; congruence.
Qed.

Lemma exec_follows w ps l g' : Forall core_prog ps -> cexec H C grant (start w ps) l g' ->
  forall j p, nth_error ps j = Some p -> exists t, nth_error (c_threads g') j = Some t /\ went p (events_of j l) t.
Proof.
  intros F X. induction X as [|l g1 i e g2 X IH S]; intros j p P.
  - exists (Idle p). split; [|constructor]. cbn [start c_threads]. rewrite nth_error_map, P. reflexivity.
  - destruct (IH j p P) as (t & T & W). pose proof (inv_exec _ _ _ (inv_start w ps F) X) as [_ G].
    unfold events_of in *. rewrite filter_app, map_app.
    assert (Q : forall ts t' v, nth_error ts j = Some t -> (i <> j -> e = [] \/ exists y, e = [(i, y)]) ->
      (i = j -> went p (map snd (filter (fun x => fst x =? j) l) ++ map snd e) t' /\ filter (fun x => fst x =? j) e = e) ->
      exists t0, nth_error (c_threads (mkconf v (upd ts i t'))) j = Some t0 /\
        went p (map snd (filter (fun e => fst e =? j) l) ++ map snd (filter (fun e => fst e =? j) e)) t0).
    { intros ts t' v Nt Q1 Q2. cbn [c_threads]. destruct (Nat.eq_dec i j) as [->|N].
      - destruct (Q2 eq_refl) as [W2 Fe]. exists t'. rewrite Fe. split; [|exact W2]. apply nth_error_upd_eq. apply nth_error_Some. congruence.
      - exists t. split; [rewrite nth_error_upd_neq by exact N; exact Nt|].
        destruct (Q1 N) as [->|(y & ->)]; cbn [filter fst map]; [rewrite app_nil_r; exact W|].
        destruct (Nat.eqb_spec i j); [congruence|]. cbn [map]. rewrite app_nil_r. exact W. }
    destruct S as
    [v ts c k E|v ts c l0 m rest r h a k E|v ts c l0 m rest r h a k E Cm Gr|v ts c l0 rest r h a k E|v ts c extra rest r h a k E V
    |v ts c rest r h a k E V|v ts c rest r h a k a' v' E S|v ts c r h a k E]; apply Q; cbn [c_threads] in T; try exact T; eauto; intros ->; cbn [filter fst map snd]; rewrite ?Nat.eqb_refl, ?app_nil_r;
      (split; [|reflexivity]);
      rewrite E in T; injection T as <-;
      try (eapply went_step; [exact W|cbn; auto]; fail).
    + eapply we_inv; [exact W| | |]; reflexivity.
    + specialize (G _ _ E). destruct G as (f & ph & _ & _ & O & _ & _ & A). cbn [i_call i_code i_regs i_held i_ans i_cont c_world] in *.
      assert (Np : ph <> 2) by (inversion O; lia). rewrite (proj2 A Np) in W.
      destruct (went_in _ _ _ W) as (es0 & W0 & ->). cbn [i_call i_cont i_ans] in *. rewrite <- app_assoc. cbn [app]. eapply we_eff; eauto.
    + destruct (went_in _ _ _ W) as (es0 & W0 & ->). cbn [i_call i_cont i_ans] in *. rewrite <- app_assoc. cbn [app]. apply we_ret. exact W0.
Qed.
End Inv.

(** ** Calls without interference *)
Definition others_idle (ts : list thread) (j : nat) : Prop :=
  forall j' t, j' <> j -> nth_error ts j' = Some t -> exists p, t = Idle p.
Lemma upd_upd {A} (l : list A) i x y : upd (upd l i x) i y = upd l i y.
Proof. revert i; induction l as [|z l IH]; intros [|i]; cbn; f_equal; auto. Qed.
Lemma others_upd ts j t : others_idle ts j -> others_idle (upd ts j t) j.
Proof. intros O j' t' N E. rewrite nth_error_upd_neq in E by congruence. eauto. Qed.

Section Solo.
Variable H : bytes -> bytes.
Variable C : bytes -> bytes -> bytes.
Variable grant : config -> nat -> Prop.
Hypothesis G : conserving grant.

Lemma cexec_trans g1 l1 g2 l2 g3 : cexec H C grant g1 l1 g2 -> cexec H C grant g2 l2 g3 -> cexec H C grant g1 (l1 ++ l2) g3.
Proof. intros X Y. induction Y; [rewrite app_nil_r; exact X|]. rewrite app_assoc. econstructor; eauto. Qed.
Lemma cexec_cons g1 j e g2 l g3 : cstep H C grant j g1 e g2 -> cexec H C grant g2 l g3 -> cexec H C grant g1 (e ++ l) g3.
Proof. intros S Y. eapply cexec_trans; [|exact Y]. rewrite <- (app_nil_l e). econstructor; [constructor|exact S]. Qed.

Lemma solo_lock w ts j x l m rest : nth_error ts j = Some (In x) -> i_code x = IWait l m :: rest ->
  others_idle ts j -> ~ List.In l (map fst (i_held x)) -> compatible ts l m /\ grant (mkconf w ts) j.
Proof.
  intros E Ec O N.
  assert (Fr : forall t l' m', List.In t ts -> List.In (l', m') (held t) -> l' = l -> False).
  { intros t l' m' It Ih ->. apply In_nth_error in It. destruct It as [j' It]. destruct (Nat.eq_dec j' j) as [->|D].
    - rewrite E in It. injection It as <-. apply N. apply in_map_iff. exists (l, m'). auto.
    - destruct (O _ _ D It) as (p & ->). destruct Ih. }
  split; [intros t l' m' It Ih El; exfalso; eauto|].
  destruct (G (mkconf w ts) l) as (j' & (x' & m' & r' & Ex & _) & Gj).
  - intros t m' It Ih. exact (Fr t l m' It Ih eq_refl).
  - exists j, x, m, rest. auto.
  - cbn [c_threads] in Ex. destruct (Nat.eq_dec j' j) as [->|D]; [exact Gj|]. destruct (O _ _ D Ex) as (p & Ep). discriminate Ep.
Qed.

Lemma solo_after c w k a code h : okc c h false 2 code -> forall ts j r,
  nth_error ts j = Some (In (mkin c code r h (Some a) k)) -> others_idle ts j ->
  cexec H C grant (mkconf w ts) [(j, ERet c a)] (mkconf w (upd ts j (Idle (k a)))).
Proof.
  revert h. induction code as [|i code IH]; intros h O ts j r E Ot.
  - rewrite <- (app_nil_r [_]). eapply cexec_cons; [eapply cs_ret, E|constructor].
  - inversion O; subst.
    rewrite <- (app_nil_l [_]). eapply cexec_cons; [eapply cs_rel, E|].
    rewrite <- (upd_upd ts j (In (mkin c code r (drop_lock l h) (Some a) k)) (Idle (k a))).
    eapply IH; [eassumption| |apply others_upd, Ot]. apply nth_error_upd_eq. apply nth_error_Some. congruence.
Qed.

Lemma solo_before c w k a w' code h f ph : okc c h f ph code -> step H C w c = Ok (a, w') -> valid_tx c w = true -> forall ts j r,
  nth_error ts j = Some (In (mkin c code r h None k)) -> others_idle ts j -> ph <> 2 -> (f = true -> fast c w = true) ->
  (ph = 1 -> exists v, r = Some v /\ with_regs c w v = w) ->
  cexec H C grant (mkconf w ts) [(j, EEff c a); (j, ERet c a)] (mkconf w' (upd ts j (Idle (k a)))).
Proof.
  intros O S V. induction O as [|l m h r0 N O IH|l m h r0 N O IH|l h ph r0 N O IH|h x r0 Cv O IH O2 IH2|h f r0 Cv O IH|h f r0 Cv O IH]; intros ts j r E Ot P F R.
  - congruence.
  - assert (Q : forall ts, nth_error ts j = Some (In (mkin c (IWait l m :: r0) r h None k)) -> others_idle ts j ->
      cexec H C grant (mkconf w ts) [(j, EEff c a); (j, ERet c a)] (mkconf w' (upd ts j (Idle (k a))))).
    { clear ts E Ot. intros ts E Ot. destruct (solo_lock w ts j _ l m r0 E eq_refl Ot (proj1 N)) as [Cm Gr].
      rewrite <- (app_nil_l [_; _]). eapply cexec_cons; [eapply cs_acq; eassumption|].
      rewrite <- (upd_upd ts j (In (mkin c r0 r ((l, m) :: h) None k)) (Idle (k a))).
      eapply IH; [|apply others_upd, Ot|lia|discriminate|discriminate]. apply nth_error_upd_eq. apply nth_error_Some. congruence. }
    rewrite <- (app_nil_l [_; _]). eapply cexec_cons; [eapply cs_req, E|].
    rewrite <- (upd_upd ts j (In (mkin c (IWait l m :: r0) r h None k)) (Idle (k a))). apply Q; [|apply others_upd, Ot].
    apply nth_error_upd_eq. apply nth_error_Some. congruence.
  - destruct (solo_lock w ts j _ l m r0 E eq_refl Ot (proj1 N)) as [Cm Gr].
    rewrite <- (app_nil_l [_; _]). eapply cexec_cons; [eapply cs_acq; eassumption|].
    rewrite <- (upd_upd ts j (In (mkin c r0 r ((l, m) :: h) None k)) (Idle (k a))).
    eapply IH; [|apply others_upd, Ot|lia|discriminate|discriminate]. apply nth_error_upd_eq. apply nth_error_Some. congruence.
  - rewrite <- (app_nil_l [_; _]). eapply cexec_cons; [eapply cs_rel, E|].
    rewrite <- (upd_upd ts j (In (mkin c r0 r (drop_lock l h) None k)) (Idle (k a))).
    eapply IH; [|apply others_upd, Ot|exact P|discriminate|exact R]. apply nth_error_upd_eq. apply nth_error_Some. congruence.
  - rewrite <- (app_nil_l [_; _]). eapply cexec_cons; [eapply cs_test; eassumption|].
    rewrite <- (upd_upd ts j (In (mkin c (if fast c w then r0 else x ++ r0) r h None k)) (Idle (k a))).
    assert (E' : nth_error (upd ts j (In (mkin c (if fast c w then r0 else x ++ r0) r h None k))) j = Some (In (mkin c (if fast c w then r0 else x ++ r0) r h None k))).
    { apply nth_error_upd_eq. apply nth_error_Some. congruence. }
    destruct (fast c w) eqn:Ef; [eapply IH|eapply IH2]; try exact E'; try apply others_upd, Ot; try discriminate; auto.
  - rewrite <- (app_nil_l [_; _]). eapply cexec_cons; [eapply cs_load; eassumption|].
    rewrite <- (upd_upd ts j (In (mkin c r0 (Some (w_db w, tx_value c w)) h None k)) (Idle (k a))).
    eapply IH; [|apply others_upd, Ot|lia|exact F|].
    + apply nth_error_upd_eq. apply nth_error_Some. congruence.
    + intros _. eexists. split; [reflexivity|]. apply regs_current; auto.
  - destruct (R eq_refl) as (v & -> & Rv).
    change [(j, EEff c a); (j, ERet c a)] with ([(j, EEff c a)] ++ [(j, ERet c a)]).
    eapply cexec_cons; [eapply cs_store; [exact E|rewrite Rv; exact S]|].
    rewrite <- (upd_upd ts j (In (mkin c r0 (Some v) h (Some a) k)) (Idle (k a))).
    eapply solo_after; [exact O| |apply others_upd, Ot]. apply nth_error_upd_eq. apply nth_error_Some. congruence.
Qed.

(** A call made while all other threads are between calls. *)
Lemma solo_call w ts j c k a w' : nth_error ts j = Some (Idle (PCall c k)) -> others_idle ts j -> core c ->
  step H C w c = Ok (a, w') ->
  cexec H C grant (mkconf w ts) [(j, EInv c); (j, EEff c a); (j, ERet c a)] (mkconf w' (upd ts j (Idle (k a)))).
Proof.
  intros E Ot K S. change [(j, EInv c); (j, EEff c a); (j, ERet c a)] with ([(j, EInv c)] ++ [(j, EEff c a); (j, ERet c a)]).
  eapply cexec_cons; [eapply cs_call, E|]. rewrite <- (upd_upd ts j (In (mkin c (code c) None [] None k)) (Idle (k a))).
  eapply solo_before; [apply code_ok, K|exact S|eapply step_valid, S| |apply others_upd, Ot|lia|discriminate|discriminate].
  apply nth_error_upd_eq. apply nth_error_Some. congruence.
Qed.
End Solo.

(** ** Progress *)
Definition working (x : inside) : Prop :=
  match i_code x with (ITest _ | ILoad | IStore) :: _ => True | _ => False end.

Section Progress.
Variable H : bytes -> bytes.
Variable C : bytes -> bytes -> bytes.

(** Thread [j] is about to make a call whose requirements do not hold (or that aborts). *)
Definition faulty (g : config) (j : nat) : Prop :=
  exists x, nth_error (c_threads g) j = Some (In x) /\ working x /\ forall a w', step H C (c_world g) (i_call x) <> Ok (a, w').
Definition finished (t : thread) : Prop := exists a, t = Idle (PDone a).
Definition waiting (t : thread) : Prop := exists x l m rest, t = In x /\ i_code x = IWait l m :: rest.

Variable grant : config -> nat -> Prop.

Lemma classify g j t : inv g -> nth_error (c_threads g) j = Some t ->
  (exists e g', cstep H C grant j g e g') \/ faulty g j \/ finished t \/ waiting t.
Proof.
  destruct g as [w ts]. intros I E. pose proof I as [X Gd]. cbn [c_threads c_world] in *. pose proof (Gd _ _ E) as Gt.
  destruct t as [[a|c k]|x].
  - right. right. left. exists a. reflexivity.
  - left. do 2 eexists. eapply cs_call. exact E.
  - destruct Gt as (f & ph & K1 & K2 & O & K4 & K5 & K6). destruct x as [c code r h a k]. cbn [i_call i_code i_regs i_held i_ans i_cont] in *.
    assert (V : valid_tx c w = true \/ forall a' w', step H C w c <> Ok (a', w')).
    { destruct (valid_tx c w) eqn:V; [now left|]. right. intros a' w' S. apply step_valid in S. congruence. }
    destruct code as [|ins rest].
    + left. inversion O; subst. destruct a as [a|].
      * do 2 eexists. eapply cs_ret, E.
      * exfalso. apply (proj1 K6 eq_refl). reflexivity.
    + destruct ins as [l m|l m|l|x| |].
      * left. do 2 eexists. eapply cs_req, E.
      * right. right. right. do 4 eexists. split; reflexivity.
      * left. do 2 eexists. eapply cs_rel, E.
      * destruct V as [V|V]; [left; do 2 eexists; eapply cs_test; eassumption|]. right. left. eexists. split; [exact E|]. split; [exact Logic.I|exact V].
      * destruct V as [V|V]; [left; do 2 eexists; eapply cs_load; eassumption|]. right. left. eexists. split; [exact E|]. split; [exact Logic.I|exact V].
      * assert (P : ph = 1) by (inversion O; auto). destruct (K5 P) as (_ & v & -> & _).
        destruct (inv_store H C w ts j c rest v h a k AOk w I E) as (R & _).
        destruct (step H C w c) as [[a' w']|e| | |] eqn:S;
          [left; do 2 eexists; eapply cs_store; [exact E|rewrite R; exact S]|right; left..];
          (eexists; split; [exact E|]; split; [exact Logic.I|]); cbn [i_call c_world]; intros; rewrite S; discriminate.
Qed.

Lemma classify_all g : inv g ->
  (exists j e g', cstep H C grant j g e g') \/ (exists j, faulty g j) \/
  (forall t, List.In t (c_threads g) -> finished t \/ waiting t).
Proof.
  intros I. assert (Q : forall n, (exists j e g', cstep H C grant j g e g') \/ (exists j, faulty g j) \/
    (forall j t, j < n -> nth_error (c_threads g) j = Some t -> finished t \/ waiting t)).
  { induction n as [|n IH]; [right; right; intros; lia|]. destruct IH as [IH|[IH|IH]]; [now left|right; now left|].
    destruct (nth_error (c_threads g) n) as [t|] eqn:E.
    - destruct (classify g n t I E) as [A|[A|A]]; [left; exists n; exact A|right; left; eauto|].
      right. right. intros j t' L E'. destruct (Nat.eq_dec j n) as [->|D]; [|apply (IH j); [lia|exact E']].
      rewrite E in E'. injection E' as <-. exact A.
    - right. right. intros j t' L E'. apply (IH j); [|exact E']. destruct (Nat.eq_dec j n) as [->|D]; [congruence|lia]. }
  destruct (Q (length (c_threads g))) as [A|[A|A]]; [now left|right; now left|]. right. right.
  intros t It. apply In_nth_error in It. destruct It as [j It]. apply (A j); [|exact It]. apply nth_error_Some. congruence.
Qed.

Hypothesis G : conserving grant.

Lemma wait_step g j l : waits g j l -> free g l -> exists j e g', cstep H C grant j g e g'.
Proof.
  intros W F. destruct (G g l F (ex_intro _ j W)) as (j' & (x & m & rest & E & Ec) & Gr).
  destruct g as [w ts], x as [c code r h a k]. cbn [i_code c_threads] in *. subst code.
  exists j'. do 2 eexists. eapply cs_acq; [exact E| |exact Gr].
  intros t l' m' It Ih ->. exfalso. exact (F t m' It Ih).
Qed.

(** A thread in the second acquisition of urkel_tx_prove, while another one is inside a call
    on the same transaction. *)
Definition upgrade (g : config) : Prop :=
  exists j x i k m rest j' x', nth_error (c_threads g) j = Some (In x) /\ i_call x = CTxProve i k /\
    i_code x = IWait (LTx i) m :: rest /\ i_held x = [(LTree, MR)] /\
    j' <> j /\ nth_error (c_threads g) j' = Some (In x') /\ tx_of (i_call x') = Some i.

Lemma progress g : inv g ->
  (forall t, List.In t (c_threads g) -> finished t) \/ (exists j e g', cstep H C grant j g e g') \/
  (exists j, faulty g j) \/ upgrade g.
Proof.
  intros I. destruct (classify_all g I) as [A|[A|A]]; [auto|auto|]. pose proof I as [X Gd].
  assert (Sh : forall j x l m rest, nth_error (c_threads g) j = Some (In x) -> i_code x = IWait l m :: rest -> order (i_call x) l (i_held x)).
  { intros j x l m rest E Ec. destruct (Gd _ _ E) as (f & ph & _ & _ & O & _). rewrite Ec in O. inversion O; assumption. }
  (* somebody waiting for a transaction while holding the tree *)
  assert (D : (exists j x i m rest, nth_error (c_threads g) j = Some (In x) /\ i_code x = IWait (LTx i) m :: rest /\ i_held x <> []) \/
              (forall t x i m rest, List.In t (c_threads g) -> t = In x -> i_code x = IWait (LTx i) m :: rest -> i_held x = [])).
  { clear - A. induction (c_threads g) as [|t ts IH]; [right; intros t x i m rest []|].
    destruct IH as [(j & x & i & m & rest & E & Q)|IH].
    - intros t' It. apply A. now right.
    - left. exists (S j), x, i, m, rest. auto.
    - destruct t as [p|x].
      + right. intros t x i m rest [<-|It] E; [discriminate E|]. eapply IH; eauto.
      + destruct (i_code x) as [|[| [|i] m| | | |] rest] eqn:Ec.
        all: try (right; intros t y i' m' rest' [<-|It] E Ec'; [injection E as <-; congruence|eapply IH; eauto]).
        destruct (i_held x) as [|e h] eqn:Eh.
        * right. intros t y i' m' rest' [<-|It] E Ec'; [injection E as <-; congruence|eapply IH; eauto].
        * left. exists 0, x, i, m, rest. cbn. repeat split; auto. congruence. }
  destruct D as [(j & x & i & m & rest & E & Ec & Eh)|D].
  - (* the upgrade *)
    destruct (Sh _ _ _ _ _ E Ec) as (_ & Ti & [Q|(k & Ek & Hk)]); [congruence|].
    assert (Oth : (exists j' x', j' <> j /\ nth_error (c_threads g) j' = Some (In x') /\ tx_of (i_call x') = Some i) \/
                  (forall j' x', j' <> j -> nth_error (c_threads g) j' = Some (In x') -> tx_of (i_call x') <> Some i)).
    { assert (Q : forall n, (exists j' x', j' <> j /\ nth_error (c_threads g) j' = Some (In x') /\ tx_of (i_call x') = Some i) \/
                  (forall j' x', j' < n -> j' <> j -> nth_error (c_threads g) j' = Some (In x') -> tx_of (i_call x') <> Some i)).
      { induction n as [|n IH]; [right; intros; lia|]. destruct IH as [IH|IH]; [now left|].
        destruct (Nat.eq_dec n j) as [->|Nj]; [right; intros j' x' L N E'; apply (IH j'); [lia|exact N|exact E']|].
        destruct (nth_error (c_threads g) n) as [[p|x']|] eqn:E'.
        - right. intros j' x' L N E2. destruct (Nat.eq_dec j' n) as [->|]; [congruence|]. apply (IH j'); [lia|exact N|exact E2].
        - destruct (tx_of (i_call x')) as [i'|] eqn:T.
          + destruct (Nat.eq_dec i' i) as [->|Ni]; [left; eauto|]. right. intros j' x2 L N E2. destruct (Nat.eq_dec j' n) as [->|]; [congruence|]. apply (IH j'); [lia|exact N|exact E2].
          + right. intros j' x2 L N E2. destruct (Nat.eq_dec j' n) as [->|]; [congruence|]. apply (IH j'); [lia|exact N|exact E2].
        - right. intros j' x2 L N E2. destruct (Nat.eq_dec j' n) as [->|]; [congruence|]. apply (IH j'); [lia|exact N|exact E2]. }
      destruct (Q (length (c_threads g))) as [Q1|Q1]; [now left|]. right. intros j' x' N E'. apply (Q1 j'); [|exact N|exact E']. apply nth_error_Some. congruence. }
    destruct Oth as [(j' & x' & N & E' & T)|Oth].
    { right. right. right. exists j, x, i, k, m, rest, j', x'. repeat split; auto. }
    right. left. apply (wait_step g j (LTx i)); [exists x, m, rest; auto|].
    intros t m' It Ih. apply In_nth_error in It. destruct It as [j' It]. destruct (Nat.eq_dec j' j) as [->|N].
    + rewrite E in It. injection It as <-. cbn [held] in Ih. rewrite Hk in Ih. destruct Ih as [Ih|[]]. discriminate Ih.
    + destruct (A t (nth_error_In _ _ It)) as [(a & ->)|(y & l & m2 & r2 & -> & Ey)]; [destruct Ih|].
      destruct (Sh _ _ _ _ _ It Ey) as (_ & Oy). cbn [held] in Ih. destruct l as [|i2].
      * destruct Oy as [Oy|(i2 & m3 & T2 & Oy)]; rewrite Oy in Ih; [destruct Ih|]. destruct Ih as [Ih|[]]. injection Ih as -> ->. exact (Oth _ _ N It T2).
      * destruct Oy as (_ & [Oy|(k2 & _ & Oy)]); rewrite Oy in Ih; [destruct Ih|]. destruct Ih as [Ih|[]]. discriminate Ih.
  - (* nobody holds the tree's lock *)
    assert (Fr : free g LTree).
    { intros t m It Ih. destruct (A t It) as [(a & ->)|(y & l & m2 & r2 & -> & Ey)]; [destruct Ih|]. cbn [held] in Ih.
      pose proof It as It'. apply In_nth_error in It'. destruct It' as [j' It']. destruct (Sh _ _ _ _ _ It' Ey) as (_ & Oy). destruct l as [|i2].
      - destruct Oy as [Oy|(i2 & m3 & T2 & Oy)]; rewrite Oy in Ih; [destruct Ih|]. destruct Ih as [Ih|[]]. discriminate Ih.
      - rewrite (D _ _ _ _ _ It eq_refl Ey) in Ih. destruct Ih. }
    assert (Tr : (exists j, waits g j LTree) \/ (forall t x m rest, List.In t (c_threads g) -> t = In x -> i_code x <> IWait LTree m :: rest)).
    { unfold waits. clear - A. induction (c_threads g) as [|t ts IH]; [right; intros t x m rest []|].
      destruct IH as [(j & x & m & rest & E & Q)|IH].
      - intros t' It. apply A. now right.
      - left. exists (S j), x, m, rest. auto.
      - destruct t as [p|x].
        + right. intros t x m rest [<-|It] E; [discriminate E|]. eapply IH; eauto.
        + destruct (i_code x) as [|[| [|i] m| | | |] rest] eqn:Ec.
          all: try (right; intros t y m' rest' [<-|It] E Ec'; [injection E as <-; congruence|eapply IH; eauto]; fail).
          left. exists 0, x, m, rest. auto. }
    destruct Tr as [(j & W)|Tr]; [right; left; eapply wait_step; eauto|].
    (* nobody holds anything *)
    destruct (c_threads g) as [|t0 ts] eqn:Ets; [left; intros t []|]. rewrite <- Ets in *.
    assert (None_held : forall l, free g l).
    { intros l t m It Ih. destruct (A t It) as [(a & ->)|(y & l2 & m2 & r2 & -> & Ey)]; [destruct Ih|]. cbn [held] in Ih.
      destruct l2 as [|i2]; [exact (Tr _ _ _ _ It eq_refl Ey)|]. rewrite (D _ _ _ _ _ It eq_refl Ey) in Ih. destruct Ih. }
    assert (Q : (forall t, List.In t (c_threads g) -> finished t) \/ exists j l, waits g j l).
    { unfold waits. clear - A. induction (c_threads g) as [|t ts IH]; [left; intros t []|].
      destruct IH as [IH|(j & l & x & m & rest & E & Q)].
      - intros t' It. apply A. now right.
      - destruct (A t (or_introl eq_refl)) as [F|(x & l & m & rest & -> & Ec)].
        + left. intros t' [<-|It]; auto.
        + right. exists 0, l, x, m, rest. auto.
      - right. exists (S j), l, x, m, rest. auto. }
    destruct Q as [Q|(j & l & W)]; [now left|]. right. left. eapply wait_step; eauto.
Qed.
End Progress.

(** ** Every execution is finite *)
Fixpoint weight_i (i : instr) : nat :=
  match i with
  | IAcq _ _ => 2
  | ITest x => S ((fix w (l : list instr) := match l with [] => 0 | i :: l => weight_i i + w l end) x)
  | _ => 1
  end.
Definition weight_c (l : list instr) : nat := list_sum (map weight_i l).
Lemma weight_test x : weight_i (ITest x) = S (weight_c x).
Proof. cbn [weight_i]. f_equal. unfold weight_c, list_sum. induction x as [|i x IH]; [reflexivity|]. cbn [map fold_right]. rewrite IH. reflexivity. Qed.
Lemma weight_app a b : weight_c (a ++ b) = weight_c a + weight_c b.
Proof. unfold weight_c. rewrite map_app, list_sum_app. reflexivity. Qed.
Lemma weight_cons i b : weight_c (i :: b) = weight_i i + weight_c b.
Proof. reflexivity. Qed.

(** What a step does to its thread. *)
Inductive tnext : thread -> thread -> Prop :=
| tn_call c k x : i_cont x = k -> tnext (In x) (Idle (PCall c k))
| tn_in x x' : i_cont x' = i_cont x -> weight_c (i_code x') < weight_c (i_code x) -> tnext (In x') (In x)
| tn_ret x a : tnext (Idle (i_cont x a)) (In x).

Lemma acc_in k : (forall a, Acc tnext (Idle (k a))) -> forall n x, weight_c (i_code x) < n -> i_cont x = k -> Acc tnext (In x).
Proof.
  intros A. induction n as [|n IH]; intros x L E; [lia|]. constructor. intros t N. inversion N; subst; [|apply A].
  apply IH; [lia|congruence].
Qed.
Lemma acc_thread t : Acc tnext t.
Proof.
  assert (Q : forall p, Acc tnext (Idle p)).
  { clear t. induction p as [a|c k IH]; constructor; intros t N; inversion N; subst. eapply acc_in; [exact IH| |reflexivity]. apply Nat.lt_succ_diag_r. }
  destruct t as [p|x]; [apply Q|]. eapply acc_in; [|apply Nat.lt_succ_diag_r|reflexivity]. auto.
Qed.
Definition lnext (ts' ts : list thread) : Prop := exists j t t', nth_error ts j = Some t /\ tnext t' t /\ ts' = upd ts j t'.
Lemma acc_threads ts : Acc lnext ts.
Proof.
  induction ts as [|t ts IH]; [constructor; intros ts' (j & t & t' & E & _); destruct j; discriminate|].
  revert t. induction IH as [ts _ IHts]. intros t. induction (acc_thread t) as [t _ IHt].
  constructor. intros ts' (j & t0 & t' & E & N & ->). destruct j as [|j]; cbn [nth_error upd] in *.
  - injection E as <-. apply IHt, N.
  - apply IHts. exists j, t0, t'. auto.
Qed.

Section Finite.
Variable H : bytes -> bytes.
Variable C : bytes -> bytes -> bytes.
Variable grant : config -> nat -> Prop.
Definition cnext (g' g : config) : Prop := exists j e, cstep H C grant j g e g'.
Lemma cnext_lnext g' g : cnext g' g -> lnext (c_threads g') (c_threads g).
Proof.
  intros (j & e & S). destruct S; cbn [c_threads]; exists j; do 2 eexists; (split; [eassumption|]); (split; [|reflexivity]);
    first [apply tn_call; reflexivity|apply (tn_ret (mkin _ _ _ _ _ _))|apply tn_in; [reflexivity|cbn [i_code]]]; rewrite ?weight_cons, ?weight_test;
    cbn [weight_i]; try lia. destruct (fast c w); rewrite ?weight_app; lia.
Qed.
Lemma acc_config g : Acc cnext g.
Proof.
  remember (c_threads g) as ts eqn:E. revert g E. induction (acc_threads ts) as [ts _ IH]. intros g ->. constructor. intros g' N.
  eapply IH; [apply cnext_lnext, N|reflexivity].
Qed.
End Finite.

Section Seq.
Variable H : bytes -> bytes.
Variable C : bytes -> bytes -> bytes.
Lemma seq_app w l1 l2 w2 : seq H C w (l1 ++ l2) w2 -> exists w1, seq H C w l1 w1 /\ seq H C w1 l2 w2.
Proof.
  remember (l1 ++ l2) as l eqn:E. intros S. revert l2 E. induction S as [|l w1 c a w2 S IH St]; intros l2 E.
  - symmetry in E. apply app_eq_nil in E. destruct E as [-> ->]. exists w. split; constructor.
  - destruct l2 as [|x l2] using rev_ind.
    + rewrite app_nil_r in E. subst l1. exists w2. split; econstructor; eassumption.
    + rewrite app_assoc in E. apply app_inj_tail in E. destruct E as [-> <-]. destruct (IH l2 eq_refl) as (w0 & S0 & S1).
      exists w0. split; [exact S0|]. econstructor; eassumption.
Qed.
Lemma seq_cons w x l w2 : seq H C w (x :: l) w2 -> exists c a w1, x = (c, a) /\ step H C w c = Ok (a, w1) /\ seq H C w1 l w2.
Proof.
  intros S. change (x :: l) with ([x] ++ l) in S. destruct (seq_app _ _ _ _ S) as (w1 & S1 & S2).
  remember [x] as l0 eqn:E. destruct S1 as [|l0 w0 c a w1 S1 St]; [discriminate|].
  destruct l0 as [|y l0]; [|destruct l0; discriminate]. cbn [app] in E. injection E as <-. exists c, a, w1.
  split; [reflexivity|]. split; [|exact S2]. clear S2. remember [] as l0 eqn:E in S1. destruct S1; [exact St|]. destruct l0; discriminate.
Qed.
End Seq.
