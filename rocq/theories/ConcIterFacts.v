(** * Facts about iterators and threads. *)
From Verif Require Export ConcIter.
Import ListNotations.

(** The calls that take effect, in order. *)
Definition ieffects (l : list (nat * iev)) : list (call * answer) :=
  flat_map (fun e => match snd e with ICall (EEff c a) => [(c, a)] | _ => [] end) l.
Lemma ieffects_lift e : ieffects (map lift e) = effects e.
Proof. unfold ieffects, effects. induction e as [|[j e] l IH]; [reflexivity|]. cbn [map flat_map]. rewrite IH. destruct e; reflexivity. Qed.
Lemma nexts_lift n e : nexts n (map lift e) = [].
Proof. unfold nexts. induction e as [|[j e] l IH]; [reflexivity|]. cbn [map flat_map lift snd]. exact IH. Qed.

(** What a call that hangs needs: a write lock the iterator keeps from it. *)
Definition needs (i : nat) (w : world) (c : call) : Prop :=
  (writes_tree c = true /\ uses_tree c = true \/ writes_tx c = true /\ tx_of c = Some i) /\ fast c w = false.
Lemma hangs_needs i w c : hangs i w c -> needs i w c.
Proof.
  unfold needs. destruct c; cbn [hangs writes_tree uses_tree writes_tx tx_of fast]; intros K; try contradiction K.
  - split; auto.
  - destruct ro; [split; auto|]. destruct K as (d & -> & ->). split; auto.
  - subst. split; auto.
  - subst. split; auto.
  - destruct K as (-> & n & L & N & Hn). unfold live in L. destruct (nth i (w_txs w) TDead); try discriminate L. apply Ok_inj in L. subst.
    rewrite Hn. split; [auto|]. destruct n; congruence.
  - split; auto.
  - subst. split; auto.
  - subst. split; auto.
  - destruct K as (-> & n & L & N & Hn). unfold live in L. destruct (nth i (w_txs w) TDead); try discriminate L. apply Ok_inj in L. subst.
    split; [auto|]. destruct n; congruence.
  - split; auto.
Qed.

(** [n] calls of urkel_iter_next with results [rs] lead from [it0] to [it]. *)
Inductive itrun (rd : ptr -> option bytes) (it0 : iterst) : list ires -> iterst -> Prop :=
| ir_nil : itrun rd it0 [] it0
| ir_snoc rs it r it' : itrun rd it0 rs it -> iter_next rd it = Ok (r, it') -> itrun rd it0 (rs ++ [r]) it'.
Lemma itrun_calls rd it0 rs it : itrun rd it0 rs it -> forall m tl, iter_calls rd m it = Ok tl -> iter_calls rd (length rs + m) it0 = Ok (rs ++ tl).
Proof.
  induction 1 as [|rs it r it' R IH E]; intros m tl T; [exact T|].
  rewrite app_length. cbn [length]. rewrite <- app_assoc. replace (length rs + 1 + m) with (length rs + S m) by lia. apply IH.
  cbn [iter_calls]. rewrite E. cbn [bind]. rewrite T. reflexivity.
Qed.

Lemma push_root it n it' : iter_push it n = Ok it' -> it_root it' = it_root it.
Proof. unfold iter_push, check. destruct (_ <? _); [|discriminate]. intros E. apply Ok_inj in E. subst. reflexivity. Qed.
Lemma seek_loop_root rd fuel : forall it r it', seek_loop rd fuel it = Ok (r, it') -> it_root it' = it_root it.
Proof.
  induction fuel as [|f IH]; intros it r it'; cbn [seek_loop]; [discriminate|].
  destruct (it_stack it) as [|fr rest]; [discriminate|]. destruct (f_node fr) as [| | |] eqn:Ef.
  - intros E. apply Ok_inj in E. injection E as <- <-. reflexivity.
  - destruct (2 <=? f_child fr); [intros E; apply Ok_inj in E; injection E as <- <-; reflexivity|].
    match goal with |- context [iter_push ?a ?b] => destruct (iter_push a b) as [it1|e| | |] eqn:P end; cbn [bind]; try discriminate.
    intros E. apply IH in E. rewrite E, (push_root _ _ _ P). reflexivity.
  - intros E. apply Ok_inj in E. injection E as <- <-. reflexivity.
  - destruct (1 <=? f_child fr); [intros E; apply Ok_inj in E; injection E as <- <-; reflexivity|].
    destruct (resolve _ _ _) as [[rn|]|e| | |]; cbn [bind]; try discriminate.
    + match goal with |- context [iter_push ?a ?b] => destruct (iter_push a b) as [it1|e| | |] eqn:P end; cbn [bind]; try discriminate.
      intros E. apply IH in E. rewrite E, (push_root _ _ _ P). reflexivity.
    + intros E. apply Ok_inj in E. injection E as <- <-. reflexivity.
Qed.
Lemma seek_root rd it r it' : iter_seek rd it = Ok (r, it') -> it_root it' = it_root it.
Proof.
  unfold iter_seek. generalize SEEK_FUEL. intros fuel. destruct (it_done it); [intros E; apply Ok_inj in E; injection E as <- <-; reflexivity|].
  destruct (it_stack it) as [|fr [|fr2 rest]].
  - destruct (iter_push it (it_root it)) as [it1|e| | |] eqn:P; cbn [bind]; try discriminate.
    intros E. apply seek_loop_root in E. rewrite E. eapply push_root, P.
  - intros E. apply Ok_inj in E. injection E as <- <-. reflexivity.
  - intros E. apply seek_loop_root in E. exact E.
Qed.
Lemma next_root rd it r it' : iter_next rd it = Ok (r, it') -> it_root it' = it_root it.
Proof.
  unfold iter_next. generalize NEXT_FUEL. intros fuel. revert it r it'. induction fuel as [|f IH]; intros it r it'; cbn [next_loop]; [discriminate|].
  destruct (iter_seek rd it) as [[s it1]|e| | |] eqn:S; cbn [bind]; try discriminate. rewrite <- (seek_root _ _ _ _ S).
  destruct s as [|n|e].
  - apply IH.
  - destruct n; try apply IH. destruct (retrieve _ _ _) as [[x|]|e| | |]; cbn [bind]; try discriminate; intros E; apply Ok_inj in E; injection E as <- <-; reflexivity.
  - intros E. apply Ok_inj in E. injection E as <- <-. reflexivity.
Qed.

Lemma needs_same i w w' c : w_db w' = w_db w -> nth i (w_txs w') TDead = nth i (w_txs w) TDead -> needs i w c -> needs i w' c.
Proof.
  intros D T [[[U1 U2]|[U1 U2]] F]; (split; [auto|]); rewrite <- F.
  - destruct c; try discriminate U1; cbn [fast]; rewrite ?D; reflexivity.
  - destruct c; cbn [tx_of] in U2; try discriminate U2; injection U2 as ->; cbn [fast]; rewrite ?T; reflexivity.
Qed.

Section Facts.
Variable H : bytes -> bytes.
Variable C : bytes -> bytes -> bytes.
Variable grant : iconf -> nat -> Prop.
Notation istep := (istep H C grant).
Notation iexec := (iexec H C grant).

(** The locks of iterators exclude writers; open iterators have a transaction; threads inside
    urkel_iter_create are between calls. *)
Definition guarded (g : iconf) : Prop :=
  forall y l, List.In y (ic_iters g) -> List.In l (iheld y) -> no_writer (ic_conf g) l.
Definition placed (g : iconf) : Prop :=
  forall y, List.In y (ic_iters g) -> ci_tx y < length (w_txs (iworld g)) /\
    match ci_stage y with IOpen it => live (iworld g) (ci_tx y) = Ok (it_root it) /\ w_db (iworld g) <> None | _ => True end.
Definition iinv (g : iconf) : Prop := inv (ic_conf g) /\ guarded g /\ placed g.

Lemma In_upd {A} (l : list A) n x y : List.In y (upd l n x) -> y = x \/ List.In y l.
Proof.
  revert n; induction l as [|z l IH]; intros [|n]; cbn [upd]; intros I.
  - destruct I.
  - destruct I.
  - destruct I as [<-|I]; [left; reflexivity|right; right; exact I].
  - destruct I as [<-|I]; [right; left; reflexivity|]. destruct (IH n I); [left; assumption|right; right; assumption].
Qed.

(** A step of a call respects the guards and, under them, spares what iterators hold. *)
Lemma call_step its g j e g' : inv g -> guarded (mkic g its) ->
  cstep H C (fun g j => grant (mkic g its) j /\ respects its g j) j g e g' ->
  guarded (mkic g' its) /\
  (no_writer g LTree -> w_db (c_world g') = w_db (c_world g)) /\
  (forall i, no_writer g (LTx i) -> i < length (w_txs (c_world g)) -> nth i (w_txs (c_world g')) TDead = nth i (w_txs (c_world g)) TDead) /\
  length (w_txs (c_world g)) <= length (w_txs (c_world g')) /\
  (forall i, no_writer g LTree -> no_writer g (LTx i) -> i < length (w_txs (c_world g)) ->
     forall c a, List.In (j, EEff c a) e -> ~ needs i (c_world g) c).
Proof.
  intros I Gd S. pose proof I as [X G].
  assert (Less : forall w' ts t t', g = mkconf w' ts -> nth_error ts j = Some t ->
    (forall l, List.In (l, MW) (held t') -> List.In (l, MW) (held t)) -> forall w2, guarded (mkic (mkconf w2 (upd ts j t')) its)).
  { intros w' ts t t' -> E Sub w2 y l Iy Il u Iu Ih. cbn [ic_conf ic_iters c_threads] in *. apply In_upd in Iu. destruct Iu as [->|Iu].
    - apply (Gd y l Iy Il t); [eapply nth_error_In, E|]. apply Sub, Ih.
    - exact (Gd y l Iy Il u Iu Ih). }
  destruct S as
    [w ts c k E|w ts c l m rest r h a k E|w ts c l m rest r h a k E Cm Gr|w ts c l rest r h a k E|w ts c extra rest r h a k E V
    |w ts c rest r h a k E V|w ts c rest r h a k a' w' E S|w ts c r h a k E]; cbn [c_world].
  7: {
    destruct (inv_store H C w ts j c rest r h a k a' w' I E) as (R & Kc & V & _). rewrite R in S.
    destruct (step_foot H C w c a' w' Kc S) as (F1 & F2 & F3).
    destruct (G _ _ E) as (f & ph & K1 & K2 & K3 & K4 & K5 & K6). cbn [i_call i_code i_regs i_held i_ans i_cont c_world] in *.
    assert (Q : covers c h f) by (inversion K3; subst; auto). destruct Q as [Ct Cx].
    assert (NWt : no_writer (mkconf w ts) LTree -> writes_tree c && negb (fast c w) = false).
    { intros NW. destruct (writes_tree c) eqn:W; [|reflexivity]. cbn [andb]. destruct f; [destruct (K4 eq_refl) as [_ ->]; reflexivity|exfalso].
      assert (Uc : uses_tree c = true) by (destruct c; try discriminate W; reflexivity).
      destruct (Ct Uc) as (m & I1 & I2). rewrite (I2 eq_refl eq_refl) in I1. apply (NW _ (nth_error_In _ _ E)). exact I1. }
    assert (NWx : forall i, no_writer (mkconf w ts) (LTx i) -> tx_of c = Some i -> writes_tx c && negb (fast c w) = false).
    { intros i NW T. destruct (writes_tx c) eqn:W; [|reflexivity]. cbn [andb]. destruct f; [destruct (K4 eq_refl) as [_ ->]; reflexivity|exfalso].
      destruct (Cx i T) as (m & I1 & I2). rewrite (I2 eq_refl eq_refl) in I1. apply (NW _ (nth_error_In _ _ E)). exact I1. }
    split; [eapply Less; [reflexivity|exact E|intros l Il; exact Il]|]. split; [intros NW; apply F1, NWt, NW|].
    split; [|split; [exact F3|]].
    - intros i NW Li. apply F2; [exact Li|]. destruct (tx_of c) as [i'|] eqn:T; [|left; discriminate].
      destruct (Nat.eq_dec i' i) as [->|D]; [|left; congruence]. right. apply (NWx i NW eq_refl).
    - intros i NW1 NW2 Li c0 a0 [Q|[]]. injection Q as <- <-. intros [[[W U]|[W U]] Fs].
      + specialize (NWt NW1). rewrite W, Fs in NWt. discriminate NWt.
      + specialize (NWx i NW2 U). rewrite W, Fs in NWx. discriminate NWx. }
  all: (split; [|split; [reflexivity|split; [reflexivity|split; [lia|intros i _ _ _ c0 a0 Q; cbn [List.In] in Q; intuition congruence]]]]).
  - eapply Less; [reflexivity|exact E|intros l []].
  - eapply Less; [reflexivity|exact E|intros l0 Il; exact Il].
  - intros y l0 Iy Il u Iu Ih. cbn [ic_conf ic_iters c_threads] in *. apply In_upd in Iu. destruct Iu as [->|Iu]; [|exact (Gd y l0 Iy Il u Iu Ih)].
    cbn [held i_held List.In] in Ih. destruct Ih as [Q|Ih]; [|exact (Gd y l0 Iy Il _ (nth_error_In _ _ E) Ih)].
    injection Q as <- ->. destruct Gr as [_ Gr]. exact (Gr _ _ _ E eq_refl y Iy Il).
  - eapply Less; [reflexivity|exact E|]. cbn [held i_held]. intros l0 Il. unfold drop_lock in Il. apply filter_In in Il. apply Il.
  - eapply Less; [reflexivity|exact E|intros l0 Il; exact Il].
  - eapply Less; [reflexivity|exact E|intros l0 Il; exact Il].
  - eapply Less; [reflexivity|exact E|intros l []].
Qed.

Lemma live_same w w' i : nth i (w_txs w') TDead = nth i (w_txs w) TDead -> live w' i = live w i.
Proof. unfold live. intros ->. reflexivity. Qed.

Lemma iinv_step j g e g' : iinv g -> istep j g e g' -> iinv g'.
Proof.
  intros (I & Gd & Pl) S. destruct S as
    [g its e g' Nc S|g its p i E Nc Li|g its n i E NW Gr|g its n i root E NW Gr Dn Lv|g its n o i it p d r it' E Nc En Ed Nx|g its n i it p E Nc En].
  - destruct (call_step its g j e g' I Gd S) as (Gd' & St & Sx & Ln & _). split; [cbn; eapply inv_step; eauto|]. split; [exact Gd'|].
    intros y Iy. unfold iworld in *; cbn [ic_iters ic_conf] in *. destruct (Pl y Iy) as [L1 L2]. unfold iworld in *; cbn [ic_conf] in *. split; [lia|].
    destruct y as [o i st]. cbn [ci_tx ci_stage] in *. destruct st; auto. destruct L2 as [L2 L3].
    assert (Q : forall l, List.In l [LTree; LTx i] -> no_writer g l) by (intros l Il; apply (Gd (mkit o i (IOpen it)) l Iy); exact Il).
    split; [rewrite <- L2; apply live_same, Sx; [apply Q; cbn; auto|exact L1]|]. rewrite St; [exact L3|]. apply Q. cbn. auto.
  - split; [exact I|]. split.
    + intros y l Iy Il. cbn [ic_iters ic_conf] in *. apply in_app_or in Iy. destruct Iy as [Iy|[<-|[]]]; [exact (Gd y l Iy Il)|destruct Il].
    + intros y Iy. cbn [ic_iters] in Iy. apply in_app_or in Iy. destruct Iy as [Iy|[<-|[]]]; [exact (Pl y Iy)|cbn; auto].
  - pose proof (nth_error_In _ _ E) as I0. split; [exact I|]. split.
    + intros y l Iy Il. cbn [ic_iters ic_conf] in *. apply In_upd in Iy. destruct Iy as [->|Iy]; [|exact (Gd y l Iy Il)].
      cbn in Il. destruct Il as [<-|[]]. exact NW.
    + intros y Iy. cbn [ic_iters] in Iy. apply In_upd in Iy. destruct Iy as [->|Iy]; [|exact (Pl y Iy)]. cbn. split; [apply (Pl _ I0)|auto].
  - pose proof (nth_error_In _ _ E) as I0. split; [exact I|]. split.
    + intros y l Iy Il. cbn [ic_iters ic_conf] in *. apply In_upd in Iy. destruct Iy as [->|Iy]; [|exact (Gd y l Iy Il)].
      cbn in Il. destruct Il as [<-|[<-|[]]]; [exact NW|]. apply (Gd _ _ I0). cbn. auto.
    + intros y Iy. cbn [ic_iters] in Iy. apply In_upd in Iy. destruct Iy as [->|Iy]; [|exact (Pl y Iy)]. cbn. split; [apply (Pl _ I0)|split; [exact Lv|exact Dn]].
  - pose proof (nth_error_In _ _ En) as I0. split; [exact I|]. split.
    + intros y l Iy Il. cbn [ic_iters ic_conf] in *. apply In_upd in Iy. destruct Iy as [->|Iy]; [|exact (Gd y l Iy Il)].
      apply (Gd _ _ I0). exact Il.
    + intros y Iy. cbn [ic_iters] in Iy. apply In_upd in Iy. destruct Iy as [->|Iy]; [|exact (Pl y Iy)]. cbn [ci_tx ci_stage].
      destruct (Pl _ I0) as [P1 [P2 P3]]. cbn [ci_tx ci_stage] in *. split; [exact P1|]. unfold iworld in *; cbn [ic_conf] in *. split; [|exact P3]. rewrite P2. f_equal. symmetry. eapply next_root, Nx.
  - split; [exact I|]. split.
    + intros y l Iy Il. cbn [ic_iters ic_conf] in *. apply In_upd in Iy. destruct Iy as [->|Iy]; [destruct Il|exact (Gd y l Iy Il)].
    + pose proof (nth_error_In _ _ En) as I0. intros y Iy. cbn [ic_iters] in Iy. apply In_upd in Iy. destruct Iy as [->|Iy]; [|exact (Pl y Iy)].
      cbn [ci_tx ci_stage]. split; [apply (Pl _ I0)|auto].
Qed.

Lemma iinv_start w ps : Forall core_prog ps -> iinv (istart w ps).
Proof. intros F. split; [apply inv_start, F|]. split; [intros y l []|intros y []]. Qed.
Lemma iinv_exec g l g' : iinv g -> iexec g l g' -> iinv g'.
Proof. intros I X. induction X; eauto using iinv_step. Qed.
Lemma iexec_trans g1 l1 g2 l2 g3 : iexec g1 l1 g2 -> iexec g2 l2 g3 -> iexec g1 (l1 ++ l2) g3.
Proof. intros X Y. induction Y; [rewrite app_nil_r; exact X|]. rewrite app_assoc. econstructor; eauto. Qed.
Lemma iexec_cons g1 j e g2 l g3 : istep j g1 e g2 -> iexec g2 l g3 -> iexec g1 (e ++ l) g3.
Proof. intros S Y. eapply iexec_trans; [|exact Y]. rewrite <- (app_nil_l e). econstructor; [constructor|exact S]. Qed.

Lemma iexec_one g j e g' : istep j g e g' -> iexec g e g'.
Proof. intros S. rewrite <- (app_nil_l e). econstructor; [constructor|exact S]. Qed.

(** An iterator keeps its number and transaction; once destroyed it stays so. *)
Lemma step_iter j g e g' n o i st : istep j g e g' -> nth_error (ic_iters g') n = Some (mkit o i st) ->
  (nth_error (ic_iters g) n = Some (mkit o i st) /\ nexts n e = []) \/
  match st with
  | IOpen it =>
      (nth_error (ic_iters g) n = Some (mkit o i IWantTree) /\ live (iworld g) i = Ok (it_root it) /\ it = iter_create (it_root it) /\ e = []) \/
      (exists it0 d r, nth_error (ic_iters g) n = Some (mkit o i (IOpen it0)) /\ w_db (iworld g) = Some d /\
        iter_next (st_rd (d_store d)) it0 = Ok (r, it) /\ e = [(j, INext n r)])
  | IGone => e = [] /\ exists it, nth_error (ic_iters g) n = Some (mkit o i (IOpen it))
  | IWantTree => e = [] /\ nth_error (ic_iters g) n = Some (mkit o i IWantTx)
  | IWantTx => e = [] /\ nth_error (ic_iters g) n = None
  end.
Proof.
  intros S. destruct S as
    [g its e g' Nc S|g its p i0 E Nc Li|g its m i0 E NW Gr|g its m i0 root E NW Gr Dn Lv|g its m o0 i0 it p d r it' E Nc En Ed Nx|g its m i0 it p E Nc En];
    unfold iworld; cbn [ic_iters ic_conf]; intros Q.
  - left. split; [exact Q|apply nexts_lift].
  - destruct (Nat.lt_ge_cases n (length its)) as [L|L].
    + rewrite nth_error_app1 in Q by exact L. left. auto.
    + rewrite nth_error_app2 in Q by exact L. destruct (n - length its) as [|k] eqn:Ek; [|destruct k; discriminate Q].
      cbn in Q. injection Q as <- <- <-. right. split; [reflexivity|]. apply nth_error_None. exact L.
  - apply nth_error_upd in Q. destruct Q as [[-> Q]|[_ Q]]; [|auto]. injection Q as -> -> ->. auto.
  - apply nth_error_upd in Q. destruct Q as [[-> Q]|[_ Q]]; [|auto]. injection Q as -> -> ->. right. left. cbn. auto.
  - apply nth_error_upd in Q. destruct Q as [[-> Q]|[D Q]].
    + injection Q as -> -> ->. right. right. eauto 8.
    + left. split; [exact Q|]. cbn. destruct (Nat.eqb_spec m n); [contradiction|reflexivity].
  - apply nth_error_upd in Q. destruct Q as [[-> Q]|[_ Q]]; [|auto]. injection Q as -> -> ->. right. eauto.
Qed.
Lemma step_none j g e g' n : istep j g e g' -> nth_error (ic_iters g') n = None -> nth_error (ic_iters g) n = None /\ nexts n e = [].
Proof.
  intros S. destruct S as
    [g its e g' Nc S|g its p i0 E Nc Li|g its m i0 E NW Gr|g its m i0 root E NW Gr Dn Lv|g its m o0 i0 it p d r it' E Nc En Ed Nx|g its m i0 it p E Nc En];
    cbn [ic_iters]; rewrite ?nth_error_None, ?app_length, ?upd_length; intros Q; cbn [length] in *.
  - split; [exact Q|apply nexts_lift].
  - split; [lia|reflexivity].
  - split; [lia|reflexivity].
  - split; [lia|reflexivity].
  - split; [lia|]. cbn. destruct (Nat.eqb_spec m n) as [->|]; [|reflexivity]. apply nth_error_None in Q. congruence.
  - split; [lia|reflexivity].
Qed.
(** While an iterator has been there, open, nothing it uses changes. *)
Lemma step_stable j g e g' n i : iinv g -> istep j g e g' -> open g n i ->
  w_db (iworld g') = w_db (iworld g) /\ nth i (w_txs (iworld g')) TDead = nth i (w_txs (iworld g)) TDead /\
  forall c a, List.In (j, ICall (EEff c a)) e -> ~ needs i (iworld g) c.
Proof.
  intros (I & Gd & Pl) S (o & it & E). pose proof (nth_error_In _ _ E) as I0.
  assert (NT : no_writer (ic_conf g) LTree) by (apply (Gd _ _ I0); cbn; auto).
  assert (NX : no_writer (ic_conf g) (LTx i)) by (apply (Gd _ _ I0); cbn; auto).
  pose proof (proj1 (Pl _ I0)) as Li. cbn [ci_tx] in Li.
  destruct S as
    [g its e g' Nc S|g its p i0 E0 Nc Li0|g its m i0 E0 NW Gr|g its m i0 root E0 NW Gr Dn Lv|g its m o0 i0 it0 p d r it' E0 Nc En Ed Nx|g its m i0 it0 p E0 Nc En];
    unfold iworld in *; cbn [ic_iters ic_conf] in *.
  - destruct (call_step its g j e g' I Gd S) as (_ & St & Sx & _ & Ne). split; [apply St, NT|]. split; [apply Sx; assumption|].
    intros c a Q. apply in_map_iff in Q. destruct Q as ([j' e'] & Q & Ie). injection Q as -> ->. apply (Ne i NT NX Li c a Ie).
  - repeat split; auto.
  - repeat split; auto.
  - repeat split; auto.
  - repeat split; auto. intros c a [Q|[]]; discriminate Q.
  - repeat split; auto.
Qed.

(** From a state in which an iterator is open to one in which it still is. *)
Definition numbered (g : iconf) (n i : nat) : Prop := exists o st, nth_error (ic_iters g) n = Some (mkit o i st).
Lemma gone_stays g l g' n : iexec g l g' -> (exists o i, nth_error (ic_iters g) n = Some (mkit o i IGone)) ->
  exists o i, nth_error (ic_iters g') n = Some (mkit o i IGone).
Proof.
  intros X. induction X as [|l g1 j e g2 X IH S]; intros G; [exact G|]. destruct (IH G) as (o & i & E).
  destruct S as
    [g1 its e0 g' Nc S|g1 its p i0 E0 Nc Li0|g1 its m i0 E0 NW Gr|g1 its m i0 root E0 NW Gr Dn Lv|g1 its m o0 i0 it0 p d r it' E0 Nc En Ed Nx|g1 its m i0 it0 p E0 Nc En];
    cbn [ic_iters] in *; try (exists o, i; exact E); [exists o, i; rewrite nth_error_app1; [exact E|apply nth_error_Some; congruence]|..];
    (destruct (Nat.eq_dec m n) as [->|D]; [congruence|exists o, i; rewrite nth_error_upd_neq by congruence; exact E]).
Qed.
Lemma step_later j g e g' n i : istep j g e g' -> open g n i -> open g' n i \/ exists o i', nth_error (ic_iters g') n = Some (mkit o i' IGone).
Proof.
  intros S (o & it & E). destruct S as
    [g its e g' Nc S|g its p i0 E0 Nc Li0|g its m i0 E0 NW Gr|g its m i0 root E0 NW Gr Dn Lv|g its m o0 i0 it0 p d r it' E0 Nc En Ed Nx|g its m i0 it0 p E0 Nc En];
    unfold open; cbn [ic_iters] in *.
  - eauto.
  - left. exists o, it. rewrite nth_error_app1; [exact E|apply nth_error_Some; congruence].
  - left. destruct (Nat.eq_dec m n) as [->|D]; [congruence|exists o, it; rewrite nth_error_upd_neq by congruence; exact E].
  - left. destruct (Nat.eq_dec m n) as [->|D]; [congruence|exists o, it; rewrite nth_error_upd_neq by congruence; exact E].
  - left. destruct (Nat.eq_dec m n) as [->|D]; [|exists o, it; rewrite nth_error_upd_neq by congruence; exact E].
    rewrite E in En. injection En as <- <- <-. exists o, it'. apply nth_error_upd_eq, nth_error_Some. congruence.
  - destruct (Nat.eq_dec m n) as [->|D]; [|left; exists o, it; rewrite nth_error_upd_neq by congruence; exact E].
    right. rewrite E in En. injection En as <- <- <-. exists o, i. apply nth_error_upd_eq, nth_error_Some. congruence.
Qed.
Lemma exec_stable g l g' n i : iinv g -> iexec g l g' -> open g n i -> open g' n i ->
  w_db (iworld g') = w_db (iworld g) /\ nth i (w_txs (iworld g')) TDead = nth i (w_txs (iworld g)) TDead /\
  forall j c a, List.In (j, ICall (EEff c a)) l -> ~ needs i (iworld g) c.
Proof.
  intros I X. induction X as [|l g1 j e g2 X IH S]; intros O O'; [split; [reflexivity|split; [reflexivity|intros j c a []]]|].
  assert (O1 : open g1 n i).
  { clear IH. assert (Q : open g1 n i \/ exists o i', nth_error (ic_iters g1) n = Some (mkit o i' IGone)).
    { clear S O'. induction X as [|l0 g0 j0 e0 g1 X IH S0]; [left; exact O|]. destruct IH as [Q|Q]; [eapply step_later; eauto|].
      right. eapply gone_stays; [eapply iexec_one, S0|exact Q]. }
    destruct Q as [Q|Q]; [exact Q|exfalso]. destruct (gone_stays g1 e g2 n (iexec_one _ _ _ _ S) Q) as (o & i' & Q').
    destruct O' as (o' & it & O'). congruence. }
  destruct (IH O O1) as (A1 & A2 & A3). destruct (step_stable j g1 e g2 n i (iinv_exec _ _ _ I X) S O1) as (B1 & B2 & B3).
  split; [congruence|]. split; [congruence|]. intros j0 c a Q. apply in_app_or in Q. destruct Q as [Q|Q]; [eapply A3, Q|].
  assert (j0 = j) as ->.
  { destruct S as
    [g1 its e0 g' Nc S|g1 its p i0 E0 Nc Li0|g1 its m i0 E0 NW Gr|g1 its m i0 root E0 NW Gr Dn Lv|g1 its m o0 i0 it0 p d r it' E0 Nc En Ed Nx|g1 its m i0 it0 p E0 Nc En];
      try destruct Q as [Q|[]]; try discriminate Q; try destruct Q.
    apply in_map_iff in Q. destruct Q as ([j' e'] & Q & Ie). injection Q as -> ->. destruct S; cbn [List.In] in Ie; intuition congruence. }
  intros Nd. apply (B3 c a Q). eapply needs_same; eassumption.
Qed.

(** Calls take effect at once, on the current state; iterators change nothing. *)
Lemma iexec_seq g l g' : iinv g -> iexec g l g' -> seq H C (iworld g) (ieffects l) (iworld g').
Proof.
  intros I X. induction X as [|l g1 j e g2 X IH S]; [constructor|].
  pose proof (iinv_exec _ _ _ I X) as (I1 & _). unfold ieffects in *. rewrite flat_map_app. fold (ieffects e).
  destruct S; cbn [ieffects flat_map snd app]; unfold iworld in *; cbn [ic_conf] in *; rewrite ?app_nil_r; try exact IH.
  rewrite ieffects_lift. 
  match goal with S : cstep _ _ _ _ _ _ _ |- _ => destruct S end; cbn [effects flat_map snd app c_world] in *; rewrite ?app_nil_r; try exact IH.
  match goal with E : nth_error _ _ = _ |- _ => destruct (inv_store H C _ _ _ _ _ _ _ _ _ a' w' I1 E) as (R & _) end.
  match goal with E : step _ _ _ _ = Ok _ |- _ => rewrite R in E; econstructor; eauto end.
Qed.

(** The answers an iterator has given are those of the same number of urkel_iter_next calls in
    the state as it is now. *)
Lemma exec_answers w ps l g n : Forall core_prog ps -> iexec (istart w ps) l g ->
  (forall o i it, nth_error (ic_iters g) n = Some (mkit o i (IOpen it)) ->
     itrun (fun p => match w_db (iworld g) with Some d => st_rd (d_store d) p | None => None end) (iter_create (it_root it)) (nexts n l) it) /\
  ((nth_error (ic_iters g) n = None \/ exists o i st, nth_error (ic_iters g) n = Some (mkit o i st) /\ (st = IWantTx \/ st = IWantTree)) -> nexts n l = []).
Proof.
  intros F X. induction X as [|l g1 j e g2 X IH S].
  - split; [intros o i it E; destruct n; discriminate E|reflexivity].
  - pose proof (iinv_exec _ _ _ (iinv_start w ps F) X) as I1. destruct IH as [IH1 IH2].
    assert (Nx : nexts n (l ++ e) = nexts n l ++ nexts n e) by (unfold nexts; apply flat_map_app).
    split.
    + intros o i it E. pose proof (step_iter j g1 e g2 n o i (IOpen it) S E) as Q. cbn match in Q.
      assert (Db : open g1 n i -> w_db (iworld g2) = w_db (iworld g1)) by (intros O; eapply (step_stable j g1 e g2 n i I1 S O)).
      destruct Q as [[Q Ne]|[(Q & Lv & Ei & ->)|(it0 & d & r & Q & Ed & En & ->)]].
      * rewrite Db by (exists o, it; exact Q). rewrite Nx, Ne, app_nil_r. eapply IH1, Q.
      * rewrite app_nil_r. rewrite Ei at 2. rewrite IH2; [|right; eauto 8]. constructor.
      * rewrite Db by (exists o, it0; exact Q). rewrite Nx. unfold nexts at 2. cbn [flat_map snd]. rewrite Nat.eqb_refl. cbn [app].
        pose proof (IH1 _ _ _ Q) as R. rewrite (next_root _ _ _ _ En). rewrite Ed in *. econstructor; [exact R|exact En].
    + rewrite Nx. intros [Q|(o & i & st & Q & St)].
      * destruct (step_none _ _ _ _ _ S Q) as [Q1 ->]. rewrite app_nil_r. apply IH2. left. exact Q1.
      * pose proof (step_iter j g1 e g2 n o i st S Q) as [[Q1 ->]|Q1].
        -- rewrite app_nil_r. apply IH2. right. eauto 8.
        -- destruct St as [->| ->]; destruct Q1 as [-> Q1]; rewrite app_nil_r; apply IH2; [left; exact Q1|right; eauto 8].
Qed.

(** A thread inside a call that needs a write lock its own iterator keeps from it stays there. *)
Lemma own_step j0 g e g' j n i it x : iinv g -> istep j0 g e g' ->
  nth_error (ic_iters g) n = Some (mkit j i (IOpen it)) ->
  nth_error (c_threads (ic_conf g)) j = Some (In x) -> i_ans x = None -> needs i (iworld g) (i_call x) ->
  (exists it', nth_error (ic_iters g') n = Some (mkit j i (IOpen it'))) /\
  (exists x', nth_error (c_threads (ic_conf g')) j = Some (In x') /\ i_ans x' = None /\ i_call x' = i_call x /\ needs i (iworld g') (i_call x)) /\
  (forall c a, ~ List.In (j, ICall (ERet c a)) e).
Proof.
  intros I S E Et Ea Nd. assert (O : open g n i) by (exists j, it; exact E).
  destruct (step_stable _ _ _ _ _ _ I S O) as (D1 & D2 & D3).
  pose proof (needs_same _ _ _ _ D1 D2 Nd) as Nd'.
  assert (Nid : forall p, nth_error (c_threads (ic_conf g)) j <> Some (Idle p)) by congruence.
  destruct S as
    [g its e g' Nc S|g its p i0 E0 Nc Li0|g its m i0 E0 NW Gr|g its m i0 root E0 NW Gr Dn Lv|g its m o0 i0 it0 p d r it' E0 Nc En Ed Nx|g its m i0 it0 p E0 Nc En];
    cbn [ic_iters ic_conf] in *.
  - split; [eauto|]. destruct (Nat.eq_dec j0 j) as [->|Dj].
    + inversion S; subst; cbn [c_threads] in *;
        match goal with Q : nth_error ?ts j = Some _ |- _ => rewrite Q in Et; injection Et; intros; subst; cbn [i_ans i_call] in *; subst end; try discriminate;
        match goal with Q : nth_error ?ts j = Some _ |- context [upd ?ts j ?t] => assert (Eu : nth_error (upd ts j t) j = Some t) by (apply nth_error_upd_eq, nth_error_Some; congruence) end.
      all: try solve [split; [eexists; split; [exact Eu|cbn [i_ans i_call]; auto]|intros c0 a0 []]].
      exfalso. apply (D3 c a'); [cbn; auto|exact Nd].
    + assert (Ev : nth_error (c_threads g') j = Some (In x)).
      { destruct S; cbn [c_threads] in *; rewrite nth_error_upd_neq by exact Dj; exact Et. }
      split; [exists x; auto|]. intros c a Q. apply in_map_iff in Q. destruct Q as ([j' e'] & Q & Ie). injection Q as -> ->.
      destruct S; cbn [List.In] in Ie; intuition congruence.
  - split; [exists it; rewrite nth_error_app1; [exact E|apply nth_error_Some; congruence]|]. split; [exists x; auto|intros c a []].
  - split; [|split; [exists x; auto|intros c a []]]. destruct (Nat.eq_dec m n) as [->|D]; [congruence|exists it; rewrite nth_error_upd_neq by congruence; exact E].
  - split; [|split; [exists x; auto|intros c a []]]. destruct (Nat.eq_dec m n) as [->|D]; [congruence|exists it; rewrite nth_error_upd_neq by congruence; exact E].
  - split; [|split; [exists x; auto|intros c a [Q|[]]; discriminate Q]]. destruct (Nat.eq_dec m n) as [->|D]; [|exists it; rewrite nth_error_upd_neq by congruence; exact E].
    rewrite E in En. injection En as <- <- <-. exists it'. apply nth_error_upd_eq, nth_error_Some. congruence.
  - split; [|split; [exists x; auto|intros c a []]]. destruct (Nat.eq_dec m n) as [->|D]; [|exists it; rewrite nth_error_upd_neq by congruence; exact E].
    exfalso. rewrite E in En. injection En as -> -> ->. exact (Nid _ E0).
Qed.
Lemma own_exec g l g' j n i it x : iinv g -> iexec g l g' ->
  nth_error (ic_iters g) n = Some (mkit j i (IOpen it)) ->
  nth_error (c_threads (ic_conf g)) j = Some (In x) -> i_ans x = None -> needs i (iworld g) (i_call x) ->
  (exists it', nth_error (ic_iters g') n = Some (mkit j i (IOpen it'))) /\
  (exists x', nth_error (c_threads (ic_conf g')) j = Some (In x') /\ i_ans x' = None /\ i_call x' = i_call x /\ needs i (iworld g') (i_call x)) /\
  (forall c a, ~ List.In (j, ICall (ERet c a)) l).
Proof.
  intros I X E Et Ea Nd. induction X as [|l g1 j0 e g2 X IH S]; [split; [eauto|split; [eauto|intros c a []]]|].
  destruct IH as ((it1 & E1) & (x1 & Et1 & Ea1 & Ec1 & Nd1) & Nr1). rewrite <- Ec1 in Nd1.
  destruct (own_step _ _ _ _ _ _ _ _ _ (iinv_exec _ _ _ I X) S E1 Et1 Ea1 Nd1) as (A & (x2 & B1 & B2 & B3 & B4) & B5).
  split; [exact A|]. split; [exists x2; rewrite Ec1 in *; auto|]. intros c a Q. apply in_app_or in Q. destruct Q as [Q|Q]; [eapply Nr1, Q|eapply B5, Q].
Qed.

(** ** A call made while all other threads are between calls, with iterators open. *)
Section Solo.
Variable its : list citer.
Hypothesis Eg : eager grant.
Hypothesis Nc : forall j, ~ creating its j.
Let gr := fun g j => grant (mkic g its) j /\ respects its g j.

(** The write locks the call takes on its way are not those of iterators. *)
Inductive smooth (c : call) (w : world) : list instr -> Prop :=
| sm_nil : smooth c w []
| sm_acq l m r : (m = MW -> forall y, List.In y its -> ~ List.In l (iheld y)) -> smooth c w r -> smooth c w (IAcq l m :: r)
| sm_wait l m r : (m = MW -> forall y, List.In y its -> ~ List.In l (iheld y)) -> smooth c w r -> smooth c w (IWait l m :: r)
| sm_rel l r : smooth c w r -> smooth c w (IRel l :: r)
| sm_test x r : smooth c w (if fast c w then r else x ++ r) -> smooth c w (ITest x :: r)
| sm_load r : smooth c w r -> smooth c w (ILoad :: r)
| sm_store r : smooth c w r -> smooth c w (IStore :: r).

Lemma solo_lock_i w ts j x l m rest : nth_error ts j = Some (In x) -> i_code x = IWait l m :: rest ->
  others_idle ts j -> ~ List.In l (map fst (i_held x)) -> (m = MW -> forall y, List.In y its -> ~ List.In l (iheld y)) ->
  compatible ts l m /\ gr (mkconf w ts) j.
Proof.
  intros E Ec O N Sm.
  assert (Fr : forall t l' m', List.In t ts -> List.In (l', m') (held t) -> l' = l -> False).
  { intros t l' m' It Ih ->. apply In_nth_error in It. destruct It as [j' It]. destruct (Nat.eq_dec j' j) as [->|D].
    - rewrite E in It. injection It as <-. apply N. apply in_map_iff. exists (l, m'). auto.
    - destruct (O _ _ D It) as (p & ->). destruct Ih. }
  split; [intros t l' m' It Ih El; exfalso; eauto|]. split.
  - apply Eg. intros l0 j' _ Wj'. destruct (Nat.eq_dec j' j) as [->|D]; [reflexivity|exfalso].
    assert (Ni : forall x', nth_error ts j' = Some (In x') -> False) by (intros x' Q; destruct (O _ _ D Q) as (p & Ep); discriminate Ep).
    destruct Wj' as [[(x' & r' & Q & _)|[(n & i & Q & _)|(n & i & Q & _)]]|(x' & r' & Q & _)].
    + exact (Ni _ Q).
    + apply (Nc j'). exists n, i, IWantTx. auto.
    + apply (Nc j'). exists n, i, IWantTree. auto.
    + exact (Ni _ Q).
  - intros x' l0 r' Q Ec' y Iy Il. cbn [c_threads] in Q. rewrite E in Q. injection Q as <-. rewrite Ec in Ec'. injection Ec' as -> -> ->.
    exact (Sm eq_refl y Iy Il).
Qed.

Lemma solo_after_i c w k a code h : okc c h false 2 code -> forall ts j r,
  nth_error ts j = Some (In (mkin c code r h (Some a) k)) -> others_idle ts j ->
  cexec H C gr (mkconf w ts) [(j, ERet c a)] (mkconf w (upd ts j (Idle (k a)))).
Proof.
  revert h. induction code as [|i code IH]; intros h O ts j r E Ot.
  - rewrite <- (app_nil_r [_]). eapply cexec_cons; [eapply cs_ret, E|constructor].
  - inversion O; subst.
    rewrite <- (app_nil_l [_]). eapply cexec_cons; [eapply cs_rel, E|].
    rewrite <- (upd_upd ts j (In (mkin c code r (drop_lock l h) (Some a) k)) (Idle (k a))).
    eapply IH; [eassumption| |apply others_upd, Ot]. apply nth_error_upd_eq. apply nth_error_Some. congruence.
Qed.

Lemma solo_before_i c w k a w' code h f ph : okc c h f ph code -> step H C w c = Ok (a, w') -> valid_tx c w = true -> forall ts j r,
  nth_error ts j = Some (In (mkin c code r h None k)) -> others_idle ts j -> ph <> 2 -> (f = true -> fast c w = true) ->
  (ph = 1 -> exists v, r = Some v /\ with_regs c w v = w) -> smooth c w code ->
  cexec H C gr (mkconf w ts) [(j, EEff c a); (j, ERet c a)] (mkconf w' (upd ts j (Idle (k a)))).
Proof.
  intros O S V. induction O as [|l m h r0 N O IH|l m h r0 N O IH|l h ph r0 N O IH|h x r0 Cv O IH O2 IH2|h f r0 Cv O IH|h f r0 Cv O IH]; intros ts j r E Ot P F R Sm;
    inversion Sm; subst.
  - congruence.
  - assert (Q : forall ts, nth_error ts j = Some (In (mkin c (IWait l m :: r0) r h None k)) -> others_idle ts j ->
      cexec H C gr (mkconf w ts) [(j, EEff c a); (j, ERet c a)] (mkconf w' (upd ts j (Idle (k a))))).
    { clear ts E Ot. intros ts E Ot. destruct (solo_lock_i w ts j _ l m r0 E eq_refl Ot (proj1 N)) as [Cm Gr]; [assumption|].
      rewrite <- (app_nil_l [_; _]). eapply cexec_cons; [eapply cs_acq; eassumption|].
      rewrite <- (upd_upd ts j (In (mkin c r0 r ((l, m) :: h) None k)) (Idle (k a))).
      eapply IH; [|apply others_upd, Ot|lia|discriminate|discriminate|assumption]. apply nth_error_upd_eq. apply nth_error_Some. congruence. }
    rewrite <- (app_nil_l [_; _]). eapply cexec_cons; [eapply cs_req, E|].
    rewrite <- (upd_upd ts j (In (mkin c (IWait l m :: r0) r h None k)) (Idle (k a))). apply Q; [|apply others_upd, Ot].
    apply nth_error_upd_eq. apply nth_error_Some. congruence.
  - destruct (solo_lock_i w ts j _ l m r0 E eq_refl Ot (proj1 N)) as [Cm Gr]; [assumption|].
    rewrite <- (app_nil_l [_; _]). eapply cexec_cons; [eapply cs_acq; eassumption|].
    rewrite <- (upd_upd ts j (In (mkin c r0 r ((l, m) :: h) None k)) (Idle (k a))).
    eapply IH; [|apply others_upd, Ot|lia|discriminate|discriminate|assumption]. apply nth_error_upd_eq. apply nth_error_Some. congruence.
  - rewrite <- (app_nil_l [_; _]). eapply cexec_cons; [eapply cs_rel, E|].
    rewrite <- (upd_upd ts j (In (mkin c r0 r (drop_lock l h) None k)) (Idle (k a))).
    eapply IH; [|apply others_upd, Ot|exact P|discriminate|exact R|assumption]. apply nth_error_upd_eq. apply nth_error_Some. congruence.
  - rewrite <- (app_nil_l [_; _]). eapply cexec_cons; [eapply cs_test; eassumption|].
    rewrite <- (upd_upd ts j (In (mkin c (if fast c w then r0 else x ++ r0) r h None k)) (Idle (k a))).
    assert (E' : nth_error (upd ts j (In (mkin c (if fast c w then r0 else x ++ r0) r h None k))) j = Some (In (mkin c (if fast c w then r0 else x ++ r0) r h None k))).
    { apply nth_error_upd_eq. apply nth_error_Some. congruence. }
    destruct (fast c w) eqn:Ef; [eapply IH|eapply IH2]; try exact E'; try apply others_upd, Ot; try discriminate; auto.
  - rewrite <- (app_nil_l [_; _]). eapply cexec_cons; [eapply cs_load; eassumption|].
    rewrite <- (upd_upd ts j (In (mkin c r0 (Some (w_db w, tx_value c w)) h None k)) (Idle (k a))).
    eapply IH; [|apply others_upd, Ot|lia|exact F| |assumption].
    + apply nth_error_upd_eq. apply nth_error_Some. congruence.
    + intros _. eexists. split; [reflexivity|]. apply regs_current; auto.
  - destruct (R eq_refl) as (v & -> & Rv).
    change [(j, EEff c a); (j, ERet c a)] with ([(j, EEff c a)] ++ [(j, ERet c a)]).
    eapply cexec_cons; [eapply cs_store; [exact E|rewrite Rv; exact S]|].
    rewrite <- (upd_upd ts j (In (mkin c r0 (Some v) h (Some a) k)) (Idle (k a))).
    eapply solo_after_i; [exact O| |apply others_upd, Ot]. apply nth_error_upd_eq. apply nth_error_Some. congruence.
Qed.

Lemma cexec_iexec g l g' : cexec H C gr g l g' -> iexec (mkic g its) (map lift l) (mkic g' its).
Proof. induction 1; [constructor|]. rewrite map_app. econstructor; [eassumption|]. apply (is_call H C grant j); [apply Nc|assumption]. Qed.

Lemma solo_smooth c w a w' : core c -> step H C w c = Ok (a, w') ->
  (forall y, List.In y its -> ~ creating its (ci_owner y)) -> (forall y it, List.In y its -> ci_stage y = IOpen it -> ~ hangs (ci_tx y) w c) ->
  smooth c w (code c).
Proof.
  intros K S Ncr Nh.
  assert (Hl : forall y l, List.In y its -> List.In l (iheld y) -> (l = LTree \/ l = LTx (ci_tx y)) /\ exists it, ci_stage y = IOpen it).
  { intros y l Iy Il. unfold iheld in Il. destruct (ci_stage y) eqn:Es; cbn in Il.
    - destruct Il.
    - exfalso. apply In_nth_error in Iy. destruct Iy as [n Iy]. apply (Ncr y (nth_error_In _ _ Iy)). exists n, (ci_tx y), IWantTree. split; [|auto].
      rewrite Iy. f_equal. destruct y. cbn in *. congruence.
    - split; [intuition congruence|eauto].
    - destruct Il. }
  assert (T : forall h, c = CInject h \/ c = CTxCreate (Some h) \/ (exists i, c = CTxInject i h \/ c = CTxCommit i) \/ (c = CTxCreate None /\ fast c w = false) ->
    forall y, List.In y its -> ~ List.In LTree (iheld y)).
  { intros h Q y Iy Il. destruct (Hl y _ Iy Il) as [_ (it & Es)]. apply (Nh y it Iy Es).
    destruct Q as [->|[->|[(i & [->| ->])|[-> Ef]]]]; cbn [hangs]; auto. cbn [fast] in Ef. unfold step in S. destruct (w_db w) as [d|]; [|discriminate S].
    exists d. split; [reflexivity|]. destruct (d_revert d); [reflexivity|discriminate Ef]. }
  assert (X : forall i, (forall y it, List.In y its -> ci_stage y = IOpen it -> ci_tx y = i -> hangs i w c) -> forall y, List.In y its -> ~ List.In (LTx i) (iheld y)).
  { intros i Q y Iy Il. destruct (Hl y _ Iy Il) as [[E|E] (it & Es)]; [discriminate E|]. injection E as E. apply (Nh y it Iy Es). rewrite <- E. apply (Q y it Iy Es). auto. }
  assert (Lv : forall i, tx_of c = Some i -> (forall j, c <> CTxCreate j) -> exists n, live w i = Ok n).
  { intros i T0 _. unfold step in S. destruct (w_db w); [|discriminate S]. destruct c; cbn [tx_of] in T0; try discriminate T0; injection T0 as ->;
      (destruct (live w i) as [n|e| | |]; cbn [bind] in S; try discriminate S; eauto). }
  destruct c; cbn [core] in K; try contradiction K; cbn [code];
    repeat first [apply sm_nil|apply sm_acq; [first [discriminate|intros _]|]|apply sm_rel|apply sm_load|apply sm_store].
  - apply (T h). auto.
  - apply sm_test. destruct (fast (CTxCreate ro) w) eqn:Ef; cbn [app];
      repeat first [apply sm_nil|apply sm_acq; [first [discriminate|intros _]|]|apply sm_rel|apply sm_load|apply sm_store].
    apply (T (match ro with Some h => h | None => [] end)). destruct ro; auto 6.
  - apply X. cbn. auto.
  - apply X. cbn. auto.
  - apply sm_test. destruct (fast (CTxRoot i) w) eqn:Ef; cbn [app];
      repeat first [apply sm_nil|apply sm_acq; [first [discriminate|intros _]|]|apply sm_rel|apply sm_load|apply sm_store].
    apply X. intros y it _ _ _. cbn [hangs]. split; [reflexivity|]. destruct (Lv i eq_refl ltac:(discriminate)) as (n & L). exists n. split; [exact L|].
    cbn [fast] in Ef. unfold live in L. destruct (nth i (w_txs w) TDead); try discriminate L. apply Ok_inj in L. subst.
    destruct n; try discriminate Ef; (split; [discriminate|]); destruct (hashed _); congruence.
  - apply X. cbn. auto.
  - apply (T h). eauto 8.
  - apply X. cbn. auto.
  - apply X. cbn. auto.
  - apply sm_test. destruct (fast (CTxProve i k) w) eqn:Ef; cbn [app];
      repeat first [apply sm_nil|apply sm_acq; [first [discriminate|intros _]|]|apply sm_rel|apply sm_load|apply sm_store].
    apply X. intros y it _ _ _. cbn [hangs]. split; [reflexivity|]. destruct (Lv i eq_refl ltac:(discriminate)) as (n & L). exists n. split; [exact L|].
    cbn [fast] in Ef. unfold live in L. destruct (nth i (w_txs w) TDead); try discriminate L. apply Ok_inj in L. subst.
    destruct n; try discriminate Ef; (split; [discriminate|]); intros; discriminate.
  - apply X. cbn. auto.
  - apply (T []). eauto 8.
Qed.

Lemma solo_call_i w ts j c k a w' : nth_error ts j = Some (Idle (PCall c k)) -> others_idle ts j -> core c ->
  step H C w c = Ok (a, w') -> (forall y it, List.In y its -> ci_stage y = IOpen it -> ~ hangs (ci_tx y) w c) ->
  iexec (mkic (mkconf w ts) its) (map lift [(j, EInv c); (j, EEff c a); (j, ERet c a)]) (mkic (mkconf w' (upd ts j (Idle (k a)))) its).
Proof.
  intros E Ot K S Nh. apply cexec_iexec. change [(j, EInv c); (j, EEff c a); (j, ERet c a)] with ([(j, EInv c)] ++ [(j, EEff c a); (j, ERet c a)]).
  eapply cexec_cons; [eapply cs_call, E|]. rewrite <- (upd_upd ts j (In (mkin c (code c) None [] None k)) (Idle (k a))).
  eapply solo_before_i; [apply code_ok, K|exact S|eapply step_valid, S| |apply others_upd, Ot|lia|discriminate|discriminate|].
  - apply nth_error_upd_eq. apply nth_error_Some. congruence.
  - eapply solo_smooth; eauto.
Qed.
End Solo.
End Facts.
