(** * Iterators on the heap: they give what Iter.v gives, and give back all they allocate. *)
From Verif Require Export HeapSim.
From Coq Require Import ZifyBool ZifyNat ZifyN.

Ltac sub I := revert I; repeat first [rewrite in_app_iff | progress cbn [In app]]; tauto.
(** The stack of an iterator over a tree that occupies [F0]; the resolved frames own [G]. *)
Inductive ist (m : heap) (F0 : list loc) : list frame -> list hframe -> list loc -> Prop :=
| is_nil : ist m F0 [] [] []
| is_own n a c F st hst G : holds m a n F -> (forall x, In x F -> ~ In x (F0 ++ G)) -> ist m F0 st hst G ->
    ist m F0 (mkframe n c :: st) (mkhframe a c true :: hst) (F ++ G)
| is_ref n a c F st hst G : holds m a n F -> (forall x, In x F -> In x (F0 ++ G)) -> ist m F0 st hst G ->
    ist m F0 (mkframe n c :: st) (mkhframe a c false :: hst) G.

Record iok (m : heap) (F0 : list loc) (it : iterst) (hit : hiter) (G : list loc) : Prop := {
  io_done : it_done it = hi_done hit;
  io_root : holds m (hi_root hit) (it_root it) F0;
  io_sep : forall x, In x F0 -> ~ In x G;
  io_ist : ist m F0 (it_stack it) (hi_stack hit) G }.

Lemma ist_lt m F0 st hst G x : ist m F0 st hst G -> In x G -> x < length m.
Proof. induction 1 as [|n a c F st hst G Hh D I IH|n a c F st hst G Hh D I IH]; [intros []| |exact IH]. rewrite in_app_iff. intros [I1|I1]; [eapply holds_lt; eassumption|auto]. Qed.
Lemma ist_len m F0 st hst G : ist m F0 st hst G -> length st = length hst.
Proof. induction 1; cbn [length]; auto. Qed.
(** The stack does not notice changes elsewhere. *)
Lemma ist_moves m A m' B F0 st hst G : moves m A m' B -> ist m F0 st hst G ->
  (forall x, In x F0 -> x < length m) -> (forall x, In x A -> ~ In x (F0 ++ G)) -> ist m' F0 st hst G.
Proof.
  intros M I L D. induction I as [|n a c F st hst G Hh D1 I IH|n a c F st hst G Hh D1 I IH]; [constructor| |].
  - constructor; [|exact D1|apply IH; intros x I1 I2; apply (D x I1); sub I2].
    eapply (holds_moves _ _ _ _ _ _ _ M Hh). intros x I1 I2. apply (D x I1). sub I2.
  - econstructor; [|exact D1|apply IH; exact D]. eapply (holds_moves _ _ _ _ _ _ _ M Hh). intros x I1 I2. exact (D x I1 (D1 x I2)).
Qed.

Section HI.
Variable rd : ptr -> option bytes.

Definition rres (m : heap) (r : sres) (hr : hsres) : Prop :=
  match r, hr with
  | SNone, HNone => True
  | SErr e, HErr e' => e = e'
  | SAt n, HAt a => exists F, holds m a n F
  | _, _ => False
  end.
Definition stepped (m : heap) (F0 G : list loc) (r : sres) (it' : iterst) (hr : res (hsres * hiter * heap)) : Prop :=
  exists x hit' m' G', hr = Ok (x, hit', m') /\ moves m G m' G' /\ iok m' F0 it' hit' G' /\ rres m' r x.

Lemma hpush_ok m F0 it hit G n a F rs it' : iok m F0 it hit G -> holds m a n F ->
  (if rs : bool then (forall x, In x F -> ~ In x (F0 ++ G)) else (forall x, In x F -> In x (F0 ++ G))) ->
  iter_push it n = Ok it' -> exists hit', hpush hit a rs = Ok hit' /\ iok m F0 it' hit' (if rs then F ++ G else G).
Proof.
  intros [O1 O2 O3 O4] Hh D. unfold iter_push, hpush, check. rewrite (ist_len _ _ _ _ _ O4). destruct (_ <? _); [|discriminate].
  intros E. apply Ok_inj in E. subst it'. eexists. split; [reflexivity|]. constructor; cbn [it_done hi_done it_root hi_root it_stack hi_stack]; auto.
  - destruct rs; [|exact O3]. intros x I1. rewrite in_app_iff. intros [I2|I2]; [apply (D x I2); sets|exact (O3 x I1 I2)].
  - destruct rs; econstructor; eassumption.
Qed.

Lemma hseek_loop_ok F0 fuel : forall m it hit G r it', iok m F0 it hit G -> seek_loop rd fuel it = Ok (r, it') ->
  stepped m F0 G r it' (hseek_loop rd fuel m hit).
Proof.
  induction fuel as [|fuel IH]; intros m it hit G r it' O; cbn [seek_loop hseek_loop]; [discriminate|].
  assert (Keep : forall x hx, rres m x hx -> Ok (x, it) = Ok (r, it') -> stepped m F0 G r it' (Ok (hx, hit, m))).
  { intros x hx R E. apply Ok_inj in E. injection E as <- <-. exists hx, hit, m, G. split; [reflexivity|]. split; [apply moves_refl|]. split; assumption. }
  pose proof O as [O1 O2 O3 O4]. destruct it as [root st dn], hit as [hroot hst hdn]. cbn [it_done hi_done it_root hi_root it_stack hi_stack] in *. subst hdn.
  destruct st as [|[n c] st]; [inversion O4; subst; discriminate|].
  (* the top frame: its node, and how to update its counter *)
  assert (Top : exists a F rs hst', hst = mkhframe a c rs :: hst' /\ holds m a n F /\ (forall x, In x F -> In x (F0 ++ G)) /\
    forall c', iok m F0 (mkiter root (mkframe n c' :: st) dn) (mkhiter hroot (mkhframe a c' rs :: hst') dn) G).
  { inversion O4 as [|n0 a c0 F st0 hst0 G0 Hh D I|n0 a c0 F st0 hst0 G0 Hh D I]; subst; eexists a, F, _, hst0; (split; [reflexivity|]); (split; [exact Hh|]).
    - split; [sets|]. intros c'. constructor; cbn [it_done hi_done it_root hi_root it_stack hi_stack]; auto. constructor; assumption.
    - split; [exact D|]. intros c'. constructor; cbn [it_done hi_done it_root hi_root it_stack hi_stack]; auto. econstructor; eassumption. }
  destruct Top as (a & F & rs & hst' & -> & Hh & Sub & Upd). cbn [hf_node hf_child hf_resolved f_node f_child].
  destruct (holds_at _ _ _ _ Hh) as (cl & Ecl). destruct n as [|h w p l r0|h w k v vp|h w].
  - destruct (holds_null_inv _ _ _ Hh) as [Ea _]. rewrite (load_ok _ _ _ Ea). cbn [bind]. apply Keep. exists F. exact Hh.
  - destruct (holds_int_inv _ _ _ _ _ _ _ _ Hh) as (la & Fl & ra & Fr & Ea & Hl & Hr & _ & _ & _ & EF). rewrite (load_ok _ _ _ Ea). cbn [bind].
    destruct (2 <=? c); [apply Keep; exact I|].
    destruct (iter_push _ _) as [it1|e| | |] eqn:Ep; cbn [bind]; try discriminate. intros E.
    destruct (hpush_ok m F0 _ (mkhiter hroot (mkhframe a (S c) rs :: hst') dn) G (if S c =? 2 then r0 else l) (if S c =? 2 then ra else la) (if S c =? 2 then Fr else Fl) false it1 (Upd (S c))) as (hit1 & Eh & O5).
    + destruct (S c =? 2); assumption.
    + intros x I1. apply Sub. rewrite EF. destruct (S c =? 2); sub I1.
    + exact Ep.
    + rewrite Eh. cbn [bind]. eapply IH; eassumption.
  - destruct (holds_leaf_inv _ _ _ _ _ _ _ _ Hh) as (q & Ea & _). rewrite (load_ok _ _ _ Ea). cbn [bind]. apply Keep. exists F. exact Hh.
  - destruct (holds_hash_inv _ _ _ _ _ Hh) as [Ea _]. rewrite (load_ok _ _ _ Ea). cbn [bind].
    destruct (1 <=? c); [apply Keep; exact I|]. destruct (resolve rd h w) as [[rn|]|e| | |] eqn:Er; cbn [bind]; try discriminate.
    + destruct (hresolve_some (fun x => x) rd m h w rn Er) as (b & m1 & F1 & E1 & H1 & M1). rewrite E1. cbn [bind].
      destruct (iter_push _ _) as [it1|e| | |] eqn:Ep; cbn [bind]; try discriminate. intros E.
      assert (L0 : forall x, In x (F0 ++ G) -> x < length m).
      { intros x. rewrite in_app_iff. intros [I1|I1]; [eapply holds_lt; [exact O2|exact I1]|eapply ist_lt; eassumption]. }
      assert (O5 : iok m1 F0 (mkiter root (mkframe (NHash h w) 1 :: st) dn) (mkhiter hroot (mkhframe a 1 rs :: hst') dn) G).
      { destruct (Upd 1) as [U1 U2 U3 U4]. cbn [it_done hi_done it_root hi_root it_stack hi_stack] in *. constructor; cbn [it_done hi_done it_root hi_root it_stack hi_stack]; auto.
        - eapply (holds_moves _ _ _ _ _ _ _ M1 O2). intros ? [].
        - eapply ist_moves; [exact M1|exact U4|intros x I1; apply L0; sub I1|intros ? []]. }
      assert (D1 : forall x, In x F1 -> ~ In x (F0 ++ G)).
      { intros x I1 I2. eapply moves_avoid; [exact M1|apply L0, I2|intros []|exact I1]. }
      destruct (hpush_ok m1 F0 _ _ G rn b F1 true it1 O5 H1 D1 Ep) as (hit1 & Eh & O6). rewrite Eh. cbn [bind].
      destruct (IH _ _ _ _ _ _ O6 E) as (x & hit2 & m2 & G2 & E2 & M2 & O7 & R7). exists x, hit2, m2, G2. split; [exact E2|]. split; [|auto].
      apply (moves_trans _ _ m1 (F1 ++ G)); [|exact M2].
      eapply (moves_part _ _ _ _ G); [exact M1|intros y I1; apply L0; sub I1|intros ? []|sets|sets].
    + destruct (hresolve_none rd m h w Er) as (m1 & E1 & M1). rewrite E1. cbn [bind]. intros E. apply Ok_inj in E. injection E as <- <-.
      eexists _, _, m1, G. split; [reflexivity|]. split; [apply moves_same, M1|]. split; [|reflexivity].
      destruct (Upd 1) as [U1 U2 U3 U4]. cbn [it_done hi_done it_root hi_root it_stack hi_stack] in *. constructor; cbn [it_done hi_done it_root hi_root it_stack hi_stack]; auto.
      * eapply (holds_moves _ _ _ _ _ _ _ M1 O2). intros ? [].
      * eapply ist_moves; [exact M1|exact U4|intros x I1; eapply holds_lt; [exact O2|exact I1]|intros ? []].
Qed.

Lemma hseek_ok m F0 it hit G r it' : iok m F0 it hit G -> iter_seek rd it = Ok (r, it') -> stepped m F0 G r it' (hseek rd m hit).
Proof.
  intros O. pose proof O as [O1 O2 O3 O4]. unfold iter_seek, hseek. rewrite <- O1. destruct (it_done it) eqn:Ed.
  { intros E. apply Ok_inj in E. injection E as <- <-. exists (HErr EITEREND), hit, m, G. split; [reflexivity|]. split; [apply moves_refl|]. split; [exact O|reflexivity]. }
  destruct it as [root st dn], hit as [hroot hst hdn]. cbn [it_done hi_done it_root hi_root it_stack hi_stack] in *. subst dn hdn.
  inversion O4 as [E1 E2|n a c F st1 hst1 G1 Hh D I E1 E2|n a c F st1 hst1 G1 Hh D I E1 E2]; subst.
  - destruct (iter_push _ root) as [it1|e| | |] eqn:Ep; cbn [bind]; try discriminate. intros E.
    destruct (hpush_ok m F0 (mkiter root [] false) (mkhiter hroot [] false) [] root hroot F0 false it1 O O2) as (hit1 & Eh & O5); [sets|exact Ep|].
    rewrite Eh. cbn [bind]. eapply hseek_loop_ok; eassumption.
  - cbn [hf_resolved hf_node]. destruct (node_destroy_all _ _ _ _ Hh) as (m1 & E1 & M1). rewrite E1. cbn [bind].
    assert (H1 : holds m1 hroot root F0) by (eapply (holds_moves _ _ _ _ _ _ _ M1 O2); intros x I1 I2; apply (D x I1); sub I2).
    assert (I1 : ist m1 F0 st1 hst1 G1) by (eapply ist_moves; [exact M1|exact I|intros x; eapply holds_lt; exact O2|exact D]).
    assert (M2 : moves m (F ++ G1) m1 G1).
    { eapply (moves_part _ _ _ _ G1); [exact M1|intros x; eapply ist_lt; exact I|intros x I2 I3; apply (D x I2); sub I3|sets|sets]. }
    assert (D2 : forall x, In x F0 -> ~ In x G1) by (intros x I2 I3; apply (O3 x I2); sub I3).
    destruct st1 as [|fr st1].
    + inversion I; subst. intros E. apply Ok_inj in E. injection E as <- <-. eexists _, _, m1, []. split; [reflexivity|]. split; [exact M2|]. split; [|reflexivity].
      constructor; cbn [it_done hi_done it_root hi_root it_stack hi_stack]; auto.
    + assert (O5 : iok m1 F0 (mkiter root (fr :: st1) false) (mkhiter hroot hst1 false) G1) by (constructor; cbn [it_done hi_done it_root hi_root it_stack hi_stack]; auto).
      intros E. destruct (hseek_loop_ok F0 _ _ _ _ _ _ _ O5 E) as (x & hit2 & m2 & G2 & E2 & M3 & O7 & R7).
      destruct hst1 as [|hfr hst1]; [inversion I|]. exists x, hit2, m2, G2. split; [exact E2|]. split; [|auto]. eapply moves_trans; eassumption.
  - cbn [hf_resolved hf_node bind]. destruct st1 as [|fr st1].
    + inversion I; subst. intros E. apply Ok_inj in E. injection E as <- <-. eexists _, _, m, []. split; [reflexivity|]. split; [apply moves_refl|]. split; [|reflexivity].
      constructor; cbn [it_done hi_done it_root hi_root it_stack hi_stack]; auto.
    + assert (O5 : iok m F0 (mkiter root (fr :: st1) false) (mkhiter hroot hst1 false) G) by (constructor; cbn [it_done hi_done it_root hi_root it_stack hi_stack]; auto).
      intros E. destruct hst1 as [|hfr hst1]; [inversion I|]. eapply hseek_loop_ok; eassumption.
Qed.

Definition nexted (m : heap) (F0 G : list loc) (r : ires) (it' : iterst) (hr : res (ires * hiter * heap)) : Prop :=
  exists hit' m' G', hr = Ok (r, hit', m') /\ moves m G m' G' /\ iok m' F0 it' hit' G'.
Lemma hnext_loop_ok F0 fuel : forall m it hit G r it', iok m F0 it hit G -> next_loop rd fuel it = Ok (r, it') -> nexted m F0 G r it' (hnext_loop rd fuel m hit).
Proof.
  induction fuel as [|fuel IH]; intros m it hit G r it' O; cbn [next_loop hnext_loop]; [discriminate|].
  destruct (iter_seek rd it) as [[x it1]|e| | |] eqn:Es; cbn [bind]; try discriminate.
  destruct (hseek_ok _ _ _ _ _ _ _ O Es) as (hx & hit1 & m1 & G1 & E1 & M1 & O1 & R1). rewrite E1. cbn [bind].
  assert (Go : next_loop rd fuel it1 = Ok (r, it') -> nexted m F0 G r it' (hnext_loop rd fuel m1 hit1)).
  { intros E. destruct (IH _ _ _ _ _ _ O1 E) as (hit2 & m2 & G2 & E2 & M2 & O2). exists hit2, m2, G2. split; [exact E2|]. split; [eapply moves_trans; eassumption|exact O2]. }
  assert (Done : forall x, Ok (x, it1) = Ok (r, it') -> nexted m F0 G r it' (Ok (x, hit1, m1))).
  { intros y E. apply Ok_inj in E. injection E as <- <-. exists hit1, m1, G1. auto. }
  destruct x as [|n|e], hx as [|a|e']; cbn [rres] in R1; try contradiction; [exact Go| |subst e'; apply Done].
  destruct R1 as (F & Hh). destruct n as [|h w p l r0|h w k v vp|h w].
  - destruct (holds_null_inv _ _ _ Hh) as [Ea _]. rewrite (load_ok _ _ _ Ea). exact Go.
  - destruct (holds_int_inv _ _ _ _ _ _ _ _ Hh) as (la & ra & Fl & Fr & Ea & _). rewrite (load_ok _ _ _ Ea). exact Go.
  - destruct (holds_leaf_inv _ _ _ _ _ _ _ _ Hh) as (q & Ea & _). rewrite (load_ok _ _ _ Ea). cbn [bind]. rewrite (hretrieve_ok _ _ _ _ _ _ _ _ _ _ Hh Ea).
    destruct (retrieve rd v vp) as [[y|]|e| | |]; cbn [bind]; try discriminate; apply Done.
  - destruct (holds_hash_inv _ _ _ _ _ Hh) as [Ea _]. rewrite (load_ok _ _ _ Ea). exact Go.
Qed.
Lemma hiter_free_ok m F0 st hst G : ist m F0 st hst G -> exists m', hiter_free m hst = Ok m' /\ moves m G m' [].
Proof.
  induction 1 as [|n a c F st hst G Hh D I IH|n a c F st hst G Hh D I IH]; cbn [hiter_free hf_resolved hf_node].
  - exists m. split; [reflexivity|apply moves_refl].
  - destruct IH as (m1 & E1 & M1). rewrite E1. cbn [bind].
    assert (D1 : forall x, In x G -> ~ In x F) by (intros x I1 I2; apply (D x I2); sets).
    assert (H1 : holds m1 a n F) by (eapply (holds_moves _ _ _ _ _ _ _ M1 Hh); exact D1).
    destruct (node_destroy_all _ _ _ _ H1) as (m2 & E2 & M2). exists m2. split; [exact E2|].
    apply (moves_trans _ _ m1 F); [|exact M2]. eapply (moves_part _ _ _ _ F); [exact M1|intros x; eapply holds_lt; exact Hh|exact D1|sets|sets].
  - destruct IH as (m1 & E1 & M1). rewrite E1. cbn [bind]. exists m1. auto.
Qed.
(** An iterator yields the same and leaves nothing behind. *)
Lemma hiterate_ok F0 n : forall m it hit G rs, iok m F0 it hit G -> iter_calls rd n it = Ok rs ->
  exists m', hiterate rd n m hit = Ok (rs, m') /\ moves m G m' [].
Proof.
  induction n as [|n IH]; intros m it hit G rs O; cbn [iter_calls hiterate].
  - intros E. apply Ok_inj in E. subst rs. destruct (hiter_free_ok _ _ _ _ _ (io_ist _ _ _ _ _ O)) as (m1 & E1 & M1). rewrite E1. cbn [bind]. exists m1. auto.
  - unfold iter_next, hnext. destruct (next_loop rd NEXT_FUEL it) as [[r it1]|e| | |] eqn:En; cbn [bind]; try discriminate.
    destruct (hnext_loop_ok F0 NEXT_FUEL _ _ _ _ _ _ O En) as (hit1 & m1 & G1 & E1 & M1 & O1). rewrite E1. cbn [bind].
    destruct (iter_calls rd n it1) as [rs1|e| | |] eqn:Ec; cbn [bind]; try discriminate. intros E. apply Ok_inj in E. subst rs.
    destruct (IH _ _ _ _ _ O1 Ec) as (m2 & E2 & M2). rewrite E2. cbn [bind]. exists m2. split; [reflexivity|]. eapply moves_trans; eassumption.
Qed.
End HI.
