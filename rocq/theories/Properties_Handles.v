(** * C56: a database that is open cannot be opened or destroyed again. *)
From Verif Require Import Handles.

(** Handle [h] works on the database: it has been told that it holds the lock. *)
Definition working (s : hdir) (h : nat) : Prop := exists f, h_st s h = Inside f.
(** The name is not removed while another handle has the file open (see C40). *)
Definition undisturbed (s : hdir) (h : nat) (a : hact) : Prop :=
  a = AUnlink -> forall g f, g <> h -> h_st s g <> Opened f /\ h_st s g <> Inside f.
(** No process uses two handles at a time. *)
Definition one_each (pr : nat -> nat) (s : hdir) (h : nat) (a : hact) : Prop :=
  a = AOpen -> forall g, pr g = pr h -> h_st s g = Outside.

(** Then at most one handle works on the database.  Missing: several handles in one process
    (refuted below), and removal of the name at the wrong time (C40_one_process_refuted). *)
Theorem C56_one_handle_partial : forall pr s,
  handles pr (fun s h a => undisturbed s h a /\ one_each pr s h a) s ->
  forall g h, working s g -> working s h -> g = h.
Proof.
  intros pr s R.
  assert (I : (forall h f, h_st s h = Opened f \/ h_st s h = Inside f -> h_path s = Some f) /\
              (forall h f, h_st s h = Inside f -> h_lock s f = Some (pr h)) /\
              (forall g h, h_st s g <> Outside -> h_st s h <> Outside -> pr g = pr h -> g = h)).
  { induction R as [|s h a s' R (P & L & U) [Un One] St]; [cbn; split; [intros h f []; discriminate|]; split; [discriminate|congruence]|].
    destruct s as [path next lk st]. cbn [h_path h_next h_lock h_st] in *. unfold hact_step in St. unfold undisturbed in Un. unfold one_each in One. cbn [h_st] in *.
    assert (Rel : forall x f, st h = Inside f -> (forall f0, x <> Opened f0 /\ x <> Inside f0) ->
      (forall g f0, pset st h x g = Opened f0 \/ pset st h x g = Inside f0 -> path = Some f0) /\
      (forall g f0, pset st h x g = Inside f0 -> release lk f (pr h) f0 = Some (pr g)) /\
      (forall g g', pset st h x g <> Outside -> pset st h x g' <> Outside -> pr g = pr g' -> g = g')).
    { intros x f E X. unfold pset. split; [|split].
      - intros g f0 Q. destruct (g =? h); [destruct (X f0); destruct Q; contradiction|eauto].
      - intros g f0. destruct (Nat.eqb_spec g h) as [->|N]; [intros Q; destruct (X f0); contradiction|]. intros Q. unfold release.
        pose proof (L g f0 Q) as Lg. rewrite (L h f E), Nat.eqb_refl. unfold lset. destruct (Nat.eqb_spec f0 f) as [->|]; [|exact Lg].
        exfalso. apply N, U; [congruence|congruence|]. rewrite (L h f E) in Lg. now injection Lg.
      - intros g g'. destruct (Nat.eqb_spec g h) as [->|]; destruct (Nat.eqb_spec g' h) as [->|]; intros A1 A2 B; first [reflexivity|apply U; congruence]. }
    destruct a; [| | | | |].
    - (* AOpen *) specialize (One eq_refl). destruct (st h) eqn:E; try discriminate.
      assert (U' : forall x g g', pset st h x g <> Outside -> pset st h x g' <> Outside -> pr g = pr g' -> g = g').
      { intros x g g'. unfold pset. destruct (Nat.eqb_spec g h) as [->|]; destruct (Nat.eqb_spec g' h) as [->|]; auto. }
      destruct path as [f|]; injection St as <-; cbn [h_path h_next h_lock h_st].
      + split; [|split; [|apply U']].
        * intros g f0. unfold pset. destruct (g =? h); [intros [Q|Q]; [congruence|discriminate]|apply P].
        * intros g f0. unfold pset. destruct (g =? h); [discriminate|apply L].
      + split; [|split; [|apply U']].
        * intros g f0. unfold pset. destruct (g =? h); [intros [Q|Q]; [congruence|discriminate]|]. intros Q. apply P in Q. discriminate.
        * intros g f0. unfold pset. destruct (g =? h); [discriminate|apply L].
    - (* ALock *) destruct (st h) as [|f| |] eqn:E; try discriminate.
      assert (Up : forall x g g', pset st h x g <> Outside -> pset st h x g' <> Outside -> pr g = pr g' -> g = g').
      { intros x g g'. unfold pset. destruct (Nat.eqb_spec g h) as [->|]; destruct (Nat.eqb_spec g' h) as [->|]; intros A1 A2 B; first [reflexivity|apply U; congruence]. }
      assert (Pin : forall x g f0, x = Inside f \/ x = Outside -> pset st h x g = Opened f0 \/ pset st h x g = Inside f0 -> path = Some f0).
      { intros x g f0 X. unfold pset. destruct (g =? h); [|apply P]. destruct X as [->| ->]; intros [Q|Q]; try discriminate. injection Q as <-. apply (P h). auto. }
      destruct (lk f) as [q|] eqn:Ef; [destruct (Nat.eqb_spec q (pr h)) as [->|Nq]|]; injection St as <-; cbn [h_path h_next h_lock h_st].
      + split; [intros g f0; apply Pin; auto|]. split; [|apply Up]. intros g f0. unfold pset. destruct (Nat.eqb_spec g h) as [->|]; [|apply L]. intros Q. injection Q as <-. exact Ef.
      + split; [intros g f0; apply Pin; auto|]. split; [|apply Up]. intros g f0. unfold pset. destruct (Nat.eqb_spec g h) as [->|]; [discriminate|]. intros Q.
        unfold release. rewrite Ef. destruct (Nat.eqb_spec q (pr h)); [contradiction|]. apply L, Q.
      + split; [intros g f0; apply Pin; auto|]. split; [|apply Up]. intros g f0. unfold pset, lset. destruct (Nat.eqb_spec g h) as [->|].
        * intros Q. injection Q as <-. rewrite Nat.eqb_refl. reflexivity.
        * intros Q. destruct (Nat.eqb_spec f0 f) as [->|]; [|apply L, Q]. rewrite (L g f Q) in Ef. discriminate.
    - (* AGiveup *) destruct (st h) as [| |f|] eqn:E; try discriminate. injection St as <-. apply (Rel Outside f); [reflexivity|]. split; discriminate.
    - (* AClose *) destruct (st h) as [| |f|] eqn:E; try discriminate. injection St as <-. apply (Rel Leaving f); [reflexivity|]. split; discriminate.
    - (* AUnlink *) destruct (st h) eqn:E; try discriminate. injection St as <-. cbn [h_path h_next h_lock h_st]. specialize (Un eq_refl). split; [|split].
      + intros g f. unfold pset. destruct (Nat.eqb_spec g h); [intros [|]; discriminate|]. destruct (Un g f n). intros [|]; contradiction.
      + intros g f. unfold pset. destruct (g =? h); [discriminate|apply L].
      + intros g g'. unfold pset. destruct (Nat.eqb_spec g h) as [->|]; [congruence|]. destruct (Nat.eqb_spec g' h) as [->|]; [congruence|apply U].
    - (* ADie *) injection St as <-. cbn [h_path h_next h_lock h_st]. split; [|split].
      + intros g f. destruct (pr g =? pr h); [intros [|]; discriminate|apply P].
      + intros g f. destruct (Nat.eqb_spec (pr g) (pr h)); [discriminate|]. intros Q. rewrite (L g f Q). destruct (Nat.eqb_spec (pr g) (pr h)); [contradiction|reflexivity].
      + intros g g'. destruct (pr g =? pr h); [congruence|]. destruct (pr g' =? pr h); [congruence|apply U]. }
  destruct I as (P & L & U). intros g h [f Eg] [f' Eh]. assert (f' = f). { assert (X : h_path s = Some f) by (apply (P g); auto). assert (Y : h_path s = Some f') by (apply (P h); auto). congruence. }
  subst f'. apply U; [congruence|congruence|]. apply L in Eg, Eh. congruence.
Qed.

(** ** Refutations *)
Fixpoint htrace (pr : nat -> nat) (s : hdir) (l : list (nat * hact)) : option hdir :=
  match l with [] => Some s | (h, a) :: l => match hact_step pr s h a with Some s => htrace pr s l | None => None end end.
Lemma htrace_run pr (ok : hdir -> nat -> hact -> Prop) l : (forall s h a, In (h, a) l -> ok s h a) -> forall s s', handles pr ok s -> htrace pr s l = Some s' -> handles pr ok s'.
Proof.
  induction l as [|[h a] l IH]; intros Ok s s' R E; cbn [htrace] in E; [injection E as <-; exact R|].
  destruct (hact_step pr s h a) as [s1|] eqn:E1; [|discriminate]. eapply IH; [intros; apply Ok; now right| |exact E].
  eapply hn_step; [exact R| |exact E1]. apply Ok. now left.
Qed.
Definition hstart : hdir := mkhd None 0 (fun _ => None) (fun _ => Outside).

(** One process opens the database twice and succeeds twice (the name is never removed). *)
Theorem C56_same_process_refuted : exists s, handles (fun _ => 0) undisturbed s /\ working s 1 /\ working s 2.
Proof.
  set (l := [(1, AOpen); (1, ALock); (2, AOpen); (2, ALock)]).
  destruct (htrace (fun _ => 0) hstart l) as [s|] eqn:E; [|discriminate E]. exists s. split.
  - refine (htrace_run _ _ l _ hstart s (hn_start _ _) E). intros s0 h a I Ea. subst a. cbn in I. intuition discriminate.
  - vm_compute in E. injection E as <-. split; eexists; reflexivity.
Qed.
(** A second urkel_open in the same process that then fails (for example because a data file
    cannot be read) releases the lock of the first: another process gets in. *)
Theorem C56_lock_lost_refuted : exists pr s, handles pr undisturbed s /\ working s 1 /\ working s 3 /\ pr 1 <> pr 3.
Proof.
  set (pr := fun h => h / 3). set (l := [(1, AOpen); (1, ALock); (2, AOpen); (2, ALock); (2, AGiveup); (3, AOpen); (3, ALock)]).
  destruct (htrace pr hstart l) as [s|] eqn:E; [|discriminate E]. exists pr, s. split.
  - refine (htrace_run _ _ l _ hstart s (hn_start _ _) E). intros s0 h a I Ea. subst a. cbn in I. intuition discriminate.
  - vm_compute in E. injection E as <-. split; [eexists; reflexivity|]. split; [eexists; reflexivity|]. discriminate.
Qed.
(** The conditions of C56_one_handle_partial: two processes, one after the other. *)
Example C56_nonvacuous : exists s, handles (fun h => h) (fun s h a => undisturbed s h a /\ one_each (fun h => h) s h a) s /\ working s 2 /\ ~ working s 1 /\ h_next s = 2.
Proof.
  assert (R : forall l s s', handles (fun h => h) (fun s h a => undisturbed s h a /\ one_each (fun h => h) s h a) s ->
     forallb (fun x => match snd x with AUnlink => false | _ => true end) l = true ->
     htrace (fun h => h) s l = Some s' -> handles (fun h => h) (fun s h a => undisturbed s h a /\ one_each (fun h => h) s h a) s').
  { intros l0. induction l0 as [|[h a] l0 IH]; intros s s' R B E; cbn [htrace] in E; [injection E as <-; exact R|].
    cbn in B. apply andb_true_iff in B. destruct B as [B1 B2].
    destruct (hact_step (fun h => h) s h a) as [s1|] eqn:E1; [|discriminate]. apply (IH s1 s'); [|exact B2|exact E].
    eapply hn_step; [exact R| |exact E1]. split; [intros ->; discriminate|]. intros -> g Eg. cbn in Eg. subst g.
    destruct s as [p n lk st]. cbn in *. destruct (st h); congruence. }
  destruct (htrace (fun h => h) hstart [(1, AOpen); (1, ALock); (1, AClose)]) as [s1|] eqn:E1; [|discriminate E1].
  assert (R1 := R [(1, AOpen); (1, ALock); (1, AClose)] hstart s1 (hn_start _ _) eq_refl E1).
  assert (Ex : exists s2, hact_step (fun h => h) s1 1 AUnlink = Some s2 /\ htrace (fun h => h) s2 [(2, AOpen); (2, ALock)] <> None).
  { cbn in E1. injection E1 as <-. eexists. split; [reflexivity|]. discriminate. }
  destruct Ex as (s2 & E2 & N2). assert (R2 : handles (fun h => h) (fun s h a => undisturbed s h a /\ one_each (fun h => h) s h a) s2).
  { eapply hn_step; [exact R1| |exact E2]. split; [|intros X; discriminate X]. intros _ g f Ng. cbn in E1. injection E1 as <-. cbn. unfold pset.
    destruct (Nat.eqb_spec g 1); [contradiction|]. split; discriminate. }
  destruct (htrace (fun h => h) s2 [(2, AOpen); (2, ALock)]) as [s3|] eqn:E3; [|congruence].
  exists s3. split; [exact (R [(2, AOpen); (2, ALock)] s2 s3 R2 eq_refl E3)|]. cbn in E1. injection E1 as <-. cbn in E2. injection E2 as <-. cbn in E3. injection E3 as <-.
  split; [eexists; reflexivity|]. split; [|reflexivity]. intros [f X]. discriminate X.
Qed.
