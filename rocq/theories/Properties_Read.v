(** * C49: read failures in the middle of API calls. *)
From Verif Require Import ReadFault Demo.
From Coq Require Import ZifyBool ZifyNat ZifyN.

Section C49.
Variable H : bytes -> bytes.
Hypothesis H_len : forall m, length (H m) = 32.
Variable C : bytes -> bytes -> bytes.
Hypothesis C_len : forall k m, length (C k m) = 20.

(** [fexec] (ReadFault.v): any history of calls, each with any of its reads failing, of
    cleanly failing writes and of crashes.  In such a state, whatever reads fail during an
    allowed call other than those named below, the call gives its right answer and has its
    right effect; or it reports ECORRUPTION - or, when it looks for a root other than the
    current one, ENOTFOUND -, the files are as before, and so are the answers to all later
    calls; in particular repeating the call gives the right answer.

    Missing: a removal may abort (tree.c 310) and urkel_inject of a known root is undefined
    behaviour (tree.c 654-656) when a read fails; see [C49_read_failures_refuted]. *)
Theorem C49_read_failures_partial key w sp sch c :
  fexec H C key w sp -> allowed H sp w c -> ~ removes c -> (forall h, c <> CInject h) ->
  exists a w', step_f H C w sch c = Ok (a, w') /\
   ((good H sp w c a /\ fexec H C key w' (snext H sp c a)) \/
    (In true sch /\ (a = AErr ECORRUPTION \/ (a = AErr ENOTFOUND /\ looks_up w c)) /\
     fexec H C key w' sp /\ files w' = files w /\ log w' = log w /\
     exists a2 w2, step H C w' c = Ok (a2, w2) /\ good H sp w' c a2)).
Proof.
  intros X A NR NI. pose proof (fexec_sim H C H_len C_len key w sp X) as S.
  destruct (step_f_ok H C H_len C_len key w sp sch c S A) as [E|(T & [(e & w' & E & Ee & S' & F' & L' & Q')|[[E Rm]|[E (h & Eh)]]])]; [| |contradiction|destruct (NI h Eh)].
  - destruct (step_ok H H_len C C_len key w sp c S A) as (a & w1 & E' & G & _). rewrite E' in E. exists a, w1. split; [exact E|]. left. split; [exact G|].
    rewrite <- (snext_f_good H sp w c a A G). eapply fx_call; eassumption.
  - exists (AErr e), w'. split; [exact E|]. right. split; [exact T|].
    assert (Ee' : AErr e = AErr ECORRUPTION \/ (AErr e = AErr ENOTFOUND /\ looks_up w c)) by (destruct Ee as [->|[-> Lu]]; auto).
    split; [exact Ee'|]. split.
    { assert (Ef : snext_f H sp c (AErr e) = sp) by (unfold snext_f; destruct Ee as [->|[-> _]]; reflexivity).
      rewrite <- Ef at 1. eapply fx_call; eassumption. }
    split; [exact F'|]. split; [exact L'|].
    assert (A' : allowed H sp w' c).
    { destruct A as [CF OK]. split; [exact CF|]. destruct c; cbn [call_ok] in *; auto.
      - destruct OK as [Lk OK]. split; [exact Lk|]. intros l El. destruct (OK l El). auto.
      - destruct OK as [Lk OK]. split; [exact Lk|]. intros l El. destruct (OK l El). auto.
      - rewrite F'. exact OK. }
    destruct (step_ok H H_len C C_len key w' sp c S' A') as (a2 & w2 & E2 & G2 & _). eauto.
Qed.

(** Executions without read failures are among those above. *)
Theorem C49_covers key w sp : exec H C key w sp -> fexec H C key w sp.
Proof. exact (exec_fexec H C H_len C_len key w sp). Qed.

(** Without a failing read a call is that of the model used for the other properties. *)
Theorem C49_no_failure key w sp sch c : fexec H C key w sp -> allowed H sp w c -> ~ In true sch ->
  step_f H C w sch c = step H C w c.
Proof.
  intros X A NT. destruct (step_f_ok H C H_len C_len key w sp sch c (fexec_sim H C H_len C_len key w sp X) A) as [E|(T & _)]; [exact E|contradiction].
Qed.

(** Through a transaction no read failure turns into a wrong answer: a lookup answers
    correctly or with ECORRUPTION. *)
Theorem C49_lookup key w sp sch i k l :
  fexec H C key w sp -> collision_free H sp -> txat sp i = Some l -> length k = 32 ->
  exists a w', step_f H C w sch (CTxGet i k) = Ok (a, w') /\
    (a = get_answer l k \/ (In true sch /\ a = AErr ECORRUPTION)).
Proof.
  intros X CF Et Lk.
  destruct (C49_read_failures_partial key w sp sch (CTxGet i k) X) as (a & w' & E & M); [split; [exact CF|split; [congruence|exact Lk]]|exact (fun x => x)|discriminate|].
  exists a, w'. split; [exact E|]. destruct M as [[G _]|(T & [Ea|[_ []]] & _)]; [left; apply G, Et|right; auto].
Qed.
End C49.

(** ** What goes wrong *)
Definition rf_calls : list call := [ CInsert kfoo foo_value; CInsert kbar v1; CReopen ].
Definition rf_old : bytes := ref_root toy [(kfoo, foo_value)].
Definition ans {A B} (r : res (A * B)) : res A := match r with Ok (a, _) => Ok a | Fail e => Fail e | Abort => Abort | UB => UB | NoFuel => NoFuel end.

(** In a database with two commits, opened again: (1) a lookup under the first root when
    the first read fails answers ENOTFOUND, although the key is there; (2) a removal aborts
    the process when its third read fails; (3) urkel_inject of a root that exists is
    undefined behaviour when its first read fails; (4) urkel_get answers ECORRUPTION. *)
Theorem C49_read_failures_refuted :
  fexec toy toyC dkey (pw rf_calls) (ps rf_calls) /\ collision_free toy (ps rf_calls) /\
  seen toy (ps rf_calls) (Some rf_old) = Some [(kfoo, foo_value)] /\
  allowed toy (ps rf_calls) (pw rf_calls) (CGet kfoo (Some rf_old)) /\
  ans (step_f toy toyC (pw rf_calls) [] (CGet kfoo (Some rf_old))) = Ok (AVal foo_value) /\
  ans (step_f toy toyC (pw rf_calls) [true] (CGet kfoo (Some rf_old))) = Ok (AErr ENOTFOUND) /\
  allowed toy (ps rf_calls) (pw rf_calls) (CRemove kfoo) /\
  step_f toy toyC (pw rf_calls) [false; false; true] (CRemove kfoo) = Abort /\
  allowed toy (ps rf_calls) (pw rf_calls) (CInject rf_old) /\
  step_f toy toyC (pw rf_calls) [true] (CInject rf_old) = UB /\
  ans (step_f toy toyC (pw rf_calls) [false; true] (CGet kfoo None)) = Ok (AErr ECORRUPTION).
Proof.
  split; [apply C49_covers; [exact toy_len|exact toyC_len|]; apply exec_played; vm_compute; reflexivity|].
  split; [apply collision_free_b_ok; vm_compute; reflexivity|]. split; [vm_compute; reflexivity|].
  split; [apply allowed_b_ok; vm_compute; reflexivity|]. split; [vm_compute; reflexivity|]. split; [vm_compute; reflexivity|].
  split; [apply allowed_b_ok; vm_compute; reflexivity|]. split; [vm_compute; reflexivity|].
  split; [apply allowed_b_ok; vm_compute; reflexivity|]. split; vm_compute; reflexivity.
Qed.
