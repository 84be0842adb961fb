(** * C47: node memory.

    [hstep] (Heap.v) is the program with malloc and free: an access to memory that is not
    allocated, and freeing it once more, is [UB].  The specification ([spec], [allowed],
    [good], [snext]) is the one of the other properties. *)
From Verif Require Import Demo.
From Verif Require Export Properties_Fail.
From Verif Require Export HeapIter.
From Coq Require Import ZifyBool ZifyNat ZifyN Permutation Sorted.

(** ** All executions, as in Exec.v, now of the program with memory *)

Definition as_world (hw : hworld) : world := mkworld (hw_db hw) [].
(** The database is closed only when all transactions are gone. *)
Definition tidy (sp : spec) (c : call) : Prop := c = CReopen -> forall i, txat sp i = None.

Section Exec.
Variable H : bytes -> bytes.
Variable C : bytes -> bytes -> bytes.

Inductive hexec (key : bytes) : hworld -> spec -> Prop :=
| hx_new d : db_open H C key [] [] = Ok (Some d) -> hexec key (mkhw (Some d) [] []) spec0
| hx_call hw sp c a hw' :
    hexec key hw sp -> allowed H sp (as_world hw) c -> tidy sp c -> hstep H C hw c = Ok (a, hw') ->
    hexec key hw' (snext H sp c a)
| hx_faults hw sp d io :
    hexec key hw sp -> hw_db hw = Some d -> Forall clean_fault io ->
    hexec key (mkhw (Some (with_store d (set_io (d_store d) io))) (hw_mem hw) (hw_txs hw)) sp
| hx_crash hw sp c a hw1 ops A B d :          (* a new process: nothing is allocated *)
    hexec key hw sp -> allowed H sp (as_world hw) c -> quiet (as_world hw) -> s_failed sp = false ->
    hstep H C hw c = Ok (a, hw1) -> log (as_world hw1) = log (as_world hw) ++ ops -> c <> CReopen ->
    aligned (files (as_world hw)) -> aligned (files (as_world hw1)) ->
    no_forgery C key (files (as_world hw)) (files (as_world hw1)) [files (as_world hw1)] ->
    crash (files (as_world hw)) ops A -> reopened H C key A B -> db_open H C key B [] = Ok (Some d) ->
    hexec key (mkhw (Some d) [] [])
              (crashed (if fs_eq_dec A (files (as_world hw1)) then snext H sp c a else sp)).
End Exec.

(** What can be reached from a node structure. *)
Inductive reach (m : heap) : loc -> loc -> Prop :=
| rc_here a : reach m a a
| rc_left a h w p l r x : at_ m a = Some (KInt h w p l r) -> reach m l x -> reach m a x
| rc_right a h w p l r x : at_ m a = Some (KInt h w p l r) -> reach m r x -> reach m a x
| rc_value a h w k q vp : at_ m a = Some (KLeaf h w k (Some q) vp) -> reach m a q.

Lemma holds_reach m a n F x : holds m a n F -> reach m a x <-> In x F.
Proof.
  intros Hh. split.
  - intros R. revert n F Hh. induction R as [a|a h w p l r x E R IH|a h w p l r x E R IH|a h w k q vp E]; intros n F Hh.
    + eapply holds_self, Hh.
    + inversion Hh; subst; try congruence. rewrite E in *. match goal with X : Some _ = Some _ |- _ => injection X as -> -> -> -> -> end.
      right. apply in_app_iff. left. eapply IH; eassumption.
    + inversion Hh; subst; try congruence. rewrite E in *. match goal with X : Some _ = Some _ |- _ => injection X as -> -> -> -> -> end.
      right. apply in_app_iff. right. eapply IH; eassumption.
    + inversion Hh; subst; try congruence. rewrite E in *. match goal with X : Some (KLeaf _ _ _ (Some _) _) = Some _ |- _ => injection X as -> -> -> -> -> end.
      right. left. reflexivity.
  - induction Hh as [a E|a h w E|a h w k vp E|a h w k q v vp E E2|a h w p la l Fl ra r Fr E Hl IHl Hr IHr N1 N2 D]; cbn [In]; rewrite ?in_app_iff.
    1-3: intros [<-|[]]; constructor.
    + intros [<-|[<-|[]]]; [constructor|eapply rc_value, E].
    + intros [<-|[I|I]]; [constructor|eapply rc_left; eauto|eapply rc_right; eauto].
Qed.
(** A part of a tree is a tree. *)
Lemma holds_part m a n F x : holds m a n F -> In x F -> (exists v, at_ m x = Some (KVal v)) \/ exists n' F', holds m x n' F' /\ incl F' F.
Proof.
  induction 1 as [a E|a h w E|a h w k vp E|a h w k q v vp E E2|a h w p la l Fl ra r Fr E Hl IHl Hr IHr N1 N2 D]; cbn [In]; rewrite ?in_app_iff.
  1-3: intros [<-|[]]; right; eexists _, _; (split; [constructor; eassumption|apply incl_refl]).
  - intros [<-|[<-|[]]]; [right; eexists _, _; split; [eapply hd_leafv; eassumption|apply incl_refl]|left; eauto].
  - intros [<-|[I|I]].
    + right. eexists _, _. split; [eapply hd_int; eassumption|apply incl_refl].
    + destruct (IHl I) as [X|(n' & F' & X & Y)]; [left; exact X|right; exists n', F'; split; [exact X|]]. intros y Iy. right. apply in_app_iff. left. apply Y, Iy.
    + destruct (IHr I) as [X|(n' & F' & X & Y)]; [left; exact X|right; exists n', F'; split; [exact X|]]. intros y Iy. right. apply in_app_iff. right. apply Y, Iy.
Qed.

Lemma allowed_db H sp w w' c : w_db w = w_db w' -> allowed H sp w c -> allowed H sp w' c.
Proof.
  intros E [A B]. split; [exact A|]. destruct c; cbn [call_ok] in *; try exact B; unfold quiet, files in *; rewrite <- E; exact B.
Qed.
Lemma good_db H sp w w' c a : w_db w = w_db w' -> good H sp w c a -> good H sp w' c a.
Proof. intros E. destruct c; cbn [good]; auto. unfold quiet. rewrite E. auto. Qed.
Lemma db_open_flat H C key fs io d : db_open H C key fs io = Ok (Some d) -> flat_store (d_store d).
Proof.
  unfold db_open. destruct (store_open H C key fs io) as [[s|]|e| | |] eqn:Es; cbn [bind]; try discriminate. intros E. apply Ok_inj in E. injection E as <-. cbn [d_store].
  eapply store_open_flat, Es.
Qed.
Lemma hsim_fresh d : flat_store (d_store d) -> hsim (mkhw (Some d) [] []) (mkworld (Some d) []) (fun _ => []).
Proof.
  intros Fl. constructor; cbn [hw_db w_db hw_mem hw_txs w_txs]; auto.
  - intros x [= <-]. exact Fl.
  - intros [|i]; cbn; auto.
  - intros x c. unfold at_. destruct x; cbn; discriminate.
Qed.

Section P.
Variable H : bytes -> bytes.
Hypothesis H_len : forall m, length (H m) = 32.
Variable C : bytes -> bytes -> bytes.
Hypothesis C_len : forall k m, length (C k m) = 20.

Lemma exec_dead key w sp i : exec H C key w sp -> txat sp i = None -> forall n, nth i (w_txs w) TDead <> TLive n.
Proof.
  intros X E n En. destruct (exec_sim H H_len C C_len _ _ _ X) as (d & D & V & hist & W & _ & _ & _ & F). unfold txat in E. clear X.
  revert i E En. induction F as [|t o ts os T F IH]; intros i E En; [destruct i; discriminate En|]. destruct i as [|i]; cbn [nth] in *; [|eapply IH; eassumption].
  subst t o. exact T.
Qed.
Lemma hsim_call key hw w Fs sp c : exec H C key w sp -> hsim hw w Fs -> allowed H sp (as_world hw) c -> tidy sp c ->
  exists a w' hw' Fs', step H C w c = Ok (a, w') /\ hstep H C hw c = Ok (a, hw') /\ good H sp (as_world hw) c a /\ allowed H sp w c /\ hsim hw' w' Fs'.
Proof.
  intros X S A T. assert (A' : allowed H sp w c) by (eapply allowed_db; [|exact A]; cbn; apply S).
  destruct (exec_step H H_len C C_len _ _ _ _ X A') as (a & w' & E & G).
  assert (Pr : forall i k, c = CTxProve i k -> forall e, a <> AErr e).
  { intros i k -> e ->. destruct A' as [_ [Ai _]]. destruct (txat sp i) as [l|] eqn:El; [|congruence]. destruct (G l El) as (raw & Er & _). discriminate. }
  destruct (hsim_step H C hw w Fs c a w' S E Pr) as (hw' & Fs' & E1 & S1).
  { intros -> i. apply (exec_dead _ _ _ _ X). apply T. reflexivity. }
  exists a, w', hw', Fs'. split; [exact E|]. split; [exact E1|]. split; [eapply good_db; [|exact G]; symmetry; apply S|]. auto.
Qed.
Lemma hexec_ok key hw sp : hexec H C key hw sp -> exists w Fs, exec H C key w sp /\ hsim hw w Fs.
Proof.
  induction 1 as [d E|hw sp c a hw' X IH A T E|hw sp d io X IH Ew F|hw sp c a hw1 ops A B d X IH OK Q Fa E El Nc Al Al1 NF Cr Ro Eo].
  - exists (mkworld (Some d) []), (fun _ => []). split; [apply ex_new, E|]. apply hsim_fresh. eapply db_open_flat, E.
  - destruct IH as (w & Fs & Y & S). destruct (hsim_call key hw w Fs sp c Y S A T) as (a1 & w' & hw1 & Fs' & E1 & E2 & _ & A' & S').
    rewrite E in E2. apply Ok_inj in E2. injection E2 as <- <-. exists w', Fs'. split; [eapply ex_call; eassumption|exact S'].
  - destruct IH as (w & Fs & Y & S). exists (mkworld (Some (with_store d (set_io (d_store d) io))) (w_txs w)), Fs.
    assert (Ew' : w_db w = Some d) by (rewrite <- (hs_db _ _ _ S); exact Ew). split; [eapply ex_faults; eassumption|].
    apply hsim_same; [exact S|apply moves_refl|]. apply (hs_flat _ _ _ S d Ew').
  - destruct IH as (w & Fs & Y & S). destruct (hsim_call key hw w Fs sp c Y S OK) as (a1 & w' & hw2 & Fs' & E1 & E2 & _ & A' & S'); [intros ->; contradiction|].
    rewrite E in E2. apply Ok_inj in E2. injection E2 as <- <-. exists (mkworld (Some d) []), (fun _ => []).
    assert (D0 : w_db w = hw_db hw) by (symmetry; apply S). assert (D1 : w_db w' = hw_db hw1) by (symmetry; apply S').
    unfold quiet, log, files, as_world in *. cbn [w_db] in *. split; [|apply hsim_fresh; eapply db_open_flat, Eo].
    replace (match hw_db hw1 with Some d0 => st_fs (d_store d0) | None => [] end) with (files w') by (unfold files; rewrite D1; reflexivity).
    eapply (ex_crash H H_len C C_len) with (w := w) (w1 := w') (ops := ops) (B := B); unfold quiet, log, files; rewrite ?D0, ?D1; eassumption.
Qed.
(** Sessions of Db.v happen with memory, too. *)
Lemma hexec_calls key w sp cs l w' sp' : calls H C w sp cs l w' sp' -> ~ In CReopen cs ->
  forall hw Fs, exec H C key w sp -> hexec H C key hw sp -> hsim hw w Fs ->
  exists hw' Fs', hrun H C hw cs = Ok (l, hw') /\ hexec H C key hw' sp' /\ hsim hw' w' Fs'.
Proof.
  induction 1 as [w sp|w sp c a w1 cs l w2 sp2 A E Cs IH]; intros N hw Fs X Y S; cbn [hrun]; [exists hw, Fs; auto|].
  assert (T : tidy sp c) by (intros ->; destruct N; left; reflexivity).
  destruct (hsim_call key hw w Fs sp c X S) as (a1 & w' & hw1 & Fs' & E1 & E2 & _ & A' & S'); [eapply allowed_db; [|exact A]; symmetry; apply S|exact T|].
  rewrite E in E1. apply Ok_inj in E1. injection E1 as <- <-. rewrite E2. cbn [bind].
  destruct (IH (fun I => N (or_intror I)) hw1 Fs') as (hw2 & Fs2 & E3 & Y3 & S3); [eapply ex_call; eassumption| |exact S'|].
  - eapply hx_call; [exact Y| |exact T|exact E2]. eapply allowed_db; [|exact A]. symmetry. apply S.
  - rewrite E3. cbn [bind]. exists hw2, Fs2. auto.
Qed.
End P.

(** ** Every call completes and answers as it should: no call touches memory that is not
    allocated, frees anything twice, or follows a wild pointer. *)
Theorem C47_memory_safe :
  forall (H : bytes -> bytes), (forall m, length (H m) = 32) ->
  forall (C : bytes -> bytes -> bytes), (forall k m, length (C k m) = 20) ->
  forall key hw sp c,
  hexec H C key hw sp -> allowed H sp (as_world hw) c -> tidy sp c ->
  exists a hw', hstep H C hw c = Ok (a, hw') /\ good H sp (as_world hw) c a /\ hexec H C key hw' (snext H sp c a).
Proof.
  intros H HL C CL key hw sp c X A T. destruct (hexec_ok H HL C CL _ _ _ X) as (w & Fs & Y & S).
  destruct (hsim_call H HL C CL key hw w Fs sp c Y S A T) as (a & w' & hw' & Fs' & _ & E & G & _ & _). exists a, hw'.
  split; [exact E|]. split; [exact G|]. eapply hx_call; eassumption.
Qed.

(** ** What is allocated is exactly what live transactions can reach, no two of them share
    anything, and nothing is pointed to twice. *)
Theorem C47_ownership :
  forall (H : bytes -> bytes), (forall m, length (H m) = 32) ->
  forall (C : bytes -> bytes -> bytes), (forall k m, length (C k m) = 20) ->
  forall key hw sp, hexec H C key hw sp ->
  (forall x, at_ (hw_mem hw) x <> None <->
     exists i a, txat sp i <> None /\ nth i (hw_txs hw) None = Some a /\ reach (hw_mem hw) a x) /\
  (forall i j a b x, nth i (hw_txs hw) None = Some a -> nth j (hw_txs hw) None = Some b -> txat sp i <> None -> txat sp j <> None ->
     reach (hw_mem hw) a x -> reach (hw_mem hw) b x -> i = j) /\
  (forall a h w p l r x, at_ (hw_mem hw) a = Some (KInt h w p l r) -> reach (hw_mem hw) l x ->
     ~ reach (hw_mem hw) r x /\ x <> a /\ ~ reach (hw_mem hw) r a).
Proof.
  intros H HL C CL key hw sp X. destruct (hexec_ok H HL C CL _ _ _ X) as (w & Fs & Y & S).
  assert (Lv : forall i a, txat sp i <> None -> nth i (hw_txs hw) None = Some a -> exists n, holds (hw_mem hw) a n (Fs i)).
  { intros i a Ti Ea. destruct (txat sp i) as [l|] eqn:El; [|congruence]. destruct (exec_tx H HL C CL _ _ _ _ _ Y El) as (d & n & Ew & En & _).
    destruct (live_mem _ _ _ _ _ S En) as (b & _ & Hh & _ & _ & Eb). rewrite Ea in Eb. injection Eb as <-. eauto. }
  assert (Ow : forall x c, at_ (hw_mem hw) x = Some c -> exists i a n, txat sp i <> None /\ nth i (hw_txs hw) None = Some a /\ holds (hw_mem hw) a n (Fs i) /\ In x (Fs i)).
  { intros x c E. destruct (hs_all _ _ _ S x c E) as (i & I). pose proof (hs_tx _ _ _ S i) as T.
    destruct (nth i (w_txs w) TDead) as [n| |] eqn:En; cbn [txmem] in T; [|destruct T as [T _]; rewrite T in I; destruct I|destruct T as [T _]; rewrite T in I; destruct I].
    destruct T as (a & Ea & Hh). exists i, a, n. split; [|auto]. intros Ti. exact (exec_dead H HL C CL _ _ _ _ Y Ti n En). }
  split; [|split].
  - intros x. split.
    + intros E. destruct (at_ (hw_mem hw) x) as [c|] eqn:Ex; [|congruence]. destruct (Ow x c Ex) as (i & a & n & Ti & Ea & Hh & I).
      exists i, a. split; [exact Ti|]. split; [exact Ea|]. rewrite (holds_reach _ _ _ _ x Hh). exact I.
    + intros (i & a & Ti & Ea & R). destruct (Lv i a Ti Ea) as (n & Hh). rewrite (holds_reach _ _ _ _ x Hh) in R. destruct (holds_all _ _ _ _ Hh x R) as (c & ->). discriminate.
  - intros i j a b x Ea Eb Ti Tj Ra Rb. destruct (Lv i a Ti Ea) as (n & Ha), (Lv j b Tj Eb) as (n' & Hb).
    rewrite (holds_reach _ _ _ _ x Ha) in Ra. rewrite (holds_reach _ _ _ _ x Hb) in Rb.
    destruct (Nat.eq_dec i j) as [E|N]; [exact E|]. destruct (hs_disj _ _ _ S i j x N Ra Rb).
  - intros a h v p l r x E R. destruct (Ow a _ E) as (i & b & n & Ti & Eb & Hh & I).
    destruct (holds_part _ _ _ _ a Hh I) as [(v0 & E')|(n' & F' & Ha & _)]; [congruence|].
    inversion Ha as [|? ? ? E1|? ? ? ? ? E1|? ? ? ? ? ? ? E1|? ? ? ? la l' Fl ra r' Fr E1 Hl Hr N1 N2 D]; subst; try congruence.
    rewrite E in E1. injection E1 as -> -> -> -> ->. rewrite (holds_reach _ _ _ _ x Hl) in R. rewrite (holds_reach _ _ _ _ x Hr), (holds_reach _ _ _ _ a Hr).
    split; [apply D, R|]. split; [intros ->; contradiction|exact N2].
Qed.

(** ** Nothing leaks: without transactions, nothing is allocated. *)
Theorem C47_no_leak :
  forall (H : bytes -> bytes), (forall m, length (H m) = 32) ->
  forall (C : bytes -> bytes -> bytes), (forall k m, length (C k m) = 20) ->
  forall key hw sp, hexec H C key hw sp -> (forall i, txat sp i = None) -> forall x, at_ (hw_mem hw) x = None.
Proof.
  intros H HL C CL key hw sp X N x. destruct (at_ (hw_mem hw) x) as [c|] eqn:E; [|reflexivity].
  destruct (proj1 (proj1 (C47_ownership H HL C CL _ _ _ X) x)) as (i & a & T & _); [congruence|]. destruct (T (N i)).
Qed.

(** ** Iterators give the records in order, and when they are destroyed, after any number of
    steps, memory is as it was before. *)
Theorem C47_iterators :
  forall (H : bytes -> bytes), (forall m, length (H m) = 32) ->
  forall (C : bytes -> bytes -> bytes), (forall k m, length (C k m) = 20) ->
  forall key hw sp i l,
  hexec H C key hw sp -> txat sp i = Some l -> (forall k v, In (k, v) l -> levels l k <= 127) ->
  exists d a sorted, hw_db hw = Some d /\ nth i (hw_txs hw) None = Some a /\
    Permutation sorted l /\ StronglySorted (fun a b => lex_lt (fst a) (fst b)) sorted /\
    forall n, exists m',
      hiterate (st_rd (d_store d)) n (hw_mem hw) (hiter_create a) =
        Ok (firstn n (map (fun e => IRec (fst e) (snd e)) sorted ++ repeat (IErr EITEREND) n), m') /\
      forall x, at_ m' x = at_ (hw_mem hw) x.
Proof.
  intros H HL C CL key hw sp i l X E B. destruct (hexec_ok H HL C CL _ _ _ X) as (w & Fs & Y & S).
  destruct (C14_iteration H HL C CL _ _ _ _ _ Y E B) as (sorted & P & So & It).
  destruct (exec_tx H HL C CL _ _ _ _ _ Y E) as (d & nd & Ew & En & _). destruct (live_mem _ _ _ _ _ S En) as (a & _ & Hh & _ & _ & Ea).
  exists d, a, sorted. split; [rewrite (hs_db _ _ _ S); exact Ew|]. split; [exact Ea|]. split; [exact P|]. split; [exact So|].
  intros n. specialize (It n). unfold tx_iterate in It. rewrite Ew, En in It. cbn [bind] in It.
  edestruct (fun X => hiterate_ok (st_rd (d_store d)) (Fs i) n (hw_mem hw) (iter_create nd) (hiter_create a) [] _ X It) as (m' & Ei & M).
  { constructor; cbn [iter_create hiter_create it_done hi_done it_root hi_root it_stack hi_stack]; auto. constructor. }
  exists m'. split; [exact Ei|]. intros x. apply (mv_rest _ _ _ _ M); intros [].
Qed.

(** ** Nor does damage to the data files lead to memory errors: whatever they contain, in
    every session that Db.v completes.  (Missing: the session after a urkel_tx_prove that failed.) *)
Definition proved_all (cs : list call) (l : list answer) : Prop :=
  forall j i k e, nth_error cs j = Some (CTxProve i k) -> nth_error l j <> Some (AErr e).
Theorem C47_any_files_partial :
  forall (H : bytes -> bytes) (C : bytes -> bytes -> bytes) key fs io d cs l w,
  db_open H C key fs io = Ok (Some d) -> ~ In CReopen cs ->
  run H C (mkworld (Some d) []) cs = Ok (l, w) -> proved_all cs l ->
  exists hw, hrun H C (mkhw (Some d) [] []) cs = Ok (l, hw) /\
    ((forall i n, nth i (w_txs w) TDead <> TLive n) -> forall x, at_ (hw_mem hw) x = None).
Proof.
  intros H C key fs io d cs l w Eo N E P. apply db_open_flat in Eo.
  assert (G : forall cs l w0 hw0 Fs, hsim hw0 w0 Fs -> ~ In CReopen cs -> run H C w0 cs = Ok (l, w) -> proved_all cs l ->
    exists hw Fs', hrun H C hw0 cs = Ok (l, hw) /\ hsim hw w Fs').
  { clear. intros cs. induction cs as [|c cs IH]; intros l w0 hw0 Fs S N E P; cbn [run hrun] in *.
    - apply Ok_inj in E. injection E as <- <-. eauto.
    - destruct (step H C w0 c) as [[a w1]|e| | |] eqn:Es; cbn [bind] in E; try discriminate.
      destruct (run H C w1 cs) as [[l1 w2]|e| | |] eqn:Er; cbn [bind] in E; try discriminate. apply Ok_inj in E. injection E as <- <-.
      destruct (hsim_step H C hw0 w0 Fs c a w1 S Es) as (hw1 & Fs1 & E1 & S1).
      + intros i k -> e ->. apply (P 0 i k e); reflexivity.
      + intros ->. destruct N. left. reflexivity.
      + rewrite E1. cbn [bind]. destruct (IH l1 w1 hw1 Fs1 S1) as (hw & Fs' & E2 & S2); [intros I; apply N; right; exact I|exact Er|intros j; exact (P (Datatypes.S j))|].
        rewrite E2. cbn [bind]. eauto. }
  destruct (G cs l (mkworld (Some d) []) (mkhw (Some d) [] []) _ (hsim_fresh d Eo) N E P) as (hw & Fs & E1 & S). exists hw. split; [exact E1|].
  intros D x. destruct (at_ (hw_mem hw) x) as [c|] eqn:Ex; [|reflexivity]. destruct (hs_all _ _ _ S x c Ex) as (i & I).
  pose proof (hs_tx _ _ _ S i) as T. destruct (nth i (w_txs w) TDead) as [n| |] eqn:En; [destruct (D i n En)| |]; cbn [txmem] in T; destruct T as [T _]; rewrite T in I; destruct I.
Qed.

(** ** The exception: a commit that fails frees the transaction's tree and keeps the pointer,
    so that every further use of the transaction, destroying it included, accesses freed
    memory (C22). *)
Theorem C47_failed_commit_refuted :
  forall (H : bytes -> bytes), (forall m, length (H m) = 32) ->
  forall (C : bytes -> bytes -> bytes), (forall k m, length (C k m) = 20) ->
  forall key hw sp i e hw',
  hexec H C key hw sp -> allowed H sp (as_world hw) (CTxCommit i) -> hstep H C hw (CTxCommit i) = Ok (AErr e, hw') ->
  nth i (hw_txs hw') None <> None /\
  hstep H C hw' (CTxDestroy i) = UB /\ hstep H C hw' (CTxClear i) = UB /\ hstep H C hw' (CTxRoot i) = UB /\ hstep H C hw' (CTxCommit i) = UB /\
  forall k v, hstep H C hw' (CTxGet i k) = UB /\ hstep H C hw' (CTxHas i k) = UB /\ hstep H C hw' (CTxProve i k) = UB /\
    (length v <= 1023 -> hstep H C hw' (CTxInsert i k v) = UB) /\ hstep H C hw' (CTxRemove i k) = UB.
Proof.
  intros H HL C CL key hw sp i e hw' X A E. destruct (hexec_ok H HL C CL _ _ _ X) as (w & Fs & Y & S).
  destruct (hsim_call H HL C CL key hw w Fs sp _ Y S A) as (a & w' & hw1 & Fs' & E1 & E2 & _ & A' & S'); [intros [=]|].
  rewrite E in E2. apply Ok_inj in E2. injection E2 as <- <-.
  assert (D : nth i (w_txs w') TDead = TDangling).
  { destruct A' as [_ (l & El & _)]. destruct (exec_tx H HL C CL _ _ _ _ _ Y El) as (d & n & Ew & En & _). destruct (live_mem _ _ _ _ _ S En) as (_ & _ & _ & Li & _).
    revert E1. unfold step. rewrite Ew, En. cbn [bind]. unfold tx_commit.
    destruct (tree_commit H C (d_store d) n) as [[[root|] s1]|e1| | |]; cbn [bind]; try discriminate; intros E1; apply Ok_inj in E1.
    apply (f_equal snd) in E1. cbn [snd] in E1. subst w'. unfold put_tx. cbn [w_txs]. apply nth_upd_eq. exact Li. }
  pose proof (hs_tx _ _ _ S' i) as T. rewrite D in T. cbn [txmem] in T. destruct T as (_ & a & Ea & Na & _).
  assert (Ed : exists d, hw_db hw' = Some d).
  { destruct (exec_sim H HL C CL key w' (snext H sp (CTxCommit i) (AErr e))) as (d & D' & V & hist & W & Ed & _); [eapply ex_call; eassumption|].
    exists d. rewrite (hs_db _ _ _ S'). exact Ed. }
  destruct Ed as (d & Ed). assert (L : hlive hw' i = Ok a) by (unfold hlive; rewrite Ea; reflexivity).
  assert (U : load (hw_mem hw') a = UB) by (unfold load; rewrite Na; reflexivity).
  split; [congruence|]. unfold hstep. rewrite Ed, L. cbn [bind].
  assert (UD : node_destroy (hw_mem hw') a true = UB) by (unfold node_destroy; cbn [destroy_loop]; rewrite U; reflexivity).
  split; [rewrite UD; reflexivity|]. split; [rewrite UD; reflexivity|].
  split; [unfold hnode_hash; cbn [hash_loop]; rewrite U; reflexivity|].
  split; [unfold htx_commit, hcommit; cbn [hwrite]; rewrite U; reflexivity|].
  assert (TF : exists f, TREE_FUEL = Datatypes.S f) by (eexists; reflexivity). destruct TF as (f & TF).
  intros k v. unfold htx_get, htx_has, htx_prove, htx_insert, htx_remove. rewrite TF. cbn [hget hprove hinsert hremove]. rewrite U. cbn [bind].
  repeat split. intros Lv. destruct (Nat.ltb_spec 1023 (length v)); [lia|reflexivity].
Qed.

(** ** Examples: the demonstration run, with memory *)
Definition hw0 : hworld := mkhw (w_db w0) [] [].
Definition hplay (cs : list call) : hworld := match hrun toy toyC hw0 cs with Ok (_, hw) => hw | _ => mkhw None [] [] end.
Lemma hexec_played cs : is_none (play w0 spec0 cs) = false -> ~ In CReopen cs ->
  hrun toy toyC hw0 cs = Ok (pl cs, hplay cs) /\ hexec toy toyC dkey (hplay cs) (ps cs).
Proof.
  intros N R. unfold pl, ps, hplay, played. destruct (play w0 spec0 cs) as [[[l w] sp]|] eqn:Ep; [|discriminate N]. cbn [fst snd]. apply play_ok in Ep.
  assert (X0 : exists d, db_open toy toyC dkey [] [] = Ok (Some d) /\ w0 = mkworld (Some d) []).
  { unfold w0. destruct (db_open toy toyC dkey [] []) as [[d|]|e| | |] eqn:E; try (vm_compute in E; discriminate E). eauto. }
  destruct X0 as (d & Eo & E0). unfold hw0. rewrite E0 in *. cbn [w_db].
  destruct (hexec_calls toy toy_len toyC toyC_len dkey _ _ _ _ _ _ Ep R (mkhw (Some d) [] []) (fun _ => [])) as (hw & Fs & E1 & X1 & _).
  - apply ex_new, Eo.
  - apply hx_new, Eo.
  - apply hsim_fresh. eapply db_open_flat, Eo.
  - rewrite E1. auto.
Qed.
Definition cells (hw : hworld) : list loc := filter (fun x => negb (is_none (at_ (hw_mem hw) x))) (seq 0 (length (hw_mem hw))).
Example C47_nonvacuous : hexec toy toyC dkey (hplay demo) (ps demo) /\ 5 <= length (cells (hplay demo)) /\ 10 <= length (hw_mem (hplay demo)).
Proof.
  split; [|split; apply Nat.leb_le; vm_compute; reflexivity].
  apply hexec_played; [vm_compute; reflexivity|]. cbn [demo In]. intuition discriminate.
Qed.
Example C47_shown :
  cells (hplay (demo ++ [CTxDestroy 0; CTxDestroy 1; CTxDestroy 2])) = [] /\
  exists m', hiterate (match hw_db (hplay demo) with Some d => st_rd (d_store d) | None => fun _ => None end) 2 (hw_mem (hplay demo))
    (hiter_create (match nth 2 (hw_txs (hplay demo)) None with Some a => a | None => 0 end)) = Ok ([IRec kbaz v2; IRec kbar v1], m').
Proof. split; [vm_compute; reflexivity|]. eexists. vm_compute. reflexivity. Qed.
Definition hfailing : hworld :=
  match hw_db (hplay demo) with
  | Some d => mkhw (Some (with_store d (set_io (d_store d) [WShort 0]))) (hw_mem (hplay demo)) (hw_txs (hplay demo))
  | None => hplay demo
  end.
Example C47_failed_commit_nonvacuous :
  hexec toy toyC dkey hfailing (ps demo) /\ allowed toy (ps demo) (as_world hfailing) (CTxCommit 2) /\
  exists hw', hstep toy toyC hfailing (CTxCommit 2) = Ok (AErr EBADWRITE, hw').
Proof.
  split; [|split].
  - unfold hfailing. destruct (hw_db (hplay demo)) as [d|] eqn:E; [|apply C47_nonvacuous]. eapply hx_faults; [apply C47_nonvacuous|exact E|]. constructor; [exact I|constructor].
  - split; [exact demo_free|]. eexists. split; [unfold txat; rewrite (proj1 demo_txs); reflexivity|]. apply can_commit_b_ok. vm_compute. reflexivity.
  - destruct (hstep toy toyC hfailing (CTxCommit 2)) as [[a hw']|e| | |] eqn:E.
    + exists hw'. assert (X : (match hstep toy toyC hfailing (CTxCommit 2) with Ok (AErr EBADWRITE, _) => true | _ => false end) = true) by (vm_compute; reflexivity).
      rewrite E in X. destruct a as [|[]| | | |]; try discriminate X. reflexivity.
    + exfalso. assert (X : (match hstep toy toyC hfailing (CTxCommit 2) with Ok _ => true | _ => false end) = true) by (vm_compute; reflexivity). rewrite E in X. discriminate X.
    + exfalso. assert (X : (match hstep toy toyC hfailing (CTxCommit 2) with Ok _ => true | _ => false end) = true) by (vm_compute; reflexivity). rewrite E in X. discriminate X.
    + exfalso. assert (X : (match hstep toy toyC hfailing (CTxCommit 2) with Ok _ => true | _ => false end) = true) by (vm_compute; reflexivity). rewrite E in X. discriminate X.
    + exfalso. assert (X : (match hstep toy toyC hfailing (CTxCommit 2) with Ok _ => true | _ => false end) = true) by (vm_compute; reflexivity). rewrite E in X. discriminate X.
Qed.

Print Assumptions C47_memory_safe.
Print Assumptions C47_ownership.
Print Assumptions C47_no_leak.
Print Assumptions C47_iterators.
Print Assumptions C47_any_files_partial.
Print Assumptions C47_failed_commit_refuted.
