(** * C65: the write buffer stays inside its memory. *)
From Verif Require Import SlabFacts Properties_Db Properties_Fail Properties_Failures Demo.
From Coq Require Import ZifyBool ZifyNat ZifyN.

(** A process after urkel_open: any calls, valid or not, system calls failing in any way. *)
Inductive runs (H : bytes -> bytes) (C : bytes -> bytes -> bytes) (w0 : world) : world -> Prop :=
| rn_open : runs H C w0 w0
| rn_call w c a w' : runs H C w0 w -> c <> CReopen -> step H C w c = Ok (a, w') -> runs H C w0 w'
| rn_faults w io : runs H C w0 w -> runs H C w0 (faulty w io).

Lemma open_slab H C key fs io d : db_open H C key fs io = Ok (Some d) ->
  exists pos index, (index < MAX_FILES)%N /\ st_slab (d_store d) = mkslab [] 0 [] 0 pos index.
Proof.
  unfold db_open, store_open. destruct (recover C key (length fs) fs io) as [[[[fs1 ops] st] last]| | | |]; cbn [bind]; try discriminate.
  set (X := match fs1 with [] => ([[]], ops ++ [ONew]) | _ => (fs1, ops) end). destruct X as [fs2 ops2]. unfold check.
  destruct (N.of_nat (length fs2) <? MAX_FILES)%N eqn:Q; cbn [bind]; try discriminate.
  match goal with |- context [read_root H ?s0 ?p] => set (s := s0); destruct (read_root H s p) as [[r s1]| | | |] eqn:Er end; cbn [bind]; try discriminate.
  destruct r as [n|]; cbn [bind]; try discriminate. intros E. apply Ok_inj in E. injection E as <-. cbn [d_store set_state st_slab].
  apply read_root_idles in Er. destruct Er as (Er & _). rewrite Er. exists (blen (fget fs2 (length fs2 - 1))), (N.of_nat (length fs2)). split; [lia|reflexivity].
Qed.

(** ** C65: 64-bit size_t.  Whatever is called and whatever fails, the allocated blocks have room
    for everything the library puts into them and takes out of them (an access outside would be
    [UB]) and hold what Store.v says is pending; or the program stops (malloc fails: checked_realloc
    aborts) at a time when more than two thirds of the memory are pending. *)
Theorem C65_session_partial :
  forall (H : bytes -> bytes) (C : bytes -> bytes -> bytes), (forall k m, length (C k m) = 20) ->
  forall key fs io d w, db_open H C key fs io = Ok (Some d) -> runs H C (mkworld (Some d) []) w ->
  exists d' us pos index, w_db w = Some d' /\ used (d_store d) us (d_store d') /\
    forall MEM fb fo, (MEM <= 2 ^ 62)%N ->
      (exists c, crun (2 ^ 64) MEM fb fo us (cslab_init pos index) = Ok c /\ fits MEM c (st_slab (d_store d'))) \/
      (crun (2 ^ 64) MEM fb fo us (cslab_init pos index) = Abort /\
       exists us1 us2 s, us = us1 ++ us2 /\ used (d_store d) us1 s /\
         ((2 * MEM < 3 * blen (sl_data (st_slab s)))%N \/ (MEM < 8 * (N.of_nat (length (sl_offsets (st_slab s))) + 2))%N)).
Proof.
  intros H C CL key fs io d w Eo R. destruct (open_slab _ _ _ _ _ _ Eo) as (pos & index & Li & Es).
  assert (U : exists d' us, w_db w = Some d' /\ used (d_store d) us (d_store d')).
  { induction R as [|w c a w' R IH Nc E|w io' R IH].
    - exists d, []. split; [reflexivity|constructor].
    - destruct IH as (d0 & u & E0 & U). destruct (step_uses H C CL _ _ _ _ Nc E) as (d1 & d2 & E1 & E2 & v & V).
      rewrite E0 in E1. injection E1 as <-. exists d2, (u ++ v). split; [exact E2|]. eapply used_app; eassumption.
    - destruct IH as (d0 & u & E0 & U). unfold faulty. rewrite E0. eexists _, u. split; [reflexivity|].
      cbn [with_store d_store]. rewrite <- (app_nil_r u). eapply used_app; [exact U|]. eapply us_idle; [|constructor]. repeat split. }
  destruct U as (d' & us & Ew & U). exists d', us, pos, index. split; [exact Ew|]. split; [exact U|]. intros MEM fb fo M.
  apply (crun_ok (2 ^ 64) MEM fb fo ltac:(unfold MAX_FILE_SIZE; change (2 ^ 64)%N with 18446744073709551616%N; change (2 ^ 62)%N with 4611686018427387904%N in M; lia) us _ _ _ U).
  rewrite Es. apply fits_init. unfold MAX_FILES in Li. lia.
Qed.

(** How much memory is enough: one and a half times what is pending, eight bytes for each file begun. *)
Theorem C65_memory :
  forall MEM fb fo c sl data sl', (MEM <= 2 ^ 62)%N -> fits MEM c sl -> slab_write sl data = Ok sl' ->
  (3 * blen (sl_data sl') <= 2 * MEM)%N -> (8 * (N.of_nat (length (sl_offsets sl')) + 2) <= MEM)%N ->
  exists c', cslab_write (2 ^ 64) MEM fb fo c data = Ok c' /\ fits MEM c' sl'.
Proof.
  intros MEM fb fo c sl data sl' M F E A B.
  destruct (write_ok (2 ^ 64) MEM fb fo ltac:(unfold MAX_FILE_SIZE; change (2 ^ 64)%N with 18446744073709551616%N; change (2 ^ 62)%N with 4611686018427387904%N in M; lia) _ _ _ _ F E) as [X|[_ X]]; [exact X|lia].
Qed.
(** Flushing needs no memory; it writes what Store.v says, and fails exactly when that does. *)
Theorem C65_flush :
  forall MEM c s, fits MEM c (st_slab s) -> sl_data (st_slab s) <> [] ->
  match store_flush s with
  | Ok (b, s') => exists c' s1, cflush c s = Ok (b, c', s1) /\ s' = set_slab s1 (st_slab s') /\ fits MEM c' (st_slab s')
  | Abort => cflush c s = Abort
  | _ => True
  end.
Proof. intros MEM c s. exact (cflush_ok MEM (fun _ => x00) (fun _ => 0%N) c s). Qed.

(** ** 32-bit size_t.  A program that keeps on committing while writing fails (a full disk) adds to
    what is pending each time.  Values of 1000 bytes; after each one an attempt to flush that
    writes nothing. *)
Definition v1000 : bytes := repeat x00 (Pos.to_nat 1000).
Definition heap (n : N) : slab := mkslab (repeat x00 (N.to_nat (n * 1000))) (N.to_nat (n * 1000)) [] 0 (n * 1000) 1.
Definition tries (n : N) : list fop := repeat (OApp 0 []) (N.to_nat n).
Definition rest (n : N) : store := mkstore [[]] (tries n) [] (heap n) meta0 meta0 [] 1 0 [].
Definition full (n : N) : store := mkstore [[]] (tries (n - 1)) [] (heap n) meta0 meta0 [] 1 0 [WShort 0].
Fixpoint stubborn (n : N) (k : nat) : list use :=
  match k with O => [] | S k => UWrite v1000 :: UFlush (full (n + 1)) :: stubborn (n + 1) k end.

Lemma v1000_len : blen v1000 = 1000%N.
Proof. unfold blen, v1000. rewrite repeat_length. lia. Qed.
Lemma heap_write n : (n * 1000 + 1000 <= MAX_FILE_SIZE)%N -> slab_write (heap n) v1000 = Ok (heap (n + 1)).
Proof.
  intros L. unfold slab_write, check. rewrite v1000_len. unfold MAX_FILE_SIZE in *. change (1000 <=? 2147479552)%N with true. cbn match.
  unfold heap. cbn [sl_pos]. replace (2147479552 <? n * 1000 + 1000)%N with false by lia.
  cbn [sl_data sl_off sl_offsets sl_start sl_pos sl_index]. f_equal. f_equal.
  - unfold v1000. rewrite <- repeat_app. f_equal. lia.
  - unfold v1000. rewrite repeat_length. lia.
  - lia.
Qed.
Lemma flush_fails D p l : D <> [] -> (blen D <= MAX_FILE_SIZE)%N ->
  store_flush (mkstore [[]] l [] (mkslab D (length D) [] 0 p 1) meta0 meta0 [] 1 0 [WShort 0]) =
    Ok (false, mkstore [[]] (l ++ [OApp 0 []]) [] (mkslab D (length D) [] 0 p 1) meta0 meta0 [] 1 0 []).
Proof.
  intros N L. unfold store_flush. cbv zeta. cbn [st_slab sl_start sl_offsets sl_off sl_data app firstn skipn list_sum fold_right flush_loop].
  rewrite firstn_all. unfold store_write. cbn [st_io tl set_io st_size]. replace (MAX_FILE_SIZE <? 0 + blen D)%N with false by lia.
  unfold file_write. destruct D as [|b t]; [congruence|]. cbn [bind]. reflexivity.
Qed.
Lemma repeat_cons_app {A} (x : A) n : repeat x n ++ [x] = repeat x (n + 1).
Proof. rewrite repeat_app. reflexivity. Qed.
Lemma heap_flush n : (0 < n)%N -> (n * 1000 <= MAX_FILE_SIZE)%N -> store_flush (full n) = Ok (false, rest n).
Proof.
  intros P L. unfold full, rest, heap. replace (tries n) with (tries (n - 1) ++ [OApp 0 []]) by (unfold tries; rewrite repeat_cons_app; f_equal; lia). set (D := repeat x00 (N.to_nat (n * 1000))).
  assert (Ld : length D = N.to_nat (n * 1000)) by apply repeat_length. rewrite <- Ld. apply flush_fails; [|unfold blen; lia].
  intros Q. rewrite Q in Ld. cbn [length] in Ld. lia.
Qed.

Section B32.
Variable MEM : N.
Variable fb : nat -> byte.
Variable fo : nat -> N.
Notation run := (crun (2 ^ 32) MEM fb fo).
Definition at32 (n size : N) (c : cslab) : Prop := fits MEM c (heap n) /\ c_size c = size.

Lemma one_more n size c : at32 n size c -> (n * 1000 + 1000 <= MAX_FILE_SIZE)%N -> (16 <= MEM)%N ->
  (size < n * 1000 + 1000 -> 3 * size < 2 ^ 32 /\ 3 * (n * 1000 + 1000) < 2 ^ 32 /\ 3 * (n * 1000 + 1000) <= 2 * MEM)%N ->
  exists c', at32 (n + 1) (grown size (n * 1000 + 1000)) c' /\ run [UWrite v1000; UFlush (full (n + 1))] c = Ok c'.
Proof.
  intros [F Es] L3 M1 Gr. change (2 ^ 32)%N with 4294967296%N in *. cbn [crun].
  assert (El : c_len c = (n * 1000)%N). { rewrite (f_len _ _ _ F). unfold blen, heap. cbn [sl_data]. rewrite repeat_length. lia. }
  destruct (cslab_write_ok 4294967296 MEM fb fo c (heap n) v1000 (heap (n + 1)) F ltac:(rewrite El, v1000_len; unfold MAX_FILE_SIZE in L3; lia) ltac:(rewrite El, v1000_len, Es; lia) (heap_write n L3)) as [(c1 & E1 & F1 & S1)|[_ X]].
  - rewrite E1. cbn [bind]. rewrite Es, El, v1000_len in S1. pose proof (heap_flush (n + 1) ltac:(lia) ltac:(lia)) as Ef.
    assert (F1' : fits MEM c1 (st_slab (full (n + 1)))) by exact F1.
    assert (Nn : sl_data (st_slab (full (n + 1))) <> []).
    { cbn [full st_slab heap sl_data]. intros Q. apply (f_equal (@length byte)) in Q. rewrite repeat_length in Q. cbn [length] in Q. lia. }
    pose proof (cflush_ok MEM fb fo c1 (full (n + 1)) F1' Nn) as Y. rewrite Ef in Y. destruct Y as (c2 & s1 & E2 & _ & F2).
    rewrite E2. cbn [bind fst snd]. exists c2. split; [|reflexivity]. split; [exact F2|].
    revert E2. unfold cflush. destruct (poke _ _ _); cbn [bind]; try discriminate. destruct (coffset _ _ _ _); cbn [bind]; try discriminate.
    destruct (cflush_loop _ _ _ _ _ _) as [[r s2]| | | |]; cbn [bind]; try discriminate. destruct r; intros E; apply Ok_inj in E; try discriminate E. injection E as <- _. exact S1.
  - exfalso. destruct X as [[X0 X]|X].
    + rewrite Es, El, v1000_len in X0. unfold blen, heap in X. cbn [sl_data] in X. rewrite repeat_length in X. lia.
    + unfold heap in X. cbn [sl_offsets length] in X. lia.
Qed.

Lemma crun_app us vs c : run (us ++ vs) c = (let! c := run us c in run vs c).
Proof.
  revert c. induction us as [|[d|s] us IH]; intros c; cbn [app crun]; [reflexivity| |].
  - destruct (cslab_write _ _ _ _ c d); cbn [bind]; try reflexivity. apply IH.
  - destruct (cflush c s); cbn [bind]; try reflexivity. apply IH.
Qed.
Lemma stubborn_app j : forall n k, stubborn n (j + k) = stubborn n j ++ stubborn (n + N.of_nat j) k.
Proof.
  induction j as [|j IH]; intros n k; cbn [stubborn Nat.add app]; [f_equal; lia|]. rewrite IH. do 4 f_equal. lia.
Qed.
Definition gets (n size : N) : Prop := exists c, run (stubborn 0 (N.to_nat n)) (cslab_init 0 1) = Ok c /\ at32 n size c.
Lemma gets_more n size : gets n size -> (n * 1000 + 1000 <= MAX_FILE_SIZE)%N -> (16 <= MEM)%N ->
  (size < n * 1000 + 1000 -> 3 * size < 2 ^ 32 /\ 3 * (n * 1000 + 1000) < 2 ^ 32 /\ 3 * (n * 1000 + 1000) <= 2 * MEM)%N ->
  gets (n + 1) (grown size (n * 1000 + 1000)).
Proof.
  intros (c & E & A) L M Gr. destruct (one_more n size c A L M Gr) as (c' & A' & E'). exists c'. split; [|exact A'].
  replace (N.to_nat (n + 1)) with (N.to_nat n + 1) by lia. rewrite stubborn_app, crun_app, E. cbn [bind stubborn]. rewrite N2Nat.id, N.add_0_l. exact E'.
Qed.
Lemma gets_stay size : (size <= MAX_FILE_SIZE)%N -> (16 <= MEM)%N -> forall k n, gets n size -> ((n + N.of_nat k) * 1000 <= size)%N -> gets (n + N.of_nat k) size.
Proof.
  intros L M. induction k as [|k IH]; intros n X Q; [rewrite N.add_0_r; exact X|].
  replace (n + N.of_nat (S k))%N with (n + 1 + N.of_nat k)%N in * by lia. apply IH; [|exact Q].
  pose proof (gets_more n size X ltac:(lia) M ltac:(lia)) as Y. unfold grown in Y. replace (size <? n * 1000 + 1000)%N with false in Y by lia. exact Y.
Qed.
Fixpoint climb (k : nat) (n size : N) : option (N * N) :=
  match k with
  | O => Some (n, size)
  | S k =>
    if ((n * 1000 <=? size) && (size + 1000 <? 1431655765))%N
    then climb k (size / 1000 + 1)%N (grown size (size / 1000 * 1000 + 1000)) else None
  end.
Lemma climb_ok : (2147483647 <= MEM)%N -> forall k n size n' size', gets n size -> climb k n size = Some (n', size') -> gets n' size'.
Proof.
  intros M. induction k as [|k IH]; intros n size n' size' X; cbn [climb]; [intros [= <- <-]; exact X|].
  destruct ((n * 1000 <=? size) && (size + 1000 <? 1431655765))%N eqn:Q; [|discriminate]. apply andb_true_iff in Q. destruct Q as [Q1 Q2].
  apply N.leb_le in Q1. apply N.ltb_lt in Q2. apply IH.
  pose proof (N.mul_div_le size 1000 ltac:(lia)) as D1. pose proof (N.mul_succ_div_gt size 1000 ltac:(lia)) as D2.
  assert (Y : gets (size / 1000) size).
  { replace (size / 1000)%N with (n + N.of_nat (N.to_nat (size / 1000 - n)))%N by lia. apply gets_stay; [unfold MAX_FILE_SIZE; lia|lia|exact X|lia]. }
  apply (gets_more _ _ Y); [unfold MAX_FILE_SIZE; lia|lia|]. change (2 ^ 32)%N with 4294967296%N. lia.
Qed.
Lemma gets_0 : gets 0 0.
Proof. exists (cslab_init 0 1). split; [reflexivity|]. split; [|reflexivity]. exact (fits_init MEM 0 1 eq_refl). Qed.

(** The block that is too small. *)
Lemma wraps n size : gets n size -> (1431655766 <= size)%N -> (size <= 2147483647)%N -> (2147483647 <= MEM)%N -> (n * 1000 <= size)%N -> (size < n * 1000 + 1000)%N ->
  (n * 1000 + 1000 <= MAX_FILE_SIZE)%N -> run (stubborn 0 (N.to_nat n + 1)) (cslab_init 0 1) = UB.
Proof.
  intros (c & E & F & Es) L1 L2 M Q1 Q2 Q3. rewrite stubborn_app, crun_app, E. cbn [bind stubborn crun]. clear E.
  assert (El : c_len c = (n * 1000)%N). { rewrite (f_len _ _ _ F). unfold blen, heap. cbn [sl_data]. rewrite repeat_length. lia. }
  assert (Ol : c_olen c <> 0). { intros O. pose proof (f_none _ _ _ F O) as X. apply (f_equal (@length byte)) in X. unfold heap in X. cbn [sl_data] in X. rewrite repeat_length in X. cbn [length] in X. lia. }
  assert (Ep : c_pos c = (n * 1000)%N). { rewrite (f_pos _ _ _ F). reflexivity. }
  enough (X : cslab_write (2 ^ 32) MEM fb fo c v1000 = UB) by (rewrite X; reflexivity).
  unfold cslab_write. change (2 ^ 32)%N with 4294967296%N. rewrite v1000_len. cbv zeta. unfold check. change (1000 <=? MAX_FILE_SIZE)%N with true. cbn match.
  replace (c_olen c =? 0) with false by lia. cbn [bind]. rewrite Ep. unfold MAX_FILE_SIZE in *. replace (2147479552 <? n * 1000 + 1000)%N with false by lia. cbn [bind].
  rewrite El, Es. rewrite (N.mod_small (n * 1000 + 1000) 4294967296) by lia. replace (size <? n * 1000 + 1000)%N with true by lia.
  assert (X1 : ((size * 3) mod 4294967296 = size * 3 - 4294967296)%N). { symmetry. apply (N.mod_unique _ _ 1); lia. }
  assert (X2 : (((n * 1000 + 1000) * 3) mod 4294967296 = (n * 1000 + 1000) * 3 - 4294967296)%N). { symmetry. apply (N.mod_unique _ _ 1); lia. }
  rewrite X1, X2. set (needs := (n * 1000 + 1000)%N) in *.
  assert (Y1 : ((size * 3 - 4294967296) / 2 < needs)%N). { apply N.div_lt_upper_bound; lia. }
  replace ((size * 3 - 4294967296) / 2 <? needs)%N with true by lia.
  set (z := ((needs * 3 - 4294967296) / 2)%N). assert (Y2 : (z < n * 1000)%N). { apply N.div_lt_upper_bound; unfold needs; lia. }
  unfold checked. replace (MEM <? z)%N with false by lia. cbn [bind c_data c_len]. change (0 <? 1000)%N with true. cbn match.
  unfold memcpy. rewrite realloc_length. pose proof v1000_len as Lv. unfold blen in Lv.
  replace (N.to_nat (n * 1000) + length v1000 <=? N.to_nat z) with false by lia. reflexivity.
Qed.
End B32.

Lemma stubborn_used k : forall n, ((n + N.of_nat k) * 1000 <= MAX_FILE_SIZE)%N -> used (rest n) (stubborn n k) (rest (n + N.of_nat k)).
Proof.
  induction k as [|k IH]; intros n L; cbn [stubborn]; [rewrite N.add_0_r; constructor|].
  eapply (us_idle _ (mkstore [[]] (tries n) [] (heap n) meta0 meta0 [] 1 0 [WShort 0])); [repeat split|].
  eapply us_write; [apply heap_write; lia|].
  assert (Ef : set_slab (mkstore [[]] (tries n) [] (heap n) meta0 meta0 [] 1 0 [WShort 0]) (heap (n + 1)) = full (n + 1)).
  { unfold full. replace (n + 1 - 1)%N with n by lia. reflexivity. }
  rewrite Ef. clear Ef.
  eapply us_flush; [|apply heap_flush; lia|].
  - cbn [full st_slab heap sl_data]. intros Q. apply (f_equal (@length byte)) in Q. rewrite repeat_length in Q. cbn [length] in Q. lia.
  - replace (n + N.of_nat (S k))%N with (n + 1 + N.of_nat k)%N by lia. apply IH. lia.
Qed.

(** The uses are possible ones, and the memory (2^31 - 1 bytes for one block) does not run out:
    the size in 202 wraps around, realloc shrinks the block, memcpy in 206 writes behind it.  It
    takes 1455816 rounds. *)
Theorem C65_32bit_refuted :
  exists us s, used (rest 0) us s /\ forall fb fo, crun (2 ^ 32) (2 ^ 31 - 1) fb fo us (cslab_init 0 1) = UB.
Proof.
  exists (stubborn 0 (N.to_nat 1455815 + 1)), (rest (0 + N.of_nat (N.to_nat 1455815 + 1))). split; [apply stubborn_used; unfold MAX_FILE_SIZE; lia|].
  intros fb fo. assert (Ex : climb 35 0 0 = Some (970544, 1455815715)%N) by (vm_compute; reflexivity).
  change (2 ^ 31 - 1)%N with 2147483647%N.
  pose proof (climb_ok 2147483647 fb fo ltac:(lia) 35 0 0 _ _ (gets_0 _ _ _) Ex) as G.
  assert (G2 : gets 2147483647 fb fo 1455815 1455815715).
  { replace 1455815%N with (970544 + N.of_nat (N.to_nat 485271))%N by lia. apply gets_stay; [unfold MAX_FILE_SIZE; lia|lia|exact G|lia]. }
  apply (wraps _ _ _ _ _ G2); try lia. unfold MAX_FILE_SIZE. lia.
Qed.

(** [demo], then a commit that fails after 200 bytes: 342 bytes are pending. *)
Lemma runs_calls w sp cs l w' sp' v0 : calls toy toyC w sp cs l w' sp' -> ~ List.In CReopen cs -> runs toy toyC v0 w -> runs toy toyC v0 w'.
Proof.
  intros P. induction P as [w sp|w sp c a w1 cs l w2 sp2 A E P IH]; intros N R; [exact R|].
  apply IH; [intros X; apply N; right; exact X|]. eapply rn_call; [exact R| |exact E]. intros Ec. apply N. left. exact Ec.
Qed.
Definition held_bytes (w : world) : option nat := match w_db w with Some d => Some (length (sl_data (st_slab (d_store d)))) | None => None end.
Lemma runs_demo : is_none (play w0 spec0 demo) = false -> runs toy toyC w0 (pw demo).
Proof.
  intros E. unfold pw, played. destruct (play w0 spec0 demo) as [[[l w'] sp']|] eqn:Ep; [|discriminate E]. cbn [fst snd].
  eapply (runs_calls w0 spec0 demo); [apply play_ok, Ep| |apply rn_open]. unfold demo. cbn [List.In]. intuition discriminate.
Qed.
Example C65_nonvacuous :
  (exists d, db_open toy toyC dkey [] [] = Ok (Some d) /\ runs toy toyC (mkworld (Some d) []) (pw demo) /\ runs toy toyC (mkworld (Some d) []) fail_a) /\
  held_bytes fail_a = Some 342.
Proof.
  assert (R : runs toy toyC w0 (pw demo)) by (apply runs_demo; vm_compute; reflexivity).
  assert (R2 : runs toy toyC w0 fail_a).
  { eapply rn_call; [apply rn_faults, R| |apply (st_ok (faulty (pw demo) [WShort 200]) (CTxCommit 2) (AErr EBADWRITE)); vm_compute; reflexivity]. discriminate. }
  split; [|vm_compute; reflexivity]. revert R R2. unfold w0.
  destruct (db_open toy toyC dkey [] []) as [[d|]|e| | |] eqn:E; try (vm_compute in E; discriminate E). intros R R2. exists d. auto.
Qed.
Print Assumptions C65_32bit_refuted.
