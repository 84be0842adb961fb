(** * C39, C40: creating a database, and one process at a time. *)
From Verif Require Import Proc Demo.
From Coq Require Import ZifyBool ZifyNat ZifyN.

(** ** C39 *)

(** Directories that attempts to create a database leave, each dying at some point. *)
Inductive born (H : bytes -> bytes) (C : bytes -> bytes -> bytes) : option dir -> Prop :=
| bo_none : born H C None
| bo_died d key ops r d' : born H C d -> length key = 32 -> store_init H C key d = Ok (ops, r) -> dcrash d ops d' -> born H C d'.

(** The key file is missing or complete. *)
Definition key_whole (d : option dir) : Prop :=
  match d with Some d => match dir_meta d with Some m => length m = 32 | None => True end | None => True end.

(** The directories creation goes through. *)
Definition young (d : option dir) : Prop :=
  match d with
  | None => True
  | Some d => match dir_meta d with
              | None => dir_files d = []
              | Some m => length m <= 32 /\ (dir_files d = [] \/ dir_files d = [[]]) /\ (length m < 32 -> dir_files d = [])
              end
  end.

Section S.
Variable H : bytes -> bytes.
Variable C : bytes -> bytes -> bytes.

Lemma open_fresh key fs : fs = [] \/ fs = [[]] -> exists s, store_open H C key fs [] = Ok (Some s) /\ st_fs s = [[]] /\ m_node (st_state s) = NNull /\
  (st_log s = [ONew] /\ fs = [] \/ st_log s = [ODrop; ONew] /\ fs = [[]]).
Proof.
  intros [->| ->].
  - eexists. split; [reflexivity|]. auto.
  - eexists. split; [reflexivity|]. auto.
Qed.

Lemma init_young key d : length key = 32 -> young d -> exists ops r, store_init H C key d = Ok (ops, r) /\
  (key_whole d -> exists s, r = Some s /\ m_node (st_state s) = NNull) /\ (~ key_whole d -> ops = [] /\ r = None) /\
  forall d', dcrash d ops d' -> young d'.
Proof.
  intros Lk Y. destruct d as [[m fs]|]; unfold store_init; cbn [dir_meta dir_files young key_whole] in *.
  - destruct m as [m|].
    + destruct Y as (Lm & Fs & Sh). destruct (Nat.ltb_spec (length m) 32) as [L|L].
      * eexists _, _. split; [reflexivity|]. split; [lia|]. split; [auto|]. intros d' Cr. inversion Cr; subst. cbn. auto.
      * destruct (open_fresh (firstn 32 m) fs Fs) as (s & E & E2 & E3 & Q). rewrite E. cbn [bind]. eexists _, _. split; [reflexivity|].
        split; [intros _; exists s; auto|]. split; [lia|]. cbn [app].
        assert (G : forall fs d', (fs = [] \/ fs = [[]]) -> dcrash (Some (mkdir (Some m) fs)) (map DFile [ONew]) d' -> fs = [] -> young d').
        { intros fs0 d' _ Cr ->. cbn [map] in Cr. inversion Cr as [|?|? fd ? ? ? Ed Cf|? ? ? ? Cr']; subst.
          - cbn. auto.
          - injection Ed as Em Ef. rewrite <- Em. inversion Cf as [|?|? ? ? ? Cf']; subst; [rewrite <- Ef; cbn; auto|]. inversion Cf'; subst. rewrite <- Ef. cbn. split; [auto|]. split; [auto|lia].
          - inversion Cr'; subst. cbn. split; [auto|]. split; [auto|lia]. }
        intros d' Cr. destruct Q as [[Q ->]|[Q ->]]; rewrite Q in Cr.
        -- apply (G [] d'); auto.
        -- cbn [map] in Cr. inversion Cr as [|?|? fd ? ? ? Ed Cf|? ? ? ? Cr']; subst.
           ++ cbn. split; [auto|]. split; [auto|lia].
           ++ injection Ed as Em Ef. rewrite <- Em. inversion Cf as [|?|? ? ? ? Cf']; subst; [rewrite <- Ef; cbn; split; [auto|]; split; [auto|lia]|]. inversion Cf'; subst. rewrite <- Ef. cbn. auto.
           ++ cbn [dapply dir_files dir_meta apply_op removelast] in Cr'. apply (G [] d'); auto.
    + subst fs. destruct (open_fresh key [] (or_introl eq_refl)) as (s & E & E2 & E3 & Q). rewrite E. cbn [bind app]. eexists _, _. split; [reflexivity|].
      split; [intros _; exists s; auto|]. split; [tauto|]. destruct Q as [[Q _]|[_ X]]; [|discriminate X]. rewrite Q. cbn [app map].
      intros d' Cr. inversion Cr as [|?|?|? ? ? ? Cr']; subst; [cbn; auto|]. cbn [dapply dir_files dir_meta] in Cr'.
      inversion Cr' as [|? ? n ?|?|? ? ? ? Cr2]; subst; [cbn; auto with arith| |].
      { cbn. rewrite firstn_length. split; [lia|]. auto. }
      cbn [dapply dir_files dir_meta app] in Cr2. inversion Cr2 as [|?|? fd ? ? ? Ed Cf|? ? ? ? Cr3]; subst.
      * cbn. split; [lia|]. auto.
      * injection Ed as Em Ef. rewrite <- Em. inversion Cf as [|?|? ? ? ? Cf']; subst; [rewrite <- Ef; cbn; split; [lia|]; auto|]. inversion Cf'; subst. rewrite <- Ef. cbn. split; [lia|]. split; [auto|lia].
      * inversion Cr3; subst. cbn. split; [lia|]. split; [auto|lia].
  - destruct (open_fresh key [] (or_introl eq_refl)) as (s & E & E2 & E3 & Q). rewrite E. cbn [bind app]. eexists _, _. split; [reflexivity|].
    split; [intros _; exists s; auto|]. split; [tauto|]. destruct Q as [[Q _]|[_ X]]; [|discriminate X]. rewrite Q. cbn [app map].
    intros d' Cr. inversion Cr as [|?|?|? ? ? ? Cr0]; subst; [exact I|]. cbn [dapply dir_files dir_meta] in Cr0.
    inversion Cr0 as [|?|?|? ? ? ? Cr']; subst; [cbn; auto|]. cbn [dapply dir_files dir_meta] in Cr'.
    inversion Cr' as [|? ? n ?|?|? ? ? ? Cr2]; subst; [cbn; auto with arith| |].
    { cbn. rewrite firstn_length. split; [lia|]. auto. }
    cbn [dapply dir_files dir_meta app] in Cr2. inversion Cr2 as [|?|? fd ? ? ? Ed Cf|? ? ? ? Cr3]; subst.
    * cbn. split; [lia|]. auto.
    * injection Ed as Em Ef. rewrite <- Em. inversion Cf as [|?|? ? ? ? Cf']; subst; [rewrite <- Ef; cbn; split; [lia|]; auto|]. inversion Cf'; subst. rewrite <- Ef. cbn. split; [lia|]. split; [auto|lia].
    * inversion Cr3; subst. cbn. split; [lia|]. split; [auto|lia].
Qed.

Lemma born_young d : born H C d -> young d.
Proof.
  induction 1 as [|d key ops r d' B IH Lk E Cr]; [exact I|].
  destruct (init_young key d Lk IH) as (ops' & r' & E' & _ & _ & Y). rewrite E in E'. injection E' as <- <-. exact (Y d' Cr).
Qed.
End S.

(** However often creation died before: when the key file is not there or complete, the next
    urkel_open succeeds with an empty database.
    Missing: the key file cut short (refuted below). *)
Theorem C39_creation_partial : forall H C d key, born H C d -> length key = 32 -> key_whole d ->
  exists ops s, store_init H C key d = Ok (ops, Some s) /\ m_node (st_state s) = NNull.
Proof.
  intros H C d key B Lk K. destruct (init_young H C key d Lk (born_young H C d B)) as (ops & r & E & R & _ & _).
  destruct (R K) as (s & -> & N). eauto.
Qed.
Print Assumptions C39_creation_partial.

(** Whatever directory urkel_open finds: when it succeeds, the directory it leaves consists of
    the key (the one found, or the new one) and exactly the data files the open store
    works on; no file is touched that it does not know of. *)
Lemma recover_ops C key : forall n fs io fs' ops st last, length fs = n -> recover C key n fs io = Ok (fs', ops, st, last) -> apply_ops fs ops = fs'.
Proof.
  induction n as [|n IH]; intros fs io fs' ops st last L E; cbn [recover] in E.
  - now injection E as <- <- _ _.
  - destruct (if hd false io then Ok None else find_meta C key (fget fs n) (length (fget fs n) / 38)) as [[[m off]|]| | | |]; cbn [bind] in E; try discriminate.
    + injection E as <- <- _ _. reflexivity.
    + destruct (recover C key n (removelast fs) (tl io)) as [[[[fs1 ops1] st1] l1]| | | |] eqn:R; cbn [bind] in E; try discriminate.
      injection E as <- <- _ _. cbn [apply_ops fold_left apply_op]. apply (IH _ _ _ _ _ _) in R; [exact R|].
      destruct fs as [|x fs] using rev_ind; [discriminate|]. rewrite app_length in L. cbn in L. rewrite removelast_last. lia.
Qed.
Lemma read_root_files H s p r s' : read_root H s p = Ok (r, s') -> st_fs s' = st_fs s /\ st_log s' = st_log s /\ st_key s' = st_key s.
Proof.
  unfold read_root. destruct (pidx p =? 0)%N; [intros E; injection E as _ <-; auto|].
  destruct (read_node _ _) as [[n|]| | | |]; cbn [bind]; try discriminate; [|intros E; injection E as _ <-; auto].
  destruct (match n with NLeaf h w k v vp => _ | _ => _ end) as [[n'|]| | | |]; cbn [bind]; try discriminate; [|intros E; injection E as _ <-; auto].
  destruct (node_hash H n') as [[? n2]| | | |]; cbn [bind]; try discriminate. destruct (node_to_hash n2) as [out| | | |]; cbn [bind]; try discriminate.
  destruct (cache_insert _ out) as [c| | | |]; cbn [bind]; try discriminate. intros E; injection E as _ <-. auto.
Qed.
Lemma open_files H C key fs io s : store_open H C key fs io = Ok (Some s) -> apply_ops fs (st_log s) = st_fs s /\ st_key s = key.
Proof.
  unfold store_open. destruct (recover C key (length fs) fs io) as [[[[fs1 ops1] st1] l1]| | | |] eqn:R; cbn [bind]; try discriminate.
  apply recover_ops in R; [|reflexivity].
  set (x := match fs1 with [] => ([[]], ops1 ++ [ONew]) | _ => (fs1, ops1) end).
  assert (X : apply_ops fs (snd x) = fst x).
  { unfold x. destruct fs1; cbn [fst snd]; [|exact R]. unfold apply_ops in *. rewrite fold_left_app, R. reflexivity. }
  destruct x as [fs2 ops2]. cbn [fst snd] in X. unfold check. destruct (_ <? _)%N; [|discriminate].
  destruct (read_root H _ _) as [[[n|] s2]| | | |] eqn:RR; cbn [bind]; try discriminate. intros E. injection E as <-.
  apply read_root_files in RR. cbn [st_fs st_log st_key set_state] in *. destruct RR as (-> & -> & ->). auto.
Qed.
Definition key_found (d : option dir) (key : bytes) : bytes :=
  match d with Some d => match dir_meta d with Some m => m | None => key end | None => key end.
Theorem C39_directory : forall H C key d ops s, length key = 32 -> store_init H C key d = Ok (ops, Some s) ->
  fold_left dapply ops d = Some (mkdir (Some (key_found d key)) (st_fs s)) /\ st_key s = firstn 32 (key_found d key).
Proof.
  intros H C key d ops s Lk. unfold store_init. assert (Fk : firstn 32 key = key) by (rewrite <- Lk; apply firstn_all).
  assert (F : forall k m fs s, store_open H C k fs [] = Ok (Some s) -> fold_left dapply (map DFile (st_log s)) (Some (mkdir m fs)) = Some (mkdir m (st_fs s))).
  { intros k m fs s0 E. apply open_files in E. destruct E as [E _]. rewrite <- E. clear. revert fs. induction (st_log s0) as [|o l IH]; intros fs; [reflexivity|].
    cbn [map fold_left dapply dir_meta dir_files]. rewrite IH. reflexivity. }
  destruct d as [[[m|] fs]|]; cbn [dir_meta dir_files key_found app].
  - destruct (length m <? 32); [discriminate|]. destruct (store_open H C (firstn 32 m) fs []) as [[s0|]| | | |] eqn:E; cbn [bind]; try discriminate.
    intros X. injection X as <- <-. split; [exact (F _ _ _ _ E)|]. exact (proj2 (open_files _ _ _ _ _ _ E)).
  - destruct (store_open H C key fs []) as [[s0|]| | | |] eqn:E; cbn [bind]; try discriminate.
    intros X. injection X as <- <-. cbn [fold_left dapply dir_meta dir_files app]. split; [exact (F _ _ _ _ E)|]. rewrite Fk. exact (proj2 (open_files _ _ _ _ _ _ E)).
  - destruct (store_open H C key [] []) as [[s0|]| | | |] eqn:E; cbn [bind]; try discriminate.
    intros X. injection X as <- <-. cbn [fold_left dapply dir_meta dir_files app]. split; [exact (F _ _ _ _ E)|]. rewrite Fk. exact (proj2 (open_files _ _ _ _ _ _ E)).
Qed.

(** A process dying between creating the key file and writing it leaves a directory that no
    later urkel_open accepts or repairs. *)
Theorem C39_creation_refuted : forall H C (key : bytes), length key = 32 ->
  exists d, born H C d /\ forall key', store_init H C key' d = Ok ([], None).
Proof.
  intros H C key Lk. exists (Some (mkdir (Some []) [])). split; [|reflexivity].
  eapply (bo_died H C None key); [constructor|exact Lk|reflexivity|]. cbn [app map]. apply dc_step. cbn. apply dc_step. cbn. apply dc_now.
Qed.
Print Assumptions C39_creation_refuted.

(** ** C40 *)
Definition inside (s : lockdir) (p : nat) : Prop := exists f, l_proc s p = Inside f.

(** If no process removes the name while another one has the file open, at most one process
    is inside at any time.  Missing: a process that has opened the file just before another
    one leaves (refuted below). *)
Definition calm (s : lockdir) (p : nat) : Prop := l_proc s p = Leaving -> forall q f, q <> p -> l_proc s q <> Opened f /\ l_proc s q <> Inside f.
Theorem C40_one_process_partial : forall s, lrun calm s -> forall p q, inside s p -> inside s q -> p = q.
Proof.
  intros s R.
  assert (G : (forall p f, l_proc s p = Opened f \/ l_proc s p = Inside f -> l_path s = Some f) /\ (forall p q f g, l_proc s p = Inside f -> l_proc s q = Inside g -> p = q)).
  { induction R as [|s p s' R [P M] Ca St]; [split; [intros p f [E|E]; discriminate|intros p q f g E; discriminate]|].
    assert (Out : forall x, (forall f, x <> Opened f /\ x <> Inside f) ->
      (forall p0 f, pset (l_proc s) p x p0 = Opened f \/ pset (l_proc s) p x p0 = Inside f -> l_path s = Some f) /\
      (forall p0 q f g, pset (l_proc s) p x p0 = Inside f -> pset (l_proc s) p x q = Inside g -> p0 = q)).
    { intros x X. unfold pset. split.
      - intros p0 f E. destruct (p0 =? p); [destruct (X f); destruct E; contradiction|eauto].
      - intros p0 q f g E1 E2. destruct (p0 =? p); [destruct (X f); contradiction|]. destruct (q =? p); [destruct (X g); contradiction|eauto]. }
    destruct St as [s p f E Ep|s p E Ep|s p f E Fr|s p f q E Nq Eq|s p f E|s p f E|s p E|s p]; cbn [l_path l_proc].
    - split.
      + intros p0 g. unfold pset. destruct (p0 =? p); [intros [[= <-]|[=]]; exact Ep|apply P].
      + intros p0 q g h. unfold pset. destruct (p0 =? p); [discriminate|]. destruct (q =? p); [discriminate|apply M].
    - split.
      + intros p0 g. unfold pset. destruct (p0 =? p); [intros [[= <-]|[=]]; reflexivity|]. intros X. apply P in X. congruence.
      + intros p0 q g h. unfold pset. destruct (p0 =? p); [discriminate|]. destruct (q =? p); [discriminate|apply M].
    - split.
      + intros p0 g. unfold pset. destruct (p0 =? p); [intros [[=]|[= <-]]; apply (P p); auto|apply P].
      + intros p0 q g h. unfold pset. destruct (Nat.eqb_spec p0 p) as [->|N1]; destruct (Nat.eqb_spec q p) as [->|N2]; auto.
        * intros [= <-] Eq. assert (h = f). { assert (X : l_path s = Some h) by (apply (P q); auto). assert (Y : l_path s = Some f) by (apply (P p); auto). congruence. }
          subst h. destruct (Fr q N2 Eq).
        * intros Eq [= <-]. assert (g = f). { assert (X : l_path s = Some g) by (apply (P p0); auto). assert (Y : l_path s = Some f) by (apply (P p); auto). congruence. }
          subst g. destruct (Fr p0 N1 Eq).
        * apply M.
    - apply Out. intros g. split; discriminate.
    - apply Out. intros g. split; discriminate.
    - apply Out. intros g. split; discriminate.
    - specialize (Ca E). split.
      + intros p0 g. unfold pset. destruct (Nat.eqb_spec p0 p); [intros [|]; discriminate|]. destruct (Ca p0 g n) as [X Y]. intros [|]; contradiction.
      + intros p0 q g h. unfold pset. destruct (p0 =? p); [discriminate|]. destruct (q =? p); [discriminate|apply M].
    - apply Out. intros g. split; discriminate. }
  destruct G as [_ M]. intros p q [f Ef] [g Eg]. eapply M; eassumption.
Qed.
Print Assumptions C40_one_process_partial.

(** The states of a run, forward. *)
Ltac fwd k p c := match goal with R : lrun ?ok ?s |- _ =>
  let R' := fresh "R" in
  assert (R' : exists s', s' = k s /\ lrun ok s') by (eexists; split; [reflexivity|eapply (lr_step ok s p); [exact R|cbn; try exact I; discriminate|c]]);
  clear R; destruct R' as (? & -> & R'); cbn [l_path l_next l_proc] in R' end.
Ltac alone := intros q N; cbn; unfold pset; repeat (match goal with |- context[?a =? ?b] => destruct (Nat.eqb_spec a b) end); try discriminate; congruence.
Definition to_open (p f : nat) (s : lockdir) := mklock (l_path s) (l_next s) (pset (l_proc s) p (Opened f)).
Definition to_new (p : nat) (s : lockdir) := mklock (Some (l_next s)) (S (l_next s)) (pset (l_proc s) p (Opened (l_next s))).
Definition to_in (p f : nat) (s : lockdir) := mklock (l_path s) (l_next s) (pset (l_proc s) p (Inside f)).
Definition to_leave (p : nat) (s : lockdir) := mklock (l_path s) (l_next s) (pset (l_proc s) p Leaving).
Definition to_out (p : nat) (s : lockdir) := mklock None (l_next s) (pset (l_proc s) p Outside).

(** Process 0 closes the database while process 1 is opening it: 1 locks the file 0 removes,
    and 2 then creates and locks another one. *)
Theorem C40_one_process_refuted : exists s, lrun (fun _ _ => True) s /\ inside s 1 /\ inside s 2.
Proof.
  pose proof (lr_start (fun _ _ => True)) as R.
  fwd (to_new 0) 0 ltac:(apply l_open_new; reflexivity).
  fwd (to_in 0 0) 0 ltac:(apply (l_lock _ 0 0); [reflexivity|alone]).
  fwd (to_open 1 0) 1 ltac:(apply (l_open_old _ 1 0); reflexivity).
  fwd (to_leave 0) 0 ltac:(apply (l_close _ 0 0); reflexivity).
  fwd (to_in 1 0) 1 ltac:(apply (l_lock _ 1 0); [reflexivity|alone]).
  fwd (to_out 0) 0 ltac:(apply l_unlink; reflexivity).
  fwd (to_new 2) 2 ltac:(apply l_open_new; reflexivity).
  fwd (to_in 2 1) 2 ltac:(apply (l_lock _ 2 1); [reflexivity|alone]).
  eexists. split; [eassumption|]. split; eexists; reflexivity.
Qed.
Print Assumptions C40_one_process_refuted.

(** A calm run with a process inside. *)
Example c40_witness : exists s, lrun calm s /\ inside s 3.
Proof.
  pose proof (lr_start calm) as R.
  fwd (to_new 3) 3 ltac:(apply l_open_new; reflexivity).
  fwd (to_in 3 0) 3 ltac:(apply (l_lock _ 3 0); [reflexivity|alone]).
  eexists. split; [eassumption|]. eexists; reflexivity.
Qed.
(** Creation died after writing the key: a directory with a
    complete key and no data file. *)
Example c39_witness : born toy toyC (Some (mkdir (Some dkey) [])) /\ key_whole (Some (mkdir (Some dkey) [])).
Proof.
  split; [|reflexivity]. eapply (bo_died toy toyC None dkey); [constructor|reflexivity|reflexivity|]. cbn [app map].
  apply dc_step. apply dc_step. apply dc_step. apply dc_now.
Qed.
