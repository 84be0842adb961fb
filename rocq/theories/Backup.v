(** * Copying the data files of a database that is in use.

    A program outside the library (a backup job) lists the directory of urkel_open, then copies
    the files one after the other, while the process that has the database open goes on writing
    (store.c 528-551 through urkel_file_write, io_posix.c 1155-1185: bytes are appended to the
    last file, a file is created when the last one is full).  The operations of the process are
    those of the model (Store.v); nothing of the library is added here. *)
From Verif Require Export Exec Sim.
From Coq Require Import ZifyBool ZifyNat ZifyN.

(** The two programs: the files, the operations the process will still issue; the numbers of
    the files the copier is about to copy, the part it has of the first of them, and the files
    it has finished. *)
Record copier := mkcopier {
  cp_files : list bytes; cp_ops : list fop;
  cp_todo : list nat; cp_got : bytes; cp_done : list (nat * bytes)
}.

(** How a copier chooses files: with [n] files in the directory and [k] copied it goes on with
    the files of the list. *)
Definition plan := nat -> nat -> list nat -> Prop.
(** List the directory once, then copy what was there, in any order. *)
Definition all_at_once : plan := fun n k t => k = 0 /\ Permutation.Permutation t (seq 0 n).
(** File after file, as long as there is one with the next number. *)
Definition one_by_one : plan := fun n k t => k < n /\ t = [k].

(** One step of either program.  Writes become visible in parts of any length, reads
    return any number of the bytes that are there; a file is finished when a read returns nothing. *)
Inductive copy_step (P : plan) : copier -> copier -> Prop :=
| cp_op fs o ops t g d :
    copy_step P (mkcopier fs (o :: ops) t g d) (mkcopier (apply_op fs o) ops t g d)
| cp_part fs i x y ops t g d :
    copy_step P (mkcopier fs (OApp i (x ++ y) :: ops) t g d) (mkcopier (apply_op fs (OApp i x)) (OApp i y :: ops) t g d)
| cp_list fs ops t d : P (length fs) (length d) t ->
    copy_step P (mkcopier fs ops [] [] d) (mkcopier fs ops t [] d)
| cp_read fs ops i t g d n : 0 < n -> length g + n <= length (fget fs i) ->
    copy_step P (mkcopier fs ops (i :: t) g d)
                (mkcopier fs ops (i :: t) (g ++ firstn n (skipn (length g) (fget fs i))) d)
| cp_eof fs ops i t g d : length (fget fs i) <= length g ->
    copy_step P (mkcopier fs ops (i :: t) g d) (mkcopier fs ops t [] ((i, g) :: d)).
Inductive copying (P : plan) : copier -> copier -> Prop :=
| cg_here c : copying P c c
| cg_step c c1 c2 : copy_step P c c1 -> copying P c1 c2 -> copying P c c2.

(** [B] is a copy made, from some moment of the state with files [D] on, while the
    process issues (some of) [ops]; the copier has found nothing more to copy. *)
Definition backup (P : plan) (D : list bytes) (ops : list fop) (B : list bytes) : Prop :=
  exists fs ops' d, copying P (mkcopier D ops [] [] []) (mkcopier fs ops' [] [] d) /\
    (forall t, ~ P (length fs) (length d) t) /\
    length B = length d /\ forall i, i < length d -> In (i, nth i B []) d.

(** ** What the calls of the API do to the files: append only *)
Definition appending (o : fop) : Prop := match o with OApp _ _ | ONew => True | _ => False end.
Definition grows (s s' : store) : Prop :=
  exists ops, st_log s' = st_log s ++ ops /\ Forall appending ops /\ st_fs s' = apply_ops (st_fs s) ops.
Definition idle (s s' : store) : Prop := st_log s' = st_log s /\ st_fs s' = st_fs s.
Lemma grows_refl s s' : idle s s' -> grows s s'.
Proof. intros [E F]. exists []. rewrite app_nil_r. auto. Qed.
Lemma grows_trans a b c : grows a b -> grows b c -> grows a c.
Proof.
  intros (x & E & F & P) (y & E2 & F2 & P2). exists (x ++ y). rewrite E2, E, app_assoc. split; [reflexivity|]. split; [apply Forall_app; auto|].
  rewrite P2, P. unfold apply_ops. rewrite fold_left_app. reflexivity.
Qed.

Section G.
Variable H : bytes -> bytes.
Hypothesis H_len : forall m, length (H m) = 32.
Variable C : bytes -> bytes -> bytes.
Hypothesis C_len : forall k m, length (C k m) = 20.

Lemma file_write_grows s f d : grows s (snd (file_write s f d)).
Proof.
  unfold file_write. destruct d as [|b d]; [apply grows_refl; split; reflexivity|].
  destruct f; (eexists; split; [cbn [snd st_log set_fs set_cur]; reflexivity|]; split; [repeat constructor|reflexivity]).
Qed.
Lemma store_write_grows s d ok s' : store_write s d = Ok (ok, s') -> grows s s'.
Proof.
  unfold store_write. set (f := match st_io s with x :: _ => x | [] => WOk end). clearbody f. cbv zeta.
  set (s0 := set_io s (tl (st_io s))). assert (G0 : grows s s0) by (apply grows_refl; split; reflexivity). clearbody s0.
  destruct (MAX_FILE_SIZE <? _)%N.
  - set (s1 := if (N.of_nat (length (st_fs s0)) <? st_index s0 + 1)%N then set_fs s0 (st_fs s0 ++ [[]]) [ONew] else s0).
    assert (G1 : grows s s1).
    { eapply grows_trans; [exact G0|]. unfold s1. destruct (_ <? _)%N; [|apply grows_refl; split; reflexivity].
      exists [ONew]. split; [reflexivity|]. split; [repeat constructor|reflexivity]. }
    clearbody s1. unfold check. intros E.
    assert (X : (ok, s') = (false, s0) \/ (ok, s') = (false, s1) \/ exists g f0 x, (ok, s') = file_write g f0 x /\ idle s1 g).
    { destruct f; try (apply Ok_inj in E; injection E as <- <-; auto; fail); destruct (_ <? MAX_FILES)%N; try discriminate E;
        apply Ok_inj in E; try (injection E as <- <-; auto; fail); right; right; symmetry in E; eexists _, _, _; (split; [exact E|split; reflexivity]). }
    destruct X as [X|[X|(g & f0 & x & X & L & Lf)]]; [injection X as -> ->; exact G0|injection X as -> ->; exact G1|].
    eapply grows_trans; [exact G1|]. pose proof (file_write_grows g f0 x) as G2. rewrite <- X in G2. cbn [snd] in G2.
    destruct G2 as (o & E2 & F2 & P2). exists o. rewrite E2, L, P2, Lf. auto.
  - intros E. apply Ok_inj in E. eapply grows_trans; [exact G0|]. pose proof (file_write_grows s0 f d) as G2. rewrite E in G2. exact G2.
Qed.
Lemma flush_loop_grows cs : forall s i d r s', flush_loop s i cs d = Ok (r, s') -> grows s s'.
Proof.
  induction cs as [|n cs IH]; intros s i d r s'; cbn [flush_loop].
  - intros E. apply Ok_inj in E. injection E as <- <-. apply grows_refl. split; reflexivity.
  - destruct (store_write s (firstn n d)) as [[ok s1]| | | |] eqn:Ew; cbn [bind]; try discriminate.
    pose proof (store_write_grows _ _ _ _ Ew) as G1. destruct ok; intros E.
    + eapply grows_trans; [exact G1|]. eapply IH, E.
    + apply Ok_inj in E. injection E as <- <-. exact G1.
Qed.
Lemma flush_grows s r s' : store_flush s = Ok (r, s') -> grows s s'.
Proof.
  unfold store_flush. cbv zeta. destruct (flush_loop s _ _ _) as [[o s1]| | | |] eqn:El; cbn [bind]; try discriminate.
  pose proof (flush_loop_grows _ _ _ _ _ _ El) as G1. intros E.
  destruct o; apply Ok_inj in E; injection E as <- <-; (eapply grows_trans; [exact G1|]; apply grows_refl; split; reflexivity).
Qed.
Lemma write_node_log s n m s' : write_node s n = Ok (m, s') -> idle s s'.
Proof.
  unfold write_node. destruct (node_write n) as [raw| | | |]; try discriminate. cbn [bind].
  destruct n as [|h w p l r|h w k v vp|h w]; try discriminate; destruct w as [w|]; try discriminate;
    destruct (slab_write (st_slab s) raw) as [sl| | | |]; try discriminate; cbn [bind]; intros E; apply Ok_inj in E; injection E as <- <-; split; reflexivity.
Qed.
Lemma write_value_log s n m s' : write_value s n = Ok (m, s') -> idle s s'.
Proof.
  unfold write_value. destruct n as [|h w p l r|h w k [v|] [vp|]|h w]; try discriminate;
    destruct (slab_write (st_slab s) v) as [sl| | | |]; try discriminate; cbn [bind]; intros E; apply Ok_inj in E; injection E as <- <-; split; reflexivity.
Qed.
Lemma write_meta_log s n m s' : write_meta C s n = Ok (m, s') -> idle s s'.
Proof.
  unfold write_meta. destruct (written n) as [w|]; [|discriminate].
  destruct (node_to_hash n) as [rn| | | |]; try discriminate. cbn [bind].
  destruct (if (sl_pos (st_slab s) mod 38 =? 0)%N then _ else _) as [sl| | | |]; try discriminate. cbn [bind].
  destruct (slab_write sl _) as [sl2| | | |]; try discriminate. cbn [bind]. intros E. apply Ok_inj in E. injection E as <- <-. split; reflexivity.
Qed.
Lemma finish_grows (n : node) s r s' :
  (let! (n, s, ok) := (if needs_flush s then let! (ok, s) := store_flush s in Ok (n, s, ok) else Ok (n, s, true)) in
   if negb ok then Ok (None, s) else
   let! (_, n) := node_hash H n in let! out := node_to_hash n in Ok (Some out, s)) = Ok (r, s') -> grows s s'.
Proof.
  intros E.
  assert (X : exists m t ok, (if needs_flush s then let! (ok, s) := store_flush s in Ok (n, s, ok) else Ok (n, s, true)) = Ok (m, t, ok) /\ grows s t).
  { destruct (needs_flush s); [|eexists _, _, _; split; [reflexivity|]; apply grows_refl; split; reflexivity].
    destruct (store_flush s) as [[ok t]| | | |] eqn:Ef; cbn [bind] in *; try discriminate E.
    eexists _, _, _. split; [reflexivity|]. eapply flush_grows, Ef. }
  destruct X as (m & t & ok & Em & G). rewrite Em in E. cbn [bind] in E. destruct ok; cbn [negb] in E.
  - destruct (node_hash H m) as [[h m2]| | | |]; cbn [bind] in E; try discriminate E.
    destruct (node_to_hash m2) as [o| | | |]; cbn [bind] in E; try discriminate E. apply Ok_inj in E. injection E as <- <-. exact G.
  - apply Ok_inj in E. injection E as <- <-. exact G.
Qed.
Lemma tree_write_grows n : forall s r s', tree_write H s n = Ok (r, s') -> grows s s'.
Proof.
  induction n as [|h w p l IHl r IHr|h w k v vp|h w]; intros s r0 s'; cbn [tree_write].
  - intros E. apply Ok_inj in E. injection E as <- <-. apply grows_refl. split; reflexivity.
  - destruct (tree_write H s l) as [[l' s1]| | | |] eqn:El; cbn [bind]; try discriminate. pose proof (IHl _ _ _ El) as G1.
    destruct l' as [l'|]. 2:{ intros E. apply Ok_inj in E. injection E as <- <-. exact G1. }
    destruct (tree_write H s1 r) as [[r' s2]| | | |] eqn:Er; cbn [bind]; try discriminate. pose proof (grows_trans _ _ _ G1 (IHr _ _ _ Er)) as G2.
    destruct r' as [r'|]. 2:{ intros E. apply Ok_inj in E. injection E as <- <-. exact G2. }
    cbv zeta. destruct w as [w|].
    + cbn [bind negb]. intros E. destruct (node_hash H _) as [[h2 m2]| | | |]; cbn [bind] in E; try discriminate E.
      destruct (node_to_hash m2) as [o| | | |]; cbn [bind] in E; try discriminate E. apply Ok_inj in E. injection E as <- <-. exact G2.
    + destruct (write_node s2 _) as [[n1 s3]| | | |] eqn:Ew; cbn [bind]; try discriminate. intros E.
      apply finish_grows in E. eapply grows_trans; [exact G2|]. eapply grows_trans; [apply grows_refl, (write_node_log _ _ _ _ Ew)|exact E].
  - destruct w as [w|].
    + cbn [bind negb]. intros E. destruct (node_hash H _) as [[h2 m2]| | | |]; cbn [bind] in E; try discriminate E.
      destruct (node_to_hash m2) as [o| | | |]; cbn [bind] in E; try discriminate E. apply Ok_inj in E. injection E as <- <-. apply grows_refl. split; reflexivity.
    + destruct (write_value s _) as [[n1 s1]| | | |] eqn:Ev; cbn [bind]; try discriminate.
      destruct (write_node s1 n1) as [[n2 s2]| | | |] eqn:Ew; cbn [bind]; try discriminate. intros E.
      apply finish_grows in E. eapply grows_trans; [apply grows_refl, (write_value_log _ _ _ _ Ev)|].
      eapply grows_trans; [apply grows_refl, (write_node_log _ _ _ _ Ew)|exact E].
  - intros E. apply Ok_inj in E. injection E as <- <-. apply grows_refl. split; reflexivity.
Qed.
Lemma tree_commit_grows s n r s' : tree_commit H C s n = Ok (r, s') -> grows s s'.
Proof.
  unfold tree_commit. destruct (tree_write H s n) as [[o s1]| | | |] eqn:Et; cbn [bind]; try discriminate.
  pose proof (tree_write_grows _ _ _ _ Et) as G1. destruct o as [root|]. 2:{ intros E. apply Ok_inj in E. injection E as <- <-. exact G1. }
  unfold store_commit. destruct (write_meta C s1 root) as [[mt s2]| | | |] eqn:Em; cbn [bind]; try discriminate.
  pose proof (write_meta_log _ _ _ _ Em) as L2. destruct (store_flush s2) as [[ok s3]| | | |] eqn:Ef; cbn [bind]; try discriminate.
  assert (G3 : grows s s3) by (eapply grows_trans; [exact G1|]; eapply grows_trans; [apply grows_refl, L2|eapply flush_grows, Ef]).
  destruct ok; cbn [negb].
  - destruct (m_node mt); try (destruct (cache_insert _ _) as [cc| | | |]); cbn [bind]; try discriminate;
      intros E; apply Ok_inj in E; injection E as <- <-; (eapply grows_trans; [exact G3|]; apply grows_refl; split; reflexivity).
  - cbn [bind]. intros E. apply Ok_inj in E. injection E as <- <-. exact G3.
Qed.
Lemma read_root_log s p r s' : read_root H s p = Ok (r, s') -> idle s s'.
Proof.
  unfold read_root. destruct (pidx p =? 0)%N. { intros E. apply Ok_inj in E. injection E as <- <-. split; reflexivity. }
  destruct (read_node (st_rd s) p) as [[n|]| | | |]; cbn [bind]; try discriminate.
  2:{ intros E. apply Ok_inj in E. injection E as <- <-. split; reflexivity. }
  match goal with |- context [let! n := ?x in _] => destruct x as [[m|]| | | |] end; cbn [bind]; try discriminate.
  2:{ intros E. apply Ok_inj in E. injection E as <- <-. split; reflexivity. }
  destruct (node_hash H m) as [[h m2]| | | |]; cbn [bind]; try discriminate.
  destruct (node_to_hash m2) as [o| | | |]; cbn [bind]; try discriminate.
  destruct (cache_insert (st_cache s) o) as [cc| | | |]; cbn [bind]; try discriminate.
  intros E. apply Ok_inj in E. injection E as <- <-. split; reflexivity.
Qed.
Lemma history_loop_log fuel : forall s h r s', history_loop H C fuel s h = Ok (r, s') -> idle s s'.
Proof.
  induction fuel as [|fuel IH]; intros s h r s'; cbn [history_loop]; [discriminate|].
  destruct (pidx _ =? 0)%N. { intros E. apply Ok_inj in E. injection E as <- <-. split; reflexivity. }
  destruct (read_meta C s _) as [[m|]| | | |]; cbn [bind]; try discriminate.
  2:{ intros E. apply Ok_inj in E. injection E as <- <-. split; reflexivity. }
  destruct (read_root H s (m_root m)) as [[o s1]| | | |] eqn:Er; cbn [bind]; try discriminate. pose proof (read_root_log _ _ _ _ Er) as L1.
  destruct o as [n|]. 2:{ intros E. apply Ok_inj in E. injection E as <- <-. exact L1. }
  cbv zeta. destruct (bytes_eqb _ h). { intros E. apply Ok_inj in E. injection E as <- <-. exact L1. }
  intros E. destruct (IH _ _ _ _ E) as [X1 X2]. destruct L1 as [Y1 Y2]. split; [rewrite X1; exact Y1|rewrite X2; exact Y2].
Qed.
Lemma read_history_log s h r s' : read_history H C s h = Ok (r, s') -> idle s s'.
Proof.
  unfold read_history. destruct (bytes_eqb h zero_hash). { intros E. apply Ok_inj in E. injection E as <- <-. split; reflexivity. }
  destruct (bytes_eqb h _). { intros E. apply Ok_inj in E. injection E as <- <-. split; reflexivity. }
  destruct (cache_lookup _ h). { intros E. apply Ok_inj in E. injection E as <- <-. split; reflexivity. }
  apply history_loop_log.
Qed.
Lemma tx_create_log d ro r d' : tx_create H C d ro = Ok (r, d') -> idle (d_store d) (d_store d').
Proof.
  unfold tx_create. destruct ro as [h|].
  - destruct (read_history H C (d_store d) h) as [[o s]| | | |] eqn:Er; cbn [bind]; try discriminate. intros E. apply Ok_inj in E. injection E as <- <-.
    exact (read_history_log _ _ _ _ Er).
  - destruct (d_revert d). 2:{ intros E. apply Ok_inj in E. injection E as <- <-. split; reflexivity. }
    destruct (read_history H C (d_store d) _) as [[o s]| | | |] eqn:Er; cbn [bind]; try discriminate. intros E. apply Ok_inj in E. injection E as <- <-.
    exact (read_history_log _ _ _ _ Er).
Qed.
Lemma tx_commit_grows d n a d' t : tx_commit H C d n = Ok (a, d', t) -> grows (d_store d) (d_store d').
Proof.
  unfold tx_commit. destruct (tree_commit H C (d_store d) n) as [[o s]| | | |] eqn:Et; cbn [bind]; try discriminate.
  pose proof (tree_commit_grows _ _ _ _ Et) as G. destruct o; intros E; apply Ok_inj in E; injection E as <- <- <-; exact G.
Qed.
Lemma db_write_grows op d a d' : db_write H C op d = Ok (a, d') -> grows (d_store d) (d_store d').
Proof.
  unfold db_write. destruct (tx_create H C d None) as [[o d1]| | | |] eqn:Et; cbn [bind]; try discriminate.
  pose proof (tx_create_log _ _ _ _ Et) as L1. destruct o as [n|]. 2:{ intros E. apply Ok_inj in E. injection E as <- <-. apply grows_refl, L1. }
  destruct (op d1 n) as [[b m]| | | |]; cbn [bind]; try discriminate.
  destruct b; try (intros E; apply Ok_inj in E; injection E as <- <-; apply grows_refl, L1).
  destruct (tx_commit H C d1 m) as [[[b d2] t]| | | |] eqn:Ec; cbn [bind]; try discriminate.
  destruct t; try discriminate. intros E. apply Ok_inj in E. injection E as <- <-.
  eapply grows_trans; [apply grows_refl, L1|eapply tx_commit_grows, Ec].
Qed.

Lemma db_inject_log d h a d' : db_inject H C d h = Ok (a, d') -> idle (d_store d) (d_store d').
Proof.
  unfold db_inject. destruct (read_history H C (d_store d) h) as [[o s]| | | |] eqn:Er; cbn [bind]; try discriminate.
  pose proof (read_history_log _ _ _ _ Er) as L. destruct o; intros E; try discriminate E; apply Ok_inj in E; injection E as <- <-; exact L.
Qed.
Lemma tx_inject_log d n h a d' m : tx_inject H C d n h = Ok (a, d', m) -> idle (d_store d) (d_store d').
Proof.
  unfold tx_inject. destruct (read_history H C (d_store d) h) as [[o s]| | | |] eqn:Er; cbn [bind]; try discriminate.
  pose proof (read_history_log _ _ _ _ Er) as L. destruct o; intros E; try discriminate E; apply Ok_inj in E; injection E as <- <- <-; exact L.
Qed.
Lemma db_read_log f d ro a d' : db_read H C f d ro = Ok (a, d') -> idle (d_store d) (d_store d').
Proof.
  unfold db_read. destruct (tx_create H C d ro) as [[o d1]| | | |] eqn:Et; cbn [bind]; try discriminate.
  pose proof (tx_create_log _ _ _ _ Et) as L. destruct o as [n|].
  - destruct (f d1 n) as [b| | | |]; cbn [bind]; try discriminate. intros E. apply Ok_inj in E. injection E as <- <-. exact L.
  - intros E. apply Ok_inj in E. injection E as <- <-. exact L.
Qed.

(** Any call on any database, whatever fails. *)
Local Opaque TREE_FUEL.
Lemma bind_ok {A B} (x : A) (f : A -> res B) : bind (Ok x) f = f x.
Proof. reflexivity. Qed.
Lemma step_grows w c a w1 : c <> CReopen -> step H C w c = Ok (a, w1) ->
  exists d d1, w_db w = Some d /\ w_db w1 = Some d1 /\ grows (d_store d) (d_store d1).
Proof.
  intros Nc. unfold step. destruct (w_db w) as [d|] eqn:Ew; [|discriminate]. intros E. exists d.
  assert (R : grows (d_store d) (d_store d)) by (apply grows_refl; split; reflexivity).
  destruct c; try congruence;
    repeat match type of E with
    | (let! _ := live ?w ?i in _) = _ => destruct (live w i) as [n| | | |]; rewrite ?bind_ok in E; try discriminate E
    end.
  - apply Ok_inj in E. injection E as <- <-. exists d. auto.
  - destruct (db_inject H C d h) as [[b d1]| | | |] eqn:Eb; rewrite ?bind_ok in E; try discriminate E. apply Ok_inj in E. injection E as <- <-.
    exists d1. split; [reflexivity|]. split; [reflexivity|]. eapply grows_refl, db_inject_log, Eb.
  - destruct (db_read H C _ d ro) as [[b d1]| | | |] eqn:Eb; rewrite ?bind_ok in E; try discriminate E. apply Ok_inj in E. injection E as <- <-.
    exists d1. split; [reflexivity|]. split; [reflexivity|]. eapply grows_refl, db_read_log, Eb.
  - destruct (db_read H C _ d ro) as [[b d1]| | | |] eqn:Eb; rewrite ?bind_ok in E; try discriminate E. apply Ok_inj in E. injection E as <- <-.
    exists d1. split; [reflexivity|]. split; [reflexivity|]. eapply grows_refl, db_read_log, Eb.
  - destruct (db_write H C _ d) as [[b d1]| | | |] eqn:Eb; rewrite ?bind_ok in E; try discriminate E. apply Ok_inj in E. injection E as <- <-.
    exists d1. split; [reflexivity|]. split; [reflexivity|]. eapply db_write_grows, Eb.
  - destruct (db_write H C _ d) as [[b d1]| | | |] eqn:Eb; rewrite ?bind_ok in E; try discriminate E. apply Ok_inj in E. injection E as <- <-.
    exists d1. split; [reflexivity|]. split; [reflexivity|]. eapply db_write_grows, Eb.
  - destruct (db_read H C _ d ro) as [[b d1]| | | |] eqn:Eb; rewrite ?bind_ok in E; try discriminate E. apply Ok_inj in E. injection E as <- <-.
    exists d1. split; [reflexivity|]. split; [reflexivity|]. eapply grows_refl, db_read_log, Eb.
  - destruct (tx_create H C d ro) as [[b d1]| | | |] eqn:Eb; rewrite ?bind_ok in E; try discriminate E.
    destruct b; apply Ok_inj in E; injection E as <- <-; exists d1; (split; [reflexivity|]; split; [reflexivity|]; eapply grows_refl, tx_create_log, Eb).
  - apply Ok_inj in E. injection E as <- <-. exists d. auto.
  - apply Ok_inj in E. injection E as <- <-. exists d. auto.
  - destruct (tx_root H n) as [[b m]| | | |]; rewrite ?bind_ok in E; try discriminate E. apply Ok_inj in E. injection E as <- <-. exists d. auto.
  - destruct (tx_inject H C d n h) as [[[b d1] m]| | | |] eqn:Eb; rewrite ?bind_ok in E; try discriminate E. apply Ok_inj in E. injection E as <- <-.
    exists d1. split; [reflexivity|]. split; [reflexivity|]. eapply grows_refl, tx_inject_log, Eb.
  - destruct (tx_get d n k) as [b| | | |]; rewrite ?bind_ok in E; try discriminate E. apply Ok_inj in E. injection E as <- <-. exists d. auto.
  - destruct (tx_has d n k) as [b| | | |]; rewrite ?bind_ok in E; try discriminate E. apply Ok_inj in E. injection E as <- <-. exists d. auto.
  - destruct (tx_insert H d n k v) as [[b m]| | | |]; rewrite ?bind_ok in E; try discriminate E. apply Ok_inj in E. injection E as <- <-. exists d. auto.
  - destruct (tx_remove d n k) as [[b m]| | | |]; rewrite ?bind_ok in E; try discriminate E. apply Ok_inj in E. injection E as <- <-. exists d. auto.
  - destruct (tx_prove H d n k) as [[b m]| | | |]; rewrite ?bind_ok in E; try discriminate E. apply Ok_inj in E. injection E as <- <-. exists d. auto.
  - destruct (tx_commit H C d n) as [[[b d1] t]| | | |] eqn:Eb; rewrite ?bind_ok in E; try discriminate E. apply Ok_inj in E. injection E as <- <-.
    exists d1. split; [reflexivity|]. split; [reflexivity|]. eapply tx_commit_grows, Eb.
Qed.
Lemma step_appends w c a w1 : c <> CReopen -> step H C w c = Ok (a, w1) ->
  exists ops, log w1 = log w ++ ops /\ Forall appending ops /\ files w1 = apply_ops (files w) ops.
Proof.
  intros Nc E. destruct (step_grows _ _ _ _ Nc E) as (d & d1 & E1 & E2 & ops & G1 & G2 & G3).
  exists ops. unfold log, files. rewrite E1, E2. auto.
Qed.
Lemma trail_grows key w sp l w1 sp1 : trail (move H C) w sp l w1 sp1 -> sim H C key w sp -> quiet w -> s_failed sp = false ->
  exists ops, log w1 = log w ++ ops /\ Forall appending ops.
Proof.
  intros T. induction T as [w sp|w sp w1 sp1 l w2 sp2 M T IH]; intros S Q Fa.
  - exists []. rewrite app_nil_r. auto.
  - destruct (keeps_move H H_len C C_len key _ _ _ _ S Q Fa M) as (S1 & Q1 & F1 & _).
    destruct M as (c & a & A & Nc & E & _). destruct (step_appends _ _ _ _ Nc E) as (o1 & L1 & A1 & _).
    destruct (IH S1 Q1 F1) as (o2 & L2 & A2). exists (o1 ++ o2). rewrite L2, L1, app_assoc. split; [reflexivity|]. apply Forall_app. auto.
Qed.
End G.

(** ** Listing the directory once *)
Lemma upd_more (fs : list bytes) x : forall i j, exists y, nth j (upd fs i (nth i fs [] ++ x)) [] = nth j fs [] ++ y.
Proof.
  induction fs as [|f fs IH]; intros i j.
  - exists []. rewrite app_nil_r. destruct i; reflexivity.
  - destruct i as [|i].
    + cbn [upd nth]. destruct j as [|j]; cbn [nth]; [exists x|exists []; rewrite app_nil_r]; reflexivity.
    + cbn [upd nth]. destruct j as [|j]; cbn [nth]; [exists []; rewrite app_nil_r; reflexivity|apply IH].
Qed.
Lemma within_refl fs : within fs fs.
Proof. split; [lia|]. intros i. exists []. now rewrite app_nil_r. Qed.
Lemma within_trans a b c : within a b -> within b c -> within a c.
Proof.
  intros [L1 P1] [L2 P2]. split; [lia|]. intros i. destruct (P1 i) as (x & E1), (P2 i) as (y & E2). exists (x ++ y). rewrite E2, E1, app_assoc. reflexivity.
Qed.
Lemma apply_within fs o : appending o -> within fs (apply_op fs o).
Proof.
  destruct o as [|i x|i n|]; try contradiction; intros _; cbn [apply_op]; split.
  - rewrite app_length. cbn [length]. lia.
  - intros i. exists []. rewrite app_nil_r. destruct (Nat.lt_ge_cases i (length fs)) as [L|L]; [now rewrite app_nth1|].
    rewrite app_nth2 by exact L. rewrite (nth_overflow fs) by exact L. destruct (i - length fs) as [|[|k]]; reflexivity.
  - rewrite Prelude.upd_length. lia.
  - intros j. unfold fget. apply upd_more.
Qed.
Lemma crash_within fs ops A : crash fs ops A -> Forall appending ops -> within fs A.
Proof.
  induction 1 as [fs ops|fs i x n ops|fs o ops A Cr IH]; intros F; [apply within_refl|apply apply_within; exact I|].
  inversion F; subst. eapply within_trans; [apply apply_within; eassumption|]. apply IH. assumption.
Qed.
Lemma app_twice x z : forall (l : list bytes) i, i < length l -> apply_op (apply_op l (OApp i x)) (OApp i z) = apply_op l (OApp i (x ++ z)).
Proof.
  cbn [apply_op]. unfold fget. induction l as [|f l IH]; intros i L; cbn [length] in L; [lia|].
  destruct i as [|i]; cbn [upd nth]; [now rewrite app_assoc|]. f_equal. apply IH. lia.
Qed.
Lemma crash_split fs i x y ops A : crash (apply_op fs (OApp i x)) (OApp i y :: ops) A -> i < length fs -> crash fs (OApp i (x ++ y) :: ops) A.
Proof.
  intros Cr L. assert (Two : forall z, apply_op (apply_op fs (OApp i x)) (OApp i z) = apply_op fs (OApp i (x ++ z))) by (intros z; apply app_twice, L).
  inversion Cr; subst.
  - pose proof (crash_torn fs i (x ++ y) (length x) ops) as T. rewrite firstn_app, Nat.sub_diag, firstn_all, firstn_O, app_nil_r in T. exact T.
  - pose proof (crash_torn fs i (x ++ y) (length x + n) ops) as T. rewrite firstn_app, firstn_all2 in T by lia.
    replace (length x + n - length x) with n in T by lia. rewrite Two. exact T.
  - apply crash_later. rewrite <- Two. assumption.
Qed.
Lemma crash_split_gen fs i x y ops A : crash (apply_op fs (OApp i x)) (OApp i y :: ops) A -> crash fs (OApp i (x ++ y) :: ops) A.
Proof.
  intros Cr. destruct (Nat.lt_ge_cases i (length fs)) as [L|L]; [apply crash_split; assumption|].
  assert (Z : forall (l : list bytes) j z, length l <= j -> upd l j z = l).
  { induction l as [|f l IH]; intros [|j] z Lj; cbn [length upd] in *; try lia; try reflexivity. f_equal. apply IH. lia. }
  assert (E : apply_op fs (OApp i x) = fs) by (cbn [apply_op]; apply Z, L). rewrite E in Cr.
  inversion Cr; subst; [constructor| |].
  - cbn [apply_op]. rewrite Z by exact L. constructor.
  - apply crash_later. cbn [apply_op] in *. rewrite Z in * by exact L. assumption.
Qed.

Section Copy.
Variable H : bytes -> bytes.
Hypothesis H_len : forall m, length (H m) = 32.
Variable C : bytes -> bytes -> bytes.
Hypothesis C_len : forall k m, length (C k m) = 20.
Variables D V : list bytes.

(** The files at any time lie between [D] and [V]. *)
Definition under_way (fs : list bytes) (ops : list fop) : Prop :=
  Forall appending ops /\ forall A, crash fs ops A -> cutof D A /\ cutof fs A /\ cutof A V.
Lemma way_op fs o ops : under_way fs (o :: ops) -> under_way (apply_op fs o) ops /\ cutof fs (apply_op fs o).
Proof.
  intros [F Cu]. inversion F as [|? ? Ao Fo]; subst.
  assert (C0 : crash fs (o :: ops) (apply_op fs o)) by (apply crash_later, crash_here).
  destruct (Cu _ C0) as (X1 & X2 & X3). split; [|exact X2]. split; [exact Fo|]. intros A Cr.
  destruct (Cu A (crash_later _ _ _ _ Cr)) as (Y1 & Y2 & Y3). split; [exact Y1|]. split; [|exact Y3].
  eapply (within_cut H H_len C C_len); [exact X3|exact Y3|]. eapply crash_within; eassumption.
Qed.
Lemma way_part fs i x y ops : under_way fs (OApp i (x ++ y) :: ops) ->
  under_way (apply_op fs (OApp i x)) (OApp i y :: ops) /\ cutof fs (apply_op fs (OApp i x)).
Proof.
  intros [F Cu]. inversion F as [|? ? Ao Fo]; subst.
  assert (C0 : crash fs (OApp i (x ++ y) :: ops) (apply_op fs (OApp i x))) by (apply crash_split_gen, crash_here).
  destruct (Cu _ C0) as (X1 & X2 & X3). split; [|exact X2]. split; [constructor; [exact I|exact Fo]|]. intros A Cr.
  destruct (Cu A (crash_split_gen _ _ _ _ _ _ Cr)) as (Y1 & Y2 & Y3). split; [exact Y1|]. split; [|exact Y3].
  eapply (within_cut H H_len C C_len); [exact X3|exact Y3|]. eapply crash_within; [exact Cr|]. constructor; [exact I|exact Fo].
Qed.

(** What the copier has of the [n] files it has listed: all but the newest are as they are
    now, the newest is the beginning of what it is now. *)
Definition copied (fs : list bytes) (n i : nat) (g : bytes) : Prop :=
  i < n /\ (S i < n -> g = nth i fs []) /\ (exists x, nth i fs [] = g ++ x) /\ (exists x, g = nth i D [] ++ x).
Definition state (c : copier) : Prop :=
  under_way (cp_files c) (cp_ops c) /\
  ((cp_todo c = [] /\ cp_got c = [] /\ cp_done c = []) \/
   exists n, 0 < n /\ length D <= n <= length (cp_files c) /\ length (cp_todo c) + length (cp_done c) = n /\
     Forall (fun i => i < n) (cp_todo c) /\ (forall i g, In (i, g) (cp_done c) -> copied (cp_files c) n i g) /\
     exists x, nth (hd 0 (cp_todo c)) (cp_files c) [] = cp_got c ++ x).
Lemma closed fs fs' i : cutof fs fs' -> S i < length fs -> nth i fs' [] = nth i fs [].
Proof.
  intros (b & f & x & c & -> & ->) L. rewrite app_length in L. cbn [length] in L. rewrite !app_nth1 by lia. reflexivity.
Qed.
Lemma longer fs fs' i : cutof fs fs' -> exists x, nth i fs' [] = nth i fs [] ++ x.
Proof. intros Cu. apply (cut_within H H_len C C_len), Cu. Qed.
Lemma state_write fs ops fs' ops' t g d : state (mkcopier fs ops t g d) -> under_way fs' ops' -> cutof fs fs' ->
  state (mkcopier fs' ops' t g d).
Proof.
  intros [_ S] W Cu. split; [exact W|]. cbn [cp_todo cp_files cp_ops cp_got cp_done] in *. destruct S as [S|S]; [left; exact S|right].
  destruct S as (n & Pn & Ln & Lt & Ft & Cd & x & Ex). exists n.
  pose proof (proj1 (cut_within H H_len C C_len _ _ Cu)) as Le.
  split; [exact Pn|]. split; [lia|]. split; [exact Lt|]. split; [exact Ft|]. split.
  { intros i g0 I0. destruct (Cd i g0 I0) as (A1 & A2 & (y & A4) & A5). split; [exact A1|]. split; [|split; [|exact A5]].
    - intros Q. rewrite (closed _ _ _ Cu) by lia. auto.
    - destruct (longer _ _ i Cu) as (z & Ez). exists (y ++ z). rewrite Ez, A4, app_assoc. reflexivity. }
  destruct (longer _ _ (hd 0 t) Cu) as (z & Ez). exists (x ++ z). rewrite Ez, Ex, app_assoc. reflexivity.
Qed.
Lemma state_step c c' : copy_step all_at_once c c' -> state c -> state c'.
Proof.
  destruct 1 as [fs o ops t g d|fs i x y ops t g d|fs ops t d [K Pt]|fs ops i t g d n Ln Lb|fs ops i t g d Lb]; intros S.
  - destruct (way_op _ _ _ (proj1 S)) as [W Cu]. eapply state_write; eassumption.
  - destruct (way_part _ _ _ _ _ (proj1 S)) as [W Cu]. eapply state_write; eassumption.
  - destruct S as [W _]. cbn [cp_todo cp_files cp_ops cp_got cp_done] in *. split; [exact W|]. right.
    cbn [cp_todo cp_files cp_ops cp_got cp_done] in *. destruct d; [|discriminate K]. exists (length fs).
    destruct (proj2 W fs (crash_here _ _)) as (Y & _). pose proof (proj1 (cut_within H H_len C C_len _ _ Y)).
    assert (0 < length fs) by (destruct (cutof_nonnil _ _ Y) as [_ N]; destruct fs; [congruence|cbn; lia]).
    split; [lia|]. split; [lia|]. split; [rewrite (Permutation.Permutation_length Pt), seq_length; cbn; lia|]. split.
    { rewrite Forall_forall. intros i I0. apply (Permutation.Permutation_in _ Pt), in_seq in I0. lia. }
    split; [intros ? ? []|]. eexists. reflexivity.
  - destruct S as [W S]. split; [exact W|]. cbn [cp_todo cp_files cp_ops cp_got cp_done] in *.
    destruct S as [(Y & _)|S]; [discriminate Y|right].
    destruct S as (m & Pm & Lm & Lt & Ft & Cd & x & Ex). exists m. split; [exact Pm|]. split; [exact Lm|]. split; [exact Lt|]. split; [exact Ft|]. split; [exact Cd|].
    cbn [hd] in *. unfold fget. rewrite Ex. rewrite skipn_app, skipn_all, Nat.sub_diag. cbn [app skipn].
    exists (skipn n x). rewrite <- app_assoc, firstn_skipn. reflexivity.
  - destruct S as [W S]. split; [exact W|]. cbn [cp_todo cp_files cp_ops cp_got cp_done] in *.
    destruct S as [(Y & _)|S]; [discriminate Y|right].
    destruct S as (m & Pm & Lm & Lt & Ft & Cd & x & Ex). cbn [hd length] in *. inversion Ft as [|? ? Fi Ft']; subst. exists (S (length t) + length d).
    assert (Eg : g = nth i fs []).
    { unfold fget in Lb. rewrite Ex in Lb |- *. rewrite app_length in Lb. destruct x; [now rewrite app_nil_r|cbn [length] in Lb; lia]. }
    destruct (proj2 W fs (crash_here _ _)) as (Y & _).
    split; [exact Pm|]. split; [exact Lm|]. split; [lia|]. split; [exact Ft'|]. split; [|eexists; reflexivity].
    intros j g0 [E|I0]; [|auto]. injection E as <- <-. split; [exact Fi|]. split; [auto|]. split; [exists x; exact Ex|]. rewrite Eg. apply longer, Y.
Qed.
Lemma copying_state c c' : copying all_at_once c c' -> state c -> state c'.
Proof. induction 1 as [c|c c1 c2 S1 _ IH]; intros S; [exact S|]. apply IH. eapply state_step; eassumption. Qed.

Lemma backup_cut ops B : Forall appending ops -> (forall A, crash D ops A -> cutof D A /\ cutof A V) -> backup all_at_once D ops B ->
  cutof D B /\ cutof B V.
Proof.
  intros F Cu (fs & ops' & d & Cp & Fin & Ld & Ib).
  assert (S0 : state (mkcopier D ops [] [] [])).
  { split; [|left; repeat split; reflexivity]. split; [exact F|]. intros A Cr. destruct (Cu A Cr). auto. }
  pose proof (copying_state _ _ Cp S0) as [W S]. cbn [cp_todo cp_files cp_ops cp_got cp_done] in *.
  destruct S as [(_ & _ & ->)|S]. { exfalso. apply (Fin (seq 0 (length fs))). split; reflexivity. }
  destruct S as (n & Pn & Ln & Ld' & _ & Cd & _). cbn [length Nat.add] in Ld'.
  destruct (proj2 W fs (crash_here _ _)) as (Y1 & _ & Y2).
  pose proof (proj1 (cutof_nonnil _ _ Y1)) as Nd. assert (Pd : 0 < length D) by (destruct D; [congruence|cbn; lia]).
  assert (Cb : forall i, i < n -> copied fs n i (nth i B [])).
  { intros i L. apply Cd, Ib. lia. }
  assert (CB : cutof B fs).
  { destruct (Cb (n - 1)) as (_ & _ & (x & Ex) & _); [lia|].
    exists (firstn (n - 1) fs), (nth (n - 1) B []), x, (skipn n fs). split.
    - apply nth_ext with (d := []) (d' := []). { rewrite app_length, firstn_length. cbn [length]. lia. }
      intros i L. destruct (Nat.eq_dec i (n - 1)) as [->|Ne].
      + rewrite app_nth2 by (rewrite firstn_length; lia). rewrite firstn_length. replace (n - 1 - Init.Nat.min (n - 1) (length fs)) with 0 by lia. reflexivity.
      + rewrite app_nth1 by (rewrite firstn_length; lia). destruct (Cb i) as (_ & Q & _); [lia|]. rewrite Q by lia.
        rewrite <- (firstn_skipn (n - 1) fs) at 1. rewrite app_nth1 by (rewrite firstn_length; lia). reflexivity.
    - rewrite <- Ex. rewrite <- (firstn_skipn (n - 1) fs) at 1. f_equal.
      destruct (nth_error fs (n - 1)) as [z|] eqn:En; [|apply nth_error_None in En; lia].
      rewrite (nth_error_nth _ _ _ En). apply nth_error_split in En. destruct En as (l1 & l2 & -> & El).
      rewrite <- El. rewrite (skipn_app_exact l1) by reflexivity. f_equal. replace n with (length l1 + 1) by lia.
      rewrite skipn_app, skipn_all2 by lia. replace (length l1 + 1 - length l1) with 1 by lia. reflexivity. }
  assert (CV : cutof B V) by (eapply cutof_trans; eassumption). split; [|exact CV].
  eapply (within_cut H H_len C C_len); [eapply cutof_trans; eassumption|exact CV|]. split; [lia|].
  intros i. destruct (Nat.lt_ge_cases i n) as [L|L]; [apply Cb, L|].
  exists []. rewrite app_nil_r, !nth_overflow by lia. reflexivity.
Qed.
End Copy.

(** Any beginning of the files is one of the things a crash may leave. *)
Lemma cut_remains (H : bytes -> bytes) (C : bytes -> bytes -> bytes) (H_len : forall m, length (H m) = 32) (C_len : forall k m, length (C k m) = 20) key D V ops B :
  cutof D B -> cutof B V -> remains C key D V ops B.
Proof.
  intros C1 C2. right. pose proof (cut_within H H_len C C_len _ _ C1) as Wd. pose proof (cut_within H H_len C C_len _ _ C2) as [Lv Pv]. split.
  - split; [exact Wd|]. split; [exact Lv|]. intros i. destruct (Pv i) as (x & Ex). rewrite Ex, app_length. split; [lia|].
    intros k Lk. left. rewrite app_nth1 by exact Lk. reflexivity.
  - intros i j m L1 L2 _. destruct (Pv i) as (x & Ex). split.
    + intros i' Li. assert (Lb : i < length B). { destruct (Nat.lt_ge_cases i (length B)) as [L|L]; [exact L|]. rewrite nth_overflow in L2 by exact L. cbn [length] in L2. lia. }
      symmetry. apply (closed H H_len C C_len B V); [exact C2|lia].
    + rewrite Ex, firstn_app. replace (38 * j + 38 - length (nth i B [])) with 0 by lia. rewrite firstn_O, app_nil_r. reflexivity.
Qed.

