(** * C46: urkel_destroy's path buffer. *)
From Verif Require Import DestroyPath Properties_Destroy Properties_Path.
From Coq Require Import ZifyBool ZifyNat ZifyN.

Lemma cpath_ok s rest : cstring s -> cpath (s ++ x00 :: rest) = Ok s.
Proof.
  induction s as [|c s IH]; intros Z; [reflexivity|]. cbn [app cpath].
  destruct (beq c x00) eqn:E; [|rewrite IH; [reflexivity|intros I; apply Z; right; exact I]].
  exfalso. apply Z. left. destruct c; try discriminate E; reflexivity.
Qed.

(** The buffer holds the directory and a slash, and [k] bytes more. *)
Lemma put_name pre : forall rest name, cstring pre -> cstring name -> length name + 1 <= length rest ->
  exists rest', store_all (pre ++ rest) (length pre) (name ++ [x00]) = Ok (pre ++ rest') /\ length rest' = length rest /\
    cpath (pre ++ rest') = Ok (pre ++ name).
Proof.
  intros rest name Zp Zn L. set (k := length (name ++ [x00])). assert (Lk : k = length name + 1) by (unfold k; rewrite app_length; reflexivity).
  exists ((name ++ [x00]) ++ skipn k rest). rewrite <- (firstn_skipn k rest) at 1. rewrite store_all_ok by (rewrite firstn_length; lia).
  split; [reflexivity|]. split; [rewrite app_length, skipn_length; fold k; lia|].
  rewrite <- app_assoc, app_assoc. cbn [app]. apply cpath_ok. intros I. apply in_app_iff in I. destruct I as [I|I]; [exact (Zp I)|exact (Zn I)].
Qed.

(** The names of the directory that are removed. *)
Definition removed (n : bytes) : Prop := n = META \/ exists index, u32 index /\ n = filename index.

Lemma hit_removed n : cstring n -> (hit n = true <-> removed n).
Proof.
  intros Z. unfold hit, removed. destruct (C33_recognised n Z) as (r & E & R). pose proof (parse_name n) as P. rewrite E in *.
  rewrite orb_true_iff. destruct (bytes_eqb_spec n META) as [->|Nm]; [intuition auto|]. destruct r as [v|].
  - split; [|auto]. intros _. right. exists v. apply (P v Z). reflexivity.
  - split; [intros [X|X]; discriminate|]. intros [X|(v & U & X)]; [contradiction|]. assert (Y : @Ok (option N) None = Ok (Some v)) by (apply (P v Z); auto). discriminate Y.
Qed.
Lemma hit_length n : cstring n -> hit n = true -> length n <= 10.
Proof. intros Z H. apply (hit_removed n Z) in H. destruct H as [->|(v & _ & ->)]; [cbn; lia|rewrite filename_length; lia]. Qed.

Lemma loop_ok pre list : cstring pre -> Forall cstring list -> forall rest, 11 <= length rest ->
  exists rest', destroy_loop (pre ++ rest) (length pre) list = Ok (pre ++ rest', map (fun n => pre ++ n) (filter hit list)) /\ length rest' = length rest.
Proof.
  intros Zp Zl. induction list as [|n list IH]; intros rest L; cbn [destroy_loop filter map]; [eauto|].
  inversion Zl as [|? ? Zn Zl']; subst. specialize (IH Zl').
  pose proof (hit_length n Zn) as Hl. unfold hit in *. destruct (C33_recognised n Zn) as (r & E & _). rewrite E in *. cbn [bind].
  destruct ((match r with Some _ => true | None => false end) || bytes_eqb n META).
  - destruct (put_name pre rest n Zp Zn) as (rest1 & E1 & L1 & C1); [specialize (Hl eq_refl); lia|].
    rewrite E1. cbn [bind]. rewrite C1. cbn [bind]. destruct (IH rest1) as (rest2 & E2 & L2); [lia|]. rewrite E2. cbn [bind]. eexists. split; [reflexivity|lia].
  - destruct (IH rest L) as (rest2 & E2 & L2). eauto.
Qed.

Lemma init_destroy cwd junk path prefix mem list : (forall p, path = Some p -> cstring p) -> (forall d, cwd = Some d -> cstring d /\ absolute d) ->
  init_prefix cwd junk path = Ok (Some prefix) -> length mem = URKEL_PATH_MAX + 1 ->
  exists rest, length rest + length prefix = URKEL_PATH_MAX /\
  destroy_paths cwd junk mem path list =
    let! mem := store_all ((prefix ++ [slash]) ++ rest) (length (prefix ++ [slash])) (LOCK ++ [x00]) in
    let! lock := cpath mem in
    let! (mem, ps) := destroy_loop mem (length (prefix ++ [slash])) list in
    let! mem := store_all mem (length (prefix ++ [slash])) (LOCK ++ [x00]) in
    let! last := cpath mem in
    Ok (Some (lock, ps, last, prefix)).
Proof.
  intros Zp Zd E Lm. destruct (init_prefix_len _ _ _ _ Zp Zd E) as [Lp Zx]. unfold init_prefix in E. unfold destroy_paths.
  rewrite (C43_resolve cwd junk path Zp Zd) in *. cbn [bind] in *. destruct (meant cwd path) as [s|]; [|discriminate].
  rewrite app_length in E. cbn [length] in E. rewrite Nat.add_sub in E.
  destruct (Nat.ltb_spec URKEL_PATH_MAX (length (canonical (named s)) + 10)) as [|Lo]; [discriminate|].
  rewrite firstn_app, firstn_all, Nat.sub_diag, firstn_O, app_nil_r in E.
  assert (Ep : canonical (named s) = prefix) by congruence. rewrite Ep in *. clear Ep E.
  change (prefix ++ [x00]) with (prefix ++ x00 :: []) at 1. rewrite (cpath_ok prefix [] Zx). cbn [bind].
  destruct (Nat.ltb_spec URKEL_PATH_MAX (length prefix + 10)) as [X|_]; [lia|].
  assert (Lk : length prefix + 2 <= length mem) by (unfold URKEL_PATH_MAX in *; lia).
  set (k := length prefix) in *.
  pose proof (store_all_ok (prefix ++ [x00]) [] (firstn (k + 1) mem) (skipn (k + 1) mem)) as E1. cbn [app length] in E1.
  rewrite firstn_skipn in E1. rewrite E1 by (rewrite firstn_length, app_length; cbn [length]; fold k; lia). cbn [bind].
  exists (skipn (k + 1) mem). split; [rewrite skipn_length; lia|].
  unfold store_at. rewrite !app_length, skipn_length. cbn [length]. fold k. destruct (Nat.ltb_spec k (k + 1 + (length mem - (k + 1)))) as [_|X]; [|lia]. cbn [bind].
  rewrite <- app_assoc. rewrite upd_app_r by (fold k; lia). fold k. rewrite Nat.sub_diag. cbn [app upd]. rewrite <- app_assoc. reflexivity.
Qed.

(** For an accepted path of up to 1013 bytes, whatever the buffer contained and whatever the
    directory contains, every path built stays inside the buffer, and the paths are the right
    ones: the lock, each entry that is a database's, the lock again, the directory. *)
Theorem C46_destroy_buffer_partial : forall cwd junk mem path prefix list,
  (forall p, path = Some p -> cstring p) -> (forall d, cwd = Some d -> cstring d /\ absolute d) -> Forall cstring list ->
  init_prefix cwd junk path = Ok (Some prefix) -> length mem = URKEL_PATH_MAX + 1 -> length prefix <= 1013 ->
  exists names, destroy_paths cwd junk mem path list =
      Ok (Some (prefix ++ slash :: LOCK, map (fun n => prefix ++ slash :: n) names, prefix ++ slash :: LOCK, prefix)) /\
    (forall n, In n names <-> In n list /\ removed n).
Proof.
  intros cwd junk mem path prefix list Zp Zd Zl E Lm Lp. destruct (init_prefix_len _ _ _ _ Zp Zd E) as [_ Zx].
  destruct (init_destroy cwd junk path prefix mem list Zp Zd E Lm) as (rest & Lr & ->). unfold URKEL_PATH_MAX in Lr.
  assert (Zpre : cstring (prefix ++ [slash])) by (intros I; apply in_app_iff in I; destruct I as [I|[I|[]]]; [exact (Zx I)|discriminate]).
  assert (Zk : cstring LOCK) by (intros I; cbn in I; intuition discriminate).
  destruct (put_name _ rest LOCK Zpre Zk) as (r1 & E1 & L1 & C1); [cbn [length LOCK]; lia|]. rewrite E1. cbn [bind]. rewrite C1. cbn [bind].
  destruct (loop_ok _ list Zpre Zl r1) as (r2 & E2 & L2); [lia|]. rewrite E2. cbn [bind].
  destruct (put_name _ r2 LOCK Zpre Zk) as (r3 & E3 & L3 & C3); [cbn [length LOCK]; lia|]. rewrite E3. cbn [bind]. rewrite C3. cbn [bind].
  exists (filter hit list). split.
  - rewrite <- app_assoc. cbn [app]. assert (Em : map (fun n => (prefix ++ [slash]) ++ n) (filter hit list) = map (fun n => prefix ++ slash :: n) (filter hit list)).
    { apply map_ext. intros n. rewrite <- app_assoc. reflexivity. }
    rewrite Em. reflexivity.
  - intros n. rewrite filter_In. split; intros [I H]; (split; [exact I|]); rewrite Forall_forall in Zl; apply (hit_removed n (Zl n I)); exact H.
Qed.
Print Assumptions C46_destroy_buffer_partial.

(** With the path of 1014 bytes and any data file in the directory, urkel_destroy writes past
    its buffer. *)
Theorem C46_destroy_buffer_refuted : forall cwd junk mem list index, (forall d, cwd = Some d -> cstring d /\ absolute d) ->
  Forall cstring list -> length mem = URKEL_PATH_MAX + 1 -> u32 index -> In (filename index) list ->
  destroy_paths cwd junk mem (Some long_path) list = UB.
Proof.
  intros cwd junk mem list index Zd Zl Lm U I. destruct (C46_path_buffers_refuted cwd junk) as (Zlp & E & _).
  assert (Zp : forall p, Some long_path = Some p -> cstring p) by (intros p X; replace p with long_path by congruence; exact Zlp).
  destruct (init_destroy cwd junk _ _ mem list Zp Zd E Lm) as (rest & Lr & ->).
  assert (Ll : length long_path = 1014) by (unfold long_path; cbn [length]; rewrite repeat_length; lia).
  rewrite Ll in Lr. unfold URKEL_PATH_MAX in Lr.
  assert (Zpre : cstring (long_path ++ [slash])) by (intros X; apply in_app_iff in X; destruct X as [X|[X|[]]]; [exact (Zlp X)|discriminate]).
  revert Ll Zpre. clear E Zp Zlp. generalize long_path as lp. intros lp Ll Zpre.
  assert (Zk : cstring LOCK) by (intros X; cbn in X; intuition discriminate).
  destruct (put_name _ rest LOCK Zpre Zk) as (r1 & E1 & L1 & C1); [cbn [length LOCK]; lia|]. rewrite E1. cbn [bind]. rewrite C1. cbn [bind].
  assert (G : forall list, Forall cstring list -> In (filename index) list -> forall r, length r = 10 -> destroy_loop ((lp ++ [slash]) ++ r) (length (lp ++ [slash])) list = UB).
  { clear - Zpre U. induction list as [|n list IH]; intros Zl I r Lr; [destruct I|]. inversion Zl as [|? ? Zn Zl']; subst. cbn [destroy_loop].
    destruct (C33_recognised n Zn) as (v & Ev & _). rewrite Ev. cbn [bind]. pose proof (hit_removed n Zn) as H. unfold hit in H. rewrite Ev in H.
    assert (Hf : n = filename index -> (match v with Some _ => true | None => false end) || bytes_eqb n META = true) by (intros ->; apply H; right; eauto).
    destruct ((match v with Some _ => true | None => false end) || bytes_eqb n META).
    - destruct (proj1 H eq_refl) as [->|(i & Ui & ->)].
      + destruct (put_name _ r META Zpre Zn) as (r2 & E2 & L2 & C2); [cbn [length META]; lia|]. rewrite E2. cbn [bind]. rewrite C2. cbn [bind].
        destruct I as [X|I].
        * exfalso. pose proof (f_equal (@length byte) X) as Y. rewrite filename_length in Y. discriminate Y.
        * rewrite (IH Zl' I r2) by lia. reflexivity.
      + rewrite store_all_ub; [reflexivity| |].
        * rewrite !app_length, filename_length. cbn [length]. lia.
        * rewrite !app_length. lia.
    - destruct I as [X|I]; [discriminate (Hf X)|]. exact (IH Zl' I r Lr). }
  rewrite (G list Zl I r1) by lia. reflexivity.
Qed.
Print Assumptions C46_destroy_buffer_refuted.

(** A short path and a directory with a foreign file. *)
Example C46_destroy_buffer_nonvacuous :
  destroy_paths None x00 (repeat x7a 1025) (Some [slash; x61]) [LOCK; META; [x62]; filename 7] =
    Ok (Some ([slash; x61; slash] ++ LOCK, [[slash; x61; slash] ++ META; [slash; x61; slash] ++ filename 7], [slash; x61; slash] ++ LOCK, [slash; x61])).
Proof. vm_compute. reflexivity. Qed.
