(** * C35: what urkel_open does to the files it finds. *)
From Verif Require Import Demo.
From Coq Require Import ZifyBool ZifyNat ZifyN.

(** Every byte of [D] is where it was in [X]. *)
Definition kept (D X : list bytes) : Prop := forall i, exists x, nth i X [] = nth i D [] ++ x.

(** When no system call fails, opening the files of a database on which every commit
    succeeded changes nothing, and dying at any point of opening loses nothing.
    Missing: system calls failing while the last file is examined (refuted below). *)
Theorem C35_open_preserves_partial : forall H C, (forall m, length (H m) = 32) -> (forall k m, length (C k m) = 20) ->
  forall key w sp, exec H C key w sp -> s_failed sp = false -> aligned (files w) ->
  exists d, db_open H C key (files w) [] = Ok (Some d) /\ st_fs (d_store d) = files w /\
    apply_ops (files w) (st_log (d_store d)) = files w /\
    forall X, crash (files w) (st_log (d_store d)) X -> s_hist sp = [] \/ kept (files w) X.
Proof.
  intros H C H_len C_len key w sp E Fa Al. pose proof (exec_sim H H_len C C_len key w sp E) as S.
  destruct (sim_image H H_len C C_len key w sp S Fa Al) as (D & top & hist & W & ED & DI & _ & _ & _ & F & Cd). rewrite ED.
  assert (IM : image C key D hist D). { left. split; [exact Cd|apply (noforge_refl H H_len C C_len)]. }
  destruct (store_open_spec H H_len C C_len key D top hist D DI IM) as (s' & Eo & Fs & _ & _ & _ & _ & _ & Ap & Cr).
  unfold db_open. rewrite Eo. cbn [bind]. eexists. split; [reflexivity|]. cbn [d_store]. split; [exact Fs|]. split; [exact Ap|].
  intros X CX. destruct (Cr X CX) as [[CD _]|[Eh _]].
  - right. intros i. first [apply cut_prefix, CD | apply (cut_prefix H H_len), CD | apply (cut_prefix C), CD].
  - left. subst hist. inversion F. reflexivity.
Qed.
Print Assumptions C35_open_preserves_partial.

(** One failing open or read of the data file while urkel_open examines it, and urkel_open
    deletes the file and succeeds with an empty database. *)
Theorem C35_open_preserves_refuted : 
  (forall H C key f, exists d, db_open H C key [f] [true] = Ok (Some d) /\ st_log (d_store d) = [ODrop; ONew] /\ st_fs (d_store d) = [[]] /\
     forall k txs, step H C (mkworld (Some d) txs) (CGet k None) = Ok (AErr ENOTFOUND, mkworld (Some d) txs)) /\
  exists w sp f k v, exec toy toyC dkey w sp /\ s_failed sp = false /\ aligned (files w) /\ files w = [f] /\
    lookup (s_cur sp) k = Some v /\ s_hist sp = s_cur sp :: tl (s_hist sp).
Proof.
  split.
  - intros H C key f. eexists. split; [reflexivity|]. split; [reflexivity|]. split; [reflexivity|]. intros k txs. reflexivity.
  - set (cs := [CInsert (repeat x05 32) [x01; x02]]).
    exists (pw cs), (ps cs), (hd [] (files (pw cs))), (repeat x05 32), [x01; x02]. split.
    + apply exec_played. vm_compute. reflexivity.
    + vm_compute. auto 10.
Qed.
Print Assumptions C35_open_preserves_refuted.

(** The partial theorem's hypotheses hold of that database. *)
Example c35_witness : exists w sp, exec toy toyC dkey w sp /\ s_failed sp = false /\ aligned (files w) /\ s_hist sp <> [].
Proof.
  destruct C35_open_preserves_refuted as [_ (w & sp & f & k & v & E & Fa & Al & _ & _ & Hs)]. exists w, sp. repeat (split; [assumption|]). rewrite Hs. discriminate.
Qed.
