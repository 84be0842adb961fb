(** * C50: read failures while iterating. *)
From Verif Require Import ReadIter Properties_Db Demo.
From Coq Require Import ZifyBool ZifyNat ZifyN Permutation Sorted.

Section C50.
Variable H : bytes -> bytes.
Hypothesis H_len : forall m, length (H m) = 32.
Variable C : bytes -> bytes -> bytes.
Hypothesis C_len : forall k m, length (C k m) = 20.

(** In every state reached by any history (with read failures, cleanly failing writes and
    crashes), for every transaction whose records lie below at most 127 inner nodes (C15):
    whichever reads fail during an iteration, [n] calls of urkel_iter_next return, and the
    results are those [reported] (ReadIter.v) allows - the records in key order with their
    values, except that a call may say ECORRUPTION in place of a run of records, at most
    once for each failing read, and EITEREND only when no record is left. *)
Theorem C50_iteration_under_read_failures key w sp i l :
  fexec H C key w sp -> txat sp i = Some l -> (forall k v, In (k, v) l -> levels l k <= 127) ->
  exists sorted, Permutation sorted l /\ StronglySorted (fun a b => lex_lt (fst a) (fst b)) sorted /\
    forall sch n, exists rs, tx_iterate_f w sch i n = Ok rs /\ length rs = n /\ reported (fails sch) sorted rs.
Proof.
  intros X E B. destruct (fexec_sim H C H_len C_len key w sp X) as (d & D & V & hist & W & Ew & _ & _ & F).
  destruct (txs_live H w sp _ i l F E) as (nd & En & t & R & S & Vl).
  exists (elems t). split; [symmetry; apply stands_perm, S|]. split; [apply wft_sorted, S|]. intros sch n.
  unfold tx_iterate_f. rewrite Ew, En. cbn [bind]. apply (iterate_f_spec H H_len); [exact R|apply S|exact Vl|]. eapply ih_levels; eassumption.
Qed.
End C50.

(** ** What [reported] means for the caller *)

(** Results without ECORRUPTION are exactly the records, then EITEREND: an iteration that
    ended without an error has returned everything. *)
Theorem C50_no_silent_loss f l rs : reported f l rs -> ~ In (IErr ECORRUPTION) rs ->
  rs = firstn (length rs) (map (fun e => IRec (fst e) (snd e)) l ++ repeat (IErr EITEREND) (length rs)).
Proof.
  induction 1 as [f l|f rs R IH|f k v l rs R IH|f gap l rs Ng R IH]; intros N.
  - reflexivity.
  - specialize (IH (fun X => N (or_intror X))). cbn [map app length repeat firstn] in *. f_equal. exact IH.
  - specialize (IH (fun X => N (or_intror X))). cbn [map app length firstn]. cbn [fst snd] in *. f_equal. rewrite IH at 1.
    rewrite !firstn_app. f_equal. rewrite map_length.
    replace (S (length rs)) with (length rs + 1) by lia. rewrite repeat_app, firstn_app, repeat_length.
    replace (length rs - length l - length rs) with 0 by lia. rewrite firstn_O, app_nil_r. reflexivity.
  - exfalso. apply N. now left.
Qed.

(** The records returned are records of the transaction, in the same order, none twice
    ([l] is strictly sorted); failing calls are at most the failing reads. *)
Definition returned (rs : list ires) : list (bytes * bytes) :=
  flat_map (fun r => match r with IRec k v => [(k, v)] | IErr _ => [] end) rs.
Definition errors (rs : list ires) : nat :=
  length (filter (fun r => match r with IErr ECORRUPTION => true | _ => false end) rs).
Inductive subseq {A} : list A -> list A -> Prop :=
| ss_nil l : subseq [] l
| ss_keep x a l : subseq a l -> subseq (x :: a) (x :: l)
| ss_skip x a l : subseq a l -> subseq a (x :: l).
Lemma subseq_app {A} (g a l : list A) : subseq a l -> subseq a (g ++ l).
Proof. intros S. induction g; [exact S|]. now apply ss_skip. Qed.
Theorem C50_nothing_invented f l rs : reported f l rs -> subseq (returned rs) l /\ errors rs <= f.
Proof.
  induction 1 as [f l|f rs R [S E]|f k v l rs R [S E]|f gap l rs Ng R [S E]].
  - split; [constructor|cbn; lia].
  - split; [exact S|exact E].
  - split; [apply ss_keep, S|exact E].
  - split; [apply subseq_app, S|]. unfold errors in *. cbn [filter length]. lia.
Qed.

(** Without failing reads: C14. *)
Theorem C50_no_failure l rs : reported 0 l rs ->
  rs = firstn (length rs) (map (fun e => IRec (fst e) (snd e)) l ++ repeat (IErr EITEREND) (length rs)).
Proof.
  intros R. apply (C50_no_silent_loss 0 l rs R). intros I. destruct (C50_nothing_invented 0 l rs R) as [_ E]. unfold errors in E.
  assert (J : In (IErr ECORRUPTION) (filter (fun r => match r with IErr ECORRUPTION => true | _ => false end) rs)) by (apply filter_In; auto).
  destruct (filter _ rs); [contradiction J|cbn in E; lia].
Qed.

(** A committed transaction with three records, all of them on disk: what different failing
    reads do. *)
Definition it_calls : list call := [ CInsert kfoo foo_value; CInsert kbar v1; CInsert kbaz v2; CTxCreate None ].
Example C50_nonvacuous : exists l, fexec toy toyC dkey (pw it_calls) (ps it_calls) /\ txat (ps it_calls) 0 = Some l /\ length l = 3 /\
  forall k v, In (k, v) l -> levels l k <= 127.
Proof.
  eexists. split; [apply (exec_fexec toy toyC toy_len toyC_len), exec_played; vm_compute; reflexivity|].
  split; [vm_compute; reflexivity|]. split; [reflexivity|].
  intros k v [X|[X|[X|[]]]]; injection X as <- <-; vm_compute; lia.
Qed.
Example C50_shown :
  tx_iterate_f (pw it_calls) [] 0 4 = Ok [IRec kbaz v2; IRec kbar v1; IRec kfoo foo_value; IErr EITEREND] /\
  tx_iterate_f (pw it_calls) [true] 0 3 = Ok [IErr ECORRUPTION; IErr EITEREND; IErr EITEREND] /\
  tx_iterate_f (pw it_calls) [false; false; true] 0 4 = Ok [IErr ECORRUPTION; IRec kbar v1; IRec kfoo foo_value; IErr EITEREND].
Proof. vm_compute. auto. Qed.

Print Assumptions C50_iteration_under_read_failures.
Print Assumptions C50_no_silent_loss.
Print Assumptions C50_nothing_invented.
Print Assumptions C50_no_failure.
