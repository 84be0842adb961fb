(** * Concrete executions for the examples beside the theorems, computed by [vm_compute]. *)
From Verif Require Export ApiFacts Vectors.
From Coq Require Import ZifyBool ZifyNat ZifyN.

Definition toyC (k m : bytes) : bytes := firstn 20 (toy (k ++ m)).
Lemma toyC_len k m : length (toyC k m) = 20.
Proof. unfold toyC. rewrite firstn_length, toy_len. reflexivity. Qed.

Definition is_none {A} (x : option A) : bool := match x with None => true | _ => false end.
Definition quiet_b (w : world) : bool :=
  match w_db w with Some d => match st_io (d_store d) with [] => true | _ => false end | None => true end.
Definition can_commit_b (sp : spec) (l : recs) : bool :=
  forallb (fun e => length (snd e) <=? 255) l && (s_bytes sp + weight l <=? LIMIT)%N.
Definition collision_free_b (sp : spec) : bool :=
  nocoll_b toy (flat_map (ref_msgs toy) (s_hist sp)) && nozero_b toy (flat_map (ref_msgs toy) (s_hist sp)).
Fixpoint recs_eqb (a b : recs) : bool :=
  match a, b with
  | [], [] => true
  | (k, v) :: a, (k', v') :: b => bytes_eqb k k' && bytes_eqb v v' && recs_eqb a b
  | _, _ => false
  end.
Definition k32 (k : bytes) : bool := length k =? 32.
Definition call_ok_b (sp : spec) (w : world) (c : call) : bool :=
  match c with
  | CRoot | CTxCreate _ => true
  | CInject h => negb (is_none (named toy (s_hist sp) h))
  | CGet k _ | CHas k _ | CProve k _ => k32 k
  | CInsert k _ | CRemove k =>
    k32 k && match commits sp c with Some l => can_commit_b sp l && quiet_b w | None => true end
  | CTxDestroy i | CTxRoot i | CTxInject i _ => negb (is_none (txat sp i))
  | CTxClear i => negb (is_none (txat sp i)) && recs_eqb (s_cur sp) (hd [] (s_hist sp))
  | CTxGet i k | CTxHas i k | CTxInsert i k _ | CTxRemove i k | CTxProve i k => negb (is_none (txat sp i)) && k32 k
  | CTxCommit i => match txat sp i with Some l => can_commit_b sp l | None => false end
  | CReopen => negb (s_failed sp) && (blen (last (files w) []) mod 38 =? 0)%N
  end.
Lemma can_commit_b_ok sp l : can_commit_b sp l = true -> can_commit sp l.
Proof.
  unfold can_commit_b, can_commit. rewrite andb_true_iff, N.leb_le, forallb_forall. intros [A B]. split; [|exact B].
  apply Forall_forall. intros x I. apply Nat.leb_le, A, I.
Qed.
Lemma quiet_b_ok w : quiet_b w = true -> quiet w.
Proof. unfold quiet_b, quiet. destruct (w_db w) as [d|]; [|auto]. destruct (st_io (d_store d)); [auto|discriminate]. Qed.
Lemma is_none_ok {A} (x : option A) : negb (is_none x) = true -> x <> None.
Proof. destruct x; [discriminate|]. cbn. discriminate. Qed.
Lemma recs_eqb_ok a : forall b, recs_eqb a b = true -> a = b.
Proof.
  induction a as [|[k v] a IH]; intros [|[k' v'] b] E; cbn in E; try discriminate; [reflexivity|].
  rewrite !andb_true_iff in E. destruct E as [[E1 E2] E3]. f_equal; [|apply IH, E3].
  destruct (bytes_eqb_spec k k'); [|discriminate]. destruct (bytes_eqb_spec v v'); [|discriminate]. congruence.
Qed.
Lemma k32_ok k : k32 k = true -> length k = 32.
Proof. apply Nat.eqb_eq. Qed.
Definition allowed_b (sp : spec) (w : world) (c : call) : bool := collision_free_b sp && call_ok_b sp w c.
Lemma collision_free_b_ok sp : collision_free_b sp = true -> collision_free toy sp.
Proof. unfold collision_free_b. rewrite andb_true_iff. intros [A B]. split; [apply nocoll_b_ok, A|apply nozero_b_ok, B]. Qed.
Lemma allowed_b_ok sp w c : allowed_b sp w c = true -> allowed toy sp w c.
Proof.
  unfold allowed_b. rewrite andb_true_iff. intros [A B]. split; [apply collision_free_b_ok, A|]. clear A.
  destruct c; cbn [call_ok_b call_ok] in *; rewrite ?andb_true_iff in B; auto using k32_ok, is_none_ok.
  - destruct B as [B1 B2]. split; [apply k32_ok, B1|]. intros l E. rewrite E in B2. rewrite andb_true_iff in B2.
    split; [apply can_commit_b_ok, B2|apply quiet_b_ok, B2].
  - destruct B as [B1 B2]. split; [apply k32_ok, B1|]. intros l E. rewrite E in B2. rewrite andb_true_iff in B2.
    split; [apply can_commit_b_ok, B2|apply quiet_b_ok, B2].
  - destruct B as [B1 B2]. split; [apply is_none_ok, B1|apply recs_eqb_ok, B2].
  - destruct B as [B1 B2]. split; [apply is_none_ok, B1|apply k32_ok, B2].
  - destruct B as [B1 B2]. split; [apply is_none_ok, B1|apply k32_ok, B2].
  - destruct B as [B1 B2]. split; [apply is_none_ok, B1|apply k32_ok, B2].
  - destruct B as [B1 B2]. split; [apply is_none_ok, B1|apply k32_ok, B2].
  - destruct B as [B1 B2]. split; [apply is_none_ok, B1|apply k32_ok, B2].
  - destruct (txat sp i) as [l|]; [|discriminate]. exists l. split; [reflexivity|apply can_commit_b_ok, B].
  - destruct B as [B1 B2]. split; [destruct (s_failed sp); [discriminate|reflexivity]|]. apply N.eqb_eq, B2.
Qed.

(** Run calls, checking that each is allowed. *)
Fixpoint play (w : world) (sp : spec) (cs : list call) : option (list answer * world * spec) :=
  match cs with
  | [] => Some ([], w, sp)
  | c :: cs =>
    if allowed_b sp w c then
      match step toy toyC w c with
      | Ok (a, w1) =>
        match play w1 (snext toy sp c a) cs with
        | Some (l, w2, sp2) => Some (a :: l, w2, sp2)
        | None => None
        end
      | _ => None
      end
    else None
  end.
Lemma play_ok cs : forall w sp l w' sp', play w sp cs = Some (l, w', sp') -> calls toy toyC w sp cs l w' sp'.
Proof.
  induction cs as [|c cs IH]; intros w sp l w' sp' E; cbn [play] in E.
  - injection E as <- <- <-. constructor.
  - destruct (allowed_b sp w c) eqn:A; [|discriminate]. destruct (step toy toyC w c) as [[a w1]|e| | |] eqn:Es; try discriminate.
    destruct (play w1 (snext toy sp c a) cs) as [[[l2 w2] sp2]|] eqn:Ep; [|discriminate]. injection E as <- <- <-.
    econstructor; [apply allowed_b_ok, A|exact Es|]. apply IH, Ep.
Qed.

Definition dkey : bytes := repeat x01 32.
Definition w0 : world := match db_open toy toyC dkey [] [] with Ok (Some d) => mkworld (Some d) [] | _ => mkworld None [] end.
Lemma exec_w0 : exec toy toyC dkey w0 spec0.
Proof.
  destruct (db_open toy toyC dkey [] []) as [[d|]|e| | |] eqn:E; try (vm_compute in E; discriminate E).
  unfold w0. rewrite E. apply ex_new, E.
Qed.
Definition played (cs : list call) : list answer * world * spec :=
  match play w0 spec0 cs with Some x => x | None => ([], mkworld None [], spec0) end.
Definition pw (cs : list call) : world := snd (fst (played cs)).
Definition ps (cs : list call) : spec := snd (played cs).
Definition pl (cs : list call) : list answer := fst (fst (played cs)).
Lemma exec_played cs : is_none (play w0 spec0 cs) = false -> exec toy toyC dkey (pw cs) (ps cs).
Proof.
  intros E. unfold pw, ps, played. destruct (play w0 spec0 cs) as [[[l w] sp]|] eqn:Ep; [|discriminate].
  cbn [fst snd]. eapply (exec_calls toy toyC); [apply exec_w0|]. apply play_ok, Ep.
Qed.

(** The same from any state, and for one step. *)
Definition played_from (w : world) (sp : spec) (cs : list call) : list answer * world * spec :=
  match play w sp cs with Some x => x | None => ([], mkworld None [], spec0) end.
Lemma calls_played w sp cs : is_none (play w sp cs) = false ->
  calls toy toyC w sp cs (fst (fst (played_from w sp cs))) (snd (fst (played_from w sp cs))) (snd (played_from w sp cs)).
Proof.
  intros E. unfold played_from. destruct (play w sp cs) as [[[l w'] sp']|] eqn:Ep; [|discriminate]. apply play_ok, Ep.
Qed.
Definition st_b (w : world) (c : call) : bool := match step toy toyC w c with Ok _ => true | _ => false end.
Definition st_a (w : world) (c : call) : answer := match step toy toyC w c with Ok (a, _) => a | _ => AOk end.
Definition st_w (w : world) (c : call) : world := match step toy toyC w c with Ok (_, w') => w' | _ => mkworld None [] end.
Lemma st_ok w c a : st_b w c = true -> st_a w c = a -> step toy toyC w c = Ok (a, st_w w c).
Proof. unfold st_b, st_a, st_w. destruct (step toy toyC w c) as [[x y]|e| | |]; try discriminate. intros _ ->. reflexivity. Qed.

(** Two committed states, an uncommitted change and an older snapshot:
    transaction 0 sees foo, bar (second commit); 1 sees foo only; 2 has baz in addition. *)
Definition v1 : bytes := [x01; x02; x03; x04].
Definition v2 : bytes := repeat x07 100.
Definition demo : list call :=
  [ CTxCreate None; CTxInsert 0 kfoo foo_value; CTxCommit 0; CTxCreate None;
    CTxInsert 0 kbar v1; CTxCommit 0; CTxCreate None; CTxInsert 2 kbaz v2 ].
Lemma exec_demo : exec toy toyC dkey (pw demo) (ps demo).
Proof. apply exec_played. vm_compute. reflexivity. Qed.
Lemma demo_free : collision_free toy (ps demo).
Proof. apply collision_free_b_ok. vm_compute. reflexivity. Qed.
Lemma demo_txs : s_txs (ps demo) =
  [ Some [(kbar, v1); (kfoo, foo_value)]; Some [(kfoo, foo_value)]; Some [(kbaz, v2); (kbar, v1); (kfoo, foo_value)] ] /\
  s_hist (ps demo) = [[(kbar, v1); (kfoo, foo_value)]; [(kfoo, foo_value)]].
Proof. vm_compute. auto. Qed.
