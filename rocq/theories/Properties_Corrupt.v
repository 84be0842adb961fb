(** * C30: corrupt files produce errors, not crashes.

    False as stated: six kinds of damage make a call abort, read out of bounds or loop for
    ever ([C30_*_refuted]).  What does hold for every file content: the recursive
    descents terminate, and damage that respects the shape conditions of Corrupt.v
    ([sane], [orderly], [fits]: no prefix over 256 bits, no path deeper than a key, leaves
    on their own path) is reported as an error. *)
From Verif Require Import Corrupt Demo.
From Coq Require Import ZifyBool ZifyNat ZifyN.

(** Calls one after the other on a process. *)
Fixpoint run (H : bytes -> bytes) (C : bytes -> bytes -> bytes) (w : world) (cs : list call) : res (list answer * world) :=
  match cs with
  | [] => Ok ([], w)
  | c :: cs =>
    let! (a, w) := step H C w c in
    let! (l, w) := run H C w cs in
    Ok (a :: l, w)
  end.

(** A call that works on transaction [i], with a key of the right size. *)
Definition on_tx (i : nat) (c : call) : Prop :=
  match c with
  | CTxGet j k | CTxHas j k | CTxInsert j k _ | CTxRemove j k | CTxProve j k => j = i /\ length k = 32
  | CTxRoot j => j = i
  | _ => False
  end.

Lemma tree_fuel_val : TREE_FUEL = 600.
Proof. reflexivity. Qed.
Lemma need_top n : need n 0 < TREE_FUEL.
Proof. rewrite tree_fuel_val. unfold need, is_hash. destruct n; lia. Qed.

(** ** Termination, for all file contents and all structures a transaction can hold *)
Theorem C30_terminates_partial H (d : db) (n : node) (k v : bytes) :
  length k = 32 ->
  tx_get d n k <> NoFuel /\ tx_has d n k <> NoFuel /\ tx_insert H d n k v <> NoFuel /\
  tx_remove d n k <> NoFuel /\ tree_prove H (st_rd (d_store d)) TREE_FUEL [] n k 0 <> NoFuel /\
  forall m, full n -> iter_calls (st_rd (d_store d)) m (iter_create n) <> NoFuel.
Proof.
  intros L. split; [|split; [|split; [|split; [|split]]]].
  - unfold tx_get. pose proof (get_fuel (st_rd (d_store d)) TREE_FUEL n k 0 true L (need_top n)). destruct (tree_get _ _ _ _ _ _); congruence.
  - unfold tx_has. pose proof (get_fuel (st_rd (d_store d)) TREE_FUEL n k 0 false L (need_top n)). destruct (tree_get _ _ _ _ _ _); congruence.
  - unfold tx_insert. destruct (1023 <? length v); [discriminate|].
    pose proof (insert_fuel H (st_rd (d_store d)) TREE_FUEL n k v 0 L (need_top n)). destruct (tree_insert _ _ _ _ _ _ _) as [x|[]| | |]; congruence.
  - unfold tx_remove. pose proof (remove_fuel (st_rd (d_store d)) TREE_FUEL n k 0 L (need_top n)). destruct (tree_remove _ _ _ _ _); congruence.
  - apply prove_fuel; [exact L|apply need_top].
  - intros m F. apply iter_calls_term. split; [exact F|]. split; [exact I|cbn; lia].
Qed.

Section C30.
Variable H : bytes -> bytes.
Hypothesis H_len : forall m, length (H m) = 32.
Variable C : bytes -> bytes -> bytes.

Lemma tx_prove_sane d n k rb : sized (d_store d) -> length k = 32 -> sane (st_rd (d_store d)) rb 0 n ->
  exists a n', tx_prove H d n k = Ok (a, n') /\ sane (st_rd (d_store d)) rb 0 n' /\
    (forall path, path = [] -> orderly (st_rd (d_store d)) rb path n -> orderly (st_rd (d_store d)) rb path n').
Proof.
  intros Z L S. unfold tx_prove.
  destruct (prove_sane H H_len (st_rd (d_store d)) rb TREE_FUEL (st_rd_size _ Z) [] n k 0 L (need_top n) S) as [(e & E)|(p & n' & E & O & S')]; auto; try lia; rewrite E.
  - do 2 eexists. split; [reflexivity|]. auto.
  - destruct (proof_size_ok p O) as (x & W & Sz & _). rewrite Sz, W. cbn [bind]. rewrite Nat.eqb_refl.
    do 2 eexists. split; [reflexivity|]. split; [exact S'|]. intros path -> So.
    apply (prove_sound H H_len (st_rd (d_store d)) rb TREE_FUEL [] n k [] p n' L (has_nil k) So E).
Qed.

(** ** Reading: whatever the files contain, a root below which no prefix is too long and
    no path too deep can be read, proved and iterated without a crash, even when records
    are unreadable. *)
Theorem C30_reads_partial key fs io d n k :
  db_open H C key fs io = Ok (Some d) -> length k = 32 ->
  (sane (st_rd (d_store d)) false 0 n ->
   (exists a, tx_get d n k = Ok a) /\ (exists a, tx_has d n k = Ok a) /\ (exists a n', tx_prove H d n k = Ok (a, n'))) /\
  (fits (st_rd (d_store d)) 1 n -> forall m, exists l, iter_calls (st_rd (d_store d)) m (iter_create n) = Ok l).
Proof.
  intros E L. pose proof (open_sized _ _ _ _ _ _ E) as Z. split.
  - intros S. repeat split.
    + unfold tx_get. pose proof (get_sane _ _ TREE_FUEL n k 0 true L (need_top n) S) as R.
      destruct (tree_get (st_rd (d_store d)) TREE_FUEL n k 0 true); try contradiction R; eauto.
    + unfold tx_has. pose proof (get_sane _ _ TREE_FUEL n k 0 false L (need_top n) S) as R.
      destruct (tree_get (st_rd (d_store d)) TREE_FUEL n k 0 false); try contradiction R; eauto.
    + destruct (tx_prove_sane d n k false Z L S) as (a & n' & Ep & _). eauto.
  - intros F m. apply iter_calls_fit. split; [exact F|]. split; [exact I|]. split; [cbn; lia|exact I].
Qed.

(** ** Whole sessions: any sequence of calls on a transaction whose structure is orderly. *)
Ltac fin := do 2 eexists; split; [reflexivity|eassumption].
Lemma session_step d n c : sized (d_store d) -> orderly (st_rd (d_store d)) true [] n -> on_tx 0 c ->
  exists a n', step H C (mkworld (Some d) [TLive n]) c = Ok (a, mkworld (Some d) [TLive n']) /\ orderly (st_rd (d_store d)) true [] n'.
Proof.
  intros Z So Oc. pose proof (sound_sane _ _ _ _ So) as Sa. cbn [length] in Sa.
  assert (Eta : mkworld (Some d) [TLive n] = put_tx (mkworld (Some d) [TLive n]) d 0 (TLive n)) by reflexivity.
  destruct c; cbn [on_tx] in Oc; try contradiction; match type of Oc with _ /\ _ => destruct Oc as [-> L] | _ => subst i end; cbn [step w_db w_txs]; change (live (mkworld (Some d) [TLive n]) 0) with (Ok n); cbn [bind].
  - unfold tx_root. destruct (node_hash_sane H H_len _ _ _ _ Sa) as (h & n' & E & _ & _). rewrite E. cbn [bind].
    do 2 eexists. split; [reflexivity|]. eapply (node_hash_sound H H_len); eassumption.
  - unfold tx_get. pose proof (get_sane _ _ TREE_FUEL n k 0 true L (need_top n) Sa) as R.
    destruct (tree_get (st_rd (d_store d)) TREE_FUEL n k 0 true); try contradiction R; cbn [bind]; fin.
  - unfold tx_has. pose proof (get_sane _ _ TREE_FUEL n k 0 false L (need_top n) Sa) as R.
    destruct (tree_get (st_rd (d_store d)) TREE_FUEL n k 0 false); try contradiction R; cbn [bind]; fin.
  - unfold tx_insert. destruct (Nat.ltb_spec 1023 (length v)) as [|Lv]; [cbn [bind]; fin|].
    destruct (insert_sound H H_len (st_rd (d_store d)) true TREE_FUEL n k v [] L Lv (has_nil k) (need_top n) So) as [(e & E)|(n' & E & So')];
      cbn [length] in E; rewrite E.
    + destruct e; cbn [bind]; fin.
    + cbn [bind]. fin.
  - unfold tx_remove.
    destruct (remove_sound (st_rd (d_store d)) TREE_FUEL n k [] L (has_nil k) (need_top n) So) as [(e & E)|(n' & E & So')];
      cbn [length] in E; rewrite E; cbn [bind]; fin.
  - destruct (tx_prove_sane d n k true Z L Sa) as (a & n' & Ep & _ & So'). rewrite Ep. cbn [bind]. do 2 eexists. split; [reflexivity|]. apply So'; [reflexivity|exact So].
Qed.

Theorem C30_session_partial key fs io d cs :
  db_open H C key fs io = Ok (Some d) ->
  orderly (st_rd (d_store d)) true [] (m_node (st_state (d_store d))) ->
  Forall (on_tx 0) cs ->
  exists l w, run H C (mkworld (Some d) [TLive (m_node (st_state (d_store d)))]) cs = Ok (l, w).
Proof.
  intros E So F. pose proof (open_sized _ _ _ _ _ _ E) as Z. revert So. generalize (m_node (st_state (d_store d))). clear E.
  induction F as [|c cs Oc F IH]; intros n So; cbn [run]; [eauto|].
  destruct (session_step d n c Z So Oc) as (a & n' & Es & So'). rewrite Es. cbn [bind].
  destruct (IH n' So') as (l & w & Er). rewrite Er. cbn [bind]. eauto.
Qed.

(** The condition holds of every structure that represents a tree (so of every state the
    library itself reaches), whatever the rest of the files contains. *)
Lemma rep_sound rd t : forall n path, rep H rd n t -> wfn path t \/ (t = PNull) -> vals_le 1023 t -> orderly rd true path n.
Proof.
  induction t as [|k v|pre l IHl r IHr]; intros n path R W V.
  - apply rep_null in R. subst n. constructor.
  - destruct W as [[Lk Hk]|]; [|discriminate].
    assert (Lf : forall n, (forall h w, n <> NHash h w) -> rep H rd n (PLeaf k v) -> orderly rd true path n).
    { intros m NH Rm. destruct m as [|h w p ml mr|h w k' v' vp|h w]; [discriminate Rm|destruct Rm as (? & ? & ? & X & _); discriminate X| |exfalso; eapply NH; reflexivity].
      destruct Rm as (x & E & Ho & _ & _ & Hv). injection E as <- <-. constructor; [| |exact Hk].
      - destruct Hv as [->|(-> & Nh & q & -> & _)]; [left|right; repeat split; auto; discriminate].
        split; [exact Lk|]. exists v. split; [reflexivity|]. apply (V k v). left. reflexivity.
      - intros y Ey. destruct Ho as [Ho|Ho]; rewrite Ho in Ey; [discriminate|]. injection Ey as <-. apply H_len. }
    destruct n as [|h w p ml mr|h w k' v' vp|h w]; try (apply Lf; [intros; discriminate|exact R]).
    destruct R as [-> D]. destruct (resolve_rep H H_len rd _ _ D) as (n' & E & R' & NH & _).
    eapply so_hash; [apply thash_len; exact H_len|exact E|]. apply Lf; [|exact R']. intros h' w' ->. eapply NH. reflexivity.
  - destruct W as [W|]; [|discriminate]. pose proof (wfn_int_len _ _ _ _ W) as Lp. pose proof (wfn_pre_ok _ _ _ _ W) as Lpre. destruct W as [Wl Wr].
    assert (Lf : forall n, (forall h w, n <> NHash h w) -> rep H rd n (PInt pre l r) -> orderly rd true path n).
    { intros m NH Rm. destruct m as [|h w p ml mr|h w k' v' vp|h w]; [discriminate Rm| |destruct Rm as (x & E & _); discriminate E|exfalso; eapply NH; reflexivity].
      destruct Rm as (pre' & tl & tr & E & Ho & _ & -> & Rl & Rr). injection E as <- <- <-.
      constructor; auto using of_bools_wf.
      - intros y Ey. destruct Ho as [Ho|Ho]; rewrite Ho in Ey; [discriminate|]. injection Ey as <-. apply H_len.
      - rewrite bools_of_bools by exact Lpre. apply IHl; auto. intros a b In_. apply (V a b). cbn [elems]. apply in_or_app. auto.
      - rewrite bools_of_bools by exact Lpre. apply IHr; auto. intros a b In_. apply (V a b). cbn [elems]. apply in_or_app. auto. }
    destruct n as [|h w p ml mr|h w k' v' vp|h w]; try (apply Lf; [intros; discriminate|exact R]).
    destruct R as [-> D]. destruct (resolve_rep H H_len rd _ _ D) as (n' & E & R' & NH & _).
    eapply so_hash; [apply thash_len; exact H_len|exact E|]. apply Lf; [|exact R']. intros h' w' ->. eapply NH. reflexivity.
Qed.
End C30.

(** ** Refutations *)

(** One data file holding [recs] at its start and a valid commit record whose root is the
    first [size] bytes. *)
Definition padded (x : bytes) : bytes := x ++ repeat x00 ((38 - length x mod 38) mod 38).
Definition damaged (C : bytes -> bytes -> bytes) (key : bytes) (size : N) (recs : bytes) : bytes :=
  padded recs ++ meta_write C key (mkmeta ptr0 (mkptr 1 0 size) NNull).
Definition zero_key : bytes := repeat x00 32.

(** (a) A record whose prefix claims 257 bits: urkel_open itself aborts. *)
Definition long_prefix : bytes := [x31; x01; x01] ++ repeat x00 110.
Theorem C30_open_refuted :
  db_open toy toyC dkey [damaged toyC dkey 113 long_prefix] [] = Abort.
Proof. vm_compute. reflexivity. Qed.

(** (b) A root record with a full 256-bit prefix: reading a key reads key[32]. *)
Definition full_prefix : bytes := [x31; x00; x01] ++ repeat x00 110.
Definition opened (f : bytes) : world :=
  match db_open toy toyC dkey [f] [] with Ok (Some d) => mkworld (Some d) [] | _ => mkworld None [] end.
Theorem C30_get_refuted :
  (exists d, db_open toy toyC dkey [damaged toyC dkey 113 full_prefix] [] = Ok (Some d) /\
     opened (damaged toyC dkey 113 full_prefix) = mkworld (Some d) []) /\
  step toy toyC (opened (damaged toyC dkey 113 full_prefix)) (CGet zero_key None) = UB /\
  step toy toyC (opened (damaged toyC dkey 113 full_prefix)) (CHas zero_key None) = UB /\
  step toy toyC (opened (damaged toyC dkey 113 full_prefix)) (CProve zero_key None) = UB.
Proof.
  split; [|split; [|split]; vm_compute; reflexivity].
  unfold opened. destruct (db_open toy toyC dkey [damaged toyC dkey 113 full_prefix] []) as [[d|]|e| | |] eqn:E; try (vm_compute in E; discriminate E). eauto.
Qed.

(** (c) A record that is its own left child: iteration overflows the stack check. *)
Definition cycle : bytes := [x01] ++ pointer_write (mkptr 1 0 79) ++ repeat x00 32 ++ pointer_write (mkptr 1 0 79) ++ repeat x00 32.
Definition root_of (w : world) : node :=
  match w_db w with Some d => m_node (st_state (d_store d)) | None => NNull end.
Definition reader (w : world) : ptr -> option bytes :=
  match w_db w with Some d => st_rd (d_store d) | None => fun _ => None end.
Theorem C30_iterate_refuted :
  iter_calls (reader (opened (damaged toyC dkey 79 cycle))) 1 (iter_create (root_of (opened (damaged toyC dkey 79 cycle)))) = Abort.
Proof. vm_compute. reflexivity. Qed.

(** (d) An unreadable sibling: the key can be read but removing it aborts. *)
Definition leaf_rec (k : bytes) (vp : ptr) : bytes := [x02] ++ pointer_write vp ++ k.
Definition lost_sibling : bytes :=
  [x01] ++ pointer_write (mkptr 1 79 40) ++ repeat x00 32 ++ pointer_write (mkptr 9 0 40) ++ repeat x00 32 ++ leaf_rec zero_key (mkptr 1 0 3).
Theorem C30_remove_refuted :
  st_a (opened (damaged toyC dkey 79 lost_sibling)) (CGet zero_key None) = AVal (firstn 3 lost_sibling) /\
  step toy toyC (opened (damaged toyC dkey 79 lost_sibling)) (CRemove zero_key) = Abort.
Proof. split; vm_compute; reflexivity. Qed.

(** (e) A leaf stored on the wrong side: inserting a key that differs from it only in the
    bits already passed reads key[32]. *)
Definition misplaced : bytes :=
  [x01] ++ pointer_write (mkptr 1 79 40) ++ repeat x00 32 ++ pointer_write (mkptr 1 79 40) ++ repeat x00 32 ++ leaf_rec (x80 :: repeat x00 31) (mkptr 1 0 3).
Theorem C30_insert_refuted :
  st_a (opened (damaged toyC dkey 79 misplaced)) (CGet zero_key None) = AErr ENOTFOUND /\
  step toy toyC (opened (damaged toyC dkey 79 misplaced)) (CInsert zero_key v1) = UB.
Proof. split; vm_compute; reflexivity. Qed.

(** (f) A commit record that names itself as its predecessor: looking up an old root never
    ends, for every hash function and every key (the loop holds the database lock). *)
Definition self_record (C : bytes -> bytes -> bytes) (key : bytes) : bytes :=
  meta_write C key (mkmeta (mkptr 1 0 38) ptr0 NNull).
Theorem C30_history_refuted H C key h k :
  (forall a b, length (C a b) = 20) -> h <> zero_hash ->
  exists d, db_open H C key [self_record C key] [] = Ok (Some d) /\
    (forall fuel, history_loop H C fuel (d_store d) h = NoFuel) /\
    step H C (mkworld (Some d) []) (CGet k (Some h)) = NoFuel.
Proof.
  intros Cl Nz. set (f := self_record C key).
  assert (Lf : length f = 38) by (apply meta_write_length; exact Cl).
  set (m := mkmeta (mkptr 1 0 38) ptr0 NNull).
  assert (Rd : meta_read C key f = Ok (Some m)).
  { unfold f, self_record. rewrite (meta_roundtrip C Cl) by (unfold ptr_ok; cbn; lia). reflexivity. }
  set (s := mkstore [f] [OCut 0 38] key (mkslab [] 0 [] 0 38 1) (mkmeta (mkptr 1 0 38) ptr0 NNull) m [] 1 38 []).
  assert (Fm : find_meta C key f (length f / 38) = Ok (Some (m, 0))).
  { rewrite Lf. change (38 / 38) with 1. cbn [find_meta]. change (38 * 0) with 0. cbn [skipn].
    rewrite firstn_all2 by lia. rewrite Rd. reflexivity. }
  assert (Op : db_open H C key [f] [] = Ok (Some (mkdb s zero_hash false))).
  { unfold db_open, store_open. cbn [length recover hd]. change (fget [f] 0) with f. rewrite Fm. cbn [bind].
    rewrite firstn_all2 by lia. change (upd [f] 0 f) with [f]. reflexivity || idtac.
    cbn [length bind]. change (fget [f] (1 - 1)) with f. unfold blen. rewrite Lf. reflexivity. }
  assert (Loop : forall fuel, history_loop H C fuel s h = NoFuel).
  { induction fuel as [|fuel IH]; [reflexivity|]. cbn [history_loop].
    assert (Rm : read_meta C s (m_meta (st_last s)) = Ok (Some m)).
    { unfold read_meta. change (st_rd s (mkptr (pidx (m_meta (st_last s))) (ppos (m_meta (st_last s))) 38)) with (Some (slice f 0 38)).
      unfold slice. cbn [N.to_nat skipn]. rewrite firstn_all2 by lia. exact Rd. }
    change (pidx (m_meta (st_last s)) =? 0)%N with false. rewrite Rm. cbn [bind].
    change (read_root H s (m_root m)) with (Ok (Some NNull, s)). cbn [bind].
    destruct (bytes_eqb_spec (hash_field NNull) h) as [E|_]; [exfalso; apply Nz; symmetry; exact E|].
    change (set_last s m) with s. exact IH. }
  exists (mkdb s zero_hash false). split; [exact Op|]. split; [exact Loop|].
  cbn [step w_db]. unfold db_read, tx_create. cbn [d_store d_revert].
  assert (Hist : read_history H C s h = NoFuel).
  { unfold read_history. destruct (bytes_eqb_spec h zero_hash) as [|_]; [contradiction|].
    change (hash_field (m_node (st_state s))) with zero_hash. destruct (bytes_eqb_spec h zero_hash) as [|_]; [contradiction|].
    apply Loop. }
  rewrite Hist. reflexivity.
Qed.

(** ** The conditions are met: a committed state of the library, and a damaged one *)
Definition len32 (h : option bytes) : bool := match h with Some x => length x =? 32 | None => true end.
Definition leaf_b (h : option bytes) (k : bytes) (v : option bytes) (vp : option ptr) : bool :=
  (length k =? 32) && match v with Some x => length x <=? 1023 | None => negb (is_none h) && negb (is_none vp) end.
Fixpoint orderly_b (rd : ptr -> option bytes) (rb : bool) (fuel : nat) (path : list bool) (n : node) : bool :=
  match fuel with
  | O => false
  | S fuel =>
    match n with
    | NNull => true
    | NInt h w p l r =>
      (length (bdata p) =? 32) && (length path + bsize p <? 256) &&
      forallb negb (skipn (bsize p) (kbits (bdata p))) && len32 h &&
      orderly_b rd rb fuel (path ++ bools p ++ [false]) l && orderly_b rd rb fuel (path ++ bools p ++ [true]) r
    | NLeaf h w k v vp => leaf_b h k v vp && len32 h && is_prefix path (kbits k)
    | NHash h w =>
      (length h =? 32) &&
      match resolve rd h w with
      | Ok None => negb rb
      | Ok (Some n) => orderly_b rd rb fuel path n
      | _ => false
      end
    end
  end.
Fixpoint fits_b (rd : ptr -> option bytes) (fuel s : nat) (n : node) : bool :=
  match fuel with
  | O => false
  | S fuel =>
    match n with
    | NNull => true
    | NInt h w p l r =>
      (s <? 256) && match l with NNull => false | _ => true end && match r with NNull => false | _ => true end &&
      fits_b rd fuel (S s) l && fits_b rd fuel (S s) r
    | NLeaf h w k v vp => leaf_b h k v vp
    | NHash h w =>
      match resolve rd h w with
      | Ok None => true
      | Ok (Some n) => (s <? 256) && fits_b rd fuel (S s) n
      | _ => false
      end
    end
  end.
Lemma len32_ok h : len32 h = true -> forall x, h = Some x -> length x = 32.
Proof. intros E x ->. apply Nat.eqb_eq, E. Qed.
Lemma leaf_b_ok h k v vp : leaf_b h k v vp = true -> leaf_ok h k v vp.
Proof.
  unfold leaf_b. rewrite andb_true_iff, Nat.eqb_eq. intros [L E]. destruct v as [x|].
  - left. split; [exact L|]. exists x. split; [reflexivity|]. apply Nat.leb_le, E.
  - right. apply andb_true_iff in E. destruct E as [E1 E2]. split; [exact L|]. split; [reflexivity|]. split; apply is_none_ok; assumption.
Qed.
Lemma forallb_repeat l : forallb negb l = true -> l = repeat false (length l).
Proof. induction l as [|[|] l IH]; intros E; cbn in *; try discriminate; [reflexivity|]. f_equal. apply IH, E. Qed.
Lemma orderly_b_ok rd rb fuel : forall path n, orderly_b rd rb fuel path n = true -> orderly rd rb path n.
Proof.
  induction fuel as [|fuel IH]; intros path n E; [discriminate|]. destruct n as [|h w p l r|h w k v vp|h w]; cbn [orderly_b] in E.
  - constructor.
  - rewrite !andb_true_iff in E. destruct E as (((((E1 & E2) & E3) & E4) & E5) & E6). apply Nat.eqb_eq in E1. apply Nat.ltb_lt in E2.
    apply so_int; [|exact E2|apply len32_ok, E4|apply IH, E5|apply IH, E6]. split; [exact E1|]. split; [lia|]. rewrite (forallb_repeat _ E3) at 1.
    rewrite skipn_length, kbits_length, E1. reflexivity.
  - rewrite !andb_true_iff in E. destruct E as ((E1 & E2) & E3). apply so_leaf; [apply leaf_b_ok, E1|apply len32_ok, E2|apply is_prefix_iff, E3].
  - rewrite andb_true_iff in E. destruct E as (E1 & E2). apply Nat.eqb_eq in E1.
    destruct (resolve rd h w) as [[n|]|e| | |] eqn:Er; try discriminate.
    + eapply so_hash; [exact E1|exact Er|]. apply IH, E2.
    + apply so_bad; [destruct rb; [discriminate|reflexivity]|exact E1|exact Er].
Qed.
Lemma fits_b_ok rd fuel : forall s n, fits_b rd fuel s n = true -> fits rd s n.
Proof.
  induction fuel as [|fuel IH]; intros s n E; [discriminate|]. destruct n as [|h w p l r|h w k v vp|h w]; cbn [fits_b] in E.
  - constructor.
  - rewrite !andb_true_iff in E. destruct E as ((((E1 & E2) & E3) & E4) & E5). apply Nat.ltb_lt in E1.
    constructor; auto; [destruct l; discriminate|destruct r; discriminate].
  - constructor. apply leaf_b_ok, E.
  - destruct (resolve rd h w) as [[n|]|e| | |] eqn:Er; try discriminate.
    + rewrite andb_true_iff in E. destruct E as (E1 & E2). apply Nat.ltb_lt in E1. eapply ft_hash; [exact Er|exact E1|]. apply IH, E2.
    + apply ft_bad, Er.
Qed.

(** Two leaves, one unreadable: reads report errors, but removal is excluded ... *)
Example lost_sibling_ok :
  orderly (reader (opened (damaged toyC dkey 79 lost_sibling))) false [] (root_of (opened (damaged toyC dkey 79 lost_sibling))) /\
  fits (reader (opened (damaged toyC dkey 79 lost_sibling))) 1 (root_of (opened (damaged toyC dkey 79 lost_sibling))) /\
  st_a (opened (damaged toyC dkey 79 lost_sibling)) (CGet (xff :: repeat x00 31) None) = AErr ECORRUPTION.
Proof.
  split; [apply (orderly_b_ok _ _ 10); vm_compute; reflexivity|]. split; [apply (fits_b_ok _ 10); vm_compute; reflexivity|].
  vm_compute. reflexivity.
Qed.
(** ... while after a real commit everything is orderly. *)
Example demo_orderly :
  orderly (reader (pw demo)) true [] (root_of (pw demo)) /\ fits (reader (pw demo)) 1 (root_of (pw demo)) /\ root_of (pw demo) <> NNull.
Proof.
  split; [apply (orderly_b_ok _ _ 10); vm_compute; reflexivity|]. split; [apply (fits_b_ok _ 10); vm_compute; reflexivity|].
  destruct (root_of (pw demo)) eqn:E; [vm_compute in E; discriminate E|discriminate..].
Qed.

(** A hand-made file that the library never wrote, with two leaves and zero hashes: orderly. *)
Definition forged : bytes :=
  [x01] ++ pointer_write (mkptr 1 79 40) ++ repeat x00 32 ++ pointer_write (mkptr 1 119 40) ++ repeat x00 32 ++
  leaf_rec zero_key (mkptr 1 0 3) ++ leaf_rec (x80 :: repeat x00 31) (mkptr 1 4 900).
Example forged_session :
  orderly (reader (opened (damaged toyC dkey 79 forged))) true [] (root_of (opened (damaged toyC dkey 79 forged))) /\
  match run toy toyC (mkworld (w_db (opened (damaged toyC dkey 79 forged))) [TLive (root_of (opened (damaged toyC dkey 79 forged)))])
    [CTxGet 0 zero_key; CTxGet 0 (x80 :: repeat x00 31); CTxRemove 0 zero_key; CTxHas 0 zero_key] with
  | Ok (l, _) => l = [AVal (firstn 3 forged); AErr ECORRUPTION; AOk; AErr ENOTFOUND]
  | _ => False
  end.
Proof. split; [apply (orderly_b_ok _ _ 10); vm_compute; reflexivity|]. vm_compute. reflexivity. Qed.

Print Assumptions C30_terminates_partial.
Print Assumptions C30_reads_partial.
Print Assumptions C30_session_partial.
Print Assumptions C30_history_refuted.
