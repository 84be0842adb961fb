(** * Writing a tree, writing the commit record, urkel_store_commit. *)
From Verif Require Export StoreFacts.
From Coq Require Import ZifyBool ZifyNat ZifyN.

Section C.
Variable H : bytes -> bytes.
Hypothesis H_len : forall m, length (H m) = 32.

(** ** More readable files keep every stored tree *)
Lemma on_disk_mono (rd rd' : ptr -> option bytes) t : (forall p x, rd p = Some x -> rd' p = Some x) ->
  forall p, on_disk H rd t p -> on_disk H rd' t p.
Proof.
  intros M. induction t as [|k v|pre l IHl r IHr]; intros p D; [exact D| |].
  - destruct D as (P & raw & vp & E1 & E2 & E3 & E4). split; [exact P|]. exists raw, vp. auto.
  - destruct D as (P & raw & lp & rp & E1 & E2 & D1 & D2). split; [exact P|]. exists raw, lp, rp. auto 10.
Qed.

Lemma rep_mono (rd rd' : ptr -> option bytes) n : (forall p x, rd p = Some x -> rd' p = Some x) ->
  forall t, rep H rd n t -> rep H rd' n t.
Proof.
  intros M. induction n as [|h w p l IHl r IHr|h w k v vp|h w]; intros t R.
  - exact R.
  - destruct R as (pre & tl & tr & -> & Hh & Hw & -> & Rl & Rr). exists pre, tl, tr.
    split; [reflexivity|]. split; [exact Hh|]. split; [|auto].
    destruct w; cbn [written_ok] in *; [eauto using on_disk_mono|exact I].
  - destruct R as (x & -> & Hh & Hw & Hn & Hv). exists x. split; [reflexivity|]. split; [exact Hh|].
    split. { destruct w; cbn [written_ok] in *; [eauto using on_disk_mono|exact I]. }
    split; [exact Hn|]. destruct Hv as [Hv|(E1 & E2 & q & E3 & E4 & E5)]; [auto|right]. eauto 10.
  - destruct R as [-> D]. split; [reflexivity|]. eauto using on_disk_mono.
Qed.

Lemma rdl_mono V V' : ext V V' -> forall p x, rdl V p = Some x -> rdl V' p = Some x.
Proof. intros E p x. apply rdl_ext, E. Qed.

(** ** Progress: everything a write leaves intact *)
Record prog (s s' : store) (V V' : list bytes) : Prop := {
  pg_cut : cutof V V';
  pg_keep : keep s s';
  pg_io : iosub s s';
  pg_rd : rmono s s';
  pg_log : logs s s' V';
  pg_cap : (st_index s < MAX_FILES)%N -> (st_index s' < MAX_FILES)%N }.

Lemma view_cut s V : view s V -> cutof (st_fs s) V.
Proof.
  intros (b & c & p0 & ps & [wf wi ws wd wsi wp wm wa] & ->). destruct wf as (extra & F1 & F2). rewrite F1.
  destruct F2 as [->|(-> & -> & Y)].
  - exists b, c, p0, ps. auto.
  - destruct ps as [|q ps]; [congruence|]. exists (b ++ [c]), [], q, ps. rewrite <- !app_assoc, app_nil_r. auto.
Qed.

Lemma prog_refl s V : view s V -> prog s s V V.
Proof.
  intros VV. constructor.
  - apply cutof_refl'. eauto using view_nonnil.
  - apply keep_refl.
  - intros P F. exact F.
  - apply rmono_refl.
  - apply logs_nil; auto. apply view_cut, VV.
  - auto.
Qed.

Lemma prog_trans a b c V1 V2 V3 : prog a b V1 V2 -> prog b c V2 V3 -> prog a c V1 V3.
Proof.
  intros [A1 A2 A3 A4 A5 A6] [B1 B2 B3 B4 B5 B6].
  constructor; eauto using cutof_trans, keep_trans, iosub_trans, rmono_trans, logs_trans, logs_mono.
Qed.

(** Adding bytes to the buffer. *)
Lemma slab_step s V d : view s V -> (blen d <= MAX_FILE_SIZE)%N ->
  exists sl, slab_write (st_slab s) d = Ok sl /\
    view (set_slab s sl) (vapp V d) /\ prog s (set_slab s sl) V (vapp V d) /\
    sl_index sl = N.of_nat (length (vapp V d)) /\ sl_pos sl = blen (last (vapp V d) []) /\
    (sl_pos sl <= MAX_FILE_SIZE)%N.
Proof.
  intros VV L. destruct (slab_write (st_slab s) d) as [sl| | | |] eqn:E.
  2-5: exfalso; unfold slab_write, check in E; destruct (N.leb_spec (blen d) MAX_FILE_SIZE) as [X|X]; [discriminate|lia].
  destruct (slab_write_view s V d sl VV E) as (V1 & I1 & P1).
  exists sl. split; [reflexivity|]. split; [exact V1|].
  split.
  { constructor.
    - apply vapp_cut. eauto using view_nonnil.
    - repeat split.
    - intros P F. exact F.
    - intros p x R. exact R.
    - assert (G : logs s s (vapp V d)); [|exact G]. apply logs_nil; auto. eapply cutof_trans; [apply view_cut, VV|].
      apply vapp_cut. eauto using view_nonnil.
    - auto. }
  split; [exact I1|]. split; [exact P1|]. rewrite P1. destruct (view_slab_end _ _ V1) as (_ & _ & M). exact M.
Qed.

(** The pointer the library remembers for bytes just added. *)
Lemma mark_read V d sl : V <> [] -> sl_index sl = N.of_nat (length (vapp V d)) -> sl_pos sl = blen (last (vapp V d) []) ->
  (sl_pos sl <= MAX_FILE_SIZE)%N -> (blen d < 256)%N -> (N.of_nat (length (vapp V d)) < 32768)%N ->
  let w := mark_ptr (sl_index sl) (sl_pos sl - blen d) (blen d) in
  rdl (vapp V d) w = Some d /\ (pidx w < 32768)%N /\ (ppos w < 2147483648)%N /\ psize w = blen d.
Proof.
  intros N0 I P M L Cap w. subst w. unfold mark_ptr. rewrite I, P in *. unfold MAX_FILE_SIZE in *.
  rewrite !N.mod_small by lia. split; [apply vapp_read; exact N0|]. cbn [pidx ppos psize]. lia.
Qed.

(** Sizes of node records. *)
Lemma node_write_int h w p lh lw rh rw : ok_bits p -> length lh = 32 -> length rh = 32 ->
  exists raw, node_write (NInt h w p (NHash lh lw) (NHash rh rw)) = Ok raw /\ length raw <= 113.
Proof.
  intros Op L1 L2. cbn [node_write child_write written hashed bind]. eexists. split; [reflexivity|].
  pose proof (prefix_bytes_length p Op) as PL. destruct Op as [_ Sp].
  pose proof (nbytes_bound (bsize p) 32 ltac:(lia)) as NB.
  rewrite !app_length, !pointer_write_length, L1, L2.
  destruct (255 <? bsize p); [|destruct (0 <? bsize p)]; rewrite ?app_length, ?PL; cbn [length write8 write16]; lia.
Qed.

Lemma node_write_leaf h w k v q : length k = 32 ->
  exists raw, node_write (NLeaf h w k v (Some q)) = Ok raw /\ length raw = 40.
Proof.
  intros L. cbn [node_write]. eexists. split; [reflexivity|].
  rewrite !app_length, pointer_write_length, L. cbn [length write8]. lia.
Qed.

Lemma node_ptr_ok p : node_ptr p -> ptr_ok p.
Proof. unfold node_ptr, ptr_ok. lia. Qed.

Lemma on_disk_node_ptr rd t p : on_disk H rd t p -> node_ptr p.
Proof. destruct t; cbn [on_disk]; [contradiction|tauto|tauto]. Qed.

Definition cap16 (V : list bytes) : Prop := (N.of_nat (length V) < 32768)%N.
Lemma ext_length V V' : ext V V' -> length V <= length V'.
Proof.
  intros E. destruct (Nat.le_gt_cases (length V) (length V')) as [L|L]; [exact L|].
  destruct (nth_error V (length V')) as [f|] eqn:N1.
  - destruct (E _ _ N1) as (x & N2). apply nth_error_Some in L. 
    assert (nth_error V' (length V') = None) by (apply nth_error_None; lia). congruence.
  - apply nth_error_None in N1. lia.
Qed.
Lemma cut_length V V' : cutof V V' -> length V <= length V'.
Proof. intros C. apply ext_length, cutof_ext, C. Qed.
Lemma cap16_cut V V' : cutof V V' -> cap16 V' -> cap16 V.
Proof. intros C. apply cut_length in C. unfold cap16. lia. Qed.

(** [V'] results from [V] by adding pieces of at most 255 bytes, [n] bytes in total. *)
Inductive adds (V : list bytes) : nat -> list bytes -> Prop :=
| adds_nil : adds V 0 V
| adds_more n V1 d : adds V n V1 -> length d <= 255 -> adds V (n + length d) (vapp V1 d).

Lemma adds_trans V n V1 m V2 : adds V n V1 -> adds V1 m V2 -> adds V (n + m) V2.
Proof.
  intros A B. induction B as [|m V2 d B IH L]; [now rewrite Nat.add_0_r|]. rewrite Nat.add_assoc. constructor; assumption.
Qed.
Lemma adds_one V d : length d <= 255 -> adds V (length d) (vapp V d).
Proof. intros L. apply (adds_more V 0 V d); [constructor|exact L]. Qed.

(** How many files [n] more bytes can start: every file that gets full holds all but the
    last 254 bytes a file may have. *)
Lemma adds_files V n V' : V <> [] -> adds V n V' ->
  (N.of_nat (length V') <= N.of_nat (length V) + 1 + N.of_nat n / (MAX_FILE_SIZE - 254))%N.
Proof.
  intros N0 A.
  assert (G : V' <> [] /\ (length V' = length V \/ exists k, length V' = length V + 1 + k /\
              (N.of_nat k * (MAX_FILE_SIZE - 254) + blen (last V' []) <= N.of_nat n)%N)).
  { induction A as [|n V1 d A IH Ld]; [auto|]. destruct IH as [N1 G]. split; [apply vapp_nonnil|].
    assert (Bd : blen d = N.of_nat (length d)) by reflexivity.
    unfold vapp. destruct (N.ltb_spec MAX_FILE_SIZE (blen (last V1 []) + blen d)) as [X|X].
    - rewrite app_length, last_last. cbn [length]. right. destruct G as [G|(k & G1 & G2)].
      + exists 0. split; [lia|]. rewrite Bd. lia.
      + exists (S k). split; [lia|]. unfold MAX_FILE_SIZE in *. lia.
    - rewrite app_length, last_last, blen_app. cbn [length].
      assert (R : length (removelast V1) + 1 = length V1).
      { destruct (exists_last N1) as (b & f & ->). rewrite removelast_last, app_length. reflexivity. }
      destruct G as [G|(k & G1 & G2)]; [left; lia|right]. exists k. split; [lia|]. lia. }
  destruct G as [_ [G|(k & G1 & G2)]]. { generalize (N.of_nat n / (MAX_FILE_SIZE - 254))%N. lia. }
  assert (N.of_nat k <= N.of_nat n / (MAX_FILE_SIZE - 254))%N as Q; [|revert Q; generalize (N.of_nat n / (MAX_FILE_SIZE - 254))%N; lia].
  apply N.div_le_lower_bound; [unfold MAX_FILE_SIZE; lia|]. lia.
Qed.

(** Bytes needed to store a tree. *)
Fixpoint tcost (t : ptree) : nat :=
  match t with
  | PNull => 0
  | PLeaf _ v => 113 + length v
  | PInt _ l r => 113 + tcost l + tcost r
  end.

(** Bytes needed to store those nodes of a structure that have no pointer yet. *)
Fixpoint wcost (n : node) : nat :=
  match n with
  | NInt _ w _ l r => (match w with None => 113 | Some _ => 0 end) + wcost l + wcost r
  | NLeaf _ None _ (Some v) _ => 40 + length v
  | _ => 0
  end.
Lemma wcost_tcost rd n : forall t, rep H rd n t -> wcost n <= tcost t.
Proof.
  induction n as [|h w p l IHl r IHr|h w k v vp|h w]; intros t R; cbn [wcost]; [lia| | |lia].
  - destruct R as (pre & tl & tr & -> & _ & _ & _ & Rl & Rr). specialize (IHl _ Rl). specialize (IHr _ Rr).
    cbn [tcost]. destruct w; lia.
  - destruct R as (x & -> & _ & _ & Hn & _). cbn [tcost]. destruct w as [w|]; [lia|]. destruct (Hn eq_refl) as [-> _]. lia.
Qed.

(** Writing one node record. *)
Lemma write_int_spec s V h pre tl tr lw rw :
  view s V -> length pre <= 256 ->
  exists w s', write_node s (NInt h None (of_bools pre) (NHash (thash H tl) lw) (NHash (thash H tr) rw)) =
    Ok (NInt h (Some w) (of_bools pre) (NHash (thash H tl) lw) (NHash (thash H tr) rw), s') /\
    exists V' m, view s' V' /\ prog s s' V V' /\ adds V m V' /\ m <= 113 /\
      (cap16 V' -> on_disk H (rdl V) tl lw -> on_disk H (rdl V) tr rw -> on_disk H (rdl V') (PInt pre tl tr) w).
Proof.
  intros VV Lp. pose proof (of_bools_wf pre Lp) as Wp.
  destruct (node_write_int h None (of_bools pre) (thash H tl) lw (thash H tr) rw (wf_ok _ Wp)
             (thash_len H H_len tl) (thash_len H H_len tr)) as (raw & E & Lr).
  unfold write_node. rewrite E. cbn [bind].
  assert (LB : (blen raw < 256)%N) by (unfold blen; lia).
  destruct (slab_step s V raw VV) as (sl & Es & V1 & P1 & I1 & Ps1 & M1). { unfold MAX_FILE_SIZE. lia. }
  rewrite Es. cbn [bind]. eexists _, _. split; [reflexivity|]. exists (vapp V raw), (length raw). split; [exact V1|]. split; [exact P1|].
  split; [apply adds_one; lia|]. split; [exact Lr|]. intros Cap Dl Dr.
  destruct (mark_read V raw sl (view_nonnil _ _ VV) I1 Ps1 M1 LB Cap) as (R & R1 & R2 & R3).
  set (w := mark_ptr (sl_index sl) (sl_pos sl - blen raw) (blen raw)) in *. clearbody w.
  destruct (node_roundtrip (NInt h None (of_bools pre) (NHash (thash H tl) lw) (NHash (thash H tr) rw)) [])
    as (raw' & m & E' & Em & Er & Len).
  { split; [exact Wp|]. split; (split; [apply node_ptr_ok; eapply on_disk_node_ptr; eassumption|apply thash_len, H_len]). }
  rewrite E in E'. apply Ok_inj in E'. subst raw'. rewrite app_nil_r in Er.
  cbn [stored written hashed] in Em. injection Em as <-.
  assert (Mo : forall p x, rdl V p = Some x -> rdl (vapp V raw) p = Some x).
  { apply rdl_mono, cutof_ext, vapp_cut. eauto using view_nonnil. }
  cbn [on_disk]. split. { unfold node_ptr. rewrite R3. unfold blen. lia. }
  exists raw, lw, rw. split; [exact R|]. split; [exact Er|]. split; eauto using on_disk_mono.
Qed.

Lemma write_leaf_spec s V h k v : view s V -> length k = 32 -> (blen v < 256)%N ->
  exists w q s1 s', write_value s (NLeaf h None k (Some v) None) = Ok (NLeaf h None k (Some v) (Some q), s1) /\
    write_node s1 (NLeaf h None k (Some v) (Some q)) = Ok (NLeaf h (Some w) k (Some v) (Some q), s') /\
    exists V' m, view s' V' /\ prog s s' V V' /\ adds V m V' /\ m <= 40 + length v /\
      (cap16 V' -> on_disk H (rdl V') (PLeaf k v) w).
Proof.
  intros VV Lk Lv. cbn [write_value].
  destruct (slab_step s V v VV) as (sl & Es & V1 & P1 & I1 & Ps1 & M1). { unfold MAX_FILE_SIZE. lia. }
  rewrite Es. cbn [bind]. set (q := mark_ptr (sl_index sl) (sl_pos sl - blen v) (blen v)).
  destruct (node_write_leaf h None k (Some v) q Lk) as (raw & E & Lr).
  assert (LB : (blen raw < 256)%N) by (unfold blen; lia).
  destruct (slab_step (set_slab s sl) (vapp V v) raw V1) as (sl2 & Es2 & V2 & P2 & I2 & Ps2 & M2). { unfold MAX_FILE_SIZE. lia. }
  eexists (mark_ptr (sl_index sl2) (sl_pos sl2 - blen raw) (blen raw)), q, _, _. split; [reflexivity|].
  unfold write_node. rewrite E. cbn [bind]. rewrite Es2. cbn [bind]. split; [reflexivity|].
  exists (vapp (vapp V v) raw), (length v + length raw). split; [exact V2|]. split; [eauto using prog_trans|].
  split. { apply adds_more; [apply adds_one|]; unfold blen in Lv; lia. } split; [lia|].
  intros Cap.
  destruct (mark_read _ raw sl2 (vapp_nonnil V v) I2 Ps2 M2 LB Cap) as (R & R1 & R2 & R3).
  assert (C2 : cutof (vapp V v) (vapp (vapp V v) raw)) by apply vapp_cut, vapp_nonnil.
  destruct (mark_read V v sl (view_nonnil _ _ VV) I1 Ps1 M1 Lv (cap16_cut _ _ C2 Cap)) as (Q & Q1 & Q2 & Q3).
  fold q in Q, Q1, Q2, Q3. set (w := mark_ptr (sl_index sl2) (sl_pos sl2 - blen raw) (blen raw)) in *. clearbody w q.
  destruct (node_roundtrip (NLeaf h None k (Some v) (Some q)) []) as (raw' & m & E' & Em & Er & Len).
  { split; [exact Lk|]. unfold ptr_ok. lia. }
  rewrite E in E'. apply Ok_inj in E'. subst raw'. rewrite app_nil_r in Er.
  cbn [stored] in Em. injection Em as <-.
  cbn [on_disk]. split. { unfold node_ptr. rewrite R3. unfold blen. lia. }
  exists raw, q. split; [exact R|]. split; [exact Er|]. split; [lia|].
  revert Q. apply rdl_mono, cutof_ext, C2.
Qed.

(** An optional flush. *)
Lemma maybe_flush s V : view s V ->
  match (if needs_flush s then store_flush s else Ok (true, s)) with
  | Ok (true, s') => view s' V /\ prog s s' V V
  | Ok (false, s') => prog s s' V V /\ (Forall clean_fault (st_io s) -> view s' V)
  | Abort => (MAX_FILES <= N.of_nat (length V))%N
  | _ => False
  end.
Proof.
  intros VV. destruct (needs_flush s).
  - pose proof (flush_spec s V VV) as F. destruct (store_flush s) as [[[|] s']| | | |]; auto.
    + destruct F as (F1 & F2 & F3 & F4 & F5 & F6 & F7). split.
      * rewrite <- F1. apply clean_view, F2.
      * constructor; auto. apply cutof_refl'. eauto using view_nonnil.
    + destruct F as (F1 & F2 & F3 & F4 & F5 & F6). split; [|exact F6]. constructor; auto.
      apply cutof_refl'. eauto using view_nonnil.
  - split; [exact VV|]. apply prog_refl, VV.
Qed.

(** ** urkel_tree_write *)
Lemma tree_write_cost n : forall t path s V,
  rep H (rdl V) n t -> (t = PNull \/ wfn path t) -> vals_le 255 t -> view s V ->
  match tree_write H s n with
  | Ok (Some n', s') => exists V' m, view s' V' /\ prog s s' V V' /\ adds V m V' /\ m <= wcost n /\
      ((t = PNull /\ n' = NNull) \/
       (t <> PNull /\ exists w, n' = NHash (thash H t) w /\ (cap16 V' -> on_disk H (rdl V') t w)))
  | Ok (None, s') => exists V' m, prog s s' V V' /\ adds V m V' /\ m <= wcost n /\ (Forall clean_fault (st_io s) -> view s' V')
  | Abort => exists V' m, cutof V V' /\ adds V m V' /\ m <= wcost n /\ (MAX_FILES <= N.of_nat (length V'))%N
  | _ => False
  end.
Proof.
  induction n as [|h w p l IHl r IHr|h w k v vp|h w]; intros t path s V R W VL VV.
  - cbn in R. subst t. cbn [tree_write]. exists V, 0. split; [exact VV|]. split; [apply prog_refl, VV|]. split; [constructor|]. split; [lia|]. auto.
  - pose proof R as (pre & tl & tr & -> & Hh & Hw & -> & Rl & Rr).
    destruct W as [W|W]; [discriminate W|]. pose proof (wfn_pre_ok _ _ _ _ W) as Lp. destruct W as [Wl Wr].
    assert (VLl : vals_le 255 tl). { intros k v I. apply (VL k v). cbn. apply in_or_app; auto. }
    assert (VLr : vals_le 255 tr). { intros k v I. apply (VL k v). cbn. apply in_or_app; auto. }
    cbn [tree_write].
    specialize (IHl tl _ s V Rl (or_intror Wl) VLl VV).
    destruct (tree_write H s l) as [[[l'|] s1]| | | |]; cbn [bind]; auto.
    2:{ destruct IHl as (V1 & m1 & P1 & A1 & M1 & C1). exists V1, m1. split; [exact P1|]. split; [exact A1|]. split; [cbn [wcost]; lia|exact C1]. }
    2:{ destruct IHl as (V1 & m1 & C1 & A1 & M1 & Cap). exists V1, m1. split; [exact C1|]. split; [exact A1|]. split; [cbn [wcost]; lia|exact Cap]. }
    destruct IHl as (V1 & m1 & VV1 & P1 & A1 & M1 & [[X _]|(Nl & lw & -> & Dl)]). { subst tl. contradiction Wl. }
    assert (Rr1 : rep H (rdl V1) r tr). { revert Rr. apply rep_mono, rdl_mono, cutof_ext, P1. }
    specialize (IHr tr _ s1 V1 Rr1 (or_intror Wr) VLr VV1).
    destruct (tree_write H s1 r) as [[[r'|] s2]| | | |]; cbn [bind]; auto.
    2:{ destruct IHr as (V2 & m2 & P2 & A2 & M2 & C2). exists V2, (m1 + m2). split; [eauto using prog_trans|].
        split; [eapply adds_trans; eassumption|]. split; [cbn [wcost]; lia|]. intros F. apply C2. apply P1, F. }
    2:{ destruct IHr as (V2 & m2 & C2 & A2 & M2 & Cap). exists V2, (m1 + m2). split; [eapply cutof_trans; [apply P1|exact C2]|].
        split; [eapply adds_trans; eassumption|]. split; [cbn [wcost]; lia|exact Cap]. }
    destruct IHr as (V2 & m2 & VV2 & P2 & A2 & M2 & [[X _]|(Nr & rw & -> & Dr)]). { subst tr. contradiction Wr. }
    assert (P02 : prog s s2 V V2) by eauto using prog_trans.
    destruct w as [w|].
    + cbn [bind negb]. 
      assert (Out : exists n1, node_hash H (NInt h (Some w) (of_bools pre) (NHash (thash H tl) lw) (NHash (thash H tr) rw)) = Ok (thash H (PInt pre tl tr), n1) /\
                node_to_hash n1 = Ok (NHash (thash H (PInt pre tl tr)) w)).
      { destruct h as [h|].
        - destruct Hh as [X|X]; [discriminate X|]. injection X as ->. eexists. split; reflexivity.
        - eexists. split; reflexivity. }
      destruct Out as (n1 & -> & E2). cbn [bind]. rewrite E2. cbn [bind]. exists V2, (m1 + m2). split; [exact VV2|]. split; [exact P02|].
      split; [eapply adds_trans; eassumption|]. split; [cbn [wcost]; lia|].
      right. split; [discriminate|]. exists w. split; [reflexivity|]. intros _. cbn [written_ok] in Hw.
      revert Hw. apply on_disk_mono, rdl_mono, cutof_ext, P02.
    + destruct (write_int_spec s2 V2 h pre tl tr lw rw VV2 Lp) as (w & s3 & E & V3 & m3 & VV3 & P3 & A3 & M3 & D3).
      assert (A03 : adds V (m1 + m2 + m3) V3) by (eapply adds_trans; [eapply adds_trans; eassumption|exact A3]).
      assert (M03 : m1 + m2 + m3 <= wcost (NInt h None (of_bools pre) l r)) by (cbn [wcost]; lia).
      rewrite E. cbn [bind]. pose proof (maybe_flush s3 V3 VV3) as MF.
      assert (P03 : prog s s3 V V3) by eauto using prog_trans.
      assert (Dw : cap16 V3 -> on_disk H (rdl V3) (PInt pre tl tr) w).
      { intros Cap. apply D3; [exact Cap| |].
        - assert (C1 : cap16 V1) by (eapply cap16_cut; [|exact Cap]; eapply cutof_trans; [apply P2|apply P3]).
          generalize (Dl C1). apply on_disk_mono, rdl_mono, cutof_ext, P2.
        - apply Dr. eapply cap16_cut; [apply P3|exact Cap]. }
      assert (Out : forall s' : store, (let! (_, n) := node_hash H (NInt h (Some w) (of_bools pre) (NHash (thash H tl) lw) (NHash (thash H tr) rw)) in
                     let! out := node_to_hash n in Ok (Some out, s')) = Ok (Some (NHash (thash H (PInt pre tl tr)) w), s')).
      { intros s'. destruct h as [h|].
        - destruct Hh as [X|X]; [discriminate X|]. injection X as ->. reflexivity.
        - reflexivity. }
      destruct (needs_flush s3).
      * destruct (store_flush s3) as [[[|] s4]| | | |]; cbn [bind negb]; auto.
        -- rewrite Out. destruct MF as [VV4 P4]. eexists V3, _. split; [exact VV4|]. split; [eauto using prog_trans|].
           split; [exact A03|]. split; [exact M03|]. right. split; [discriminate|]. eauto.
        -- destruct MF as [P4 C4]. eexists V3, _. split; [eauto using prog_trans|]. split; [exact A03|]. split; [exact M03|]. intros F. apply C4. apply P03, F.
        -- eexists V3, _. split; [apply P03|]. split; [exact A03|]. split; [exact M03|exact MF].
      * cbn [bind negb]. rewrite Out. eexists V3, _. split; [exact VV3|]. split; [exact P03|]. split; [exact A03|]. split; [exact M03|]. right. split; [discriminate|]. eauto.
  - pose proof R as (x & -> & Hh & Hw & Hn & Hv). destruct W as [W|W]; [discriminate W|]. destruct W as [Lk _].
    assert (Lx : (blen x < 256)%N). { assert (length x <= 255) by (apply (VL k x); cbn; auto). unfold blen. lia. }
    cbn [tree_write]. destruct w as [w|].
    + cbn [bind negb]. 
      assert (Out : exists n1, node_hash H (NLeaf h (Some w) k v vp) = Ok (thash H (PLeaf k x), n1) /\
                node_to_hash n1 = Ok (NHash (thash H (PLeaf k x)) w)).
      { destruct h as [h|].
        - destruct Hh as [X|X]; [discriminate X|]. injection X as ->. eexists. split; reflexivity.
        - destruct Hv as [->|(_ & X & _)]; [|congruence]. eexists. split; reflexivity. }
      destruct Out as (n1 & -> & E2). cbn [bind]. rewrite E2. cbn [bind]. exists V, 0. split; [exact VV|]. split; [apply prog_refl, VV|].
      split; [constructor|]. split; [lia|]. right. split; [discriminate|]. exists w. split; [reflexivity|]. intros _. exact Hw.
    + destruct (Hn eq_refl) as [-> ->].
      destruct (write_leaf_spec s V h k x VV Lk Lx) as (w & q & s1 & s3 & E1 & E2 & V3 & m3 & VV3 & P3 & A03 & M03 & D3).
      rewrite E1. cbn [bind]. rewrite E2. cbn [bind]. pose proof (maybe_flush s3 V3 VV3) as MF.
      assert (Out : forall s' : store, (let! (_, n) := node_hash H (NLeaf h (Some w) k (Some x) (Some q)) in
                     let! out := node_to_hash n in Ok (Some out, s')) = Ok (Some (NHash (thash H (PLeaf k x)) w), s')).
      { intros s'. destruct h as [h|].
        - destruct Hh as [X|X]; [discriminate X|]. injection X as ->. reflexivity.
        - reflexivity. }
      destruct (needs_flush s3).
      * destruct (store_flush s3) as [[[|] s4]| | | |]; cbn [bind negb]; auto.
        -- rewrite Out. destruct MF as [VV4 P4]. eexists V3, _. split; [exact VV4|]. split; [eauto using prog_trans|].
           split; [exact A03|]. split; [exact M03|]. right. split; [discriminate|]. eauto.
        -- destruct MF as [P4 C4]. eexists V3, _. split; [eauto using prog_trans|]. split; [exact A03|]. split; [exact M03|]. intros F. apply C4. apply P3, F.
        -- eexists V3, _. split; [apply P3|]. split; [exact A03|]. split; [exact M03|exact MF].
      * cbn [bind negb]. rewrite Out. eexists V3, _. split; [exact VV3|]. split; [exact P3|]. split; [exact A03|]. split; [exact M03|]. right. split; [discriminate|]. eauto.
  - cbn [tree_write]. pose proof R as (-> & D). exists V, 0. split; [exact VV|]. split; [apply prog_refl, VV|].
    split; [constructor|]. split; [lia|]. right. split; [eauto using on_disk_nonnull|]. exists w. auto.
Qed.
Lemma tree_write_spec n : forall t path s V,
  rep H (rdl V) n t -> (t = PNull \/ wfn path t) -> vals_le 255 t -> view s V ->
  match tree_write H s n with
  | Ok (Some n', s') => exists V' m, view s' V' /\ prog s s' V V' /\ adds V m V' /\ (m <= tcost t /\ m <= wcost n) /\
      ((t = PNull /\ n' = NNull) \/
       (t <> PNull /\ exists w, n' = NHash (thash H t) w /\ (cap16 V' -> on_disk H (rdl V') t w)))
  | Ok (None, s') => exists V' m, prog s s' V V' /\ adds V m V' /\ (m <= tcost t /\ m <= wcost n) /\ (Forall clean_fault (st_io s) -> view s' V')
  | Abort => exists V' m, cutof V V' /\ adds V m V' /\ (m <= tcost t /\ m <= wcost n) /\ (MAX_FILES <= N.of_nat (length V'))%N
  | _ => False
  end.
Proof.
  intros t path s V R W VL VV. pose proof (tree_write_cost n t path s V R W VL VV) as T. pose proof (wcost_tcost _ _ _ R) as L.
  destruct (tree_write H s n) as [[[n'|] s']| | | |]; auto.
  - destruct T as (V' & m & T1 & T2 & T3 & T4 & T5). exists V', m. split; [exact T1|]. split; [exact T2|]. split; [exact T3|]. split; [lia|exact T5].
  - destruct T as (V' & m & T1 & T2 & T3 & T4). exists V', m. split; [exact T1|]. split; [exact T2|]. split; [lia|exact T4].
  - destruct T as (V' & m & T1 & T2 & T3 & T4). exists V', m. split; [exact T1|]. split; [exact T2|]. split; [lia|exact T4].
Qed.
End C.
