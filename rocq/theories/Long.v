(** * Committing values of 256 to 1023 bytes.

    urkel_node_save (nodes.c 200-214) takes the size as uint8_t: the pointer to a value
    that is being written keeps its length modulo 256.  The refinement of the other files
    stops there; this file follows the bytes further. *)
From Verif Require Export ApiFacts Limits.
From Coq Require Import ZifyBool ZifyNat ZifyN.

(** What is read back. *)
Definition clip (v : bytes) : bytes := firstn (length v mod 256) v.
Lemma clip_short v : length v <= 255 -> clip v = v.
Proof. intros L. unfold clip. rewrite Nat.mod_small by lia. apply firstn_all. Qed.
Lemma clip_len v : length (clip v) <= 255.
Proof. unfold clip. rewrite firstn_length. pose proof (Nat.mod_upper_bound (length v) 256). lia. Qed.

Local Opaque TREE_FUEL.
Section L.
Variable H : bytes -> bytes.
Hypothesis H_len : forall m, length (H m) = 32.
Variable C : bytes -> bytes -> bytes.
Hypothesis C_len : forall k m, length (C k m) = 20.

(** The tree [t] was written at [p]: nodes and hashes are those of [t], values are clipped. *)
Fixpoint clipped (rd : ptr -> option bytes) (t : ptree) (p : ptr) : Prop :=
  match t with
  | PNull => False
  | PLeaf k v =>
    node_ptr p /\ exists raw vp, rd p = Some raw /\
      node_read raw = Ok (Some (NLeaf None None k None (Some vp))) /\
      (psize vp <= 1023)%N /\ rd vp = Some (clip v)
  | PInt pre l r =>
    node_ptr p /\ exists raw lp rp, rd p = Some raw /\
      node_read raw = Ok (Some (NInt None None (of_bools pre) (NHash (thash H l) lp) (NHash (thash H r) rp))) /\
      clipped rd l lp /\ clipped rd r rp
  end.

Lemma clipped_mono (rd rd' : ptr -> option bytes) t : (forall p x, rd p = Some x -> rd' p = Some x) ->
  forall p, clipped rd t p -> clipped rd' t p.
Proof.
  intros M. induction t as [|k v|pre l IHl r IHr]; intros p D; [exact D| |].
  - destruct D as (P & raw & vp & E1 & E2 & E3 & E4). split; [exact P|]. exists raw, vp. auto.
  - destruct D as (P & raw & lp & rp & E1 & E2 & D1 & D2). split; [exact P|]. exists raw, lp, rp. auto 10.
Qed.
Lemma vals_l n pre l r : vals_le n (PInt pre l r) -> vals_le n l.
Proof. intros V k v I. apply (V k v). cbn. apply in_or_app; auto. Qed.
Lemma vals_r n pre l r : vals_le n (PInt pre l r) -> vals_le n r.
Proof. intros V k v I. apply (V k v). cbn. apply in_or_app; auto. Qed.
Lemma disk_clipped rd t : forall p, on_disk H rd t p -> vals_le 255 t -> clipped rd t p.
Proof.
  induction t as [|k v|pre l IHl r IHr]; intros p D V; [exact D| |].
  - destruct D as (P & raw & vp & E1 & E2 & E3 & E4). split; [exact P|]. exists raw, vp. rewrite clip_short; [auto|]. apply (V k). cbn; auto.
  - destruct D as (P & raw & lp & rp & E1 & E2 & D1 & D2). split; [exact P|]. exists raw, lp, rp.
    split; [exact E1|]. split; [exact E2|]. split; [apply IHl|apply IHr]; eauto using vals_l, vals_r.
Qed.
Lemma clipped_ptr rd t p : clipped rd t p -> node_ptr p.
Proof. destruct t; cbn; [tauto|intros [X _]; exact X..]. Qed.

Lemma int_ptrs a b c d e f lp rp lp' rp' :
  Ok (Some (NInt None None a (NHash b lp) (NHash c rp))) = Ok (Some (NInt None None d (NHash e lp') (NHash f rp'))) -> lp = lp' /\ rp = rp'.
Proof. intros E. apply Ok_inj in E. injection E as _ _ -> _ ->. auto. Qed.

(** Two trees at one place have the same values. *)
Lemma disk_same rd n t : forall t0 p, on_disk H rd t p -> on_disk H rd t0 p -> vals_le n t0 -> vals_le n t.
Proof.
  induction t as [|k v|pre l IHl r IHr]; intros t0 p D D0 V; [contradiction D| |].
  - destruct D as (_ & raw & vp & E1 & E2 & _ & E4). destruct t0 as [|k0 v0|pre0 l0 r0]; [contradiction D0| |].
    + destruct D0 as (_ & raw0 & vp0 & F1 & F2 & _ & F4). rewrite E1 in F1. injection F1 as <-. rewrite E2 in F2. apply Ok_inj in F2.
      injection F2 as -> ->. rewrite E4 in F4. injection F4 as ->. exact V.
    + destruct D0 as (_ & raw0 & lp0 & rp0 & F1 & F2 & _). rewrite E1 in F1. injection F1 as <-. rewrite E2 in F2. apply Ok_inj in F2. discriminate F2.
  - destruct D as (_ & raw & lp & rp & E1 & E2 & D1 & D2). destruct t0 as [|k0 v0|pre0 l0 r0]; [contradiction D0| |].
    + destruct D0 as (_ & raw0 & vp0 & F1 & F2 & _ & F4). rewrite E1 in F1. injection F1 as <-. rewrite E2 in F2. apply Ok_inj in F2. discriminate F2.
    + destruct D0 as (_ & raw0 & lp0 & rp0 & F1 & F2 & F3 & F4). rewrite E1 in F1. injection F1 as <-. rewrite E2 in F2.
      apply int_ptrs in F2. destruct F2 as [<- <-]. specialize (IHl _ _ D1 F3 (vals_l _ _ _ _ V)). specialize (IHr _ _ D2 F4 (vals_r _ _ _ _ V)).
      intros k v I. cbn in I. apply in_app_or in I. destruct I as [I|I]; eauto.
Qed.

(** ** Everything already on disk below a node has short values *)
Definition old (rd : ptr -> option bytes) (w : ptr) : Prop := exists t, on_disk H rd t w /\ vals_le 255 t.
Definition oldw rd (w : option ptr) : Prop := match w with None => True | Some p => old rd p end.
Fixpoint young (rd : ptr -> option bytes) (n : node) : Prop :=
  match n with
  | NNull => True
  | NHash _ w => old rd w
  | NLeaf _ w _ _ _ => oldw rd w
  | NInt _ w _ l r => oldw rd w /\ young rd l /\ young rd r
  end.
Lemma old_mono (rd rd' : ptr -> option bytes) w : (forall p x, rd p = Some x -> rd' p = Some x) -> old rd w -> old rd' w.
Proof. intros M (t & D & V). exists t. split; [|exact V]. revert D. apply on_disk_mono, M. Qed.
Lemma young_mono (rd rd' : ptr -> option bytes) n : (forall p x, rd p = Some x -> rd' p = Some x) -> young rd n -> young rd' n.
Proof.
  intros M. assert (O : forall w, oldw rd w -> oldw rd' w) by (intros [w|]; cbn; [apply old_mono, M|auto]).
  induction n as [|h w p l IHl r IHr|h w k v vp|h w]; cbn [young]; intros Y; auto.
  - destruct Y as (Y1 & Y2 & Y3). auto.
  - revert Y. apply old_mono, M.
Qed.
Lemma resolve_young rd h w n : old rd w -> resolve rd h w = Ok (Some n) -> young rd n.
Proof.
  intros (t & D & V) E. pose proof (ex_intro _ t (conj D V) : old rd w) as O. revert E. unfold resolve, read_node.
  destruct t as [|k v|pre l r]; [contradiction D| |].
  - destruct D as (P & raw & vp & E1 & E2 & E3 & E4).
    destruct P as (_ & _ & P). destruct (N.eqb_spec (psize w) 0) as [X|_]; [lia|].
    destruct (N.ltb_spec 113 (psize w)) as [X|_]; [lia|]. cbn [orb].
    rewrite E1, E2. cbn [bind set_ptr set_hash]. intros E. apply Ok_inj in E. injection E as <-. exact O.
  - destruct D as (P & raw & lp & rp & E1 & E2 & Dl & Dr).
    destruct P as (_ & _ & P). destruct (N.eqb_spec (psize w) 0) as [X|_]; [lia|].
    destruct (N.ltb_spec 113 (psize w)) as [X|_]; [lia|]. cbn [orb].
    rewrite E1, E2. cbn [bind set_ptr set_hash]. intros E. apply Ok_inj in E. injection E as <-. cbn [young oldw].
    split; [exact O|]. split; [exists l|exists r]; eauto using vals_l, vals_r.
Qed.
Lemma internal_young rd p x y b : young rd x -> young rd y -> young rd (create_internal p x y b).
Proof. destruct b; cbn; auto. Qed.
Lemma child_young rd l r b : young rd l -> young rd r -> young rd (child l r b).
Proof. destruct b; cbn; auto. Qed.

Lemma insert_young rd key value fuel : forall n depth n', young rd n ->
  tree_insert H rd fuel n key value depth = Ok n' -> young rd n'.
Proof.
  induction fuel as [|fuel IH]; intros n depth n' Y E; [discriminate E|]. cbn [tree_insert] in E.
  destruct n as [|h w p l r|h w k v vp|h w].
  - apply Ok_inj in E. subst n'. exact I.
  - destruct Y as (Yw & Yl & Yr). destruct (bits_count p key depth) as [c| | | |]; cbn [bind] in E; try discriminate E.
    destruct (get_bit key (depth + c)) as [bit| | | |]; cbn [bind] in E; try discriminate E.
    destruct (negb (c =? bsize p)).
    + destruct (bits_split p c) as [[fr bk]| | | |]; cbn [bind] in E; try discriminate E. apply Ok_inj in E. subst n'.
      apply internal_young; [exact I|]. apply internal_young; assumption.
    + destruct (tree_insert H rd fuel (child l r bit) key value (depth + c + 1)) as [z| | | |] eqn:Ez; cbn [bind] in E; try discriminate E.
      apply Ok_inj in E. subst n'. apply internal_young; [|apply child_young; assumption].
      eapply IH; [|exact Ez]. apply child_young; assumption.
  - destruct (bytes_eqb k key).
    + destruct (value_equals v value); [discriminate E|]. apply Ok_inj in E. subst n'. exact I.
    + destruct (bits_collide (key_bits k) key depth) as [p| | | |]; cbn [bind] in E; try discriminate E.
      destruct (get_bit key (depth + bsize p)) as [bit| | | |]; cbn [bind] in E; try discriminate E.
      apply Ok_inj in E. subst n'. apply internal_young; [exact I|exact Y].
  - destruct (resolve rd h w) as [[rn|]| | | |] eqn:Er; cbn [bind] in E; try discriminate E.
    eapply IH; [|exact E]. eapply resolve_young; [exact Y|exact Er].
Qed.

(** ** Writing *)
Lemma rdl_less V i p z d z' : rdl V (mkptr i p z) = Some d -> (z' <= z)%N -> rdl V (mkptr i p z') = Some (firstn (N.to_nat z') d).
Proof.
  unfold rdl. cbn [pidx ppos psize]. destruct (i =? 0)%N; [discriminate|]. destruct (nth_error V (N.to_nat i - 1)) as [f|]; [|discriminate].
  destruct (N.eqb_spec z 0) as [->|Nz].
  - intros E L. assert (z' = 0)%N as -> by lia. reflexivity.
  - destruct (N.ltb_spec (blen f) (p + z)); [discriminate|]. intros E L. injection E as <-.
    destruct (N.eqb_spec z' 0) as [->|Nz']; [reflexivity|]. destruct (N.ltb_spec (blen f) (p + z')); [lia|].
    f_equal. unfold slice. rewrite firstn_firstn. f_equal. lia.
Qed.

Lemma mark_clip V d sl : V <> [] -> sl_index sl = N.of_nat (length (vapp V d)) -> sl_pos sl = blen (last (vapp V d) []) ->
  (sl_pos sl <= MAX_FILE_SIZE)%N -> (N.of_nat (length (vapp V d)) < 32768)%N ->
  let w := mark_ptr (sl_index sl) (sl_pos sl - blen d) (blen d) in
  rdl (vapp V d) w = Some (clip d) /\ (pidx w < 32768)%N /\ (ppos w < 2147483648)%N /\ (psize w < 256)%N.
Proof.
  intros N0 I P M Cap w. subst w. unfold mark_ptr. rewrite I, P in *. unfold MAX_FILE_SIZE in *.
  assert (LM : (blen d mod 256 < 256)%N) by (apply N.mod_lt; lia).
  rewrite (N.mod_small (N.of_nat _)) by lia. rewrite (N.mod_small (_ - _)) by lia. cbn [pidx ppos psize]. split; [|lia].
  pose proof (vapp_read V d N0) as R. apply (rdl_less _ _ _ _ _ (blen d mod 256)%N) in R.
  - rewrite R. unfold clip, blen. f_equal. f_equal. change 256%N with (N.of_nat 256). rewrite <- Nat2N.inj_mod, Nat2N.id. reflexivity.
  - apply N.mod_le. lia.
Qed.

Lemma long_leaf s V h k v : view s V -> length k = 32 -> length v <= 1023 ->
  exists w q s1 s', write_value s (NLeaf h None k (Some v) None) = Ok (NLeaf h None k (Some v) (Some q), s1) /\
    write_node s1 (NLeaf h None k (Some v) (Some q)) = Ok (NLeaf h (Some w) k (Some v) (Some q), s') /\
    exists V', view s' V' /\ prog s s' V V' /\ (cap16 V' -> clipped (rdl V') (PLeaf k v) w).
Proof.
  intros VV Lk Lv. cbn [write_value].
  destruct (slab_step H H_len s V v VV) as (sl & Es & V1 & P1 & I1 & Ps1 & M1). { unfold MAX_FILE_SIZE, blen. lia. }
  rewrite Es. cbn [bind]. set (q := mark_ptr (sl_index sl) (sl_pos sl - blen v) (blen v)).
  destruct (node_write_leaf H H_len h None k (Some v) q Lk) as (raw & E & Lr).
  assert (LB : (blen raw < 256)%N) by (unfold blen; lia).
  destruct (slab_step H H_len (set_slab s sl) (vapp V v) raw V1) as (sl2 & Es2 & V2 & P2 & I2 & Ps2 & M2). { unfold MAX_FILE_SIZE. lia. }
  eexists (mark_ptr (sl_index sl2) (sl_pos sl2 - blen raw) (blen raw)), q, _, _. split; [reflexivity|].
  unfold write_node. rewrite E. cbn [bind]. rewrite Es2. cbn [bind]. split; [reflexivity|].
  exists (vapp (vapp V v) raw). split; [exact V2|]. split; [eauto using prog_trans|].
  intros Cap.
  destruct (mark_read H H_len _ raw sl2 (vapp_nonnil V v) I2 Ps2 M2 LB Cap) as (R & R1 & R2 & R3).
  assert (C2 : cutof (vapp V v) (vapp (vapp V v) raw)) by apply vapp_cut, vapp_nonnil.
  destruct (mark_clip V v sl (view_nonnil _ _ VV) I1 Ps1 M1 (cap16_cut H H_len _ _ C2 Cap)) as (Q & Q1 & Q2 & Q3).
  fold q in Q, Q1, Q2, Q3. set (w := mark_ptr (sl_index sl2) (sl_pos sl2 - blen raw) (blen raw)) in *. clearbody w q.
  destruct (node_roundtrip (NLeaf h None k (Some v) (Some q)) []) as (raw' & m & E' & Em & Er & Len).
  { split; [exact Lk|]. unfold ptr_ok. lia. }
  rewrite E in E'. apply Ok_inj in E'. subst raw'. rewrite app_nil_r in Er.
  cbn [CodecFacts.stored] in Em. injection Em as <-.
  cbn [clipped]. split. { unfold node_ptr. rewrite R3. unfold blen. lia. }
  exists raw, q. split; [exact R|]. split; [exact Er|]. split; [lia|].
  revert Q. apply rdl_mono, cutof_ext, C2.
Qed.

Lemma long_int s V h pre tl tr lw rw :
  view s V -> length pre <= 256 ->
  exists w s', write_node s (NInt h None (of_bools pre) (NHash (thash H tl) lw) (NHash (thash H tr) rw)) =
    Ok (NInt h (Some w) (of_bools pre) (NHash (thash H tl) lw) (NHash (thash H tr) rw), s') /\
    exists V', view s' V' /\ prog s s' V V' /\
      (cap16 V' -> clipped (rdl V) tl lw -> clipped (rdl V) tr rw -> clipped (rdl V') (PInt pre tl tr) w).
Proof.
  intros VV Lp. pose proof (of_bools_wf pre Lp) as Wp.
  destruct (node_write_int H H_len h None (of_bools pre) (thash H tl) lw (thash H tr) rw (wf_ok _ Wp)
             (thash_len H H_len tl) (thash_len H H_len tr)) as (raw & E & Lr).
  unfold write_node. rewrite E. cbn [bind].
  assert (LB : (blen raw < 256)%N) by (unfold blen; lia).
  destruct (slab_step H H_len s V raw VV) as (sl & Es & V1 & P1 & I1 & Ps1 & M1). { unfold MAX_FILE_SIZE. lia. }
  rewrite Es. cbn [bind]. eexists _, _. split; [reflexivity|]. exists (vapp V raw). split; [exact V1|]. split; [exact P1|].
  intros Cap Dl Dr.
  destruct (mark_read H H_len V raw sl (view_nonnil _ _ VV) I1 Ps1 M1 LB Cap) as (R & R1 & R2 & R3).
  set (w := mark_ptr (sl_index sl) (sl_pos sl - blen raw) (blen raw)) in *. clearbody w.
  destruct (node_roundtrip (NInt h None (of_bools pre) (NHash (thash H tl) lw) (NHash (thash H tr) rw)) [])
    as (raw' & m & E' & Em & Er & Len).
  { split; [exact Wp|]. split; (split; [apply (node_ptr_ok); eapply clipped_ptr; eassumption|apply thash_len, H_len]). }
  rewrite E in E'. apply Ok_inj in E'. subst raw'. rewrite app_nil_r in Er.
  cbn [CodecFacts.stored written hashed] in Em. injection Em as <-.
  assert (Mo : forall p x, rdl V p = Some x -> rdl (vapp V raw) p = Some x).
  { apply rdl_mono, cutof_ext, vapp_cut. eauto using view_nonnil. }
  cbn [clipped]. split. { unfold node_ptr. rewrite R3. unfold blen. lia. }
  exists raw, lw, rw. split; [exact R|]. split; [exact Er|]. split; eauto using clipped_mono.
Qed.

Lemma flush_keeps s V s' : view s V -> (if needs_flush s then store_flush s else Ok (true, s)) = Ok (true, s') ->
  view s' V /\ prog s s' V V.
Proof. intros VV E. pose proof (maybe_flush s V VV) as M. rewrite E in M. exact M. Qed.

Definition wrote (s : store) (V : list bytes) (t : ptree) (r : res (option node * store)) : Prop :=
  match r with
  | Ok (Some n', s') => exists V', view s' V' /\ prog s s' V V' /\
      ((t = PNull /\ n' = NNull) \/
       (t <> PNull /\ exists w, n' = NHash (thash H t) w /\ (cap16 V' -> clipped (rdl V') t w)))
  | _ => True
  end.

(** The end of both cases of urkel_tree_write. *)
Lemma finish s V t s3 V3 m w : view s3 V3 -> prog s s3 V V3 -> t <> PNull ->
  (forall s0 : store, (let! (_, n) := node_hash H m in let! out := node_to_hash n in Ok (Some out, s0)) = Ok (Some (NHash (thash H t) w), s0)) ->
  (cap16 V3 -> clipped (rdl V3) t w) ->
  wrote s V t (let! (n, s, ok) := (if needs_flush s3 then let! (ok, s) := store_flush s3 in Ok (m, s, ok) else Ok (m, s3, true)) in
   if negb ok then Ok (None, s) else
   let! (_, n) := node_hash H n in let! out := node_to_hash n in Ok (Some out, s)).
Proof.
  intros VV P N Out D. pose proof (flush_keeps s3 V3) as K. destruct (needs_flush s3).
  - destruct (store_flush s3) as [[[|] s4]| | | |]; cbn [bind negb]; try exact I. rewrite Out. cbn [wrote].
    destruct (K s4 VV eq_refl) as [VV4 P4]. exists V3. split; [exact VV4|]. split; [eauto using prog_trans|]. eauto.
  - cbn [bind negb]. rewrite Out. cbn [wrote]. exists V3. split; [exact VV|]. split; [exact P|]. eauto.
Qed.

(** urkel_tree_write, when it succeeds. *)
Lemma long_write n : forall t path s V,
  rep H (rdl V) n t -> young (rdl V) n -> (t = PNull \/ wfn path t) -> vals_le 1023 t -> view s V ->
  wrote s V t (tree_write H s n).
Proof.
  induction n as [|h w p l IHl r IHr|h w k v vp|h w]; intros t path s V R Y W VL VV.
  - cbn in R. subst t. cbn [tree_write wrote]. exists V. split; [exact VV|]. split; [apply prog_refl, VV|auto].
  - pose proof R as (pre & tl & tr & -> & Hh & Hw & -> & Rl & Rr). destruct Y as (Yw & Yl & Yr).
    destruct W as [W|W]; [discriminate W|]. pose proof (wfn_pre_ok _ _ _ _ W) as Lp. destruct W as [Wl Wr].
    pose proof (vals_l _ _ _ _ VL) as VLl. pose proof (vals_r _ _ _ _ VL) as VLr.
    cbn [tree_write]. specialize (IHl tl _ s V Rl Yl (or_intror Wl) VLl VV).
    destruct (tree_write H s l) as [[[l'|] s1]| | | |]; cbn [bind]; try exact I.
    destruct IHl as (V1 & VV1 & P1 & [[X _]|(Nl & lw & -> & Dl)]). { subst tl. contradiction Wl. }
    assert (M1 : forall p x, rdl V p = Some x -> rdl V1 p = Some x) by apply rdl_mono, cutof_ext, P1.
    assert (Rr1 : rep H (rdl V1) r tr) by (revert Rr; apply rep_mono, M1).
    assert (Yr1 : young (rdl V1) r) by (revert Yr; apply young_mono, M1).
    specialize (IHr tr _ s1 V1 Rr1 Yr1 (or_intror Wr) VLr VV1).
    destruct (tree_write H s1 r) as [[[r'|] s2]| | | |]; cbn [bind]; try exact I.
    destruct IHr as (V2 & VV2 & P2 & [[X _]|(Nr & rw & -> & Dr)]). { subst tr. contradiction Wr. }
    assert (P02 : prog s s2 V V2) by eauto using prog_trans.
    assert (Out : forall w (s0 : store), (let! (_, n) := node_hash H (NInt h (Some w) (of_bools pre) (NHash (thash H tl) lw) (NHash (thash H tr) rw)) in
                   let! out := node_to_hash n in Ok (Some out, s0)) = Ok (Some (NHash (thash H (PInt pre tl tr)) w), s0)).
    { intros w0 s0. destruct h as [h|]; [destruct Hh as [X|X]; [discriminate X|]; injection X as ->; reflexivity|reflexivity]. }
    destruct w as [w|].
    + cbn [bind negb]. rewrite Out. cbn [wrote]. exists V2. split; [exact VV2|]. split; [exact P02|].
      right. split; [discriminate|]. exists w. split; [reflexivity|]. intros _. cbn [written_ok] in Hw. destruct Yw as (t0 & D0 & V0).
      apply disk_clipped; [revert Hw; apply on_disk_mono, rdl_mono, cutof_ext, P02|]. exact (disk_same _ _ _ _ _ Hw D0 V0).
    + destruct (long_int s2 V2 h pre tl tr lw rw VV2 Lp) as (w & s3 & E3 & V3 & VV3 & P3 & D3).
      rewrite E3. cbn [bind]. apply (finish s V (PInt pre tl tr) s3 V3 _ w); [exact VV3|eauto using prog_trans|discriminate|apply Out|].
      intros Cap. apply D3; [exact Cap| |].
      * assert (C1 : cap16 V1) by (eapply (cap16_cut H H_len); [|exact Cap]; eapply cutof_trans; [apply P2|apply P3]).
        generalize (Dl C1). apply clipped_mono, rdl_mono, cutof_ext, P2.
      * apply Dr. eapply (cap16_cut H H_len); [apply P3|exact Cap].
  - pose proof R as (x & -> & Hh & Hw & Hn & Hv). destruct W as [W|W]; [discriminate W|]. destruct W as [Lk _].
    assert (Lx : length x <= 1023) by (apply (VL k x); cbn; auto).
    cbn [tree_write]. destruct w as [w|].
    + cbn [bind negb].
      assert (Out : exists n1, node_hash H (NLeaf h (Some w) k v vp) = Ok (thash H (PLeaf k x), n1) /\
                node_to_hash n1 = Ok (NHash (thash H (PLeaf k x)) w)).
      { destruct h as [h|].
        - destruct Hh as [X|X]; [discriminate X|]. injection X as ->. eexists. split; reflexivity.
        - destruct Hv as [->|(_ & X & _)]; [|congruence]. eexists. split; reflexivity. }
      destruct Out as (n1 & -> & E2). cbn [bind]. rewrite E2. cbn [bind wrote].
      exists V. split; [exact VV|]. split; [apply prog_refl, VV|]. right. split; [discriminate|]. exists w. split; [reflexivity|]. intros _.
      destruct Y as (t0 & D0 & V0). apply disk_clipped; [exact Hw|]. exact (disk_same _ _ _ _ _ Hw D0 V0).
    + destruct (Hn eq_refl) as [-> ->].
      destruct (long_leaf s V h k x VV Lk Lx) as (w & q & s1 & s3 & E1 & E2 & V3 & VV3 & P3 & D3).
      rewrite E1. cbn [bind]. rewrite E2. cbn [bind]. apply (finish s V (PLeaf k x) s3 V3 _ w); [exact VV3|exact P3|discriminate| |exact D3].
      intros s0. destruct h as [h|]; [destruct Hh as [X|X]; [discriminate X|]; injection X as ->; reflexivity|reflexivity].
  - cbn [tree_write wrote]. pose proof R as (-> & D). exists V. split; [exact VV|].
    split; [apply prog_refl, VV|]. right. split; [eauto using on_disk_nonnull|]. exists w. split; [reflexivity|]. intros _.
    destruct Y as (t0 & D0 & V0). apply disk_clipped; [exact D|]. exact (disk_same _ _ _ _ _ D D0 V0).
Qed.

(** urkel_tree_commit, when it succeeds. *)
Lemma long_commit s V n t n' s' :
  (st_index s < MAX_FILES)%N -> view s V -> rep H (st_rd s) n t -> young (st_rd s) n -> wft t -> vals_le 1023 t ->
  tree_commit H C s n = Ok (Some n', s') ->
  m_node (st_state s') = n' /\
  ((t = PNull /\ n' = NNull) \/ (t <> PNull /\ exists w, n' = NHash (thash H t) w /\ clipped (st_rd s') t w)).
Proof.
  intros Ix VV R Y W VL E. unfold tree_commit in E.
  assert (M0 : forall p x, st_rd s p = Some x -> rdl V p = Some x).
  { destruct (view_rd _ _ VV) as (W0 & _ & Ee & Eq). intros p x Ep. rewrite Eq in Ep. revert Ep. apply rdl_mono, Ee. }
  assert (LW : wrote s V t (tree_write H s n)).
  { apply (long_write n t []); auto. { revert R. apply rep_mono, M0. } { revert Y. apply young_mono, M0. } }
  destruct (tree_write H s n) as [[[n1|] s1]| | | |]; cbn [bind] in E; try discriminate E.
  destruct LW as (V1 & VV1 & P1 & Rt).
  assert (Rw : exists w, n1 = root_node H t w /\ ((t = PNull /\ w = ptr0) \/ (t <> PNull /\ (cap16 V1 -> clipped (rdl V1) t w)))).
  { destruct Rt as [(-> & ->)|(Nt & w & -> & Dk)]; [exists ptr0; auto|]. exists w. split; [|auto]. destruct t; [congruence|reflexivity|reflexivity]. }
  clear Rt. destruct Rw as (w & -> & Rw). revert E. unfold store_commit.
  assert (Ewr : written (root_node H t w) = Some w).
  { destruct Rw as [[-> ->]|[N _]]; [reflexivity|]. destruct t; [congruence|reflexivity|reflexivity]. }
  assert (En : node_to_hash (root_node H t w) = Ok (root_node H t w)) by (destruct t; reflexivity).
  destruct (write_meta_spec H H_len C C_len s1 V1 _ w _ VV1 Ewr En) as (s2 & E1 & VV2 & P2). rewrite E1. cbn [bind]. clear E1.
  set (V' := vcommit V1 _) in *. clearbody V'. set (mt := mkmeta _ w (root_node H t w)).
  assert (Em : m_node mt = root_node H t w) by reflexivity. clearbody mt.
  pose proof (flush_spec s2 V' VV2) as F. destruct (store_flush s2) as [[[|] s3]| | | |]; cbn [bind negb]; try discriminate.
  destruct F as (F1 & F2 & F3 & F4 & F5 & F6 & F7).
  assert (Cap : (st_index s3 < MAX_FILES)%N) by (apply F7, P2, P1, Ix).
  pose proof (cl_index _ F2) as Ci. rewrite F1 in Ci.
  assert (C16 : cap16 V') by (unfold cap16; rewrite <- Ci; unfold MAX_FILES in Cap; lia).
  assert (D : t = PNull \/ (t <> PNull /\ clipped (st_rd s3) t w)).
  { destruct Rw as [[-> _]|[N X]]; [auto|right]. split; [exact N|].
    assert (C1 : cap16 V1) by (eapply (cap16_cut H H_len); [apply P2|exact C16]).
    generalize (X C1). apply clipped_mono. intros p x Ep. rewrite (clean_rd _ F2), F1. revert Ep. apply rdl_mono, cutof_ext, P2. }
  assert (Q : forall s4, m_node (st_state s4) = root_node H t w -> st_rd s4 = st_rd s3 ->
    m_node (st_state s4) = root_node H t w /\
    ((t = PNull /\ root_node H t w = NNull) \/ (t <> PNull /\ exists w0, root_node H t w = NHash (thash H t) w0 /\ clipped (st_rd s4) t w0))).
  { intros s4 E4 E5. split; [exact E4|]. rewrite E5. destruct D as [->|[N D]]; [auto|right]. split; [exact N|]. exists w. split; [|exact D].
    destruct t; [congruence|reflexivity|reflexivity]. }
  assert (Cs : forall c, st_rd (set_cache (set_state s3 mt) c) = st_rd s3) by reflexivity.
  destruct (m_node mt) as [|h0 w0 p0 l0 r0|h0 w0 k0 v0 vp0|h0 w0] eqn:Em0; cbn [bind].
  - intros E. apply Ok_inj in E. injection E as <- <-. apply Q; [cbn [set_state st_state]; congruence|reflexivity].
  - exfalso. destruct t; discriminate.
  - exfalso. destruct t; discriminate.
  - destruct (cache_insert _ _) as [c| | | |]; cbn [bind]; intros E; try discriminate E. apply Ok_inj in E. injection E as <- <-.
    apply Q; [|apply Cs]. cbn [set_cache st_state set_state]. congruence.
Qed.

(** ** Reading *)
Lemma clipped_resolve rd t w : clipped rd t w ->
  match t with
  | PNull => False
  | PLeaf k v => exists vp, resolve rd (thash H t) w = Ok (Some (NLeaf (Some (thash H t)) (Some w) k None (Some vp))) /\
                   (psize vp <= 1023)%N /\ rd vp = Some (clip v)
  | PInt pre l r => exists lp rp, resolve rd (thash H t) w =
                   Ok (Some (NInt (Some (thash H t)) (Some w) (of_bools pre) (NHash (thash H l) lp) (NHash (thash H r) rp))) /\
                   clipped rd l lp /\ clipped rd r rp
  end.
Proof.
  intros D. unfold resolve, read_node.
  destruct t as [|k v|pre l r]; [contradiction D| |].
  - destruct D as (P & raw & vp & E1 & E2 & E3 & E4).
    destruct P as (_ & _ & P). destruct (N.eqb_spec (psize w) 0) as [X|_]; [lia|].
    destruct (N.ltb_spec 113 (psize w)) as [X|_]; [lia|]. cbn [orb].
    rewrite E1, E2. cbn [bind set_ptr set_hash]. eauto.
  - destruct D as (P & raw & lp & rp & E1 & E2 & Dl & Dr).
    destruct P as (_ & _ & P). destruct (N.eqb_spec (psize w) 0) as [X|_]; [lia|].
    destruct (N.ltb_spec 113 (psize w)) as [X|_]; [lia|]. cbn [orb].
    rewrite E1, E2. cbn [bind set_ptr set_hash]. eauto.
Qed.
Lemma retrieve_clip rd vp v : (psize vp <= 1023)%N -> rd vp = Some (clip v) -> retrieve rd None (Some vp) = Ok (Some (clip v)).
Proof. intros L E. unfold retrieve. destruct (N.ltb_spec 1023 (psize vp)); [lia|]. now rewrite E. Qed.

Lemma get_clipped rd t : forall w path fuel key want,
  clipped rd t w -> wfn path t -> has path key -> length key = 32 -> 2 * (257 - length path) <= fuel ->
  tree_get rd fuel (NHash (thash H t) w) key (length path) want =
  match tget (length path) t key with
  | Some v => Ok (if want then clip v else [])
  | None => Fail ENOTFOUND
  end.
Proof.
  induction t as [|tk tv|pre tl IHl tr IHr]; intros w path fuel key want D W Hp Lk F.
  - contradiction W.
  - pose proof (wfn_len _ _ W) as Lp. destruct (clipped_resolve _ _ _ D) as (vp & E & E1 & E2).
    destruct fuel as [|fuel]; [lia|]. cbn [tree_get]. rewrite E. cbn [bind]. destruct fuel as [|fuel]; [lia|]. cbn [tree_get tget].
    destruct (bytes_eqb_spec tk key) as [->|N]; cbn [negb].
    + destruct (bytes_eq_dec key key) as [_|X]; [|contradiction]. destruct want; [|reflexivity].
      rewrite (retrieve_clip rd vp tv E1 E2). reflexivity.
    + destruct (bytes_eq_dec tk key) as [X|_]; [contradiction|reflexivity].
  - pose proof (wfn_int_len _ _ _ _ W) as Lp. pose proof (wfn_pre_ok _ _ _ _ W) as Lpre.
    destruct (clipped_resolve _ _ _ D) as (lp & rp & E & Dl & Dr).
    destruct fuel as [|fuel]; [lia|]. cbn [tree_get]. rewrite E. cbn [bind]. destruct fuel as [|fuel]; [lia|]. cbn [tree_get].
    rewrite bits_has_spec by (auto using wf_ok, of_bools_wf; lia).
    rewrite bools_of_bools by assumption. cbn [bind].
    destruct (int_cases path pre key Hp Lk Lp) as [(b & Hb)|[E1 N]].
    + destruct (has_step _ _ _ _ Hb) as [E1 E2]. rewrite E1. cbn [negb].
      change (bsize (of_bools pre)) with (length pre).
      rewrite (get_bit_kbit H H_len) by (auto; lia). rewrite E2. cbn [bind].
      rewrite (tget_int_child _ _ _ _ _ _ Hb). rewrite <- path_len with (b := b).
      destruct b; cbn [child].
      * apply IHr; auto; try (apply (wfn_child _ _ _ _ true W)). rewrite path_len. lia.
      * apply IHl; auto; try (apply (wfn_child _ _ _ _ false W)). rewrite path_len. lia.
    + cbn [tget]. rewrite E1. reflexivity.
Qed.

(** The proof of a stored key, as produced: siblings from the records, the value as read. *)
Lemma prove_clipped rd t : forall w path fuel acc key v,
  clipped rd t w -> wfn path t -> has path key -> length key = 32 ->
  length acc <= length path -> 2 * (257 - length path) <= fuel -> tget (length path) t key = Some v ->
  exists ns e, tproof H (length path) t key = (ns, e, TExists v) /\
  tree_prove H rd fuel acc (NHash (thash H t) w) key (length path) = Ok (mkproof e (acc ++ ns) (TExists (clip v)), NHash (thash H t) w).
Proof.
  induction t as [|tk tv|pre tl IHl tr IHr]; intros w path fuel acc key v D W Hp Lk La F G.
  - contradiction W.
  - pose proof (wfn_len _ _ W) as Lp. destruct (clipped_resolve _ _ _ D) as (vp & E & E1 & E2).
    destruct fuel as [|fuel]; [lia|]. cbn [tree_prove]. rewrite E. cbn [bind]. destruct fuel as [|fuel]; [lia|]. cbn [tree_prove tproof].
    cbn [tget] in G. destruct (bytes_eq_dec tk key) as [X|]; [|discriminate G]. injection G as ->. subst tk.
    rewrite (retrieve_clip rd vp v E1 E2). cbn [bind]. destruct (bytes_eqb_spec key key) as [_|X]; [|contradiction].
    eexists _, _. split; [reflexivity|]. rewrite app_nil_r. reflexivity.
  - pose proof (wfn_int_len _ _ _ _ W) as Lp. pose proof (wfn_pre_ok _ _ _ _ W) as Lpre.
    destruct (clipped_resolve _ _ _ D) as (lp & rp & E & Dl & Dr).
    destruct fuel as [|fuel]; [lia|]. cbn [tree_prove]. rewrite E. cbn [bind]. destruct fuel as [|fuel]; [lia|]. cbn [tree_prove].
    rewrite bits_has_spec by (auto using wf_ok, of_bools_wf; lia).
    rewrite bools_of_bools by assumption. cbn [bind].
    destruct (int_cases path pre key Hp Lk Lp) as [(b & Hb)|[E1 N]].
    2:{ exfalso. cbn [tget] in G. rewrite E1 in G. discriminate G. }
    destruct (has_step _ _ _ _ Hb) as [E1 E2]. cbn [tproof]. rewrite E1. cbn [negb].
    change (bsize (of_bools pre)) with (length pre).
    rewrite (get_bit_kbit H H_len) by (auto; lia). rewrite E2. cbn [bind]. rewrite (tget_int_child _ _ _ _ _ _ Hb) in G.
    assert (Ey : node_hash H (child (NHash (thash H tl) lp) (NHash (thash H tr) rp) (negb b)) =
      Ok (thash H (if b then tl else tr), child (NHash (thash H tl) lp) (NHash (thash H tr) rp) (negb b))) by (destruct b; reflexivity).
    rewrite Ey. cbn [bind]. unfold proof_push, check, KEY_BITS. destruct (Nat.ltb_spec (length acc) 256) as [_|X]; [|lia]. cbn [bind].
    rewrite <- path_len with (b := b).
    assert (La' : length (acc ++ [(of_bools pre, thash H (if b then tl else tr))]) <= length (path ++ pre ++ [b])).
    { rewrite path_len, app_length. cbn [length]. lia. }
    assert (F' : 2 * (257 - length (path ++ pre ++ [b])) <= fuel) by (rewrite path_len; lia).
    assert (IHb : exists ns e, tproof H (length (path ++ pre ++ [b])) (if b then tr else tl) key = (ns, e, TExists v) /\
      tree_prove H rd fuel (acc ++ [(of_bools pre, thash H (if b then tl else tr))]) (child (NHash (thash H tl) lp) (NHash (thash H tr) rp) b) key (length (path ++ pre ++ [b])) =
      Ok (mkproof e ((acc ++ [(of_bools pre, thash H (if b then tl else tr))]) ++ ns) (TExists (clip v)), child (NHash (thash H tl) lp) (NHash (thash H tr) rp) b)).
    { destruct b; cbn [child]; [apply IHr|apply IHl]; auto; [apply (wfn_child _ _ _ _ true W)|apply (wfn_child _ _ _ _ false W)]. }
    destruct IHb as (ns & e & T1 & T2). rewrite T1, T2. cbn [bind]. rewrite <- app_assoc. eexists _, _. split; reflexivity.
Qed.
End L.
