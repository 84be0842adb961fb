(** * urkel_tree_commit, crash images, recovery and opening. *)
From Verif Require Export HistFacts.
From Coq Require Import ZifyBool ZifyNat ZifyN.

Section RF.
Variable H : bytes -> bytes.
Hypothesis H_len : forall m, length (H m) = 32.
Variable C : bytes -> bytes -> bytes.
Hypothesis C_len : forall k m, length (C k m) = 20.

Lemma vcommit_adds V r : V <> [] -> length r = 38 -> exists m, m <= 75 /\ adds V m (vcommit V r).
Proof.
  intros N L. unfold vcommit, vpad. destruct (N.eqb_spec (blen (last V []) mod 38) 0) as [E|E].
  - exists (length r). split; [lia|]. apply adds_one. lia.
  - set (z := repeat x00 (38 - N.to_nat (blen (last V []) mod 38))).
    assert (Lz : length z <= 37). { unfold z. rewrite repeat_length. generalize dependent (blen (last V []) mod 38)%N. intros; lia. }
    exists (length z + length r). split; [lia|]. apply adds_more; [apply adds_one; lia|lia].
Qed.

(** ** urkel_tree_commit *)
Theorem tree_commit_spec s V D hist n t :
  sinv H C s D hist -> view s V -> cutof D V -> rep H (st_rd s) n t -> wft t -> vals_le 255 t ->
  match tree_commit H C s n with
  | Ok (Some n', s') => exists w V1, let V' := vcommit V1 (the_record C s w) in
       n' = root_node H t w /\ cutof V V1 /\ cutof V V' /\
       st_fs s' = V' /\ clean_st s' /\ sinv H C s' V' ((t, w) :: hist) /\
       rmono s s' /\ logs s s' V' /\ iosub s s' /\ (blen (last V' []) <= MAX_FILE_SIZE)%N /\
       (exists m, (m <= tcost t /\ m <= wcost n) /\ adds V m V1) /\
       m_meta (st_state s') = mkptr (N.of_nat (length V')) (blen (last V' []) - 38) 0 /\ st_key s' = st_key s
  | Ok (None, s') => sinv H C s' D hist /\ keep s s' /\ rmono s s' /\ iosub s s' /\
       (Forall clean_fault (st_io s) -> exists V' m, m <= tcost t + 75 /\ adds V m V' /\ cutof V V' /\ view s' V') /\
       exists V1 w, cutof V V1 /\ logs s s' (vcommit V1 (the_record C s w))
  | Abort => exists V' m, m <= tcost t + 75 /\ adds V m V' /\ (MAX_FILES <= N.of_nat (length V'))%N
  | _ => False
  end.
Proof.
  intros I VV CD R W VL. unfold tree_commit.
  assert (RV : rep H (rdl V) n t).
  { destruct (view_rd _ _ VV) as (W0 & _ & E & Eq). revert R. apply rep_mono. intros p x Ep. rewrite Eq in Ep. revert Ep. apply rdl_mono, E. }
  pose proof (tree_write_spec H H_len n t [] s V RV W VL VV) as TW.
  destruct (tree_write H s n) as [[[n1|] s1]| | | |]; cbn [bind]; [| |exact TW| |exact TW|exact TW].
  3:{ destruct TW as (V' & m & _ & A & M & X). exists V', m. split; [lia|]. auto. }
  2:{ destruct TW as (V' & m & P & Ad & M & Vc). split. { eapply sinv_keep; [exact I|apply P|apply P|apply P, I]. }
      split; [apply P|]. split; [apply P|]. split; [apply P|]. split. { intros Fc. exists V', m. split; [lia|]. split; [exact Ad|]. split; [apply P|auto]. }
      exists V', ptr0. split; [apply P|]. eapply logs_mono; [apply P|]. apply vcommit_cut, (cutof_nonnil _ _ (pg_cut _ _ _ _ P)). }
  destruct TW as (V1 & m1 & VV1 & P1 & Ad1 & M1 & Rt).
  assert (I1 : sinv H C s1 D hist) by (eapply sinv_keep; [exact I|apply P1|apply P1|apply P1, I]).
  assert (CD1 : cutof D V1) by (eapply cutof_trans; [exact CD|apply P1]).
  assert (Rw : exists w, n1 = root_node H t w /\ ((t = PNull /\ w = ptr0) \/ (t <> PNull /\ (cap16 V1 -> on_disk H (rdl V1) t w)))).
  { destruct Rt as [(-> & ->)|(Nt & w & -> & Dk)]; [exists ptr0; auto|]. exists w. split; [|auto]. destruct t; [congruence|reflexivity|reflexivity]. }
  destruct Rw as (w & -> & Rw).
  assert (Er : the_record C s1 w = the_record C s w).
  { destruct (pg_keep _ _ _ _ P1) as (K1 & K2 & _). unfold the_record. rewrite K1, K2. reflexivity. }
  pose proof (store_commit_spec H H_len C C_len s1 V1 D hist t w I1 VV1 CD1 W VL Rw) as SC. rewrite Er in SC. cbv zeta in SC.
  set (V' := vcommit V1 (the_record C s w)) in *.
  destruct (store_commit C s1 (root_node H t w)) as [[[|] s2]| | | |]; cbn [bind]; [| |exact SC| |exact SC|exact SC].
  - destruct SC as (A1 & A2 & A3 & A4 & A5 & A6 & A7 & A8 & A9). exists w, V1. cbv zeta. fold V'.
    assert (CV : cutof V V') by (eapply cutof_trans; [apply P1|exact A8]).
    split; [reflexivity|]. split; [apply P1|].
    split; [exact CV|]. split; [exact A1|]. split; [exact A2|]. split; [exact A3|].
    split; [eapply rmono_trans; [apply P1|exact A5]|]. split; [eapply logs_trans; [eapply logs_mono; [apply P1|exact A8]|exact A6]|].
    split; [eapply iosub_trans; [apply P1|exact A7]|]. split; [|split; [exists m1; auto|split; [apply A9|]]].
    2:{ destruct A9 as [_ A9]. rewrite A9. apply P1. }
    pose proof (cl_max _ A2) as M. rewrite (cl_size _ A2), A1 in M. exact M.
  - destruct SC as (P2 & Vc). pose proof (prog_trans _ _ _ _ _ _ P1 P2) as P. 
    split. { eapply sinv_keep; [exact I|apply P|apply P|apply P, I]. }
    split; [apply P|]. split; [apply P|]. split; [apply P|]. split.
    { intros Fc. destruct (vcommit_adds V1 (the_record C s w)) as (m2 & L2 & Ad2).
      { apply (cutof_nonnil _ _ (pg_cut _ _ _ _ P2)). } { apply meta_write_length, C_len. }
      fold V' in Ad2. exists V', (m1 + m2). split; [lia|]. split; [eapply adds_trans; eassumption|].
      split; [apply P|]. apply Vc. apply P1, Fc. }
    exists V1, w. split; [apply P1|apply P].
  - destruct SC as [A1 A2]. destruct (vcommit_adds V1 (the_record C s w)) as (m2 & L2 & Ad2).
    { apply (cutof_nonnil _ _ A1). } { apply meta_write_length, C_len. }
    fold V' in Ad2. exists V', (m1 + m2). split; [lia|]. split; [eapply adds_trans; eassumption|exact A2].
Qed.

(** A commit that cannot run out of file numbers does not abort. *)
Corollary tree_commit_no_abort s V D hist n t :
  sinv H C s D hist -> view s V -> cutof D V -> rep H (st_rd s) n t -> wft t -> vals_le 255 t ->
  (N.of_nat (length V) + 1 + N.of_nat (tcost t + 75) / (MAX_FILE_SIZE - 254) < MAX_FILES)%N ->
  tree_commit H C s n <> Abort.
Proof.
  intros I VV CD R W VL L E. pose proof (tree_commit_spec s V D hist n t I VV CD R W VL) as T. rewrite E in T.
  destruct T as (V' & m & M & A & X). apply (adds_files H H_len) in A; [|eauto using view_nonnil].
  assert (N.of_nat m / (MAX_FILE_SIZE - 254) <= N.of_nat (tcost t + 75) / (MAX_FILE_SIZE - 254))%N as Q.
  2:{ revert L A Q. generalize (N.of_nat m / (MAX_FILE_SIZE - 254))%N (N.of_nat (tcost t + 75) / (MAX_FILE_SIZE - 254))%N. lia. }
  apply N.div_le_mono; [unfold MAX_FILE_SIZE; lia|lia].
Qed.

(** ** The last record *)

(** [D] ends with the record at [top]; before the first commit it is one empty file. *)
Definition sealed (D : list bytes) (top : ptr) (hist : list (ptree * ptr)) : Prop :=
  match hist with
  | [] => D = [[]]
  | _ => exists b f r, D = b ++ [f ++ r] /\ (blen f mod 38 = 0)%N /\ length r = 38 /\
           top = mkptr (N.of_nat (length D)) (blen f) 0
  end.

Record dinv (key : bytes) (D : list bytes) (top : ptr) (hist : list (ptree * ptr)) : Prop := {
  di_chain : chain H C key D top hist;
  di_len : 38 * length hist <= total D;
  di_seal : sealed D top hist;
  di_cap : (N.of_nat (length D) < MAX_FILES)%N;
  di_max : (blen (last D []) <= MAX_FILE_SIZE)%N }.

Lemma sealed_commit V1 r t w hist : V1 <> [] -> room V1 -> length r = 38 ->
  sealed (vcommit V1 r) (mkptr (N.of_nat (length (vcommit V1 r))) (blen (last (vcommit V1 r) []) - 38) 0) ((t, w) :: hist).
Proof.
  intros N R L. destruct (vcommit_end V1 r N R) as (b & f & E & A). { unfold blen. rewrite L. reflexivity. }
  exists b, f, r. split; [exact E|]. split; [exact A|]. split; [exact L|]. f_equal. rewrite E, last_last, blen_app.
  unfold blen at 2. rewrite L. lia.
Qed.

(** Block [j] of a file. *)
Definition blk (g : bytes) (j : nat) : bytes := firstn 38 (skipn (38 * j) g).

(** No block of [A] outside [D] passes for a commit record. *)
Definition noforge (key : bytes) (D A : list bytes) : Prop :=
  forall i j, length (nth i D []) <= 38 * j -> 38 * j + 38 <= length (nth i A []) ->
    meta_read C key (blk (nth i A []) j) = Ok None.

Lemma blk_prefix g x j : 38 * j + 38 <= length g -> blk (g ++ x) j = blk g j.
Proof.
  intros L. unfold blk. rewrite skipn_app, firstn_app, skipn_length.
  replace (38 - (length g - 38 * j)) with 0 by lia. cbn [firstn]. apply app_nil_r.
Qed.

Lemma find_meta_none key g : forall b, 38 * b <= length g ->
  (forall j, j < b -> meta_read C key (blk g j) = Ok None) -> find_meta C key g b = Ok None.
Proof.
  induction b as [|b IH]; intros L F; [reflexivity|]. cbn [find_meta]. fold (blk g b). rewrite (F b) by lia. cbn [bind].
  apply IH; [lia|]. intros j Lj. apply F. lia.
Qed.

Lemma find_meta_hit key g m : forall k b, 38 * b <= length g -> k < b ->
  meta_read C key (blk g k) = Ok (Some m) ->
  (forall j, k < j -> j < b -> meta_read C key (blk g j) = Ok None) ->
  find_meta C key g b = Ok (Some (m, 38 * k)).
Proof.
  intros k. induction b as [|b IH]; intros L Lk Hit F; [lia|]. cbn [find_meta]. fold (blk g b).
  destruct (Nat.eq_dec b k) as [->|N].
  - rewrite Hit. reflexivity.
  - rewrite (F b) by lia. cbn [bind]. apply IH; [lia|lia|exact Hit|]. intros j L1 L2. apply F; lia.
Qed.

Lemma nth_app_new {A} (b c : list A) x d : nth (length b) (b ++ x :: c) d = x.
Proof. rewrite app_nth2, Nat.sub_diag by lia. reflexivity. Qed.

Lemma noforge_drop key D A g : noforge key D (A ++ [g]) -> noforge key D A.
Proof.
  intros N i j L1 L2. destruct (Nat.lt_ge_cases i (length A)) as [L|L].
  - specialize (N i j L1). rewrite app_nth1 in N by exact L. exact (N L2).
  - rewrite nth_overflow in L2 by exact L. cbn [length] in L2. lia.
Qed.

Lemma noforge_refl key D : noforge key D D.
Proof. intros i j L1 L2. lia. Qed.

(** Images from which opening must reach [D]. *)
Definition image (key : bytes) (D : list bytes) (hist : list (ptree * ptr)) (A : list bytes) : Prop :=
  (cutof D A /\ noforge key D A) \/ (hist = [] /\ A = []).

(** Dropping the files behind the last one holding a record. *)
Lemma recover_drop key D c : forall b f,
  noforge key D (b ++ f :: c) -> length D <= S (length b) ->
  forall r, recover C key (length (b ++ [f])) (b ++ [f]) [] = r ->
  recover C key (length (b ++ f :: c)) (b ++ f :: c) [] =
   (let! (fs, ops, st, m) := r in Ok (fs, repeat ODrop (length c) ++ ops, st, m)).
Proof.
  induction c as [|g c IH] using rev_ind; intros b f N L r E.
  - rewrite E. cbn [length repeat app]. destruct r as [[[[? ?] ?] ?]| | | |]; reflexivity.
  - assert (Ec : b ++ f :: c ++ [g] = (b ++ f :: c) ++ [g]) by (rewrite <- app_assoc; reflexivity).
    rewrite Ec in *. rewrite app_length. cbn [length]. rewrite Nat.add_1_r. cbn [recover hd tl]. 
    unfold fget. rewrite nth_app_new, removelast_last.
    assert (Fn : find_meta C key g (length g / 38) = Ok None).
    { pose proof (Nat.mul_div_le (length g) 38 ltac:(lia)) as Lg. apply find_meta_none; [exact Lg|].
      intros j Lj. specialize (N (length (b ++ f :: c)) j). rewrite nth_app_new in N.
      rewrite nth_overflow in N by (rewrite app_length; cbn [length]; lia). cbn [length] in N. apply N; lia. }
    rewrite Fn. cbn [bind]. rewrite (IH b f (noforge_drop _ _ _ _ N) L r E).
    destruct r as [[[[fs ops] st] m]| | | |]; cbn [bind]; try reflexivity.
    rewrite app_length, Nat.add_1_r. reflexivity.
Qed.

Lemma crash_drops A ops (P : list bytes -> Prop) : forall n, n <= length A ->
  (forall k, k <= n -> P (firstn (length A - k) A)) ->
  (forall X, crash (firstn (length A - n) A) ops X -> P X) ->
  forall X, crash A (repeat ODrop n ++ ops) X -> P X.
Proof.
  revert A. assert (G : forall n A, n <= length A ->
  (forall k, k <= n -> P (firstn (length A - k) A)) ->
  (forall X, crash (firstn (length A - n) A) ops X -> P X) ->
  forall X, crash A (repeat ODrop n ++ ops) X -> P X); [|intros A n; apply (G n A)].
  induction n as [|n IH]; intros A L PK PF X Cr.
  - cbn [repeat app] in Cr. rewrite Nat.sub_0_r, firstn_all in PF. auto.
  - cbn [repeat app] in Cr. inversion Cr as [| |? ? ? ? Cr']; subst.
    + specialize (PK 0 ltac:(lia)). rewrite Nat.sub_0_r, firstn_all in PK. exact PK.
    + cbn [apply_op] in Cr'. destruct A as [|a A0] eqn:EA; [cbn in L; lia|]. rewrite <- EA in *.
      assert (NA : A <> []) by (rewrite EA; discriminate). destruct (exists_last NA) as (B & g & EB).
      rewrite EB in *. rewrite removelast_last in Cr'. rewrite app_length in *. cbn [length] in *.
      assert (FB : forall k, k <= length B -> firstn k (B ++ [g]) = firstn k B).
      { intros k Lk. rewrite firstn_app. replace (k - length B) with 0 by lia. cbn [firstn]. apply app_nil_r. }
      apply (IH B); [lia| | |exact Cr'].
      * intros k Lk. specialize (PK (S k) ltac:(lia)). replace (length B + 1 - S k) with (length B - k) in PK by lia.
        rewrite FB in PK by lia. exact PK.
      * intros X0 CX. apply PF. replace (length B + 1 - S n) with (length B - n) by lia. rewrite FB by lia. exact CX.
Qed.

Lemma noforge_firstn key D A k : noforge key D A -> noforge key D (firstn k A).
Proof.
  intros N i j L1 L2. destruct (Nat.lt_ge_cases i k) as [L|L].
  - assert (E : nth i (firstn k A) [] = nth i A []).
    { rewrite <- (firstn_skipn k A) at 2. destruct (Nat.lt_ge_cases i (length (firstn k A))) as [L'|L'].
      - rewrite app_nth1 by exact L'. reflexivity.
      - rewrite firstn_length in L'. rewrite !nth_overflow; [reflexivity| |]; rewrite ?app_length, ?firstn_length, ?skipn_length; lia. }
    rewrite E in *. auto.
  - rewrite nth_overflow in L2 by (rewrite firstn_length; lia). cbn [length] in L2. lia.
Qed.

(** Recovery finds exactly [D] again, from every image, and every crash of recovery itself
    leaves another image. *)
Lemma recover_spec key D top hist A t rp h prev : dinv key D top hist -> hist = (t, rp) :: h ->
  rec_at C key D top prev rp -> chain H C key D prev h ->
  cutof D A -> noforge key D A ->
  exists ops, recover C key (length A) A [] = Ok (D, ops, mkmeta top rp NNull, mkmeta prev rp NNull) /\
    forall X, crash A ops X -> cutof D X /\ noforge key D X.
Proof.
  intros [Ch Ln Se Cp Mx] Eh Rec Ch2 (b & f & x & c & ED & EA) NF.
  rewrite Eh in Se, Ch. destruct Ch as (prev0 & _ & Ro & _).
  destruct Se as (b1 & f1 & r & ED2 & Al & Lr & Et).
  assert (CP : ptr_ok prev /\ psize prev = 0%N) by (eapply chain_ptr; eauto). destruct CP as [Pp Zp].
  assert (Pr : ptr_ok rp) by (eapply root_ok_ptr; eauto).
  rewrite ED in ED2. apply app_inj_tail in ED2. destruct ED2 as [<- Ef].
  assert (Er : r = meta_write C key (mkmeta prev rp NNull)).
  { destruct Rec as (_ & _ & _ & R). rewrite Et in R. unfold rdl in R. cbn [pidx ppos psize] in R. rewrite ED, Ef in R.
    rewrite app_length in R. cbn [length] in R.
    destruct (N.eqb_spec (N.of_nat (length b + 1)) 0) as [X|_]; [lia|].
    replace (N.to_nat (N.of_nat (length b + 1)) - 1) with (length b) in R by lia.
    rewrite nth_error_app2, Nat.sub_diag in R by lia. cbn [nth_error] in R. cbn [N.eqb] in R.
    rewrite blen_app in R. assert (Br : blen r = 38%N) by (unfold blen; rewrite Lr; reflexivity). rewrite Br in R.
    destruct (N.ltb_spec (blen f1 + 38) (blen f1 + 38)) as [X|_]; [lia|]. injection R as R. rewrite <- Br, slice_here in R. exact R. }
  set (k := length f1 / 38).
  assert (Ek : length f1 = 38 * k).
  { unfold blen in Al. assert (M : length f1 mod 38 = 0). { apply Nat2N.inj. rewrite Nat2N.inj_mod. exact Al. }
    pose proof (Nat.div_mod (length f1) 38 ltac:(lia)) as X. unfold k. lia. }
  set (g := f ++ x). 
  assert (Lg : length g = 38 * k + 38 + length x) by (unfold g; rewrite Ef, !app_length; lia).
  assert (Bk : blk g k = r).
  { unfold g, blk. rewrite Ef, <- app_assoc, <- Ek, skipn_app_exact by reflexivity. apply firstn_app_exact. symmetry. exact Lr. }
  assert (Hit : find_meta C key g (length g / 38) = Ok (Some (mkmeta prev rp NNull, 38 * k))).
  { pose proof (Nat.mul_div_le (length g) 38 ltac:(lia)) as L1.
    apply find_meta_hit; [exact L1| | |].
    - apply Nat.div_le_lower_bound; lia.
    - rewrite Bk, Er. apply (meta_roundtrip C C_len key (mkmeta prev rp NNull)); assumption.
    - intros j L2 L3. specialize (NF (length b) j). rewrite EA, ED, !nth_app_new in NF. fold g in NF.
      apply NF; [rewrite Ef, app_length; lia|]. lia. }
  assert (One : recover C key (length (b ++ [g])) (b ++ [g]) [] =
     Ok (D, [OCut (length b) (38 * k + 38)], mkmeta top rp NNull, mkmeta prev rp NNull)).
  { rewrite app_length. cbn [length]. rewrite Nat.add_1_r. cbn [recover hd tl]. unfold fget. rewrite nth_app_new, Hit. cbn [bind].
    rewrite upd_at. cbn [m_meta m_root].
    assert (X1 : b ++ [firstn (38 * k + 38) g] = D).
    { rewrite ED. do 2 f_equal. unfold g. apply firstn_app_exact. rewrite Ef, app_length. lia. }
    assert (X2 : mkptr (N.of_nat (S (length b))) (N.of_nat (38 * k)) (psize prev) = top).
    { rewrite Et, Zp. f_equal.
      + rewrite ED, app_length. cbn [length]. lia.
      + unfold blen. lia. }
    rewrite X1, X2. reflexivity. }
  rewrite EA in *. exists (repeat ODrop (length c) ++ [OCut (length b) (38 * k + 38)]). split.
  { rewrite (recover_drop key D c b (f ++ x) NF ltac:(rewrite ED, app_length; cbn [length]; lia) _ One). reflexivity. }
  intros X. apply crash_drops with (P := fun X => cutof D X /\ noforge key D X).
  - rewrite app_length. cbn [length]. lia.
  - intros j Lj. split; [|apply noforge_firstn, NF]. rewrite app_length. cbn [length].
    replace (length b + S (length c) - j) with (length b + S (length c - j)) by lia.
    rewrite firstn_app_2. cbn [firstn]. exists b, f, x, (firstn (length c - j) c). auto.
  - rewrite app_length. cbn [length]. replace (length b + S (length c) - length c) with (length b + 1) by lia.
    rewrite firstn_app_2. cbn [firstn]. fold g. intros Y CY.
    assert (CG : cutof D (b ++ [g])) by (exists b, f, x, []; auto).
    assert (NG : noforge key D (b ++ [g])).
    { apply (noforge_firstn key D _ (length b + 1)) in NF. rewrite firstn_app_2 in NF. exact NF. }
    assert (FG : firstn (38 * k + 38) g = f).
    { unfold g. apply firstn_app_exact. rewrite Ef, app_length. lia. }
    clearbody g. clear - H H_len C_len CY CG NG FG ED. revert CY FG. generalize (38 * k + 38). intros o CY FG.
    inversion CY as [| |? ? ? ? CY']; subst; [auto|]. inversion CY'; subst. cbn [apply_op]. unfold fget. rewrite nth_app_new, upd_at.
    split; [apply cutof_refl|apply noforge_refl].
Qed.

Lemma recover_empty key A : noforge key [] A ->
  recover C key (length A) A [] = Ok ([], repeat ODrop (length A), meta0, meta0) /\
  forall X, crash A (repeat ODrop (length A) ++ [ONew]) X -> noforge key [] X.
Proof.
  intros NF. split.
  - induction A as [|g A IH] using rev_ind; [reflexivity|].
    rewrite app_length. cbn [length]. rewrite Nat.add_1_r. cbn [recover hd tl]. unfold fget. rewrite nth_app_new, removelast_last.
    assert (Fn : find_meta C key g (length g / 38) = Ok None).
    { pose proof (Nat.mul_div_le (length g) 38 ltac:(lia)) as Lg. apply find_meta_none; [exact Lg|].
      intros j Lj. specialize (NF (length A) j). rewrite nth_app_new in NF.
      rewrite nth_overflow in NF by (cbn; lia). cbn [length] in NF. apply NF; lia. }
    rewrite Fn. cbn [bind]. rewrite (IH (noforge_drop _ _ _ _ NF)). reflexivity.
  - intros X. apply crash_drops with (P := fun X => noforge key [] X); [lia| |].
    + intros k _. apply noforge_firstn, NF.
    + intros Y CY. rewrite Nat.sub_diag in CY. cbn [firstn] in CY.
      inversion CY as [| |? ? ? ? CY']; subst; [intros i j; destruct i; cbn [nth length]; lia|].
      inversion CY'; subst. cbn [apply_op app]. intros i j. destruct i as [|[|]]; cbn [nth length]; lia.
Qed.

(** ** urkel_store_init *)
Theorem store_open_spec key D top hist A : dinv key D top hist -> image key D hist A ->
  exists s', store_open H C key A [] = Ok (Some s') /\ st_fs s' = D /\ clean_st s' /\ sinv H C s' D hist /\
    st_key s' = key /\ m_meta (st_state s') = top /\ st_io s' = [] /\
    apply_ops A (st_log s') = D /\
    forall X, crash A (st_log s') X -> image key D hist X.
Proof.
  intros DI IM. pose proof DI as [Ch Ln Se Cp Mx].
  destruct hist as [|[t rp] h].
  - cbn [sealed] in Se. cbn [chain] in Ch. subst D top.
    assert (NF : noforge key [] A).
    { destruct IM as [[_ NF]|[_ ->]].
      - intros i j L1 L2. apply NF; [|exact L2]. destruct i as [|[|]]; cbn [nth length]; lia.
      - intros i j L1 L2. destruct i; cbn [nth length] in L2; lia. }
    destruct (recover_empty key A NF) as [R Cr]. unfold store_open. rewrite R. cbn [bind length].
    change (fget [[]] (1 - 1)) with (@nil byte). unfold check. change (N.of_nat 1 <? MAX_FILES)%N with true. cbv iota.
    cbn [m_root meta0 read_root pidx ptr0 N.eqb bind m_meta]. eexists. split; [reflexivity|]. cbn [set_state st_fs st_key st_state m_meta st_io st_log].
    split; [reflexivity|]. split.
    { constructor; cbn [set_state st_fs st_index st_size st_slab]; [discriminate|reflexivity|reflexivity|unfold MAX_FILE_SIZE, blen; cbn [length]; lia|reflexivity]. }
    split.
    { assert (Cs : clean_st (set_state (mkstore [[]] (repeat ODrop (length A) ++ [ONew]) key (mkslab [] 0 [] 0 (blen []) (N.of_nat 1)) meta0 meta0 [] (N.of_nat 1) (blen []) []) (mkmeta ptr0 ptr0 NNull))).
      { constructor; cbn [set_state st_fs st_index st_size st_slab]; [discriminate|reflexivity|reflexivity|unfold MAX_FILE_SIZE, blen; cbn [length]; lia|reflexivity]. }
      constructor.
      - intros p x Ep. rewrite (clean_rd _ Cs). exact Ep.
      - reflexivity.
      - reflexivity.
      - cbn [length]. lia.
      - exists [], []. split; [reflexivity|]. split; [reflexivity|]. intros t w [].
      - intros h n X. discriminate X.
      - reflexivity. }
    split; [reflexivity|]. split; [reflexivity|]. split; [reflexivity|]. split.
    { rewrite apply_ops_app. assert (X : apply_ops A (repeat ODrop (length A)) = []).
      { clear. induction A as [|g A IH] using rev_ind; [reflexivity|]. rewrite app_length, Nat.add_1_r. cbn [length repeat].
        unfold apply_ops. cbn [fold_left apply_op]. rewrite removelast_last. exact IH. }
      rewrite X. reflexivity. }
    intros X CX. specialize (Cr X CX).
    destruct X as [|f X]; [right; auto|]. left. split.
    + exists [], [], f, X. auto.
    + intros i j _ L2. apply Cr; [|exact L2]. destruct i; cbn [nth length]; lia.
  - pose proof Ch as (prev & Rec & Ro & Ch2). destruct IM as [[CA NF]|[X _]]; [|discriminate X].
    destruct (recover_spec key D top _ A t rp h prev DI eq_refl Rec Ch2 CA NF) as (ops & R & Cr).
    unfold store_open. rewrite R. cbn [bind].
    assert (ND : D <> []) by apply (cutof_nonnil _ _ CA).
    assert (Em : (match D with [] => ([[]], ops ++ [ONew]) | _ :: _ => (D, ops) end) = (D, ops)) by (destruct D; [congruence|reflexivity]).
    rewrite Em. unfold check. destruct (N.ltb_spec (N.of_nat (length D)) MAX_FILES) as [_|X]; [|lia].
    assert (Lf : fget D (length D - 1) = last D []).
    { destruct (exists_last ND) as (b & f & ->). rewrite app_length, last_last. cbn [length]. replace (length b + 1 - 1) with (length b) by lia. apply fget_at. }
    rewrite Lf. cbn [m_root m_meta].
    set (s0 := mkstore D ops key (mkslab [] 0 [] 0 (blen (last D [])) (N.of_nat (length D))) (mkmeta top rp NNull) (mkmeta prev rp NNull) [] (N.of_nat (length D)) (blen (last D [])) []).
    assert (C0 : clean_st s0) by (constructor; [exact ND|reflexivity|reflexivity|exact Mx|reflexivity]).
    assert (R0 : forall p x, rdl D p = Some x -> st_rd s0 p = Some x).
    { intros p x Ep. rewrite (clean_rd _ C0). exact Ep. }
    rewrite (read_root_eq H H_len C C_len s0 D t rp R0 Ro). cbn [bind].
    destruct (cached_fields H s0 t rp) as (F1 & F2 & F3 & F4 & F5 & F6 & F7 & F8 & F9).
    eexists. split; [reflexivity|]. set (s1 := cached H s0 t rp) in *.
    cbn [set_state st_fs st_key st_state m_meta st_io st_log]. rewrite F5, F1, F8, F9.
    split; [reflexivity|]. split.
    { destruct C0 as [c1 c2 c3 c4 c5]. constructor; cbn [set_state st_fs st_index st_size st_slab]; rewrite ?F4, ?F5, ?F6, ?F7; assumption. }
    split.
    { constructor; cbn [set_state st_fs st_key st_state m_meta m_node st_last st_cache st_index].
      - intros p x Ep. change (st_rd s1 p = Some x). unfold s1. rewrite cached_rd. auto.
      - rewrite F1. exact Ch.
      - reflexivity.
      - exact Ln.
      - exists [(t, rp)], h. split; [reflexivity|]. rewrite F1, F3. split; [exact Ch2|].
        intros t0 w0 [[= <- <-]|[]] N0. apply cached_self, N0.
      - apply cached_sound; [|now left]. intros h0 n X. discriminate X.
      - rewrite F4. exact Cp. }
    split; [reflexivity|]. split; [reflexivity|]. split; [reflexivity|].
    change (st_log s0) with ops.
    split.
    { pose proof (crash_end A ops) as X. clear - R X ND.
      revert R. generalize A at 1. intros n. assert (G : forall k A io fs ops st m, recover C key k A io = Ok (fs, ops, st, m) -> apply_ops A ops = fs).
      { induction k as [|k IH]; intros A0 io fs ops0 st m E.
        - apply Ok_inj in E. injection E as <- <- _ _. reflexivity.
        - cbn [recover] in E. destruct (if hd false io then Ok None else find_meta C key (fget A0 k) (length (fget A0 k) / 38)) as [[[m1 off]|]| | | |]; cbn [bind] in E; try discriminate E.
          + apply Ok_inj in E. injection E as <- <- _ _. reflexivity.
          + destruct (recover C key k (removelast A0) (tl io)) as [[[[fs1 ops1] st1] m1]| | | |] eqn:E1; cbn [bind] in E; try discriminate E.
            apply Ok_inj in E. injection E as <- <- _ _. unfold apply_ops. cbn [fold_left apply_op]. apply (IH _ _ _ _ _ _ E1). }
      intros E. apply (G _ _ _ _ _ _ _ E). }
    intros X CX. left. apply Cr, CX.
Qed.

(** ** What a crash during a commit leaves *)

(** The only block of [V] outside [D] that passes for a commit record is the last one. *)
Definition genuine (key : bytes) (D V : list bytes) : Prop :=
  forall i j m, length (nth i D []) <= 38 * j -> 38 * j + 38 <= length (nth i V []) ->
    meta_read C key (blk (nth i V []) j) = Ok (Some m) ->
    S i = length V /\ 38 * j + 38 = length (nth i V []).

Lemma cut_prefix A V i : cutof A V -> exists x, nth i V [] = nth i A [] ++ x.
Proof.
  intros CA. destruct (nth_error A i) as [f|] eqn:E.
  - destruct (cutof_ext _ _ CA i f E) as (x & E'). exists x. rewrite (nth_error_nth _ _ _ E), (nth_error_nth _ _ _ E'). reflexivity.
  - apply nth_error_None in E. exists (nth i V []). rewrite (nth_overflow A) by exact E. reflexivity.
Qed.

Lemma cut_cases key D A V : genuine key D V -> cutof D A -> cutof A V -> A = V \/ noforge key D A.
Proof.
  intros G CD CA. pose proof CA as (b & f & x & c & EA & EV).
  destruct x as [|x0 x]; [destruct c as [|c0 c]|].
  - left. rewrite EA, EV, app_nil_r. reflexivity.
  - right. intros i j L1 L2. destruct (cut_prefix A V i CA) as (y & E).
    assert (Li : i < length A). { destruct (Nat.lt_ge_cases i (length A)) as [L|L]; [exact L|]. rewrite nth_overflow in L2 by exact L. cbn [length] in L2. lia. }
    destruct (meta_read_total H H_len C C_len key (blk (nth i A []) j)) as ([m|] & Em); [|exfalso|exact Em].
    { unfold blk. rewrite firstn_length, skipn_length. lia. }
    destruct (G i j m L1) as [X1 X2].
    + rewrite E, app_length. lia.
    + rewrite E, blk_prefix by exact L2. exact Em.
    + rewrite EV, app_length in X1. rewrite EA, app_length in Li. cbn [length] in *. lia.
  - right. intros i j L1 L2. destruct (cut_prefix A V i CA) as (y & E).
    assert (Li : i < length A). { destruct (Nat.lt_ge_cases i (length A)) as [L|L]; [exact L|]. rewrite nth_overflow in L2 by exact L. cbn [length] in L2. lia. }
    destruct (meta_read_total H H_len C C_len key (blk (nth i A []) j)) as ([m|] & Em); [|exfalso|exact Em].
    { unfold blk. rewrite firstn_length, skipn_length. lia. }
    destruct (G i j m L1) as [X1 X2].
    + rewrite E, app_length. lia.
    + rewrite E, blk_prefix by exact L2. exact Em.
    + rewrite EV, app_length in X1. rewrite EA, app_length in Li. cbn [length] in *.
      assert (Ei : i = length b) by lia. subst i. rewrite EV, nth_app_new, app_length in X2. rewrite EA, nth_app_new in L2. cbn [length] in X2. lia.
Qed.
End RF.
