(** * Data files, write buffer and flush. *)
From Verif Require Export Store TreeFacts.
From Coq Require Import ZifyBool ZifyNat ZifyN.

Lemma blen_app a b : blen (a ++ b) = (blen a + blen b)%N.
Proof. unfold blen. rewrite app_length. lia. Qed.

(** ** Extension of a directory: files grow at the end, new files appear at the end. *)
Definition ext (fs fs' : list bytes) : Prop :=
  forall i f, nth_error fs i = Some f -> exists x, nth_error fs' i = Some (f ++ x).

Lemma ext_refl fs : ext fs fs.
Proof. intros i f E. exists []. now rewrite app_nil_r. Qed.
Lemma ext_trans a b c : ext a b -> ext b c -> ext a c.
Proof.
  intros A B i f E. destruct (A i f E) as (x & E1). destruct (B i _ E1) as (y & E2).
  exists (x ++ y). now rewrite app_assoc.
Qed.

Lemma slice_app f x pos size : (pos + size <= blen f)%N -> slice (f ++ x) pos size = slice f pos size.
Proof.
  unfold slice, blen. intros L. rewrite skipn_app, firstn_app.
  replace (N.to_nat size - length (skipn (N.to_nat pos) f)) with 0 by (rewrite skipn_length; lia).
  cbn [firstn]. apply app_nil_r.
Qed.

Lemma slice_here f x : slice (f ++ x) (blen f) (blen x) = x.
Proof.
  unfold slice, blen. rewrite !Nat2N.id, skipn_app_exact by reflexivity. apply firstn_all.
Qed.

Lemma rdl_ext fs fs' p x : ext fs fs' -> rdl fs p = Some x -> rdl fs' p = Some x.
Proof.
  intros E. unfold rdl. destruct (pidx p =? 0)%N; [discriminate|].
  destruct (nth_error fs _) as [f|] eqn:N1; [|discriminate].
  destruct (E _ _ N1) as (y & ->). destruct (psize p =? 0)%N; [auto|].
  destruct (N.ltb_spec (blen f) (ppos p + psize p)) as [X|X]; [discriminate|].
  intros [= <-]. rewrite blen_app. destruct (N.ltb_spec (blen f + blen y) (ppos p + psize p)); [lia|].
  f_equal. apply slice_app. lia.
Qed.

(** [A] is a directory left behind by an interrupted sequence of appends leading to [V]. *)
Definition cutof (A V : list bytes) : Prop :=
  exists b f x c, A = b ++ [f] /\ V = b ++ (f ++ x) :: c.

Lemma cutof_ext A V : cutof A V -> ext A V.
Proof.
  intros (b & f & x & c & -> & ->) i g E.
  destruct (Nat.lt_ge_cases i (length b)) as [L|L].
  - rewrite nth_error_app1 in * by lia. exists []. now rewrite app_nil_r.
  - rewrite nth_error_app2 in * by lia. destruct (i - length b) as [|k]; cbn in *.
    + injection E as <-. eauto.
    + destruct k; discriminate.
Qed.

Lemma cutof_refl b f : cutof (b ++ [f]) (b ++ [f]).
Proof. exists b, f, [], []. now rewrite app_nil_r. Qed.

Lemma cutof_trans A B V : cutof A B -> cutof B V -> cutof A V.
Proof.
  intros (b & f & x & c & -> & ->) (b2 & f2 & x2 & c2 & E & ->).
  destruct c as [|g c].
  - apply app_inj_tail in E. destruct E as [<- <-].
    exists b, f, (x ++ x2), c2. now rewrite app_assoc.
  - destruct (@exists_last _ (g :: c)) as (c' & l & Ec); [discriminate|]. rewrite Ec in E.
    rewrite app_comm_cons, app_assoc in E. apply app_inj_tail in E. destruct E as [<- <-].
    exists b, f, x, (c' ++ (l ++ x2) :: c2). split; [reflexivity|]. now rewrite <- app_assoc.
Qed.

(** ** The virtual directory: what the files will be once the buffer is flushed *)

Definition vapp (V : list bytes) (d : bytes) : list bytes :=
  if (MAX_FILE_SIZE <? blen (last V []) + blen d)%N then V ++ [d]
  else removelast V ++ [last V [] ++ d].

Lemma vapp_cut V d : V <> [] -> cutof V (vapp V d).
Proof.
  intros N. destruct (exists_last N) as (b & f & ->). unfold vapp.
  rewrite last_last, removelast_last. destruct (_ <? _)%N.
  - exists b, f, [], [d]. rewrite app_nil_r. split; [reflexivity|]. now rewrite <- app_assoc.
  - exists b, f, d, []. auto.
Qed.

Lemma vapp_nonnil V d : vapp V d <> [].
Proof. unfold vapp. destruct (_ <? _)%N; intros X; symmetry in X; now apply app_cons_not_nil in X. Qed.

Lemma vapp_last V d : V <> [] -> exists b f, vapp V d = b ++ [f ++ d].
Proof.
  intros N. unfold vapp. destruct (_ <? _)%N.
  - exists V, []. reflexivity.
  - eauto.
Qed.

(** The bytes appended last are found at the end of the last file. *)
Lemma vapp_read V d : V <> [] ->
  rdl (vapp V d) (mkptr (N.of_nat (length (vapp V d))) (blen (last (vapp V d) []) - blen d) (blen d)) = Some d.
Proof.
  intros N. destruct (vapp_last V d N) as (b & f & ->). unfold rdl. cbn [pidx ppos psize].
  rewrite app_length, last_last. cbn [length].
  destruct (N.eqb_spec (N.of_nat (length b + 1)) 0) as [X|_]; [lia|].
  replace (N.to_nat (N.of_nat (length b + 1)) - 1) with (length b) by lia.
  rewrite nth_error_app2, Nat.sub_diag by lia. cbn [nth_error].
  rewrite blen_app. replace (blen f + blen d - blen d)%N with (blen f) by lia.
  destruct (N.eqb_spec (blen d) 0) as [X|_].
  - f_equal. destruct d; [reflexivity|discriminate X].
  - destruct (N.ltb_spec (blen f + blen d) (blen f + blen d)); [lia|]. f_equal. apply slice_here.
Qed.

Fixpoint adj (f : bytes) (cs : list bytes) : Prop :=
  match cs with [] => True | c :: cs' => (MAX_FILE_SIZE < blen f + blen c)%N /\ adj c cs' end.

(** The relation between files, buffer and virtual directory.  [roll]: the first pending
    chunk starts a new file. *)
Record wview (s : store) (base : list bytes) (cur p0 : bytes) (ps : list bytes) : Prop := {
  wv_fs : exists extra, st_fs s = base ++ cur :: extra /\
          (extra = [] \/ (extra = [[]] /\ p0 = [] /\ ps <> []));
  wv_index : st_index s = N.of_nat (length base + 1);
  wv_size : st_size s = blen cur;
  wv_data : exists pre, sl_data (st_slab s) = pre ++ p0 ++ concat ps /\
     sl_start (st_slab s) <= length (sl_offsets (st_slab s)) /\
     length pre = list_sum (firstn (sl_start (st_slab s)) (sl_offsets (st_slab s) ++ [sl_off (st_slab s)])) /\
     (skipn (sl_start (st_slab s)) (sl_offsets (st_slab s) ++ [sl_off (st_slab s)]) = map (@length byte) (p0 :: ps) \/
      (p0 = [] /\ ps <> [] /\
       skipn (sl_start (st_slab s)) (sl_offsets (st_slab s) ++ [sl_off (st_slab s)]) = map (@length byte) ps));
  wv_sindex : sl_index (st_slab s) = N.of_nat (length base + 1 + length ps);
  wv_spos : sl_pos (st_slab s) = blen (last ((cur ++ p0) :: ps) []);
  wv_max : (blen (cur ++ p0) <= MAX_FILE_SIZE)%N /\ Forall (fun c => (blen c <= MAX_FILE_SIZE)%N) ps;
  wv_adj : adj (cur ++ p0) ps }.

Definition view (s : store) (V : list bytes) : Prop :=
  exists base cur p0 ps, wview s base cur p0 ps /\ V = base ++ (cur ++ p0) :: ps.

Lemma view_nonnil s V : view s V -> V <> [].
Proof. intros (b & c & p & ps & _ & ->) X. symmetry in X. now apply app_cons_not_nil in X. Qed.

Lemma last_app_ne {A} (a b : list A) d : b <> [] -> last (a ++ b) d = last b d.
Proof. intros N. destruct (exists_last N) as (x & y & ->). rewrite app_assoc, !last_last. reflexivity. Qed.

Lemma view_slab_end s V : view s V ->
  sl_index (st_slab s) = N.of_nat (length V) /\ sl_pos (st_slab s) = blen (last V []) /\
  (blen (last V []) <= MAX_FILE_SIZE)%N.
Proof.
  intros (b & c & p & ps & W & ->). destruct W.
  rewrite last_app_ne by discriminate. split; [|split; [assumption|]].
  - rewrite wv_sindex0, app_length. cbn [length]. lia.
  - destruct wv_max0 as [M1 M2]. destruct ps as [|q ps]; [exact M1|].
    change (last ((c ++ p) :: q :: ps) []) with (last (q :: ps) []).
    rewrite Forall_forall in M2. apply M2. destruct (@exists_last _ (q :: ps)) as (x & y & ->); [discriminate|].
    rewrite last_last. apply in_or_app; right; left; reflexivity.
Qed.

Lemma adj_snoc f cs c : adj f (cs ++ [c]) <-> adj f cs /\ (MAX_FILE_SIZE < blen (last (f :: cs) []) + blen c)%N.
Proof.
  revert f; induction cs as [|g cs IH]; intros f.
  - cbn. tauto.
  - cbn [app adj]. rewrite IH. change (last (f :: g :: cs) []) with (last (g :: cs) []). tauto.
Qed.

Lemma adj_last_ext f cs c d : adj f (cs ++ [c]) -> adj f (cs ++ [c ++ d]).
Proof. rewrite !adj_snoc, blen_app. intros [A B]. split; [exact A|lia]. Qed.

Lemma firstn_app_le {A} (a b : list A) n : n <= length a -> firstn n (a ++ b) = firstn n a.
Proof. intros L. rewrite firstn_app. replace (n - length a) with 0 by lia. cbn. apply app_nil_r. Qed.
Lemma skipn_app_le {A} (a b : list A) n : n <= length a -> skipn n (a ++ b) = skipn n a ++ b.
Proof. intros L. rewrite skipn_app. replace (n - length a) with 0 by lia. reflexivity. Qed.

Lemma chunks_snoc (st : nat) (offs : list nat) (off : nat) l x :
  st <= length offs -> skipn st (offs ++ [off]) = l ++ [x] -> off = x /\ skipn st offs = l.
Proof. intros L E. rewrite skipn_app_le in E by assumption. apply app_inj_tail in E. tauto. Qed.

Lemma slab_write_view s V data sl : view s V -> slab_write (st_slab s) data = Ok sl ->
  view (set_slab s sl) (vapp V data) /\
  sl_index sl = N.of_nat (length (vapp V data)) /\ sl_pos sl = blen (last (vapp V data) []).
Proof.
  intros VV E.
  assert (G : view (set_slab s sl) (vapp V data)).
  2:{ split; [exact G|]. apply view_slab_end in G. cbn [set_slab st_slab] in G. tauto. }
  destruct (view_slab_end _ _ VV) as (Ei & Ep & Em).
  destruct VV as (b & c & p0 & ps & W & EV). 
  unfold slab_write, check in E. destruct (N.leb_spec (blen data) MAX_FILE_SIZE) as [Ld|]; [|discriminate].
  apply Ok_inj in E. rewrite Ep in E. unfold vapp.
  destruct W as [wf wi ws wd wsi wp wm wa].
  destruct wd as (pre & D1 & D2 & D3 & D4).
  destruct (N.ltb_spec MAX_FILE_SIZE (blen (last V []) + blen data)) as [R|R].
  - (* new file *)
    cbn [sl_data sl_off sl_offsets sl_start sl_pos sl_index] in E.
    exists b, c, p0, (ps ++ [data]). split.
    2:{ rewrite EV, <- app_assoc. reflexivity. }
    subst sl. constructor; cbn [set_slab st_fs st_index st_size st_slab sl_data sl_off sl_offsets sl_start sl_pos sl_index].
    + destruct wf as (extra & F1 & F2). exists extra. split; [exact F1|].
      destruct F2 as [F2|(F2 & F3 & F4)]; [left; exact F2|right]. repeat split; auto.
      intros X; symmetry in X; now apply app_cons_not_nil in X.
    + exact wi.
    + exact ws.
    + exists pre. rewrite D1, concat_app. cbn [concat]. rewrite app_nil_r, <- !app_assoc.
      split; [reflexivity|]. rewrite app_length. cbn [length]. split; [lia|].
      rewrite (app_assoc (sl_offsets (st_slab s))).
      rewrite firstn_app_le by (rewrite app_length; cbn [length]; lia).
      split; [exact D3|].
      rewrite skipn_app_le by (rewrite app_length; cbn [length]; lia).
      destruct D4 as [D4|(-> & D5 & D4)].
      * left. rewrite D4. cbn [map]. rewrite map_app. reflexivity.
      * right. split; [reflexivity|]. split; [intros X; symmetry in X; now apply app_cons_not_nil in X|].
        rewrite D4, map_app. reflexivity.
    + rewrite wsi, app_length. cbn [length]. lia.
    + rewrite app_comm_cons, last_last. unfold blen. cbn [length]. lia.
    + destruct wm as [M1 M2]. split; [exact M1|]. apply Forall_app. split; [exact M2|]. constructor; auto.
    + apply adj_snoc. split; [exact wa|]. rewrite EV, last_app_ne in R by discriminate. exact R.
  - (* same file *)
    cbn [sl_data sl_off sl_offsets sl_start sl_pos sl_index] in E.
    destruct ps as [|q ps].
    + exists b, c, (p0 ++ data), []. split.
      2:{ rewrite EV, last_last, removelast_last, app_assoc. reflexivity. }
      subst sl. constructor; cbn [set_slab st_fs st_index st_size st_slab sl_data sl_off sl_offsets sl_start sl_pos sl_index].
      * destruct wf as (extra & F1 & F2). exists extra. split; [exact F1|].
        destruct F2 as [F2|(F2 & F3 & F4)]; [left; exact F2|congruence].
      * exact wi.
      * exact ws.
      * exists pre. destruct D4 as [D4|(_ & X & _)]; [|congruence].
        rewrite D1. cbn [concat]. rewrite !app_nil_r, <- !app_assoc. split; [reflexivity|]. split; [exact D2|].
        cbn [map] in D4. destruct (chunks_snoc _ _ _ [] _ D2 D4) as [Eo Es].
        split.
        { rewrite firstn_app_le in * by assumption. exact D3. }
        left. rewrite skipn_app_le by assumption. rewrite Es. cbn [map app]. rewrite app_length. congruence.
      * rewrite wsi. reflexivity.
      * cbn [last]. rewrite Ep, EV, last_last. rewrite app_assoc, (blen_app (c ++ p0)). reflexivity.
      * rewrite EV, last_last in R. split; [|constructor]. rewrite app_assoc, blen_app. lia.
      * exact I.
    + destruct (@exists_last _ (q :: ps)) as (qs & z & Eq); [discriminate|].
      rewrite Eq in *. clear q ps Eq.
      exists b, c, p0, (qs ++ [z ++ data]). split.
      2:{ rewrite EV. rewrite app_comm_cons, app_assoc, last_last, removelast_last, <- app_assoc. reflexivity. }
      subst sl. constructor; cbn [set_slab st_fs st_index st_size st_slab sl_data sl_off sl_offsets sl_start sl_pos sl_index].
      * destruct wf as (extra & F1 & F2). exists extra. split; [exact F1|].
        destruct F2 as [F2|(F2 & F3 & F4)]; [left; exact F2|right]. repeat split; auto.
        intros X; symmetry in X; now apply app_cons_not_nil in X.
      * exact wi.
      * exact ws.
      * exists pre. rewrite D1, !concat_app. cbn [concat]. rewrite !app_nil_r, <- !app_assoc.
        split; [reflexivity|]. split; [exact D2|].
        split. { rewrite firstn_app_le in * by assumption. exact D3. }
        rewrite !map_app in *. cbn [map] in *. rewrite app_length.
        destruct D4 as [D4|(-> & D5 & D4)].
        -- left. rewrite map_app in D4. cbn [map] in D4. rewrite app_comm_cons in D4.
           destruct (chunks_snoc _ _ _ _ _ D2 D4) as [Eo Es].
           rewrite skipn_app_le by assumption. rewrite Es, Eo, map_app. cbn [map]. rewrite app_length. reflexivity.
        -- right. split; [reflexivity|]. split; [intros X; symmetry in X; now apply app_cons_not_nil in X|].
           destruct (chunks_snoc _ _ _ _ _ D2 D4) as [Eo Es].
           rewrite skipn_app_le by assumption. rewrite Es, Eo. reflexivity.
      * rewrite wsi, !app_length. reflexivity.
      * rewrite Ep, EV. rewrite app_comm_cons, app_assoc, !last_last, app_comm_cons, last_last, blen_app. reflexivity.
      * destruct wm as [M1 M2]. split; [exact M1|]. apply Forall_app in M2. destruct M2 as [M2 _].
        apply Forall_app. split; [exact M2|]. constructor; [|constructor].
        rewrite EV, app_comm_cons, app_assoc, last_last in R. rewrite blen_app. exact R.
      * apply adj_last_ext. exact wa.
Qed.

(** ** Flush *)

Lemma crash_app fs a b A : crash fs (a ++ b) A -> crash fs a A \/ crash (apply_ops fs a) b A.
Proof.
  revert fs; induction a as [|o a IH]; intros fs C; cbn [app] in *.
  - right. exact C.
  - inversion C as [| |? ? ? ? C']; subst.
    + left. constructor.
    + left. constructor.
    + destruct (IH _ C') as [X|X]; [left; now constructor|right; exact X].
Qed.
Lemma apply_ops_app fs a b : apply_ops fs (a ++ b) = apply_ops (apply_ops fs a) b.
Proof. apply fold_left_app. Qed.

(** Fields a flush does not touch (besides the buffer). *)
Definition same (s s' : store) : Prop :=
  st_key s' = st_key s /\ st_slab s' = st_slab s /\ st_state s' = st_state s /\
  st_last s' = st_last s /\ st_cache s' = st_cache s.
Lemma same_refl s : same s s. Proof. repeat split. Qed.
Lemma same_trans a b c : same a b -> same b c -> same a c.
Proof. intros (A1 & A2 & A3 & A4 & A5) (B1 & B2 & B3 & B4 & B5). repeat split; congruence. Qed.

Lemma upd_at {A} (b : list A) x c y : upd (b ++ x :: c) (length b) y = b ++ y :: c.
Proof. induction b as [|z b IH]; cbn; [reflexivity|]. now rewrite IH. Qed.
Lemma fget_at b x c : fget (b ++ x :: c) (length b) = x.
Proof. unfold fget. rewrite app_nth2, Nat.sub_diag by lia. reflexivity. Qed.

(** The operations performed between two states, and the directories a crash among them
    leaves: always an extension of the first one and a prefix of [V]. *)
Definition logs (s s' : store) (V : list bytes) : Prop :=
  exists ops, st_log s' = st_log s ++ ops /\ apply_ops (st_fs s) ops = st_fs s' /\
    forall A, crash (st_fs s) ops A -> cutof (st_fs s) A /\ cutof A V.

Lemma crash_end fs ops : crash fs ops (apply_ops fs ops).
Proof. revert fs; induction ops as [|o ops IH]; intros fs; cbn; [constructor|]. apply crash_later, IH. Qed.

Lemma cutof_refl' V : V <> [] -> cutof V V.
Proof. intros N. destruct (exists_last N) as (b & f & ->). apply cutof_refl. Qed.
Lemma cutof_nonnil A V : cutof A V -> A <> [] /\ V <> [].
Proof. intros (b & f & x & c & -> & ->). split; intros X; symmetry in X; now apply app_cons_not_nil in X. Qed.

Lemma logs_nil s s' V : st_log s' = st_log s -> st_fs s' = st_fs s -> cutof (st_fs s) V -> logs s s' V.
Proof.
  intros L F C. exists []. rewrite app_nil_r. split; [exact L|]. split; [symmetry; exact F|]. intros A CA. inversion CA; subst.
  split; [apply cutof_refl', (cutof_nonnil _ _ C)|exact C].
Qed.
Lemma logs_end a b V : logs a b V -> cutof (st_fs b) V.
Proof. intros (o & _ & P & C). rewrite <- P. apply C, crash_end. Qed.
Lemma logs_grow a b V : logs a b V -> cutof (st_fs a) (st_fs b).
Proof. intros (o & _ & P & C). rewrite <- P. apply C, crash_end. Qed.
Lemma logs_start a b V : logs a b V -> cutof (st_fs a) V.
Proof. intros (o & _ & P & C). apply C. constructor. Qed.
Lemma logs_trans a b c V : logs a b V -> logs b c V -> logs a c V.
Proof.
  intros L1' L2'. pose proof (logs_grow _ _ _ L1') as G. destruct L1' as (o1 & L1 & P1 & C1). destruct L2' as (o2 & L2 & P2 & C2). exists (o1 ++ o2).
  split; [rewrite L2, L1, app_assoc; reflexivity|]. split; [rewrite apply_ops_app, P1; exact P2|].
  intros A CA. apply crash_app in CA. destruct CA as [CA|CA]; [auto|]. rewrite P1 in CA. destruct (C2 _ CA) as [X Y].
  split; [eauto using cutof_trans|exact Y].
Qed.
Lemma logs_mono a b V V' : logs a b V -> cutof V V' -> logs a b V'.
Proof.
  intros (o1 & L1 & P1 & C1) C. exists o1. split; [exact L1|]. split; [exact P1|]. intros A CA. destruct (C1 _ CA). split; eauto using cutof_trans.
Qed.

(** The position of the store in its files: file number [length base + 1] is being written,
    the handle knows [cur]; [junk] are bytes behind it. *)
Definition at_file (s : store) (base : list bytes) (cur junk : bytes) (extra : list bytes) : Prop :=
  st_fs s = base ++ (cur ++ junk) :: extra /\ length extra <= 1 /\
  st_index s = N.of_nat (length base + 1) /\ st_size s = blen cur.

(** What can be read: exactly the bytes the handles know. *)
Lemma st_rd_at s base cur junk extra : at_file s base cur junk extra ->
  forall p, st_rd s p = rdl (base ++ cur :: extra) p.
Proof.
  intros (F & X & I & Z) p. unfold st_rd, rdl. rewrite F, I, Z.
  destruct (N.eqb_spec (pidx p) 0) as [E0|N0]; [reflexivity|]. cbn [orb].
  destruct (N.ltb_spec (N.of_nat (length base + 1) + 1) (pidx p)) as [L|L].
  { replace (nth_error (base ++ cur :: extra) (N.to_nat (pidx p) - 1)) with (@None bytes); [reflexivity|].
    symmetry. apply nth_error_None. rewrite app_length. cbn [length]. lia. }
  destruct (N.eqb_spec (pidx p) (N.of_nat (length base + 1))) as [E|E].
  - rewrite E. replace (N.to_nat (N.of_nat (length base + 1)) - 1) with (length base) by lia.
    rewrite !nth_error_app2, Nat.sub_diag by lia. cbn [nth_error].
    destruct (psize p =? 0)%N; [reflexivity|].
    destruct (N.ltb_spec (blen cur) (ppos p + psize p)) as [Y|Y]; [reflexivity|].
    f_equal. apply slice_app. lia.
  - replace (nth_error (base ++ (cur ++ junk) :: extra) (N.to_nat (pidx p) - 1))
      with (nth_error (base ++ cur :: extra) (N.to_nat (pidx p) - 1)).
    2:{ destruct (Nat.lt_ge_cases (N.to_nat (pidx p) - 1) (length base)) as [Y|Y].
        - rewrite !nth_error_app1 by lia. reflexivity.
        - rewrite !nth_error_app2 by lia.
          destruct (N.to_nat (pidx p) - 1 - length base) as [|k] eqn:Ek; [lia|reflexivity]. }
    destruct (nth_error _ _) as [f|] eqn:Ef; [|reflexivity].
    reflexivity.
Qed.

Definition rmono (s s' : store) : Prop := forall p x, st_rd s p = Some x -> st_rd s' p = Some x.

Lemma rmono_at s s' base cur junk extra base' cur' junk' extra' :
  at_file s base cur junk extra -> at_file s' base' cur' junk' extra' ->
  ext (base ++ cur :: extra) (base' ++ cur' :: extra') -> rmono s s'.
Proof.
  intros A A' E p x. rewrite (st_rd_at _ _ _ _ _ A), (st_rd_at _ _ _ _ _ A'). eauto using rdl_ext.
Qed.

(** Faults that leave no trace in the file being written. *)
Definition clean_fault (f : wfault) : Prop :=
  match f with WShort (S _) | WMap => False | _ => True end.

Lemma ext_snoc_file base (cur x : bytes) extra : ext (base ++ cur :: extra) (base ++ (cur ++ x) :: extra).
Proof.
  intros i f E. destruct (Nat.lt_ge_cases i (length base)) as [L|L].
  - rewrite nth_error_app1 in * by lia. exists []. now rewrite app_nil_r.
  - rewrite nth_error_app2 in * by lia. destruct (i - length base) as [|k]; cbn in *.
    + injection E as <-. eauto.
    + exists []. now rewrite app_nil_r.
Qed.
Lemma ext_more (a b : list bytes) : ext a (a ++ b).
Proof.
  intros i f E. exists []. rewrite app_nil_r, nth_error_app1; [exact E|]. apply nth_error_Some. congruence.
Qed.

(** Appending to the current file. *)
Lemma file_write_spec s f d base cur extra :
  at_file s base cur [] extra -> (extra = [] \/ d = []) ->
  exists ok s', file_write s f d = (ok, s') /\ same s s' /\ st_io s' = st_io s /\
    logs s s' (base ++ (cur ++ d) :: extra) /\
    (exists cur' junk', at_file s' base cur' junk' extra /\ ext (base ++ cur :: extra) (base ++ cur' :: extra) /\
       (ok = true -> cur' = cur ++ d /\ junk' = []) /\
       (ok = false -> clean_fault f -> cur' = cur /\ junk' = [])).
Proof.
  intros (F & X & I & Z) ED. unfold file_write. rewrite app_nil_r in F.
  assert (Ei : N.to_nat (st_index s) - 1 = length base) by lia.
  destruct d as [|b d].
  { exists true, s. split; [reflexivity|]. split; [apply same_refl|]. split; [reflexivity|]. rewrite app_nil_r.
    split; [apply logs_nil; auto; rewrite F; destruct extra as [|e [|e2 extra]]|].
    - apply cutof_refl.
    - exists (base ++ [cur]), e, [], []. rewrite <- !app_assoc, app_nil_r. auto.
    - cbn in X. lia.
    - exists cur, []. split; [repeat split; rewrite ?app_nil_r; auto|]. split; [apply ext_refl|]. split; [auto|discriminate]. }
  destruct ED as [->|]; [|discriminate].
  assert (G : forall x y, x ++ y = b :: d -> forall s', s' = set_fs s (upd (st_fs s) (N.to_nat (st_index s) - 1)
              (fget (st_fs s) (N.to_nat (st_index s) - 1) ++ x)) [OApp (N.to_nat (st_index s) - 1) x] ->
            st_fs s' = base ++ [cur ++ x] /\ logs s s' (base ++ [cur ++ b :: d])).
  { intros x y Exy s' ->. rewrite Ei, F, fget_at, upd_at. cbn [set_fs st_fs]. split; [reflexivity|].
    eexists. cbn [set_fs st_log st_fs]. split; [reflexivity|]. rewrite F. cbn [apply_ops fold_left apply_op].
    rewrite fget_at, upd_at. split; [reflexivity|]. intros A C.
    inversion C as [| ? ? ? n |? ? ? ? C']; subst.
    - split; [apply cutof_refl|]. exists base, cur, (b :: d), []. auto.
    - cbn [apply_op]. rewrite fget_at, upd_at. split; [exists base, cur, (firstn n x), []; auto|].
      exists base, (cur ++ firstn n x), (skipn n x ++ y), []. split; [reflexivity|]. rewrite <- app_assoc, (app_assoc (firstn n x)), firstn_skipn, Exy. reflexivity.
    - inversion C'; subst. cbn [apply_op]. rewrite fget_at, upd_at. split; [exists base, cur, x, []; auto|]. exists base, (cur ++ x), y, [].
      rewrite <- app_assoc, Exy. auto. }
  assert (Full : forall s', s' = set_cur (set_fs s (upd (st_fs s) (N.to_nat (st_index s) - 1)
      (fget (st_fs s) (N.to_nat (st_index s) - 1) ++ b :: d)) [OApp (N.to_nat (st_index s) - 1) (b :: d)])
      (st_index s) (st_size s + blen (b :: d)) ->
      same s s' /\ st_io s' = st_io s /\ logs s s' (base ++ [cur ++ b :: d]) /\
      at_file s' base (cur ++ b :: d) [] [] /\ ext (base ++ [cur]) (base ++ [cur ++ b :: d])).
  { intros s' ->. destruct (G (b :: d) [] (app_nil_r _) _ eq_refl) as [G1 G2].
    split; [repeat split|]. split; [reflexivity|].
    split. { destruct G2 as (o & A1 & A2 & A3). exists o. auto. }
    split. { split; [cbn [set_cur st_fs]; rewrite G1, app_nil_r; reflexivity|]. split; [cbn; lia|].
             split; [exact I|]. cbn [set_cur st_size]. rewrite Z, blen_app. reflexivity. }
    apply (ext_snoc_file base cur (b :: d) []). }
  destruct f as [| | |n|].
  1,2,3: (eexists true, _; split; [reflexivity|]; destruct (Full _ eq_refl) as (A1 & A2 & A3 & A4 & A5);
    split; [exact A1|]; split; [exact A2|]; split; [exact A3|]; exists (cur ++ b :: d), []; repeat (split; [assumption|]);
    split; [auto|discriminate]).
  - eexists false, _. split; [reflexivity|].
    destruct (G (firstn n (b :: d)) (skipn n (b :: d)) (firstn_skipn _ _) _ eq_refl) as [G1 G2].
    split; [repeat split|]. split; [reflexivity|]. split; [exact G2|].
    exists cur, (firstn n (b :: d)). split. { split; [exact G1|]. split; [cbn; lia|]. split; [exact I|exact Z]. }
    split; [apply ext_refl|]. split; [discriminate|]. intros _ Cf. destruct n; [auto|contradiction].
  - eexists false, _. split; [reflexivity|]. destruct (Full _ eq_refl) as (A1 & A2 & A3 & A4 & A5).
    split; [exact A1|]. split; [exact A2|]. split; [exact A3|]. exists (cur ++ b :: d), [].
    repeat (split; [assumption|]). split; [discriminate|]. intros _ Cf. contradiction.
Qed.

Lemma wfault_open_dec (f : wfault) : {f = WOpen} + {f <> WOpen}.
Proof. destruct f; (left; reflexivity) || (right; discriminate). Qed.
Lemma wfault_sync_dec (f : wfault) : {f = WSync} + {f <> WSync}.
Proof. destruct f; (left; reflexivity) || (right; discriminate). Qed.

Definition next_fault (s : store) : wfault := match st_io s with [] => WOk | x :: _ => x end.

(** One urkel_store_write that stays in the current file. *)
Lemma write_here s d base cur extra :
  at_file s base cur [] extra -> (extra = [] \/ d = []) -> (blen cur + blen d <= MAX_FILE_SIZE)%N ->
  exists ok s', store_write s d = Ok (ok, s') /\ same s s' /\ st_io s' = tl (st_io s) /\
    logs s s' (base ++ (cur ++ d) :: extra) /\
    (exists cur' junk', at_file s' base cur' junk' extra /\ ext (base ++ cur :: extra) (base ++ cur' :: extra) /\
       (ok = true -> cur' = cur ++ d /\ junk' = []) /\
       (ok = false -> clean_fault (next_fault s) -> cur' = cur /\ junk' = [])).
Proof.
  intros A ED M. unfold store_write. fold (next_fault s).
  destruct (file_write_spec (set_io s (tl (st_io s))) (next_fault s) d base cur extra A ED)
    as (ok & s' & E & Sm & Io & Lg & R).
  assert (Z : st_size (set_io s (tl (st_io s))) = blen cur) by apply A. rewrite Z.
  destruct (N.ltb_spec MAX_FILE_SIZE (blen cur + blen d)) as [X|_]; [lia|].
  exists ok, s'. rewrite E. split; [reflexivity|]. split; [exact Sm|]. split; [exact Io|]. split; [exact Lg|exact R].
Qed.

(** One urkel_store_write that starts the next file. *)
Lemma write_next s d base cur extra :
  at_file s base cur [] extra -> (extra = [] \/ extra = [[]]) ->
  (MAX_FILE_SIZE < blen cur + blen d)%N ->
  (store_write s d = Abort /\ (MAX_FILES <= N.of_nat (length base + 2))%N) \/
  exists ok s', store_write s d = Ok (ok, s') /\ same s s' /\ st_io s' = tl (st_io s) /\
    logs s s' (base ++ [cur; d]) /\ ((st_index s < MAX_FILES)%N -> (st_index s' < MAX_FILES)%N) /\
    (exists base' cur' junk' extra', at_file s' base' cur' junk' extra' /\
       ext (base ++ cur :: extra) (base' ++ cur' :: extra') /\
       (ok = true -> base' = base ++ [cur] /\ cur' = d /\ junk' = [] /\ extra' = [] /\
                     (N.of_nat (length base + 2) < MAX_FILES)%N) /\
       (ok = false -> clean_fault (next_fault s) -> junk' = [] /\
          ((base' = base /\ cur' = cur /\ (extra' = [] \/ extra' = [[]])) \/
           (base' = base ++ [cur] /\ cur' = [] /\ extra' = [] /\ (N.of_nat (length base + 2) < MAX_FILES)%N)))).
Proof.
  intros A X M. pose proof A as (F & _ & I & Z). unfold store_write. fold (next_fault s).
  set (s1 := set_io s (tl (st_io s))). change (st_size s1) with (st_size s). change (st_index s1) with (st_index s).
  change (st_fs s1) with (st_fs s). rewrite Z. rewrite app_nil_r in F.
  destruct (N.ltb_spec MAX_FILE_SIZE (blen cur + blen d)) as [_|Y]; [|lia].
  assert (CV : cutof (st_fs s) (base ++ [cur; d])).
  { rewrite F. destruct X as [->| ->].
    - exists base, cur, [], [d]. now rewrite app_nil_r.
    - exists (base ++ [cur]), [], d, []. rewrite <- !app_assoc. auto. }
  set (s2 := if (N.of_nat (length (st_fs s)) <? st_index s + 1)%N then set_fs s1 (st_fs s ++ [[]]) [ONew] else s1).
  assert (S2 : st_fs s2 = base ++ [cur; []] /\ same s s2 /\ logs s s2 (base ++ [cur; d]) /\ st_io s2 = tl (st_io s)
            /\ st_index s2 = st_index s /\ st_size s2 = st_size s).
  { unfold s2. rewrite F, app_length. cbn [length].
    destruct X as [->| ->].
    - destruct (N.ltb_spec (N.of_nat (length base + S (length (@nil bytes)))) (st_index s + 1)) as [_|Y]; [|cbn [length] in Y; lia].
      cbn [set_fs st_fs]. rewrite <- app_assoc. split; [reflexivity|]. split; [repeat split|].
      split; [|auto]. eexists. split; [reflexivity|]. cbn [set_fs st_fs].
      rewrite F. cbn [apply_ops fold_left apply_op]. rewrite <- app_assoc. split; [reflexivity|].
      intros B CB. inversion CB as [| |? ? ? ? C']; subst.
      + split; [apply cutof_refl|]. rewrite <- F. exact CV.
      + inversion C'; subst. cbn [apply_op]. split; [exists base, cur, [], [[]]; rewrite app_nil_r, <- app_assoc; auto|]. exists (base ++ [cur]), [], d, []. rewrite <- !app_assoc. auto.
    - destruct (N.ltb_spec (N.of_nat (length base + S (length [@nil byte]))) (st_index s + 1)) as [Y|_]; [cbn [length] in Y; lia|].
      unfold s1. cbn [set_io st_fs]. split; [exact F|]. split; [repeat split|]. split; [|auto].
      apply logs_nil; auto. }
  clearbody s2. destruct S2 as (F2 & Sm2 & Lg2 & Io2 & I2 & Z2).
  assert (Fget : fget (st_fs s2) (N.to_nat (st_index s2 + 1) - 1) = []).
  { rewrite F2, I2, I. change (base ++ [cur; []]) with (base ++ [cur] ++ [[]]). rewrite app_assoc.
    replace (N.to_nat (N.of_nat (length base + 1) + 1) - 1) with (length (base ++ [cur])) by (rewrite app_length; cbn [length]; lia).
    apply fget_at. }
  assert (Hend : forall f, f <> WOpen -> f <> WSync -> f = next_fault s ->
     (N.of_nat (length base + 2) < MAX_FILES)%N ->
     exists ok s', Ok (file_write (set_cur s2 (st_index s2 + 1) (blen (fget (st_fs s2) (N.to_nat (st_index s2 + 1) - 1)))) f d) = Ok (ok, s') /\
       same s s' /\ st_io s' = tl (st_io s) /\ logs s s' (base ++ [cur; d]) /\
       ((st_index s < MAX_FILES)%N -> (st_index s' < MAX_FILES)%N) /\
       exists base' cur' junk' extra', at_file s' base' cur' junk' extra' /\
       ext (base ++ cur :: extra) (base' ++ cur' :: extra') /\
       (ok = true -> base' = base ++ [cur] /\ cur' = d /\ junk' = [] /\ extra' = [] /\
                     (N.of_nat (length base + 2) < MAX_FILES)%N) /\
       (ok = false -> clean_fault (next_fault s) -> junk' = [] /\
          ((base' = base /\ cur' = cur /\ (extra' = [] \/ extra' = [[]])) \/
           (base' = base ++ [cur] /\ cur' = [] /\ extra' = [] /\ (N.of_nat (length base + 2) < MAX_FILES)%N)))).
  { intros f N1 N2 Ef Cap. rewrite Fget.
    destruct (file_write_spec (set_cur s2 (st_index s2 + 1) (blen [])) f d (base ++ [cur]) [] [])
      as (ok & s' & E & Sm & Io & Lg & cur' & junk' & A' & Ex & Rt & Rf).
    { split; [cbn [set_cur st_fs]; rewrite F2, <- app_assoc; reflexivity|]. split; [cbn; lia|]. split; [|reflexivity].
      cbn [set_cur st_index]. rewrite I2, I, app_length. cbn [length]. lia. }
    { auto. }
    rewrite E. exists ok, s'. split; [reflexivity|].
    split. { eapply same_trans; [exact Sm2|]. destruct Sm as (B1 & B2 & B3 & B4 & B5). repeat split; assumption. }
    split; [rewrite Io; exact Io2|].
    split. { eapply logs_trans; [exact Lg2|]. rewrite <- app_assoc in Lg. exact Lg. }
    split. { intros _. destruct A' as (_ & _ & A' & _). rewrite A', app_length. cbn [length]. lia. }
    exists (base ++ [cur]), cur', junk', []. split; [exact A'|]. split.
    { eapply ext_trans; [|exact Ex]. rewrite <- app_assoc. cbn [app]. destruct X as [->| ->].
      - change (base ++ [cur; []]) with (base ++ [cur] ++ [[]]). rewrite app_assoc. apply ext_more.
      - apply ext_refl. }
    split. { intros Eok. destruct (Rt Eok) as [-> ->]. auto 10. }
    intros Eok Cf. rewrite <- Ef in Cf. destruct (Rf Eok Cf) as [-> ->]. split; [reflexivity|]. right. auto. }
  assert (Hstop : forall s', s' = s1 \/ s' = s2 ->
     same s s' /\ st_io s' = tl (st_io s) /\ logs s s' (base ++ [cur; d]) /\ st_index s' = st_index s /\
     exists extra', at_file s' base cur [] extra' /\ ext (base ++ cur :: extra) (base ++ cur :: extra') /\ (extra' = [] \/ extra' = [[]])).
  { intros s' [->| ->].
    - split; [repeat split|]. split; [reflexivity|]. split; [apply logs_nil; auto|]. split; [reflexivity|]. exists extra.
      split; [exact A|]. split; [apply ext_refl|exact X].
    - split; [exact Sm2|]. split; [exact Io2|]. split; [exact Lg2|]. split; [exact I2|]. exists [[]].
      split. { split; [rewrite app_nil_r; exact F2|]. split; [cbn; lia|]. split; congruence. }
      split; [|auto]. destruct X as [->| ->]; [|apply ext_refl].
      change (base ++ [cur; []]) with (base ++ [cur] ++ [[]]). rewrite app_assoc. apply ext_more. }
  destruct (wfault_open_dec (next_fault s)) as [EO|EO].
  { rewrite EO. right. exists false, s1. split; [reflexivity|].
    destruct (Hstop s1 (or_introl eq_refl)) as (B1 & B2 & B3 & B0 & extra' & B4 & B5 & B6).
    split; [exact B1|]. split; [exact B2|]. split; [exact B3|]. split; [rewrite B0; auto|]. exists base, cur, [], extra'.
    split; [exact B4|]. split; [exact B5|]. split; [discriminate|]. intros _ _. split; [reflexivity|]. left. auto. }
  assert (E2 : (match next_fault s with
      | WOpen => Ok (false, s1)
      | _ => check (st_index s + 1 <? MAX_FILES)%N
          (let s0 := s2 in match next_fault s with
           | WSync => Ok (false, s0)
           | _ => let i := (st_index s0 + 1)%N in
                  Ok (file_write (set_cur s0 i (blen (fget (st_fs s0) (N.to_nat i - 1)))) (next_fault s) d)
           end)
      end) = check (st_index s + 1 <? MAX_FILES)%N
          (match next_fault s with
           | WSync => Ok (false, s2)
           | f => Ok (file_write (set_cur s2 (st_index s2 + 1) (blen (fget (st_fs s2) (N.to_nat (st_index s2 + 1) - 1)))) f d)
           end)).
  { destruct (next_fault s); try reflexivity. congruence. }
  cbv zeta in E2 |- *. rewrite E2. clear E2. unfold check.
  destruct (N.ltb_spec (st_index s + 1) MAX_FILES) as [Cap|Cap].
  2:{ left. split; [reflexivity|]. lia. }
  right. destruct (wfault_sync_dec (next_fault s)) as [ES|ES].
  { rewrite ES. exists false, s2. split; [reflexivity|].
    destruct (Hstop s2 (or_intror eq_refl)) as (B1 & B2 & B3 & B0 & extra' & B4 & B5 & B6).
    split; [exact B1|]. split; [exact B2|]. split; [exact B3|]. split; [rewrite B0; auto|]. exists base, cur, [], extra'.
    split; [exact B4|]. split; [exact B5|]. split; [discriminate|]. intros _ _. split; [reflexivity|]. left. auto. }
  destruct (Hend (next_fault s) EO ES eq_refl) as (ok & s' & E & R); [lia|].
  exists ok, s'. split; [|exact R]. rewrite <- E. destruct (next_fault s); try reflexivity. congruence.
Qed.

Definition iosub (s s' : store) : Prop := forall P, Forall P (st_io s) -> Forall P (st_io s').
Lemma iosub_tl s s' : st_io s' = tl (st_io s) -> iosub s s'.
Proof. intros E P F. rewrite E. destruct F; cbn; auto. Qed.
Lemma iosub_trans a b c : iosub a b -> iosub b c -> iosub a c.
Proof. intros A B P F. auto. Qed.
Lemma next_clean s : Forall clean_fault (st_io s) -> clean_fault (next_fault s).
Proof. unfold next_fault. intros F. destruct F; cbn; auto. Qed.

Lemma rmono_refl s : rmono s s. Proof. intros p x E. exact E. Qed.
Lemma rmono_trans a b c : rmono a b -> rmono b c -> rmono a c.
Proof. intros A B p x E. auto. Qed.

(** Chunks that each start a new file. *)
Lemma loop_spec cs : forall s base cur extra i,
  at_file s base cur [] extra -> (extra = [] \/ (extra = [[]] /\ cs <> [])) -> adj cur cs ->
  match flush_loop s i (map (@length byte) cs) (concat cs) with
  | Ok (None, s') =>
    same s s' /\ logs s s' (base ++ cur :: cs) /\ iosub s s' /\ rmono s s' /\
    (exists B C, base ++ cur :: cs = B ++ [C] /\ at_file s' B C [] []) /\
    (cs = [] \/ (N.of_nat (length (base ++ cur :: cs)) < MAX_FILES)%N)
  | Ok (Some j, s') =>
    same s s' /\ logs s s' (base ++ cur :: cs) /\ iosub s s' /\ rmono s s' /\
    ((st_index s < MAX_FILES)%N -> (st_index s' < MAX_FILES)%N) /\
    (Forall clean_fault (st_io s) -> exists done c todo B C,
       cs = done ++ c :: todo /\ j = i + length done /\ base ++ cur :: done = B ++ [C] /\
       ((exists extra', (extra' = [] \/ extra' = [[]]) /\ at_file s' B C [] extra') \/
        at_file s' (B ++ [C]) [] [] []))
  | Abort => (MAX_FILES <= N.of_nat (length (base ++ cur :: cs)))%N
  | _ => False
  end.
Proof.
  induction cs as [|c cs IH]; intros s base cur extra i A X AD.
  - cbn [map flush_loop]. destruct X as [->|[_ X]]; [|contradiction].
    split; [apply same_refl|]. split. { apply logs_nil; auto. destruct A as (F & _). rewrite F, app_nil_r. apply cutof_refl. }
    split; [intros P F; exact F|]. split; [apply rmono_refl|]. split; [exists base, cur; auto|auto].
  - cbn [map flush_loop concat]. rewrite firstn_app_exact, skipn_app_exact by reflexivity.
    destruct AD as [A1 A2].
    assert (X' : extra = [] \/ extra = [[]]) by tauto.
    destruct (write_next s c base cur extra A X' A1) as
      [[E Cap]|(ok & s1 & E & Sm & Io & Lg & CapI & base' & cur' & junk' & extra' & A' & Ex & Rt & Rf)].
    { rewrite E. cbn [bind]. rewrite app_length. cbn [length]. lia. }
    rewrite E. cbn [bind]. 
    assert (Q : cutof (base ++ [cur; c]) (base ++ cur :: c :: cs)).
    { exists (base ++ [cur]), c, [], cs. rewrite <- !app_assoc, app_nil_r. auto. }
    pose proof (rmono_at _ _ _ _ _ _ _ _ _ _ A A' Ex) as Rm.
    destruct ok.
    + destruct (Rt eq_refl) as (-> & -> & -> & -> & Cap).
      specialize (IH s1 (base ++ [cur]) c [] (S i) A' (or_introl eq_refl) A2).
      rewrite <- app_assoc in IH. cbn [app] in IH.
      destruct (flush_loop s1 (S i) (map (length (A:=byte)) cs) (concat cs)) as [[[j|] s2]| | | |]; auto.
      * destruct IH as (B1 & B2 & B3 & B4 & B0 & B5).
        split; [eauto using same_trans|]. split; [eauto using logs_trans, logs_mono|].
        split; [eauto using iosub_trans, iosub_tl|]. split; [eauto using rmono_trans|]. split; [auto|].
        intros Fc. destruct B5 as (done & c' & todo & B & C & Ecs & Ej & Eb & R).
        { apply (iosub_tl s s1 Io). exact Fc. }
        exists (c :: done), c', todo, B, C. split; [cbn; congruence|]. split; [cbn [length]; lia|].
        split; [|exact R]. rewrite <- Eb, <- app_assoc. reflexivity.
      * destruct IH as (B1 & B2 & B3 & B4 & B5 & B6).
        split; [eauto using same_trans|]. split; [eauto using logs_trans, logs_mono|].
        split; [eauto using iosub_trans, iosub_tl|]. split; [eauto using rmono_trans|].
        split; [exact B5|]. right. destruct B6 as [->|B6]; [|exact B6].
        rewrite app_length. cbn [length]. lia.
    + split; [exact Sm|]. split; [eauto using logs_mono|]. split; [eauto using iosub_tl|]. split; [exact Rm|]. split; [exact CapI|].
      intros Fc. destruct (Rf eq_refl (next_clean _ Fc)) as (-> & R).
      exists [], c, cs, base, cur. split; [reflexivity|]. split; [cbn [length]; lia|]. split; [reflexivity|].
      destruct R as [(-> & -> & R)|(-> & -> & -> & R)]; [left; eauto|right; exact A'].
Qed.

(** Files and buffer agree and nothing is pending. *)
Record clean_st (s : store) : Prop := {
  cl_fs : st_fs s <> [];
  cl_index : st_index s = N.of_nat (length (st_fs s));
  cl_size : st_size s = blen (last (st_fs s) []);
  cl_max : (st_size s <= MAX_FILE_SIZE)%N;
  cl_slab : st_slab s = mkslab [] 0 [] 0 (st_size s) (st_index s) }.

Lemma clean_view s : clean_st s -> view s (st_fs s).
Proof.
  intros [N I Z M S]. destruct (exists_last N) as (b & f & E). rewrite E in *. rewrite last_last in Z.
  exists b, f, [], []. rewrite app_nil_r. split; [|reflexivity]. rewrite app_length in I. cbn [length] in I.
  constructor; rewrite ?S; cbn [sl_data sl_off sl_offsets sl_start sl_pos sl_index].
  - exists []. rewrite E. auto.
  - rewrite I. lia.
  - exact Z.
  - exists []. cbn. auto.
  - rewrite I. f_equal. cbn. lia.
  - cbn. rewrite app_nil_r. exact Z.
  - rewrite app_nil_r, <- Z. auto.
  - exact Logic.I.
Qed.

Lemma clean_rd s : clean_st s -> forall p, st_rd s p = rdl (st_fs s) p.
Proof.
  intros [N I Z M S]. destruct (exists_last N) as (b & f & E). intros p.
  rewrite E in I, Z. rewrite last_last in Z. rewrite app_length in I. cbn [length] in I.
  rewrite E. apply (st_rd_at s b f [] []).
  split; [rewrite app_nil_r; exact E|]. split; [cbn; lia|]. split; [|exact Z]. rewrite I. reflexivity.
Qed.

Definition keep (s s' : store) : Prop :=
  st_key s' = st_key s /\ st_state s' = st_state s /\ st_last s' = st_last s /\ st_cache s' = st_cache s.
Lemma keep_refl s : keep s s. Proof. repeat split. Qed.
Lemma keep_trans a b c : keep a b -> keep b c -> keep a c.
Proof. intros (A1 & A2 & A3 & A4) (B1 & B2 & B3 & B4). repeat split; congruence. Qed.

Lemma firstn_sum_app l1 l2 : list_sum (firstn (length l1) (l1 ++ l2)) = list_sum l1.
Proof. rewrite firstn_app_exact; reflexivity. Qed.

Lemma list_sum_lengths (l : list bytes) : list_sum (map (@length byte) l) = length (concat l).
Proof. induction l as [|x l IH]; cbn; [reflexivity|]. rewrite app_length, <- IH. reflexivity. Qed.

Lemma list_sum_firstn_split l a b : list_sum (firstn (a + b) l) = list_sum (firstn a l) + list_sum (firstn b (skipn a l)).
Proof.
  revert l; induction a as [|a IH]; intros l; [reflexivity|].
  destruct l as [|x l]; cbn [plus firstn skipn list_sum fold_right].
  - now rewrite firstn_nil.
  - change (fold_right Nat.add 0 (firstn (a + b) l)) with (list_sum (firstn (a + b) l)).
    change (fold_right Nat.add 0 (firstn a l)) with (list_sum (firstn a l)). rewrite IH. lia.
Qed.

Lemma skipn_plus {A} (l : list A) a b : skipn (a + b) l = skipn b (skipn a l).
Proof. revert l; induction a as [|a IH]; intros l; [reflexivity|]. destruct l; cbn; [now rewrite skipn_nil|apply IH]. Qed.

(** Everything about a flush, whatever the system calls do. *)
Lemma flush_spec s V : view s V ->
  match store_flush s with
  | Ok (true, s') =>
    st_fs s' = V /\ clean_st s' /\ keep s s' /\ iosub s s' /\ rmono s s' /\ logs s s' V /\
    ((st_index s < MAX_FILES)%N -> (st_index s' < MAX_FILES)%N)
  | Ok (false, s') =>
    keep s s' /\ iosub s s' /\ rmono s s' /\ logs s s' V /\
    ((st_index s < MAX_FILES)%N -> (st_index s' < MAX_FILES)%N) /\
    (Forall clean_fault (st_io s) -> view s' V)
  | Abort => (MAX_FILES <= N.of_nat (length V))%N
  | _ => False
  end.
Proof.
  intros VV. destruct (view_slab_end _ _ VV) as (Ei & Ep & Em). pose proof (view_nonnil _ _ VV) as VN.
  destruct VV as (b & c & p0 & ps & W & EV). destruct W as [wf wi ws wd wsi wp wm wa].
  destruct wd as (pre & D1 & D2 & D3 & D4). destruct wf as (extra & F1 & F2).
  assert (AT : at_file s b c [] extra).
  { split; [rewrite app_nil_r; exact F1|]. split; [destruct F2 as [->|(-> & _)]; cbn; lia|]. auto. }
  assert (AX : extra = [] \/ p0 = []) by tauto.
  unfold store_flush. cbv zeta. set (offs := sl_offsets (st_slab s) ++ [sl_off (st_slab s)]) in *.
  set (st := sl_start (st_slab s)) in *.
  replace (skipn (list_sum (firstn st offs)) (sl_data (st_slab s))) with (p0 ++ concat ps)
    by (rewrite D1, (skipn_app_exact pre); [reflexivity|symmetry; exact D3]).
  (* the common final argument: the state once all chunks are written *)
  assert (FinOk : forall s2, same s s2 -> (exists B C, V = B ++ [C] /\ at_file s2 B C [] []) -> iosub s s2 -> rmono s s2 -> logs s s2 V ->
     ((st_index s < MAX_FILES)%N -> (N.of_nat (length V) < MAX_FILES)%N) ->
     let s' := set_slab s2 (mkslab [] 0 [] 0 (sl_pos (st_slab s)) (sl_index (st_slab s))) in
     st_fs s' = V /\ clean_st s' /\ keep s s' /\ iosub s s' /\ rmono s s' /\ logs s s' V /\
     ((st_index s < MAX_FILES)%N -> (st_index s' < MAX_FILES)%N)).
  { intros s2 (S1 & S2 & S3 & S4 & S5) (B & C & EB & (G1 & _ & G2 & G3)) Io Rm Lg Cap s'.
    rewrite app_nil_r in G1. subst s'.
    assert (G4 : st_index s2 = N.of_nat (length V)) by (rewrite G2, EB, app_length; reflexivity).
    assert (G5 : st_size s2 = blen (last V [])) by (rewrite G3, EB, last_last; reflexivity).
    split; [cbn; congruence|].
    split. { constructor; cbn [set_slab st_fs st_index st_size st_slab]; rewrite ?G1, <- ?EB; try congruence. }
    split; [repeat split; assumption|]. split; [exact Io|]. split; [exact Rm|]. split; [exact Lg|].
    cbn [set_slab st_index]. intros L. rewrite G4. auto. }
  destruct D4 as [D4|(-> & Nps & D4)].
  - rewrite D4. cbn [map flush_loop]. rewrite firstn_app_exact, skipn_app_exact by reflexivity.
    rewrite blen_app in wm.
    destruct (write_here s p0 b c extra AT AX (proj1 wm)) as (ok & s1 & E & Sm & Io & Lg & cur' & junk' & A' & Ex & Rt & Rf).
    rewrite E. cbn [bind].
    assert (Q : cutof (b ++ (c ++ p0) :: extra) V).
    { rewrite EV. destruct F2 as [->|(-> & -> & Y)].
      - exists b, (c ++ p0), [], ps. now rewrite app_nil_r.
      - destruct ps as [|q ps]; [congruence|]. exists (b ++ [c ++ []]), [], q, ps. rewrite <- !app_assoc. auto. }
    pose proof (rmono_at _ _ _ _ _ _ _ _ _ _ AT A' Ex) as Rm.
    destruct ok.
    + destruct (Rt eq_refl) as [-> ->].
      assert (X' : extra = [] \/ (extra = [[]] /\ ps <> [])) by tauto.
      pose proof (loop_spec ps s1 b (c ++ p0) extra (S st) A' X' wa) as LS. rewrite <- EV in LS.
      destruct (flush_loop s1 (S st) (map (length (A:=byte)) ps) (concat ps)) as [[[j|] s2]| | | |]; cbn [bind]; auto.
      * destruct LS as (B1 & B2 & B3 & B4 & B0 & B5).
        assert (SS : same s s2) by eauto using same_trans. destruct SS as (S1 & S2 & S3 & S4 & S5).
        split; [repeat split; assumption|]. split; [intros P FP; apply B3; apply (iosub_tl s s1 Io); exact FP|].
        split; [eapply rmono_trans; [exact Rm|exact B4]|].
        split. { assert (L2 : logs s s2 V) by eauto using logs_trans, logs_mono. exact L2. }
        split. { destruct A' as (_ & _ & A' & _). rewrite A', <- wi in B0. exact B0. }
        intros Fc. destruct B5 as (done & q & todo & B & C & Ecs & Ej & Eb & R).
        { apply (iosub_tl s s1 Io). exact Fc. }
        assert (OffJ : skipn j offs = map (@length byte) (q :: todo)).
        { subst j. replace (S st + length done) with (st + S (length done)) by lia. rewrite skipn_plus, D4, Ecs.
          cbn [map skipn]. rewrite map_app. rewrite skipn_app_exact by (now rewrite map_length). reflexivity. }
        assert (Lj : j <= length (sl_offsets (st_slab s))).
        { assert (Z : length (skipn j offs) = S (length todo)) by (rewrite OffJ; cbn; now rewrite map_length).
          rewrite skipn_length in Z. unfold offs in Z. rewrite app_length in Z. cbn [length] in Z. lia. }
        assert (DataJ : exists pre', sl_data (st_slab s) = pre' ++ q ++ concat todo /\ length pre' = list_sum (firstn j offs)).
        { exists (pre ++ p0 ++ concat done). split.
          - rewrite D1, Ecs, concat_app. cbn [concat]. rewrite !app_assoc. reflexivity.
          - rewrite !app_length. subst j. replace (S st + length done) with (st + S (length done)) by lia.
            rewrite list_sum_firstn_split, D4, D3, Ecs. cbn [map firstn]. rewrite map_app.
            rewrite firstn_app_exact by (now rewrite map_length).
            change (list_sum (length p0 :: map (@length byte) done)) with (length p0 + list_sum (map (@length byte) done)).
            rewrite list_sum_lengths. lia. }
        destruct DataJ as (pre' & DJ1 & DJ2).
        assert (EV2 : V = B ++ C :: q :: todo).
        { rewrite EV, Ecs, app_comm_cons, app_assoc, Eb, <- app_assoc. reflexivity. }
        assert (AdjC : adj C (q :: todo)).
        { clear - wa Ecs Eb. subst ps. revert b wa Eb. generalize (c ++ p0) as f. revert B C.
          induction done as [|d done IH]; intros B C f b wa Eb.
          - apply app_inj_tail in Eb. destruct Eb as [_ <-]. exact wa.
          - cbn [app adj] in wa. apply (IH B C d (b ++ [f])); [tauto|]. rewrite <- app_assoc. exact Eb. }
        assert (MaxC : (blen C <= MAX_FILE_SIZE)%N).
        { destruct done as [|d0 done0] using rev_ind.
          - apply app_inj_tail in Eb. destruct Eb as [_ <-]. rewrite blen_app. apply wm.
          - rewrite app_comm_cons, app_assoc in Eb. apply app_inj_tail in Eb. destruct Eb as [_ <-].
            destruct wm as [_ Mf]. rewrite Ecs in Mf. rewrite !Forall_app in Mf. destruct Mf as [[_ Mf] _]. now inversion Mf. }
        assert (MaxT : Forall (fun x => (blen x <= MAX_FILE_SIZE)%N) (q :: todo)).
        { destruct wm as [_ Mf]. rewrite Ecs, Forall_app in Mf. apply Mf. }
        destruct R as [(extra' & XE & AT2)|AT2].
        -- destruct AT2 as (T1 & _ & T2 & T3). exists B, C, [], (q :: todo). rewrite app_nil_r. split; [|exact EV2].
           constructor; cbn [set_slab st_fs st_index st_size st_slab sl_data sl_off sl_offsets sl_start sl_pos sl_index]; rewrite ?app_nil_r.
           ++ exists extra'. rewrite app_nil_r in T1. split; [exact T1|]. destruct XE as [->| ->]; [auto|right]. repeat split; discriminate.
           ++ exact T2.
           ++ exact T3.
           ++ exists pre'. split; [exact DJ1|]. split; [exact Lj|]. split; [exact DJ2|]. right. repeat split; [discriminate|exact OffJ].
           ++ rewrite Ei, EV2, app_length. cbn [length]. lia.
           ++ rewrite Ep, EV2. rewrite last_app_ne by discriminate. reflexivity.
           ++ split; assumption.
           ++ exact AdjC.
        -- destruct AT2 as (T1 & _ & T2 & T3). exists (B ++ [C]), [], q, todo. cbn [app].
           split; [|rewrite EV2, <- app_assoc; reflexivity].
           constructor; cbn [set_slab st_fs st_index st_size st_slab sl_data sl_off sl_offsets sl_start sl_pos sl_index app].
           ++ exists []. rewrite app_nil_r in T1. auto.
           ++ exact T2.
           ++ exact T3.
           ++ exists pre'. split; [exact DJ1|]. split; [exact Lj|]. split; [exact DJ2|]. left. exact OffJ.
           ++ rewrite Ei, EV2, !app_length. cbn [length]. lia.
           ++ rewrite Ep, EV2. rewrite last_app_ne by discriminate. reflexivity.
           ++ inversion MaxT; subst; split; assumption.
           ++ apply AdjC.
      * destruct LS as (B1 & B2 & B3 & B4 & B5 & B6).
        apply FinOk.
        -- eauto using same_trans.
        -- destruct B5 as (B & C & E1 & E2). exists B, C. split; [congruence|exact E2].
        -- intros P FP; apply B3; apply (iosub_tl s s1 Io); exact FP.
        -- eapply rmono_trans; [exact Rm|exact B4].
        -- eauto using logs_trans, logs_mono.
        -- intros L. destruct B6 as [->|B6]; [|exact B6]. rewrite EV, app_length. cbn [length]. rewrite wi in L. exact L.
    + cbn [bind]. destruct Sm as (S1 & S2 & S3 & S4 & S5).
      split; [repeat split; assumption|]. split; [apply (iosub_tl s s1 Io)|]. split; [exact Rm|].
      split. { assert (L2 : logs s s1 V) by eauto using logs_mono. exact L2. }
      split. { destruct A' as (_ & _ & A' & _). cbn [set_slab st_index]. rewrite A', <- wi. auto. }
      intros Fc. destruct (Rf eq_refl (next_clean _ Fc)) as [-> ->]. destruct A' as (T1 & _ & T2 & T3).
      rewrite app_nil_r in T1. exists b, c, p0, ps. split; [|exact EV].
      constructor; cbn [set_slab st_fs st_index st_size st_slab sl_data sl_off sl_offsets sl_start sl_pos sl_index]; auto.
      * exists extra. auto.
      * exists pre. split; [exact D1|]. split; [exact D2|]. split; [exact D3|]. left. exact D4.
      * rewrite blen_app. exact wm.
  - rewrite D4. rewrite app_nil_r in *. cbn [app].
    assert (X' : extra = [] \/ (extra = [[]] /\ ps <> [])) by tauto.
    pose proof (loop_spec ps s b c extra st AT X' wa) as LS. rewrite <- EV in LS.
    destruct (flush_loop s st (map (length (A:=byte)) ps) (concat ps)) as [[[j|] s2]| | | |]; cbn [bind]; auto.
    + destruct LS as ((S1 & S2 & S3 & S4 & S5) & B2 & B3 & B4 & B0 & B5).
      split; [repeat split; assumption|]. split; [exact B3|]. split; [exact B4|]. split; [exact B2|]. split; [exact B0|].
      intros Fc. destruct (B5 Fc) as (done & q & todo & B & C & Ecs & Ej & Eb & R).
      assert (OffJ : skipn j offs = map (@length byte) (q :: todo)).
      { subst j. rewrite skipn_plus, D4, Ecs.
        rewrite map_app. rewrite skipn_app_exact by (now rewrite map_length). reflexivity. }
      assert (Lj : j <= length (sl_offsets (st_slab s))).
      { assert (Z : length (skipn j offs) = S (length todo)) by (rewrite OffJ; cbn; now rewrite map_length).
        rewrite skipn_length in Z. unfold offs in Z. rewrite app_length in Z. cbn [length] in Z. lia. }
      assert (DataJ : exists pre', sl_data (st_slab s) = pre' ++ q ++ concat todo /\ length pre' = list_sum (firstn j offs)).
      { exists (pre ++ concat done). split.
        - rewrite D1, Ecs, concat_app. cbn [concat app]. rewrite <- !app_assoc. reflexivity.
        - rewrite !app_length. subst j.
          rewrite list_sum_firstn_split, D4, D3, Ecs. rewrite map_app.
          rewrite firstn_app_exact by (now rewrite map_length).
          rewrite list_sum_lengths. lia. }
      destruct DataJ as (pre' & DJ1 & DJ2).
      assert (EV2 : V = B ++ C :: q :: todo).
      { rewrite EV, Ecs, app_comm_cons, app_assoc, Eb, <- app_assoc. reflexivity. }
      assert (AdjC : adj C (q :: todo)).
      { clear - wa Ecs Eb. subst ps. revert b wa Eb. generalize c as f. revert B C.
        induction done as [|d done IH]; intros B C f b wa Eb.
        - apply app_inj_tail in Eb. destruct Eb as [_ <-]. exact wa.
        - cbn [app adj] in wa. apply (IH B C d (b ++ [f])); [tauto|]. rewrite <- app_assoc. exact Eb. }
      assert (MaxC : (blen C <= MAX_FILE_SIZE)%N).
      { destruct done as [|d0 done0] using rev_ind.
        - apply app_inj_tail in Eb. destruct Eb as [_ <-]. apply wm.
        - rewrite app_comm_cons, app_assoc in Eb. apply app_inj_tail in Eb. destruct Eb as [_ <-].
          destruct wm as [_ Mf]. rewrite Ecs in Mf. rewrite !Forall_app in Mf. destruct Mf as [[_ Mf] _]. now inversion Mf. }
      assert (MaxT : Forall (fun x => (blen x <= MAX_FILE_SIZE)%N) (q :: todo)).
      { destruct wm as [_ Mf]. rewrite Ecs, Forall_app in Mf. apply Mf. }
      destruct R as [(extra' & XE & AT2)|AT2].
      * destruct AT2 as (T1 & _ & T2 & T3). exists B, C, [], (q :: todo). rewrite app_nil_r. split; [|exact EV2].
        constructor; cbn [set_slab st_fs st_index st_size st_slab sl_data sl_off sl_offsets sl_start sl_pos sl_index]; rewrite ?app_nil_r.
        -- exists extra'. rewrite app_nil_r in T1. split; [exact T1|]. destruct XE as [->| ->]; [auto|right]. repeat split; discriminate.
        -- exact T2.
        -- exact T3.
        -- exists pre'. split; [exact DJ1|]. split; [exact Lj|]. split; [exact DJ2|]. right. repeat split; [discriminate|exact OffJ].
        -- rewrite Ei, EV2, app_length. cbn [length]. lia.
        -- rewrite Ep, EV2. rewrite last_app_ne by discriminate. reflexivity.
        -- split; assumption.
        -- exact AdjC.
      * destruct AT2 as (T1 & _ & T2 & T3). exists (B ++ [C]), [], q, todo. cbn [app].
        split; [|rewrite EV2, <- app_assoc; reflexivity].
        constructor; cbn [set_slab st_fs st_index st_size st_slab sl_data sl_off sl_offsets sl_start sl_pos sl_index app].
        -- exists []. rewrite app_nil_r in T1. auto.
        -- exact T2.
        -- exact T3.
        -- exists pre'. split; [exact DJ1|]. split; [exact Lj|]. split; [exact DJ2|]. left. exact OffJ.
        -- rewrite Ei, EV2, !app_length. cbn [length]. lia.
        -- rewrite Ep, EV2. rewrite last_app_ne by discriminate. reflexivity.
        -- inversion MaxT; subst; split; assumption.
        -- apply AdjC.
    + destruct LS as (B1 & B2 & B3 & B4 & B5 & B6).
      apply FinOk; auto.
      intros L. destruct B6 as [E0|B6]; [contradiction|exact B6].
Qed.

Lemma view_rd s V : view s V -> exists W, cutof W V /\ ext W V /\ forall p, st_rd s p = rdl W p.
Proof.
  intros (b & c & p0 & ps & [wf wi ws wd wsi wp wm wa] & ->). destruct wf as (extra & F1 & F2).
  exists (b ++ c :: extra).
  assert (C : cutof (b ++ c :: extra) (b ++ (c ++ p0) :: ps)).
  { destruct F2 as [->|(-> & -> & Y)].
    - exists b, c, p0, ps. auto.
    - destruct ps as [|q ps]; [congruence|]. exists (b ++ [c]), [], q, ps. rewrite <- !app_assoc, app_nil_r. auto. }
  split; [exact C|]. split; [apply cutof_ext, C|]. intros p. apply (st_rd_at s b c [] extra).
  split; [rewrite app_nil_r; exact F1|]. split; [destruct F2 as [->|(-> & _)]; cbn; lia|]. auto.
Qed.
