(** * C48: files are read and written faithfully whatever the operating system does. *)
From Verif Require Import Io.
From Coq Require Import ZifyBool ZifyNat ZifyN.

(** A run of operations on one file, with the contents before and after each. *)
Fixpoint frun (st : bytes * option handle) (ops : list fileop)
  : res (list (bytes * fileop * fileans * bytes) * (bytes * option handle)) :=
  match ops with
  | [] => Ok ([], st)
  | op :: ops =>
    let! (a, st') := fstep st op in
    let! (tr, st'') := frun st' ops in
    Ok ((fst st, op, a, fst st') :: tr, st'')
  end.

(** Arguments are 64-bit numbers. *)
Definition arg_ok (op : fileop) : Prop :=
  match op with FRead len pos _ => (len < 2 ^ 64 /\ pos < 2 ^ 64)%N | _ => True end.

(** What a caller may conclude from an answer: a read that succeeds returns the bytes of the
    file at that position, all of them; a write that succeeds has appended its data; a write
    that fails has appended some beginning of it; nothing else changes the file. *)
Definition faithful (e : bytes * fileop * fileans * bytes) : Prop :=
  let '(f, op, a, f') := e in
  match op, a with
  | FRead len pos _, FBytes x =>
    f' = f /\ N.of_nat (length x) = len /\ (len = 0 \/ pos + len <= blen f)%N /\ x = slice f pos len
  | FWrite data _, FDone => f' = f ++ data
  | FWrite data _, FFailed => exists n, f' = f ++ firstn n data
  | FRead _ _ _, FFailed => f' = f
  | FOpen _ _ _, _ => f' = f
  | FClose, FDone => f' = f
  | _, _ => False
  end.

(** The handle knows no more than the file has, and a mapping covers exactly that. *)
Definition hinv (st : bytes * option handle) : Prop :=
  match snd st with
  | None => True
  | Some h => (h_size h <= blen (fst st))%N /\ (forall m, h_base h = Some m -> m = h_size h)
  end.

Lemma blen_app a b : blen (a ++ b) = (blen a + blen b)%N.
Proof. unfold blen. rewrite app_length. lia. Qed.

Lemma slice_len f pos len : (pos + len <= blen f)%N -> N.of_nat (length (slice f pos len)) = len.
Proof. unfold slice, blen. intros. rewrite firstn_length, skipn_length. lia. Qed.

Lemma wrap pos len : (len < 2 ^ 64 -> pos < 2 ^ 64 -> len <> 0 ->
  (pos + len) mod 2 ^ 64 < pos \/ (pos + len) mod 2 ^ 64 = pos + len /\ pos + len < 2 ^ 64)%N.
Proof.
  intros L P Nz. destruct (N.lt_ge_cases (pos + len) (2 ^ 64)) as [G|G].
  - right. split; [apply N.mod_small, G|exact G].
  - left. replace ((pos + len) mod 2 ^ 64)%N with (pos + len - 2 ^ 64)%N; [lia|].
    apply (N.mod_unique _ _ 1); lia.
Qed.

Lemma pread_sound h o f len pos : (len < 2 ^ 64)%N -> (pos < 2 ^ 64)%N -> hinv (f, Some h) ->
  exists r, file_pread h o f len pos = Ok r /\
    forall x, r = Some x -> N.of_nat (length x) = len /\ (len = 0 \/ pos + len <= blen f)%N /\ x = slice f pos len.
Proof.
  intros L P [S M]. cbn [fst] in S. unfold file_pread. destruct (N.eqb_spec len 0) as [->|Nz].
  { exists (Some []). split; [reflexivity|]. intros x E. injection E as <-. auto. }
  destruct (wrap pos len L P Nz) as [W|[-> W]].
  { destruct (N.ltb_spec ((pos + len) mod 2 ^ 64) pos); [|lia]. exists None. split; [reflexivity|discriminate]. }
  destruct (N.ltb_spec (pos + len) pos); [lia|].
  destruct (N.ltb_spec (h_size h) (pos + len)); [exists None; split; [reflexivity|discriminate]|].
  assert (Lf : (pos + len <= blen f)%N) by lia.
  destruct (h_base h) as [m|] eqn:B.
  - rewrite (M m eq_refl). destruct (N.leb_spec (pos + len) (h_size h)); [|lia].
    destruct (N.leb_spec (pos + len) (blen f)); [|lia]. cbn [andb]. eexists. split; [reflexivity|].
    intros x E. injection E as <-. split; [apply slice_len, Lf|]. auto.
  - destruct (negb (h_fd h)); [exists None; split; [reflexivity|discriminate]|].
    destruct (fs_pread (o_sch o) f (N.to_nat len) (N.to_nat pos)) as [[ok x] r] eqn:E.
    eexists. split; [reflexivity|]. intros y Ey. destruct ok; [|discriminate]. injection Ey as <-.
    destruct (fs_pread_ok _ _ _ _ _ _ _ E) as [_ F]. destruct (F eq_refl) as [[-> _]|]; [|lia].
    change (firstn (N.to_nat len) (skipn (N.to_nat pos) f)) with (slice f pos len).
    split; [apply slice_len, Lf|]. auto.
Qed.

Lemma write_sound h o f data : hinv (f, Some h) ->
  let '(ok, h', f') := file_write_os h o f data in
  hinv (f', Some h') /\ (if ok then f' = f ++ data else exists n, f' = f ++ firstn n data).
Proof.
  intros [S M]. cbn [fst] in S. unfold file_write_os. destruct data as [|b data].
  { split; [split; assumption|]. now rewrite app_nil_r. }
  set (D := b :: data). clearbody D.
  set (ho := match h_base h with Some _ => _ | None => _ end).
  assert (Ho : ho = None \/ exists g, ho = Some g /\ h_fd g = h_fd h /\ h_size g = h_size h /\ h_mapped g = h_mapped h /\ h_base g = None).
  { unfold ho. destruct (h_base h) eqn:B; [|right; exists h; auto 6].
    destruct (o_munmap o); [|auto]. right. eexists. split; [reflexivity|]. cbn. auto. }
  clearbody ho. destruct Ho as [->|(g & -> & Fd & Sz & Mp & Bs)].
  { split; [split; assumption|]. exists 0. now rewrite app_nil_r. }
  set (w := if h_fd g && negb (h_ro g) then _ else _).
  assert (W : exists ok x r, w = (ok, x, r) /\ exists n, x = firstn n D /\ (ok = true -> x = D)).
  { unfold w. destruct (h_fd g && negb (h_ro g)).
    - destruct (fs_write (o_sch o) D) as [[ok x] r] eqn:E. exists ok, x, r. split; [reflexivity|].
      apply (fs_write_ok _ _ _ _ _ E).
    - exists false, [], []. split; [reflexivity|]. exists 0. split; [reflexivity|discriminate]. }
  clearbody w. destruct W as (ok & x & r & -> & n & Ex & Full). destruct ok; cbn [negb].
  - specialize (Full eq_refl). subst x. rewrite Full. cbn [h_mapped].
    assert (Q : (h_size g + blen D <= blen (f ++ D))%N) by (rewrite blen_app; lia).
    destruct (h_mapped g).
    + destruct (o_mmap o).
      * split; [|reflexivity]. split; cbn [fst h_size h_base]; [exact Q|]. intros m E. now injection E.
      * split. { split; cbn [fst h_size h_base]; [exact Q|discriminate]. }
        exists (length D). now rewrite firstn_all.
    + split; [|reflexivity]. split; cbn [fst h_size h_base]; [exact Q|discriminate].
  - split. { split; cbn [fst]; [rewrite blen_app; lia|]. intros m E. congruence. }
    exists n. now rewrite Ex.
Qed.

(** C48: whatever the system calls do, in any sequence of operations (opening with or without
    mapping the file, reading, appending, closing), nothing outside the file or a mapping is
    touched and every answer is faithful. *)
Theorem C48_faithful_io f0 ops : Forall arg_ok ops ->
  exists tr st, frun (f0, None) ops = Ok (tr, st) /\ Forall faithful tr /\ length tr = length ops.
Proof.
  intros A. assert (I : hinv (f0, None)) by exact Logic.I.
  revert A I. generalize (f0, @None handle). clear. intros st A. revert st.
  induction A as [|op ops Ho A IH]; intros [f ho] I.
  { exists [], (f, ho). split; [reflexivity|]. split; [constructor|reflexivity]. }
  assert (S : exists a st', fstep (f, ho) op = Ok (a, st') /\ hinv st' /\ faithful (f, op, a, fst st')).
  { destruct op as [mm ro o|len pos o|data o|]; destruct ho as [h|]; cbn [fstep].
    - do 2 eexists. split; [reflexivity|]. split; [exact I|]. cbn. reflexivity.
    - destruct (file_open mm ro o f) as [h|] eqn:E.
      + do 2 eexists. split; [reflexivity|]. split; [|reflexivity]. revert E. unfold file_open.
        destruct (o_open o), (o_fstat o); cbn [negb]; try discriminate.
        destruct mm.
        * destruct (0 <? blen f)%N.
          { destruct (o_mmap o); [|discriminate]. intros E. injection E as <-. split; cbn; [lia|congruence]. }
          intros E. injection E as <-. split; cbn; [lia|discriminate].
        * intros E. injection E as <-. split; cbn; [lia|discriminate].
      + do 2 eexists. split; [reflexivity|]. split; [exact Logic.I|reflexivity].
    - destruct Ho as [L P]. destruct (pread_sound h o f len pos L P I) as (r & -> & R). cbn [bind].
      do 2 eexists. split; [reflexivity|]. split; [exact I|]. destruct r as [x|]; cbn [faithful fst]; [|reflexivity].
      destruct (R x eq_refl) as (R1 & R2 & R3). auto.
    - do 2 eexists. split; [reflexivity|]. split; [exact I|]. reflexivity.
    - pose proof (write_sound h o f data I) as W. destruct (file_write_os h o f data) as [[ok h'] f'].
      destruct W as [W1 W2]. do 2 eexists. split; [reflexivity|]. split; [exact W1|].
      destruct ok; cbn [faithful fst]; exact W2.
    - do 2 eexists. split; [reflexivity|]. split; [exact I|]. exists 0. now rewrite app_nil_r.
    - do 2 eexists. split; [reflexivity|]. split; [exact Logic.I|reflexivity].
    - do 2 eexists. split; [reflexivity|]. split; [exact Logic.I|reflexivity]. }
  destruct S as (a & st' & E & I' & Fa). destruct (IH st' I') as (tr & st'' & E2 & Ft & Lt).
  exists ((f, op, a, fst st') :: tr), st''. cbn [frun]. rewrite E. cbn [bind]. rewrite E2. cbn [bind fst].
  split; [reflexivity|]. split; [constructor; assumption|]. cbn [length]. now rewrite Lt.
Qed.

(** ** When no system call fails for good *)

(** Interrupted calls and short transfers are allowed. *)
Definition kind (o : os) : Prop :=
  o_open o = true /\ o_fstat o = true /\ o_munmap o = true /\ o_mmap o = true /\ benign (o_sch o).
Definition kind_op (op : fileop) : Prop :=
  match op with FOpen _ _ o | FRead _ _ o | FWrite _ o => kind o | FClose => True end.

(** A perfect file: contents, and whether it is open (for reading only).  Nothing can be read
    beyond 2^64 bytes (no file is that long). *)
Definition ideal (st : bytes * option bool) (op : fileop) : fileans * (bytes * option bool) :=
  let '(f, m) := st in
  match op, m with
  | FOpen _ ro _, None => (FDone, (f, Some ro))
  | FRead len pos _, Some _ =>
    (if (len =? 0)%N then FBytes [] else if (pos + len <? 2 ^ 64)%N && (pos + len <=? blen f)%N then FBytes (slice f pos len) else FFailed, st)
  | FWrite data _, Some ro =>
    if ro && (0 <? blen data)%N then (FFailed, st) else (FDone, (f ++ data, m))
  | FClose, _ => (FDone, (f, None))
  | _, _ => (FFailed, st)
  end.
Fixpoint ideals (st : bytes * option bool) (ops : list fileop) : list fileans :=
  match ops with [] => [] | op :: ops => let '(a, st) := ideal st op in a :: ideals st ops end.

Definition hrel (st : bytes * option handle) (q : bytes * option bool) : Prop :=
  fst st = fst q /\
  match snd st, snd q with
  | None, None => True
  | Some h, Some ro =>
    h_size h = blen (fst st) /\ h_ro h = ro /\ (forall m, h_base h = Some m -> m = h_size h) /\
    (h_fd h = false -> h_base h <> None \/ h_size h = 0%N) /\ (ro = false -> h_fd h = true)
  | _, _ => False
  end.

(** No data is written through a read-only handle (the library never does; such a write
    fails, and drops the mapping). *)
Fixpoint writable (m : option bool) (ops : list fileop) : Prop :=
  match ops with
  | [] => True
  | FOpen _ ro _ :: ops => writable (match m with None => Some ro | Some _ => m end) ops
  | FWrite data _ :: ops => (m = Some true -> data = []) /\ writable m ops
  | FClose :: ops => writable None ops
  | _ :: ops => writable m ops
  end.

(** C48: interrupted system calls, short transfers and memory mapping cannot be observed:
    the answers are those of a perfect file. *)
Theorem C48_perfect_file f0 ops : Forall arg_ok ops -> Forall kind_op ops -> writable None ops ->
  exists tr st, frun (f0, None) ops = Ok (tr, st) /\ map (fun e => snd (fst e)) tr = ideals (f0, None) ops.
Proof.
  intros A K. assert (R : hrel (f0, None) (f0, None)) by (split; [reflexivity|exact I]).
  change (@None bool) with (snd (f0, @None bool)) at 1.
  revert R A K. generalize (f0, @None handle), (f0, @None bool). clear. intros st q R A. revert st q R.
  induction A as [|op ops Ho A IH]; intros [f ho] [f' m] R K W.
  { exists [], (f, ho). auto. }
  inversion K as [|? ? Ko K']; subst. destruct R as [Ef R]. cbn [fst snd] in Ef, R. subst f'.
  assert (S : exists st', fstep (f, ho) op = Ok (fst (ideal (f, m) op), st') /\ hrel st' (snd (ideal (f, m) op)) /\
              writable (snd (snd (ideal (f, m) op))) ops).
  { destruct op as [mm ro o|len pos o|data o|]; destruct ho as [h|], m as [ro'|]; try contradiction; cbn [fstep ideal fst snd writable] in *.
    - eexists. split; [reflexivity|]. split; [split; auto|exact W].
    - unfold file_open. destruct Ko as (-> & -> & _ & -> & _). cbn [negb]. destruct mm.
      + destruct (N.ltb_spec 0 (blen f)).
        * eexists. split; [reflexivity|]. split; [|exact W]. split; [reflexivity|]. cbn. repeat split; try congruence.
          -- intros _. left. discriminate.
          -- intros ->. reflexivity.
        * eexists. split; [reflexivity|]. split; [|exact W]. split; [reflexivity|]. cbn. repeat split; discriminate.
      + eexists. split; [reflexivity|]. split; [|exact W]. split; [reflexivity|]. cbn. repeat split; discriminate.
    - destruct R as (Sz & Ro & Bs & Nf & Rw). destruct Ho as [L P].
      assert (E : file_pread h o f len pos = Ok (if (len =? 0)%N then Some [] else if (pos + len <? 2 ^ 64)%N && (pos + len <=? blen f)%N then Some (slice f pos len) else None)).
      { unfold file_pread. destruct (N.eqb_spec len 0) as [|Nz]; [reflexivity|].
        rewrite Sz. destruct (wrap pos len L P Nz) as [X|[-> X]].
        { destruct (N.ltb_spec ((pos + len) mod 2 ^ 64) pos); [|lia].
          destruct (N.ltb_spec (pos + len) (2 ^ 64)) as [Y|Y]; [|reflexivity].
          rewrite N.mod_small in X by exact Y. lia. }
        destruct (N.ltb_spec (pos + len) (2 ^ 64)); [|lia]. cbn [andb].
        destruct (N.ltb_spec (pos + len) pos); [lia|].
        destruct (N.ltb_spec (blen f) (pos + len)), (N.leb_spec (pos + len) (blen f)); try lia; [reflexivity|].
        destruct (h_base h) as [b|] eqn:B.
        - rewrite (Bs b eq_refl), Sz. destruct (N.leb_spec (pos + len) (blen f)); [reflexivity|lia].
        - destruct (h_fd h) eqn:Fd; cbn [negb].
          + destruct Ko as (_ & _ & _ & _ & Bn).
            destruct (fs_pread_benign (o_sch o) f (N.to_nat len) (N.to_nat pos) Bn) as (r & ->); [unfold blen in *; lia|]. reflexivity.
          + destruct (Nf eq_refl); [congruence|]. lia. }
      rewrite E. cbn [bind]. eexists. split. { f_equal. f_equal. destruct (len =? 0)%N; [reflexivity|]. destruct (_ && _); reflexivity. }
      split; [|exact W]. split; [reflexivity|]. cbn. auto 6.
    - eexists. split; [reflexivity|]. split; [split; auto|exact W].
    - destruct W as [Wd W]. destruct R as (Sz & Ro & Bs & Nf & Rw).
      destruct data as [|b data].
      { cbn [file_write_os]. change (0 <? blen [])%N with false. rewrite andb_false_r. cbn [fst snd].
        eexists. split; [reflexivity|]. split; [|exact W]. rewrite app_nil_r. split; [reflexivity|]. cbn. auto 6. }
      destruct ro'; [discriminate (Wd eq_refl)|]. cbn [andb fst snd].
      assert (E : exists h', file_write_os h o f (b :: data) = (true, h', f ++ b :: data) /\
          h_size h' = (h_size h + blen (b :: data))%N /\ h_ro h' = false /\
          (forall m, h_base h' = Some m -> m = h_size h') /\ h_fd h' = true).
      { unfold file_write_os. set (D := b :: data). destruct Ko as (_ & _ & Mu & Mm & Bn). rewrite Mu, Mm.
        specialize (Rw eq_refl). destruct (fs_write_benign (o_sch o) D Bn) as (r & Er).
        destruct (h_base h) eqn:B; cbn [h_fd h_ro h_mapped h_size]; rewrite Rw, Ro; cbn [andb negb]; rewrite Er; cbn [negb].
        - destruct (h_mapped h); eexists; (split; [reflexivity|]); cbn; repeat split; congruence.
        - destruct (h_mapped h); eexists; (split; [reflexivity|]); cbn; repeat split; congruence. }
      destruct E as (h' & -> & S1 & S2 & S3 & S4). eexists. split; [reflexivity|]. split; [|exact W].
      split; [reflexivity|]. cbn [fst snd]. split; [rewrite S1, Sz, blen_app; reflexivity|]. split; [exact S2|].
      split; [exact S3|]. split; [congruence|auto].
    - eexists. split; [reflexivity|]. split; [split; auto|exact (proj2 W)].
    - eexists. split; [reflexivity|]. split; [split; [reflexivity|exact I]|exact W].
    - eexists. split; [reflexivity|]. split; [split; [reflexivity|exact I]|exact W]. }
  destruct S as (st' & E & R' & W'). destruct (IH st' _ R' K' W') as (tr & st'' & E2 & Et).
  do 2 eexists. cbn [frun]. rewrite E. cbn [bind]. rewrite E2. cbn [bind]. split; [reflexivity|].
  cbn [map fst snd ideals]. destruct (ideal (f, m) op) as [a q]. cbn [fst snd] in *. now rewrite Et.
Qed.

(** ** The data files of the store *)

Lemma upd_same (fs : list bytes) : forall i, upd fs i (fget fs i) = fs.
Proof. induction fs as [|f fs IH]; intros [|i]; cbn; auto. f_equal. apply IH. Qed.

(** urkel_file_write as Store.v models it: every behaviour of the system calls is one of the
    faults the other theorems quantify over, with the same answer, the same bytes on disk
    and the same recorded size. *)
Theorem C48_store_write s h o data :
  h_fd h = true -> h_ro h = false -> h_size h = st_size s ->
  let i := N.to_nat (st_index s) - 1 in
  exists fault, fault <> WOpen /\ fault <> WSync /\
    let '(ok, s') := file_write s fault data in
    let '(ok', h', f') := file_write_os h o (fget (st_fs s) i) data in
    ok = ok' /\ st_size s' = h_size h' /\ st_index s' = st_index s /\
    st_fs s' = upd (st_fs s) i f' /\ h_fd h' = true /\ h_ro h' = false.
Proof.
  intros Fd Ro Sz i. destruct data as [|b data].
  { exists WOk. split; [discriminate|]. split; [discriminate|]. cbn [file_write file_write_os].
    rewrite upd_same. auto 6. }
  set (f := fget (st_fs s) i).
  unfold file_write_os. set (D := b :: data).
  set (ho := match h_base h with Some _ => _ | None => _ end).
  assert (Ho : ho = None \/ exists g, ho = Some g /\ h_fd g = true /\ h_ro g = false /\ h_size g = h_size h).
  { unfold ho. destruct (h_base h); [|right; exists h; auto 6].
    destruct (o_munmap o); [|auto]. right. eexists. split; [reflexivity|]. cbn. auto. }
  clearbody ho. destruct Ho as [->|(g & -> & Fg & Rg & Sg)].
  { exists (WShort 0). split; [discriminate|]. split; [discriminate|]. unfold D. cbn [file_write firstn]. fold i f.
    cbn [set_fs st_size st_index st_fs]. rewrite app_nil_r. auto 6. }
  rewrite Fg, Rg. cbn [andb negb]. destruct (fs_write (o_sch o) D) as [[ok x] r] eqn:E.
  destruct (fs_write_ok _ _ _ _ _ E) as (n & Ex & Full). destruct ok; cbn [negb].
  - rewrite (Full eq_refl). cbn [h_mapped]. destruct (h_mapped g).
    + destruct (o_mmap o).
      * exists WOk. split; [discriminate|]. split; [discriminate|]. unfold D. cbn [file_write].
        cbn [set_fs set_cur st_size st_index st_fs h_size h_fd h_ro]. fold i f D. rewrite Sg, Sz. auto 6.
      * exists WMap. split; [discriminate|]. split; [discriminate|]. unfold D. cbn [file_write].
        cbn [set_fs set_cur st_size st_index st_fs h_size h_fd h_ro]. fold i f D. rewrite Sg, Sz. auto 6.
    + exists WOk. split; [discriminate|]. split; [discriminate|]. unfold D. cbn [file_write].
      cbn [set_fs set_cur st_size st_index st_fs h_size h_fd h_ro]. fold i f D. rewrite Sg, Sz. auto 6.
  - exists (WShort n). split; [discriminate|]. split; [discriminate|]. unfold D. cbn [file_write].
    cbn [set_fs st_size st_index st_fs]. fold i f D. rewrite Ex, Sg. auto 6.
Qed.

(** urkel_file_pread as Store.v models it: a read either fails or returns what the model
    returns, and it returns exactly that when no system call fails for good. *)
Theorem C48_store_read s h o p f :
  (pidx p =? 0)%N = false -> (pidx p <= st_index s + 1)%N -> nth_error (st_fs s) (N.to_nat (pidx p) - 1) = Some f ->
  (psize p < 2 ^ 32)%N -> (ppos p < 2 ^ 32)%N ->
  h_size h = (if (pidx p =? st_index s)%N then st_size s else blen f) -> (h_size h <= blen f)%N ->
  (forall m, h_base h = Some m -> m = h_size h) -> (h_fd h = false -> h_base h <> None \/ h_size h = 0%N) ->
  exists r, file_pread h o f (psize p) (ppos p) = Ok r /\
    (forall x, r = Some x -> st_rd s p = Some x) /\ (kind o -> r = st_rd s p).
Proof.
  intros Z Li En Ls Lp Sz Le Bs Nf. unfold st_rd. rewrite Z. destruct (N.ltb_spec (st_index s + 1) (pidx p)); [lia|].
  cbn [orb]. rewrite En. rewrite <- Sz. clear Sz. unfold file_pread.
  destruct (N.eqb_spec (psize p) 0) as [|Nz]; [exists (Some []); auto|].
  replace ((ppos p + psize p) mod 2 ^ 64)%N with (ppos p + psize p)%N by (symmetry; apply N.mod_small; lia).
  destruct (N.ltb_spec (ppos p + psize p) (ppos p)); [lia|].
  destruct (N.ltb_spec (h_size h) (ppos p + psize p)) as [G|G]; [exists None; auto|].
  destruct (h_base h) as [m|] eqn:B.
  - rewrite (Bs m eq_refl). destruct (N.leb_spec (ppos p + psize p) (h_size h)); [|lia].
    destruct (N.leb_spec (ppos p + psize p) (blen f)); [|lia]. cbn [andb]. eexists. split; [reflexivity|]. auto.
  - destruct (h_fd h); cbn [negb].
    2:{ destruct (Nf eq_refl); [congruence|lia]. }
    destruct (fs_pread (o_sch o) f (N.to_nat (psize p)) (N.to_nat (ppos p))) as [[ok x] r] eqn:E.
    destruct (fs_pread_ok _ _ _ _ _ _ _ E) as [_ F].
    eexists. split; [reflexivity|]. split.
    + intros y Ey. destruct ok; [|discriminate]. injection Ey as <-. destruct (F eq_refl) as [[-> _]|]; [reflexivity|lia].
    + intros (_ & _ & _ & _ & Bn).
      destruct (fs_pread_benign (o_sch o) f (N.to_nat (psize p)) (N.to_nat (ppos p)) Bn) as (r' & E'); [unfold blen in *; lia|].
      rewrite E' in E. injection E as <- <- <-. reflexivity.
Qed.

(** ** The key file *)

(** urkel_store_init_meta (store.c 919-931) creates the file with [key] (32 random bytes) and
    later sessions read it back.  Whatever the system calls do, a later session never uses a
    different key: it reads [key], or fails.  If creation was reported as successful the file
    holds [key], and a session in which no call fails for good reads it. *)
Theorem C48_key_file op sch key op' sch' : length key = 32 ->
  let '(ok, l) := write_file op sch None key in
  (ok = true -> l = Some key) /\
  (forall f, l = Some f -> forall k, read_file op' sch' f 32 = Some k -> k = key) /\
  (l = Some key -> op' = true -> benign sch' -> read_file op' sch' key 32 = Some key).
Proof.
  intros Lk. unfold write_file. destruct op; cbn [negb].
  2:{ split; [discriminate|]. split; [discriminate|]. discriminate. }
  destruct (fs_write sch key) as [[ok x] r] eqn:E. destruct (fs_write_ok _ _ _ _ _ E) as (n & Ex & Full).
  split; [intros T; now rewrite (Full T)|]. split.
  - intros f Ef k. injection Ef as <-. unfold read_file, fs_read. destruct op'; [|discriminate]. cbn [negb].
    destruct (fs_pread sch' x 32 0) as [[ok' y] r'] eqn:E'. destruct ok'; [|discriminate].
    intros Ey. injection Ey as <-. destruct (fs_pread_ok _ _ _ _ _ _ _ E') as [_ F].
    destruct (F eq_refl) as [[-> L]|]; [|discriminate]. cbn [skipn]. rewrite Ex in *.
    rewrite firstn_length in L. rewrite firstn_firstn. apply firstn_all2. lia.
  - intros _ -> B. unfold read_file, fs_read. cbn [negb].
    destruct (fs_pread_benign sch' key 32 0 B) as (r' & ->); [lia|]. rewrite skipn_O, firstn_all2; [reflexivity|lia].
Qed.

(** ** The hypotheses can be met *)

Definition busy : os := mkos true true true true [SIntr; SCount 2; SIntr; SCount 1].
Definition broken : os := mkos true true true true [SCount 1; SErr].
Definition demo_io : list fileop :=
  [FOpen true false busy; FWrite [x01; x02; x03; x04] busy; FRead 3 1 busy; FClose; FOpen false false busy;
   FWrite [x05; x06] busy; FRead 4 2 busy; FRead 5 2 busy; FClose; FOpen true true busy; FRead 2 4 busy].

Example C48_nonvacuous :
  Forall arg_ok demo_io /\ Forall kind_op demo_io /\ writable None demo_io /\
  ideals ([], None) demo_io = [FDone; FDone; FBytes [x02; x03; x04]; FDone; FDone; FDone;
    FBytes [x03; x04; x05; x06]; FFailed; FDone; FDone; FBytes [x05; x06]] /\
  (* a write that is cut short, then a read that still works *)
  frun ([x01], None) [FOpen true false busy; FWrite [x02; x03] broken; FRead 1 0 broken; FRead 1 0 busy] =
    Ok ([([x01], FOpen true false busy, FDone, [x01]); ([x01], FWrite [x02; x03] broken, FFailed, [x01; x02]);
         ([x01; x02], FRead 1 0 broken, FBytes [x01], [x01; x02]); ([x01; x02], FRead 1 0 busy, FBytes [x01], [x01; x02])],
        ([x01; x02], Some (mkhandle true false 1 None true))).
Proof.
  split. { repeat constructor. }
  assert (K : kind busy) by (repeat split; repeat constructor).
  split. { repeat (constructor; [try exact K; try exact I|]). constructor. }
  split. { cbn. repeat split; discriminate. }
  split; vm_compute; reflexivity.
Qed.
