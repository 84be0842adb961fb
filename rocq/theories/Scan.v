(** * store.c 979-1064: the recovery scan as the code performs it: through a buffer, filling
    in the caller's structure as it goes, with system calls that can fail.

    Store.v reads the file directly ([find_meta], [recover]); the theorems below say when the
    two agree. *)
From Verif Require Export Io HistFacts.
From Coq Require Import ZifyBool ZifyNat ZifyN.

(** SLAB_SIZE: store.c 29-30 ((1 << 20) - (1 << 20) % 38). *)
Definition SLAB_SIZE : nat := N.to_nat (1048576 - 1048576 mod 38).

(** The system calls made while one file is examined: open and fstat succeed or not, the
    schedule of each successive urkel_fs_pread, ftruncate and unlink succeed or not. *)
Record fio := mkfio { i_open : bool; i_fstat : bool; i_reads : list (list sysret); i_trunc : bool; i_unlink : bool }.

Section Scan.
Variable C : bytes -> bytes -> bytes.

(** urkel_meta_read: store.c 125-147: the return value and the structure afterwards (the
    fields are stored before the checksum is compared). *)
Definition meta_read_c (key : bytes) (m : meta) (d : bytes) : res (bool * meta) :=
  let! magic := read32 d in
  if negb (magic =? META_MAGIC)%N then Ok (false, m) else
  let! mp := pointer_read (adv 4 d) in
  let! rp := pointer_read (adv 11 d) in
  let! (sum, _) := take 20 (adv 18 d) in
  Ok (bytes_eqb sum (C key (firstn 18 d)), mkmeta mp rp (m_node m)).

(** The inner loop: store.c 1008-1017, on the buffer. *)
Fixpoint scan_in (fuel : nat) (key slab : bytes) (size off : nat) (m : meta) : res (bool * nat * meta) :=
  match fuel with
  | O => NoFuel
  | S fuel =>
    if size <? 38 then Ok (false, off, m) else
    let size := size - 38 in
    let off := off - 38 in
    let! (ok, m) := meta_read_c key m (firstn 38 (skipn size slab)) in
    if ok then Ok (true, off, m) else scan_in fuel key slab size off m
  end.

(** The outer loop: store.c 996-1018; [SL] is SLAB_SIZE. *)
Fixpoint scan_out (SL fuel : nat) (key : bytes) (rds : list (list sysret)) (f : bytes) (off : nat) (m : meta)
  : res (bool * nat * meta) :=
  match fuel with
  | O => NoFuel
  | S fuel =>
    if off <? 38 then Ok (false, off, m) else
    let '(pos, size) := if SL <=? off then (off - SL, SL) else (0, off) in
    let '(ok, slab, _) := fs_pread (hd [] rds) f size pos in
    if negb ok then Ok (false, off, m) else
    let! (found, off, m) := scan_in (S size) key slab size off m in
    if found then Ok (true, off, m) else scan_out SL fuel key (tl rds) f off m
  end.

(** urkel_store_find_meta: store.c 979-1026: whether a record was found, its offset, the
    structure, and the file afterwards (the result of ftruncate is ignored). *)
Definition find_meta_c (SL : nat) (key : bytes) (io : fio) (f : bytes) (m : meta) : res (bool * nat * meta * bytes) :=
  if negb (i_open io) then Ok (false, 0, m, f) else
  if negb (i_fstat io) then Ok (false, 0, m, f) else
  let! (found, off, m) := scan_out SL (S (length f)) key (i_reads io) f (length f - length f mod 38) m in
  Ok (found, off, m, if found && i_trunc io then firstn (off + 38) f else f).

(** The loop of urkel_store_recover_state: store.c 1044-1058; [n] is *index.  The result is
    the return value, the files, state and meta; [*index] is the number of files, or 1. *)
Fixpoint recover_c (SL : nat) (key : bytes) (n : nat) (fs : list bytes) (ios : list fio) (m : meta)
  : res (bool * list bytes * meta * meta) :=
  match n with
  | O => Ok (true, fs, meta0, m)
  | S n' =>
    let io := hd (mkfio true true [] true true) ios in
    let! (found, off, m, f) := find_meta_c SL key io (fget fs n') m in
    if found then
      Ok (true, upd fs n' f, mkmeta (mkptr (N.of_nat n) (N.of_nat off) (psize (m_meta m))) (m_root m) (m_node m), m)
    else if negb (i_unlink io) then Ok (false, fs, meta0, m)
    else recover_c SL key n' (removelast fs) (tl ios) m
  end.

(** ** Reading a block *)

Definition with_node (m : meta) (n : node) : meta := mkmeta (m_meta m) (m_root m) n.
Definition sblock (f : bytes) (b : nat) : bytes := firstn 38 (skipn (38 * b) f).

Lemma meta_read_c_spec key m d : 38 <= length d ->
  exists ok m', meta_read_c key m d = Ok (ok, m') /\ m_node m' = m_node m /\
    meta_read C key d = Ok (if ok then Some (with_node m' NNull) else None) /\
    (read32 d <> Ok META_MAGIC -> m' = m /\ ok = false).
Proof.
  intros L. unfold meta_read, meta_read_c.
  do 38 (destruct d as [|? d]; [cbn [length] in L; lia|]). clear L.
  cbn [read32 bind]. set (magic := (_ + _)%N). clearbody magic.
  destruct (N.eqb_spec magic META_MAGIC) as [->|Nm]; cbn [negb].
  - unfold pointer_read, adv. cbn [skipn read16 read32 read8 bind]. unfold take. cbn [length Nat.leb bind].
    do 2 eexists. split; [reflexivity|]. split; [reflexivity|]. split.
    + destruct (bytes_eqb _ _); reflexivity.
    + intros X. congruence.
  - exists false, m. auto.
Qed.

Lemma sblock_len f b : 38 * b + 38 <= length f -> length (sblock f b) = 38.
Proof. intros. unfold sblock. rewrite firstn_length, skipn_length. lia. Qed.

(** Some block among those numbered [lo] to [hi - 1] begins with the magic number. *)
Definition magical (f : bytes) (lo hi : nat) : Prop := exists b, lo <= b < hi /\ read32 (sblock f b) = Ok META_MAGIC.

(** The inner loop looks at blocks [lo + k - 1] down to [lo] of the file. *)
Lemma scan_in_spec key f lo : forall k fuel m, k < fuel -> 38 * (lo + k) <= length f ->
  exists found b m', scan_in fuel key (firstn (38 * k) (skipn (38 * lo) f)) (38 * k) (38 * (lo + k)) m = Ok (found, 38 * b, m') /\
    m_node m' = m_node m /\
    (found = true -> lo <= b < lo + k /\ meta_read C key (sblock f b) = Ok (Some (with_node m' NNull)) /\
       (forall j, b < j < lo + k -> meta_read C key (sblock f j) = Ok None)) /\
    (found = false -> b = lo /\ (forall j, lo <= j < lo + k -> meta_read C key (sblock f j) = Ok None) /\
       (~ magical f lo (lo + k) -> m' = m)).
Proof.
  intros k. remember (firstn (38 * k) (skipn (38 * lo) f)) as slab eqn:Es.
  assert (Hs : forall j, j < k -> 38 * (lo + k) <= length f -> firstn 38 (skipn (38 * j) slab) = sblock f (lo + j)).
  { intros j Lj Lf. subst slab. unfold sblock. rewrite skipn_firstn_comm, firstn_firstn. rewrite Nat.min_l by lia. f_equal.
    rewrite Nat.mul_add_distr_l, (skipn_plus _ (38 * lo) (38 * j)). reflexivity. }
  clear Es. induction k as [|k IH]; intros fuel m Lk Lf; (destruct fuel as [|fuel]; [lia|]); cbn [scan_in].
  { destruct (Nat.ltb_spec (38 * 0) 38); [|lia]. rewrite Nat.add_0_r. exists false, lo, m.
    split; [reflexivity|]. split; [reflexivity|]. split; [discriminate|]. intros _. split; [reflexivity|]. split; [lia|auto]. }
  destruct (Nat.ltb_spec (38 * S k) 38); [lia|].
  replace (38 * S k - 38) with (38 * k) by lia. replace (38 * (lo + S k) - 38) with (38 * (lo + k)) by lia.
  rewrite Hs by lia. 
  destruct (meta_read_c_spec key m (sblock f (lo + k))) as (ok & m1 & E1 & N1 & R1 & M1); [rewrite sblock_len; lia|].
  rewrite E1. cbn [bind]. destruct ok.
  { exists true, (lo + k), m1. split; [reflexivity|]. split; [exact N1|]. split; [|discriminate].
    intros _. split; [lia|]. split; [exact R1|]. intros j Lj. lia. }
  destruct (IH (fun j Lj Lf' => Hs j ltac:(lia) ltac:(lia)) fuel m1 ltac:(lia) ltac:(lia)) as (found & b & m' & E & N & Hf & Hn).
  exists found, b, m'. split; [exact E|]. split; [congruence|]. split.
  - intros F. destruct (Hf F) as (Lb & Rb & Ab). split; [lia|]. split; [exact Rb|]. intros j Lj.
    destruct (Nat.eq_dec j (lo + k)) as [->|]; [exact R1|apply Ab; lia].
  - intros F. destruct (Hn F) as (Lb & Ab & Mb). split; [exact Lb|]. split.
    + intros j Lj. destruct (Nat.eq_dec j (lo + k)) as [->|]; [exact R1|apply Ab; lia].
    + intros NM. rewrite Mb.
      * apply M1. intros X. apply NM. exists (lo + k). split; [lia|exact X].
      * intros (j & Lj & X). apply NM. exists j. split; [lia|exact X].
Qed.

(** The outer loop from block [k] downwards. *)
Lemma scan_out_spec SL key f : (exists s, 0 < s /\ SL = 38 * s) -> forall fuel rds k m, k < fuel -> 38 * k <= length f ->
  exists found b m', scan_out SL fuel key rds f (38 * k) m = Ok (found, 38 * b, m') /\
    m_node m' = m_node m /\
    (found = true -> b < k /\ meta_read C key (sblock f b) = Ok (Some (with_node m' NNull)) /\
       (forall j, b < j < k -> meta_read C key (sblock f j) = Ok None)) /\
    (found = false -> b <= k /\ (forall j, b <= j < k -> meta_read C key (sblock f j) = Ok None) /\
       (Forall benign rds -> b = 0) /\ (~ magical f b k -> m' = m)).
Proof.
  intros (s & Ps & ES). induction fuel as [|fuel IH]; intros rds k m Lk Lf; [lia|]. cbn [scan_out].
  destruct (Nat.ltb_spec (38 * k) 38) as [Z|Z].
  { assert (k = 0) by lia. subst k. exists false, 0, m. split; [reflexivity|]. split; [reflexivity|]. split; [discriminate|].
    intros _. split; [lia|]. split; [lia|]. auto. }
  assert (P : exists lo n, (if SL <=? 38 * k then (38 * k - SL, SL) else (0, 38 * k)) = (38 * lo, 38 * n) /\ k = lo + n /\ 0 < n).
  { rewrite ES. destruct (Nat.leb_spec (38 * s) (38 * k)).
    - exists (k - s), s. split; [f_equal; lia|]. lia.
    - exists 0, k. split; [reflexivity|]. lia. }
  destruct P as (lo & n & -> & Ek & Pn).
  destruct (fs_pread (hd [] rds) f (38 * n) (38 * lo)) as [[ok slab] r] eqn:Er.
  destruct (fs_pread_ok _ _ _ _ _ _ _ Er) as [_ Full]. destruct ok; cbn [negb].
  2:{ exists false, k, m. split; [reflexivity|]. split; [reflexivity|]. split; [discriminate|]. intros _.
      split; [lia|]. split; [lia|]. split; [|auto].
      intros B. assert (Bh : benign (hd [] rds)). { destruct B; [constructor|assumption]. }
      destruct (fs_pread_benign (hd [] rds) f (38 * n) (38 * lo) Bh ltac:(lia)) as (r' & X). congruence. }
  destruct (Full eq_refl) as [[-> _]|]; [|lia]. subst k.
  destruct (scan_in_spec key f lo n (S (38 * n)) m ltac:(lia) Lf) as (found & b & m1 & E1 & N1 & Hf & Hn).
  rewrite E1. cbn [bind]. destruct found.
  { destruct (Hf eq_refl) as (Lb & Rb & Ab). exists true, b, m1. split; [reflexivity|]. split; [exact N1|].
    split; [|discriminate]. intros _. split; [lia|]. split; [exact Rb|]. intros j Lj. apply Ab. lia. }
  destruct (Hn eq_refl) as (-> & Ab & Mb).
  destruct (IH (tl rds) lo m1 ltac:(lia) ltac:(lia)) as (found & b' & m' & E & N & Hf' & Hn').
  exists found, b', m'. split; [exact E|]. split; [congruence|]. split.
  - intros F. destruct (Hf' F) as (Lb & Rb & Ab'). split; [lia|]. split; [exact Rb|]. intros j Lj.
    destruct (Nat.lt_ge_cases j lo); [apply Ab'|apply Ab]; lia.
  - intros F. destruct (Hn' F) as (Lb & Ab' & Bb & Mb'). split; [lia|]. split.
    + intros j Lj. destruct (Nat.lt_ge_cases j lo); [apply Ab'|apply Ab]; lia.
    + split. { intros B. apply Bb. destruct B; [constructor|assumption]. }
      intros NM. rewrite Mb', Mb; [reflexivity| |]; intros (j & Lj & X); apply NM; exists j; (split; [lia|exact X]).
Qed.

(** ** The whole scan *)

Lemma find_meta_found key f m : forall k b, b < k -> meta_read C key (sblock f b) = Ok (Some m) ->
  (forall j, b < j < k -> meta_read C key (sblock f j) = Ok None) -> find_meta C key f k = Ok (Some (m, 38 * b)).
Proof.
  induction k as [|k IH]; intros b Lb Rb Ab; [lia|]. cbn [find_meta]. fold (sblock f k).
  destruct (Nat.eq_dec b k) as [->|Nk]; [rewrite Rb; reflexivity|]. rewrite Ab by lia. cbn [bind].
  apply IH; [lia|exact Rb|]. intros j Lj. apply Ab. lia.
Qed.
Lemma find_meta_missing key f : forall k, (forall j, j < k -> meta_read C key (sblock f j) = Ok None) -> find_meta C key f k = Ok None.
Proof.
  induction k as [|k IH]; intros Ab; [reflexivity|]. cbn [find_meta]. fold (sblock f k). rewrite Ab by lia. cbn [bind].
  apply IH. intros j Lj. apply Ab. lia.
Qed.

(** No system call fails for good while a file is examined. *)
Definition smooth (io : fio) : Prop := i_open io = true /\ i_fstat io = true /\ Forall benign (i_reads io).

Lemma find_meta_c_spec SL key io f m : (exists s, 0 < s /\ SL = 38 * s) ->
  exists found off m' f', find_meta_c SL key io f m = Ok (found, off, m', f') /\ m_node m' = m_node m /\
    (found = true -> find_meta C key f (length f / 38) = Ok (Some (with_node m' NNull, off)) /\
       f' = if i_trunc io then firstn (off + 38) f else f) /\
    (found = false -> f' = f /\ (smooth io -> find_meta C key f (length f / 38) = Ok None) /\
       (~ magical f 0 (length f / 38) -> m' = m)).
Proof.
  intros HS. unfold find_meta_c. destruct (i_open io) eqn:Io; cbn [negb].
  2:{ exists false, 0, m, f. split; [reflexivity|]. split; [reflexivity|]. split; [discriminate|]. intros _.
      split; [reflexivity|]. split; [intros (X & _); congruence|auto]. }
  destruct (i_fstat io) eqn:Is; cbn [negb].
  2:{ exists false, 0, m, f. split; [reflexivity|]. split; [reflexivity|]. split; [discriminate|]. intros _.
      split; [reflexivity|]. split; [intros (_ & X & _); congruence|auto]. }
  assert (E0 : length f - length f mod 38 = 38 * (length f / 38)).
  { pose proof (Nat.div_mod (length f) 38 ltac:(lia)). lia. }
  assert (L0 : 38 * (length f / 38) <= length f) by (apply Nat.mul_div_le; lia).
  rewrite E0. clear E0. set (k := length f / 38) in *. clearbody k.
  destruct (scan_out_spec SL key f HS (S (length f)) (i_reads io) k m ltac:(lia) L0) as (found & b & m' & E & N & Hf & Hn).
  rewrite E. cbn [bind]. exists found, (38 * b), m'. destruct found; cbn [andb].
  - destruct (Hf eq_refl) as (Lb & Rb & Ab). eexists. split; [reflexivity|]. split; [exact N|]. split; [|discriminate].
    intros _. split; [|reflexivity]. now apply find_meta_found.
  - destruct (Hn eq_refl) as (Lb & Ab & Bb & Mb). eexists. split; [reflexivity|]. split; [exact N|]. split; [discriminate|].
    intros _. split; [reflexivity|]. split.
    + intros (_ & _ & B). apply find_meta_missing. intros j Lj. apply Ab. rewrite (Bb B). lia.
    + intros NM. apply Mb. intros (j & Lj & X). apply NM. exists j. split; [lia|exact X].
Qed.
End Scan.
