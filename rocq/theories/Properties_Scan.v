(** * C32, C35: the recovery scan as performed, against the direct description of Store.v. *)
From Verif Require Import Scan Demo.
From Coq Require Import ZifyBool ZifyNat ZifyN.

Lemma slab_blocks : exists s, 0 < s /\ SLAB_SIZE = 38 * s.
Proof.
  exists (N.to_nat 27594). split; [lia|]. unfold SLAB_SIZE. apply Nat2N.inj. rewrite Nat2N.inj_mul, !N2Nat.id. reflexivity.
Qed.

(** C32: the scan through a buffer of SLAB_SIZE bytes finds exactly the last block of the file
    that is a valid record, for files of every length; when system calls fail for good it
    finds that block or nothing. *)
Theorem C32_buffered_scan C key io f m :
  exists found off m' f', find_meta_c C SLAB_SIZE key io f m = Ok (found, off, m', f') /\
    (found = true ->
       exists b, off = 38 * b /\ off + 38 <= length f /\
         meta_read C key (firstn 38 (skipn off f)) = Ok (Some (with_node m' NNull)) /\
         (forall b', b < b' -> 38 * b' + 38 <= length f -> meta_read C key (firstn 38 (skipn (38 * b') f)) = Ok None) /\
         (f' = f \/ f' = firstn (off + 38) f)) /\
    (found = false -> f' = f /\ (smooth io -> forall b, 38 * b + 38 <= length f -> meta_read C key (firstn 38 (skipn (38 * b) f)) = Ok None)).
Proof.
  destruct (find_meta_c_spec C SLAB_SIZE key io f m slab_blocks) as (found & off & m' & f' & E & N & Hf & Hn).
  exists found, off, m', f'. split; [exact E|].
  assert (Q : forall k r, 38 * k <= length f -> find_meta C key f k = Ok r ->
    match r with
    | None => forall b, b < k -> meta_read C key (sblock f b) = Ok None
    | Some (x, o) => exists b, o = 38 * b /\ b < k /\ meta_read C key (sblock f b) = Ok (Some x) /\
        forall b', b < b' < k -> meta_read C key (sblock f b') = Ok None
    end).
  { clear. induction k as [|k IH]; intros r L; cbn [find_meta].
    - intros X. injection X as <-. lia.
    - fold (sblock f k).
      assert (L3 : 38 * k + 38 <= length f). { clear IH. lia. }
      assert (Lb : 38 <= length (sblock f k)). { rewrite (sblock_len C) by exact L3. apply le_n. }
      destruct (meta_read_c_spec C key meta0 (sblock f k) Lb) as (ok & m1 & _ & _ & R & _). rewrite R. cbn [bind].
      destruct ok.
      + intros X. injection X as <-. exists k. split; [reflexivity|]. split; [lia|]. split; [exact R|]. lia.
      + intros X. assert (L' : 38 * k <= length f) by (clear IH; lia). specialize (IH r L' X). destruct r as [[x o]|].
        * destruct IH as (b & Eo & Lb' & Rb & Ab). exists b. split; [exact Eo|]. split; [lia|]. split; [exact Rb|].
          intros b' L2. destruct (Nat.eq_dec b' k) as [->|]; [exact R|apply Ab; lia].
        * intros b L2. destruct (Nat.eq_dec b k) as [->|]; [exact R|apply IH; lia]. }
  assert (L0 : 38 * (length f / 38) <= length f) by (apply Nat.mul_div_le; lia).
  assert (L1 : length f < 38 * S (length f / 38)) by (apply Nat.mul_succ_div_gt; lia).
  split.
  - intros T. destruct (Hf T) as [Ff Ef]. destruct (Q _ _ L0 Ff) as (b & Eo & Lb & Rb & Ab).
    exists b. split; [exact Eo|]. split; [clear - Eo Lb L0; lia|]. split; [rewrite Eo; exact Rb|]. split.
    + intros b' L2 L3. apply Ab. clear - L2 L3 L1. lia.
    + rewrite Ef. destruct (i_trunc io); auto.
  - intros T. destruct (Hn T) as (Ef & Sm & _). split; [exact Ef|]. intros S b L2.
    apply (Q _ _ L0 (Sm S) b). clear - L2 L1. lia.
Qed.

(** ** The whole recovery *)

Lemma smooth_dec io : {smooth io} + {~ smooth io}.
Proof.
  unfold smooth. destruct (i_open io); [|right; intros (X & _); discriminate].
  destruct (i_fstat io); [|right; intros (_ & X & _); discriminate].
  assert (B : forall r, {benign r} + {~ benign r}).
  { intros r. apply Forall_dec. intros [| |n]; auto. destruct n; [right; lia|left; lia]. }
  destruct (Forall_dec benign B (i_reads io)); [auto|]. right. tauto.
Qed.

(** C35: urkel_open examines the files as [recover] of Store.v says, for some choice of files
    whose examination failed ([io]), all of them files for which a system call failed.  It
    gives up only if unlink fails, having removed some files from the end.  If the last record
    was found but ftruncate failed, the file keeps its tail. *)
Theorem C35_recover_refines C key fs ios :
  exists ok fsc stc lastc io fs' ops st last,
    recover_c C SLAB_SIZE key (length fs) fs ios meta0 = Ok (ok, fsc, stc, lastc) /\
    recover C key (length fs) fs io = Ok (fs', ops, st, last) /\
    length fs' <= length fs /\
    (forall i, nth i io false = true -> ~ smooth (nth i ios (mkfio true true [] true true))) /\
    (ok = true -> stc = st /\ length fsc = length fs' /\ (st <> meta0 -> lastc = last) /\
       (forall i, nth i fsc [] = nth i fs' [] \/ nth i fsc [] = nth i fs [] /\ Exists (fun io => i_trunc io = false) ios)) /\
    (ok = false -> (exists n, fsc = firstn n fs) /\ Exists (fun io => i_unlink io = false) ios).
Proof.
  assert (N0 : m_node meta0 = NNull) by reflexivity. revert N0. generalize meta0 at 1 2 as m. intros m N0.
  revert fs ios m N0. intros fs. remember (length fs) as n eqn:En. revert fs En.
  induction n as [|n IH]; intros fs En ios m N0.
  { exists true, fs, meta0, m, [], fs, [], meta0, meta0. cbn [recover_c recover]. split; [reflexivity|]. split; [reflexivity|].
    split; [lia|]. split. { intros [|i]; discriminate. }
    split; [|discriminate]. intros _. split; [reflexivity|]. split; [reflexivity|]. split; [congruence|]. auto. }
  cbn [recover_c]. set (io0 := hd (mkfio true true [] true true) ios).
  destruct (find_meta_c_spec C SLAB_SIZE key io0 (fget fs n) m slab_blocks) as (found & off & m' & f' & E & Nm & Hf & Hn).
  rewrite E. cbn [bind].
  assert (Ne : fs <> []) by (intros ->; discriminate En).
  destruct found.
  - destruct (Hf eq_refl) as [Ff Ef].
    exists true. do 3 eexists. exists []. do 4 eexists. split; [reflexivity|].
    cbn [recover hd]. rewrite Ff. cbn [bind]. split; [reflexivity|].
    split; [rewrite upd_length; lia|]. split. { intros [|i]; discriminate. }
    split; [|discriminate]. intros _. split. { unfold with_node. cbn [m_meta m_root]. rewrite Nm, N0. reflexivity. }
    split; [now rewrite !upd_length|]. split.
    { intros _. unfold with_node. rewrite N0 in Nm. destruct m' as [a b c]. cbn [m_meta m_root m_node] in *. now subst c. }
    intros i. rewrite Ef. destruct (i_trunc io0) eqn:T; [auto|]. 
    destruct (Nat.eq_dec i n) as [->|Ni].
    + right. split.
      * assert (X : nth_error (upd fs n (fget fs n)) n = Some (fget fs n)) by (apply nth_error_upd_eq; lia).
        now apply nth_error_nth with (d := []) in X.
      * destruct ios as [|j ios]; [discriminate T|]. constructor. exact T.
    + left. assert (X : nth_error (upd fs n (fget fs n)) i = nth_error (upd fs n (firstn (off + 38) (fget fs n))) i).
      { rewrite !nth_error_upd_neq by congruence. reflexivity. }
      rewrite <- !(nth_default_eq i _ []). unfold nth_default. now rewrite X.
  - destruct (Hn eq_refl) as (Ef & Sm & _). subst f'.
    destruct (exists_last Ne) as (fs1 & g & Efs). 
    assert (L1 : n = length fs1). { rewrite Efs, app_length in En. cbn [length] in En. lia. }
    destruct (i_unlink io0) eqn:U; cbn [negb].
    + rewrite N0 in Nm.
      assert (Er : removelast fs = fs1) by (rewrite Efs; apply removelast_last). rewrite Er.
      destruct (IH fs1 L1 (tl ios) m' Nm) as (ok & fsc & stc & lastc & io & fs' & ops & st & last & E1 & E2 & Hl & Hio & Hok & Hno).
      set (bit := if smooth_dec io0 then false else true).
      exists ok, fsc, stc, lastc, (bit :: io), fs', (ODrop :: ops), st, last. split; [exact E1|]. split.
      { cbn [recover hd tl]. rewrite Er. unfold bit. destruct (smooth_dec io0) as [S|S].
        - rewrite (Sm S). cbn [bind]. rewrite E2. reflexivity.
        - cbn [bind]. rewrite E2. reflexivity. }
      split; [lia|]. split.
      { intros [|i]; cbn [nth].
        - unfold bit. destruct (smooth_dec io0) as [S|S]; [discriminate|]. intros _. unfold io0 in S. destruct ios; exact S.
        - intros X. specialize (Hio i X). destruct ios as [|j ios]; [|exact Hio]. cbn [tl] in Hio. destruct i; exact Hio. }
      split.
      * intros T. destruct (Hok T) as (-> & Lf & La & Ho). split; [reflexivity|]. split; [exact Lf|]. split; [exact La|].
        intros i. destruct (Ho i) as [X|[X Y]]; [auto|].
        destruct (Nat.lt_ge_cases i (length fs1)) as [Li|Li].
        { right. split; [rewrite X, Efs, app_nth1 by exact Li; reflexivity|]. destruct ios; [inversion Y|]. now constructor 2. }
        left. rewrite (nth_overflow fs1) in X by exact Li. rewrite X. symmetry. apply nth_overflow.
        lia.
      * intros T. destruct (Hno T) as [(k & ->) Y]. split.
        { exists (min k (length fs1)). rewrite Efs, firstn_app. replace (min k (length fs1) - length fs1) with 0 by lia.
          rewrite firstn_O, app_nil_r. destruct (Nat.le_ge_cases k (length fs1)) as [L|L].
          - now rewrite Nat.min_l by exact L.
          - rewrite Nat.min_r by exact L. now rewrite firstn_all, firstn_all2. }
        destruct ios; [inversion Y|]. now constructor 2.
    + exists false. do 3 eexists. 
      destruct (IH fs1 L1 [] meta0 eq_refl) as (ok & fsc & stc & lastc & io & fs' & ops & st & last & E1 & E2 & Hl & Hio & _ & _).
      set (bit := if smooth_dec io0 then false else true).
      exists (bit :: io), fs', (ODrop :: ops), st, last. split; [reflexivity|]. split.
      { cbn [recover hd tl]. rewrite Efs, removelast_last, <- Efs. unfold bit. destruct (smooth_dec io0) as [S|S].
        - rewrite (Sm S). cbn [bind]. rewrite E2. reflexivity.
        - cbn [bind]. rewrite E2. reflexivity. }
      split; [lia|]. split.
      { intros [|i]; cbn [nth].
        - unfold bit. destruct (smooth_dec io0) as [S|S]; [discriminate|]. intros _. unfold io0 in S. destruct ios; exact S.
        - intros X. destruct (Hio i X). destruct i; repeat split; constructor. }
      split; [discriminate|]. intros _. split; [exists (length fs); symmetry; apply firstn_all|].
      destruct ios as [|j ios]; [discriminate U|]. constructor. exact U.
Qed.

Lemma recover_quiet C key n : forall fs io, (forall i, nth i io false = false) -> recover C key n fs io = recover C key n fs [].
Proof.
  induction n as [|n IH]; intros fs io Q; [reflexivity|]. cbn [recover].
  assert (Z : hd false io = false) by (destruct io; [reflexivity|exact (Q 0)]). rewrite Z. cbn [hd tl].
  assert (Q' : forall i, nth i (tl io) false = false) by (intros i; destruct io; [destruct i; reflexivity|exact (Q (S i))]).
  destruct (find_meta C key (fget fs n) (length (fget fs n) / 38)) as [[[m off]|]|e| | |]; cbn [bind]; try reflexivity.
  now rewrite IH.
Qed.

(** When no system call fails for good, urkel_open leaves the files, and takes up the state,
    that [recover] describes, on which the theorems about opening rest. *)
Theorem C35_smooth_recovery C key fs ios :
  Forall (fun io => smooth io /\ i_trunc io = true /\ i_unlink io = true) ios ->
  exists fs' ops st last lastc,
    recover C key (length fs) fs [] = Ok (fs', ops, st, last) /\
    recover_c C SLAB_SIZE key (length fs) fs ios meta0 = Ok (true, fs', st, lastc) /\
    (st <> meta0 -> lastc = last).
Proof.
  intros F. destruct (C35_recover_refines C key fs ios) as (ok & fsc & stc & lastc & io & fs' & ops & st & last & E1 & E2 & Hl & Hio & Hok & Hno).
  exists fs', ops, st, last, lastc. rewrite recover_quiet in E2.
  2:{ intros i. destruct (nth i io false) eqn:X; [|reflexivity]. exfalso. apply (Hio i X).
      destruct (Nat.lt_ge_cases i (length ios)) as [L|L].
      - rewrite Forall_forall in F. now apply F, nth_In.
      - rewrite nth_overflow by exact L. repeat split. constructor. }
  split; [exact E2|]. destruct ok.
  2:{ destruct (Hno eq_refl) as [_ X]. apply Exists_exists in X as (x & Ix & Ux). rewrite Forall_forall in F. destruct (F x Ix) as (_ & _ & Y). congruence. }
  destruct (Hok eq_refl) as (-> & Lf & La & Ho). split; [|exact La]. rewrite E1. f_equal. f_equal. f_equal. f_equal.
  apply (nth_ext _ _ [] []); [exact Lf|]. intros i _. destruct (Ho i) as [X|[_ X]]; [exact X|].
  apply Exists_exists in X as (x & Ix & Ux). rewrite Forall_forall in F. destruct (F x Ix) as (_ & Y & _). congruence.
Qed.

(** ** The hypotheses can be met *)

(** A file with a record after a block of zeros, and some bytes behind it: with interrupted
    and short reads the record is found. *)
Example C32_buffered_nonvacuous :
  let f := repeat x00 38 ++ meta_write toyC dkey (mkmeta ptr0 (mkptr 1 0 41) NNull) ++ [x01; x02; x03] in
  let io := mkfio true true [[SIntr; SCount 3]] true true in
  smooth io /\ length f = 79 /\
  exists m', find_meta_c toyC SLAB_SIZE dkey io f meta0 = Ok (true, 38, m', firstn 76 f).
Proof.
  intros f io. assert (Sm : smooth io) by (repeat split; repeat constructor). split; [exact Sm|]. split; [vm_compute; reflexivity|].
  destruct (C32_buffered_scan toyC dkey io f meta0) as (found & off & m' & f' & E & Hf & Hn).
  assert (R : meta_read toyC dkey (firstn 38 (skipn 38 f)) = Ok (Some (mkmeta ptr0 (mkptr 1 0 41) NNull))) by (vm_compute; reflexivity).
  assert (Lf : length f = 79) by (vm_compute; reflexivity).
  destruct found.
  - destruct (Hf eq_refl) as (b & Eo & Lo & Rb & Ab & _). assert (b = 1).
    { destruct (Nat.lt_trichotomy b 1) as [X|[X|X]]; [|exact X|lia].
      specialize (Ab 1 X ltac:(lia)). change (38 * 1) with 38 in Ab. congruence. }
    subst b. change (38 * 1) with 38 in Eo. subst off. exists m'. rewrite E.
    assert (T : find_meta_c toyC SLAB_SIZE dkey io f meta0 = Ok (true, 38, m', f')) by exact E.
    f_equal. f_equal. destruct (find_meta_c_spec toyC SLAB_SIZE dkey io f meta0 slab_blocks) as (x1 & x2 & x3 & x4 & E' & _ & H1 & _).
    rewrite E in E'. injection E' as <- <- <- <-. destruct (H1 eq_refl) as [_ ->]. reflexivity.
  - destruct (Hn eq_refl) as [_ X]. specialize (X Sm 1 ltac:(lia)). change (38 * 1) with 38 in X. congruence.
Qed.
