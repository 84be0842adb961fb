(** * The write buffer stays inside its blocks; what uses it. *)
From Verif Require Export Slab StoreFacts Backup.
From Coq Require Import ZifyBool ZifyNat ZifyN.

(** The blocks hold what the lists of Store.v hold, and have room for it. *)
Record fits (MEM : N) (c : cslab) (sl : slab) : Prop := {
  f_size : c_size c = blen (c_data c); f_mem : (c_size c <= MEM)%N;
  f_len : c_len c = blen (sl_data sl); f_room : length (sl_data sl) <= length (c_data c);
  f_data : firstn (length (sl_data sl)) (c_data c) = sl_data sl;
  f_off : c_off c = N.of_nat (sl_off sl); f_steps : c_steps c = length (sl_offsets sl);
  f_offs : firstn (c_steps c) (c_offs c) = map N.of_nat (sl_offsets sl);
  f_room2 : c_steps c <= c_olen c; f_alloc : length (c_offs c) = (if c_olen c =? 0 then 0 else c_olen c + 1);
  f_none : c_olen c = 0 -> sl_data sl = [];
  f_start : c_start c = sl_start sl; f_start2 : sl_start sl <= length (sl_offsets sl);
  f_sum : list_sum (sl_offsets sl) + sl_off sl = length (sl_data sl);
  f_pos : c_pos c = sl_pos sl; f_index : c_index c = (sl_index sl mod 4294967296)%N }.

Lemma firstn_realloc {A} (f : nat -> A) l n m : m <= length l -> m <= n -> firstn m (realloc f l n) = firstn m l.
Proof.
  intros L N. unfold realloc. rewrite firstn_app, firstn_length. replace (m - Nat.min n (length l)) with 0 by lia.
  rewrite firstn_O, app_nil_r, firstn_firstn. f_equal. lia.
Qed.
Lemma realloc_length {A} (f : nat -> A) l n : length (realloc f l n) = n.
Proof. unfold realloc. rewrite app_length, firstn_length, map_length, seq_length. lia. Qed.

Section S.
Variables W MEM : N.
Variable fb : nat -> byte.
Variable fo : nat -> N.

Definition grown (size needs : N) : N := (if size <? needs then if size * 3 / 2 <? needs then needs * 3 / 2 else size * 3 / 2 else size)%N.
Lemma cslab_write_ok c sl data sl' : fits MEM c sl -> (c_len c + blen data < W)%N ->
  (c_size c < c_len c + blen data -> 3 * c_size c < W /\ 3 * (c_len c + blen data) < W)%N -> slab_write sl data = Ok sl' ->
  (exists c', cslab_write W MEM fb fo c data = Ok c' /\ fits MEM c' sl' /\ c_size c' = grown (c_size c) (c_len c + blen data)) \/
  (cslab_write W MEM fb fo c data = Abort /\
    ((c_size c < c_len c + blen data /\ 2 * MEM < 3 * blen (sl_data sl'))%N \/ (MEM < 8 * (N.of_nat (length (sl_offsets sl')) + 2))%N)).
Proof.
  unfold slab_write, cslab_write, check. destruct (blen data <=? MAX_FILE_SIZE)%N eqn:Lm; [|discriminate].
  apply N.leb_le in Lm. intros F W1 W2 E. apply Ok_inj in E.
  set (needs := ((c_len c + blen data) mod W)%N).
  assert (Ln : needs = (c_len c + blen data)%N).
  { unfold needs. apply N.mod_small. lia. }
  assert (Ln2 : needs = blen (sl_data sl ++ data)) by (rewrite Ln, (f_len _ _ _ F), blen_app; reflexivity).
  clearbody needs.
  set (A := if c_olen c =? 0 then _ else Ok c).
  assert (HA : (A = Abort /\ (MEM < 16)%N) \/ exists c1, A = Ok c1 /\ fits MEM c1 sl /\ 1 <= c_olen c1 /\ c_len c1 = c_len c /\ c_size c1 = c_size c).
  { unfold A. destruct (c_olen c =? 0) eqn:Ez. 2:{ right. exists c. split; [reflexivity|]. split; [exact F|]. split; [lia|split; reflexivity]. }
    unfold checked. destruct (MEM <? 16)%N eqn:Mm; [left; split; [reflexivity|lia]|]. right. eexists. split; [reflexivity|].
    destruct F. assert (c_steps c = 0) by lia. split; [|split; [cbn [c_olen]; lia|split; reflexivity]].
    constructor; cbn [c_data c_size c_len c_off c_offs c_olen c_steps c_start c_pos c_index]; auto; try lia.
    rewrite H. rewrite H in f_offs0. exact f_offs0. }
  clearbody A. destruct HA as [[-> M]|(c1 & -> & F1 & O1 & L1 & S1)].
  { right. cbn [bind]. split; [reflexivity|]. right. lia. }
  cbn [bind].
  set (sl1 := if (MAX_FILE_SIZE <? sl_pos sl + blen data)%N then mkslab (sl_data sl) 0 (sl_offsets sl ++ [sl_off sl]) (sl_start sl) 0 (sl_index sl + 1) else sl) in *.
  set (B := if (MAX_FILE_SIZE <? c_pos c1 + blen data)%N then _ else Ok c1).
  assert (HB : (B = Abort /\ (MEM < 8 * (N.of_nat (length (sl_offsets sl1)) + 2))%N) \/ exists c2, B = Ok c2 /\ fits MEM c2 sl1 /\ 1 <= c_olen c2 /\ c_len c2 = c_len c /\ c_size c2 = c_size c).
  { unfold B, sl1. rewrite (f_pos _ _ _ F1). destruct (MAX_FILE_SIZE <? sl_pos sl + blen data)%N. 2:{ right. exists c1. auto. }
    set (G := if c_steps c1 =? c_olen c1 then _ else Ok c1).
    assert (HG : (G = Abort /\ (MEM < 8 * (N.of_nat (length (sl_offsets sl)) + 3))%N) \/ exists c2, G = Ok c2 /\ fits MEM c2 sl /\ c_steps c2 < c_olen c2 /\ c_len c2 = c_len c1 /\ c_size c2 = c_size c1).
    { unfold G. destruct (c_steps c1 =? c_olen c1) eqn:Es.
      - unfold checked. destruct (MEM <? _)%N eqn:Mm. { left. split; [reflexivity|]. destruct F1. lia. }
        right. eexists. split; [reflexivity|]. apply Nat.eqb_eq in Es. destruct F1. split; [|split; [cbn [c_steps c_olen]; lia|split; reflexivity]].
        assert (La : length (c_offs c1) = c_olen c1 + 1) by (destruct (c_olen c1 =? 0) eqn:Q; lia).
        constructor; cbn [c_data c_size c_len c_off c_offs c_olen c_steps c_start c_pos c_index]; auto; try lia.
        + rewrite firstn_realloc; [exact f_offs0|lia|lia].
        + rewrite realloc_length. destruct (c_olen c1 + 1 =? 0) eqn:Q; lia.
      - right. exists c1. split; [reflexivity|]. split; [exact F1|]. split; [destruct F1; lia|split; reflexivity]. }
    clearbody G. destruct HG as [[-> M]|(c2 & -> & F2 & O2 & L2 & S2)]; cbn [bind].
    { left. split; [reflexivity|]. cbn [sl_offsets]. rewrite app_length. cbn [length]. lia. }
    right. destruct F2. assert (La : length (c_offs c2) = c_olen c2 + 1) by (destruct (c_olen c2 =? 0) eqn:Q; lia).
    unfold poke. replace (c_steps c2 <? length (c_offs c2)) with true by lia. cbn [bind]. eexists. split; [reflexivity|].
    split; [|split; [cbn [c_olen]; lia|split; [cbn [c_len]; congruence|cbn [c_size]; congruence]]].
    constructor; cbn [c_data c_size c_len c_off c_offs c_olen c_steps c_start c_pos c_index sl_data sl_off sl_offsets sl_start sl_pos sl_index]; auto; try lia.
    - rewrite app_length. cbn [length]. lia.
    - rewrite map_app, <- f_offs0. cbn [map]. rewrite <- f_off0.
      rewrite firstn_app, firstn_length. replace (c_steps c2 + 1 - Nat.min (c_steps c2) (length (c_offs c2))) with 1 by lia.
      cbn [firstn]. rewrite firstn_firstn. do 2 f_equal. lia.
    - rewrite app_length, firstn_length. cbn [length]. rewrite skipn_length. destruct (c_olen c2 =? 0) eqn:Q; lia.
    - rewrite app_length. lia.
    - rewrite list_sum_app. cbn [list_sum fold_right]. lia. }
  clearbody B. assert (Eo : sl_offsets sl' = sl_offsets sl1) by (rewrite <- E; reflexivity).
  assert (Ed : sl_data sl' = sl_data sl1 ++ data) by (rewrite <- E; reflexivity).
  assert (Ed1 : sl_data sl1 = sl_data sl) by (unfold sl1; destruct (_ <? _)%N; reflexivity).
  destruct HB as [[-> M]|(c2 & -> & F2 & O2 & L2 & S2)]; cbn [bind].
  { right. split; [reflexivity|]. right. rewrite Eo. exact M. }
  set (D := if (c_size c2 <? needs)%N then _ else Ok c2).
  assert (HD : (D = Abort /\ (c_size c < c_len c + blen data /\ 2 * MEM < 3 * blen (sl_data sl'))%N) \/ exists c3, D = Ok c3 /\ fits MEM c3 sl1 /\ 1 <= c_olen c3 /\ c_len c3 = c_len c /\ (needs <= c_size c3)%N /\ c_size c3 = grown (c_size c) (c_len c + blen data)).
  { unfold D. rewrite Ed, Ed1. destruct (c_size c2 <? needs)%N eqn:Sn. 2:{ right. exists c2. split; [reflexivity|]. split; [exact F2|]. split; [exact O2|]. split; [exact L2|]. split; [lia|]. unfold grown. rewrite <- Ln, <- S2, Sn. reflexivity. }
    destruct (W2 ltac:(lia)) as [W3 W4]. rewrite (N.mod_small (c_size c2 * 3)) by lia. rewrite (N.mod_small (needs * 3)) by lia.
    set (z := if (c_size c2 * 3 / 2 <? needs)%N then (needs * 3 / 2)%N else (c_size c2 * 3 / 2)%N).
    assert (Z1 : (needs <= z)%N). { unfold z. destruct (c_size c2 * 3 / 2 <? needs)%N eqn:Q; [|apply N.ltb_ge in Q; exact Q]. clear - Ln2. apply N.div_le_lower_bound; lia. }
    assert (Z2 : (2 * z <= 3 * needs)%N).
    { unfold z. pose proof (N.mul_div_le (needs * 3) 2). pose proof (N.mul_div_le (c_size c2 * 3) 2).
      destruct (c_size c2 * 3 / 2 <? needs)%N; lia. }
    assert (Z3 : z = grown (c_size c) (c_len c + blen data)) by (unfold grown, z; rewrite <- Ln, <- S2, Sn; reflexivity).
    clearbody z. unfold checked. destruct (MEM <? z)%N eqn:Mm. { left. split; [reflexivity|]. rewrite <- Ln2. split; lia. }
    right. eexists. split; [reflexivity|]. destruct F2.
    assert (Lz : length (sl_data sl1) <= N.to_nat z). { rewrite Ed1. unfold blen in *. rewrite app_length in Ln2. lia. }
    split; [|split; [exact O2|split; [exact L2|cbn [c_size]; split; [lia|exact Z3]]]].
    constructor; cbn [c_data c_size c_len c_off c_offs c_olen c_steps c_start c_pos c_index]; auto; try lia.
    - unfold blen. rewrite realloc_length. lia.
    - rewrite realloc_length. exact Lz.
    - rewrite firstn_realloc; auto. }
  clearbody D. destruct HD as [[-> M]|(c3 & -> & F3 & O3 & L3 & N3 & S3)]; cbn [bind].
  { right. split; [reflexivity|]. left. exact M. }
  left. destruct F3.
  assert (Fit : length (sl_data sl1) + length data <= length (c_data c3)).
  { rewrite Ed1. unfold blen in *. rewrite app_length in Ln2. lia. }
  assert (X : exists d, (if (0 <? blen data)%N then memcpy (c_data c3) (N.to_nat (c_len c3)) data else Ok (c_data c3)) = Ok d /\
    length d = length (c_data c3) /\ firstn (length (sl_data sl1 ++ data)) d = sl_data sl1 ++ data).
  { destruct (0 <? blen data)%N eqn:Q.
    - unfold memcpy. replace (N.to_nat (c_len c3)) with (length (sl_data sl1)) by (unfold blen in *; lia).
      replace (length (sl_data sl1) + length data <=? length (c_data c3)) with true by lia. eexists. split; [reflexivity|].
      rewrite f_data0. split; [rewrite !app_length, skipn_length; lia|]. rewrite app_assoc, firstn_app, Nat.sub_diag, firstn_all, firstn_O, app_nil_r. reflexivity.
    - assert (Z : data = []). { destruct data; [reflexivity|unfold blen in Q; cbn [length] in Q; lia]. } subst data. exists (c_data c3). rewrite app_nil_r. auto. }
  destruct X as (d & Ex & Xl & Xd). rewrite Ex. cbn [bind]. eexists. split; [reflexivity|]. split; [|exact S3]. rewrite <- E.
  assert (Wl : ((c_len c3 + blen data) mod W)%N = (c_len c3 + blen data)%N). { apply N.mod_small. lia. }
  assert (Wo : ((c_off c3 + blen data) mod W)%N = (c_off c3 + blen data)%N). { apply N.mod_small. unfold blen in *. lia. }
  constructor; cbn [c_data c_size c_len c_off c_offs c_olen c_steps c_start c_pos c_index sl_data sl_off sl_offsets sl_start sl_pos sl_index]; auto; try lia.
  - unfold blen in *. lia.
  - rewrite Wl, blen_app. lia.
  - rewrite app_length. lia.
  - rewrite Wo, f_off0. unfold blen. lia.
  - rewrite app_length. lia.
Qed.

Lemma cflush_loop_eq offs buf chunks : forall s p i data,
  (forall j, j < length chunks -> nth_error offs (i + j) = Some (N.of_nat (nth j chunks 0))) ->
  list_sum chunks = length data -> p + length data <= length buf -> firstn (length data) (skipn p buf) = data ->
  cflush_loop s offs buf p i (length chunks) = flush_loop s i chunks data.
Proof.
  induction chunks as [|len chunks IH]; intros s p i data Ho Sm Fp Ed; cbn [length cflush_loop flush_loop]; [reflexivity|].
  unfold peek. pose proof (Ho 0 ltac:(cbn [length]; lia)) as E0. rewrite Nat.add_0_r in E0. rewrite E0. cbn [nth bind].
  change (list_sum (len :: chunks)) with (len + list_sum chunks) in Sm.
  unfold memread. rewrite Nat2N.id. replace (p + len <=? length buf) with true by lia. cbn [bind].
  assert (Ef : firstn len (skipn p buf) = firstn len data). { rewrite <- Ed, firstn_firstn. f_equal. lia. }
  rewrite Ef. destruct (store_write s (firstn len data)) as [[ok s1]| | | |]; cbn [bind]; try reflexivity.
  destruct ok; [|reflexivity]. replace (i + 1) with (S i) by lia. apply IH.
  - intros j Lj. specialize (Ho (S j) ltac:(cbn [length]; lia)). cbn [nth] in Ho. rewrite <- Ho. f_equal. lia.
  - rewrite skipn_length. lia.
  - rewrite skipn_length. lia.
  - rewrite skipn_length, skipn_plus. rewrite <- Ed at 2. rewrite skipn_firstn_comm. reflexivity.
Qed.
Lemma flush_loop_index chunks : forall s i data j s', flush_loop s i chunks data = Ok (Some j, s') -> i <= j < i + length chunks.
Proof.
  induction chunks as [|len chunks IH]; intros s i data j s'; cbn [flush_loop length]; [intros E; apply Ok_inj in E; discriminate E|].
  destruct (store_write s (firstn len data)) as [[ok s1]| | | |]; cbn [bind]; try discriminate. destruct ok; intros E.
  - apply IH in E. lia.
  - apply Ok_inj in E. injection E as <- _. lia.
Qed.
Lemma coffset_ok offs : forall (l : list nat) i p, (forall j, j < length l -> nth_error offs (i + j) = Some (N.of_nat (nth j l 0))) ->
  coffset offs i (length l) p = Ok (p + list_sum l).
Proof.
  intros l. induction l as [|x l IH]; intros i p Ho; cbn [length coffset]; [cbn [list_sum fold_right]; f_equal; lia|].
  unfold peek. pose proof (Ho 0 ltac:(cbn [length]; lia)) as E0. rewrite Nat.add_0_r in E0. rewrite E0. cbn [nth bind]. rewrite IH.
  - rewrite Nat2N.id. change (list_sum (x :: l)) with (x + list_sum l). f_equal. lia.
  - intros j Lj. specialize (Ho (S j) ltac:(cbn [length]; lia)). cbn [nth] in Ho. rewrite <- Ho. f_equal. lia.
Qed.
Lemma list_sum_split (l : list nat) n : list_sum (firstn n l) + list_sum (skipn n l) = list_sum l.
Proof. rewrite <- list_sum_app, firstn_skipn. reflexivity. Qed.
Lemma nth_error_firstn' {A} (l : list A) n i : i < n -> nth_error (firstn n l) i = nth_error l i.
Proof. revert l i; induction n as [|n IH]; intros [|x l] [|i] L; try lia; cbn; try reflexivity. apply IH. lia. Qed.
Lemma nth_error_skipn' {A} (l : list A) n i : nth_error (skipn n l) i = nth_error l (n + i).
Proof. revert l; induction n as [|n IH]; intros [|x l]; cbn; try reflexivity; [destruct i; reflexivity|apply IH]. Qed.

Lemma cflush_ok c s : fits MEM c (st_slab s) -> sl_data (st_slab s) <> [] ->
  match store_flush s with
  | Ok (b, s') => exists c' s1, cflush c s = Ok (b, c', s1) /\ s' = set_slab s1 (st_slab s') /\ fits MEM c' (st_slab s')
  | Abort => cflush c s = Abort
  | _ => True
  end.
Proof.
  intros F Nn. unfold store_flush, cflush. set (sl := st_slab s) in *. destruct F. cbv zeta.
  assert (Ol : 1 <= c_olen c). { destruct (c_olen c) eqn:Q; [|lia]. exfalso. apply Nn. apply f_none0. reflexivity. }
  assert (La : length (c_offs c) = c_olen c + 1) by (destruct (c_olen c =? 0) eqn:Q; lia).
  unfold poke. replace (c_steps c <? length (c_offs c)) with true by lia. cbn [bind].
  set (offs := firstn (c_steps c) (c_offs c) ++ c_off c :: skipn (c_steps c + 1) (c_offs c)).
  set (L := sl_offsets sl ++ [sl_off sl]).
  assert (Lo : length offs = length (c_offs c)). { unfold offs. rewrite app_length, firstn_length. cbn [length]. rewrite skipn_length. lia. }
  assert (LL : length L = c_steps c + 1) by (unfold L; rewrite app_length; cbn [length]; lia).
  assert (Cell : forall j, j < length L -> nth_error offs j = Some (N.of_nat (nth j L 0))).
  { intros j Lj. assert (EL : firstn (length L) offs = map N.of_nat L).
    { unfold offs, L. rewrite f_offs0, map_app, app_length. cbn [map length].
      rewrite firstn_app, map_length, firstn_all2 by (rewrite map_length; lia).
      replace (length (sl_offsets sl) + 1 - length (sl_offsets sl)) with 1 by lia. cbn [firstn]. rewrite f_off0. reflexivity. }
    rewrite <- (nth_error_firstn' offs (length L)) by exact Lj. rewrite EL. rewrite nth_error_map, (nth_error_nth' L 0) by exact Lj. reflexivity. }
  assert (SL : list_sum L = length (sl_data sl)). { unfold L. rewrite list_sum_app. cbn [list_sum fold_right]. lia. }
  rewrite f_start0.
  assert (Lf : length (firstn (sl_start sl) L) = sl_start sl) by (rewrite firstn_length; lia).
  assert (Ec : coffset offs 0 (sl_start sl) 0 = Ok (list_sum (firstn (sl_start sl) L))).
  { rewrite <- Lf at 1. rewrite coffset_ok; [reflexivity|]. intros j Lj. rewrite Lf in Lj. rewrite Nat.add_0_l, Cell by lia.
    do 2 f_equal. assert (X : nth_error (firstn (sl_start sl) L) j = nth_error L j) by (apply nth_error_firstn'; exact Lj).
    rewrite (nth_error_nth' L 0), (nth_error_nth' _ 0) in X by (rewrite ?Lf; lia). congruence. }
  rewrite Ec. cbn [bind].
  pose proof (list_sum_split L (sl_start sl)) as Sp.
  assert (Ln : c_steps c + 1 - sl_start sl = length (skipn (sl_start sl) L)) by (rewrite skipn_length; lia).
  rewrite Ln.
  rewrite (cflush_loop_eq offs (c_data c) (skipn (sl_start sl) L) s (list_sum (firstn (sl_start sl) L)) (sl_start sl) (skipn (list_sum (firstn (sl_start sl) L)) (sl_data sl))).
  2:{ intros j Lj. rewrite skipn_length in Lj. rewrite Cell by lia. do 2 f_equal.
      assert (X : nth_error (skipn (sl_start sl) L) j = nth_error L (sl_start sl + j)) by apply nth_error_skipn'.
      rewrite (nth_error_nth' L 0), (nth_error_nth' _ 0) in X by (rewrite ?skipn_length; lia). congruence. }
  2:{ rewrite skipn_length. lia. }
  2:{ rewrite skipn_length. lia. }
  2:{ rewrite skipn_length. rewrite <- f_data0 at 2. rewrite skipn_firstn_comm. reflexivity. }
  destruct (flush_loop s (sl_start sl) (skipn (sl_start sl) L) _) as [[r s1]| | | |] eqn:El; cbn [bind]; try reflexivity; try exact Logic.I.
  destruct r as [j|]; eexists _, s1; (split; [reflexivity|split; [reflexivity|]]);
    constructor; cbn [c_data c_size c_len c_off c_offs c_olen c_steps c_start c_pos c_index sl_data sl_off sl_offsets sl_start sl_pos sl_index set_slab st_slab]; auto; try lia.
  - unfold offs. rewrite firstn_app, firstn_length. replace (c_steps c - Nat.min (c_steps c) (length (c_offs c))) with 0 by lia.
    rewrite firstn_O, app_nil_r, firstn_firstn, Nat.min_id. exact f_offs0.
  - apply flush_loop_index in El. rewrite skipn_length in El. lia.
  - cbn. lia.
Qed.

Lemma fits_init pos index : (index < 4294967296)%N -> fits MEM (cslab_init pos index) (mkslab [] 0 [] 0 pos index).
Proof. intros L. constructor; cbn; auto; try lia. Qed.

Hypothesis roomy : (3 * (MEM + MAX_FILE_SIZE) < W)%N.
Lemma write_ok c sl data sl' : fits MEM c sl -> slab_write sl data = Ok sl' ->
  (exists c', cslab_write W MEM fb fo c data = Ok c' /\ fits MEM c' sl') \/
  (cslab_write W MEM fb fo c data = Abort /\
    ((2 * MEM < 3 * blen (sl_data sl'))%N \/ (MEM < 8 * (N.of_nat (length (sl_offsets sl')) + 2))%N)).
Proof.
  intros F E. assert (L : (blen data <= MAX_FILE_SIZE)%N).
  { clear - E. unfold slab_write, check in E. destruct (_ <=? _)%N eqn:Q; [lia|discriminate E]. }
  assert (W1 : (3 * c_size c < W)%N) by (destruct F; lia).
  assert (W2 : (3 * (c_len c + blen data) < W)%N) by (destruct F; unfold blen in *; lia).
  destruct (cslab_write_ok c sl data sl' F ltac:(lia) (fun _ => conj W1 W2) E) as [(c' & A & B & _)|[X Y]]; [left; eauto|right]. split; [exact X|]. destruct Y as [[_ Y]|Y]; auto.
Qed.

(** Any use of the buffer: the blocks agree with the lists, or the program has stopped because
    too much was pending for the memory there is. *)
Definition scarce (sl : slab) : Prop := (2 * MEM < 3 * blen (sl_data sl))%N \/ (MEM < 8 * (N.of_nat (length (sl_offsets sl)) + 2))%N.
Lemma crun_ok us : forall s s' c, used s us s' -> fits MEM c (st_slab s) ->
  (exists c', crun W MEM fb fo us c = Ok c' /\ fits MEM c' (st_slab s')) \/
  (crun W MEM fb fo us c = Abort /\ exists us1 us2 s1, us = us1 ++ us2 /\ used s us1 s1 /\ scarce (st_slab s1)).
Proof.
  intros s s' c U. revert c. induction U as [s|s data sl us s2 E U IH|s b s1 us s2 Nn E U IH|s s1 us s2 I U IH]; intros c F; cbn [crun].
  - left. exists c. auto.
  - destruct (write_ok c (st_slab s) data sl F E) as [(c1 & -> & F1)|[-> X]]; cbn [bind].
    + destruct (IH c1 F1) as [Y|(Y & u1 & u2 & s3 & -> & U3 & Z)]; [left; exact Y|right]. split; [exact Y|].
      exists (UWrite data :: u1), u2, s3. split; [reflexivity|]. split; [econstructor; eassumption|exact Z].
    + right. split; [reflexivity|]. exists [UWrite data], us, (set_slab s sl). split; [reflexivity|]. split; [econstructor; [exact E|constructor]|exact X].
  - pose proof (cflush_ok c s F Nn) as X. rewrite E in X. destruct X as (c1 & s3 & -> & _ & F1). cbn [bind fst snd].
    destruct (IH c1 F1) as [Y|(Y & u1 & u2 & s4 & -> & U3 & Z)]; [left; exact Y|right]. split; [exact Y|].
    exists (UFlush s :: u1), u2, s4. split; [reflexivity|]. split; [econstructor; eassumption|exact Z].
  - pose proof I as I0. destruct I as (I & _). assert (F' : fits MEM c (st_slab s1)) by (rewrite I; exact F).
    destruct (IH c F') as [Y|(Y & u1 & u2 & s4 & -> & U3 & Z)]; [left; exact Y|right]. split; [exact Y|].
    exists u1, u2, s4. split; [reflexivity|]. split; [|exact Z]. eapply us_idle; [exact I0|exact U3].
Qed.
End S.

(** ** Every call uses the buffer in this way *)
Definition uses (s s' : store) : Prop := exists us, used s us s'.
Lemma idles_refl s s' : st_slab s' = st_slab s -> st_fs s' = st_fs s -> st_log s' = st_log s -> idles s s'.
Proof. repeat split; assumption. Qed.
Lemma uses_refl s s' : idles s s' -> uses s s'.
Proof. intros E. exists []. eapply us_idle; [exact E|constructor]. Qed.
Lemma used_app a us b : used a us b -> forall vs c, used b vs c -> used a (us ++ vs) c.
Proof. induction 1; intros vs c U; cbn [app]; [exact U|econstructor; eauto|econstructor; eauto|eapply us_idle; eauto]. Qed.
Lemma uses_trans a b c : uses a b -> uses b c -> uses a c.
Proof. intros (u & U) (v & V). exists (u ++ v). eapply used_app; eassumption. Qed.
Lemma uses_write s d sl : slab_write (st_slab s) d = Ok sl -> uses s (set_slab s sl).
Proof. intros E. exists [UWrite d]. econstructor; [exact E|constructor]. Qed.
Lemma uses_flush s b s' : sl_data (st_slab s) <> [] -> store_flush s = Ok (b, s') -> uses s s'.
Proof. intros N E. exists [UFlush s]. econstructor; [exact N|exact E|constructor]. Qed.
Lemma full_some s : needs_flush s = true -> sl_data (st_slab s) <> [].
Proof. unfold needs_flush, WRITE_BUFFER, blen. intros E X. rewrite X in E. cbn [length] in E. lia. Qed.

Section U.
Variable H : bytes -> bytes.
Variable C : bytes -> bytes -> bytes.
Hypothesis C_len : forall k m, length (C k m) = 20.

Lemma write_node_uses s n m s' : write_node s n = Ok (m, s') -> uses s s'.
Proof.
  unfold write_node. destruct (node_write n) as [raw| | | |]; try discriminate. cbn [bind].
  destruct n as [|h w p l r|h w k v vp|h w]; try discriminate; destruct w as [w|]; try discriminate;
    destruct (slab_write (st_slab s) raw) as [sl| | | |] eqn:E1; try discriminate; cbn [bind]; intros E; apply Ok_inj in E; injection E as <- <-; exact (uses_write _ _ _ E1).
Qed.
Lemma write_value_uses s n m s' : write_value s n = Ok (m, s') -> uses s s'.
Proof.
  unfold write_value. destruct n as [|h w p l r|h w k [v|] [vp|]|h w]; try discriminate;
    destruct (slab_write (st_slab s) v) as [sl| | | |] eqn:E1; try discriminate; cbn [bind]; intros E; apply Ok_inj in E; injection E as <- <-; exact (uses_write _ _ _ E1).
Qed.
Lemma slab_write_data sl d sl' : slab_write sl d = Ok sl' -> sl_data sl' = sl_data sl ++ d.
Proof. unfold slab_write, check. destruct (_ <=? _)%N; [|discriminate]. intros E. apply Ok_inj in E. rewrite <- E. cbn [sl_data]. destruct (_ <? _)%N; reflexivity. Qed.
Lemma write_meta_uses s n m s' : write_meta C s n = Ok (m, s') -> uses s s' /\ sl_data (st_slab s') <> [].
Proof.
  unfold write_meta. destruct (written n) as [w|]; [|discriminate].
  destruct (node_to_hash n) as [rn| | | |]; try discriminate. cbn [bind].
  set (P := if (sl_pos (st_slab s) mod 38 =? 0)%N then Ok (st_slab s) else _).
  assert (HP : forall sl, P = Ok sl -> uses s (set_slab s sl)).
  { intros sl. unfold P. destruct (_ =? 0)%N; intros E; [apply Ok_inj in E; subst sl; apply uses_refl; repeat split|exact (uses_write _ _ _ E)]. }
  clearbody P. destruct P as [sl| | | |]; try discriminate. cbn [bind]. specialize (HP sl eq_refl).
  set (mw := meta_write C (st_key s) _). assert (Lm : mw <> []). { unfold mw, meta_write, write32. intros X. apply (f_equal (@length byte)) in X. rewrite !app_length in X. cbn [length] in X. rewrite C_len in X. lia. }
  clearbody mw. destruct (slab_write sl mw) as [sl2| | | |] eqn:E2; try discriminate. cbn [bind]. intros E. apply Ok_inj in E. injection E as <- <-. split.
  - eapply uses_trans; [exact HP|]. pose proof (uses_write (set_slab s sl) mw sl2 E2) as X. exact X.
  - cbn [set_slab st_slab]. rewrite (slab_write_data _ _ _ E2). intros X. apply app_eq_nil in X. destruct X as [_ X]. exact (Lm X).
Qed.
Lemma finish_uses (n : node) s r s' :
  (let! (n, s, ok) := (if needs_flush s then let! (ok, s) := store_flush s in Ok (n, s, ok) else Ok (n, s, true)) in
   if negb ok then Ok (None, s) else
   let! (_, n) := node_hash H n in let! out := node_to_hash n in Ok (Some out, s)) = Ok (r, s') -> uses s s'.
Proof.
  intros E.
  assert (X : exists m t ok, (if needs_flush s then let! (ok, s) := store_flush s in Ok (n, s, ok) else Ok (n, s, true)) = Ok (m, t, ok) /\ uses s t).
  { destruct (needs_flush s) eqn:Nf; [|eexists _, _, _; split; [reflexivity|]; apply uses_refl; repeat split].
    destruct (store_flush s) as [[ok t]| | | |] eqn:Ef; cbn [bind] in *; try discriminate E.
    eexists _, _, _. split; [reflexivity|]. eapply uses_flush; [apply full_some; assumption|exact Ef]. }
  destruct X as (m & t & ok & Em & G). rewrite Em in E. cbn [bind] in E. destruct ok; cbn [negb] in E.
  - destruct (node_hash H m) as [[h m2]| | | |]; cbn [bind] in E; try discriminate E.
    destruct (node_to_hash m2) as [o| | | |]; cbn [bind] in E; try discriminate E. apply Ok_inj in E. injection E as <- <-. exact G.
  - apply Ok_inj in E. injection E as <- <-. exact G.
Qed.
Lemma tree_write_uses n : forall s r s', tree_write H s n = Ok (r, s') -> uses s s'.
Proof.
  induction n as [|h w p l IHl r IHr|h w k v vp|h w]; intros s r0 s'; cbn [tree_write].
  - intros E. apply Ok_inj in E. injection E as <- <-. apply uses_refl. repeat split.
  - destruct (tree_write H s l) as [[l' s1]| | | |] eqn:El; cbn [bind]; try discriminate. pose proof (IHl _ _ _ El) as G1.
    destruct l' as [l'|]. 2:{ intros E. apply Ok_inj in E. injection E as <- <-. exact G1. }
    destruct (tree_write H s1 r) as [[r' s2]| | | |] eqn:Er; cbn [bind]; try discriminate. pose proof (uses_trans _ _ _ G1 (IHr _ _ _ Er)) as G2.
    destruct r' as [r'|]. 2:{ intros E. apply Ok_inj in E. injection E as <- <-. exact G2. }
    cbv zeta. destruct w as [w|].
    + cbn [bind negb]. intros E. destruct (node_hash H _) as [[h2 m2]| | | |]; cbn [bind] in E; try discriminate E.
      destruct (node_to_hash m2) as [o| | | |]; cbn [bind] in E; try discriminate E. apply Ok_inj in E. injection E as <- <-. exact G2.
    + destruct (write_node s2 _) as [[n1 s3]| | | |] eqn:Ew; cbn [bind]; try discriminate. intros E.
      apply finish_uses in E. eapply uses_trans; [exact G2|]. eapply uses_trans; [apply (write_node_uses _ _ _ _ Ew)|exact E].
  - destruct w as [w|].
    + cbn [bind negb]. intros E. destruct (node_hash H _) as [[h2 m2]| | | |]; cbn [bind] in E; try discriminate E.
      destruct (node_to_hash m2) as [o| | | |]; cbn [bind] in E; try discriminate E. apply Ok_inj in E. injection E as <- <-. apply uses_refl. repeat split.
    + destruct (write_value s _) as [[n1 s1]| | | |] eqn:Ev; cbn [bind]; try discriminate.
      destruct (write_node s1 n1) as [[n2 s2]| | | |] eqn:Ew; cbn [bind]; try discriminate. intros E.
      apply finish_uses in E. eapply uses_trans; [apply (write_value_uses _ _ _ _ Ev)|].
      eapply uses_trans; [apply (write_node_uses _ _ _ _ Ew)|exact E].
  - intros E. apply Ok_inj in E. injection E as <- <-. apply uses_refl. repeat split.
Qed.
Lemma tree_commit_uses s n r s' : tree_commit H C s n = Ok (r, s') -> uses s s'.
Proof.
  unfold tree_commit. destruct (tree_write H s n) as [[o s1]| | | |] eqn:Et; cbn [bind]; try discriminate.
  pose proof (tree_write_uses _ _ _ _ Et) as G1. destruct o as [root|]. 2:{ intros E. apply Ok_inj in E. injection E as <- <-. exact G1. }
  unfold store_commit. destruct (write_meta C s1 root) as [[mt s2]| | | |] eqn:Em; cbn [bind]; try discriminate.
  destruct (write_meta_uses _ _ _ _ Em) as [L2 Ns]. destruct (store_flush s2) as [[ok s3]| | | |] eqn:Ef; cbn [bind]; try discriminate.
  assert (G3 : uses s s3) by (eapply uses_trans; [exact G1|]; eapply uses_trans; [exact L2|eapply uses_flush; [exact Ns|exact Ef]]).
  destruct ok; cbn [negb].
  - destruct (m_node mt); try (destruct (cache_insert _ _) as [cc| | | |]); cbn [bind]; try discriminate;
      intros E; apply Ok_inj in E; injection E as <- <-; (eapply uses_trans; [exact G3|]; apply uses_refl; repeat split).
  - cbn [bind]. intros E. apply Ok_inj in E. injection E as <- <-. exact G3.
Qed.
Lemma read_root_idles s p r s' : read_root H s p = Ok (r, s') -> idles s s'.
Proof.
  unfold read_root. destruct (pidx p =? 0)%N. { intros E. apply Ok_inj in E. injection E as <- <-. repeat split. }
  destruct (read_node (st_rd s) p) as [[n|]| | | |]; cbn [bind]; try discriminate.
  2:{ intros E. apply Ok_inj in E. injection E as <- <-. repeat split. }
  match goal with |- context [let! n := ?x in _] => destruct x as [[m|]| | | |] end; cbn [bind]; try discriminate.
  2:{ intros E. apply Ok_inj in E. injection E as <- <-. repeat split. }
  destruct (node_hash H m) as [[h m2]| | | |]; cbn [bind]; try discriminate.
  destruct (node_to_hash m2) as [o| | | |]; cbn [bind]; try discriminate.
  destruct (cache_insert (st_cache s) o) as [cc| | | |]; cbn [bind]; try discriminate.
  intros E. apply Ok_inj in E. injection E as <- <-. repeat split.
Qed.
Lemma history_loop_idles fuel : forall s h r s', history_loop H C fuel s h = Ok (r, s') -> idles s s'.
Proof.
  induction fuel as [|fuel IH]; intros s h r s'; cbn [history_loop]; [discriminate|].
  destruct (pidx _ =? 0)%N. { intros E. apply Ok_inj in E. injection E as <- <-. repeat split. }
  destruct (read_meta C s _) as [[m|]| | | |]; cbn [bind]; try discriminate.
  2:{ intros E. apply Ok_inj in E. injection E as <- <-. repeat split. }
  destruct (read_root H s (m_root m)) as [[o s1]| | | |] eqn:Er; cbn [bind]; try discriminate. pose proof (read_root_idles _ _ _ _ Er) as L1.
  destruct o as [n|]. 2:{ intros E. apply Ok_inj in E. injection E as <- <-. exact L1. }
  cbv zeta. destruct (bytes_eqb _ h). { intros E. apply Ok_inj in E. injection E as <- <-. exact L1. }
  intros E. destruct (IH _ _ _ _ E) as (X1 & X2 & X3). destruct L1 as (Y1 & Y2 & Y3). repeat split; [rewrite X1; exact Y1|rewrite X2; exact Y2|rewrite X3; exact Y3].
Qed.
Lemma read_history_idles s h r s' : read_history H C s h = Ok (r, s') -> idles s s'.
Proof.
  unfold read_history. destruct (bytes_eqb h zero_hash). { intros E. apply Ok_inj in E. injection E as <- <-. repeat split. }
  destruct (bytes_eqb h _). { intros E. apply Ok_inj in E. injection E as <- <-. repeat split. }
  destruct (cache_lookup _ h). { intros E. apply Ok_inj in E. injection E as <- <-. repeat split. }
  apply history_loop_idles.
Qed.
Lemma tx_create_idles d ro r d' : tx_create H C d ro = Ok (r, d') -> idles (d_store d) (d_store d').
Proof.
  unfold tx_create. destruct ro as [h|].
  - destruct (read_history H C (d_store d) h) as [[o s]| | | |] eqn:Er; cbn [bind]; try discriminate. intros E. apply Ok_inj in E. injection E as <- <-.
    exact (read_history_idles _ _ _ _ Er).
  - destruct (d_revert d). 2:{ intros E. apply Ok_inj in E. injection E as <- <-. repeat split. }
    destruct (read_history H C (d_store d) _) as [[o s]| | | |] eqn:Er; cbn [bind]; try discriminate. intros E. apply Ok_inj in E. injection E as <- <-.
    exact (read_history_idles _ _ _ _ Er).
Qed.
Lemma tx_commit_uses d n a d' t : tx_commit H C d n = Ok (a, d', t) -> uses (d_store d) (d_store d').
Proof.
  unfold tx_commit. destruct (tree_commit H C (d_store d) n) as [[o s]| | | |] eqn:Et; cbn [bind]; try discriminate.
  pose proof (tree_commit_uses _ _ _ _ Et) as G. destruct o; intros E; apply Ok_inj in E; injection E as <- <- <-; exact G.
Qed.
Lemma db_write_uses op d a d' : db_write H C op d = Ok (a, d') -> uses (d_store d) (d_store d').
Proof.
  unfold db_write. destruct (tx_create H C d None) as [[o d1]| | | |] eqn:Et; cbn [bind]; try discriminate.
  pose proof (tx_create_idles _ _ _ _ Et) as L1. destruct o as [n|]. 2:{ intros E. apply Ok_inj in E. injection E as <- <-. apply uses_refl, L1. }
  destruct (op d1 n) as [[b m]| | | |]; cbn [bind]; try discriminate.
  destruct b; try (intros E; apply Ok_inj in E; injection E as <- <-; apply uses_refl, L1).
  destruct (tx_commit H C d1 m) as [[[b d2] t]| | | |] eqn:Ec; cbn [bind]; try discriminate.
  destruct t; try discriminate. intros E. apply Ok_inj in E. injection E as <- <-.
  eapply uses_trans; [apply uses_refl, L1|eapply tx_commit_uses, Ec].
Qed.

Lemma db_inject_idles d h a d' : db_inject H C d h = Ok (a, d') -> idles (d_store d) (d_store d').
Proof.
  unfold db_inject. destruct (read_history H C (d_store d) h) as [[o s]| | | |] eqn:Er; cbn [bind]; try discriminate.
  pose proof (read_history_idles _ _ _ _ Er) as L. destruct o; intros E; try discriminate E; apply Ok_inj in E; injection E as <- <-; exact L.
Qed.
Lemma tx_inject_idles d n h a d' m : tx_inject H C d n h = Ok (a, d', m) -> idles (d_store d) (d_store d').
Proof.
  unfold tx_inject. destruct (read_history H C (d_store d) h) as [[o s]| | | |] eqn:Er; cbn [bind]; try discriminate.
  pose proof (read_history_idles _ _ _ _ Er) as L. destruct o; intros E; try discriminate E; apply Ok_inj in E; injection E as <- <- <-; exact L.
Qed.
Lemma db_read_idles f d ro a d' : db_read H C f d ro = Ok (a, d') -> idles (d_store d) (d_store d').
Proof.
  unfold db_read. destruct (tx_create H C d ro) as [[o d1]| | | |] eqn:Et; cbn [bind]; try discriminate.
  pose proof (tx_create_idles _ _ _ _ Et) as L. destruct o as [n|].
  - destruct (f d1 n) as [b| | | |]; cbn [bind]; try discriminate. intros E. apply Ok_inj in E. injection E as <- <-. exact L.
  - intros E. apply Ok_inj in E. injection E as <- <-. exact L.
Qed.

(** Any call on any database, whatever fails. *)
Local Opaque TREE_FUEL.
Lemma step_uses w c a w1 : c <> CReopen -> step H C w c = Ok (a, w1) ->
  exists d d1, w_db w = Some d /\ w_db w1 = Some d1 /\ uses (d_store d) (d_store d1).
Proof.
  intros Nc. unfold step. destruct (w_db w) as [d|] eqn:Ew; [|discriminate]. intros E. exists d.
  assert (R : uses (d_store d) (d_store d)) by (apply uses_refl; repeat split).
  destruct c; try congruence;
    repeat match type of E with
    | (let! _ := live ?w ?i in _) = _ => destruct (live w i) as [n| | | |]; rewrite ?bind_ok in E; try discriminate E
    end.
  - apply Ok_inj in E. injection E as <- <-. exists d. auto.
  - destruct (db_inject H C d h) as [[b d1]| | | |] eqn:Eb; rewrite ?bind_ok in E; try discriminate E. apply Ok_inj in E. injection E as <- <-.
    exists d1. split; [reflexivity|]. split; [reflexivity|]. eapply uses_refl, db_inject_idles, Eb.
  - destruct (db_read H C _ d ro) as [[b d1]| | | |] eqn:Eb; rewrite ?bind_ok in E; try discriminate E. apply Ok_inj in E. injection E as <- <-.
    exists d1. split; [reflexivity|]. split; [reflexivity|]. eapply uses_refl, db_read_idles, Eb.
  - destruct (db_read H C _ d ro) as [[b d1]| | | |] eqn:Eb; rewrite ?bind_ok in E; try discriminate E. apply Ok_inj in E. injection E as <- <-.
    exists d1. split; [reflexivity|]. split; [reflexivity|]. eapply uses_refl, db_read_idles, Eb.
  - destruct (db_write H C _ d) as [[b d1]| | | |] eqn:Eb; rewrite ?bind_ok in E; try discriminate E. apply Ok_inj in E. injection E as <- <-.
    exists d1. split; [reflexivity|]. split; [reflexivity|]. eapply db_write_uses, Eb.
  - destruct (db_write H C _ d) as [[b d1]| | | |] eqn:Eb; rewrite ?bind_ok in E; try discriminate E. apply Ok_inj in E. injection E as <- <-.
    exists d1. split; [reflexivity|]. split; [reflexivity|]. eapply db_write_uses, Eb.
  - destruct (db_read H C _ d ro) as [[b d1]| | | |] eqn:Eb; rewrite ?bind_ok in E; try discriminate E. apply Ok_inj in E. injection E as <- <-.
    exists d1. split; [reflexivity|]. split; [reflexivity|]. eapply uses_refl, db_read_idles, Eb.
  - destruct (tx_create H C d ro) as [[b d1]| | | |] eqn:Eb; rewrite ?bind_ok in E; try discriminate E.
    destruct b; apply Ok_inj in E; injection E as <- <-; exists d1; (split; [reflexivity|]; split; [reflexivity|]; eapply uses_refl, tx_create_idles, Eb).
  - apply Ok_inj in E. injection E as <- <-. exists d. auto.
  - apply Ok_inj in E. injection E as <- <-. exists d. auto.
  - destruct (tx_root H n) as [[b m]| | | |]; rewrite ?bind_ok in E; try discriminate E. apply Ok_inj in E. injection E as <- <-. exists d. auto.
  - destruct (tx_inject H C d n h) as [[[b d1] m]| | | |] eqn:Eb; rewrite ?bind_ok in E; try discriminate E. apply Ok_inj in E. injection E as <- <-.
    exists d1. split; [reflexivity|]. split; [reflexivity|]. eapply uses_refl, tx_inject_idles, Eb.
  - destruct (tx_get d n k) as [b| | | |]; rewrite ?bind_ok in E; try discriminate E. apply Ok_inj in E. injection E as <- <-. exists d. auto.
  - destruct (tx_has d n k) as [b| | | |]; rewrite ?bind_ok in E; try discriminate E. apply Ok_inj in E. injection E as <- <-. exists d. auto.
  - destruct (tx_insert H d n k v) as [[b m]| | | |]; rewrite ?bind_ok in E; try discriminate E. apply Ok_inj in E. injection E as <- <-. exists d. auto.
  - destruct (tx_remove d n k) as [[b m]| | | |]; rewrite ?bind_ok in E; try discriminate E. apply Ok_inj in E. injection E as <- <-. exists d. auto.
  - destruct (tx_prove H d n k) as [[b m]| | | |]; rewrite ?bind_ok in E; try discriminate E. apply Ok_inj in E. injection E as <- <-. exists d. auto.
  - destruct (tx_commit H C d n) as [[[b d1] t]| | | |] eqn:Eb; rewrite ?bind_ok in E; try discriminate E. apply Ok_inj in E. injection E as <- <-.
    exists d1. split; [reflexivity|]. split; [reflexivity|]. eapply tx_commit_uses, Eb.
Qed.
End U.
