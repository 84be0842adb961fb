(** * blake2b.c computes the function of RFC 7693 (Rfc7693.v). *)
From Verif Require Export Blake2b.
From Verif Require Rfc7693.
From Coq Require Import ZifyBool ZifyNat ZifyN.
Local Open Scope N_scope.

Lemma W_eq : Rfc7693.W = w64. Proof. reflexivity. Qed.
Lemma iv_eq i : (i < 8)%nat -> nth i iv 0 = Rfc7693.IV i.
Proof. intros L. do 8 (destruct i as [|i]; [vm_compute; reflexivity|]). lia. Qed.
Lemma iv_lt i : Rfc7693.IV i < w64.
Proof. unfold Rfc7693.IV. rewrite <- W_eq. apply N.mod_lt. discriminate. Qed.
Lemma sigma_eq r : (r < 12)%nat -> nth r sigma [] = Rfc7693.SIGMA r.
Proof. intros L. do 12 (destruct r as [|r]; [reflexivity|]). lia. Qed.

Lemma rotr_eq c w : c <= 64 -> w < w64 -> rotr64 w c = Rfc7693.ROTR c w.
Proof.
  intros Lc Lw. unfold rotr64, Rfc7693.ROTR. rewrite N.shiftr_div_pow2, N.shiftl_mul_pow2.
  assert (E : w64 = 2 ^ c * 2 ^ (64 - c)) by (rewrite <- N.pow_add_r; replace (c + (64 - c)) with 64 by lia; reflexivity).
  rewrite E at 1. rewrite N.mul_mod_distr_r by (apply N.pow_nonzero; lia).
  assert (Q : w / 2 ^ c < 2 ^ (64 - c)) by (apply N.div_lt_upper_bound; [apply N.pow_nonzero; lia|rewrite <- E; exact Lw]).
  symmetry. rewrite N.add_nocarry_lxor; [apply N.lxor_lor|].
  - set (q := w / 2 ^ c) in *. set (r := w mod 2 ^ c). clearbody q r. clear - Q.
    apply N.bits_inj. intros i. rewrite N.land_spec, N.bits_0. destruct (N.lt_ge_cases i (64 - c)) as [L|L].
    + rewrite <- (N.shiftl_mul_pow2 r), N.shiftl_spec_low by exact L. apply andb_false_r.
    + rewrite <- (N.mod_small q (2 ^ (64 - c))) by exact Q. rewrite N.mod_pow2_bits_high by exact L. reflexivity.
  - set (q := w / 2 ^ c) in *. set (r := w mod 2 ^ c). clearbody q r. clear - Q.
    apply N.bits_inj. intros i. rewrite N.land_spec, N.bits_0. destruct (N.lt_ge_cases i (64 - c)) as [L|L].
    + rewrite <- (N.shiftl_mul_pow2 r), N.shiftl_spec_low by exact L. apply andb_false_r.
    + rewrite <- (N.mod_small q (2 ^ (64 - c))) by exact Q. rewrite N.mod_pow2_bits_high by exact L. reflexivity.
Qed.
Lemma rotr_lt c w : c <= 64 -> w < w64 -> Rfc7693.ROTR c w < w64.
Proof.
  intros Lc Lw. unfold Rfc7693.ROTR.
  assert (E : w64 = 2 ^ c * 2 ^ (64 - c)) by (rewrite <- N.pow_add_r; replace (c + (64 - c)) with 64 by lia; reflexivity).
  assert (P : 2 ^ c <> 0) by (apply N.pow_nonzero; lia).
  assert (Q : w / 2 ^ c < 2 ^ (64 - c)) by (apply N.div_lt_upper_bound; [exact P|rewrite <- E; exact Lw]).
  pose proof (N.mod_lt w (2 ^ c) P) as M. rewrite E. generalize dependent (w / 2 ^ c). generalize dependent (w mod 2 ^ c).
  generalize dependent (2 ^ c). generalize dependent (2 ^ (64 - c)). intros. nia.
Qed.
Lemma lxor_lt a b : a < w64 -> b < w64 -> N.lxor a b < w64.
Proof.
  intros A B. change w64 with (2 ^ 64) in *.
  assert (E : N.lxor a b = N.lxor a b mod 2 ^ 64); [|rewrite E; apply N.mod_lt; discriminate].
  apply N.bits_inj. intros i. destruct (N.lt_ge_cases i 64) as [L|L].
  - rewrite N.mod_pow2_bits_low by exact L. reflexivity.
  - rewrite N.mod_pow2_bits_high, N.lxor_spec by exact L.
    rewrite <- (N.mod_small a (2 ^ 64)), <- (N.mod_small b (2 ^ 64)) by assumption. rewrite !N.mod_pow2_bits_high by exact L. reflexivity.
Qed.

(** ** Vectors *)
Definition rel (n : nat) (l : list N) (v : Rfc7693.vector) : Prop :=
  length l = n /\ forall i, (i < n)%nat -> nth i l 0 = v i /\ v i < w64.
Lemma nth_upd (l : list N) a x j : (a < length l)%nat -> nth j (upd l a x) 0 = if Nat.eqb j a then x else nth j l 0.
Proof.
  revert a j. induction l as [|y l IH]; intros a j L; [cbn in L; lia|]. destruct a as [|a], j as [|j]; cbn [upd nth Nat.eqb]; try reflexivity.
  apply IH. cbn [length] in L. lia.
Qed.
Lemma upd_len (l : list N) a x : length (upd l a x) = length l.
Proof. revert a. induction l as [|y l IH]; intros a; [destruct a; reflexivity|]. destruct a; cbn [upd length]; auto. Qed.
Lemma rel_upd n l v a x : rel n l v -> (a < n)%nat -> x < w64 -> rel n (upd l a x) (Rfc7693.set v a x).
Proof.
  intros [L R] La Lx. split; [now rewrite upd_len|]. intros i Li. rewrite nth_upd by lia. unfold Rfc7693.set.
  destruct (Nat.eqb i a); [auto|apply R, Li].
Qed.
Lemma add64_eq a b : add64 a b = (a + b) mod Rfc7693.W. Proof. reflexivity. Qed.
Lemma add3 a b x : add64 (add64 a b) x = (a + b + x) mod Rfc7693.W.
Proof. unfold add64. rewrite N.add_mod_idemp_l by discriminate. reflexivity. Qed.
Lemma mod_lt64 x : x mod Rfc7693.W < w64. Proof. apply N.mod_lt. discriminate. Qed.

Lemma G_eq m r i a b c d l v x y :
  rel 16 l v -> (a < 16)%nat -> (b < 16)%nat -> (c < 16)%nat -> (d < 16)%nat ->
  nth (nth (2 * i + 0) (nth r sigma []) 0%nat) m 0 = x -> nth (nth (2 * i + 1) (nth r sigma []) 0%nat) m 0 = y ->
  rel 16 (G m r i a b c d l) (Rfc7693.Gmix v a b c d x y).
Proof.
  intros R0 La Lb Lc Ld Ex Ey. unfold G, Rfc7693.Gmix. cbv zeta. rewrite Ex, Ey. clear Ex Ey.
  assert (A : forall l v p q z, rel 16 l v -> (p < 16)%nat -> (q < 16)%nat ->
     rel 16 (upd l p (add64 (add64 (nth p l 0) (nth q l 0)) z)) (Rfc7693.set v p ((v p + v q + z) mod Rfc7693.W))).
  { intros l1 v1 p q z R1 Lp Lq. rewrite add3, (proj1 (proj2 R1 p Lp)), (proj1 (proj2 R1 q Lq)).
    apply rel_upd; [exact R1|exact Lp|apply mod_lt64]. }
  assert (B : forall l v p q, rel 16 l v -> (p < 16)%nat -> (q < 16)%nat ->
     rel 16 (upd l p (add64 (nth p l 0) (nth q l 0))) (Rfc7693.set v p ((v p + v q) mod Rfc7693.W))).
  { intros l1 v1 p q R1 Lp Lq. rewrite add64_eq, (proj1 (proj2 R1 p Lp)), (proj1 (proj2 R1 q Lq)).
    apply rel_upd; [exact R1|exact Lp|apply mod_lt64]. }
  assert (X : forall l v p q k, rel 16 l v -> (p < 16)%nat -> (q < 16)%nat -> k <= 64 ->
     rel 16 (upd l p (rotr64 (N.lxor (nth p l 0) (nth q l 0)) k)) (Rfc7693.set v p (Rfc7693.ROTR k (N.lxor (v p) (v q))))).
  { intros l1 v1 p q k R1 Lp Lq Lk. rewrite (proj1 (proj2 R1 p Lp)), (proj1 (proj2 R1 q Lq)).
    assert (Lx : N.lxor (v1 p) (v1 q) < w64) by (apply lxor_lt; apply R1; assumption).
    rewrite rotr_eq by assumption. apply rel_upd; [exact R1|exact Lp|apply rotr_lt; assumption]. }
  pose proof (A _ _ a b x R0 La Lb) as R1. revert R1.
  generalize (upd l a (add64 (add64 (nth a l 0) (nth b l 0)) x)), (Rfc7693.set v a ((v a + v b + x) mod Rfc7693.W)). clear l v R0. intros l v R0.
  pose proof (X _ _ d a 32 R0 Ld La ltac:(lia)) as R1. revert R1.
  generalize (upd l d (rotr64 (N.lxor (nth d l 0) (nth a l 0)) 32)), (Rfc7693.set v d (Rfc7693.ROTR 32 (N.lxor (v d) (v a)))). clear l v R0. intros l v R0.
  pose proof (B _ _ c d R0 Lc Ld) as R1. revert R1.
  generalize (upd l c (add64 (nth c l 0) (nth d l 0))), (Rfc7693.set v c ((v c + v d) mod Rfc7693.W)). clear l v R0. intros l v R0.
  pose proof (X _ _ b c 24 R0 Lb Lc ltac:(lia)) as R1. revert R1.
  generalize (upd l b (rotr64 (N.lxor (nth b l 0) (nth c l 0)) 24)), (Rfc7693.set v b (Rfc7693.ROTR 24 (N.lxor (v b) (v c)))). clear l v R0. intros l v R0.
  pose proof (A _ _ a b y R0 La Lb) as R1. revert R1.
  generalize (upd l a (add64 (add64 (nth a l 0) (nth b l 0)) y)), (Rfc7693.set v a ((v a + v b + y) mod Rfc7693.W)). clear l v R0. intros l v R0.
  pose proof (X _ _ d a 16 R0 Ld La ltac:(lia)) as R1. revert R1.
  generalize (upd l d (rotr64 (N.lxor (nth d l 0) (nth a l 0)) 16)), (Rfc7693.set v d (Rfc7693.ROTR 16 (N.lxor (v d) (v a)))). clear l v R0. intros l v R0.
  pose proof (B _ _ c d R0 Lc Ld) as R1. revert R1.
  generalize (upd l c (add64 (nth c l 0) (nth d l 0))), (Rfc7693.set v c ((v c + v d) mod Rfc7693.W)). clear l v R0. intros l v R0.
  apply (X _ _ b c 63 R0 Lb Lc). lia.
Qed.

Lemma ROUND_eq m mv l v r : (forall i, (i < 16)%nat -> nth i m 0 = mv i) -> rel 16 l v -> (r < 12)%nat ->
  rel 16 (ROUND m l r) (Rfc7693.Fround mv v r).
Proof.
  intros Em R0 Lr. unfold ROUND, Rfc7693.Fround. cbv zeta.
  assert (S : forall j, (j < 16)%nat -> nth (nth j (nth r sigma []) 0%nat) m 0 = mv (nth j (Rfc7693.SIGMA r) 0%nat)).
  { intros j Lj. rewrite (sigma_eq r Lr). apply Em. do 12 (destruct r as [|r]; [do 16 (destruct j as [|j]; [cbn; lia|]); lia|]). lia. }
  repeat (apply G_eq; [|lia|lia|lia|lia|apply (S _); lia|apply (S _); lia]). exact R0.
Qed.

Lemma word_eq d i : (length d = 128)%nat -> (i < 16)%nat -> read64 (skipn (8 * i) d) = Rfc7693.word d i.
Proof.
  intros L Li. unfold read64, Rfc7693.word, Rfc7693.byte_at.
  assert (E : forall k, (k < 8)%nat -> nth (8 * i + k) d x00 = nth k (skipn (8 * i) d) x00).
  { intros k _. rewrite <- (firstn_skipn (8 * i) d) at 1. rewrite app_nth2; rewrite firstn_length, Nat.min_l by lia; [f_equal; lia|lia]. }
  cbn [seq map fold_right]. rewrite !E by lia. clear E.
  assert (Ls : (8 <= length (skipn (8 * i) d))%nat) by (rewrite skipn_length; lia).
  generalize dependent (skipn (8 * i) d). intros s Ls. do 8 (destruct s as [|? s]; [cbn in Ls; lia|]).
  cbn [firstn read_le nth]. change (N.of_nat 0) with 0. change (N.of_nat 1) with 1. change (N.of_nat 2) with 2. change (N.of_nat 3) with 3.
  change (N.of_nat 4) with 4. change (N.of_nat 5) with 5. change (N.of_nat 6) with 6. change (N.of_nat 7) with 7.
  change (256 ^ 0) with 1. change (256 ^ 1) with 256. change (256 ^ 2) with 65536. change (256 ^ 3) with 16777216.
  change (256 ^ 4) with 4294967296. change (256 ^ 5) with 1099511627776. change (256 ^ 6) with 281474976710656. change (256 ^ 7) with 72057594037927936.
  lia.
Qed.

(** The working vector before the rounds. *)
Lemma start_eq (J : nat -> N) h hv t0 t1 (f : bool) : rel 8 h hv -> (forall j, J j < w64) -> t0 < w64 -> t1 < w64 ->
  rel 16 (firstn 8 h ++ [J 0%nat; J 1%nat; J 2%nat; J 3%nat; N.lxor (J 4%nat) t0; N.lxor (J 5%nat) t1;
                         N.lxor (J 6%nat) (if f then w64 - 1 else 0); J 7%nat])
    (let v : Rfc7693.vector := fun i => if Nat.ltb i 8 then hv i else J (i - 8)%nat in
     let v := Rfc7693.set v 12 (N.lxor (v 12%nat) t0) in
     let v := Rfc7693.set v 13 (N.lxor (v 13%nat) t1) in
     if f then Rfc7693.set v 14 (N.lxor (v 14%nat) 0xFFFFFFFFFFFFFFFF) else v).
Proof.
  intros [Lh Rh] A T0 T1. cbv zeta. split; [rewrite app_length, firstn_length; cbn [length]; lia|]. intros i Li.
  destruct (Nat.lt_ge_cases i 8) as [L8|L8].
  - rewrite app_nth1 by (rewrite firstn_length; lia). rewrite <- (firstn_skipn 8 h) in Rh. specialize (Rh i L8).
    rewrite app_nth1 in Rh by (rewrite firstn_length; lia). rewrite (proj1 Rh). apply proj2 in Rh. unfold Rfc7693.set.
    clear Lh. destruct f; (do 8 (destruct i as [|i]; [split; [reflexivity|exact Rh]|])); lia.
  - rewrite app_nth2 by (rewrite firstn_length; lia). rewrite firstn_length, Nat.min_l by lia. unfold Rfc7693.set.
    clear Lh Rh. do 8 (destruct i as [|i]; [lia|]). clear L8.
    do 8 (destruct i as [|i]; [destruct f; (split; [first [reflexivity|apply N.lxor_0_r]|]); cbn [Nat.sub nth Nat.eqb Nat.ltb Nat.leb]; auto; apply lxor_lt; auto; reflexivity|]). lia.
Qed.

Lemma fold_rel {A B X} (P : A -> B -> Prop) (f : A -> X -> A) (g : B -> X -> B) rs :
  (forall r a b, In r rs -> P a b -> P (f a r) (g b r)) -> forall a b, P a b -> P (fold_left f rs a) (fold_left g rs b).
Proof.
  induction rs as [|r rs IH]; intros S a b R1; [exact R1|]. cbn [fold_left]. apply IH.
  - intros r' a' b' I. apply S. right. exact I.
  - apply S; [left; reflexivity|exact R1].
Qed.

(** The compression function. *)
Theorem F_eq h hv block t f : rel 8 h hv -> length block = 128%nat -> rel 8 (rfc_F h t block f) (Rfc7693.F hv block t f).
Proof.
  intros Rh Lb. unfold rfc_F, compress, Rfc7693.F.
  rewrite (iv_eq 0), (iv_eq 1), (iv_eq 2), (iv_eq 3), (iv_eq 4), (iv_eq 5), (iv_eq 6), (iv_eq 7) by lia.
  assert (T0 : t mod w64 < w64) by (apply N.mod_lt; discriminate). assert (T1 : t / w64 mod w64 < w64) by (apply N.mod_lt; discriminate).
  pose proof (start_eq Rfc7693.IV h hv _ _ f Rh iv_lt T0 T1) as R0.
  rewrite W_eq. generalize dependent Rfc7693.IV. intros J R0. cbv zeta in R0 |- *.
  set (m := map (fun i => read64 (skipn (8 * i) block)) (seq 0 16)).
  assert (Em : forall i, (i < 16)%nat -> nth i m 0 = Rfc7693.word block i).
  { intros i Li. unfold m. rewrite (nth_indep _ 0 (read64 (skipn (8 * 0) block))) by (rewrite map_length, seq_length; exact Li).
    rewrite (map_nth (fun i => read64 (skipn (8 * i) block))), seq_nth by exact Li. apply word_eq; assumption. }
  clearbody m. match type of R0 with rel _ ?a ?b => set (l := a) in *; set (v := b) in * end. clearbody l v.
  assert (Rn : rel 16 (fold_left (ROUND m) (seq 0 12) l) (fold_left (Rfc7693.Fround (Rfc7693.word block)) (seq 0 12) v)).
  { apply (fold_rel (rel 16)); [|exact R0]. intros r l1 v1 Ir R1. apply in_seq in Ir. apply ROUND_eq; [exact Em|exact R1|lia]. }
  generalize dependent (fold_left (ROUND m) (seq 0 12) l). generalize dependent (fold_left (Rfc7693.Fround (Rfc7693.word block)) (seq 0 12) v). intros v2 l2 [_ R2].
  destruct Rh as [_ Rh]. split; [reflexivity|]. intros i Li.
  match goal with |- context [map ?g (seq 0 8)] => rewrite (nth_indep _ 0 (g 0%nat)) by exact Li; rewrite (map_nth g), seq_nth by exact Li end.
  cbn [Nat.add]. destruct (Rh i Li) as [-> ?]. destruct (R2 i ltac:(lia)) as [-> ?]. destruct (R2 (i + 8)%nat ltac:(lia)) as [-> ?].
  split; [reflexivity|]. repeat apply lxor_lt; assumption.
Qed.

(** ** From the streaming loop to the block-wise definition *)
Lemma split_blocks n : forall m : bytes, (length m <= n)%nat -> exists blocks rest,
  m = concat blocks ++ rest /\ Forall (fun x => length x = 128%nat) blocks /\ (length rest <= 128)%nat /\ (blocks <> [] -> rest <> []).
Proof.
  induction n as [|n IH]; intros m L.
  { exists [], m. split; [reflexivity|]. split; [constructor|]. split; [lia|congruence]. }
  destruct (Nat.le_gt_cases (length m) 128) as [G|G].
  { exists [], m. split; [reflexivity|]. split; [constructor|]. split; [lia|congruence]. }
  destruct (IH (skipn 128 m)) as (bs & rest & E & F & Lr & Ne); [rewrite skipn_length; lia|].
  exists (firstn 128 m :: bs), rest. cbn [concat]. rewrite <- app_assoc, <- E, firstn_skipn.
  split; [reflexivity|]. split; [constructor; [rewrite firstn_length; lia|exact F]|]. split; [exact Lr|].
  intros _ Z. subst rest. destruct bs as [|b bs]; [|apply Ne; [discriminate|reflexivity]].
  cbn [concat app] in E. apply (f_equal (@length byte)) in E. rewrite skipn_length in E. cbn [length] in E. lia.
Qed.
Lemma concat_len (bs : list bytes) : Forall (fun x => length x = 128%nat) bs -> length (concat bs) = (128 * length bs)%nat.
Proof. induction 1 as [|b bs E F IH]; [reflexivity|]. cbn [concat]. rewrite app_length, E, IH. cbn [length]. lia. Qed.
Lemma nth_block (bs : list bytes) (rest : bytes) i : Forall (fun x => length x = 128%nat) bs -> (i < length bs)%nat ->
  firstn 128 (skipn (128 * i) (concat bs ++ rest)) = nth i bs [].
Proof.
  intros F L. rewrite <- (firstn_skipn i bs) in F |- * at 1. apply Forall_app in F as [F1 F2].
  rewrite concat_app, <- app_assoc, skipn_app_exact by (rewrite concat_len by exact F1; rewrite firstn_length; lia).
  destruct (skipn i bs) as [|b bs'] eqn:E.
  { apply (f_equal (@length bytes)) in E. rewrite skipn_length in E. cbn [length] in E. lia. }
  inversion F2 as [|? ? Lb _]; subst. cbn [concat]. rewrite <- app_assoc, firstn_app_exact by (symmetry; exact Lb).
  rewrite <- (firstn_skipn i bs), E. rewrite app_nth2; rewrite firstn_length, Nat.min_l by lia; [|lia]. now rewrite Nat.sub_diag.
Qed.
Lemma fold_blocks (f : list N -> N -> bytes -> bool -> list N) (g : Rfc7693.vector -> bytes -> N -> bool -> Rfc7693.vector) (d : nat -> bytes) :
  (forall h v b t l, rel 8 h v -> length b = 128%nat -> rel 8 (f h t b l) (g v b t l)) ->
  forall bs k h v, Forall (fun x => length x = 128%nat) bs -> (forall i, (i < length bs)%nat -> d (k + i)%nat = nth i bs []) -> rel 8 h v ->
  exists h', fold_left (fun '(t, h) b => (t + 128, f h (t + 128) b false)) bs (N.of_nat (128 * k), h) = (N.of_nat (128 * (k + length bs)), h') /\
    rel 8 h' (fold_left (fun h i => g h (d i) (N.of_nat ((i + 1) * 128)) false) (seq k (length bs)) v).
Proof.
  intros S. induction bs as [|b bs IH]; intros k h v F D R0.
  - exists h. cbn [fold_left length seq]. rewrite Nat.add_0_r. auto.
  - inversion F as [|? ? Lb F']; subst. cbn [fold_left length seq].
    pose proof (D 0%nat ltac:(cbn [length]; lia)) as D0. rewrite Nat.add_0_r in D0. cbn [nth] in D0. rewrite D0.
    replace (N.of_nat (128 * k) + 128) with (N.of_nat (128 * Datatypes.S k)) by lia. replace ((k + 1) * 128)%nat with (128 * Datatypes.S k)%nat by lia.
    destruct (IH (Datatypes.S k) (f h (N.of_nat (128 * Datatypes.S k)) b false) (g v b (N.of_nat (128 * Datatypes.S k)) false)) as (h' & E & R1).
    + exact F'.
    + intros i Li. replace (Datatypes.S k + i)%nat with (k + Datatypes.S i)%nat by lia. rewrite D by (cbn [length]; lia). reflexivity.
    + apply S; assumption.
    + exists h'. rewrite E. split; [f_equal; f_equal; lia|exact R1].
Qed.

Lemma write_le_eq n : forall w, write_le n w = map (fun j => n2b (w / 256 ^ N.of_nat j)) (seq 0 n).
Proof.
  induction n as [|n IH]; intros w; [reflexivity|]. cbn [write_le seq map]. f_equal; [f_equal; symmetry; apply N.div_1_r|].
  rewrite <- seq_shift, map_map, IH. apply map_ext. intros j. f_equal.
  rewrite Nat2N.inj_succ, N.pow_succ_r by lia. rewrite N.div_div; [reflexivity|discriminate|apply N.pow_nonzero; discriminate].
Qed.
Lemma list_seq (l : list N) : l = map (fun i => nth i l 0) (seq 0 (length l)).
Proof.
  induction l as [|x l IH]; [reflexivity|]. cbn [length seq map nth]. f_equal. rewrite <- seq_shift, map_map. exact IH.
Qed.
Lemma flat_map_map {A B D} (f : A -> B) (g : B -> list D) l : flat_map g (map f l) = flat_map (fun x => g (f x)) l.
Proof. induction l as [|x l IH]; cbn [map flat_map]; [reflexivity|]. now rewrite IH. Qed.
Lemma out_eq h v : rel 8 h v ->
  flat_map write64 h = flat_map (fun i => map (fun j => n2b (v i / 256 ^ N.of_nat j)) (seq 0 8)) (seq 0 8).
Proof.
  intros [L R0]. rewrite (list_seq h), flat_map_map, L.
  rewrite !flat_map_concat_map. f_equal. apply map_ext_in. intros i Ii. apply in_seq in Ii.
  rewrite (proj1 (R0 i ltac:(lia))). apply write_le_eq.
Qed.

Lemma h0_eq o (key : bytes) : (1 <= o <= 64)%nat -> (length key <= 64)%nat ->
  rel 8 (rfc_h0 o (length key))
    (Rfc7693.set Rfc7693.IV 0 (N.lxor (Rfc7693.IV 0) (N.lxor 0x01010000 (N.lxor (256 * N.of_nat (length key)) (N.of_nat o))))).
Proof.
  intros Lo Lk. unfold rfc_h0. rewrite <- h0_ok by assumption.
  rewrite N.shiftl_mul_pow2. change (2 ^ 8) with 256. rewrite (N.mul_comm (N.of_nat (length key))). rewrite N.lxor_assoc.
  set (p := N.lxor 0x01010000 _).
  assert (Lp : p < w64).
  { unfold p. apply lxor_lt; [reflexivity|]. unfold w64. apply lxor_lt; unfold w64; lia. }
  clearbody p. rewrite (iv_eq 0) by lia.
  assert (E : skipn 1 iv = map Rfc7693.IV (seq 1 7)) by (vm_compute; reflexivity). rewrite E. clear E.
  pose proof iv_lt as A. generalize dependent Rfc7693.IV. intros J A. split; [reflexivity|]. intros i Li. unfold Rfc7693.set.
  destruct i as [|i]; [split; [reflexivity|]; apply lxor_lt; auto|].
  do 7 (destruct i as [|i]; [split; [reflexivity|]; apply A|]). lia.
Qed.

Theorem rfc_eq o key m : (1 <= o <= 64)%nat -> (length key <= 64)%nat -> rfc_blake2b o key m = Rfc7693.blake2b o key m.
Proof.
  intros Lo Lk. unfold rfc_blake2b, Rfc7693.blake2b.
  assert (Ed : match key with [] => m | _ => (key ++ repeat x00 (128 - length key)) ++ m end =
               (if Nat.eqb (length key) 0 then [] else Rfc7693.pad key) ++ m) by (destruct key; reflexivity).
  rewrite Ed. clear Ed. set (data := (if Nat.eqb (length key) 0 then [] else Rfc7693.pad key) ++ m).
  assert (El : (if Nat.eqb (length key) 0 then length m else length m + 128)%nat = length data).
  { unfold data. rewrite app_length. destruct (Nat.eqb_spec (length key) 0); [reflexivity|].
    unfold Rfc7693.pad. rewrite app_length, repeat_length. lia. }
  rewrite El. clear El. clearbody data. f_equal.
  destruct (split_blocks (length data) data (le_n _)) as (bs & rest & -> & F & Lr & Ne).
  assert (Ll : length (concat bs ++ rest) = (128 * length bs + length rest)%nat) by (rewrite app_length, concat_len by exact F; reflexivity).
  assert (Dd : (Nat.max 1 ((length (concat bs ++ rest) + 127) / 128) = Datatypes.S (length bs))%nat).
  { rewrite Ll. replace (128 * length bs + length rest + 127)%nat with (length bs * 128 + (length rest + 127))%nat by lia.
    rewrite Nat.div_add_l by discriminate. destruct (Nat.eq_dec (length rest) 0) as [Z|Z].
    - destruct bs as [|b bs]; [rewrite Z; reflexivity|]. destruct rest; [exfalso; apply Ne; [discriminate|reflexivity]|discriminate Z].
    - replace ((length rest + 127) / 128)%nat with 1%nat; [lia|]. apply (Nat.div_unique _ _ _ (length rest - 1)); lia. }
  rewrite Dd. clear Dd. replace (Datatypes.S (length bs) - 1)%nat with (length bs) by lia.
  rewrite rfc_loop_blocks by (auto; lia).
  set (d := fun i => Rfc7693.pad (firstn 128 (skipn (128 * i) (concat bs ++ rest)))).
  assert (D : forall i, (i < length bs)%nat -> d (0 + i)%nat = nth i bs []).
  { intros i Li. unfold d. cbn [Nat.add]. rewrite nth_block by assumption.
    assert (L1 : length (nth i bs []) = 128%nat) by (apply (proj1 (Forall_forall _ _) F); apply nth_In; exact Li).
    unfold Rfc7693.pad. rewrite L1. apply app_nil_r. }
  destruct (fold_blocks rfc_F Rfc7693.F d (fun h v b t l R0 L => F_eq h v b t l R0 L) bs 0 _ _ F D (h0_eq o key Lo Lk)) as (h' & E & R1).
  change (N.of_nat (128 * 0)) with 0 in E. rewrite E. clear E.
  assert (Dl : d (length bs) = rest ++ repeat x00 (128 - length rest)).
  { unfold d. rewrite skipn_app_exact by (rewrite concat_len by exact F; reflexivity). rewrite firstn_all2 by exact Lr. reflexivity. }
  cbv zeta. unfold d in Dl, R1. cbv beta in Dl, R1. rewrite Dl, Ll. clear Dl.
  replace (N.of_nat (128 * (0 + length bs)) + N.of_nat (length rest)) with (N.of_nat (128 * length bs + length rest)) by lia.
  apply out_eq. apply F_eq; [exact R1|]. rewrite app_length, repeat_length. lia.
Qed.
