(** * Facts about Khash.v: probing, flags, rehashing; the table is a map. *)
From Verif Require Export Khash.
From Coq Require Import ZifyBool ZifyNat ZifyN Permutation.
Local Open Scope N_scope.

(** ** Triangular probing *)
Definition T (s : N) : N := s * (s + 1) / 2.
Definition probe (n h s : N) : N := (h + T s) mod n.

Lemma T_twice s : 2 * T s = s * (s + 1).
Proof.
  unfold T. assert (E : (s * (s + 1)) mod 2 = 0).
  { destruct (N.Even_or_Odd s) as [[m ->]|[m ->]].
    - replace (2 * m * (2 * m + 1)) with ((m * (2 * m + 1)) * 2) by ring. apply N.mod_mul. discriminate.
    - replace ((2 * m + 1) * (2 * m + 1 + 1)) with (((2 * m + 1) * (m + 1)) * 2) by ring. apply N.mod_mul. discriminate. }
  pose proof (N.div_mod (s * (s + 1)) 2 ltac:(discriminate)) as D. rewrite E in D. generalize dependent (s * (s + 1)). intros. lia.
Qed.
Lemma T_next s : T (s + 1) = T s + (s + 1).
Proof. pose proof (T_twice s). pose proof (T_twice (s + 1)). nia. Qed.

Lemma probe_0 n h : probe n h 0 = h mod n.
Proof. unfold probe. change (T 0) with 0. now rewrite N.add_0_r. Qed.
Lemma probe_lt n h s : n <> 0 -> probe n h s < n.
Proof. intros. apply N.mod_lt. assumption. Qed.
Lemma probe_next n h s : n <> 0 -> (probe n h s + (s + 1)) mod n = probe n h (s + 1).
Proof.
  intros Hn. unfold probe. rewrite N.add_mod_idemp_l by exact Hn. rewrite T_next. f_equal. lia.
Qed.

Lemma pow2_odd (k : nat) : forall a b, N.odd b = true -> (2 ^ N.of_nat k | a * b) -> (2 ^ N.of_nat k | a).
Proof.
  induction k as [|k IH]; intros a b O D.
  - exists a. cbn. lia.
  - rewrite Nat2N.inj_succ, N.pow_succ_r' in *. destruct D as [c D].
    destruct (N.Even_or_Odd a) as [[a' ->]|[a' ->]].
    + destruct (IH a' b O) as [q Q]; [exists c; nia|]. exists q. rewrite Q. ring.
    + exfalso. apply N.odd_spec in O. destruct O as [b' ->].
      assert (2 * (2 * a' * b' + a' + b') + 1 = 2 * (c * 2 ^ N.of_nat k)) by nia. lia.
Qed.
Lemma pow2_pos (k : nat) : 0 < 2 ^ N.of_nat k.
Proof. apply N.neq_0_lt_0, N.pow_nonzero. discriminate. Qed.

Lemma mod_eq_divide n a b : n <> 0 -> a <= b -> a mod n = b mod n -> exists q, b - a = q * n.
Proof.
  intros Hn L E. exists (b / n - a / n).
  pose proof (N.div_mod a n Hn). pose proof (N.div_mod b n Hn).
  assert (a / n <= b / n) by (apply N.div_le_mono; assumption). nia.
Qed.

Lemma mult_ge c m : c <> 0 -> m <= c * m.
Proof. intros. destruct c; [congruence|]. nia. Qed.

(** Two probes of the same bucket are far apart. *)
Lemma probe_same (k : nat) h s t : s < t -> probe (2 ^ N.of_nat k) h s = probe (2 ^ N.of_nat k) h t ->
  (2 * 2 ^ N.of_nat k <= t - s) \/ (2 * 2 ^ N.of_nat k <= t + s + 1).
Proof.
  intros L E. pose proof (pow2_pos k) as P. set (n := 2 ^ N.of_nat k) in *.
  pose proof (T_twice s) as Ts. pose proof (T_twice t) as Tt.
  assert (Ls : T s <= T t) by nia.
  destruct (mod_eq_divide n (h + T s) (h + T t) ltac:(lia) ltac:(lia) E) as [q Q].
  assert (D : (t - s) * (t + s + 1) = q * (2 * n)).
  { assert (t * (t + 1) = s * (s + 1) + 2 * (q * n)) by lia. replace t with (s + (t - s)) in * by lia. set (u := t - s) in *. clearbody u. clear - H. replace (s + u - s) with u by lia. nia. }
  assert (N2 : 2 ^ N.of_nat (S k) = 2 * n) by (rewrite Nat2N.inj_succ, N.pow_succ_r'; reflexivity).
  destruct (N.odd (t - s)) eqn:O.
  - right. assert (X : (2 ^ N.of_nat (S k) | t + s + 1)).
    { apply (pow2_odd (S k) _ (t - s) O). exists q. rewrite N2. lia. }
    destruct X as [c X]. rewrite N2 in X. rewrite X. apply mult_ge. intros ->. clear - X L. lia.
  - left. assert (O2 : N.odd (t + s + 1) = true).
    { replace (t + s + 1) with (t - s + (1 + 2 * s)) by lia. rewrite N.odd_add, O. rewrite N.odd_add_mul_2. reflexivity. }
    assert (X : (2 ^ N.of_nat (S k) | t - s)).
    { apply (pow2_odd (S k) _ (t + s + 1) O2). exists q. rewrite N2. lia. }
    destruct X as [c X]. rewrite N2 in X. rewrite X. apply mult_ge. intros ->. clear - X L. lia.
Qed.
Lemma probe_inj (k : nat) h s t : s < 2 ^ N.of_nat k -> t < 2 ^ N.of_nat k ->
  probe (2 ^ N.of_nat k) h s = probe (2 ^ N.of_nat k) h t -> s = t.
Proof.
  intros Ls Lt E. destruct (N.lt_trichotomy s t) as [L|[L|L]]; [|exact L|].
  - pose proof (probe_same k h s t L E). lia.
  - pose proof (probe_same k h t s L (eq_sym E)). lia.
Qed.
Lemma probe_back (k : nat) h s : 0 < s -> s < 2 * 2 ^ N.of_nat k - 1 ->
  probe (2 ^ N.of_nat k) h s <> probe (2 ^ N.of_nat k) h 0.
Proof. intros Ls L E. pose proof (probe_same k h 0 s Ls (eq_sym E)). lia. Qed.
Lemma probe_full n h : n <> 0 -> probe n h (2 * n - 1) = probe n h 0.
Proof.
  intros Hn. unfold probe. pose proof (T_twice (2 * n - 1)) as X.
  assert (T (2 * n - 1) = (2 * n - 1) * n) as -> by nia. change (T 0) with 0. rewrite N.mod_add by exact Hn. now rewrite N.add_0_r.
Qed.

(** Every bucket is probed. *)
Definition upto (n : N) : list N := map N.of_nat (seq 0 (N.to_nat n)).
Lemma upto_in n i : In i (upto n) <-> i < n.
Proof.
  unfold upto. rewrite in_map_iff. split.
  - intros (x & <- & I). apply in_seq in I. lia.
  - intros L. exists (N.to_nat i). split; [lia|]. apply in_seq. lia.
Qed.
Lemma upto_length n : length (upto n) = N.to_nat n.
Proof. unfold upto. now rewrite map_length, seq_length. Qed.
Lemma upto_nodup n : NoDup (upto n).
Proof. apply FinFun.Injective_map_NoDup; [intros a b; lia|apply seq_NoDup]. Qed.
Lemma nodup_map_in {A B} (f : A -> B) l : NoDup l -> (forall x y, In x l -> In y l -> f x = f y -> x = y) -> NoDup (map f l).
Proof.
  induction 1 as [|x l N D IH]; intros I; cbn; constructor.
  - rewrite in_map_iff. intros (y & E & Iy). apply N. rewrite (I x y); auto; [now left|now right].
  - apply IH. intros a b Ia Ib. apply I; now right.
Qed.
Lemma probe_onto (k : nat) h i : i < 2 ^ N.of_nat k -> exists s, s < 2 ^ N.of_nat k /\ probe (2 ^ N.of_nat k) h s = i.
Proof.
  set (n := 2 ^ N.of_nat k). intros L. pose proof (pow2_pos k) as P. fold n in P.
  assert (X : incl (upto n) (map (probe n h) (upto n))).
  { apply NoDup_length_incl.
    - apply nodup_map_in; [apply upto_nodup|]. intros x y Ix Iy. apply upto_in in Ix, Iy. now apply (probe_inj k).
    - now rewrite map_length.
    - intros x Ix. apply in_map_iff in Ix. destruct Ix as (y & <- & _). apply upto_in, probe_lt. lia. }
  specialize (X i (proj2 (upto_in n i) L)). apply in_map_iff in X. destruct X as (s & E & I). apply upto_in in I. eauto.
Qed.

Lemma land_mask (k : nat) x : N.land x (2 ^ N.of_nat k - 1) = x mod 2 ^ N.of_nat k.
Proof. rewrite <- N.pred_sub, <- N.ones_equiv. apply N.land_ones. Qed.

(** ** Flags *)
Definition est (fl : list N) (i : N) : bool := match isempty fl i with Ok b => b | _ => true end.
Definition dst (fl : list N) (i : N) : bool := match isdel fl i with Ok b => b | _ => true end.
Definition has_flags (fl : list N) (n : N) : Prop := N.of_nat (length fl) = fsize n.

Lemma word_in (k : nat) i : i < 2 ^ N.of_nat k -> (N.to_nat (N.shiftr i 4) < N.to_nat (fsize (2 ^ N.of_nat k)))%nat.
Proof.
  intros L. unfold fsize. rewrite !N.shiftr_div_pow2. change (2 ^ 4) with 16. destruct (2 ^ N.of_nat k <? 16) eqn:E.
  - rewrite N.div_small by lia. cbn. lia.
  - do 4 (destruct k as [|k]; [discriminate E|]).
    replace (2 ^ N.of_nat (S (S (S (S k))))) with (2 ^ N.of_nat k * 16) in *
      by (rewrite !Nat2N.inj_succ, !N.pow_succ_r'; lia).
    rewrite N.div_mul by discriminate. rewrite N.mul_comm in L. apply (N.div_lt_upper_bound i 16) in L; [|discriminate]. lia.
Qed.
Lemma land15 i : N.land i 15 = i mod 16.
Proof. exact (land_mask 4 i). Qed.
Lemma pos_bit i b : N.shiftl (N.land i 15) 1 + b = 2 * (i mod 16) + b.
Proof. rewrite land15, N.shiftl_mul_pow2. change (2 ^ 1) with 2. lia. Qed.
Lemma shift4 i : N.shiftr i 4 = i / 16.
Proof. rewrite N.shiftr_div_pow2. reflexivity. Qed.

Lemma same_word i j : i <> j -> N.shiftr i 4 = N.shiftr j 4 -> i mod 16 <> j mod 16.
Proof. rewrite !shift4. intros. lia. Qed.

Section Flags.
Variable k : nat.
Let n := 2 ^ N.of_nat k.
Variable fl : list N.
Hypothesis F : has_flags fl n.

Lemma flag_ok i b : i < n -> exists x, flag_bit fl i b = Ok x.
Proof.
  intros L. unfold flag_bit. destruct (nth_error fl _) as [w|] eqn:E; [eauto|].
  apply nth_error_None in E. pose proof (word_in k i L). unfold has_flags in F. fold n in H. lia.
Qed.
Lemma isempty_ok i : i < n -> isempty fl i = Ok (est fl i).
Proof. intros L. unfold est, isempty. destruct (flag_ok i 1 L) as [x ->]. reflexivity. Qed.
Lemma isdel_ok i : i < n -> isdel fl i = Ok (dst fl i).
Proof. intros L. unfold dst, isdel. destruct (flag_ok i 0 L) as [x ->]. reflexivity. Qed.
Lemma iseither_ok i : i < n -> iseither fl i = Ok (est fl i || dst fl i).
Proof. intros L. unfold iseither. rewrite isempty_ok, isdel_ok by exact L. reflexivity. Qed.

(** Clearing or setting flags of bucket [i] leaves the others alone. *)
Lemma on_word_ok i f : i < n -> exists w, nth_error fl (N.to_nat (N.shiftr i 4)) = Some w /\
  on_word fl i f = Ok (upd fl (N.to_nat (N.shiftr i 4)) (f w)).
Proof.
  intros L. unfold on_word. destruct (nth_error fl _) as [w|] eqn:E; [eauto|].
  apply nth_error_None in E. pose proof (word_in k i L). unfold has_flags in F. fold n in H. lia.
Qed.
End Flags.

Lemma flag_upd fl i j b c g w (b1 : b < 2) (c1 : c < 2) :
  nth_error fl (N.to_nat (N.shiftr i 4)) = Some w ->
  (forall q, q <> 2 * (i mod 16) + c -> N.testbit (g w) q = N.testbit w q) ->
  flag_bit (upd fl (N.to_nat (N.shiftr i 4)) (g w)) j b =
  if (j =? i) && (b =? c) then Ok (N.testbit (g w) (2 * (i mod 16) + c)) else flag_bit fl j b.
Proof.
  intros E G. unfold flag_bit. destruct (N.eq_dec (N.shiftr j 4) (N.shiftr i 4)) as [S|S].
  - rewrite S, nth_error_upd_eq by (apply nth_error_Some; congruence). rewrite E, pos_bit.
    destruct (N.eqb_spec j i) as [->|D]; cbn [andb].
    + destruct (N.eqb_spec b c) as [->|Db]; [reflexivity|]. rewrite G; [reflexivity|lia].
    + rewrite G; [reflexivity|]. pose proof (same_word j i D S). lia.
  - rewrite nth_error_upd_neq by lia. destruct (N.eqb_spec j i) as [->|D]; [congruence|reflexivity].
Qed.

Section Sets.
Variable k : nat.
Let n := 2 ^ N.of_nat k.
Variable fl : list N.
Hypothesis F : has_flags fl n.

Lemma set_empty_ok i : i < n -> exists fl', set_isempty_false fl i = Ok fl' /\ has_flags fl' n /\
  (forall j, est fl' j = if j =? i then false else est fl j) /\ (forall j, dst fl' j = dst fl j).
Proof.
  intros L. unfold set_isempty_false. destruct (on_word_ok k fl F i (fun w => N.clearbit w (N.shiftl (N.land i 15) 1 + 1)) L) as (w & E & ->).
  eexists. split; [reflexivity|]. split; [unfold has_flags; now rewrite upd_length|]. cbv beta. rewrite pos_bit.
  set (g := fun w => N.clearbit w (2 * (i mod 16) + 1)). change (N.clearbit w (2 * (i mod 16) + 1)) with (g w).
  assert (G : forall q, q <> 2 * (i mod 16) + 1 -> N.testbit (g w) q = N.testbit w q) by (intros q Q; apply N.clearbit_neq; congruence).
  split; intros j; unfold est, dst, isempty, isdel; rewrite (flag_upd fl i j) with (c := 1) (g := g) (w := w) by (reflexivity || assumption).
  - rewrite N.eqb_refl, andb_true_r. destruct (j =? i); [|reflexivity]. apply N.clearbit_eq.
  - rewrite andb_false_r. reflexivity.
Qed.
Lemma set_del_ok i : i < n -> exists fl', set_isdel_true fl i = Ok fl' /\ has_flags fl' n /\
  (forall j, dst fl' j = if j =? i then true else dst fl j) /\ (forall j, est fl' j = est fl j).
Proof.
  intros L. unfold set_isdel_true. destruct (on_word_ok k fl F i (fun w => N.setbit w (N.shiftl (N.land i 15) 1 + 0)) L) as (w & E & ->).
  eexists. split; [reflexivity|]. split; [unfold has_flags; now rewrite upd_length|]. cbv beta. rewrite pos_bit.
  set (g := fun w => N.setbit w (2 * (i mod 16) + 0)). change (N.setbit w (2 * (i mod 16) + 0)) with (g w).
  assert (G : forall q, q <> 2 * (i mod 16) + 0 -> N.testbit (g w) q = N.testbit w q) by (intros q Q; apply N.setbit_neq; congruence).
  split; intros j; unfold est, dst, isempty, isdel; rewrite (flag_upd fl i j) with (c := 0) (g := g) (w := w) by (reflexivity || assumption).
  - rewrite N.eqb_refl, andb_true_r. destruct (j =? i); [|reflexivity]. apply N.setbit_eq.
  - rewrite andb_false_r. reflexivity.
Qed.
Lemma set_both_ok i : i < n -> exists fl', set_isboth_false fl i = Ok fl' /\ has_flags fl' n /\
  (forall j, est fl' j = if j =? i then false else est fl j) /\
  (forall j, dst fl' j = if j =? i then false else dst fl j).
Proof.
  intros L. unfold set_isboth_false. set (f := fun w => N.clearbit (N.clearbit w (N.shiftl (N.land i 15) 1 + 1)) (N.shiftl (N.land i 15) 1 + 0)).
  destruct (on_word_ok k fl F i f L) as (w & E & ->). unfold f. clear f.
  eexists. split; [reflexivity|]. split; [unfold has_flags; now rewrite upd_length|]. rewrite !pos_bit.
  set (g1 := fun w => N.clearbit w (2 * (i mod 16) + 1)). set (g0 := fun w => N.clearbit w (2 * (i mod 16) + 0)).
  change (N.clearbit (N.clearbit w (2 * (i mod 16) + 1)) (2 * (i mod 16) + 0)) with (g0 (g1 w)).
  assert (U : upd fl (N.to_nat (N.shiftr i 4)) (g0 (g1 w)) = upd (upd fl (N.to_nat (N.shiftr i 4)) (g1 w)) (N.to_nat (N.shiftr i 4)) (g0 (g1 w))).
  { clear. generalize (N.to_nat (N.shiftr i 4)). induction fl as [|x l IH]; intros [|m]; cbn; congruence. }
  rewrite U.
  assert (E1 : nth_error (upd fl (N.to_nat (N.shiftr i 4)) (g1 w)) (N.to_nat (N.shiftr i 4)) = Some (g1 w)) by (apply nth_error_upd_eq, nth_error_Some; congruence).
  assert (G1 : forall q, q <> 2 * (i mod 16) + 1 -> N.testbit (g1 w) q = N.testbit w q) by (intros q Q; apply N.clearbit_neq; congruence).
  assert (G0 : forall q, q <> 2 * (i mod 16) + 0 -> N.testbit (g0 (g1 w)) q = N.testbit (g1 w) q) by (intros q Q; apply N.clearbit_neq; congruence).
  split; intros j; unfold est, dst, isempty, isdel; rewrite (flag_upd (upd fl (N.to_nat (N.shiftr i 4)) (g1 w)) i j) with (c := 0) (g := g0) (w := g1 w) by (reflexivity || assumption); rewrite (flag_upd fl i j) with (c := 1) (g := g1) (w := w) by (reflexivity || assumption).
  - rewrite andb_false_r, N.eqb_refl, andb_true_r. destruct (j =? i); [|reflexivity]. apply N.clearbit_eq.
  - rewrite andb_false_r, N.eqb_refl, andb_true_r. destruct (j =? i); [|reflexivity]. apply N.clearbit_eq.
Qed.
End Sets.

Lemma fresh_ok n : has_flags (fresh_flags n) n.
Proof. unfold has_flags, fresh_flags. rewrite repeat_length. lia. Qed.
Lemma fresh_bit (k : nat) i b : i < 2 ^ N.of_nat k -> b < 2 -> flag_bit (fresh_flags (2 ^ N.of_nat k)) i b = Ok (b =? 1).
Proof.
  intros L Lb. unfold flag_bit, fresh_flags. rewrite nth_error_repeat by (apply word_in, L). f_equal. rewrite pos_bit.
  assert (Hm : i mod 16 < 16) by (apply N.mod_lt; discriminate). generalize dependent (i mod 16). intros m Hm.
  assert (X : forallb (fun m => Bool.eqb (N.testbit 0xaaaaaaaa (2 * m + 0)) false && Bool.eqb (N.testbit 0xaaaaaaaa (2 * m + 1)) true) (upto 16) = true) by reflexivity.
  rewrite forallb_forall in X. specialize (X m (proj2 (upto_in 16 m) Hm)). apply andb_true_iff in X. destruct X as [X0 X1].
  apply eqb_prop in X0, X1. assert (b = 0 \/ b = 1) as [-> | ->] by lia; assumption.
Qed.
Lemma fresh_est (k : nat) i : i < 2 ^ N.of_nat k -> est (fresh_flags (2 ^ N.of_nat k)) i = true.
Proof. intros L. unfold est, isempty. rewrite fresh_bit by lia. reflexivity. Qed.
Lemma fresh_dst (k : nat) i : i < 2 ^ N.of_nat k -> dst (fresh_flags (2 ^ N.of_nat k)) i = false.
Proof. intros L. unfold dst, isdel. rewrite fresh_bit by lia. reflexivity. Qed.

(** ** Arrays *)
Definition cell {A} (l : list (option A)) (i : N) : option A := match nth_error l (N.to_nat i) with Some x => x | None => None end.
Lemma aget_cell {A} (l : list (option A)) i x : cell l i = Some x -> aget l i = Ok x.
Proof. unfold cell, aget. destruct (nth_error l (N.to_nat i)) as [[y|]|]; congruence. Qed.
Lemma aput_ok {A} (l : list (option A)) i x : i < N.of_nat (length l) ->
  exists l', aput l i x = Ok l' /\ length l' = length l /\ forall j, cell l' j = if j =? i then Some x else cell l j.
Proof.
  intros L. unfold aput. rewrite (proj2 (N.ltb_lt _ _) L). eexists. split; [reflexivity|]. split; [apply upd_length|].
  intros j. unfold cell. destruct (N.eqb_spec j i) as [->|D].
  - rewrite nth_error_upd_eq by lia. reflexivity.
  - rewrite nth_error_upd_neq by lia. reflexivity.
Qed.
Lemma grow_length {A} (l : list (option A)) n : N.of_nat (length l) <= n -> N.of_nat (length (grow l n)) = n.
Proof. intros L. unfold grow. rewrite app_length, repeat_length. lia. Qed.
Lemma grow_cell {A} (l : list (option A)) n i : cell (grow l n) i = cell l i.
Proof.
  unfold grow, cell. destruct (Nat.lt_ge_cases (N.to_nat i) (length l)) as [L|L].
  - now rewrite nth_error_app1 by exact L.
  - rewrite nth_error_app2 by exact L. rewrite (proj2 (nth_error_None l _) L).
    destruct (nth_error (repeat None _) _) as [x|] eqn:E; [|reflexivity].
    apply nth_error_In, repeat_spec in E. exact E.
Qed.

(** ** Sizes *)
Lemma upper_tab (k : nat) : (2 <= k <= 31)%nat -> upper (2 ^ N.of_nat k) < 2 ^ N.of_nat k /\ 2 ^ N.of_nat k < 2 * upper (2 ^ N.of_nat k).
Proof.
  intros L. do 2 (destruct k as [|k]; [lia|]).
  do 30 (destruct k as [|k]; [vm_compute; split; reflexivity|]). lia.
Qed.
Lemma round_tab (k : nat) : (2 <= k <= 30)%nat -> kroundup32 ((2 ^ N.of_nat k + 1) mod W32) = 2 ^ N.of_nat (S k).
Proof.
  intros L. do 2 (destruct k as [|k]; [lia|]).
  do 29 (destruct k as [|k]; [vm_compute; reflexivity|]). lia.
Qed.

(** ** The table is a map *)
Section Map.
Variable V : Type.
Variable hf : bytes -> N.
Notation khash := (khash V).

(** Bucket [i] is reached by probing with hash [x] through occupied buckets only. *)
Definition chain (n : N) (fl : list N) (x i : N) : Prop :=
  exists s, s < n /\ probe n x s = i /\ forall t, t < s -> est fl (probe n x t) = false.

(** [n] buckets hold the records [m]. *)
Record slots (n : N) (fl : list N) (ks : list (option bytes)) (vs : list (option V)) (m : list (bytes * V)) : Prop := {
  sl_fl : has_flags fl n; sl_ks : N.of_nat (length ks) = n; sl_vs : N.of_nat (length vs) = n;
  sl_nd : NoDup (map fst m);
  sl_del : forall i, i < n -> dst fl i = false;
  sl_slot : forall i, i < n -> est fl i = false ->
    exists key v, cell ks i = Some key /\ cell vs i = Some v /\ In (key, v) m /\ chain n fl (hf key) i;
  sl_all : forall key v, In (key, v) m -> exists i, i < n /\ est fl i = false /\ cell ks i = Some key;
  sl_dist : forall i j, i < n -> j < n -> est fl i = false -> est fl j = false -> cell ks i = cell ks j -> i = j }.

Record tbl (k : nat) (h : khash) (m : list (bytes * V)) : Prop := {
  t_n : kb V h = 2 ^ N.of_nat k; t_k : (2 <= k <= 31)%nat;
  t_size : ksize V h = N.of_nat (length m); t_occ : kocc V h = N.of_nat (length m);
  t_up : kupper V h = upper (kb V h);
  t_slots : slots (kb V h) (kflags V h) (kkeys V h) (kvals V h) m }.

Definition stops (fl : list N) (ks : list (option bytes)) (key : bytes) (i : N) : bool :=
  est fl i || match cell ks i with Some k' => bytes_eqb k' key | None => false end.

Lemma least (P : N -> bool) : forall c, (exists z, z < c /\ P z = true) ->
  exists z, z < c /\ P z = true /\ forall t, t < z -> P t = false.
Proof.
  induction c as [|c IH] using N.peano_ind; intros (z & L & Hz); [lia|].
  destruct (existsb P (upto c)) eqn:E.
  - apply existsb_exists in E. destruct E as (y & I & Hy). apply upto_in in I.
    destruct IH as (z' & L' & Hz' & M); [eauto|]. exists z'. repeat split; auto. lia.
  - assert (z = c).
    { destruct (N.eq_dec z c) as [X|X]; [exact X|]. exfalso. assert (existsb P (upto c) = true); [|congruence].
      apply existsb_exists. exists z. split; [apply upto_in; lia|exact Hz]. }
    subst z. exists c. repeat split; [lia|exact Hz|]. intros t Lt. destruct (P t) eqn:Pt; [|reflexivity].
    assert (existsb P (upto c) = true); [|congruence]. apply existsb_exists. exists t. split; [apply upto_in; lia|exact Pt].
Qed.

Section Probe.
Variable k : nat.
Let n := 2 ^ N.of_nat k.
Variables (h : khash) (m : list (bytes * V)) (key : bytes).
Hypothesis Kn : kb V h = n.
Hypothesis S : slots n (kflags V h) (kkeys V h) (kvals V h) m.
Let fl := kflags V h.
Let x := hf key.

Lemma n_pos : n <> 0. Proof. pose proof (pow2_pos k). fold n in H. lia. Qed.

Lemma dl i : i < n -> dst fl i = false.
Proof. exact (sl_del _ _ _ _ _ S i). Qed.
Lemma go_on i : i < n -> stops fl (kkeys V h) key i = false ->
  est fl i = false /\ dst fl i = false /\ exists k', cell (kkeys V h) i = Some k' /\ bytes_eqb k' key = false.
Proof.
  intros L E. unfold stops in E. apply orb_false_iff in E. destruct E as [E1 E2]. split; [exact E1|].
  split; [apply (sl_del _ _ _ _ _ S), L|]. destruct (sl_slot _ _ _ _ _ S i L E1) as (k' & v & C & _). rewrite C in E2. eauto.
Qed.
Lemma stop_key i : i < n -> stops fl (kkeys V h) key i = true -> est fl i = false -> cell (kkeys V h) i = Some key.
Proof.
  intros L E E1. unfold stops in E. rewrite E1 in E. cbn in E. destruct (cell _ i) as [k'|]; [|discriminate].
  destruct (bytes_eqb_spec k' key); [congruence|discriminate].
Qed.
Lemma next_probe s : N.land (probe n x s + (s + 1)) (kb V h - 1) = probe n x (s + 1).
Proof. rewrite Kn. unfold n. rewrite land_mask. apply probe_next, n_pos. Qed.

Lemma get_loop_stop z : z < n -> stops fl (kkeys V h) key (probe n x z) = true ->
  (forall t, t < z -> stops fl (kkeys V h) key (probe n x t) = false) ->
  forall fuel s, s <= z -> (N.to_nat (z - s) < fuel)%nat ->
  get_loop V fuel h key (probe n x s) (probe n x 0) s = Ok (if est fl (probe n x z) then n else probe n x z).
Proof.
  intros Lz Hz M. induction fuel as [|fuel IH]; intros s Ls Lf; [lia|]. cbn [get_loop].
  pose proof (probe_lt n x s n_pos) as Lp. fold fl. rewrite (isempty_ok k fl (sl_fl _ _ _ _ _ S) _ Lp). cbn [bind].
  destruct (N.eq_dec s z) as [->|Ns].
  - pose proof (isdel_ok k fl (sl_fl _ _ _ _ _ S) _ Lp) as D. rewrite (dl _ Lp) in D.
    rewrite (iseither_ok k fl (sl_fl _ _ _ _ _ S) _ Lp), (dl _ Lp), orb_false_r.
    destruct (est fl (probe n x z)) eqn:E; cbn [bind]; [now rewrite Kn|].
    rewrite D. cbn [bind]. rewrite (aget_cell _ _ _ (stop_key _ Lp Hz E)). cbn [bind]. rewrite bytes_eqb_refl. cbn [negb]. reflexivity.
  - destruct (go_on _ Lp (M s ltac:(lia))) as (E & D & k' & C & Ek). rewrite E. cbn [bind].
    rewrite (isdel_ok k fl (sl_fl _ _ _ _ _ S) _ Lp), D. cbn [bind]. rewrite (aget_cell _ _ _ C). cbn [bind]. rewrite Ek. cbn [negb].
    rewrite next_probe. destruct (N.eqb_spec (probe n x (s + 1)) (probe n x 0)) as [B|_].
    + exfalso. apply (probe_inj k) in B; fold n; lia.
    + apply IH; lia.
Qed.
Lemma get_loop_full : (forall i, i < n -> stops fl (kkeys V h) key i = false) ->
  forall fuel s, s <= 2 * n - 2 -> (N.to_nat (2 * n - 2 - s) < fuel)%nat ->
  get_loop V fuel h key (probe n x s) (probe n x 0) s = Ok n.
Proof.
  intros M. pose proof n_pos as Np. induction fuel as [|fuel IH]; intros s Ls Lf; [lia|]. cbn [get_loop].
  pose proof (probe_lt n x s n_pos) as Lp. fold fl. rewrite (isempty_ok k fl (sl_fl _ _ _ _ _ S) _ Lp). cbn [bind].
  destruct (go_on _ Lp (M _ Lp)) as (E & D & k' & C & Ek). rewrite E. cbn [bind].
  rewrite (isdel_ok k fl (sl_fl _ _ _ _ _ S) _ Lp), D. cbn [bind]. rewrite (aget_cell _ _ _ C). cbn [bind]. rewrite Ek. cbn [negb].
  rewrite next_probe. destruct (N.eqb_spec (probe n x (s + 1)) (probe n x 0)) as [B|B]; [now rewrite Kn|].
  destruct (N.eq_dec s (2 * n - 2)) as [->|Ns].
  - exfalso. apply B. replace (2 * n - 2 + 1) with (2 * n - 1) by lia. apply probe_full, Np.
  - apply IH; lia.
Qed.
Lemma put_loop_stop z : z < n -> stops fl (kkeys V h) key (probe n x z) = true ->
  (forall t, t < z -> stops fl (kkeys V h) key (probe n x t) = false) ->
  forall fuel s, s <= z -> (N.to_nat (z - s) < fuel)%nat ->
  put_loop V fuel h key (probe n x s) (probe n x 0) s n = Ok (inl (probe n x z), n).
Proof.
  intros Lz Hz M. induction fuel as [|fuel IH]; intros s Ls Lf; [lia|]. cbn [put_loop].
  pose proof (probe_lt n x s n_pos) as Lp. fold fl. rewrite (isempty_ok k fl (sl_fl _ _ _ _ _ S) _ Lp). cbn [bind].
  rewrite (isdel_ok k fl (sl_fl _ _ _ _ _ S) _ Lp), (dl _ Lp). cbn [bind].
  destruct (N.eq_dec s z) as [->|Ns].
  - destruct (est fl (probe n x z)) eqn:E; cbn [bind]; [reflexivity|].
    rewrite (aget_cell _ _ _ (stop_key _ Lp Hz E)). cbn [bind]. rewrite bytes_eqb_refl. cbn [negb]. reflexivity.
  - destruct (go_on _ Lp (M s ltac:(lia))) as (E & D & k' & C & Ek). rewrite E. cbn [bind].
    rewrite (aget_cell _ _ _ C). cbn [bind]. rewrite Ek. cbn [negb].
    rewrite next_probe. destruct (N.eqb_spec (probe n x (s + 1)) (probe n x 0)) as [B|_].
    + exfalso. apply (probe_inj k) in B; fold n; lia.
    + apply IH; lia.
Qed.
Lemma put_loop_full : (forall i, i < n -> stops fl (kkeys V h) key i = false) ->
  forall fuel s, s <= 2 * n - 2 -> (N.to_nat (2 * n - 2 - s) < fuel)%nat ->
  put_loop V fuel h key (probe n x s) (probe n x 0) s n = Ok (inr n, n).
Proof.
  intros M. pose proof n_pos as Np. induction fuel as [|fuel IH]; intros s Ls Lf; [lia|]. cbn [put_loop].
  pose proof (probe_lt n x s n_pos) as Lp. fold fl. rewrite (isempty_ok k fl (sl_fl _ _ _ _ _ S) _ Lp). cbn [bind].
  destruct (go_on _ Lp (M _ Lp)) as (E & D & k' & C & Ek). rewrite E.
  rewrite (isdel_ok k fl (sl_fl _ _ _ _ _ S) _ Lp), D. cbn [bind]. rewrite (aget_cell _ _ _ C). cbn [bind]. rewrite Ek. cbn [negb].
  rewrite next_probe. destruct (N.eqb_spec (probe n x (s + 1)) (probe n x 0)) as [B|B]; [reflexivity|].
  destruct (N.eq_dec s (2 * n - 2)) as [->|Ns].
  - exfalso. apply B. replace (2 * n - 2 + 1) with (2 * n - 1) by lia. apply probe_full, Np.
  - apply IH; lia.
Qed.

(** Either the probing stops somewhere, or the table is full and does not have the key. *)
Lemma stop_or_full :
  (exists z, z < n /\ stops fl (kkeys V h) key (probe n x z) = true /\
     forall t, t < z -> stops fl (kkeys V h) key (probe n x t) = false) \/
  (forall i, i < n -> stops fl (kkeys V h) key i = false).
Proof.
  destruct (existsb (fun s => stops fl (kkeys V h) key (probe n x s)) (upto n)) eqn:E.
  - left. apply existsb_exists in E. destruct E as (s & I & Hs). apply upto_in in I.
    apply (least (fun s => stops fl (kkeys V h) key (probe n x s)) n). eauto.
  - right. intros i L. destruct (probe_onto k x i L) as (s & Ls & <-). fold n.
    destruct (stops fl (kkeys V h) key (probe n x s)) eqn:Es; [|reflexivity].
    assert (X : existsb (fun s => stops fl (kkeys V h) key (probe n x s)) (upto n) = true); [|congruence].
    apply existsb_exists. exists s. split; [apply upto_in; exact Ls|exact Es].
Qed.
Lemma stop_empty z : z < n -> est fl (probe n x z) = true ->
  (forall t, t < z -> stops fl (kkeys V h) key (probe n x t) = false) -> ~ In key (map fst m).
Proof.
  intros Lz E M I. apply in_map_iff in I. destruct I as ([k' v] & <- & I).
  destruct (sl_all _ _ _ _ _ S _ _ I) as (i & Li & Ei & Ci). cbn [fst] in *.
  destruct (sl_slot _ _ _ _ _ S i Li Ei) as (k2 & v2 & C2 & _ & _ & (s & Ls & Ps & Hs)). rewrite Ci in C2. injection C2 as <-.
  destruct (N.lt_trichotomy s z) as [L|[->|L]].
  - specialize (M s L). unfold x in M. rewrite Ps in M. unfold stops in M. rewrite Ci, bytes_eqb_refl, orb_true_r in M. discriminate.
  - unfold x in E. rewrite Ps in E. unfold fl in E. congruence.
  - specialize (Hs z L). unfold fl, x in E. congruence.
Qed.
Lemma full_none : (forall i, i < n -> stops fl (kkeys V h) key i = false) -> ~ In key (map fst m) /\ N.of_nat (length m) = n.
Proof.
  intros M. split.
  - intros I. apply in_map_iff in I. destruct I as ([k' v] & <- & I).
    destruct (sl_all _ _ _ _ _ S _ _ I) as (i & Li & Ei & Ci). cbn [fst] in *.
    specialize (M i Li). unfold stops in M. rewrite Ci, bytes_eqb_refl, orb_true_r in M. discriminate.
  - assert (A : forall i, i < n -> est fl i = false) by (intros i L; apply go_on; auto).
    apply N.le_antisymm.
    + (* every record has its bucket *)
      assert (B : forall r, In r (map fst m) -> exists i, In i (upto n) /\ cell (kkeys V h) i = Some r).
      { intros r I. apply in_map_iff in I. destruct I as ([r' v] & <- & I). destruct (sl_all _ _ _ _ _ S _ _ I) as (i & Li & _ & Ci).
        exists i. split; [now apply upto_in|exact Ci]. }
      assert (incl (map Some (map fst m)) (map (cell (kkeys V h)) (upto n))) as IN.
      { intros y Iy. apply in_map_iff in Iy. destruct Iy as (r & <- & Ir). destruct (B r Ir) as (i & Ii & Ci). rewrite <- Ci. now apply in_map. }
      apply NoDup_incl_length in IN.
      * rewrite !map_length, upto_length in IN. lia.
      * apply FinFun.Injective_map_NoDup; [intros a b; congruence|exact (sl_nd _ _ _ _ _ S)].
    + assert (incl (map (cell (kkeys V h)) (upto n)) (map Some (map fst m))) as IN.
      { intros y Iy. apply in_map_iff in Iy. destruct Iy as (i & <- & Ii). apply upto_in in Ii.
        destruct (sl_slot _ _ _ _ _ S i Ii (A i Ii)) as (k2 & v2 & C2 & _ & I2 & _). rewrite C2. apply in_map. now apply (in_map fst) in I2. }
      apply NoDup_incl_length in IN.
      * rewrite !map_length, upto_length in IN. lia.
      * apply nodup_map_in; [apply upto_nodup|]. intros a b Ia Ib. apply upto_in in Ia, Ib. apply (sl_dist _ _ _ _ _ S); auto; apply A; auto.
Qed.
End Probe.

(** ** Rehashing *)
Lemma filter_le {A} (f g : A -> bool) l : (forall x, g x = true -> f x = true) -> (length (filter g l) <= length (filter f l))%nat.
Proof.
  intros I. induction l as [|x l IH]; cbn; [lia|]. pose proof (I x). destruct (g x), (f x); cbn; try lia; discriminate (H eq_refl).
Qed.
Lemma filter_lt {A} (f g : A -> bool) l y : (forall x, g x = true -> f x = true) -> In y l -> f y = true -> g y = false ->
  (length (filter g l) < length (filter f l))%nat.
Proof.
  intros I. induction l as [|x l IH]; intros Iy Fy Gy; [destruct Iy|]. destruct Iy as [->|Iy]; cbn.
  - rewrite Fy, Gy. pose proof (filter_le f g l I). cbn. lia.
  - specialize (IH Iy Fy Gy). pose proof (I x). destruct (g x), (f x); cbn; try lia; discriminate (H eq_refl).
Qed.

Section Rehash.
Variables kn : nat.
Let nb := 2 ^ N.of_nat kn.
Variable n : N.
Variable ko : nat.
Hypothesis On : n = 0 \/ n = 2 ^ N.of_nat ko.
Hypothesis Lnb : n <= nb.
Variable m : list (bytes * V).
Hypothesis Room : N.of_nat (length m) < nb.
Hypothesis Nd : NoDup (map fst m).

Definition old (fl : list N) (i : N) : Prop := i < n /\ est fl i = false /\ dst fl i = false.
Definition occ (fl nf : list N) (i : N) : Prop := est nf i = false \/ old fl i.
Record mid (a : arrays V) (hand : option (bytes * V)) : Prop := {
  md_fl : n = 0 \/ has_flags (fst (fst (fst a))) n;
  md_nf : has_flags (snd (fst (fst a))) nb;
  md_ks : N.of_nat (length (snd (fst a))) = nb; md_vs : N.of_nat (length (snd a)) = nb;
  md_del : forall i, i < nb -> dst (snd (fst (fst a))) i = false;
  md_new : forall i, i < nb -> est (snd (fst (fst a))) i = false ->
    exists key v, cell (snd (fst a)) i = Some key /\ cell (snd a) i = Some v /\ In (key, v) m /\ chain nb (snd (fst (fst a))) (hf key) i;
  md_old : forall i, old (fst (fst (fst a))) i ->
    exists key v, cell (snd (fst a)) i = Some key /\ cell (snd a) i = Some v /\ In (key, v) m;
  md_excl : forall i, old (fst (fst (fst a))) i -> est (snd (fst (fst a))) i = true;
  md_dist : forall i j, i < nb -> j < nb -> occ (fst (fst (fst a))) (snd (fst (fst a))) i -> occ (fst (fst (fst a))) (snd (fst (fst a))) j ->
    cell (snd (fst a)) i = cell (snd (fst a)) j -> i = j;
  md_all : forall key v, In (key, v) m -> hand = Some (key, v) \/
    exists i, i < nb /\ occ (fst (fst (fst a))) (snd (fst (fst a))) i /\ cell (snd (fst a)) i = Some key;
  md_hand : forall key v, hand = Some (key, v) -> In (key, v) m /\
    forall i, i < nb -> occ (fst (fst (fst a))) (snd (fst (fst a))) i -> cell (snd (fst a)) i <> Some key }.

Lemma nb_pos : nb <> 0. Proof. pose proof (pow2_pos kn). fold nb in H. lia. Qed.
Lemma some_empty a hand x : mid a hand -> exists z, z < nb /\ est (snd (fst (fst a))) (probe nb x z) = true /\
  forall t, t < z -> est (snd (fst (fst a))) (probe nb x t) = false.
Proof.
  intros M. apply (least (fun z => est (snd (fst (fst a))) (probe nb x z)) nb).
  destruct (existsb (fun z => est (snd (fst (fst a))) (probe nb x z)) (upto nb)) eqn:E.
  - apply existsb_exists in E. destruct E as (z & I & Hz). apply upto_in in I. eauto.
  - exfalso. assert (A : forall i, i < nb -> est (snd (fst (fst a))) i = false).
    { intros i L. destruct (probe_onto kn x i L) as (s & Ls & <-). fold nb. destruct (est _ (probe nb x s)) eqn:Es; [|reflexivity].
      assert (X : existsb (fun z => est (snd (fst (fst a))) (probe nb x z)) (upto nb) = true); [|congruence].
      apply existsb_exists. exists s. split; [now apply upto_in|exact Es]. }
    assert (IN : incl (map (cell (snd (fst a))) (upto nb)) (map Some (map fst m))).
    { intros y Iy. apply in_map_iff in Iy. destruct Iy as (i & <- & Ii). apply upto_in in Ii.
      destruct (md_new _ _ M i Ii (A i Ii)) as (k2 & v2 & C2 & _ & I2 & _). rewrite C2. apply in_map. now apply (in_map fst) in I2. }
    apply NoDup_incl_length in IN.
    + rewrite !map_length, upto_length in IN. lia.
    + apply nodup_map_in; [apply upto_nodup|]. intros i j Ii Ij. apply upto_in in Ii, Ij. apply (md_dist _ _ M); auto; left; auto.
Qed.

Lemma empty_loop_ok nf x z : has_flags nf nb -> z < nb -> est nf (probe nb x z) = true ->
  (forall t, t < z -> est nf (probe nb x t) = false) ->
  forall fuel s, s <= z -> (N.to_nat (z - s) < fuel)%nat -> empty_loop fuel nf (nb - 1) (probe nb x s) s = Ok (probe nb x z).
Proof.
  intros F Lz Hz M. induction fuel as [|fuel IH]; intros s Ls Lf; [lia|]. cbn [empty_loop].
  rewrite (isempty_ok kn nf F) by (apply probe_lt, nb_pos). cbn [bind].
  destruct (N.eq_dec s z) as [->|Ns]; [now rewrite Hz|]. rewrite M by lia. replace (N.land (probe nb x s + (s + 1)) (nb - 1)) with (probe nb x (s + 1))
    by (rewrite <- probe_next by apply nb_pos; symmetry; apply (land_mask kn)).
  apply IH; lia.
Qed.

Definition cnt (fl : list N) : nat := length (filter (fun i => negb (est fl i || dst fl i)) (upto n)).

Lemma kick_ok : forall fuel a key v, mid a (Some (key, v)) -> (cnt (fst (fst (fst a))) < fuel)%nat ->
  exists a', kick V hf fuel n nb a key v = Ok a' /\ mid a' None /\
    (forall i, old (fst (fst (fst a'))) i -> old (fst (fst (fst a))) i).
Proof.
  induction fuel as [|fuel IH]; intros a key v M Lf; [lia|]. cbn [kick]. destruct a as [[[fl nf] ks] vs]. cbn [fst snd] in Lf.
  destruct (some_empty _ _ (hf key) M) as (z & Lz & Ez & Hz). cbn [fst snd] in Ez, Hz.
  replace (N.land (hf key) (nb - 1)) with (probe nb (hf key) 0) by (rewrite probe_0; unfold nb; now rewrite land_mask).
  rewrite (empty_loop_ok nf (hf key) z (md_nf _ _ M) Lz Ez Hz) by (unfold probes; lia). cbn [bind].
  set (i := probe nb (hf key) z) in *. assert (Li : i < nb) by (apply probe_lt, nb_pos).
  destruct (set_empty_ok kn nf (md_nf _ _ M) i Li) as (nf' & -> & Fn & En & Dn). cbn [bind]. fold nb in Fn.
  assert (Hkey := md_hand _ _ M key v eq_refl). cbn [fst snd] in Hkey. destruct Hkey as [Hin Hfree].
  assert (Hchain : chain nb nf' (hf key) i).
  { exists z. split; [exact Lz|]. split; [reflexivity|]. intros t Lt. rewrite En. destruct (probe nb (hf key) t =? i); [reflexivity|]. auto. }
  assert (Cmono : forall x j, chain nb nf x j -> chain nb nf' x j).
  { intros x j (s & Ls & Ps & Hs). exists s. split; [exact Ls|]. split; [exact Ps|]. intros t Lt. rewrite En. destruct (_ =? i); auto. }
  destruct (aput_ok ks i key) as (ks' & Eks & Lks & Cks); [pose proof (md_ks _ _ M) as X; cbn [fst snd] in X; lia|].
  destruct (aput_ok vs i v) as (vs' & Evs & Lvs & Cvs); [pose proof (md_vs _ _ M) as X; cbn [fst snd] in X; lia|].
  assert (Old : (i < n /\ exists b, iseither fl i = Ok b /\ (b = false <-> old fl i)) \/ ~ i < n).
  { destruct (N.lt_ge_cases i n) as [L|L]; [|right; lia]. left. split; [exact L|].
    destruct On as [->|E]; [lia|]. destruct (md_fl _ _ M) as [->|F]; [lia|]. cbn [fst snd] in F.
    exists (est fl i || dst fl i). rewrite E in F. rewrite (iseither_ok ko fl F) by (rewrite <- E; exact L). split; [reflexivity|].
    unfold old. destruct (est fl i), (dst fl i); cbn; intuition congruence. }
  assert (Hout : exists b, (if i <? n then let! x := iseither fl i in Ok (negb x) else Ok false) = Ok b /\ (b = true <-> old fl i)).
  { destruct Old as [(L & b & -> & B)|L].
    - exists (negb b). rewrite (proj2 (N.ltb_lt _ _) L). split; [reflexivity|]. rewrite negb_true_iff. exact B.
    - exists false. destruct (N.ltb_spec i n); [lia|]. split; [reflexivity|]. split; [discriminate|]. intros (X & _). lia. }
  destruct Hout as (b & -> & B). cbn [bind]. destruct b.
  - assert (O : old fl i) by (apply B; reflexivity). destruct (md_old _ _ M i O) as (k2 & v2 & C2 & W2 & I2). cbn [fst snd] in C2, W2.
    rewrite (aget_cell _ _ _ C2). cbn [bind]. rewrite Eks. cbn [bind]. rewrite (aget_cell _ _ _ W2). cbn [bind]. rewrite Evs. cbn [bind].
    destruct O as (Lo & Eo & Do). destruct On as [E0|E]; [lia|]. destruct (md_fl _ _ M) as [E0|F]; [lia|]. cbn [fst snd] in F.
    destruct (set_del_ok ko fl) with (i := i) as (fl' & -> & Ff & Df & Ef); [rewrite <- E; exact F|rewrite <- E; exact Lo|]. rewrite <- E in Ff. cbn [bind].
    assert (Oldeq : forall j, old fl' j <-> old fl j /\ j <> i).
    { intros j. unfold old. rewrite Ef, Df. destruct (N.eqb_spec j i); intuition congruence. }
    assert (Occ : forall j, occ fl' nf' j -> j <> i -> occ fl nf j).
    { intros j [X|X] D; [left; rewrite En in X; destruct (N.eqb_spec j i); [congruence|exact X]|right; apply Oldeq in X; apply X]. }
    assert (M' : mid (fl', nf', ks', vs') (Some (k2, v2))).
    { constructor; cbn [fst snd].
      - now right.
      - exact Fn.
      - rewrite Lks. exact (md_ks _ _ M).
      - rewrite Lvs. exact (md_vs _ _ M).
      - intros j Lj. rewrite Dn. apply (md_del _ _ M j Lj).
      - intros j Lj Ej. rewrite Cks, Cvs. rewrite En in Ej. destruct (N.eqb_spec j i) as [->|D].
        + exists key, v. auto.
        + destruct (md_new _ _ M j Lj Ej) as (k3 & v3 & C3 & W3 & I3 & Ch). exists k3, v3. auto.
      - intros j Oj. apply Oldeq in Oj. destruct Oj as [Oj D]. rewrite Cks, Cvs. destruct (N.eqb_spec j i) as [->|_]; [congruence|].
        exact (md_old _ _ M j Oj).
      - intros j Oj. apply Oldeq in Oj. destruct Oj as [Oj D]. rewrite En. destruct (N.eqb_spec j i); [congruence|]. exact (md_excl _ _ M j Oj).
      - intros j1 j2 L1 L2 O1 O2. rewrite !Cks. destruct (N.eqb_spec j1 i) as [->|D1], (N.eqb_spec j2 i) as [->|D2]; auto.
        + intros X. exfalso. apply (Hfree j2 L2 (Occ _ O2 D2)). congruence.
        + intros X. exfalso. apply (Hfree j1 L1 (Occ _ O1 D1)). congruence.
        + intros X. apply (md_dist _ _ M j1 j2 L1 L2 (Occ _ O1 D1) (Occ _ O2 D2) X).
      - intros k3 v3 I3. destruct (md_all _ _ M k3 v3 I3) as [X|(j & Lj & Oj & Cj)].
        + injection X as <- <-. right. exists i. rewrite Cks, N.eqb_refl. split; [exact Li|]. split; [|reflexivity]. left. now rewrite En, N.eqb_refl.
        + cbn [fst snd] in Oj, Cj. destruct (N.eq_dec j i) as [->|D].
          * left. rewrite C2 in Cj. injection Cj as <-. f_equal. f_equal.
            clear - Nd I2 I3. induction m as [|[a b] l IHl]; [destruct I2|]. cbn in Nd. inversion Nd as [|? ? N1 N2]; subst.
            destruct I2 as [I2|I2], I3 as [I3|I3].
            -- congruence.
            -- exfalso. apply N1. injection I2 as -> ->. now apply (in_map fst) in I3.
            -- exfalso. apply N1. injection I3 as -> ->. now apply (in_map fst) in I2.
            -- auto.
          * right. exists j. rewrite Cks. destruct (N.eqb_spec j i); [congruence|]. split; [exact Lj|]. split; [|exact Cj].
            destruct Oj as [X|X]; [left; rewrite En; destruct (N.eqb_spec j i); [reflexivity|exact X]|right; apply Oldeq; auto].
      - intros k3 v3 X. injection X as <- <-. split; [exact I2|]. intros j Lj Oj. rewrite Cks. destruct (N.eqb_spec j i) as [->|D].
        + intros X. injection X as X. apply (Hfree i Li); [right; repeat split; assumption|]. rewrite C2. now f_equal.
        + intros X. apply D. apply (md_dist _ _ M j i Lj Li); [exact (Occ _ Oj D)|right; repeat split; assumption|]. cbn [fst snd]. congruence. }
    destruct (IH _ k2 v2 M') as (a' & -> & Ma & Oa).
    { cbn [fst snd]. assert (cnt fl' < cnt fl)%nat; [|lia]. unfold cnt. apply filter_lt with (y := i).
      - intros j. rewrite Ef, Df. destruct (N.eqb_spec j i); rewrite ?orb_true_r; [discriminate|auto].
      - now apply upto_in.
      - now rewrite Eo, Do.
      - rewrite Ef, Df, N.eqb_refl, orb_true_r. reflexivity. }
    exists a'. split; [reflexivity|]. split; [exact Ma|]. intros j Oj. apply Oa in Oj. cbn [fst snd] in *. apply Oldeq in Oj. apply Oj.
  - assert (O : ~ old fl i) by (intros X; apply B in X; discriminate). rewrite Eks. cbn [bind]. rewrite Evs. cbn [bind].
    eexists. split; [reflexivity|]. split; [|cbn [fst snd]; auto].
    assert (Occ : forall j, occ fl nf' j -> j <> i -> occ fl nf j).
    { intros j [X|X] D; [left; rewrite En in X; destruct (N.eqb_spec j i); [congruence|exact X]|right; exact X]. }
    constructor; cbn [fst snd].
    + exact (md_fl _ _ M).
    + exact Fn.
    + rewrite Lks. exact (md_ks _ _ M).
    + rewrite Lvs. exact (md_vs _ _ M).
    + intros j Lj. rewrite Dn. apply (md_del _ _ M j Lj).
    + intros j Lj Ej. rewrite Cks, Cvs. rewrite En in Ej. destruct (N.eqb_spec j i) as [->|D].
      * exists key, v. auto.
      * destruct (md_new _ _ M j Lj Ej) as (k3 & v3 & C3 & W3 & I3 & Ch). exists k3, v3. auto.
    + intros j Oj. rewrite Cks, Cvs. destruct (N.eqb_spec j i) as [->|_]; [contradiction|]. exact (md_old _ _ M j Oj).
    + intros j Oj. rewrite En. destruct (N.eqb_spec j i) as [->|_]; [contradiction|]. exact (md_excl _ _ M j Oj).
    + intros j1 j2 L1 L2 O1 O2. rewrite !Cks. destruct (N.eqb_spec j1 i) as [->|D1], (N.eqb_spec j2 i) as [->|D2]; auto.
      * intros X. exfalso. apply (Hfree j2 L2 (Occ _ O2 D2)). congruence.
      * intros X. exfalso. apply (Hfree j1 L1 (Occ _ O1 D1)). congruence.
      * intros X. apply (md_dist _ _ M j1 j2 L1 L2 (Occ _ O1 D1) (Occ _ O2 D2) X).
    + intros k3 v3 I3. right. destruct (md_all _ _ M k3 v3 I3) as [X|(j & Lj & Oj & Cj)].
      * injection X as <- <-. exists i. rewrite Cks, N.eqb_refl. split; [exact Li|]. split; [|reflexivity]. left. now rewrite En, N.eqb_refl.
      * cbn [fst snd] in Oj, Cj. destruct (N.eq_dec j i) as [->|D].
        { exfalso. destruct Oj as [X|X]; [fold i in Ez; congruence|contradiction]. }
        exists j. rewrite Cks. destruct (N.eqb_spec j i); [congruence|]. split; [exact Lj|]. split; [|exact Cj].
        destruct Oj as [X|X]; [left; rewrite En; destruct (N.eqb_spec j i); [reflexivity|exact X]|right; exact X].
    + discriminate.
Qed.

Lemma rehash_ok : forall c j a, mid a None -> j + N.of_nat c = n -> (forall i, old (fst (fst (fst a))) i -> j <= i) ->
  exists a', rehash V hf c j n nb a = Ok a' /\ mid a' None /\ forall i, ~ old (fst (fst (fst a'))) i.
Proof.
  induction c as [|c IH]; intros j a M Ej Hj; cbn [rehash].
  - exists a. split; [reflexivity|]. split; [exact M|]. intros i O. pose proof (Hj i O). destruct O as (L & _). lia.
  - destruct a as [[[fl nf] ks] vs]. cbn [fst snd] in Hj. assert (Lj : j < n) by lia.
    destruct On as [E0|E]; [lia|]. destruct (md_fl _ _ M) as [E0|F]; [lia|]. cbn [fst snd] in F.
    rewrite (iseither_ok ko fl) by (rewrite <- E; assumption). cbn [bind].
    destruct (est fl j || dst fl j) eqn:Eo.
    + apply IH; [exact M|lia|]. intros i O. cbn [fst snd] in O. pose proof (Hj i O). destruct (N.eq_dec i j) as [->|]; [|lia].
      destruct O as (_ & O1 & O2). rewrite O1, O2 in Eo. discriminate.
    + apply orb_false_iff in Eo. destruct Eo as [O1 O2]. assert (O : old fl j) by (repeat split; assumption).
      destruct (md_old _ _ M j O) as (k2 & v2 & C2 & W2 & I2). cbn [fst snd] in C2, W2.
      rewrite (aget_cell _ _ _ C2). cbn [bind]. rewrite (aget_cell _ _ _ W2). cbn [bind].
      destruct (set_del_ok ko fl) with (i := j) as (fl' & -> & Ff & Df & Ef); [rewrite <- E; exact F|rewrite <- E; exact Lj|]. rewrite <- E in Ff. cbn [bind].
      assert (Oldeq : forall i, old fl' i <-> old fl i /\ i <> j).
      { intros i. unfold old. rewrite Ef, Df. destruct (N.eqb_spec i j); intuition congruence. }
      assert (Occ : forall i, occ fl' nf i -> occ fl nf i /\ i <> j).
      { intros i [X|X]; [split; [now left|intros ->; pose proof (md_excl _ _ M j O) as Y; cbn [fst snd] in Y; congruence]|apply Oldeq in X; split; [right|]; apply X]. }
      assert (M' : mid (fl', nf, ks, vs) (Some (k2, v2))).
      { constructor; cbn [fst snd].
        - now right.
        - exact (md_nf _ _ M).
        - exact (md_ks _ _ M).
        - exact (md_vs _ _ M).
        - exact (md_del _ _ M).
        - exact (md_new _ _ M).
        - intros i Oi. apply Oldeq in Oi. apply (md_old _ _ M i), Oi.
        - intros i Oi. apply Oldeq in Oi. apply (md_excl _ _ M i), Oi.
        - intros i1 i2 L1 L2 A1 A2. apply (md_dist _ _ M i1 i2 L1 L2); [apply Occ, A1|apply Occ, A2].
        - intros k3 v3 I3. destruct (md_all _ _ M k3 v3 I3) as [X|(i & Li & Oi & Ci)]; [discriminate|]. cbn [fst snd] in Oi, Ci.
          destruct (N.eq_dec i j) as [->|D].
          + left. rewrite C2 in Ci. injection Ci as <-. f_equal. f_equal.
            clear - Nd I2 I3. induction m as [|[a b] l IHl]; [destruct I2|]. cbn in Nd. inversion Nd as [|? ? N1 N2]; subst.
            destruct I2 as [I2|I2], I3 as [I3|I3].
            * congruence.
            * exfalso. apply N1. injection I2 as -> ->. now apply (in_map fst) in I3.
            * exfalso. apply N1. injection I3 as -> ->. now apply (in_map fst) in I2.
            * auto.
          + right. exists i. split; [exact Li|]. split; [|exact Ci]. destruct Oi as [X|X]; [now left|right; apply Oldeq; auto].
        - intros k3 v3 X. injection X as <- <-. split; [exact I2|]. intros i Li Oi X. destruct (Occ i Oi) as [Y D]. apply D.
          apply (md_dist _ _ M i j Li ltac:(lia) Y); [now right|]. cbn [fst snd]. congruence. }
      destruct (kick_ok (N.to_nat n + 1) _ k2 v2 M') as (a' & -> & Ma & Oa).
      { cbn [fst snd]. unfold cnt. pose proof (filter_le (fun _ => true) (fun i => negb (est fl' i || dst fl' i)) (upto n) ltac:(reflexivity)) as X.
        assert (length (filter (fun _ => true) (upto n)) = N.to_nat n) as Y; [|lia]. rewrite <- upto_length.
        generalize (upto n). clear. induction l as [|x l IHl]; cbn; congruence. }
      cbn [bind]. destruct (IH (j + 1) a' Ma ltac:(lia)) as (a2 & E2 & M2 & O3).
      { intros i Oi. apply Oa in Oi. cbn [fst snd] in Oi. apply Oldeq in Oi. destruct Oi as [Oi D]. pose proof (Hj i Oi). lia. }
      exists a2. split; [exact E2|]. split; [exact M2|exact O3].
Qed.
End Rehash.

Lemma slots_le (k : nat) fl ks vs m : slots (2 ^ N.of_nat k) fl ks vs m -> N.of_nat (length m) <= 2 ^ N.of_nat k.
Proof.
  intros S. set (n := 2 ^ N.of_nat k) in *.
  assert (IN : incl (map Some (map fst m)) (map (cell ks) (upto n))).
  { intros y Iy. apply in_map_iff in Iy. destruct Iy as (r & <- & Ir). apply in_map_iff in Ir. destruct Ir as ([r' v] & <- & I).
    destruct (sl_all _ _ _ _ _ S _ _ I) as (i & Li & _ & Ci). cbn [fst]. rewrite <- Ci. apply in_map, upto_in, Li. }
  apply NoDup_incl_length in IN.
  - rewrite !map_length, upto_length in IN. lia.
  - apply FinFun.Injective_map_NoDup; [intros a b; congruence|exact (sl_nd _ _ _ _ _ S)].
Qed.

Definition repr (h : khash) (m : list (bytes * V)) : Prop := (h = kh_init V /\ m = []) \/ exists k, tbl k h m.

Lemma pow31 (k : nat) : (k <= 31)%nat -> 2 ^ N.of_nat k <= 2147483648.
Proof. intros. change 2147483648 with (2 ^ N.of_nat 31). apply N.pow_le_mono_r; lia. Qed.

(** From [n] to [2^kn] buckets. *)
Lemma resize_ok (kn : nat) h m (ko : nat) : (2 <= kn <= 31)%nat ->
  (kb V h = 0 /\ kkeys V h = [] /\ kvals V h = [] /\ m = [] \/
   kb V h = 2 ^ N.of_nat ko /\ slots (kb V h) (kflags V h) (kkeys V h) (kvals V h) m) ->
  kb V h < 2 ^ N.of_nat kn -> N.of_nat (length m) < 2 ^ N.of_nat kn ->
  exists fl nf ks vs,
    rehash V hf (N.to_nat (kb V h)) 0 (kb V h) (2 ^ N.of_nat kn)
      (kflags V h, fresh_flags (2 ^ N.of_nat kn), grow (kkeys V h) (2 ^ N.of_nat kn), grow (kvals V h) (2 ^ N.of_nat kn)) = Ok (fl, nf, ks, vs) /\
    slots (2 ^ N.of_nat kn) nf ks vs m.
Proof.
  intros Lk Hh Lb Lm. set (nb := 2 ^ N.of_nat kn) in *.
  assert (On : kb V h = 0 \/ kb V h = 2 ^ N.of_nat ko) by tauto.
  assert (Nd : NoDup (map fst m)) by (destruct Hh as [(_ & _ & _ & ->)|[_ S]]; [constructor|exact (sl_nd _ _ _ _ _ S)]).
  assert (Ln : kb V h <= nb) by lia.
  assert (M : mid kn (kb V h) m (kflags V h, fresh_flags nb, grow (kkeys V h) nb, grow (kvals V h) nb) None).
  { assert (Lks : N.of_nat (length (kkeys V h)) = kb V h) by (destruct Hh as [(-> & -> & _)|[_ S]]; [reflexivity|exact (sl_ks _ _ _ _ _ S)]).
    assert (Lvs : N.of_nat (length (kvals V h)) = kb V h) by (destruct Hh as [(-> & _ & -> & _)|[_ S]]; [reflexivity|exact (sl_vs _ _ _ _ _ S)]).
    assert (OS : forall i, old (kb V h) (kflags V h) i -> slots (kb V h) (kflags V h) (kkeys V h) (kvals V h) m).
    { intros i (L & _). destruct Hh as [(E & _)|[_ S]]; [lia|exact S]. }
    assert (OO : forall i, i < nb -> occ (kb V h) (kflags V h) (fresh_flags nb) i -> old (kb V h) (kflags V h) i).
    { intros i Li [X|X]; [|exact X]. unfold nb in X. rewrite fresh_est in X by exact Li. discriminate. }
    constructor; cbn [fst snd].
    - destruct Hh as [(E & _)|[_ S]]; [now left|right; exact (sl_fl _ _ _ _ _ S)].
    - apply fresh_ok.
    - apply grow_length. lia.
    - apply grow_length. lia.
    - intros i L. apply fresh_dst, L.
    - intros i L E. unfold nb in E. rewrite fresh_est in E by exact L. discriminate.
    - intros i O. pose proof (OS i O) as S. destruct O as (L & E & _). destruct (sl_slot _ _ _ _ _ S i L E) as (key & v & C & W & I & _).
      exists key, v. rewrite !grow_cell. auto.
    - intros i (L & _). apply fresh_est. fold nb. lia.
    - intros i j Li Lj Oi Oj. rewrite !grow_cell. apply OO in Oi, Oj; [|assumption..]. pose proof (OS i Oi) as S.
      destruct Oi as (Li' & Ei & _), Oj as (Lj' & Ej & _). exact (sl_dist _ _ _ _ _ S i j Li' Lj' Ei Ej).
    - intros key v I. right. destruct Hh as [(_ & _ & _ & ->)|[_ S]]; [destruct I|].
      destruct (sl_all _ _ _ _ _ S key v I) as (i & L & E & C). exists i. rewrite grow_cell. split; [lia|]. split; [|exact C].
      right. repeat split; auto. apply (sl_del _ _ _ _ _ S i L).
    - discriminate. }
  destruct (rehash_ok kn (kb V h) ko On Ln m Lm Nd (N.to_nat (kb V h)) 0 _ M ltac:(lia) ltac:(intros; lia)) as ([[[fl nf] ks] vs] & E & M' & No).
  exists fl, nf, ks, vs. split; [exact E|]. cbn [fst snd] in No.
  constructor.
  - exact (md_nf _ _ _ _ _ M').
  - exact (md_ks _ _ _ _ _ M').
  - exact (md_vs _ _ _ _ _ M').
  - exact Nd.
  - exact (md_del _ _ _ _ _ M').
  - exact (md_new _ _ _ _ _ M').
  - intros key v I. destruct (md_all _ _ _ _ _ M' key v I) as [X|(i & Li & [O|O] & Ci)]; [discriminate| |].
    + exists i. auto.
    + exfalso. exact (No i O).
  - intros i j Li Lj Ei Ej. apply (md_dist _ _ _ _ _ M' i j Li Lj); now left.
Qed.

Definition grown (h : khash) : res khash :=
  if kupper V h <=? kocc V h then
    if (2 * ksize V h) mod W32 <? kb V h
    then kh_resize V hf h ((kb V h + (W32 - 1)) mod W32)
    else kh_resize V hf h ((kb V h + 1) mod W32)
  else Ok h.
Lemma grown_ok h m : repr h m -> exists k h', grown h = Ok h' /\ tbl k h' m /\ (N.of_nat (length m) < kb V h' \/ k = 31%nat).
Proof.
  intros R. unfold grown. destruct R as [[-> ->]|[k R]].
  - cbn [kh_init kupper kocc ksize kb]. change (0 <=? 0) with true. change ((2 * 0) mod W32 <? 0) with false. cbv iota.
    unfold kh_resize. change (kroundup32 ((0 + 1) mod W32)) with 1. change (1 <? 4) with true. cbv iota. cbn [ksize kb kkeys kvals kflags kh_init].
    change (upper 4 <=? 0) with false. change (0 <? 4) with true. change (4 <? 0) with false. cbv iota.
    destruct (resize_ok 2 (kh_init V) [] 0 ltac:(lia)) as (fl & nf & ks & vs & E & S); [left; auto|reflexivity|reflexivity|].
    change (2 ^ N.of_nat 2) with 4 in E. cbn [kh_init kb kflags kkeys kvals] in E. rewrite E. cbn [bind].
    eexists 2%nat, _. split; [reflexivity|]. split; [|left; reflexivity]. constructor; auto; lia.
  - destruct (N.leb_spec (kupper V h) (kocc V h)) as [L|L].
    2:{ exists k, h. split; [reflexivity|]. split; [exact R|]. left. destruct R as [Hn Hk _ Ho Hu _].
        rewrite Hu, Ho, Hn in L. pose proof (upper_tab k Hk). rewrite Hn. lia. }
    pose proof R as R0. destruct R as [Hn Hk Hs Ho Hu S]. pose proof (upper_tab k Hk) as [U1 U2]. rewrite Hu, Ho, Hn in L.
    assert (Sn : N.of_nat (length m) <= 2 ^ N.of_nat k) by (rewrite Hn in S; exact (slots_le _ _ _ _ _ S)).
    pose proof (pow31 k ltac:(lia)) as P31. rewrite Hs, Hn.
    destruct (Nat.eq_dec k 31) as [->|N31].
    + exists 31%nat, h. change (2 ^ N.of_nat 31) with 2147483648 in *.
      assert (X : kh_resize V hf h ((2147483648 + 1) mod W32) = Ok h).
      { unfold kh_resize. change (kroundup32 ((2147483648 + 1) mod W32)) with 0. change (0 <? 4) with true. cbv iota.
        change (upper 4) with 3. rewrite Hs. destruct (N.leb_spec 3 (N.of_nat (length m))); [reflexivity|].
        exfalso. assert (3 <= upper 2147483648) by (vm_compute; discriminate). lia. }
      assert (Y : kh_resize V hf h ((2147483648 + (W32 - 1)) mod W32) = Ok h).
      { unfold kh_resize. change (kroundup32 ((2147483648 + (W32 - 1)) mod W32)) with 2147483648. change (2147483648 <? 4) with false. cbv iota.
        rewrite Hs. destruct (N.leb_spec (upper 2147483648) (N.of_nat (length m))); [reflexivity|lia]. }
      destruct (_ <? _); [rewrite Y|rewrite X]; auto.
    + assert (P30 : 2 ^ N.of_nat k <= 1073741824) by (change 1073741824 with (2 ^ N.of_nat 30); apply N.pow_le_mono_r; lia).
      rewrite (N.mod_small (2 * _)) by (unfold W32; lia). destruct (N.ltb_spec (2 * N.of_nat (length m)) (2 ^ N.of_nat k)); [lia|].
      pose proof (upper_tab (Datatypes.S k) ltac:(lia)) as [V1 V2].
      assert (D : 2 ^ N.of_nat (Datatypes.S k) = 2 * 2 ^ N.of_nat k) by (rewrite Nat2N.inj_succ; apply N.pow_succ_r').
      unfold kh_resize. rewrite round_tab by lia.
      assert (F4 : 4 <= 2 ^ N.of_nat k) by (change 4 with (2 ^ N.of_nat 2); apply N.pow_le_mono_r; lia).
      rewrite (proj2 (N.ltb_ge _ _)) by lia. rewrite Hs, (proj2 (N.leb_gt _ _)) by lia. rewrite Hn.
      rewrite (proj2 (N.ltb_lt (2 ^ N.of_nat k) _)) by lia. rewrite (proj2 (N.ltb_ge _ (2 ^ N.of_nat k))) by lia.
      destruct (resize_ok (Datatypes.S k) h m k ltac:(lia)) as (fl & nf & ks & vs & E & S'); [right; auto|lia|lia|].
      rewrite Hn in E. rewrite E. cbn [bind]. eexists (Datatypes.S k), _. split; [reflexivity|].
      split; [|left; cbn [kb]; lia]. constructor; cbn [kb ksize kocc kupper kflags kkeys kvals]; auto. lia.
Qed.

(** What the table holds. *)
Fixpoint find (m : list (bytes * V)) (key : bytes) : option V :=
  match m with [] => None | (k', v) :: m => if bytes_eqb k' key then Some v else find m key end.
Lemma find_none m key : find m key = None <-> ~ In key (map fst m).
Proof.
  induction m as [|[k v] m IH]; cbn; [tauto|]. destruct (bytes_eqb_spec k key) as [->|D]; [intuition discriminate|]. rewrite IH. tauto.
Qed.
Lemma find_in m key v : NoDup (map fst m) -> In (key, v) m -> find m key = Some v.
Proof.
  induction m as [|[k v'] m IH]; cbn; intros N I; [tauto|]. inversion N as [|? ? N1 N2]; subst.
  destruct I as [I|I]; [injection I as -> ->; now rewrite bytes_eqb_refl|].
  destruct (bytes_eqb_spec k key) as [->|D]; [|auto]. exfalso. apply N1. now apply (in_map fst) in I.
Qed.

Lemma lookup_ok h m key : repr h m -> kc_lookup V hf h key = Ok (find m key).
Proof.
  intros [[-> ->]|[k R]]; [reflexivity|]. destruct R as [Hn Hk Hs Ho Hu S]. unfold kc_lookup, kh_get.
  pose proof (pow2_pos k) as P. rewrite Hn. destruct (N.eqb_spec (2 ^ N.of_nat k) 0); [lia|]. rewrite land_mask, <- probe_0. rewrite Hn in S.
  destruct (stop_or_full k h key) as [(z & Lz & Ez & Mz)|Fu].
  - rewrite (get_loop_stop k h m key Hn S z Lz Ez Mz) by (unfold probes; lia). cbn [bind].
    pose proof (probe_lt (2 ^ N.of_nat k) (hf key) z ltac:(lia)) as Lp.
    destruct (est (kflags V h) (probe (2 ^ N.of_nat k) (hf key) z)) eqn:E.
    + rewrite N.eqb_refl. f_equal. symmetry. apply find_none. exact (stop_empty k h m key S z Lz E Mz).
    + destruct (N.eqb_spec (probe (2 ^ N.of_nat k) (hf key) z) (2 ^ N.of_nat k)); [lia|].
      pose proof (stop_key k h key _ Lp Ez E) as C. destruct (sl_slot _ _ _ _ _ S _ Lp E) as (k2 & v & C2 & W & I & _).
      rewrite C in C2. injection C2 as <-. rewrite (aget_cell _ _ _ W). cbn [bind]. f_equal. symmetry. apply find_in; [exact (sl_nd _ _ _ _ _ S)|exact I].
  - rewrite (get_loop_full k h m key Hn S Fu) by (unfold probes; lia). cbn [bind]. rewrite N.eqb_refl. f_equal. symmetry.
    apply find_none. apply (full_none k h m key Hn S Fu).
Qed.

(** Insertion: the first node stored under a hash stays; at 2^31 records nothing is added. *)
Definition room (m : list (bytes * V)) (key : bytes) : bool :=
  match find m key with Some _ => false | None => negb (N.of_nat (length m) =? 2147483648) end.
Definition add (m : list (bytes * V)) (key : bytes) (v : V) : list (bytes * V) :=
  if room m key then (key, v) :: m else m.
Lemma kh_put_eq h key : kh_put V hf h key =
  let! h := grown h in
  let n := kb V h in
  let i := N.land (hf key) ((n + (W32 - 1)) mod W32) in
  let! e := isempty (kflags V h) i in
  let! x := (if e then Ok i else
             let! (r, site) := put_loop V (probes n) h key i i 0 n in
             let '(x, i) := match r with inl i => (n, i) | inr x => (x, i) end in
             if x =? n then
               let! e := isempty (kflags V h) i in
               Ok (if e && negb (site =? n) then site else i)
             else Ok x) in
  let! e := isempty (kflags V h) x in
  if e then
    let! ks := aput (kkeys V h) x key in
    let! fl := set_isboth_false (kflags V h) x in
    Ok (mkkh V n (ksize V h + 1) (kocc V h + 1) (kupper V h) fl ks (kvals V h), x, 1)
  else
    let! d := isdel (kflags V h) x in
    if d then
      let! ks := aput (kkeys V h) x key in
      let! fl := set_isboth_false (kflags V h) x in
      Ok (mkkh V n (ksize V h + 1) (kocc V h) (kupper V h) fl ks (kvals V h), x, 2)
    else Ok (h, x, 0).
Proof. reflexivity. Qed.

Lemma insert_ok h m key v : repr h m -> exists h', kc_insert V hf h key v = Ok (h', room m key) /\ repr h' (add m key v).
Proof.
  intros R. unfold kc_insert. rewrite kh_put_eq. destruct (grown_ok h m R) as (k & h1 & -> & T1 & Room). cbn [bind]. cbv zeta. clear h R.
  pose proof T1 as T0. destruct T1 as [Hn Hk Hs Ho Hu S]. pose proof (pow2_pos k) as P. pose proof (pow31 k ltac:(lia)) as P31.
  rewrite Hn in *. set (n := 2 ^ N.of_nat k) in *.
  assert (Em : (n + (W32 - 1)) mod W32 = n - 1).
  { replace (n + (W32 - 1)) with (n - 1 + 1 * W32) by (unfold W32; lia). rewrite N.mod_add by discriminate. apply N.mod_small. unfold W32. lia. }
  rewrite Em. replace (N.land (hf key) (n - 1)) with (probe n (hf key) 0) by (rewrite probe_0; symmetry; apply (land_mask k)).
  pose proof (probe_lt n (hf key) 0 ltac:(lia)) as L0.
  rewrite (isempty_ok k (kflags V h1) (sl_fl _ _ _ _ _ S) _ L0). cbn [bind].
  (* the bucket found *)
  assert (X : (exists z, z < n /\ stops (kflags V h1) (kkeys V h1) key (probe n (hf key) z) = true /\
                (forall t, t < z -> stops (kflags V h1) (kkeys V h1) key (probe n (hf key) t) = false) /\
                (if est (kflags V h1) (probe n (hf key) 0) then Ok (probe n (hf key) 0) else
                 let! (r, site) := put_loop V (probes n) h1 key (probe n (hf key) 0) (probe n (hf key) 0) 0 n in
                 let '(x, i) := match r with inl i => (n, i) | inr x => (x, probe n (hf key) 0) end in
                 if x =? n then
                   let! e := isempty (kflags V h1) i in Ok (if e && negb (site =? n) then site else i)
                 else Ok x) = Ok (probe n (hf key) z)) \/
              ((forall i, i < n -> stops (kflags V h1) (kkeys V h1) key i = false) /\
                (if est (kflags V h1) (probe n (hf key) 0) then Ok (probe n (hf key) 0) else
                 let! (r, site) := put_loop V (probes n) h1 key (probe n (hf key) 0) (probe n (hf key) 0) 0 n in
                 let '(x, i) := match r with inl i => (n, i) | inr x => (x, probe n (hf key) 0) end in
                 if x =? n then
                   let! e := isempty (kflags V h1) i in Ok (if e && negb (site =? n) then site else i)
                 else Ok x) = Ok (probe n (hf key) 0))).
  { destruct (stop_or_full k h1 key) as [(z & Lz & Ez & Mz)|Fu]; [fold n in Lz, Ez, Mz|fold n in Fu].
    - left. exists z. repeat split; auto. destruct (est (kflags V h1) (probe n (hf key) 0)) eqn:E0.
      + destruct (N.eq_dec z 0) as [->|Nz]; [reflexivity|]. specialize (Mz 0 ltac:(lia)). unfold stops in Mz. rewrite E0 in Mz. discriminate.
      + rewrite (put_loop_stop k h1 m key Hn S z Lz Ez Mz) by (unfold probes; fold n; lia). fold n. cbn [bind]. rewrite N.eqb_refl.
        rewrite (isempty_ok k (kflags V h1) (sl_fl _ _ _ _ _ S)) by (apply probe_lt; fold n; lia). fold n. cbn [bind negb]. now rewrite andb_false_r.
    - right. split; [exact Fu|]. pose proof (Fu _ L0) as E0. apply orb_false_iff in E0. destruct E0 as [E0 _]. rewrite E0.
      rewrite (put_loop_full k h1 m key Hn S Fu) by (unfold probes; fold n; lia). cbn [bind]. fold n. rewrite N.eqb_refl.
      rewrite (isempty_ok k (kflags V h1) (sl_fl _ _ _ _ _ S) _ L0). cbn [bind negb]. now rewrite andb_false_r. }
  destruct X as [(z & Lz & Ez & Mz & ->)|[Fu ->]]; cbn [bind].
  - pose proof (probe_lt n (hf key) z ltac:(lia)) as Lp.
    rewrite (isempty_ok k (kflags V h1) (sl_fl _ _ _ _ _ S) _ Lp). cbn [bind].
    destruct (est (kflags V h1) (probe n (hf key) z)) eqn:E.
    + pose proof (stop_empty k h1 m key S z Lz E Mz) as Nk.
      assert (Lm : N.of_nat (length m) < n).
      { destruct Room as [Q|Q]; [exact Q|]. pose proof (slots_le k _ _ _ _ S) as Le. fold n in Le. destruct (N.eq_dec (N.of_nat (length m)) n) as [Q2|Q2]; [|lia].
        exfalso. (* an empty bucket in a full table *)
        set (x := probe n (hf key) z) in *.
        assert (IN : incl (map Some (map fst m)) (map (cell (kkeys V h1)) (filter (fun i => negb (i =? x)) (upto n)))).
        { intros y Iy. apply in_map_iff in Iy. destruct Iy as (r & <- & Ir). apply in_map_iff in Ir. destruct Ir as ([r' v'] & <- & I).
          destruct (sl_all _ _ _ _ _ S _ _ I) as (i & Li & Ei & Ci). cbn [fst]. rewrite <- Ci. apply in_map, filter_In. split; [apply upto_in, Li|].
          destruct (N.eqb_spec i x) as [->|]; [congruence|reflexivity]. }
        apply NoDup_incl_length in IN.
        - rewrite !map_length in IN. pose proof (filter_lt (fun _ => true) (fun i => negb (i =? x)) (upto n) x ltac:(reflexivity) ltac:(apply upto_in; exact Lp) eq_refl) as Q3.
          cbv beta in Q3. rewrite N.eqb_refl in Q3. specialize (Q3 eq_refl).
          assert (length (filter (fun _ : N => true) (upto n)) = N.to_nat n) as Y; [|lia]. rewrite <- upto_length.
          generalize (upto n). clear. induction l as [|a l IHl]; cbn; congruence.
        - apply FinFun.Injective_map_NoDup; [intros a b; congruence|exact (sl_nd _ _ _ _ _ S)]. }
      destruct (aput_ok (kkeys V h1) (probe n (hf key) z) key) as (ks' & -> & Lks & Cks); [rewrite (sl_ks _ _ _ _ _ S); exact Lp|]. cbn [bind].
      destruct (set_both_ok k (kflags V h1) (sl_fl _ _ _ _ _ S) _ Lp) as (fl' & -> & Ff & Ef & Df). cbn [bind]. fold n in Ff, Ef, Df.
      change (1 =? 0) with false. cbv iota. cbn [kvals kb ksize kocc kupper kflags kkeys].
      destruct (aput_ok (kvals V h1) (probe n (hf key) z) v) as (vs' & -> & Lvs & Cvs); [rewrite (sl_vs _ _ _ _ _ S); exact Lp|]. cbn [bind].
      assert (Rm : room m key = true).
      { unfold room. rewrite (proj2 (find_none m key) Nk). destruct (N.eqb_spec (N.of_nat (length m)) 2147483648) as [Q|Q]; [lia|reflexivity]. }
      unfold add. rewrite Rm. eexists. split; [reflexivity|]. right. exists k.
      constructor; cbn [kvals kb ksize kocc kupper kflags kkeys]; auto; try (cbn [length]; lia); try congruence.
      constructor.
      * exact Ff.
      * rewrite Lks. exact (sl_ks _ _ _ _ _ S).
      * rewrite Lvs. exact (sl_vs _ _ _ _ _ S).
      * cbn. constructor; [exact Nk|exact (sl_nd _ _ _ _ _ S)].
      * intros i Li. rewrite Df. destruct (i =? _); [reflexivity|]. apply (sl_del _ _ _ _ _ S i Li).
      * intros i Li Ei. rewrite Cks, Cvs. rewrite Ef in Ei. destruct (N.eqb_spec i (probe n (hf key) z)) as [->|D].
        -- exists key, v. split; [reflexivity|]. split; [reflexivity|]. split; [now left|]. exists z. split; [exact Lz|]. split; [reflexivity|].
           intros t Lt. rewrite Ef. destruct (_ =? _); [reflexivity|]. specialize (Mz t Lt). now apply orb_false_iff in Mz.
        -- destruct (sl_slot _ _ _ _ _ S i Li Ei) as (k2 & v2 & C2 & W2 & I2 & (s & Ls & Ps & Hs2)). exists k2, v2. split; [exact C2|]. split; [exact W2|].
           split; [now right|]. exists s. split; [exact Ls|]. split; [exact Ps|]. intros t Lt. rewrite Ef. destruct (_ =? _); [reflexivity|auto].
      * intros k2 v2 [I|I].
        -- injection I as <- <-. exists (probe n (hf key) z). rewrite Cks, Ef, N.eqb_refl. auto.
        -- destruct (sl_all _ _ _ _ _ S _ _ I) as (i & Li & Ei & Ci). exists i. rewrite Cks, Ef.
           destruct (N.eqb_spec i (probe n (hf key) z)) as [->|D]; [congruence|auto].
      * intros i j Li Lj. rewrite !Ef, !Cks.
        assert (Q1 : forall j, j < n -> est (kflags V h1) j = false -> cell (kkeys V h1) j <> Some key).
        { intros j0 L1 E1 C1. apply Nk. destruct (sl_slot _ _ _ _ _ S j0 L1 E1) as (k2 & v2 & C2 & _ & I2 & _). rewrite C1 in C2. injection C2 as <-.
          now apply (in_map fst) in I2. }
        destruct (N.eqb_spec i (probe n (hf key) z)) as [->|D1], (N.eqb_spec j (probe n (hf key) z)) as [->|D2]; auto.
        -- intros _ Ej X. exfalso. exact (Q1 j Lj Ej (eq_sym X)).
        -- intros Ei _ X. exfalso. exact (Q1 i Li Ei X).
        -- intros Ei Ej X. exact (sl_dist _ _ _ _ _ S i j Li Lj Ei Ej X).
    + rewrite (isdel_ok k (kflags V h1) (sl_fl _ _ _ _ _ S) _ Lp), (sl_del _ _ _ _ _ S _ Lp). cbn [bind]. change (0 =? 0) with true. cbv iota.
      unfold add, room. destruct (find m key) as [w|] eqn:Fd; [exists h1; split; [reflexivity|]; right; exists k; exact T0|]. exfalso. apply find_none in Fd. apply Fd.
      pose proof (stop_key k h1 key _ Lp Ez E) as C. destruct (sl_slot _ _ _ _ _ S _ Lp E) as (k2 & v2 & C2 & W & I & _).
      rewrite C in C2. injection C2 as <-. now apply (in_map fst) in I.
  - rewrite (isempty_ok k (kflags V h1) (sl_fl _ _ _ _ _ S) _ L0). cbn [bind].
    pose proof (Fu _ L0) as E0. apply orb_false_iff in E0. destruct E0 as [E0 _]. rewrite E0.
    rewrite (isdel_ok k (kflags V h1) (sl_fl _ _ _ _ _ S) _ L0), (sl_del _ _ _ _ _ S _ L0). cbn [bind]. change (0 =? 0) with true. cbv iota.
    exists h1. unfold add, room.
    destruct (full_none k h1 m key Hn S Fu) as [Nk Fm]. fold n in Fm. rewrite (proj2 (find_none m key) Nk).
    destruct Room as [Q|Q]; [lia|]. subst k. rewrite Fm. unfold n. change (2 ^ N.of_nat 31 =? 2147483648) with true. cbv iota. cbn [negb]. split; [reflexivity|]. right. exists 31%nat. exact T0.
Qed.

Lemma clear_ok h m : repr h m -> exists l, kc_clear V h = Ok l /\ Permutation l (map snd m).
Proof.
  intros [[-> ->]|[k R]]; [exists []; split; [reflexivity|constructor]|]. destruct R as [Hn Hk Hs Ho Hu S]. unfold kc_clear. rewrite Hn in *.
  set (n := 2 ^ N.of_nat k) in *.
  assert (X : forall c i, i + N.of_nat c = n -> exists P, clear_loop V c i h = Ok (map snd P) /\ NoDup (map fst P) /\
            forall key v, In (key, v) P <-> exists j, i <= j /\ j < n /\ est (kflags V h) j = false /\ cell (kkeys V h) j = Some key /\ cell (kvals V h) j = Some v).
  { induction c as [|c IH]; intros i E; cbn [clear_loop].
    - exists []. split; [reflexivity|]. split; [constructor|]. intros key v. split; [intros []|]. intros (j & L1 & L2 & _). lia.
    - assert (Li : i < n) by lia. rewrite (iseither_ok k (kflags V h) (sl_fl _ _ _ _ _ S) _ Li), (sl_del _ _ _ _ _ S _ Li), orb_false_r. cbn [bind].
      destruct (IH (i + 1) ltac:(lia)) as (P & EP & NP & HP). destruct (est (kflags V h) i) eqn:Ei.
      + exists P. split; [exact EP|]. split; [exact NP|]. intros key v. rewrite HP. split; intros (j & L1 & L2 & A & B & D).
        * exists j. repeat split; auto. lia.
        * exists j. repeat split; auto. destruct (N.eq_dec j i) as [->|]; [congruence|lia].
      + destruct (sl_slot _ _ _ _ _ S i Li Ei) as (k2 & v2 & C2 & W2 & _). rewrite (aget_cell _ _ _ W2). cbn [bind]. rewrite EP. cbn [bind].
        exists ((k2, v2) :: P). split; [reflexivity|]. split.
        * cbn. constructor; [|exact NP]. intros I. apply in_map_iff in I. destruct I as ([k3 v3] & E3 & I). cbn in E3. subst k3. apply HP in I.
          destruct I as (j & L1 & L2 & A & B & _). assert (i = j); [|lia]. apply (sl_dist _ _ _ _ _ S i j Li L2 Ei A). congruence.
        * intros key v. split.
          -- intros [I|I]; [injection I as <- <-; exists i; repeat split; auto; lia|]. apply HP in I. destruct I as (j & L1 & L2 & A). exists j. split; [lia|]. split; [exact L2|exact A].
          -- intros (j & L1 & L2 & A & B & D). destruct (N.eq_dec j i) as [->|]; [left; congruence|]. right. apply HP. exists j. repeat split; auto. lia. }
  destruct (X (N.to_nat n) 0 ltac:(lia)) as (P & -> & NP & HP). eexists. split; [reflexivity|]. apply Permutation_map, NoDup_Permutation.
  - exact (NoDup_map_inv fst P NP).
  - exact (NoDup_map_inv fst m (sl_nd _ _ _ _ _ S)).
  - intros [key v]. rewrite HP. split.
    + intros (j & _ & L & A & B & D). destruct (sl_slot _ _ _ _ _ S j L A) as (k2 & v2 & C2 & W2 & I & _). congruence.
    + intros I. destruct (sl_all _ _ _ _ _ S _ _ I) as (j & L & A & B). exists j. split; [lia|]. split; [exact L|]. split; [exact A|]. split; [exact B|].
      destruct (sl_slot _ _ _ _ _ S j L A) as (k2 & v2 & C2 & W2 & I2 & _). rewrite B in C2. injection C2 as <-. rewrite W2. f_equal.
      pose proof (find_in m key v (sl_nd _ _ _ _ _ S) I). pose proof (find_in m key v2 (sl_nd _ _ _ _ _ S) I2). congruence.
Qed.
End Map.
