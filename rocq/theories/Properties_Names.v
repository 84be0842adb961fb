(** * C33 (data file names) and C37 (hexadecimal text). *)
From Verif Require Import Names.
From Coq Require Import ZifyBool ZifyNat ZifyN Sorted.

(** ** Specification *)

(** The number a string of decimal digits denotes. *)
Definition digit (c : byte) : Prop := (48 <= b2n c <= 57)%N.
Definition value (s : bytes) : N := fold_left (fun a c => 10 * a + (b2n c - 48))%N s 0%N.
(** C strings contain no NUL. *)
Definition cstring (s : bytes) : Prop := ~ In x00 s.
Definition u32 (n : N) : Prop := (n < 4294967296)%N.
(** The name of data file number [n]: what a 11-byte buffer holds before the NUL. *)
Definition filename (n : N) : bytes := firstn 10 (serialize_u32 (repeat x00 11) n).

(** ** Proofs *)
Lemma fold_value s : forall a, fold_left (fun a c => 10 * a + (b2n c - 48))%N s a = (a * 10 ^ N.of_nat (length s) + value s)%N.
Proof.
  unfold value. induction s as [|c s IH]; intros a; cbn [fold_left length]; [cbn; lia|].
  rewrite IH, (IH (10 * 0 + _)%N). rewrite Nat2N.inj_succ, N.pow_succ_r by lia. lia.
Qed.
Lemma value_cons c s : value (c :: s) = ((b2n c - 48) * 10 ^ N.of_nat (length s) + value s)%N.
Proof. unfold value at 1. cbn [fold_left]. rewrite fold_value. f_equal. Qed.
Lemma value_bound s : Forall digit s -> (value s < 10 ^ N.of_nat (length s))%N.
Proof.
  induction 1 as [|c s D F IH]; [cbn; lia|]. rewrite value_cons. cbn [length]. rewrite Nat2N.inj_succ, N.pow_succ_r by lia.
  unfold digit in D. nia.
Qed.
Lemma value_mono s t : length s = length t -> Forall digit s -> Forall digit t -> lex_lt s t -> (value s < value t)%N.
Proof.
  revert t. induction s as [|c s IH]; intros [|d t] L Fs Ft O; cbn [length] in L; try lia; [contradiction O|].
  inversion Fs; inversion Ft; subst. rewrite !value_cons. injection L as L. rewrite L.
  pose proof (value_bound s ltac:(assumption)) as B. rewrite L in B. unfold digit in *. destruct O as [O|[-> O]].
  - nia.
  - specialize (IH t L ltac:(assumption) ltac:(assumption) O). lia.
Qed.

Lemma parse_loop_spec s : cstring s -> forall n num, (num <= 4294967295)%N ->
  (length s = n /\ Forall digit s /\ (num * 10 ^ N.of_nat n + value s <= 4294967295)%N /\
     parse_loop n num (s ++ [x00]) = Ok (Some (num * 10 ^ N.of_nat n + value s)%N)) \/
  (~ (length s = n /\ Forall digit s /\ (num * 10 ^ N.of_nat n + value s <= 4294967295)%N) /\ parse_loop n num (s ++ [x00]) = Ok None).
Proof.
  induction s as [|c s IH]; intros CS n num Ln.
  - cbn [app length]. destruct n as [|n]; [left|right].
    + cbn [parse_loop]. change (b2n x00 =? 0)%N with true. cbv iota. cbn. split; [reflexivity|]. split; [constructor|]. split; [lia|]. do 2 f_equal. lia.
    + split; [lia|]. reflexivity.
  - assert (Nc : (b2n c <> 0)%N).
    { intros E. apply CS. left. apply b2n_inj. rewrite E. reflexivity. }
    assert (CS' : cstring s) by (intros I; apply CS; now right).
    cbn [app]. destruct n as [|n]; cbn [parse_loop].
    + right. cbn [length]. split; [lia|]. destruct (N.eqb_spec (b2n c) 0); [contradiction|reflexivity].
    + destruct (N.eqb_spec (b2n c) 0) as [|_]; [contradiction|].
      destruct ((b2n c <? 48)%N || (57 <? b2n c)%N) eqn:Ed.
      { right. split; [|reflexivity]. intros (_ & F & _). inversion F as [|? ? D _]; subst. unfold digit in D. lia. }
      assert (D : digit c) by (unfold digit; lia).
      assert (P0 : (1 <= 10 ^ N.of_nat n)%N) by (pose proof (N.pow_nonzero 10 (N.of_nat n)); lia).
      assert (Ev : (num * 10 ^ N.of_nat (S n) + value (c :: s) = (num * 10 + (b2n c - 48)) * 10 ^ N.of_nat n + value s)%N \/ length s <> n).
      { destruct (Nat.eq_dec (length s) n) as [E|E]; [left|now right]. rewrite value_cons, E, Nat2N.inj_succ, N.pow_succ_r by lia. lia. }
      destruct (N.ltb_spec 4294967295 (num * 10 + (b2n c - 48))) as [X|X].
      { right. split; [|reflexivity]. intros (L & _ & B). injection L as L. destruct Ev as [Ev|Ev]; [|contradiction]. rewrite Ev in B. nia. }
      destruct (IH CS' n (num * 10 + (b2n c - 48))%N X) as [(L & F & B & E)|(Nn & E)].
      * left. destruct Ev as [Ev|Ev]; [|contradiction]. rewrite Ev. cbn [length]. split; [lia|]. split; [constructor; assumption|]. split; [exact B|exact E].
      * right. split; [|exact E]. intros (L & F & B). injection L as L. destruct Ev as [Ev|Ev]; [|contradiction]. rewrite Ev in B.
        inversion F; subst. apply Nn. auto.
Qed.

(** A string is recognised exactly when it is ten digits denoting a 32-bit number; no
    string makes the parser read beyond its end. *)
Theorem C33_recognised : forall s, cstring s -> exists r, parse_u32 (s ++ [x00]) = Ok r /\
  forall n, r = Some n <-> (length s = 10 /\ Forall digit s /\ value s = n /\ u32 n).
Proof.
  intros s CS. unfold parse_u32, u32. destruct (parse_loop_spec s CS 10 0 ltac:(lia)) as [(L & F & B & E)|(Nn & E)]; rewrite E.
  - rewrite N.mul_0_l, N.add_0_l in *. eexists. split; [reflexivity|]. intros n. split.
    + intros [= <-]. split; [exact L|]. split; [exact F|]. split; [reflexivity|lia].
    + intros (_ & _ & -> & _). reflexivity.
  - eexists. split; [reflexivity|]. intros n. split; [discriminate|]. intros (L & F & V & U). exfalso. apply Nn.
    rewrite N.mul_0_l, N.add_0_l. split; [exact L|]. split; [exact F|lia].
Qed.
Print Assumptions C33_recognised.

Fixpoint digits (k : nat) (num : N) : bytes :=
  match k with O => [] | S k => digits k (num / 10) ++ [n2b (48 + num mod 10)] end.
Lemma digits_length k : forall n, length (digits k n) = k.
Proof. induction k as [|k IH]; intros n; [reflexivity|]. cbn [digits]. rewrite app_length, IH. cbn. lia. Qed.
Lemma serialize_loop_spec i : forall num out, i <= length out -> serialize_loop i num out = digits i num ++ skipn i out.
Proof.
  induction i as [|i IH]; intros num out L; [reflexivity|]. cbn [serialize_loop digits]. rewrite IH by (rewrite upd_length; lia).
  rewrite <- app_assoc. f_equal. rewrite <- (firstn_skipn i out) at 1. rewrite upd_app_r by (rewrite firstn_length; lia).
  rewrite firstn_length, Nat.min_l, Nat.sub_diag by lia. rewrite skipn_app, skipn_all2, firstn_length, Nat.min_l, Nat.sub_diag by (rewrite ?firstn_length; lia).
  assert (E1 : skipn (S i) out = skipn 1 (skipn i out)) by (clear; revert out; induction i as [|i IH]; intros [|x out]; auto; apply (IH out)).
  cbn [app]. change (skipn 0 ?a) with a. rewrite E1.
  destruct (skipn i out) as [|x y] eqn:E; [|reflexivity]. apply (f_equal (@length byte)) in E. rewrite skipn_length in E. cbn in E. lia.
Qed.
Lemma serialize_spec out n : length out = 11 -> serialize_u32 out n = digits 10 n ++ [x00].
Proof.
  intros L. unfold serialize_u32. rewrite serialize_loop_spec by (rewrite upd_length; lia). f_equal.
  do 11 (destruct out as [|? out]; [cbn in L; lia|]). destruct out; [reflexivity|cbn in L; lia].
Qed.
Lemma filename_digits n : filename n = digits 10 n.
Proof. unfold filename. rewrite serialize_spec by apply repeat_length. apply firstn_app_exact. rewrite digits_length. reflexivity. Qed.
Lemma digits_digit k : forall n, Forall digit (digits k n).
Proof.
  induction k as [|k IH]; intros n; [constructor|]. cbn [digits]. apply Forall_app. split; [apply IH|]. constructor; [|constructor].
  unfold digit. pose proof (N.mod_lt n 10 ltac:(lia)) as M. rewrite b2n_n2b_small by lia. lia.
Qed.
Lemma value_app s t : value (s ++ t) = (value s * 10 ^ N.of_nat (length t) + value t)%N.
Proof. unfold value at 1. rewrite fold_left_app, fold_value. reflexivity. Qed.
Lemma digits_value k : forall n, (n < 10 ^ N.of_nat k)%N -> value (digits k n) = n.
Proof.
  induction k as [|k IH]; intros n L; [cbn in *; lia|]. cbn [digits]. rewrite value_app. cbn [length].
  rewrite Nat2N.inj_succ, N.pow_succ_r in L by lia. rewrite IH by (apply N.div_lt_upper_bound; lia).
  unfold value. cbn [fold_left]. pose proof (N.mod_lt n 10 ltac:(lia)) as M. rewrite b2n_n2b_small by lia.
  change (10 ^ N.of_nat 1)%N with 10%N. pose proof (N.div_mod n 10 ltac:(lia)). lia.
Qed.
Lemma digit_cstring s : Forall digit s -> cstring s.
Proof. intros F I. rewrite Forall_forall in F. specialize (F _ I). unfold digit in F. cbn in F. lia. Qed.
Lemma filename_value n : u32 n -> value (filename n) = n.
Proof. intros U. rewrite filename_digits. apply digits_value. unfold u32 in U. change (10 ^ N.of_nat 10)%N with 10000000000%N. lia. Qed.

(** Number to name and back; the buffer of 11 bytes is filled exactly. *)
Theorem C33_roundtrip : forall out n, length out = 11 -> u32 n ->
  serialize_u32 out n = filename n ++ [x00] /\ cstring (filename n) /\ parse_u32 (filename n ++ [x00]) = Ok (Some n).
Proof.
  intros out n L U. rewrite (serialize_spec out n L). assert (Ef : filename n = digits 10 n) by apply filename_digits. rewrite Ef. split; [reflexivity|].
  assert (CS : cstring (digits 10 n)) by apply digit_cstring, digits_digit. split; [exact CS|].
  destruct (C33_recognised (digits 10 n) CS) as (r & E & R). rewrite E. f_equal. apply R. rewrite digits_length.
  split; [reflexivity|]. split; [apply digits_digit|]. split; [|exact U]. rewrite <- Ef. apply filename_value, U.
Qed.
Print Assumptions C33_roundtrip.

Lemma lex_total s : forall t, length s = length t -> s = t \/ lex_lt s t \/ lex_lt t s.
Proof.
  induction s as [|c s IH]; intros [|d t] L; cbn [length] in L; try lia; [auto|].
  destruct (N.lt_total (b2n c) (b2n d)) as [X|[X|X]].
  - right. left. cbn. auto.
  - apply b2n_inj in X. subst d. destruct (IH t ltac:(lia)) as [->|[X|X]]; [auto|right; left|right; right]; cbn; auto.
  - right. right. cbn. auto.
Qed.

(** strcmp order of the names is the order of the numbers. *)
Theorem C33_order : forall n m, u32 n -> u32 m -> (lex_lt (filename n) (filename m) <-> (n < m)%N).
Proof.
  intros n m Un Um. pose proof (filename_value n Un) as En. pose proof (filename_value m Um) as Em.
  assert (L : length (filename n) = length (filename m)) by (rewrite !filename_digits, !digits_length; reflexivity).
  assert (Fn : Forall digit (filename n)) by (rewrite filename_digits; apply digits_digit).
  assert (Fm : Forall digit (filename m)) by (rewrite filename_digits; apply digits_digit).
  split; intros X.
  - rewrite <- En, <- Em. apply value_mono; assumption.
  - destruct (lex_total _ _ L) as [E|[E|E]]; [rewrite E in En; lia|exact E|].
    apply value_mono in E; auto. lia.
Qed.
Print Assumptions C33_order.

(** The numbers recognised among the names of a directory. *)
Definition numbered (names : list bytes) (n : N) : Prop :=
  exists s, In s names /\ parse_u32 (s ++ [x00]) = Ok (Some n).

Lemma find_index_loop_spec names : Forall cstring names -> StronglySorted lex_lt names ->
  forall ret i, u32 i -> (forall n, numbered names n -> (i < n)%N \/ (i = 0)%N) -> 
  exists r j, find_index_loop names ret i = Ok (r, j) /\ u32 j /\
    (r = true <-> ret = true /\ (i <= j)%N /\ forall n, numbered names n <-> (i < n <= j)%N).
Proof.
  induction names as [|s names IH]; intros CS So ret i Ui Lo.
  - exists ret, i. split; [reflexivity|]. split; [exact Ui|]. split; [|tauto]. intros ->. split; [reflexivity|]. split; [lia|].
    intros n. split; [intros (s & [] & _)|lia].
  - inversion CS as [|? ? Cs1 CS']; subst. inversion So as [|? ? So' Fs]; subst. cbn [find_index_loop].
    destruct (C33_recognised s Cs1) as (r & E & R). rewrite E. cbn [bind]. destruct r as [num|].
    + destruct (proj1 (R num) eq_refl) as (L & F & V & U).
      assert (Up : forall n, numbered names n -> (num < n)%N).
      { intros n (t & It & Et). rewrite Forall_forall in Fs, CS'. destruct (C33_recognised t (CS' _ It)) as (rt & Ert & Rt).
        rewrite Et in Ert. injection Ert as <-. destruct (proj1 (Rt n) eq_refl) as (Lt & Ft & Vt & Ut).
        rewrite <- V, <- Vt. apply value_mono; auto. lia. }
      destruct (IH CS' So' (ret && (num =? (i + 1) mod 4294967296)%N) num U (fun n X => or_introl (Up n X))) as (r & j & E' & Uj & Q).
      exists r, j. split; [exact E'|]. split; [exact Uj|]. rewrite Q, andb_true_iff.
      assert (Nn : numbered (s :: names) num) by (exists s; split; [now left|exact E]).
      assert (Nc : forall n, numbered (s :: names) n <-> n = num \/ numbered names n).
      { intros n. split.
        - intros (t & [<-|It] & Et); [left; congruence|right; exists t; auto].
        - intros [->|(t & It & Et)]; [exact Nn|exists t; split; [now right|exact Et]]. }
      unfold u32 in *. split.
      * intros ((-> & En) & Le & A). apply N.eqb_eq in En.
        assert (En' : num = (i + 1)%N).
        { destruct (N.eq_dec (i + 1) 4294967296) as [X|X]; [|rewrite N.mod_small in En by lia; exact En].
          rewrite X in En. change (4294967296 mod 4294967296)%N with 0%N in En. destruct (Lo num Nn); lia. }
        split; [reflexivity|]. split; [lia|]. intros n. rewrite Nc, A. lia.
      * intros (-> & Le & A). assert (I1 : numbered (s :: names) num) by exact Nn. apply A in I1.
        assert (I2 : (i + 1 = num)%N).
        { assert (Y : numbered (s :: names) (i + 1)%N) by (apply A; lia). apply Nc in Y. destruct Y as [Y|Y]; [exact Y|]. apply Up in Y. lia. }
        split; [split; [reflexivity|]|].
        -- apply N.eqb_eq. rewrite N.mod_small by lia. lia.
        -- split; [lia|]. intros n. split.
           ++ intros X. pose proof (Up n X). assert (Y : numbered (s :: names) n) by (apply Nc; now right). apply A in Y. lia.
           ++ intros X. assert (Y : numbered (s :: names) n) by (apply A; lia). apply Nc in Y. destruct Y as [->|Y]; [lia|exact Y].
    + assert (Nc : forall n, numbered (s :: names) n <-> numbered names n).
      { intros n. split; [intros (t & [<-|It] & Et); [congruence|exists t; auto]|intros (t & It & Et); exists t; split; [now right|exact Et]]. }
      destruct (IH CS' So' ret i Ui) as (r & j & E' & Uj & Q). { intros n X. apply Lo, Nc, X. }
      exists r, j. split; [exact E'|]. split; [exact Uj|]. rewrite Q. setoid_rewrite Nc. reflexivity.
Qed.

(** Scanning a directory (names in strcmp order, any other files present): it succeeds with
    [n] exactly when the data files found are number 1 to [n]. *)
Theorem C33_directory : forall names, Forall cstring names -> StronglySorted lex_lt names ->
  exists ok j, find_index names = Ok (ok, j) /\
    forall n, (ok = true /\ j = n) <-> (u32 n /\ forall k, numbered names k <-> (1 <= k <= n)%N).
Proof.
  intros names CS So. destruct (find_index_loop_spec names CS So true 0) as (r & j & E & Uj & Q). { unfold u32; lia. } { auto. }
  exists r, j. split; [exact E|]. intros n. split.
  - intros [Er ->]. apply Q in Er. destruct Er as (_ & _ & A). split; [exact Uj|]. intros k. rewrite A. lia.
  - intros [Un A]. destruct (Bool.bool_dec r true) as [X|X].
    + split; [exact X|]. apply Q in X. destruct X as (_ & _ & B).
      destruct (N.lt_total n j) as [Y|[Y|Y]]; [|auto|].
      * assert (Z : numbered names j) by (apply B; lia). apply A in Z. lia.
      * assert (Z : numbered names n) by (apply A; lia). apply B in Z. lia.
    + exfalso. apply X. apply Q. split; [reflexivity|]. split; [lia|].
      (* the loop ends with the last number recognised *)
      assert (En : j = n).
      { clear X Q. revert E A. unfold find_index. 
        assert (G : forall names ret i, Forall cstring names -> StronglySorted lex_lt names -> find_index_loop names ret i = Ok (r, j) ->
                  (j = i /\ forall k, ~ numbered names k) \/ (numbered names j /\ forall k, numbered names k -> (k <= j)%N)).
        { clear. induction names as [|s names IH]; intros ret i CS So E.
          - injection E as -> ->. left. split; [reflexivity|]. intros k (t & [] & _).
          - inversion CS as [|? ? Cs1 CS']; subst. inversion So as [|? ? So' Fs]; subst. cbn [find_index_loop] in E.
            destruct (C33_recognised s Cs1) as (q & Eq & R). rewrite Eq in E. cbn [bind] in E. destruct q as [num|].
            + destruct (proj1 (R num) eq_refl) as (L & F & V & U).
              assert (Up : forall n, numbered names n -> (num < n)%N).
              { intros n (t & It & Et). rewrite Forall_forall in Fs, CS'. destruct (C33_recognised t (CS' _ It)) as (rt & Ert & Rt).
                rewrite Et in Ert. injection Ert as <-. destruct (proj1 (Rt n) eq_refl) as (Lt & Ft & Vt & Ut).
                rewrite <- V, <- Vt. apply value_mono; auto. lia. }
              right. destruct (IH _ _ CS' So' E) as [(-> & Nn)|((t & It & Et) & Nn)].
              * split; [exists s; split; [now left|exact Eq]|]. intros k (t & [<-|It] & Et); [rewrite Eq in Et; injection Et as ->; lia|].
                exfalso. apply (Nn k). exists t. auto.
              * split; [exists t; split; [now right|exact Et]|]. intros k (t' & [<-|It'] & Et').
                -- rewrite Eq in Et'. injection Et' as ->. assert (X : (k < j)%N) by (apply Up; exists t; auto). lia.
                -- apply Nn. exists t'. auto.
            + destruct (IH _ _ CS' So' E) as [(-> & Nn)|((t & It & Et) & Nn)].
              * left. split; [reflexivity|]. intros k (t & [<-|It] & Et); [congruence|]. apply (Nn k). exists t. auto.
              * right. split; [exists t; split; [now right|exact Et]|]. intros k (t' & [<-|It'] & Et'); [congruence|]. apply Nn. exists t'. auto. }
        intros E A. destruct (G names true 0%N CS So E) as [(-> & Nn)|(Nj & Mx)].
        - destruct (N.eq_dec n 0) as [|Z]; [auto|]. exfalso. apply (Nn n). apply A. lia.
        - apply A in Nj. assert (Z : numbered names n) by (apply A; lia). apply Mx in Z. lia. }
      subst j. intros k. rewrite A. lia.
Qed.
Print Assumptions C33_directory.

(** "0000000001", "0000000002", "lock", "meta": two data files. *)
Example c33_witness : find_index [filename 1; filename 2; [x6c; x6f; x63; x6b]; [x6d; x65; x74; x61]] = Ok (true, 2%N) /\
  find_index [filename 1; filename 3] = Ok (false, 3%N).
Proof. vm_compute. auto. Qed.

(** ** C37 *)
Definition hexdigit (c : byte) : Prop :=
  (48 <= b2n c <= 57 \/ 65 <= b2n c <= 70 \/ 97 <= b2n c <= 102)%N.
(** The number a hexadecimal digit denotes. *)
Definition hexval (c : byte) : N :=
  if (b2n c <=? 57)%N then b2n c - 48 else if (b2n c <=? 70)%N then b2n c - 55 else b2n c - 87.
(** Text denoting bytes, two digits each. *)
Fixpoint denotes (s : bytes) (d : bytes) : Prop :=
  match s, d with
  | [], [] => True
  | a :: b :: s, x :: d => hexdigit a /\ hexdigit b /\ b2n x = (16 * hexval a + hexval b)%N /\ denotes s d
  | _, _ => False
  end.

Lemma table_hex c : (hexdigit c /\ table c = hexval c /\ (table c < 16)%N) \/ (~ hexdigit c /\ table c = 255%N).
Proof.
  unfold hexdigit, table, hexval. pose proof (b2n_lt c) as B. generalize dependent (b2n c). intros n B.
  destruct ((48 <=? n)%N && (n <=? 57)%N) eqn:E1; [left; destruct (N.leb_spec n 57); lia|].
  destruct ((65 <=? n)%N && (n <=? 70)%N) eqn:E2; [left; destruct (N.leb_spec n 57); [lia|]; destruct (N.leb_spec n 70); lia|].
  destruct ((97 <=? n)%N && (n <=? 102)%N) eqn:E3; [left; destruct (N.leb_spec n 57); [lia|]; destruct (N.leb_spec n 70); lia|].
  right. split; [lia|reflexivity].
Qed.
Lemma testbit7_small n : (n < 16)%N -> N.testbit n 7 = false.
Proof. intros L. destruct (N.eq_dec n 0) as [->|Z]; [reflexivity|]. apply N.bits_above_log2. apply N.log2_lt_pow2; [lia|]. change (2 ^ 7)%N with 128%N. lia. Qed.
Lemma nibbles a b : (a < 16)%N -> (b < 16)%N -> N.lor (N.shiftl a 4) b = (16 * a + b)%N.
Proof.
  intros A B.
  assert (X : forallb (fun a => forallb (fun b => N.eqb (N.lor (N.shiftl a 4) b) (16 * a + b)) (map N.of_nat (seq 0 16))) (map N.of_nat (seq 0 16)) = true) by (vm_compute; reflexivity).
  rewrite forallb_forall in X. assert (I : forall n, (n < 16)%N -> In n (map N.of_nat (seq 0 16))).
  { intros n L. apply in_map_iff. exists (N.to_nat n). split; [lia|]. apply in_seq. lia. }
  specialize (X a (I a A)). rewrite forallb_forall in X. apply N.eqb_eq, X, I, B.
Qed.
Lemma denotes_length s : forall d, denotes s d -> length s = 2 * length d.
Proof.
  induction s as [s IH] using (well_founded_induction (well_founded_ltof _ (@length byte))). unfold ltof in IH.
  intros d D. destruct s as [|a [|b s]], d as [|x d]; cbn [denotes] in D; try contradiction; [reflexivity|].
  cbn [length]. rewrite (IH s) with (d := d); cbn [length]; [lia|lia|apply D].
Qed.

Lemma decode_loop_spec n : forall s z, length s = 2 * n ->
  exists d z', decode_loop n s z = Ok (d, z') /\ length d = n /\
    ((denotes s d /\ N.testbit z' 7 = N.testbit z 7) \/ (~ Forall hexdigit s /\ N.testbit z' 7 = true)).
Proof.
  induction n as [|n IH]; intros s z L.
  - destruct s; [|cbn in L; lia]. exists [], z. cbn. auto.
  - destruct s as [|a [|b s]]; [cbn in L; lia|cbn in L; lia|]. cbn [decode_loop].
    destruct (IH s (N.lor z (N.lor (table a) (table b)))) as (d & z' & E & Ld & Q); [cbn in L; lia|].
    rewrite E. cbn [bind]. eexists _, _. split; [reflexivity|]. split; [cbn; lia|].
    rewrite !N.lor_spec in Q.
    destruct (table_hex a) as [(Ha & Ea & Ba)|(Na & Ea)]; [destruct (table_hex b) as [(Hb & Eb & Bb)|(Nb & Eb)]|].
    + rewrite (testbit7_small _ Ba), (testbit7_small _ Bb), orb_false_r in Q. destruct Q as [[D Z]|[D Z]].
      * left. split; [|exact Z]. cbn [denotes]. split; [exact Ha|]. split; [exact Hb|]. split; [|exact D].
        rewrite nibbles by assumption. rewrite b2n_n2b_small by lia. rewrite Ea, Eb. reflexivity.
      * right. split; [|exact Z]. intros F. inversion F as [|? ? _ F2]; subst. inversion F2; subst. contradiction.
    + right. rewrite Eb in Q. change (N.testbit 255 7) with true in Q. rewrite !orb_true_r in Q.
      split; [|destruct Q as [[_ ->]|[_ ->]]; reflexivity]. intros F. inversion F as [|? ? _ F2]; subst. inversion F2; subst. contradiction.
    + right. rewrite Ea in Q. change (N.testbit 255 7) with true in Q. cbn [orb] in Q. rewrite orb_true_r in Q.
      split; [|destruct Q as [[_ ->]|[_ ->]]; reflexivity]. intros F. inversion F; subst. contradiction.
Qed.

Lemma denotes_hex s : forall d, denotes s d -> Forall hexdigit s.
Proof.
  induction s as [s IH] using (well_founded_induction (well_founded_ltof _ (@length byte))). unfold ltof in IH.
  intros d D. destruct s as [|a [|b s]], d as [|x d]; cbn [denotes] in D; try contradiction; [constructor|].
  destruct D as (Ha & Hb & _ & D). constructor; [exact Ha|]. constructor; [exact Hb|]. apply (IH s) with (d := d); [cbn; lia|exact D].
Qed.
Lemma denotes_fun s : forall d d', denotes s d -> denotes s d' -> d = d'.
Proof.
  induction s as [s IH] using (well_founded_induction (well_founded_ltof _ (@length byte))). unfold ltof in IH.
  intros d d' D D'. destruct s as [|a [|b s]], d as [|x d], d' as [|x' d']; cbn [denotes] in D, D'; try contradiction; [reflexivity|].
  destruct D as (_ & _ & E & D). destruct D' as (_ & _ & E' & D'). f_equal; [apply b2n_inj; congruence|]. apply (IH s); [cbn; lia|exact D|exact D'].
Qed.

(** Decoding any string (it never reads or writes out of bounds): exactly the bytes it denotes,
    if they fit. *)
Theorem C37_decode : forall cap s, exists r, base16_decode cap s = Ok r /\
  (forall d, r = Some d <-> denotes s d /\ length d <= cap) /\
  (r <> None <-> Nat.Even (length s) /\ Forall hexdigit s /\ length s <= 2 * cap).
Proof.
  intros cap s. unfold base16_decode. destruct (Nat.odd (length s)) eqn:O.
  { exists None. split; [reflexivity|]. apply Nat.odd_spec in O. split; [intros d|]; split; try discriminate; try congruence.
    - intros [D _]. apply denotes_length in D. destruct O as (m & O). lia.
    - intros [(m & E) _]. destruct O as (k & O). lia. }
  assert (Ev : Nat.Even (length s)) by (apply Nat.even_spec; unfold Nat.odd in O; destruct (Nat.even (length s)); [reflexivity|discriminate]).
  pose proof Ev as (m & Em). replace (length s / 2) with m by (rewrite Em, Nat.mul_comm, Nat.div_mul; lia).
  destruct (Nat.ltb_spec cap m) as [X|X].
  { exists None. split; [reflexivity|]. split; [intros d|]; split; try discriminate; try congruence.
    - intros [D L]. apply denotes_length in D. lia.
    - intros (_ & _ & L). lia. }
  destruct (decode_loop_spec m s 0 Em) as (d & z & E & Ld & Q). rewrite E. cbn [bind]. destruct Q as [[D Z]|[D Z]]; rewrite Z.
  - cbn [N.testbit]. eexists. split; [reflexivity|]. split.
    + intros d'. split; [intros [= <-]; split; [exact D|lia]|]. intros [D' _]. f_equal. eapply denotes_fun; eassumption.
    + split; [intros _|congruence]. split; [exact Ev|]. split; [eapply denotes_hex, D|lia].
  - eexists. split; [reflexivity|]. split; [intros d'|]; split; try discriminate; try congruence.
    + intros [D' _]. exfalso. apply D. eapply denotes_hex, D'.
    + intros (_ & F & _). contradiction.
Qed.
Print Assumptions C37_decode.

Lemma charset_hex n : (n < 16)%N -> hexdigit (nth (N.to_nat n) charset x00) /\ hexval (nth (N.to_nat n) charset x00) = n.
Proof.
  intros L.
  assert (X : forallb (fun n => let c := nth (N.to_nat n) charset x00 in
     (((48 <=? b2n c) && (b2n c <=? 57)) || ((97 <=? b2n c) && (b2n c <=? 102)))%N && (hexval c =? n)%N) (map N.of_nat (seq 0 16)) = true) by (vm_compute; reflexivity).
  rewrite forallb_forall in X. specialize (X n). cbv zeta in X. unfold hexdigit.
  assert (I : In n (map N.of_nat (seq 0 16))). { apply in_map_iff. exists (N.to_nat n). split; [lia|]. apply in_seq. lia. }
  specialize (X I). lia.
Qed.

(** Encoding, and decoding again. *)
Theorem C37_encode : forall src, exists s, base16_encode src = s ++ [x00] /\ length s = 2 * length src /\ cstring s /\ denotes s src /\
  forall cap, length src <= cap -> base16_decode cap s = Ok (Some src).
Proof.
  intros src.
  assert (G : exists s, base16_encode src = s ++ [x00] /\ denotes s src).
  { induction src as [|b src (s & E & D)]; [exists []; split; [reflexivity|exact I]|]. cbn [base16_encode]. rewrite E.
    eexists (_ :: _ :: s). split; [reflexivity|]. cbn [denotes]. pose proof (b2n_lt b) as B.
    assert (Eh : N.shiftr (b2n b) 4 = (b2n b / 16)%N) by (rewrite N.shiftr_div_pow2; reflexivity).
    assert (El : N.land (b2n b) 15 = (b2n b mod 16)%N) by (change 15%N with (N.ones 4); rewrite N.land_ones; reflexivity).
    destruct (charset_hex (N.shiftr (b2n b) 4)) as [H1 V1]; [rewrite Eh; apply N.div_lt_upper_bound; lia|].
    destruct (charset_hex (N.land (b2n b) 15)) as [H2 V2]; [rewrite El; apply N.mod_lt; lia|].
    split; [exact H1|]. split; [exact H2|]. split; [|exact D]. rewrite V1, V2, Eh, El. apply N.div_mod. lia. }
  destruct G as (s & E & D). exists s. split; [exact E|]. split; [apply denotes_length, D|]. split.
  - pose proof (denotes_hex _ _ D) as F. intros I. rewrite Forall_forall in F. specialize (F _ I). unfold hexdigit in F. cbn in F. lia.
  - split; [exact D|]. intros cap L. destruct (C37_decode cap s) as (r & Er & R & _). rewrite Er. f_equal. apply R. auto.
Qed.
Print Assumptions C37_encode.

(** Keys and roots on the command line. *)
Theorem C37_decode32 : forall s, exists r, base16_decode32 s = Ok r /\ forall d, r = Some d <-> denotes s d /\ length d = 32.
Proof.
  intros s. unfold base16_decode32. destruct (C37_decode 32 s) as (r & E & R & _). rewrite E. cbn [bind]. destruct r as [d|].
  - destruct (proj1 (R d) eq_refl) as [D L]. destruct (Nat.eqb_spec (length d) 32) as [X|X]; eexists; (split; [reflexivity|]); intros d'; split; try discriminate.
    + intros [= <-]. auto.
    + intros [D' _]. f_equal. eapply denotes_fun; eassumption.
    + intros [D' L']. rewrite (denotes_fun _ _ _ D D') in X. contradiction.
  - exists None. split; [reflexivity|]. intros d. split; [discriminate|]. intros [D L]. apply R. split; [exact D|lia].
Qed.
Print Assumptions C37_decode32.

(** "0aFf". *)
Example c37_witness : base16_decode 2 [x30; x61; x46; x66] = Ok (Some [x0a; xff]) /\ base16_encode [x0a; xff] = [x30; x61; x66; x66; x00] /\
  base16_decode 2 [x30; x67] = Ok None.
Proof. vm_compute. auto. Qed.
