(** * C58: the memory of the verifier. *)
From Verif Require Import ProofMem ProofFacts VerifyFacts.
From Verif Require Import Properties_Proof Demo.

Lemma lift_ok {A} (r : res A) a h : r = Ok a -> lift r h = Ok (a, h).
Proof. intros ->. reflexivity. Qed.
Lemma bind_ok {A B} (m : M A) (f : A -> M B) h a h' : m h = Ok (a, h') -> mbind m f h = f a h'.
Proof. intros E. unfold mbind. rewrite E. reflexivity. Qed.
Lemma bind_inv {A B} (r : res A) (f : A -> res B) b : bind r f = Ok b -> exists a, r = Ok a /\ f a = Ok b.
Proof. destruct r as [a| | | |]; cbn [bind]; intros E; try discriminate E. eauto. Qed.
Lemma checked_now h : memq h = [] -> checked_malloc h = Ok (nx h, mkrst (S (nx h)) ((nx h, KMem) :: lv h) (sysq h) []).
Proof. intros Z. unfold checked_malloc, mbind, grants. rewrite Z. reflexivity. Qed.

Lemma m_nodes_run map : forall n i d blks h r, memq h = [] -> length blks = i -> proof_read_nodes n i map d = Ok r ->
  exists new h', m_nodes n i map d blks h = Ok ((r, blks ++ new), h') /\ Permutation (lv h') (mem new ++ lv h) /\ memq h' = [] /\
    length new <= n /\ (r <> None -> length new = n).
Proof.
  induction n as [|n IH]; intros i d blks h r Z Lb E.
  - apply Ok_inj in E. subst r. exists [], h. rewrite app_nil_r. cbn. auto.
  - cbn [proof_read_nodes] in E. apply bind_inv in E. destruct E as (b & Eb & E). apply bind_inv in E. destruct E as (pr & Ep & E).
    cbn [m_nodes]. rewrite (bind_ok _ _ _ _ _ (lift_ok _ _ h Eb)). rewrite (bind_ok _ _ _ _ _ (lift_ok _ _ h Ep)).
    assert (Stop : r = None -> exists new h', mret (None (A := list (bits * bytes) * bytes), blks) h = Ok ((r, blks ++ new), h') /\
      Permutation (lv h') (mem new ++ lv h) /\ memq h' = [] /\ length new <= S n /\ (r <> None -> length new = S n)).
    { intros ->. exists [], h. rewrite app_nil_r. split; [reflexivity|]. split; [reflexivity|]. split; [exact Z|]. split; [cbn; lia|congruence]. }
    destruct pr as [[p d']|]; [|apply Stop; apply Ok_inj in E; auto].
    destruct (length d' <? HASH_SIZE); [apply Stop; apply Ok_inj in E; auto|]. clear Stop.
    apply bind_inv in E. destruct E as ([hh d2] & Et & E). unfold check in E.
    destruct (i <? KEY_BITS) eqn:Li; [|discriminate E]. apply bind_inv in E. destruct E as (rest & Er & E).
    rewrite (bind_ok _ _ _ _ _ (lift_ok _ _ h Et)). rewrite (bind_ok _ _ _ _ _ (checked_now h Z)). rewrite Lb, Li. cbn [negb].
    set (h1 := mkrst _ _ _ _).
    assert (Lb1 : length (blks ++ [nx h]) = S i) by (rewrite app_length, Lb; cbn; lia).
    destruct (IH (S i) d2 (blks ++ [nx h]) h1 rest eq_refl Lb1 Er) as (new & h' & E1 & P1 & Z1 & L1 & N1).
    rewrite (bind_ok _ _ _ _ _ E1). rewrite <- app_assoc. cbn [app].
    assert (P2 : Permutation (lv h') (mem (nx h :: new) ++ lv h)).
    { rewrite P1. unfold h1. cbn [lv mem List.map app]. symmetry. apply Permutation_middle. }
    destruct rest as [[l d3]|]; apply Ok_inj in E; subst r; exists (nx h :: new), h'; (split; [reflexivity|]); (split; [exact P2|]); (split; [exact Z1|]);
      (split; [cbn [length]; lia|]); intros X; cbn [length]; try congruence. rewrite N1 by discriminate. reflexivity.
Qed.

Lemma m_read_run d r h : memq h = [] -> proof_read d = Ok r ->
  exists blks h', m_read d h = Ok ((r, blks), h') /\ Permutation (lv h') (mem blks ++ lv h) /\ memq h' = [] /\ length blks <= 256.
Proof.
  intros Z E. unfold proof_read in E. unfold m_read.
  assert (Stop : r = None -> exists blks h', mret (None (A := proof), @nil nat) h = Ok ((r, blks), h') /\ Permutation (lv h') (mem blks ++ lv h) /\ memq h' = [] /\ length blks <= 256).
  { intros ->. exists [], h. split; [reflexivity|]. split; [reflexivity|]. split; [exact Z|cbn; lia]. }
  destruct (length d <? 4); [apply Stop; apply Ok_inj in E; auto|].
  apply bind_inv in E. destruct E as (field & E1 & E). apply bind_inv in E. destruct E as (cnt & E2 & E).
  rewrite (bind_ok _ _ _ _ _ (lift_ok _ _ h E1)), (bind_ok _ _ _ _ _ (lift_ok _ _ h E2)). cbv zeta in E. cbv zeta.
  destruct (256 <? N.ldiff field (N.shiftl 3 14))%N; [apply Stop; apply Ok_inj in E; auto|].
  destruct (N.ltb_spec 256 cnt) as [X|Lc]; [apply Stop; apply Ok_inj in E; auto|].
  destruct (length (adv 4 d) <? nbytes (N.to_nat cnt)); [apply Stop; apply Ok_inj in E; auto|]. clear Stop.
  apply bind_inv in E. destruct E as ([map d2] & E3 & E). apply bind_inv in E. destruct E as (nr & E4 & E).
  rewrite (bind_ok _ _ _ _ _ (lift_ok _ _ h E3)).
  destruct (m_nodes_run map _ 0 d2 [] h nr Z eq_refl E4) as (new & h' & E5 & P5 & Z5 & L5 & _).
  rewrite (bind_ok _ _ _ _ _ E5). cbn [app].
  assert (L6 : length new <= 256) by lia.
  destruct nr as [[nodes d3]|]; [|apply Ok_inj in E; subst r; exists new, h'; auto].
  apply bind_inv in E. destruct E as (t & E6 & E). rewrite (bind_ok _ _ _ _ _ (lift_ok _ _ h' E6)).
  destruct t as [t|]; apply Ok_inj in E; subst r; exists new, h'; auto.
Qed.

Lemma free_now blks l : forall h, Permutation (lv h) (mem blks ++ l) ->
  exists h', free_all blks h = Ok (tt, h') /\ Permutation (lv h') l /\ memq h' = memq h.
Proof.
  induction blks as [|i blks IH]; intros h P.
  - exists h. auto.
  - cbn [free_all]. cbn [mem List.map app] in P. destruct (drop_perm _ _ _ P) as (m & E & P2).
    set (h1 := mkrst (nx h) m (sysq h) (memq h)). assert (E1 : release KMem i h = Ok (tt, h1)) by (unfold release; rewrite E; reflexivity).
    rewrite (bind_ok _ _ _ _ _ E1). destruct (IH h1 P2) as (h' & E2 & P3 & Z3). exists h'. auto.
Qed.

(** Every call answers as [urkel_verify] does; of the blocks it allocates it keeps none unless
    it answers EINVAL, and at most 256 in any case.  ([lv]: the blocks in use.) *)
Theorem C58_verify_memory_partial :
  forall (H : bytes -> bytes), (forall m, length (H m) = 32) ->
  forall raw key root h, length key = 32 -> memq h = [] ->
  exists v h' leaked, m_verify H raw key root h = Ok (v, h') /\ urkel_verify H raw key root = Ok v /\
    Permutation (lv h') (mem leaked ++ lv h) /\ memq h' = [] /\ length leaked <= 256 /\
    (v_err v <> Some EINVAL -> leaked = []).
Proof.
  intros H HL raw key root h Lk Z. destruct (urkel_verify_total H HL raw key root Lk) as (v & E & _).
  unfold urkel_verify in E. unfold urkel_verify at 1. unfold m_verify. destruct root as [root|].
  2:{ apply Ok_inj in E. subst v. exists (mkverdict (Some EINVAL) false []), h, []. split; [reflexivity|]. split; [reflexivity|]. split; [reflexivity|]. split; [exact Z|]. split; [cbn; lia|auto]. }
  apply bind_inv in E. destruct E as (r & Er & E). rewrite Er. cbn [bind].
  destruct (m_read_run raw r h Z Er) as (blks & h1 & E1 & P1 & Z1 & L1). rewrite (bind_ok _ _ _ _ _ E1).
  destruct r as [p|].
  2:{ apply Ok_inj in E. subst v. exists (mkverdict (Some EINVAL) false []), h1, blks. split; [reflexivity|]. split; [reflexivity|]. split; [exact P1|]. split; [exact Z1|]. split; [exact L1|cbn; congruence]. }
  destruct (free_now blks (lv h) h1 P1) as (h2 & E2 & P2 & Z2). rewrite Z1 in Z2.
  destruct (proof_verify H p key root) as [u|e| | |]; try discriminate E.
  - destruct (p_tail p); apply Ok_inj in E; subst v; eexists _, h2, []; (split; [rewrite (bind_ok _ _ _ _ _ E2); reflexivity|]);
      (split; [reflexivity|]); (split; [exact P2|]); (split; [exact Z2|]); (split; [cbn; lia|auto]).
  - apply Ok_inj in E; subst v; eexists _, h2, []; (split; [rewrite (bind_ok _ _ _ _ _ E2); reflexivity|]);
      (split; [reflexivity|]); (split; [exact P2|]); (split; [exact Z2|]); (split; [cbn; lia|auto]).
Qed.

(** ** A proof with something appended to it *)
Lemma tail_junk t x junk : ok_tail t -> clean_tail t -> tail_write t = Ok x -> junk <> [] -> tail_read (tail_type t) (x ++ junk) = Ok None.
Proof.
  intros O C E J. assert (LJ : (length junk =? 0) = false) by (destruct junk; [congruence|reflexivity]).
  destruct t as [|p l r|k h|v]; cbn [tail_write ok_tail clean_tail tail_type] in *.
  - injection E as <-. unfold tail_read. cbn [app]. change (0 =? 0)%N with true. cbv iota. rewrite LJ. reflexivity.
  - destruct O as (O & Nz & Ll & Lr). pose proof (bits_write_ok p O) as EW.
    rewrite EW in E. cbn [bind] in E. injection E as <-.
    unfold tail_read. change (1 =? 0)%N with false. change (1 =? 1)%N with true. cbv iota.
    rewrite <- app_assoc. change ((bits_head (bsize p) ++ prefix_bytes p) ++ (l ++ r) ++ junk) with ((bits_head (bsize p) ++ prefix_bytes p) ++ ((l ++ r) ++ junk)).
    rewrite (bits_read_write_clean p _ _ O C EW). cbn [bind].
    destruct (Nat.eqb_spec (bsize p) 0) as [X|_]; [lia|].
    unfold KEY_BITS. pose proof O as [_ Sp].
    destruct (Nat.ltb_spec 256 (bsize p)) as [X|_]; [lia|]. cbn [orb].
    rewrite (bits_size_write p _ O EW). cbn [bind].
    rewrite take_app by reflexivity. cbn [bind]. unfold HASH_SIZE. rewrite <- app_assoc.
    destruct (Nat.ltb_spec (length (l ++ r ++ junk)) (32 * 2)) as [X|_]; [rewrite !app_length in X; lia|].
    rewrite take_app by assumption. cbn [bind]. rewrite take_app by assumption. cbn [bind]. rewrite LJ. reflexivity.
  - destruct O as (Lk & Lh). injection E as <-. rewrite <- app_assoc.
    unfold tail_read. change (2 =? 0)%N with false. change (2 =? 1)%N with false. change (2 =? 2)%N with true. cbv iota.
    unfold KEY_SIZE, HASH_SIZE.
    destruct (Nat.ltb_spec (length (k ++ h ++ junk)) (32 + 32)) as [X|_]; [rewrite !app_length in X; lia|].
    rewrite take_app by assumption. cbn [bind]. rewrite take_app by assumption. cbn [bind]. rewrite LJ. reflexivity.
  - assert (x = write16 (N.of_nat (length v)) ++ v) by congruence. subst x. rewrite <- app_assoc.
    unfold tail_read. change (3 =? 0)%N with false. change (3 =? 1)%N with false.
    change (3 =? 2)%N with false. change (3 =? 3)%N with true. cbv iota.
    nolt. rewrite read16_write16 by lia. cbn [bind]. unfold adv. rewrite skipn_write16, Nat2N.id.
    destruct (Nat.ltb_spec (length (v ++ junk)) (length v)) as [X|_]; [rewrite app_length in X; lia|]. unfold VALUE_SIZE.
    destruct (Nat.ltb_spec 1023 (length v)) as [X|_]; [lia|].
    rewrite take_app by reflexivity. cbn [bind]. rewrite LJ. reflexivity.
Qed.

Lemma N_small n : n <= 256 -> (N.of_nat n < 65536)%N.
Proof. lia. Qed.

Lemma N_depth n : n <= 256 -> (N.of_nat n < 16384)%N.
Proof. lia. Qed.

Lemma m_read_junk raw p junk h : proof_read raw = Ok (Some p) -> junk <> [] -> memq h = [] ->
  exists blks h', m_read (raw ++ junk) h = Ok ((None, blks), h') /\ Permutation (lv h') (mem blks ++ lv h) /\ memq h' = [] /\
    length blks = length (p_nodes p).
Proof.
  intros E J Z. destruct (proof_read_inv raw) as [X|(p' & X & O & [C1 C2] & xn & xt & map & E1 & E2 & Er & Lm & Km)]; rewrite E in X; [discriminate X|].
  apply Ok_inj in X. injection X as <-. pose proof O as (D & Ln & F & T). rewrite Er. clear E Er. rewrite <- !app_assoc.
  unfold m_read. nolt. pose proof (tail_type_lt (p_tail p)) as TT.
  rewrite (bind_ok _ _ _ _ _ (lift_ok _ _ h (read16_write16 _ _ (field_small _ _ (N_depth _ D) TT)))).
  unfold adv. rewrite skipn_write16.
  rewrite (bind_ok _ _ _ _ _ (lift_ok _ _ h (read16_write16 _ _ (N_small _ Ln)))).
  destruct (ldiff_field (tail_type (p_tail p)) (N.of_nat (p_depth p)) ltac:(lia) TT) as [-> ->]. cbv zeta.
  destruct (N.ltb_spec 256 (N.of_nat (p_depth p))) as [X|_]; [lia|].
  destruct (N.ltb_spec 256 (N.of_nat (length (p_nodes p)))) as [X|_]; [lia|].
  rewrite !Nat2N.id.
  match goal with |- context [skipn 4 (?a ++ ?b ++ ?c)] => replace (skipn 4 (a ++ b ++ c)) with c by reflexivity end.
  set (n := length (p_nodes p)) in *.
  match goal with |- context [length ?d <? nbytes n] =>
    destruct (Nat.ltb_spec (length d) (nbytes n)) as [X|_]; [rewrite app_length in X; lia|] end.
  rewrite (bind_ok _ _ _ _ _ (lift_ok _ _ h (take_app _ _ _ Lm))).
  assert (RN : proof_read_nodes n 0 map (xn ++ xt ++ junk) = Ok (Some (p_nodes p, xt ++ junk))).
  { apply (proof_read_nodes_write (p_nodes p) [] _ map xn (xt ++ junk) F C1 Km); [cbn; lia|exact E1]. }
  destruct (m_nodes_run map n 0 _ [] h _ Z eq_refl RN) as (new & h' & E5 & P5 & Z5 & _ & N5). rewrite (bind_ok _ _ _ _ _ E5). cbn [app].
  rewrite (bind_ok _ _ _ _ _ (lift_ok _ _ h' (tail_junk _ _ junk T C2 E2 J))). exists new, h'. rewrite N5 by discriminate. auto.
Qed.

(** Calls one after the other. *)
Fixpoint m_verify_all (H : bytes -> bytes) (calls : list (bytes * bytes * option bytes)) : M (list verdict) :=
  match calls with
  | [] => mret []
  | (raw, key, root) :: calls =>
    do! v := m_verify H raw key root in
    do! vs := m_verify_all H calls in
    mret (v :: vs)
  end.

(** Take any proof the verifier can read, append anything to it, and present it any number of
    times: every call answers EINVAL and keeps one block for each node of the proof for ever. *)
Theorem C58_leak_refuted :
  forall (H : bytes -> bytes) raw p junk key root, proof_read raw = Ok (Some p) -> junk <> [] ->
  forall times h, memq h = [] ->
  exists vs h' leaked, m_verify_all H (repeat (raw ++ junk, key, Some root) times) h = Ok (vs, h') /\
    vs = repeat (mkverdict (Some EINVAL) false []) times /\
    Permutation (lv h') (mem leaked ++ lv h) /\ length leaked = times * length (p_nodes p).
Proof.
  intros H raw p junk key root E J. induction times as [|times IH]; intros h Z.
  - exists [], h, []. split; [reflexivity|]. auto.
  - destruct (m_read_junk raw p junk h E J Z) as (blks & h1 & E1 & P1 & Z1 & L1).
    destruct (IH h1 Z1) as (vs & h2 & leaked & E2 & -> & P2 & L2). cbn [repeat m_verify_all].
    assert (EV : m_verify H (raw ++ junk) key (Some root) h = Ok (mkverdict (Some EINVAL) false [], h1)).
    { unfold m_verify. rewrite (bind_ok _ _ _ _ _ E1). reflexivity. }
    rewrite (bind_ok _ _ _ _ _ EV), (bind_ok _ _ _ _ _ E2). exists (mkverdict (Some EINVAL) false [] :: repeat (mkverdict (Some EINVAL) false []) times), h2, (leaked ++ blks).
    split; [reflexivity|]. split; [reflexivity|]. split.
    + rewrite P2, P1. unfold mem. rewrite map_app, <- app_assoc. reflexivity.
    + rewrite app_length, L2, L1. lia.
Qed.

(** Concretely: the proof of the first of two records has one node. *)
Theorem C58_leak_nonvacuous : exists p, proof_read proof2 = Ok (Some p) /\ length (p_nodes p) = 1.
Proof. vm_compute. eauto. Qed.
Print Assumptions C58_verify_memory_partial.
Print Assumptions C58_leak_refuted.
