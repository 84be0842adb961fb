(** * Writes failing in any way (nothing, part or all of the data written): the files are
    then some a crash during the same call without failures could have left, and everything
    that could be read before still can. *)
From Verif Require Export Sim.
From Coq Require Import ZifyBool ZifyNat ZifyN.

(** The file being written exists and is at least as long as its handle believes. *)
Definition fit (s : store) : Prop :=
  (1 <= st_index s <= N.of_nat (length (st_fs s)))%N /\
  (st_size s <= blen (fget (st_fs s) (N.to_nat (st_index s) - 1)))%N.

(** [x] is a run starting in [s]; the same run without failures ends in [s0]. *)
Definition track {A} (s s0 : store) (g : A) (bad : A -> Prop) (x : res (A * store)) : Prop :=
  st_io s0 = [] /\ fit s0 /\
  exists ops, st_log s0 = st_log s ++ ops /\ apply_ops (st_fs s) ops = st_fs s0 /\
  exists r s', x = Ok (r, s') /\ fit s' /\ keep s s' /\ rmono s s' /\
    ((r = g /\ s0 = set_io s' []) \/ (bad r /\ crash (st_fs s) ops (st_fs s'))).

Lemma rmono_refl s : rmono s s. Proof. intros p x E. exact E. Qed.
Lemma rmono_trans a b c : rmono a b -> rmono b c -> rmono a c.
Proof. intros M N p x E. eauto. Qed.

Lemma fit_io s io : fit s -> fit (set_io s io). Proof. exact (fun F => F). Qed.
Lemma crash_more fs a b A : crash fs a A -> crash fs (a ++ b) A.
Proof. induction 1; cbn [app]; constructor; assumption. Qed.
Lemma crash_after fs a b A : crash (apply_ops fs a) b A -> crash fs (a ++ b) A.
Proof.
  revert fs. induction a as [|o a IH]; intros fs X; cbn [app]; [exact X|]. apply crash_later, IH, X.
Qed.

Lemma track_ret {A} s (g : A) bad : fit s -> track s (set_io s []) g bad (Ok (g, s)).
Proof.
  intros F. split; [reflexivity|]. split; [exact F|]. exists []. rewrite app_nil_r. split; [reflexivity|]. split; [reflexivity|].
  exists g, s. split; [reflexivity|]. split; [exact F|]. split; [apply keep_refl|]. split; [apply rmono_refl|]. left. auto.
Qed.

Lemma io_nil s : st_io s = [] -> set_io s [] = s.
Proof. destruct s as [a1 a2 a3 a4 a5 a6 a7 a8 a9 a0]; cbn. intros ->. reflexivity. Qed.

Lemma track_bind {A B} s s1 s2 (g : A) bad x (f : A -> store -> res (B * store)) gB (badB : B -> Prop) :
  track s s1 g bad x ->
  (forall t, s1 = set_io t [] -> fit t -> track t s2 gB badB (f g t)) ->
  (forall r t, bad r -> exists rB t', f r t = Ok (rB, t') /\ badB rB /\ st_fs t' = st_fs t /\ keep t t' /\
     st_index t' = st_index t /\ st_size t' = st_size t) ->
  track s s2 gB badB (let! (r, t) := x in f r t).
Proof.
  intros (Q1 & F1 & ops & L & P & r & s' & -> & F' & K & M & Alt) Hg Hb. cbn [bind].
  destruct (Hg s1 (eq_sym (io_nil s1 Q1)) F1) as (Q2 & F2 & ops2 & L2 & P2 & _).
  split; [exact Q2|]. split; [exact F2|]. exists (ops ++ ops2).
  split; [rewrite L2, L, app_assoc; reflexivity|]. split; [rewrite apply_ops_app, P; exact P2|].
  destruct Alt as [[-> E]|[Br Cr]].
  - destruct (Hg s' E F') as (_ & _ & ops3 & L3 & P3 & r2 & s2' & Ex & F2' & K2 & M2 & Alt).
    assert (ops3 = ops2) as ->. { rewrite E in L2. cbn [set_io st_log] in L2. rewrite L2 in L3. apply app_inv_head in L3. congruence. }
    exists r2, s2'. split; [exact Ex|]. split; [exact F2'|]. split; [eapply keep_trans; eassumption|]. split; [eapply rmono_trans; eassumption|].
    destruct Alt as [X|[Br Cr]]; [left; exact X|right]. split; [exact Br|].
    apply crash_after. rewrite P, E. exact Cr.
  - destruct (Hb r s' Br) as (rB & t' & E & BB & Fs & K2 & Ei & Es). exists rB, t'. split; [exact E|].
    split; [unfold fit; rewrite Fs, Ei, Es; exact F'|]. split; [eapply keep_trans; eassumption|]. split.
    { eapply rmono_trans; [exact M|]. intros p y. unfold st_rd. rewrite Fs, Ei, Es. exact (fun X => X). }
    right. split; [exact BB|]. rewrite Fs. apply crash_more, Cr.
Qed.

(** A step that touches neither the files nor the environment. *)
Lemma track_pure {A} s t s2 (g : A) bad x : st_fs t = st_fs s -> st_log t = st_log s -> keep s t ->
  st_index t = st_index s -> st_size t = st_size s -> track t s2 g bad x -> track s s2 g bad x.
Proof.
  intros E1 E2 K E4 E5 (Q1 & F1 & ops & L & P & r & s' & -> & F' & K' & M & Alt).
  split; [exact Q1|]. split; [exact F1|]. exists ops. rewrite <- E1, <- E2. split; [exact L|]. split; [exact P|].
  exists r, s'. split; [reflexivity|]. split; [exact F'|]. split; [eapply keep_trans; eassumption|]. split; [|exact Alt].
  eapply rmono_trans; [|exact M]. intros p y. unfold st_rd. rewrite E1, E4, E5. exact (fun X => X).
Qed.

(** ** urkel_file_write *)
Lemma upd_length {A} (l : list A) i x : length (upd l i x) = length l.
Proof. revert i; induction l as [|a l IH]; intros [|i]; cbn [upd length]; auto. Qed.
Lemma upd_same {A} (l : list A) i x d : i < length l -> nth i (upd l i x) d = x.
Proof. revert i; induction l as [|a l IH]; intros [|i] L; cbn [upd nth length] in *; try lia; [reflexivity|]. apply IH; lia. Qed.
Lemma upd_error {A} (l : list A) i j x : nth_error (upd l i x) j = if (i =? j) && (j <? length l) then Some x else nth_error l j.
Proof.
  revert i j; induction l as [|a l IH]; intros [|i] [|j]; cbn [upd nth_error length Nat.eqb andb]; try reflexivity.
  - destruct (i =? j); reflexivity.
  - rewrite IH. destruct (i =? j); reflexivity.
Qed.

(** More bytes at the end of a file: nothing that could be read changes. *)
Lemma slice_app f x pos size : (pos + size <= blen f)%N -> slice (f ++ x) pos size = slice f pos size.
Proof.
  intros L. unfold slice, blen in *. rewrite skipn_app, firstn_app, skipn_length.
  replace (N.to_nat size - (length f - N.to_nat pos)) with 0 by lia. rewrite firstn_O, app_nil_r. reflexivity.
Qed.

Lemma rmono_app s s' i x : fit s -> i = N.to_nat (st_index s) - 1 ->
  st_fs s' = upd (st_fs s) i (fget (st_fs s) i ++ x) -> st_index s' = st_index s -> (st_size s <= st_size s')%N -> rmono s s'.
Proof.
  intros [[I1 I2] Sz] Ei Ef Ex Es p y. unfold st_rd. rewrite Ef, Ex.
  destruct ((pidx p =? 0)%N || (st_index s + 1 <? pidx p)%N); [discriminate|]. rewrite upd_error.
  destruct (nth_error (st_fs s) (N.to_nat (pidx p) - 1)) as [f|] eqn:En; [|discriminate].
  destruct (Nat.eqb_spec i (N.to_nat (pidx p) - 1)) as [Ep|Ep]; cbn [andb].
  - assert (Lp : N.to_nat (pidx p) - 1 < length (st_fs s)) by (apply nth_error_Some; congruence).
    destruct (Nat.ltb_spec (N.to_nat (pidx p) - 1) (length (st_fs s))); [|lia].
    destruct (psize p =? 0)%N; [auto|].
    assert (Fg : fget (st_fs s) i = f). { unfold fget. rewrite Ep. apply nth_error_nth, En. }
    rewrite Fg. rewrite <- Ei, Fg in Sz.
    destruct (N.eqb_spec (pidx p) (st_index s)) as [E1|E1].
    + destruct (N.ltb_spec (st_size s) (ppos p + psize p)); [discriminate|].
      destruct (N.ltb_spec (st_size s') (ppos p + psize p)); [lia|]. rewrite slice_app by lia. auto.
    + destruct (N.ltb_spec (blen f) (ppos p + psize p)); [discriminate|].
      destruct (N.ltb_spec (blen (f ++ x)) (ppos p + psize p)); [unfold blen in *; rewrite app_length in *; lia|].
      rewrite slice_app by lia. auto.
  - destruct (psize p =? 0)%N; [auto|]. destruct (N.eqb_spec (pidx p) (st_index s)) as [E1|E1]; [lia|]. auto.
Qed.

Lemma file_write_track s f d : fit s ->
  let s0 := snd (file_write (set_io s []) WOk d) in
  track s s0 true (fun ok => ok = false) (Ok (file_write s f d)).
Proof.
  intros F. pose proof F as [[I1 I2] Sz]. cbv zeta. unfold file_write. cbn [set_io st_index st_fs st_size]. set (i := N.to_nat (st_index s) - 1) in *.
  assert (Li : i < length (st_fs s)) by (subst i; lia).
  destruct d as [|b d]; [cbn [snd]; apply track_ret, F|]. set (data := b :: d).
  assert (X : forall x n, (n <= blen x)%N -> fit (mkstore (upd (st_fs s) i (fget (st_fs s) i ++ x)) (st_log s ++ [OApp i x]) (st_key s) (st_slab s) (st_state s) (st_last s) (st_cache s) (st_index s) (st_size s + n) (st_io s))).
  { intros x n Ln. unfold fit. cbn [st_index st_fs st_size]. rewrite upd_length. fold i. unfold fget at 1. rewrite upd_same by exact Li.
    split; [lia|]. rewrite blen_app. lia. }
  assert (Ex : apply_ops (st_fs s) [OApp i data] = upd (st_fs s) i (fget (st_fs s) i ++ data)) by reflexivity.
  split; [reflexivity|]. split; [exact (X data (blen data) ltac:(lia))|]. exists [OApp i data].
  split; [reflexivity|]. split; [reflexivity|].
  assert (Good : exists r s', (true, set_cur (set_fs s (upd (st_fs s) i (fget (st_fs s) i ++ data)) [OApp i data]) (st_index s) (st_size s + blen data)) = (r, s') /\ fit s' /\ keep s s' /\ rmono s s' /\
    ((r = true /\ set_cur (set_fs (set_io s []) (upd (st_fs s) i (fget (st_fs s) i ++ data)) [OApp i data]) (st_index s) (st_size s + blen data) = set_io s' []) \/ (r = false /\ crash (st_fs s) [OApp i data] (st_fs s')))).
  { eexists _, _. split; [reflexivity|]. split; [exact (X data (blen data) ltac:(lia))|]. split; [repeat split|]. split; [|left; split; reflexivity].
    eapply rmono_app; [exact F|reflexivity|reflexivity|reflexivity|]. cbn. lia. }
  destruct Good as (r & s' & E & G). destruct f as [| | |n|]; cbv beta iota.
  - exists r, s'. rewrite E. auto.
  - exists r, s'. rewrite E. auto.
  - exists r, s'. rewrite E. auto.
  - eexists _, _. split; [reflexivity|]. split.
    { pose proof (X (firstn n data) 0%N ltac:(lia)) as Y. rewrite N.add_0_r in Y. exact Y. }
    split; [repeat split|]. split; [eapply rmono_app; [exact F|reflexivity|reflexivity|reflexivity|cbn; lia]|].
    right. split; [reflexivity|]. apply crash_torn.
  - eexists _, _. split; [reflexivity|]. split; [exact (X data (blen data) ltac:(lia))|]. split; [repeat split|].
    split; [eapply rmono_app; [exact F|reflexivity|reflexivity|reflexivity|cbn; lia]|].
    right. split; [reflexivity|]. apply crash_later, crash_here.
Qed.

(** ** urkel_store_write *)
Lemma track_prefix {A} s t s2 (g : A) bad x o : st_log t = st_log s ++ o -> apply_ops (st_fs s) o = st_fs t -> keep s t -> rmono s t ->
  track t s2 g bad x -> track s s2 g bad x.
Proof.
  intros E1 E2 K M1 (Q1 & F1 & ops & L & P & r & s' & -> & F' & K' & M & Alt).
  split; [exact Q1|]. split; [exact F1|]. exists (o ++ ops). split; [rewrite L, E1, app_assoc; reflexivity|].
  split; [rewrite apply_ops_app, E2; exact P|].
  exists r, s'. split; [reflexivity|]. split; [exact F'|]. split; [eapply keep_trans; eassumption|]. split; [eapply rmono_trans; eassumption|].
  destruct Alt as [X|[X Y]]; [left; exact X|right]. split; [exact X|]. apply crash_after. rewrite E2. exact Y.
Qed.
(** Stopping early. *)
Lemma track_stop {A} s t s' s2 (g r : A) (bad : A -> Prop) x o : st_log t = st_log s ++ o -> apply_ops (st_fs s) o = st_fs t ->
  st_fs s' = st_fs t -> fit s' -> keep s s' -> rmono s s' -> bad r ->
  track t s2 g bad x -> track s s2 g bad (Ok (r, s')).
Proof.
  intros E1 E2 E3 F K M B (Q1 & F1 & ops & L & P & _).
  split; [exact Q1|]. split; [exact F1|]. exists (o ++ ops). split; [rewrite L, E1, app_assoc; reflexivity|].
  split; [rewrite apply_ops_app, E2; exact P|]. exists r, s'. split; [reflexivity|]. split; [exact F|]. split; [exact K|]. split; [exact M|].
  right. split; [exact B|]. apply crash_after. rewrite E2, E3. apply crash_here.
Qed.

Lemma rmono_next s s' : fit s -> (forall i f, nth_error (st_fs s) i = Some f -> nth_error (st_fs s') i = Some f) ->
  st_index s' = st_index s /\ st_size s' = st_size s \/
  st_index s' = (st_index s + 1)%N /\ st_size s' = blen (fget (st_fs s') (N.to_nat (st_index s') - 1)) ->
  rmono s s'.
Proof.
  intros [[I1 I2] Sz] Ef Ei p y. unfold st_rd.
  destruct (N.eqb_spec (pidx p) 0) as [|P0]; [discriminate|]. destruct (N.ltb_spec (st_index s + 1) (pidx p)) as [|P1]; [discriminate|]. cbn [orb].
  destruct (nth_error (st_fs s) (N.to_nat (pidx p) - 1)) as [f|] eqn:En; [|discriminate].
  destruct (N.ltb_spec (st_index s' + 1) (pidx p)) as [P2|P2]; [destruct Ei as [[Ei _]|[Ei _]]; lia|]. rewrite (Ef _ _ En).
  destruct (psize p =? 0)%N; [auto|].
  assert (Ff : fget (st_fs s) (N.to_nat (pidx p) - 1) = f) by (apply nth_error_nth, En).
  assert (Ff' : fget (st_fs s') (N.to_nat (pidx p) - 1) = f) by (apply nth_error_nth, (Ef _ _ En)).
  assert (Sz' : (pidx p =? st_index s)%N = true -> (st_size s <= blen f)%N).
  { intros X. apply N.eqb_eq in X. rewrite <- X, Ff in Sz. exact Sz. }
  assert (Y : ((if (pidx p =? st_index s)%N then st_size s else blen f) <= if (pidx p =? st_index s')%N then st_size s' else blen f)%N).
  { destruct Ei as [[Ei E2]|[Ei E2]].
    - rewrite Ei, E2. lia.
    - destruct (N.eqb_spec (pidx p) (st_index s')) as [X|X].
      + destruct (N.eqb_spec (pidx p) (st_index s)) as [X2|X2]; [lia|]. rewrite E2, <- X, Ff'. lia.
      + destruct (N.eqb_spec (pidx p) (st_index s)) as [X2|X2]; [apply Sz'; reflexivity|lia]. }
  destruct (N.ltb_spec (if (pidx p =? st_index s)%N then st_size s else blen f) (ppos p + psize p)); [discriminate|].
  destruct (N.ltb_spec (if (pidx p =? st_index s')%N then st_size s' else blen f) (ppos p + psize p)); [lia|]. auto.
Qed.

Lemma write_track s d r0 s0 : fit s -> store_write (set_io s []) d = Ok (r0, s0) ->
  r0 = true /\ track s s0 true (fun ok => ok = false) (store_write s d).
Proof.
  intros F. unfold store_write. cbn [set_io st_io tl st_size st_index st_fs].
  set (f := match st_io s with x :: _ => x | [] => WOk end). set (io := tl (st_io s)).
  destruct (N.ltb_spec MAX_FILE_SIZE (st_size s + blen d)) as [R|R].
  - unfold check. destruct (N.ltb_spec (st_index s + 1) MAX_FILES) as [Lm|Lm]; [|discriminate].
    set (q1 := if (N.of_nat (length (st_fs s)) <? st_index s + 1)%N then set_fs _ (st_fs s ++ [[]]) [ONew] else _).
    set (s1 := if (N.of_nat (length (st_fs s)) <? st_index s + 1)%N then set_fs (set_io s io) (st_fs s ++ [[]]) [ONew] else set_io s io).
    assert (Eq : q1 = set_io s1 []) by (subst q1 s1; destruct (_ <? _)%N; reflexivity). rewrite Eq. clearbody q1. clear Eq q1.
    set (fs1 := if (N.of_nat (length (st_fs s)) <? st_index s + 1)%N then st_fs s ++ [[]] else st_fs s).
    set (o := if (N.of_nat (length (st_fs s)) <? st_index s + 1)%N then [ONew] else []).
    assert (E1 : st_fs s1 = fs1 /\ st_log s1 = st_log s ++ o /\ keep s s1 /\ st_index s1 = st_index s /\ st_size s1 = st_size s /\ apply_ops (st_fs s) o = fs1).
    { subst s1 fs1 o. destruct (_ <? _)%N; repeat split. cbn [set_io st_log]. rewrite app_nil_r. reflexivity. }
    assert (L1 : (st_index s + 1 <= N.of_nat (length fs1))%N).
    { subst fs1. destruct F as [[I1 I2] _]. destruct (N.ltb_spec (N.of_nat (length (st_fs s))) (st_index s + 1)) as [X|X]; [rewrite app_length; cbn [length]; lia|exact X]. }
    assert (G1 : forall i x, nth_error (st_fs s) i = Some x -> nth_error fs1 i = Some x).
    { intros i x En. subst fs1. destruct (_ <? _)%N; [|exact En]. rewrite nth_error_app1; [exact En|]. apply nth_error_Some. congruence. }
    clearbody s1 fs1 o. destruct E1 as (Ef & El & K & Ei & Es & Ea). cbn [set_io st_index st_fs]. rewrite Ei, Ef.
    set (sz := blen (fget fs1 (N.to_nat (st_index s + 1) - 1))). set (t := set_cur s1 (st_index s + 1) sz).
    change (set_cur (set_io s1 []) (st_index s + 1) sz) with (set_io t []).
    assert (Ft : fit t). { split; [cbn [t set_cur st_index st_fs]; rewrite Ef; lia|]. cbn [t set_cur st_index st_fs st_size]. rewrite Ef. subst sz. lia. }
    assert (F1 : fit s1). { destruct F as [[I1 I2] Sz]. split; rewrite Ei, Ef; [lia|]. rewrite Es. unfold fget.
      destruct (nth_error (st_fs s) (N.to_nat (st_index s) - 1)) as [x|] eqn:En; [|apply nth_error_None in En; lia].
      rewrite (nth_error_nth _ _ _ (G1 _ _ En)). unfold fget in Sz. rewrite (nth_error_nth _ _ _ En) in Sz. exact Sz. }
    assert (Kt : keep s t) by exact K.
    assert (Mt : rmono s t). { apply rmono_next; [exact F| |]; [cbn [t set_cur st_fs]; rewrite Ef; exact G1|].
      right. cbn [t set_cur st_index st_fs st_size]. rewrite Ef. split; reflexivity. }
    assert (M1 : rmono s s1). { apply rmono_next; [exact F|rewrite Ef; exact G1|left; split; assumption]. }
    intros E. pose proof (file_write_track t f d Ft) as T. cbv zeta in T.
    assert (Er : r0 = true) by (revert E; unfold file_write; destruct d; intros E; apply Ok_inj in E; congruence).
    split; [exact Er|]. apply Ok_inj in E. rewrite E in T. cbn [snd] in T.
    assert (Lt : st_log t = st_log s ++ o) by exact El. assert (At : apply_ops (st_fs s) o = st_fs t) by (rewrite Ea; symmetry; exact Ef).
    pose proof (track_prefix s t s0 true _ _ o Lt At Kt Mt T) as T'. clearbody f. destruct f.
    + exact T'.
    + eapply track_stop with (o := []) (t := s); [rewrite app_nil_r; reflexivity|reflexivity|reflexivity|exact F|repeat split|exact (rmono_refl s : rmono s (set_io s io))|reflexivity|exact T'].
    + eapply (track_stop s t); [exact Lt|exact At|reflexivity|exact F1|exact K|exact M1|reflexivity|exact T].
    + exact T'.
    + exact T'.
  - intros E. pose proof (file_write_track (set_io s io) f d F) as T. cbv zeta in T. change (set_io (set_io s io) []) with (set_io s []) in T.
    assert (Er : r0 = true) by (revert E; unfold file_write; destruct d; intros E; apply Ok_inj in E; congruence).
    split; [exact Er|]. apply Ok_inj in E. change (set_io (set_io s []) []) with (set_io s []) in E. rewrite E in T. cbn [snd] in T.
    eapply track_pure; [| | | | |exact T]; try reflexivity. repeat split.
Qed.

(** ** urkel_store_flush *)
Lemma flush_loop_track cs : forall s i d r0 s0, fit s -> flush_loop (set_io s []) i cs d = Ok (r0, s0) ->
  r0 = None /\ track s s0 None (fun r => r <> None) (flush_loop s i cs d).
Proof.
  induction cs as [|len cs IH]; intros s i d r0 s0 F E; cbn [flush_loop] in *.
  - apply Ok_inj in E. injection E as <- <-. split; [reflexivity|apply track_ret, F].
  - destruct (store_write (set_io s []) (firstn len d)) as [[ok s1]| | | |] eqn:Ew; try discriminate E. cbn [bind] in E.
    destruct (write_track s (firstn len d) ok s1 F Ew) as [-> T]. pose proof T as (Q1 & F1 & _).
    split; [rewrite <- (io_nil s1 Q1) in E; exact (proj1 (IH _ _ _ _ _ F1 E))|].
    eapply (track_bind s s1 s0 true _ _ (fun ok s => if ok then flush_loop s (S i) cs (skipn len d) else Ok (Some i, s))); [exact T| |].
    + intros t Et Ft. rewrite Et in E. exact (proj2 (IH _ _ _ _ _ Ft E)).
    + intros r t ->. eexists _, t. split; [reflexivity|]. split; [discriminate|]. split; [reflexivity|]. split; [apply keep_refl|auto].
Qed.

Lemma flush_track s r0 s0 : fit s -> store_flush (set_io s []) = Ok (r0, s0) ->
  r0 = true /\ track s s0 true (fun ok => ok = false) (store_flush s).
Proof.
  intros F. unfold store_flush. cbn [set_io st_slab].
  destruct (flush_loop (set_io s []) _ _ _) as [[r s1]| | | |] eqn:Ef; intros E; try discriminate E. cbn [bind] in E.
  destruct (flush_loop_track _ _ _ _ _ _ F Ef) as [-> T]. apply Ok_inj in E. injection E as <- <-. split; [reflexivity|].
  match goal with |- track _ _ _ _ (bind _ (fun '(r, s2) => match r with Some i => Ok (false, set_slab s2 (@?B i)) | None => Ok (true, set_slab s2 ?A) end)) =>
    eapply (track_bind s s1 _ None _ _ (fun r s2 => match r with Some i => Ok (false, set_slab s2 (B i)) | None => Ok (true, set_slab s2 A) end)); [exact T| |] end.
  - intros t -> Ft. change (set_slab (set_io t []) ?x) with (set_io (set_slab t x) []).
    eapply track_pure; [| | | | |apply track_ret; exact Ft]; try reflexivity. repeat split.
  - intros [i|] t N; [|congruence]. eexists _, _. split; [reflexivity|]. split; [reflexivity|]. split; [reflexivity|]. split; [repeat split|auto].
Qed.

(** ** Functions that only append to the write buffer *)
Definition buffers {A} (f : store -> res (A * store)) : Prop :=
  forall s io x s0, f (set_io s io) = Ok (x, s0) -> exists sl, f s = Ok (x, set_slab s sl) /\ s0 = set_io (set_slab s sl) io.
Lemma write_node_buffers n : buffers (fun s => write_node s n).
Proof.
  intros s io x s0. unfold write_node. destruct (node_write n) as [raw| | | |]; try discriminate. cbn [bind].
  destruct n as [|h w p l r|h w k v vp|h w]; try discriminate; destruct w as [w|]; try discriminate; cbn [set_io st_slab];
    destruct (slab_write (st_slab s) raw) as [sl| | | |]; try discriminate; cbn [bind]; intros E; apply Ok_inj in E; injection E as <- <-; eauto.
Qed.
Lemma write_value_buffers n : buffers (fun s => write_value s n).
Proof.
  intros s io x s0. unfold write_value.
  destruct n as [|h w p l r|h w k [v|] [vp|]|h w]; try discriminate; cbn [set_io st_slab];
    destruct (slab_write (st_slab s) v) as [sl| | | |]; try discriminate; cbn [bind]; intros E; apply Ok_inj in E; injection E as <- <-; eauto.
Qed.

Section Fault.
Variable H : bytes -> bytes.
Hypothesis H_len : forall m, length (H m) = 32.
Variable C : bytes -> bytes -> bytes.
Hypothesis C_len : forall k m, length (C k m) = 20.

Lemma write_meta_buffers n : buffers (fun s => write_meta C s n).
Proof.
  intros s io x s0. unfold write_meta. destruct (written n) as [w|]; [|discriminate].
  destruct (node_to_hash n) as [rn| | | |]; try discriminate. cbn [bind set_io st_slab st_state st_key].
  destruct (if (sl_pos (st_slab s) mod 38 =? 0)%N then _ else _) as [sl| | | |]; try discriminate. cbn [bind].
  destruct (slab_write sl _) as [sl2| | | |]; try discriminate. cbn [bind]. intros E. apply Ok_inj in E. injection E as <- <-. eauto.
Qed.

(** The end of urkel_tree_write, common to both kinds of node: flush if needed, hash. *)
Definition finish (n : node) (s : store) : res (option node * store) :=
  let! (n, s, ok) := (if needs_flush s then let! (ok, s) := store_flush s in Ok (n, s, ok) else Ok (n, s, true)) in
  if negb ok then Ok (None, s) else
  let! (_, n) := node_hash H n in let! out := node_to_hash n in Ok (Some out, s).
Definition isnone (r : option node) : Prop := r = None.

Lemma finish_track n s r0 s0 : fit s -> finish n (set_io s []) = Ok (r0, s0) ->
  r0 <> None /\ track s s0 r0 isnone (finish n s).
Proof.
  intros F. unfold finish. change (needs_flush (set_io s [])) with (needs_flush s). destruct (needs_flush s).
  - destruct (store_flush (set_io s [])) as [[ok s1]| | | |] eqn:Ef; try discriminate. cbn [bind].
    destruct (flush_track _ _ _ F Ef) as [-> T]. cbn [negb].
    destruct (node_hash H n) as [[h n1]| | | |] eqn:Eh; try discriminate. cbn [bind]. destruct (node_to_hash n1) as [out| | | |] eqn:Eo; try discriminate. cbn [bind].
    intros E. apply Ok_inj in E. injection E as <- <-. split; [discriminate|].
    destruct T as (Q & F1 & ops & L & P & r & s' & -> & F' & K & M & Alt). split; [exact Q|]. split; [exact F1|]. exists ops. split; [exact L|]. split; [exact P|].
    cbn [bind]. destruct Alt as [[-> E]|[-> Cr]]; cbn [negb]; rewrite ?Eh; cbn [bind]; rewrite ?Eo; cbn [bind]; eexists _, s'; (split; [reflexivity|]); (split; [exact F'|]); (split; [exact K|]); (split; [exact M|]).
    + left. auto. + right. split; [reflexivity|exact Cr].
  - cbn [bind negb]. destruct (node_hash H n) as [[h n1]| | | |]; try discriminate. cbn [bind]. destruct (node_to_hash n1) as [out| | | |]; try discriminate. cbn [bind].
    intros E. apply Ok_inj in E. injection E as <- <-. split; [discriminate|apply track_ret, F].
Qed.

Lemma buffers_track {A} (f : store -> res (A * store)) (g : A -> store -> res (option node * store)) s r0 s0 :
  buffers f -> fit s ->
  (forall x t, fit t -> g x (set_io t []) = Ok (r0, s0) -> r0 <> None /\ track t s0 r0 isnone (g x t)) ->
  (let! (x, s) := f (set_io s []) in g x s) = Ok (r0, s0) ->
  r0 <> None /\ track s s0 r0 isnone (let! (x, s) := f s in g x s).
Proof.
  intros Bf F Hg. destruct (f (set_io s [])) as [[x s1]| | | |] eqn:E; try discriminate. cbn [bind].
  destruct (Bf _ _ _ _ E) as (sl & -> & ->). cbn [bind]. intros Eg.
  destruct (Hg x (set_slab s sl) F Eg) as [N T]. split; [exact N|].
  eapply track_pure; [| | | | |exact T]; try reflexivity. repeat split.
Qed.

Lemma tree_write_track n : forall s r0 s0, fit s -> tree_write H (set_io s []) n = Ok (r0, s0) ->
  r0 <> None /\ track s s0 r0 isnone (tree_write H s n).
Proof.
  induction n as [|h w p l IHl r IHr|h w k v vp|h w]; intros s r0 s0 F.
  - intros E. apply Ok_inj in E. injection E as <- <-. split; [discriminate|apply track_ret, F].
  - intros E.
    pose (f2 := fun l' r' (s : store) => 
        let n := NInt h w p l' r' in
        let! (n, s, ok) :=
          (match w with
           | Some _ => Ok (n, s, true)
           | None =>
             let! (n, s) := write_node s n in
             if needs_flush s
             then let! (ok, s) := store_flush s in Ok (n, s, ok)
             else Ok (n, s, true)
           end) in
        if negb ok then Ok (None, s) else
        let! (_, n) := node_hash H n in
        let! out := node_to_hash n in
        Ok (Some out, s)).
    pose (f1 := fun l' s => match l' with None => Ok (None, s) | Some l' => let! (r', s) := tree_write H s r in match r' with None => Ok (None, s) | Some r' => f2 l' r' s end end).
    assert (U : forall s, tree_write H s (NInt h w p l r) = let! (l', s) := tree_write H s l in f1 l' s) by (intros; reflexivity).
    rewrite U in *. clear U.
    assert (T2 : forall l' r' s s0 r0, fit s -> f2 l' r' (set_io s []) = Ok (r0, s0) -> r0 <> None /\ track s s0 r0 isnone (f2 l' r' s)).
    { clear - H. intros l' r' s s0 r0 F. unfold f2. destruct w as [w|]; cbv zeta.
      - cbn [bind negb]. destruct (node_hash H (NInt h (Some w) p l' r')) as [[h' n1]| | | |]; try discriminate. cbn [bind]. destruct (node_to_hash n1) as [out| | | |]; try discriminate. cbn [bind].
        intros E. apply Ok_inj in E. injection E as <- <-. split; [discriminate|apply track_ret, F].
      - intros E. pose proof (buffers_track (fun s => write_node s (NInt h None p l' r')) (fun n s => finish n s) s r0 s0 (write_node_buffers _) F (fun x t Ft => finish_track x t r0 s0 Ft)) as X.
        assert (W : forall s, (let! (n, s, ok) := (let! (n, s) := write_node s (NInt h None p l' r') in
             if needs_flush s then let! (ok, s) := store_flush s in Ok (n, s, ok) else Ok (n, s, true)) in
           if negb ok then Ok (None, s) else let! (_, n) := node_hash H n in let! out := node_to_hash n in Ok (Some out, s)) =
           let! (n, s) := write_node s (NInt h None p l' r') in finish n s).
        { intros u. destruct (write_node u _) as [[n1 u1]| | | |]; reflexivity. }
        rewrite W in *. apply X, E. }
    assert (T1 : forall l' s s0 r0, fit s -> l' <> None -> f1 l' (set_io s []) = Ok (r0, s0) -> r0 <> None /\ track s s0 r0 isnone (f1 l' s)).
    { clear E F s r0 s0. intros [l'|] s s0 r0 F N; [|congruence]. unfold f1. destruct (tree_write H (set_io s []) r) as [[r' s1]| | | |] eqn:Er; try discriminate. cbn [bind].
      destruct (IHr s r' s1 F Er) as [Nr T]. destruct r' as [r'|]; [|congruence]. intros E.
      pose proof T as (Q1 & F1 & _). pose proof E as E'. rewrite <- (io_nil s1 Q1) in E'. split; [exact (proj1 (T2 _ _ _ _ _ F1 E'))|].
      eapply (track_bind s s1 s0 (Some r') isnone _ (fun r' s => match r' with None => Ok (None, s) | Some r' => f2 l' r' s end)); [exact T| |].
      - intros t Et Ft. rewrite Et in E. exact (proj2 (T2 _ _ _ _ _ Ft E)).
      - intros x t ->. eexists _, t. split; [reflexivity|]. split; [reflexivity|]. split; [reflexivity|]. split; [apply keep_refl|auto]. }
    assert (F0 : forall t, f1 None t = Ok (None, t)) by reflexivity.
    clearbody f1. destruct (tree_write H (set_io s []) l) as [[l' s1]| | | |] eqn:El; try discriminate. cbn [bind] in E.
    destruct (IHl s l' s1 F El) as [Nl T]. pose proof T as (Q1 & F1 & _). pose proof E as E'. rewrite <- (io_nil s1 Q1) in E'.
    split; [exact (proj1 (T1 _ _ _ _ F1 Nl E'))|].
    eapply (track_bind s s1 s0 l' isnone _ f1); [exact T| |].
    + intros t Et Ft. rewrite Et in E. exact (proj2 (T1 _ _ _ _ Ft Nl E)).
    + intros x t ->. eexists _, t. split; [apply F0|]. split; [reflexivity|]. split; [reflexivity|]. split; [apply keep_refl|auto].
  - cbn [tree_write]. destruct w as [w|].
    + cbn [bind negb]. destruct (node_hash H (NLeaf h (Some w) k v vp)) as [[h' n1]| | | |]; try discriminate. cbn [bind]. destruct (node_to_hash n1) as [out| | | |]; try discriminate. cbn [bind].
      intros E. apply Ok_inj in E. injection E as <- <-. split; [discriminate|apply track_ret, F].
    + assert (W : forall s, (let! (n, s, ok) := (let! (n, s) := write_value s (NLeaf h None k v vp) in let! (n, s) := write_node s n in
             if needs_flush s then let! (ok, s) := store_flush s in Ok (n, s, ok) else Ok (n, s, true)) in
           if negb ok then Ok (None, s) else let! (_, n) := node_hash H n in let! out := node_to_hash n in Ok (Some out, s)) =
           let! (n, s) := write_value s (NLeaf h None k v vp) in let! (n, s) := write_node s n in finish n s).
      { intros u. destruct (write_value u _) as [[n1 u1]| | | |]; try reflexivity. cbn [bind]. destruct (write_node u1 _) as [[n2 u2]| | | |]; reflexivity. }
      rewrite !W. clear W. apply (buffers_track (fun s => write_value s (NLeaf h None k v vp)) (fun n s => let! (n, s) := write_node s n in finish n s)); [apply write_value_buffers|exact F|].
      intros x t Ft. apply (buffers_track (fun s => write_node s x) finish); [apply write_node_buffers|exact Ft|].
      intros y u Fu. apply finish_track, Fu.
  - intros E. apply Ok_inj in E. injection E as <- <-. split; [discriminate|apply track_ret, F].
Qed.

(** ** urkel_tree_commit *)
Definition ctrack {A} (s s0 : store) (g : A) (bad : A -> Prop) (x : res (A * store)) : Prop :=
  exists ops, st_log s0 = st_log s ++ ops /\ apply_ops (st_fs s) ops = st_fs s0 /\
  exists r s', x = Ok (r, s') /\
    ((r = g /\ s0 = set_io s' []) \/ (bad r /\ crash (st_fs s) ops (st_fs s') /\ keep s s' /\ rmono s s' /\ fit s')).

Lemma store_commit_track s root ok0 s0 : fit s -> store_commit C (set_io s []) root = Ok (ok0, s0) ->
  ok0 = true /\ ctrack s s0 true (fun ok => ok = false) (store_commit C s root).
Proof.
  intros F. unfold store_commit. destruct (write_meta C (set_io s []) root) as [[mt s1]| | | |] eqn:Em; try discriminate.
  destruct (write_meta_buffers root _ _ _ _ Em) as (sl & -> & ->). cbn [bind].
  destruct (store_flush (set_io (set_slab s sl) [])) as [[ok s2]| | | |] eqn:Ef; try discriminate. cbn [bind].
  destruct (flush_track (set_slab s sl) ok s2 F Ef) as [-> (Q & F1 & ops & L & P & r & s' & -> & F' & K & M & Alt)]. cbn [negb bind].
  intros E.
  assert (Ex : ok0 = true /\ st_log s0 = st_log s2 /\ st_fs s0 = st_fs s2).
  { revert E. destruct (m_node mt); try (intros E; apply Ok_inj in E; injection E as <- <-; auto).
    all: destruct (cache_insert _ _) as [c| | | |]; try discriminate; cbn [bind]; intros E; apply Ok_inj in E; injection E as <- <-; auto. }
  destruct Ex as (-> & E1 & E2). split; [reflexivity|]. exists ops. rewrite E1, E2. split; [exact L|]. split; [exact P|].
  destruct Alt as [[-> Es]|[-> Cr]].
  - cbn [negb]. subst s2. revert E. destruct (m_node mt) as [| | |].
    + intros E. apply Ok_inj in E. injection E as <-. eexists _, _. split; [reflexivity|]. left. split; reflexivity.
    + cbn [set_io set_state st_cache]. destruct (cache_insert _ _) as [c| | | |]; try discriminate; cbn [bind]; intros E; apply Ok_inj in E; injection E as <-. eexists _, _. split; [reflexivity|]. left. split; reflexivity.
    + cbn [set_io set_state st_cache]. destruct (cache_insert _ _) as [c| | | |]; try discriminate; cbn [bind]; intros E; apply Ok_inj in E; injection E as <-. eexists _, _. split; [reflexivity|]. left. split; reflexivity.
    + cbn [set_io set_state st_cache]. destruct (cache_insert _ _) as [c| | | |]; try discriminate; cbn [bind]; intros E; apply Ok_inj in E; injection E as <-. eexists _, _. split; [reflexivity|]. left. split; reflexivity.
  - cbn [negb]. eexists _, _. split; [reflexivity|]. right. split; [reflexivity|]. split; [exact Cr|]. split; [exact K|]. split; [exact M|exact F'].
Qed.

Lemma commit_track s n r0 s0 : fit s -> tree_commit H C (set_io s []) n = Ok (r0, s0) ->
  r0 <> None /\ ctrack s s0 r0 isnone (tree_commit H C s n).
Proof.
  intros F. unfold tree_commit. destruct (tree_write H (set_io s []) n) as [[r1 s1]| | | |] eqn:Ew; try discriminate. cbn [bind].
  destruct (tree_write_track n _ _ _ F Ew) as [N T]. destruct r1 as [root|]; [|congruence].
  destruct (store_commit C s1 root) as [[ok s2]| | | |] eqn:Ec; try discriminate. cbn [bind].
  pose proof T as (Q & F1 & ops & L & P & r & s' & -> & F' & K & M & Alt).
  pose proof Ec as Ec'. rewrite <- (io_nil s1 Q) in Ec'. destruct (store_commit_track s1 root ok s2 F1 Ec') as [-> (ops2 & L2 & P2 & _)].
  intros E. apply Ok_inj in E. injection E as <- <-. split; [discriminate|]. exists (ops ++ ops2).
  split; [rewrite L2, L, app_assoc; reflexivity|]. split; [rewrite apply_ops_app, P; exact P2|]. cbn [bind].
  destruct Alt as [[-> Es]|[-> Cr]].
  - rewrite Es in Ec. destruct (store_commit_track s' root true s2 F' Ec) as [_ (ops3 & L3 & P3 & r & s2' & -> & Alt)]. cbn [bind].
    assert (ops3 = ops2) as ->. { rewrite Es in L2. cbn [set_io st_log] in L2. rewrite L2 in L3. apply app_inv_head in L3. congruence. }
    destruct Alt as [[-> E]|(-> & Cr & K2 & M2 & F2)]; eexists _, _; (split; [reflexivity|]); [left; auto|right].
    split; [reflexivity|]. split; [apply crash_after; rewrite P, Es; exact Cr|]. split; [eapply keep_trans; eassumption|]. split; [eapply rmono_trans; eassumption|exact F2].
  - eexists _, _. split; [reflexivity|]. right. split; [reflexivity|]. split; [apply crash_more, Cr|]. auto.
Qed.
End Fault.
