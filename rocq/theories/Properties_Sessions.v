(** * C51: processes opening the same database one after the other. *)
From Verif Require Import Sessions Demo.
From Verif Require Export Properties_Hist.

Lemma open_at_all H C key fs : open_at H C key (length fs) fs = db_open H C key fs [].
Proof.
  unfold open_at, db_open, store_open. rewrite firstn_all, skipn_all.
  destruct (recover C key (length fs) fs []) as [[[[fs1 ops] st] last]| | | |]; cbn [bind]; try reflexivity.
  destruct fs1 as [|f fs1].
  - cbn [bind length]. unfold check. destruct (_ <? _)%N; [|reflexivity].
    change (1 - 1) with 0. destruct (read_root _ _ _) as [[[x|] s]| | | |]; reflexivity.
  - cbn [length]. change (0 =? 0) with true. cbn [negb]. rewrite andb_false_r. cbn [bind]. rewrite app_nil_r.
    unfold check. destruct (_ <? _)%N; [|reflexivity]. destruct (read_root _ _ _) as [[[x|] s]| | | |]; reflexivity.
Qed.

Lemma read_root_io H s p x s' : read_root H s p = Ok (x, s') -> st_io s' = st_io s.
Proof.
  unfold read_root. intros E.
  repeat (match type of E with
          | (if ?b then _ else _) = _ => destruct b
          | bind ?r _ = _ => destruct r; cbn [bind] in E; try discriminate E
          | match ?r with _ => _ end = _ => destruct r
          end).
  all: try discriminate E; apply Ok_inj in E; injection E as _ <-; reflexivity.
Qed.

Section S.
Variable H : bytes -> bytes.
Hypothesis H_len : forall m, length (H m) = 32.
Variable C : bytes -> bytes -> bytes.
Hypothesis C_len : forall k m, length (C k m) = 20.

(** Between sessions: nothing written yet, or the files of a session that was closed. *)
Definition rests (key : bytes) (fs : list bytes) (sp : spec) : Prop :=
  (fs = [] /\ sp = spec0) \/
  exists w, exec H C key w sp /\ quiet w /\ s_failed sp = false /\ aligned (files w) /\ files w = fs.

Record sane (s : shared) (sp : spec) : Prop := {
  sa_in : forall p w, sh_proc s p = PIn w -> sh_owner s = Some p;
  sa_key : forall p k, sh_proc s p = PKey k \/ (exists n, sh_proc s p = PIndex k n) -> sh_meta s = Some k;
  sa_none : sh_meta s = None -> sh_owner s = None /\ sh_files s = [] /\ sp = spec0;
  sa_own : forall p, sh_owner s = Some p -> exists w, sh_proc s p = PIn w;
  sa_run : forall p w, sh_proc s p = PIn w -> exists key, sh_meta s = Some key /\ exec H C key w sp /\ quiet w /\ files w = sh_files s;
  sa_rest : forall key, sh_meta s = Some key -> sh_owner s = None -> rests key (sh_files s) sp }.

Lemma pput_same ps p x : pput ps p x p = x.
Proof. unfold pput. rewrite Nat.eqb_refl. reflexivity. Qed.
Lemma pput_other ps p x q : q <> p -> pput ps p x q = ps q.
Proof. unfold pput. intros N. destruct (Nat.eqb_spec q p); [contradiction|reflexivity]. Qed.

Lemma open_rests key fs sp d : rests key fs sp -> db_open H C key fs [] = Ok (Some d) ->
  exec H C key (mkworld (Some d) []) (crashed sp) /\ quiet (mkworld (Some d) []).
Proof.
  intros R E. assert (Q : quiet (mkworld (Some d) [])).
  { unfold quiet. cbn [w_db]. revert E. unfold db_open, store_open. destruct (recover _ _ _ _ _) as [[[[fs1 ops] st] last]| | | |]; cbn [bind]; try discriminate.
    set (q := match fs1 with [] => _ | _ => _ end). destruct q as [f o]. unfold check. destruct (_ <? _)%N; [|discriminate].
    set (s0 := mkstore _ _ _ _ _ _ _ _ _ _). assert (E0 : st_io s0 = []) by reflexivity. clearbody s0.
    destruct (read_root H s0 (m_root st)) as [[[x|] s]| | | |] eqn:Er; cbn [bind]; try discriminate.
    intros E. apply Ok_inj in E. injection E as <-. cbn [d_store set_state st_io].
    rewrite (read_root_io _ _ _ _ _ Er). exact E0. }
  split; [|exact Q]. destruct R as [[-> ->]|(w & X & Qw & F & Al & <-)]; [apply ex_new, E|].
  eapply (ex_crashes H C key w sp [] w sp []); [exact X|exact Qw|exact F|exact Al|constructor| | |left; constructor|constructor| |exact E].
  - rewrite app_nil_r. reflexivity.
  - intros i j m L1 L2. lia.
  - exists [], []. split; [reflexivity|]. split; [|constructor]. split; [exact Al|]. split; [apply le_n|]. intros i. exists []. rewrite app_nil_r. reflexivity.
Qed.

Lemma sane_run s sp : srun H C current s sp -> sane s sp.
Proof.
  induction 1 as [|s sp p s' sp' R IH Ok St].
  { constructor; cbn [sh_proc sh_owner sh_meta sh_files]; try discriminate; auto.
    intros p k [E|(n & E)]; discriminate. }
  destruct IH as [I1 I2 I3 I4 I5 I6]. unfold current in Ok.
  destruct St as [s sp p k Ep Em|s sp p Ep Em|s sp p k Ep Lk|s sp p k Ep|s sp p q k n Ep Eo|s sp p k n d Ep Eo E|s sp p w c a w' Ep OK Nc E|s sp p w Ep Fa Al|s sp p Np].
  - (* key found *)
    constructor; cbn [put_proc sh_proc sh_owner sh_meta sh_files].
    + intros q w. destruct (Nat.eq_dec q p) as [->|N]; [rewrite pput_same; discriminate|rewrite pput_other by exact N; apply I1].
    + intros q k'. destruct (Nat.eq_dec q p) as [->|N]; [|rewrite pput_other by exact N; apply I2]. rewrite pput_same. intros [X|(n & X)]; [injection X as <-; exact Em|discriminate].
    + exact I3.
    + intros q X. destruct (I4 q X) as (w & Y). exists w. rewrite pput_other; [exact Y|]. intros ->. congruence.
    + intros q w. destruct (Nat.eq_dec q p) as [->|N]; [rewrite pput_same; discriminate|rewrite pput_other by exact N; apply I5].
    + exact I6.
  - constructor; cbn [put_proc sh_proc sh_owner sh_meta sh_files].
    + intros q w. destruct (Nat.eq_dec q p) as [->|N]; [rewrite pput_same; discriminate|rewrite pput_other by exact N; apply I1].
    + intros q k'. destruct (Nat.eq_dec q p) as [->|N]; [|rewrite pput_other by exact N; apply I2]. rewrite pput_same. intros [X|(n & X)]; discriminate.
    + exact I3.
    + intros q X. destruct (I4 q X) as (w & Y). exists w. rewrite pput_other; [exact Y|]. intros ->. congruence.
    + intros q w. destruct (Nat.eq_dec q p) as [->|N]; [rewrite pput_same; discriminate|rewrite pput_other by exact N; apply I5].
    + exact I6.
  - (* key drawn: there was none *)
    rewrite Ep in Ok. destruct (I3 Ok) as (Eo & Ef & ->).
    constructor; cbn [put_proc sh_proc sh_owner sh_meta sh_files]; rewrite ?Eo, ?Ef.
    + intros q w. destruct (Nat.eq_dec q p) as [->|N]; [rewrite pput_same; discriminate|rewrite pput_other by exact N]. intros X. apply I1 in X. congruence.
    + intros q k'. destruct (Nat.eq_dec q p) as [->|N]; [rewrite pput_same; intros [X|(n & X)]; [injection X as <-; reflexivity|discriminate]|].
      rewrite pput_other by exact N. intros X. apply I2 in X. congruence.
    + discriminate.
    + discriminate.
    + intros q w. destruct (Nat.eq_dec q p) as [->|N]; [rewrite pput_same; discriminate|rewrite pput_other by exact N]. intros X. apply I1 in X. congruence.
    + intros key _ _. left. auto.
  - assert (Em : sh_meta s = Some k) by (apply (I2 p); auto).
    constructor; cbn [put_proc sh_proc sh_owner sh_meta sh_files].
    + intros q w. destruct (Nat.eq_dec q p) as [->|N]; [rewrite pput_same; discriminate|rewrite pput_other by exact N; apply I1].
    + intros q k'. destruct (Nat.eq_dec q p) as [->|N]; [|rewrite pput_other by exact N; apply I2]. rewrite pput_same. intros [X|(n & X)]; [discriminate|injection X as <- _; exact Em].
    + exact I3.
    + intros q X. destruct (I4 q X) as (w & Y). exists w. rewrite pput_other; [exact Y|]. intros ->. congruence.
    + intros q w. destruct (Nat.eq_dec q p) as [->|N]; [rewrite pput_same; discriminate|rewrite pput_other by exact N; apply I5].
    + exact I6.
  - constructor; cbn [put_proc sh_proc sh_owner sh_meta sh_files].
    + intros r w. destruct (Nat.eq_dec r p) as [->|N]; [rewrite pput_same; discriminate|rewrite pput_other by exact N; apply I1].
    + intros r k'. destruct (Nat.eq_dec r p) as [->|N]; [|rewrite pput_other by exact N; apply I2]. rewrite pput_same. intros [X|(m & X)]; discriminate.
    + exact I3.
    + intros r X. destruct (I4 r X) as (w & Y). exists w. rewrite pput_other; [exact Y|]. intros ->. congruence.
    + intros r w. destruct (Nat.eq_dec r p) as [->|N]; [rewrite pput_same; discriminate|rewrite pput_other by exact N; apply I5].
    + exact I6.
  - (* opened *)
    rewrite Ep in Ok. subst n. rewrite open_at_all in E. assert (Em : sh_meta s = Some k) by (apply (I2 p); eauto).
    destruct (open_rests k _ sp d (I6 k Em Eo) E) as [X Q].
    constructor; cbn [sh_proc sh_owner sh_meta sh_files].
    + intros q w. destruct (Nat.eq_dec q p) as [->|N]; [reflexivity|rewrite pput_other by exact N]. intros Y. apply I1 in Y. congruence.
    + intros q k'. destruct (Nat.eq_dec q p) as [->|N]; [|rewrite pput_other by exact N; apply I2]. rewrite pput_same. intros [Y|(n & Y)]; discriminate.
    + intros Y. congruence.
    + intros q Y. injection Y as <-. rewrite pput_same. eauto.
    + intros q w. destruct (Nat.eq_dec q p) as [->|N]; [|rewrite pput_other by exact N; intros Y; apply I1 in Y; congruence].
      rewrite pput_same. intros Y. injection Y as <-. exists k. auto.
    + discriminate.
  - (* a call *)
    destruct (I5 p w Ep) as (k & Em & X & Q & Ef). pose proof (I1 p w Ep) as Eo.
    destruct (step_ok H H_len C C_len k w sp c (exec_sim H H_len C C_len _ _ _ X) OK) as (a' & w1 & E' & _ & _ & _ & Q1 & _).
    rewrite E in E'. apply Ok_inj in E'. injection E' as <- <-.
    constructor; cbn [sh_proc sh_owner sh_meta sh_files].
    + intros q v. destruct (Nat.eq_dec q p) as [->|N]; [intros _; exact Eo|rewrite pput_other by exact N; apply I1].
    + intros q k'. destruct (Nat.eq_dec q p) as [->|N]; [|rewrite pput_other by exact N; apply I2]. rewrite pput_same. intros [Y|(n & Y)]; discriminate.
    + intros Y. congruence.
    + intros q Y. rewrite Eo in Y. injection Y as <-. rewrite pput_same. eauto.
    + intros q v. destruct (Nat.eq_dec q p) as [->|N]; [|rewrite pput_other by exact N; intros Y; apply I1 in Y; congruence].
      rewrite pput_same. intros Y. injection Y as <-. exists k. split; [exact Em|]. split; [eapply ex_call; eassumption|]. auto.
    + intros key _ Y. congruence.
  - (* closed *)
    destruct (I5 p w Ep) as (k & Em & X & Q & Ef). pose proof (I1 p w Ep) as Eo.
    constructor; cbn [sh_proc sh_owner sh_meta sh_files].
    + intros q v. destruct (Nat.eq_dec q p) as [->|N]; [rewrite pput_same; discriminate|rewrite pput_other by exact N; intros Y; apply I1 in Y; congruence].
    + intros q k'. destruct (Nat.eq_dec q p) as [->|N]; [|rewrite pput_other by exact N; apply I2]. rewrite pput_same. intros [Y|(n & Y)]; discriminate.
    + intros Y. congruence.
    + discriminate.
    + intros q v. destruct (Nat.eq_dec q p) as [->|N]; [rewrite pput_same; discriminate|rewrite pput_other by exact N; intros Y; apply I1 in Y; congruence].
    + intros key Y _. right. exists w. assert (key = k) as -> by congruence. auto.
  - constructor; cbn [put_proc sh_proc sh_owner sh_meta sh_files].
    + intros q w. destruct (Nat.eq_dec q p) as [->|N]; [rewrite pput_same; discriminate|rewrite pput_other by exact N; apply I1].
    + intros q k'. destruct (Nat.eq_dec q p) as [->|N]; [|rewrite pput_other by exact N; apply I2]. rewrite pput_same. intros [X|(n & X)]; discriminate.
    + exact I3.
    + intros q X. destruct (I4 q X) as (w & Y). exists w. rewrite pput_other; [exact Y|]. intros ->. exact (Np w Y).
    + intros q w. destruct (Nat.eq_dec q p) as [->|N]; [rewrite pput_same; discriminate|rewrite pput_other by exact N; apply I5].
    + exact I6.
Qed.
End S.

(** C51: if what each process learns before it has the lock is still true when it uses it, the
    processes behave like one process using the database all the time: the session of the
    process inside is an execution in the sense of Exec.v, started from everything the earlier
    sessions committed; its calls give the right answers; and opening succeeds and shows the last commit. *)
Theorem C51_sessions_partial :
  forall (H : bytes -> bytes), (forall m, length (H m) = 32) ->
  forall (C : bytes -> bytes -> bytes), (forall k m, length (C k m) = 20) ->
  forall s sp, srun H C current s sp ->
  (forall p w, sh_proc s p = PIn w ->
     (forall q w', sh_proc s q = PIn w' -> q = p) /\
     (exists key, sh_meta s = Some key /\ exec H C key w sp) /\ files w = sh_files s /\
     forall c, allowed H sp w c -> exists a w', step H C w c = Ok (a, w') /\ good H sp w c a) /\
  (forall p k n, sh_proc s p = PIndex k n -> current s p -> sh_owner s = None ->
     exists d, let w := mkworld (Some d) [] in let l := hd [] (s_hist sp) in
       open_at H C k n (sh_files s) = Ok (Some d) /\
       (collision_free H sp -> step H C w CRoot = Ok (AHash (ref_root H l), w) /\
          forall key, length key = 32 -> exists w1, step H C w (CGet key None) = Ok (found (lookup l key), w1))).
Proof.
  intros H HL C CL s sp R. destruct (sane_run H HL C CL s sp R) as [I1 I2 I3 I4 I5 I6]. split.
  - intros p w Ep. destruct (I5 p w Ep) as (k & Em & X & Q & Ef). split; [|split; [eauto|split; [exact Ef|]]].
    + intros q w' Eq. apply I1 in Ep, Eq. congruence.
    + intros c A. exact (exec_step H HL C CL k w sp c X A).
  - intros p k n Ep Cu Eo. unfold current in Cu. rewrite Ep in Cu. subst n. rewrite open_at_all.
    assert (Em : sh_meta s = Some k) by (apply (I2 p); eauto). pose proof (I6 k Em Eo) as Rs.
    assert (Ed : exists d, db_open H C k (sh_files s) [] = Ok (Some d)).
    { destruct Rs as [[-> ->]|(w & X & Qw & F & Al & <-)].
      - destruct (open_new H HL C CL k) as (d & E & _). eauto.
      - destruct (sim_image H HL C CL k w sp (exec_sim H HL C CL _ _ _ X) F Al) as (D & top & hist & W & EF & DI & A1 & A2 & A3 & A4 & A5).
        destruct (image_sim H HL C CL k D top hist W sp D DI) as (d & E & _); auto; [|rewrite EF; eauto].
        left. split; [exact A5|apply (noforge_refl H HL C CL)]. }
    destruct Ed as (d & Ed). exists d. cbv zeta. split; [exact Ed|]. intros CF.
    destruct (open_rests H HL C CL k _ sp d Rs Ed) as [X _].
    assert (CF' : collision_free H (crashed sp)) by exact CF. split; [exact (ask_top H HL C CL _ _ _ X CF')|].
    intros key Lk. destruct (ask_db H HL C CL _ _ _ None (hd [] (s_hist sp)) key X CF' eq_refl Lk) as (w1 & _ & Rg & _). eauto.
Qed.
Print Assumptions C51_sessions_partial.

(** ** What happens otherwise. *)

(** Runs given by a list of steps. *)
Inductive act := AFind | ADraw (k : bytes) | ACount | AOpen | ACall (c : call) | AClose.
Definition is_reopen (c : call) : bool := match c with CReopen => true | _ => false end.
Definition sdo (x : shared * spec) (p : nat) (t : act) : option (shared * spec) :=
  let '(s, sp) := x in
  match t, sh_proc s p with
  | AFind, POut => match sh_meta s with Some k => Some (put_proc s p (PKey k), sp) | None => Some (put_proc s p PNoKey, sp) end
  | ADraw k, PNoKey =>
    if length k =? 32 then Some (mkshared (Some k) (sh_files s) (sh_owner s) (pput (sh_proc s) p (PKey k)), sp) else None
  | ACount, PKey k => Some (put_proc s p (PIndex k (length (sh_files s))), sp)
  | AOpen, PIndex k n =>
    match sh_owner s, open_at toy toyC k n (sh_files s) with
    | None, Ok (Some d) =>
      Some (mkshared (sh_meta s) (st_fs (d_store d)) (Some p) (pput (sh_proc s) p (PIn (mkworld (Some d) []))), crashed sp)
    | _, _ => None
    end
  | ACall c, PIn w =>
    if allowed_b sp w c && negb (is_reopen c) then
      match step toy toyC w c with
      | Ok (a, w') => Some (mkshared (sh_meta s) (files w') (sh_owner s) (pput (sh_proc s) p (PIn w')), snext toy sp c a)
      | _ => None
      end
    else None
  | AClose, PIn w =>
    if negb (s_failed sp) && (blen (last (files w) []) mod 38 =? 0)%N
    then Some (mkshared (sh_meta s) (sh_files s) None (pput (sh_proc s) p POut), sp) else None
  | _, _ => None
  end.
Lemma sdo_ok s sp p t s' sp' : sdo (s, sp) p t = Some (s', sp') -> sstep toy toyC s sp p s' sp'.
Proof.
  unfold sdo. destruct t as [|k| | |c|]; destruct (sh_proc s p) as [| |k0|k0 n|w] eqn:Ep; try discriminate.
  - destruct (sh_meta s) as [k|] eqn:Em; intros E; injection E as <- <-; [apply s_found|apply s_missing]; assumption.
  - destruct (Nat.eqb_spec (length k) 32); [|discriminate]. intros E. injection E as <- <-. apply s_draw; assumption.
  - intros E. injection E as <- <-. apply s_count; assumption.
  - destruct (sh_owner s) eqn:Eo; [discriminate|]. destruct (open_at toy toyC k0 n (sh_files s)) as [[d|]| | | |] eqn:Ed; try discriminate.
    intros E. injection E as <- <-. eapply s_open; eassumption.
  - destruct (allowed_b sp w c) eqn:A; [|discriminate]. destruct (is_reopen c) eqn:Rc; [discriminate|]. cbn [andb negb].
    destruct (step toy toyC w c) as [[a w']| | | |] eqn:Es; try discriminate. intros E. injection E as <- <-.
    eapply s_call; [exact Ep|apply allowed_b_ok, A| |exact Es]. intros ->. discriminate.
  - destruct (s_failed sp) eqn:F; [discriminate|]. cbn [negb andb]. destruct (N.eqb_spec (blen (last (files w) []) mod 38) 0); [|discriminate].
    intros E. injection E as <- <-. eapply s_close; eassumption.
Qed.
Fixpoint sscript (ok : shared -> nat -> bool) (x : shared * spec) (l : list (nat * act)) : option (shared * spec) :=
  match l with
  | [] => Some x
  | (p, t) :: l => if ok (fst x) p then match sdo x p t with Some x => sscript ok x l | None => None end else None
  end.
Lemma sscript_ok (okb : shared -> nat -> bool) (ok : shared -> nat -> Prop) : (forall s p, okb s p = true -> ok s p) ->
  forall l x y, srun toy toyC ok (fst x) (snd x) -> sscript okb x l = Some y -> srun toy toyC ok (fst y) (snd y).
Proof.
  intros K. induction l as [|[p t] l IH]; intros [s sp] y R E; cbn [sscript fst snd] in *; [injection E as <-; exact R|].
  destruct (okb s p) eqn:B; [|discriminate]. destruct (sdo (s, sp) p t) as [[s1 sp1]|] eqn:D; [|discriminate].
  apply (IH (s1, sp1) y); [|exact E]. eapply sr_step; [exact R|apply K, B|exact (sdo_ok _ _ _ _ _ _ D)].
Qed.

(** Only the number of files may have changed; only the key file may have. *)
Definition key_current (s : shared) (p : nat) : Prop := sh_proc s p = PNoKey -> sh_meta s = None.
Definition count_current (s : shared) (p : nat) : Prop := forall k n, sh_proc s p = PIndex k n -> n = length (sh_files s).
Definition key_current_b (s : shared) (p : nat) : bool := match sh_proc s p with PNoKey => is_none (sh_meta s) | _ => true end.
Definition count_current_b (s : shared) (p : nat) : bool := match sh_proc s p with PIndex _ n => n =? length (sh_files s) | _ => true end.
Lemma key_current_ok s p : key_current_b s p = true -> key_current s p.
Proof. unfold key_current_b, key_current. intros B E. rewrite E in B. destruct (sh_meta s); [discriminate|reflexivity]. Qed.
Lemma count_current_ok s p : count_current_b s p = true -> count_current s p.
Proof. unfold count_current_b, count_current. intros B k n E. rewrite E in B. apply Nat.eqb_eq, B. Qed.

Definition sstart : shared * spec := (mkshared None [] None (fun _ => POut), spec0).
Definition after (okb : shared -> nat -> bool) (l : list (nat * act)) : shared * spec :=
  match sscript okb sstart l with Some y => y | None => sstart end.
Definition inside_w (x : shared * spec) (p : nat) : world := match sh_proc (fst x) p with PIn w => w | _ => mkworld None [] end.
Definition runs_b (okb : shared -> nat -> bool) (l : list (nat * act)) (p : nat) : bool :=
  match sscript okb sstart l with Some y => match sh_proc (fst y) p with PIn _ => true | _ => false end | None => false end.
Lemma runs_ok okb (ok : shared -> nat -> Prop) l p : (forall s p, okb s p = true -> ok s p) -> runs_b okb l p = true ->
  srun toy toyC ok (fst (after okb l)) (snd (after okb l)) /\ sh_proc (fst (after okb l)) p = PIn (inside_w (after okb l) p).
Proof.
  intros K B. unfold runs_b, after, inside_w in *. destruct (sscript okb sstart l) as [y|] eqn:E; [|discriminate]. split.
  - eapply sscript_ok; [exact K| |exact E]. apply sr_start.
  - destruct (sh_proc (fst y) p); try discriminate. reflexivity.
Qed.

(** Process 2 counts the data files when there are none yet, and opens the database after
    process 1 has created it, stored a record and closed it: it finds an empty database.
    What it then stores replaces the history: process 3, opening the database with nobody
    else around, does not find the first record either. *)
Definition stale1 : list (nat * act) :=
  [(1, AFind); (1, ADraw dkey); (2, AFind); (2, ACount); (1, ACount); (1, AOpen); (1, ACall (CInsert kfoo v1)); (1, AClose); (2, AOpen)].
Definition stale2 : list (nat * act) := stale1 ++ [(2, ACall (CInsert kbar v2)); (2, AClose); (3, AFind); (3, ACount); (3, AOpen)].
Theorem C51_stale_count_refuted :
  exists s1 sp1 w1 w1' s2 sp2 w2 w2' w2'',
    srun toy toyC key_current s1 sp1 /\ sh_proc s1 2 = PIn w1 /\ lookup (s_cur sp1) kfoo = Some v1 /\
    step toy toyC w1 (CGet kfoo None) = Ok (AErr ENOTFOUND, w1') /\
    srun toy toyC key_current s2 sp2 /\ sh_proc s2 3 = PIn w2 /\ lookup (s_cur sp2) kfoo = Some v1 /\
    step toy toyC w2 (CGet kbar None) = Ok (AVal v2, w2') /\
    step toy toyC w2 (CGet kfoo None) = Ok (AErr ENOTFOUND, w2'').
Proof.
  destruct (runs_ok key_current_b key_current stale1 2 key_current_ok) as [R1 P1]; [vm_compute; reflexivity|].
  destruct (runs_ok key_current_b key_current stale2 3 key_current_ok) as [R2 P2]; [vm_compute; reflexivity|].
  eexists _, _, _, _, _, _, _, _, _. split; [exact R1|]. split; [exact P1|]. split; [vm_compute; reflexivity|].
  split; [apply st_ok; vm_compute; reflexivity|]. split; [exact R2|]. split; [exact P2|]. split; [vm_compute; reflexivity|].
  split; apply st_ok; vm_compute; reflexivity.
Qed.
Print Assumptions C51_stale_count_refuted.

(** Two processes find no key file, and both write one.  Process 1 goes on with its own key:
    opening the database afterwards (process 3, nobody else around) removes everything it has stored. *)
Definition bkey : bytes := repeat x02 32.
Definition race : list (nat * act) :=
  [(1, AFind); (2, AFind); (1, ADraw dkey); (2, ADraw bkey); (1, ACount); (1, AOpen); (1, ACall (CInsert kfoo v1)); (1, AClose);
   (3, AFind); (3, ACount); (3, AOpen)].
Theorem C51_key_race_refuted :
  exists s sp w w', srun toy toyC count_current s sp /\ sh_proc s 3 = PIn w /\ lookup (s_cur sp) kfoo = Some v1 /\
    sh_files s = [[]] /\ step toy toyC w (CGet kfoo None) = Ok (AErr ENOTFOUND, w').
Proof.
  destruct (runs_ok count_current_b count_current race 3 count_current_ok) as [R P]; [vm_compute; reflexivity|].
  eexists _, _, _, _. split; [exact R|]. split; [exact P|]. split; [vm_compute; reflexivity|].
  split; [vm_compute; reflexivity|]. apply st_ok; vm_compute; reflexivity.
Qed.
Print Assumptions C51_key_race_refuted.

(** Three overlapping opens with nothing stale: the second is refused while the first is inside, and
    tries again later. *)
Definition current_b (s : shared) (p : nat) : bool := key_current_b s p && count_current_b s p.
Lemma current_ok s p : current_b s p = true -> current s p.
Proof.
  unfold current_b, current, key_current_b, count_current_b. destruct (sh_proc s p) as [| |k|k n|w]; auto; intros B.
  - rewrite andb_true_r in B. destruct (sh_meta s); [discriminate|reflexivity].
  - apply Nat.eqb_eq, B.
Qed.
Definition turns : list (nat * act) :=
  [(1, AFind); (1, ADraw dkey); (2, AFind); (1, ACount); (1, AOpen); (2, ACount); (3, AFind); (1, ACall (CInsert kfoo v1)); (1, AClose);
   (2, AOpen); (2, ACall (CInsert kbar v2)); (3, ACount); (2, AClose); (3, AOpen)].
Example C51_nonvacuous : exists s sp w, srun toy toyC current s sp /\ sh_proc s 3 = PIn w /\
  lookup (s_cur sp) kfoo = Some v1 /\ lookup (s_cur sp) kbar = Some v2 /\ length (s_hist sp) = 2.
Proof.
  destruct (runs_ok current_b current turns 3 current_ok) as [R P]; [vm_compute; reflexivity|].
  eexists _, _, _. split; [exact R|]. split; [exact P|]. vm_compute. auto.
Qed.
