(** * C55: urkel_destroy. *)
From Verif Require Import Destroy Properties_Proc.
From Coq Require Import ZifyBool ZifyNat ZifyN Sorted.

(** ** Specification *)

(** The names a database uses: "lock", "meta", and ten digits denoting a 32-bit number. *)
Definition ours (n : bytes) : Prop :=
  n = LOCK \/ n = META \/ (length n = 10 /\ Forall digit n /\ u32 (value n)).
(** Directories as file systems have them: names are C strings, each occurs once. *)
Definition wf (f : folder) : Prop := NoDup (map fst f) /\ Forall cstring (map fst f).
(** The directory after [k] modifications (a process may die between any two). *)
Definition after (d : option folder) (ops : list xop) (k : nat) : option folder := fold_left xapply (firstn k ops) d.

(** ** Directories as finite maps *)
Lemma get_del f n m : get (unl f n) m = if bytes_eqb n m then None else get f m.
Proof.
  induction f as [|[a e] f IH]; cbn [unl filter get fst]; [now destruct (bytes_eqb n m)|].
  fold (unl f n). destruct (bytes_eqb_spec a n) as [->|Na]; cbn [negb get].
  - rewrite IH. destruct (bytes_eqb_spec n m); reflexivity.
  - destruct (bytes_eqb_spec a m) as [->|]; [|exact IH]. destruct (bytes_eqb_spec n m); congruence.
Qed.
Lemma get_In f n : get f n <> None <-> In n (map fst f).
Proof.
  induction f as [|[a e] f IH]; cbn [get map fst In]; [split; [congruence|intros []]|].
  destruct (bytes_eqb_spec a n) as [->|Na]; [split; [auto|discriminate]|]. rewrite IH. tauto.
Qed.
Lemma del_names f n x : In x (map fst (unl f n)) <-> In x (map fst f) /\ x <> n.
Proof.
  rewrite <- !get_In, get_del. destruct (bytes_eqb_spec n x) as [->|N]; [split; [congruence|intros []; congruence]|].
  split; [intros X; split; [exact X|congruence]|tauto].
Qed.
Lemma wf_del f n : wf f -> wf (unl f n).
Proof.
  intros [N Cs]. split.
  - clear Cs. induction f as [|[a e] f IH]; [exact N|]. cbn [map fst] in N. inversion N as [|? ? Na N']; subst.
    cbn [unl filter fst]. fold (unl f n). destruct (negb (bytes_eqb a n)); [|exact (IH N')]. cbn [map fst]. constructor; [|exact (IH N')].
    rewrite del_names. tauto.
  - rewrite Forall_forall in *. intros x I. apply del_names in I. apply Cs, I.
Qed.
Lemma wf_lock f : wf f -> wf (locked f).
Proof.
  intros W. destruct (wf_del f LOCK W) as [N Cs]. split; cbn [map fst].
  - constructor; [|exact N]. rewrite del_names. tauto.
  - constructor; [|exact Cs]. unfold cstring, LOCK. cbn. intuition discriminate.
Qed.
Lemma get_nil f : (forall n, get f n = None) -> f = [].
Proof. intros A. destruct f as [|[a e] f]; [reflexivity|]. specialize (A a). cbn in A. rewrite bytes_eqb_refl in A. discriminate. Qed.

Lemma lexb_lt a : forall b, lexb a b = true <-> lex_lt a b.
Proof.
  induction a as [|x a IH]; intros [|y b]; cbn [lexb lex_lt]; try (split; [discriminate|contradiction]); [tauto|].
  rewrite orb_true_iff, andb_true_iff, IH, N.ltb_lt, N.eqb_eq. split; (intros [X|[X Y]]; [left; exact X|right; split; [|exact Y]]).
  - apply b2n_inj, X.
  - now rewrite X.
Qed.
Lemma lex_trans a : forall b c, lex_lt a b -> lex_lt b c -> lex_lt a c.
Proof.
  induction a as [|x a IH]; intros [|y b] [|z c]; cbn [lex_lt]; try tauto. intros [X|[-> X]] [Y|[<- Y]]; auto; try lia.
  right. split; [reflexivity|]. eapply IH; eassumption.
Qed.
Lemma lex_irrefl a : ~ lex_lt a a.
Proof. induction a as [|x a IH]; cbn; [tauto|]. intros [X|[_ X]]; [lia|auto]. Qed.
Lemma lex_tri a : forall b, a = b \/ lex_lt a b \/ lex_lt b a.
Proof.
  induction a as [|x a IH]; intros [|y b]; cbn [lex_lt]; auto.
  destruct (N.lt_total (b2n x) (b2n y)) as [X|[X|X]]; auto. apply b2n_inj in X. subst y. destruct (IH b) as [->|[X|X]]; auto.
Qed.
Lemma insort_In x l y : In y (insort x l) <-> y = x \/ In y l.
Proof.
  induction l as [|z l IH]; cbn [insort In]; [intuition auto|]. destruct (lexb z x); cbn [In]; [rewrite IH|]; intuition auto.
Qed.
Lemma insort_sorted x l : ~ In x l -> StronglySorted lex_lt l -> StronglySorted lex_lt (insort x l).
Proof.
  intros N S. induction S as [|z l S IH F]; cbn [insort]; [constructor; constructor|].
  cbn [In] in N. destruct (lexb z x) eqn:E.
  - constructor; [apply IH; tauto|]. apply Forall_forall. intros y I. apply insort_In in I. destruct I as [->|I]; [apply lexb_lt, E|].
    rewrite Forall_forall in F. exact (F y I).
  - assert (X : lex_lt x z). { destruct (lex_tri x z) as [->|[X|X]]; [tauto|exact X|]. apply lexb_lt in X. congruence. }
    constructor; [constructor; assumption|]. constructor; [exact X|]. rewrite Forall_forall in *. intros y I. eapply lex_trans; [exact X|exact (F y I)].
Qed.
Lemma scandir_In f n : In n (scandir f) <-> get f n <> None.
Proof.
  rewrite get_In. unfold scandir. induction (map fst f) as [|x l IH]; cbn [fold_right In]; [tauto|]. rewrite insort_In, IH. intuition auto.
Qed.
Lemma scandir_sorted f : wf f -> StronglySorted lex_lt (scandir f).
Proof.
  intros [N _]. assert (I : forall n, In n (scandir f) <-> In n (map fst f)) by (intros n; rewrite scandir_In; apply get_In).
  revert I. unfold scandir. induction N as [|x l Nx N IH]; intros I; cbn [fold_right]; [constructor|].
  assert (I' : forall n, In n (fold_right insort [] l) <-> In n l).
  { clear. induction l as [|x l IH]; intros n; cbn [fold_right In]; [tauto|]. rewrite insort_In, IH. intuition auto. }
  apply insort_sorted; [rewrite I'; exact Nx|exact (IH I')].
Qed.
Lemma scandir_cstring f : wf f -> Forall cstring (scandir f).
Proof. intros [_ Cs]. rewrite Forall_forall in *. intros x I. apply scandir_In, get_In in I. exact (Cs x I). Qed.
Lemma sorted_NoDup l : StronglySorted lex_lt l -> NoDup l.
Proof.
  induction 1 as [|x l S IH F]; constructor; [|exact IH]. intros I. rewrite Forall_forall in F. exact (lex_irrefl x (F x I)).
Qed.

(** ** The names *)
Lemma same_value s t : length s = length t -> Forall digit s -> Forall digit t -> value s = value t -> s = t.
Proof.
  intros L Fs Ft E. destruct (lex_total s t L) as [X|[X|X]]; [exact X| |]; apply value_mono in X; auto; lia.
Qed.
Lemma filename_digit n : length (filename n) = 10 /\ Forall digit (filename n).
Proof. rewrite filename_digits. split; [apply digits_length|apply digits_digit]. Qed.
Lemma parse_name s n : cstring s -> (parse_u32 (s ++ [x00]) = Ok (Some n) <-> u32 n /\ s = filename n).
Proof.
  intros Cs. destruct (C33_recognised s Cs) as (r & E & R). rewrite E. split.
  - intros X. injection X as ->. destruct (proj1 (R n) eq_refl) as (L & F & V & U). split; [exact U|].
    destruct (filename_digit n) as [Lf Ff]. apply same_value; [lia|exact F|exact Ff|]. rewrite V. symmetry. apply filename_value, U.
  - intros [U ->]. f_equal. apply R. destruct (filename_digit n) as [Lf Ff]. split; [exact Lf|]. split; [exact Ff|]. split; [apply filename_value, U|exact U].
Qed.
Lemma numbered_get f n : wf f -> (numbered (scandir f) n <-> u32 n /\ get f (filename n) <> None).
Proof.
  intros W. unfold numbered. split.
  - intros (s & I & E). assert (Cs : cstring s). { pose proof (scandir_cstring f W) as F. rewrite Forall_forall in F. exact (F s I). }
    apply (parse_name s n Cs) in E. destruct E as [U ->]. split; [exact U|]. apply scandir_In, I.
  - intros [U G]. exists (filename n). split; [apply scandir_In, G|]. apply C33_roundtrip with (out := repeat x00 11); [apply repeat_length|exact U].
Qed.
(** The names the loop removes. *)
Definition hit (n : bytes) : bool :=
  (match parse_u32 (n ++ [x00]) with Ok (Some _) => true | _ => false end) || bytes_eqb n META.
Lemma hit_ours n : cstring n -> (hit n = true <-> n = META \/ (length n = 10 /\ Forall digit n /\ u32 (value n))).
Proof.
  intros Cs. unfold hit. destruct (C33_recognised n Cs) as (r & E & R). rewrite E.
  rewrite orb_true_iff. destruct (bytes_eqb_spec n META) as [->|Nm].
  - split; auto.
  - destruct r as [v|].
    + split; [intros _; right|auto]. destruct (proj1 (R v) eq_refl) as (L & F & <- & U). auto.
    + split; [intros [X|X]; discriminate|]. intros [X|(L & F & U)]; [contradiction|]. exfalso.
      assert (X : None = Some (value n)) by (apply R; auto). discriminate X.
Qed.
Lemma hit_num s n : cstring s -> parse_u32 (s ++ [x00]) = Ok (Some n) -> hit s = true.
Proof. intros Cs E. unfold hit. now rewrite E. Qed.
Lemma hit_file n : u32 n -> hit (filename n) = true.
Proof.
  intros U. apply (hit_num _ n); [apply digit_cstring, filename_digit|]. apply C33_roundtrip with (out := repeat x00 11); [apply repeat_length|exact U].
Qed.
Lemma hit_meta : hit META = true. Proof. reflexivity. Qed.
Lemma hit_lock : hit LOCK = false. Proof. reflexivity. Qed.

(** ** The loop *)
Lemma after_0 d ops : after d ops 0 = d. Proof. reflexivity. Qed.
Lemma after_all d ops k : length ops <= k -> after d ops k = fold_left xapply ops d.
Proof. intros L. unfold after. now rewrite firstn_all2. Qed.
Lemma after_cons d o ops k : after d (o :: ops) (S k) = after (xapply d o) ops k. Proof. reflexivity. Qed.
Lemma after_app d a b k : after d (a ++ b) k = if k <=? length a then after d a k else after (fold_left xapply a d) b (k - length a).
Proof.
  unfold after. rewrite firstn_app. destruct (Nat.leb_spec k (length a)) as [L|L].
  - replace (k - length a) with 0 by lia. cbn [firstn]. now rewrite app_nil_r.
  - rewrite fold_left_app. rewrite (firstn_all2 a) by lia. reflexivity.
Qed.

Definition shrinks (f g : folder) : Prop :=
  wf g /\ (forall n, hit n = false -> get g n = get f n) /\ (forall n e, get g n = Some e -> get f n = Some e).
Lemma shrinks_refl f : wf f -> shrinks f f. Proof. intros W. split; [exact W|]. auto. Qed.

Lemma unlink_any names : forall o f, wf f -> Forall cstring names -> exists ops o' f', unlink_loop names o f = Ok (ops, o', f') /\
  fold_left xapply ops (Some f) = Some f' /\ forall k, exists g, after (Some f) ops k = Some g /\ shrinks f g.
Proof.
  induction names as [|n names IH]; intros o f W Cs; cbn [unlink_loop].
  - exists [], o, f. split; [reflexivity|]. split; [reflexivity|]. intros k. exists f. split; [unfold after; now rewrite firstn_nil|apply shrinks_refl, W].
  - inversion Cs as [|? ? Cn Cs']; subst. destruct (C33_recognised n Cn) as (r & E & R). rewrite E. cbn [bind].
    assert (Eh : (match r with Some _ => true | None => false end) || bytes_eqb n META = hit n) by (unfold hit; now rewrite E).
    rewrite Eh. destruct (hit n) eqn:Hn; [|exact (IH o f W Cs')].
    destruct (is_file f n && negb (hd false o)); [|exact (IH (tl o) f W Cs')].
    destruct (IH (tl o) (unl f n) (wf_del f n W) Cs') as (ops & o' & f' & E1 & E2 & A). rewrite E1. cbn [bind].
    exists (XUnlink n :: ops), o', f'. split; [reflexivity|]. split; [exact E2|]. intros [|k]; [exists f; split; [reflexivity|apply shrinks_refl, W]|].
    rewrite after_cons. cbn [xapply]. destruct (A k) as (g & Eg & Wg & Kg & Sg). exists g. split; [exact Eg|]. split; [exact Wg|]. split.
    + intros m Hm. rewrite (Kg m Hm), get_del. destruct (bytes_eqb_spec n m) as [->|]; [congruence|reflexivity].
    + intros m e G. apply Sg in G. rewrite get_del in G. destruct (bytes_eqb n m); [discriminate|exact G].
Qed.

Definition inb (n : bytes) (l : list bytes) : bool := existsb (bytes_eqb n) l.
Lemma inb_In n l : inb n l = true <-> In n l.
Proof.
  unfold inb. rewrite existsb_exists. split.
  - intros (x & I & E). destruct (bytes_eqb_spec n x); [congruence|discriminate].
  - intros I. exists n. split; [exact I|apply bytes_eqb_refl].
Qed.
(** No unlink fails: what has been removed is a prefix of the list. *)
Lemma unlink_prefix names : forall f, wf f -> Forall cstring names -> NoDup names ->
  (forall n, In n names -> hit n = true -> is_file f n = true) ->
  exists ops f', unlink_loop names [] f = Ok (ops, [], f') /\
    (forall n, get f' n = if inb n names && hit n then None else get f n) /\
    forall k, exists g pre post, after (Some f) ops k = Some g /\ names = pre ++ post /\
      forall n, get g n = if inb n pre && hit n then None else get f n.
Proof.
  induction names as [|n names IH]; intros f W Cs Nd Fi; cbn [unlink_loop].
  - exists [], f. split; [reflexivity|]. split; [reflexivity|]. intros k. exists f, [], []. split; [unfold after; now rewrite firstn_nil|]. auto.
  - inversion Cs as [|? ? Cn Cs']; subst. inversion Nd as [|? ? Nn Nd']; subst. destruct (C33_recognised n Cn) as (r & E & R). rewrite E. cbn [bind].
    assert (Eh : (match r with Some _ => true | None => false end) || bytes_eqb n META = hit n) by (unfold hit; now rewrite E).
    rewrite Eh. cbn [hd tl]. assert (Ei : forall m pre, inb m (n :: pre) = bytes_eqb m n || inb m pre) by reflexivity.
    destruct (hit n) eqn:Hn.
    + rewrite (Fi n (or_introl eq_refl) Hn). cbn [negb andb].
      destruct (IH (unl f n) (wf_del f n W) Cs' Nd') as (ops & f' & E1 & E2 & A).
      { intros m Im Hm. unfold is_file. rewrite get_del. destruct (bytes_eqb_spec n m) as [->|]; [contradiction|]. apply (Fi m); [now right|exact Hm]. }
      rewrite E1. cbn [bind]. exists (XUnlink n :: ops), f'. split; [reflexivity|].
      assert (Q : forall m pre, (if inb m pre && hit m then None else get (unl f n) m) = if inb m (n :: pre) && hit m then None else get f m).
      { intros m pre. rewrite Ei, get_del. destruct (bytes_eqb_spec m n) as [->|Nm]; cbn [orb].
        - rewrite bytes_eqb_refl, Hn. cbn. now destruct (inb n pre).
        - destruct (bytes_eqb_spec n m); [congruence|reflexivity]. }
      split; [intros m; rewrite E2; apply Q|]. intros [|k].
      * exists f, [], (n :: names). split; [reflexivity|]. auto.
      * destruct (A k) as (g & pre & post & Eg & -> & G). exists g, (n :: pre), post. split; [exact Eg|]. split; [reflexivity|]. intros m. rewrite G. apply Q.
    + destruct (IH f W Cs' Nd') as (ops & f' & E1 & E2 & A). { intros m Im. apply Fi. now right. }
      assert (Q : forall m pre, (if inb m pre && hit m then None else get f m) = if inb m (n :: pre) && hit m then None else get f m).
      { intros m pre. rewrite Ei. destruct (bytes_eqb_spec m n) as [->|Nm]; [|reflexivity]. rewrite Hn, !andb_false_r. reflexivity. }
      exists ops, f'. split; [exact E1|]. split; [intros m; rewrite E2; apply Q|]. intros k. destruct (A k) as (g & pre & post & Eg & -> & G).
      exists g, (n :: pre), post. split; [exact Eg|]. split; [reflexivity|]. intros m. rewrite G. apply Q.
Qed.

(** ** Theorems *)

(** urkel_destroy never aborts or misbehaves; it reports success exactly when the directory
    is gone. *)
Theorem C55_success : forall o d, (forall f, d = Some f -> wf f) -> exists ops r, destroy o d = Ok (ops, r) /\
  (r = true <-> d <> None /\ after d ops (length ops) = None).
Proof.
  intros o [f|] W; cbn [destroy]; [|exists [], false; split; [reflexivity|]; split; [discriminate|tauto]].
  specialize (W f eq_refl).
  destruct (hd false o || _); [eexists _, _; split; [reflexivity|]; split; [discriminate|intros [_ X]; discriminate X]|].
  destruct (hd false (tl o)); [eexists _, _; split; [reflexivity|]; split; [discriminate|intros [_ X]; discriminate X]|].
  destruct (hd false (tl (tl o))).
  { eexists _, _; split; [reflexivity|]; split; [discriminate|intros [_ X]]. destruct (hd false (tl (tl (tl o)))); discriminate X. }
  set (f1 := locked f). assert (W1 : wf f1) by apply wf_lock, W.
  destruct (unlink_any (scandir f1) (tl (tl (tl o))) f1 W1 (scandir_cstring f1 W1)) as (ops & o' & f' & E & Ef & _). rewrite E. cbn [bind].
  set (x := if hd false o' then (ops, f') else (ops ++ [XUnlink LOCK], unl f' LOCK)).
  assert (X : fold_left xapply (fst x) (Some f1) = Some (snd x)).
  { unfold x. destruct (hd false o'); cbn [fst snd]; [exact Ef|]. rewrite fold_left_app, Ef. reflexivity. }
  destruct x as [ops' f2]. cbn [fst snd] in X.
  destruct (hd false (tl o') || negb (length f2 =? 0)); eexists _, _; (split; [reflexivity|]).
  - split; [discriminate|]. intros [_ Y]. exfalso. rewrite after_all in Y by reflexivity. cbn [fold_left] in Y. change (xapply (Some f) XLock) with (Some f1) in Y. congruence.
  - split; [|reflexivity]. intros _. split; [discriminate|]. rewrite after_all by reflexivity. cbn [fold_left]. change (xapply (Some f) XLock) with (Some f1).
    rewrite fold_left_app. reflexivity.
Qed.

(** At every point of every execution, whichever system calls fail: entries with other names
    than those of a database are as they were; if the directory is removed, there were none. *)
Theorem C55_foreign_kept : forall o f ops r k, wf f -> destroy o (Some f) = Ok (ops, r) ->
  forall n, cstring n -> ~ ours n ->
  match after (Some f) ops k with Some g => get g n = get f n | None => get f n = None end.
Proof.
  intros o f ops r k W E n Cn No.
  assert (Hn : hit n = false). { destruct (hit n) eqn:X; [|reflexivity]. apply hit_ours in X; [|exact Cn]. exfalso. apply No. unfold ours. tauto. }
  assert (Nl : n <> LOCK) by (intros ->; apply No; now left).
  set (f1 := locked f). assert (W1 : wf f1) by apply wf_lock, W.
  assert (G1 : get f1 n = get f n). { unfold f1, locked; cbn [get]. destruct (bytes_eqb_spec LOCK n); [congruence|]. rewrite get_del. destruct (bytes_eqb_spec LOCK n); [congruence|reflexivity]. }
  cbn [destroy] in E.
  destruct (hd false o || _). { injection E as <- <-. unfold after. rewrite firstn_nil. reflexivity. }
  assert (K1 : forall ops', (forall j, match after (Some f1) ops' j with Some g => get g n = get f n | None => get f n = None end) ->
     match after (Some f) (XLock :: ops') k with Some g => get g n = get f n | None => get f n = None end).
  { intros ops' A. destruct k as [|k]; [reflexivity|]. rewrite after_cons. apply A. }
  destruct (hd false (tl o)). { injection E as <- <-. apply K1. intros j. unfold after. rewrite firstn_nil. exact G1. }
  destruct (hd false (tl (tl o))).
  { injection E as <- <-. destruct (hd false (tl (tl (tl o)))); apply K1; intros j; [unfold after; rewrite firstn_nil; exact G1|].
    destruct j as [|[|j]]; [exact G1| |]; (cbn [after firstn fold_left xapply]; unfold after; rewrite ?firstn_nil; cbn [firstn fold_left xapply];
      rewrite get_del; destruct (bytes_eqb_spec LOCK n); [congruence|exact G1]). }
  fold f1 in E. destruct (unlink_any (scandir f1) (tl (tl (tl o))) f1 W1 (scandir_cstring f1 W1)) as (ops1 & o' & f' & E1 & Ef & A). rewrite E1 in E. cbn [bind] in E.
  assert (A1 : forall j, match after (Some f1) ops1 j with Some g => get g n = get f n | None => get f n = None end).
  { intros j. destruct (A j) as (g & -> & _ & Kg & _). rewrite (Kg n Hn). exact G1. }
  assert (Gf : get f' n = get f n). { specialize (A1 (length ops1)). rewrite after_all, Ef in A1 by reflexivity. exact A1. }
  set (x := if hd false o' then (ops1, f') else (ops1 ++ [XUnlink LOCK], unl f' LOCK)) in E.
  assert (X : fold_left xapply (fst x) (Some f1) = Some (snd x) /\ get (snd x) n = get f n /\
    forall j, match after (Some f1) (fst x) j with Some g => get g n = get f n | None => get f n = None end).
  { unfold x. destruct (hd false o'); cbn [fst snd]; [auto|]. split; [rewrite fold_left_app, Ef; reflexivity|].
    assert (Gd : get (unl f' LOCK) n = get f n) by (rewrite get_del; destruct (bytes_eqb_spec LOCK n); [congruence|exact Gf]).
    split; [exact Gd|]. intros j. rewrite after_app. destruct (j <=? length ops1); [apply A1|]. rewrite Ef.
    destruct (j - length ops1) as [|i]; [exact Gf|]. rewrite after_cons. unfold after. rewrite firstn_nil. exact Gd. }
  destruct x as [ops2 f2]. cbn [fst snd] in X. destruct X as (X1 & X2 & X3).
  destruct (hd false (tl o') || negb (length f2 =? 0)) eqn:Z; injection E as <- <-; [apply K1, X3|]. apply K1. intros j.
  rewrite after_app. destruct (j <=? length ops2); [apply X3|]. rewrite X1. destruct (j - length ops2) as [|i]; [exact X2|].
  rewrite after_cons. unfold after. rewrite firstn_nil. cbn [xapply fold_left]. rewrite <- X2.
  apply orb_false_iff in Z. destruct Z as [_ Z]. destruct f2; [reflexivity|discriminate].
Qed.

(** A directory holding nothing but files of a database is removed if no system call fails. *)
Definition database_only (f : folder) : Prop := wf f /\ forall n e, get f n = Some e -> ours n /\ e <> EOther.
Lemma destroy_complete f : database_only f -> exists ops, destroy [] (Some f) = Ok (XLock :: ops ++ [XUnlink LOCK; XRmdir], true) /\
  (forall k, exists g, after (Some f) (XLock :: ops ++ [XUnlink LOCK]) k = Some g /\ database_only g).
Proof.
  intros [W Ow]. cbn [destroy hd tl orb].
  assert (El : match get f LOCK with Some EOther => true | _ => false end = false).
  { destruct (get f LOCK) as [[|]|] eqn:G; try reflexivity. exfalso. exact (proj2 (Ow _ _ G) eq_refl). }
  rewrite El. set (f1 := locked f). assert (W1 : wf f1) by apply wf_lock, W.
  assert (G1 : forall n e, get f1 n = Some e -> ours n /\ e <> EOther).
  { intros n e. unfold f1, locked; cbn [get]. destruct (bytes_eqb_spec LOCK n) as [<-|]; [intros X; injection X as <-; split; [now left|discriminate]|].
    rewrite get_del. destruct (bytes_eqb LOCK n); [discriminate|]. apply Ow. }
  assert (Cs : forall n e, get f1 n = Some e -> cstring n).
  { intros n e G. destruct W1 as [_ F]. rewrite Forall_forall in F. apply F, get_In. congruence. }
  pose proof (scandir_sorted f1 W1) as So.
  destruct (unlink_prefix (scandir f1) f1 W1 (scandir_cstring f1 W1) (sorted_NoDup _ So)) as (ops & f' & E & G' & _).
  { intros n I _. unfold is_file. apply scandir_In in I. destruct (get f1 n) as [[b|]|] eqn:G; [reflexivity| |contradiction]. exfalso. exact (proj2 (G1 _ _ G) eq_refl). }
  destruct (unlink_any (scandir f1) [] f1 W1 (scandir_cstring f1 W1)) as (ops2 & o2 & f2 & E2 & Ef & A). rewrite E in E2. injection E2 as <- <- <-.
  rewrite E. cbn [bind hd tl].
  assert (Z : unl f' LOCK = []).
  { apply get_nil. intros n. rewrite get_del, G'. destruct (bytes_eqb_spec LOCK n) as [|Nl]; [reflexivity|].
    destruct (get f1 n) as [e|] eqn:G; [|now destruct (_ && _)].
    assert (I : inb n (scandir f1) = true) by (apply inb_In, scandir_In; congruence). rewrite I.
    assert (Hn : hit n = true). { apply hit_ours; [exact (Cs _ _ G)|]. destruct (proj1 (G1 _ _ G)) as [->|X]; [congruence|exact X]. }
    rewrite Hn. reflexivity. }
  rewrite Z. cbn [length Nat.eqb negb orb]. exists ops. split; [rewrite <- app_assoc; reflexivity|].
  assert (Ds : forall g, shrinks f1 g -> database_only g). { intros g (Wg & _ & Sg). split; [exact Wg|]. intros n e G. apply G1, Sg, G. }
  intros [|k]; [exists f; split; [reflexivity|split; assumption]|]. rewrite after_cons. change (xapply (Some f) XLock) with (Some f1). rewrite after_app.
  destruct (k <=? length ops). { destruct (A k) as (g & Eg & Sg). exists g. auto. }
  rewrite Ef. destruct (k - length ops) as [|i].
  - exists f'. split; [reflexivity|]. apply Ds. destruct (A (length ops)) as (g & Eg & Sg). rewrite after_all, Ef in Eg by reflexivity. injection Eg as <-. exact Sg.
  - rewrite after_cons. unfold after. rewrite firstn_nil. cbn [xapply fold_left]. rewrite Z. exists []. split; [reflexivity|]. split; [split; constructor|]. discriminate.
Qed.
Theorem C55_complete : forall f, database_only f -> exists ops, destroy [] (Some f) = Ok (ops, true) /\ after (Some f) ops (length ops) = None.
Proof.
  intros f D. destruct (destroy_complete f D) as (ops & E & _). eexists. split; [exact E|].
  rewrite after_all by reflexivity. cbn [fold_left]. rewrite fold_left_app. reflexivity.
Qed.
(** However often it died before: urkel_destroy can be called again and then succeeds. *)
Inductive destroying : option folder -> folder -> Prop :=
| ds_start f : database_only f -> destroying (Some f) f
| ds_died f g ops r k h : destroying (Some g) f -> destroy [] (Some g) = Ok (ops, r) -> after (Some g) ops k = Some h -> destroying (Some h) f.
Theorem C55_again : forall f g, destroying (Some g) f -> exists ops, destroy [] (Some g) = Ok (ops, true).
Proof.
  intros f g D. assert (X : database_only g).
  { remember (Some g) as d eqn:Ed. revert g Ed. induction D as [f0 Df|f0 g0 ops r k h D IH E A]; intros g Ed.
    - injection Ed as ->. exact Df.
    - injection Ed as ->. destruct (destroy_complete g0 (IH g0 eq_refl)) as (ops0 & E0 & A0). rewrite E in E0. injection E0 as -> _.
      replace (XLock :: ops0 ++ [XUnlink LOCK; XRmdir]) with ((XLock :: ops0 ++ [XUnlink LOCK]) ++ [XRmdir]) in A by (cbn [app]; rewrite <- app_assoc; reflexivity).
      rewrite after_app in A. destruct (k <=? _).
      + destruct (A0 k) as (g1 & E1 & D1). rewrite A in E1. injection E1 as ->. exact D1.
      + destruct (k - _) as [|i] eqn:Ek; [|rewrite after_cons in A; unfold after in A; rewrite firstn_nil in A; discriminate A].
        destruct (A0 (length (XLock :: ops0 ++ [XUnlink LOCK]))) as (g1 & E1 & D1). rewrite after_all in E1 by reflexivity.
        rewrite after_0 in A. rewrite A in E1. injection E1 as ->. exact D1. }
  destruct (destroy_complete g X) as (ops & E & _). eauto.
Qed.

(** ** What a crash during urkel_destroy leaves *)
Lemma view_spec f : wf f -> exists v, dirview f = Ok v /\
  (forall j, u32 j -> (forall n, (u32 n /\ get f (filename n) <> None) <-> (1 <= n <= j)%N) ->
     v = Some (mkdir (content f META) (map (data f) (seq 1 (N.to_nat j))))) /\
  (forall d, v = Some d -> exists j, u32 j /\ (forall n, (u32 n /\ get f (filename n) <> None) <-> (1 <= n <= j)%N) /\
     d = mkdir (content f META) (map (data f) (seq 1 (N.to_nat j)))).
Proof.
  intros W. unfold dirview. destruct (C33_directory (scandir f) (scandir_cstring f W) (scandir_sorted f W)) as (ok & j & E & Q). rewrite E. cbn [bind].
  assert (Nu : forall n, numbered (scandir f) n <-> u32 n /\ get f (filename n) <> None) by (intros n; apply numbered_get, W).
  exists (if ok then Some (mkdir (content f META) (map (data f) (seq 1 (N.to_nat j)))) else None). split; [destruct ok; reflexivity|]. split.
  - intros j' U A. destruct (proj2 (Q j')) as [-> ->]; [|reflexivity]. split; [exact U|]. intros k. rewrite Nu. apply A.
  - intros d Ed. destruct ok; [|discriminate]. injection Ed as <-. destruct (proj1 (Q j)) as [U A]; [auto|]. exists j. split; [exact U|]. split; [|reflexivity].
    intros n. rewrite <- Nu. apply A.
Qed.
(** The lock file has no influence. *)
Lemma open_same H C key f g : wf f -> wf g -> (forall n, n <> LOCK -> get g n = get f n) -> open_folder H C key g = open_folder H C key f.
Proof.
  intros Wf Wg A. unfold open_folder.
  assert (Fn : forall n, filename n <> LOCK). { intros n E. destruct (filename_digit n) as [L _]. rewrite E in L. discriminate L. }
  assert (Em : content g META = content f META). { unfold content. rewrite A by discriminate. reflexivity. }
  assert (Ed : forall i, data g i = data f i). { intros i. unfold data, content. rewrite A by apply Fn. reflexivity. }
  destruct (view_spec f Wf) as (v & -> & V1 & V2). destruct (view_spec g Wg) as (v' & -> & V1' & V2'). cbn [bind].
  assert (X : v' = v); [|now rewrite X].
  destruct v as [d|].
  - destruct (V2 d eq_refl) as (j & U & B & ->). rewrite (V1' j U); [|intros n; rewrite A by apply Fn; apply B]. rewrite Em. do 2 f_equal. apply map_ext, Ed.
  - destruct v' as [d|]; [|reflexivity]. destruct (V2' d eq_refl) as (j & U & B & ->). exfalso.
    specialize (V1 j U). rewrite V1 in V2; [|intros n; rewrite <- A by apply Fn; apply B]. discriminate V1. intros n; rewrite <- A by apply Fn; apply B.
Qed.

(** A database directory: urkel_open does not refuse the names it finds, and what carries
    the name of a data file, of the key or of the lock is a file. *)
Definition database (f : folder) : Prop :=
  wf f /\ (exists d, dirview f = Ok (Some d)) /\ (forall n, cstring n -> ours n -> get f n <> Some EOther).

(** If urkel_destroy dies at any point (no unlink failing before), or has finished, the
    directory is gone, or urkel_open finds the whole database, or an empty one, or refuses:
    never an older state.  Missing: unlink(2) failing, which is ignored. *)
Theorem C55_crash_partial : forall H C key f ops r k g, length key = 32 -> database f -> destroy [] (Some f) = Ok (ops, r) ->
  after (Some f) ops k = Some g ->
  open_folder H C key g = open_folder H C key f \/ open_folder H C key g = Ok None \/
  exists s, open_folder H C key g = Ok (Some s) /\ m_node (st_state s) = NNull.
Proof.
  intros H C key f ops r k g Lk (W & (d & Vf) & Fo) E A.
  assert (El : match get f LOCK with Some EOther => true | _ => false end = false).
  { pose proof (Fo LOCK ltac:(unfold cstring, LOCK; cbn; intuition discriminate) (or_introl eq_refl)) as X. destruct (get f LOCK) as [[|]|]; auto. congruence. }
  cbn [destroy hd tl orb] in E. rewrite El in E. set (f1 := locked f) in E. assert (W1 : wf f1) by apply wf_lock, W.
  assert (G1 : forall n, n <> LOCK -> get f1 n = get f n).
  { intros n Nn. unfold f1, locked. cbn [get]. destruct (bytes_eqb_spec LOCK n); [congruence|]. rewrite get_del. destruct (bytes_eqb_spec LOCK n); [congruence|reflexivity]. }
  pose proof (scandir_sorted f1 W1) as So.
  destruct (unlink_prefix (scandir f1) f1 W1 (scandir_cstring f1 W1) (sorted_NoDup _ So)) as (ops1 & f' & E1 & Gf & P).
  { intros n I Hn. assert (Cn : cstring n). { pose proof (scandir_cstring f1 W1) as F. rewrite Forall_forall in F. exact (F n I). }
    assert (Nl : n <> LOCK) by (intros ->; rewrite hit_lock in Hn; discriminate).
    apply scandir_In in I. unfold is_file. rewrite G1 in * by exact Nl. apply hit_ours in Hn; [|exact Cn].
    pose proof (Fo n Cn (or_intror Hn)). destruct (get f n) as [[|]|]; congruence. }
  destruct (unlink_any (scandir f1) [] f1 W1 (scandir_cstring f1 W1)) as (ops2 & o2 & f2 & E2 & Ef & An). rewrite E1 in E2. injection E2 as <- <- <-.
  rewrite E1 in E. cbn [bind hd tl orb] in E.
  assert (Wf' : wf f'). { destruct (An (length ops1)) as (x & Ex & Wx & _). rewrite after_all, Ef in Ex by reflexivity. injection Ex as ->. exact Wx. }
  (* the directory: a prefix of the names is gone, up to the lock file *)
  assert (Pre : wf g /\ exists pre post, scandir f1 = pre ++ post /\ forall n, n <> LOCK -> get g n = if inb n pre && hit n then None else get f n).
  { assert (D1 : forall j x, after (Some f1) ops1 j = Some x -> wf x /\ exists pre post, scandir f1 = pre ++ post /\ forall n, n <> LOCK -> get x n = if inb n pre && hit n then None else get f n).
    { intros j x Ex. destruct (An j) as (y & Ey & Wy & _). rewrite Ex in Ey. injection Ey as <-. split; [exact Wy|].
      destruct (P j) as (y & pre & post & Ey & Es & Q). rewrite Ex in Ey. injection Ey as <-. exists pre, post. split; [exact Es|]. intros n Nn. rewrite Q, (G1 n Nn). reflexivity. }
    assert (D2 : wf (unl f' LOCK) /\ exists pre post, scandir f1 = pre ++ post /\ forall n, n <> LOCK -> get (unl f' LOCK) n = if inb n pre && hit n then None else get f n).
    { split; [apply wf_del, Wf'|]. exists (scandir f1), []. split; [now rewrite app_nil_r|]. intros n Nn. rewrite get_del, Gf, (G1 n Nn).
      destruct (bytes_eqb_spec LOCK n); [congruence|reflexivity]. }
    assert (D3 : forall j x, after (Some f1) (ops1 ++ [XUnlink LOCK]) j = Some x -> wf x /\ exists pre post, scandir f1 = pre ++ post /\ forall n, n <> LOCK -> get x n = if inb n pre && hit n then None else get f n).
    { intros j x Ex. rewrite after_app in Ex. destruct (j <=? length ops1); [exact (D1 _ _ Ex)|]. rewrite Ef in Ex.
      destruct (j - length ops1) as [|i].
      - rewrite after_0 in Ex. injection Ex as <-. apply (D1 (length ops1)). rewrite after_all by reflexivity. exact Ef.
      - rewrite after_cons in Ex. unfold after in Ex. rewrite firstn_nil in Ex. cbn in Ex. injection Ex as <-. exact D2. }
    assert (D4 : forall j ops3 x, ops3 = ops1 ++ [XUnlink LOCK] \/ ops3 = (ops1 ++ [XUnlink LOCK]) ++ [XRmdir] -> after (Some f1) ops3 j = Some x ->
       wf x /\ exists pre post, scandir f1 = pre ++ post /\ forall n, n <> LOCK -> get x n = if inb n pre && hit n then None else get f n).
    { intros j ops3 x [->| ->] Ex; [exact (D3 _ _ Ex)|]. rewrite after_app in Ex. destruct (j <=? _); [exact (D3 _ _ Ex)|].
      destruct (j - _) as [|i]; [|rewrite after_cons in Ex; unfold after in Ex; rewrite firstn_nil in Ex; discriminate Ex].
      rewrite after_0 in Ex. apply (D3 (length (ops1 ++ [XUnlink LOCK]))). rewrite after_all by reflexivity. exact Ex. }
    destruct k as [|k].
    { rewrite after_0 in A. injection A as <-. split; [exact W|]. exists [], (scandir f1). split; [reflexivity|]. reflexivity. }
    destruct (negb (length (unl f' LOCK) =? 0)); injection E as <- <-; rewrite after_cons in A; eapply D4 in A; eauto. }
  clear A E Ef An P Gf Wf' E1. destruct Pre as (Wg & pre & post & Es & G).
  destruct (view_spec f W) as (v & Ev & _ & V2). rewrite Vf in Ev. injection Ev as <-. destruct (V2 d eq_refl) as (j & Uj & Fj & _).
  assert (Cf : forall n, u32 n -> filename n <> LOCK). { intros n _ X. destruct (filename_digit n) as [L _]. rewrite X in L. discriminate L. }
  assert (Gn : forall n, u32 n -> get g (filename n) = if inb (filename n) pre then None else get f (filename n)).
  { intros n U. rewrite (G _ (Cf n U)), (hit_file n U), andb_true_r. reflexivity. }
  assert (Gm : get g META = if inb META pre then None else get f META) by (rewrite G by discriminate; rewrite hit_meta, andb_true_r; reflexivity).
  assert (In1 : forall n, n <> LOCK -> get f n <> None -> In n (pre ++ post)) by (intros n Nn X; rewrite <- Es; apply scandir_In; rewrite G1 by exact Nn; exact X).
  (* an earlier name is removed earlier *)
  assert (Dn : forall x y, lex_lt x y -> In x (pre ++ post) -> In y pre -> In x pre).
  { intros x y L Ix Iy. rewrite Es in So. destruct (in_app_or _ _ _ Ix) as [X|X]; [exact X|]. exfalso.
    assert (S2 : lex_lt y x).
    { clear - So Iy X. induction pre as [|p pre IH]; [destruct Iy|]. cbn [app] in So. inversion So as [|? ? So' F]; subst.
      destruct Iy as [->|Iy]; [|exact (IH So' Iy)]. rewrite Forall_forall in F. apply F, in_or_app. now right. }
    exact (lex_irrefl _ (lex_trans _ _ _ L S2)). }
  assert (Fm : forall n, u32 n -> lex_lt (filename n) META).
  { intros n _. destruct (filename_digit n) as [L D]. destruct (filename n) as [|c s]; [discriminate L|]. inversion D; subst. unfold digit in *. cbn [META lex_lt]. left.
    change (b2n x6d) with 109%N. lia. }
  destruct (view_spec g Wg) as (v & Ev & V1 & V3). unfold open_folder at 1 3 4. rewrite Ev. cbn [bind].
  destruct (inb (filename 1) pre) eqn:P1.
  - (* file 1 is gone *)
    destruct v as [d'|]; [|right; left; reflexivity]. destruct (V3 d' eq_refl) as (j' & Uj' & Fj' & ->).
    assert (j' = 0%N) as ->.
    { destruct (N.eq_dec j' 0) as [|Nz]; [assumption|]. exfalso. assert (X : (1 <= 1 <= j')%N) by lia. apply Fj' in X. destruct X as [U X]. rewrite (Gn 1%N U), P1 in X. now apply X. }
    change (map (data g) (seq 1 (N.to_nat 0))) with (@nil bytes). right. unfold store_init. cbn [dir_meta dir_files].
    destruct (content g META) as [m|].
    + destruct (length m <? 32); [left; reflexivity|]. destruct (open_fresh H C (firstn 32 m) [] (or_introl eq_refl)) as (s & Eo & _ & N & _). rewrite Eo. cbn [bind]. right. exists s. auto.
    + destruct (open_fresh H C key [] (or_introl eq_refl)) as (s & Eo & _ & N & _). rewrite Eo. cbn [bind]. right. exists s. auto.
  - (* no data file is gone *)
    assert (None1 : forall n, u32 n -> get f (filename n) <> None -> ~ In (filename n) pre).
    { intros n U X I. assert (B : (1 <= n <= j)%N) by (apply Fj; auto). assert (U1 : u32 1) by (unfold u32; lia).
      assert (X1 : get f (filename 1) <> None) by (apply (proj2 (Fj 1%N)); lia).
      assert (I1 : In (filename 1) pre). { destruct (N.eq_dec n 1) as [->|]; [exact I|]. apply (Dn _ (filename n)); [apply C33_order; auto; lia| |exact I]. apply In1; [apply Cf, U1|exact X1]. }
      apply inb_In in I1. congruence. }
    assert (Fs : forall n, u32 n -> get g (filename n) = get f (filename n)).
    { intros n U. rewrite (Gn n U). destruct (inb (filename n) pre) eqn:Ip; [|reflexivity]. apply inb_In in Ip.
      destruct (get f (filename n)) eqn:X; [|reflexivity]. exfalso. apply (None1 n U); [congruence|exact Ip]. }
    destruct (inb META pre) eqn:Pm.
    + (* the key is gone: there were no data files *)
      assert (j = 0%N) as ->.
      { destruct (N.eq_dec j 0) as [|Nz]; [assumption|]. exfalso. assert (U1 : u32 1) by (unfold u32; lia).
        assert (X1 : get f (filename 1) <> None) by (apply (proj2 (Fj 1%N)); lia). apply inb_In in Pm.
        apply (None1 1%N U1 X1). apply (Dn _ META); [apply Fm, U1| |exact Pm]. apply In1; [apply Cf, U1|exact X1]. }
      rewrite (V1 0%N Uj). 2:{ intros n. rewrite <- Fj. split; intros [U X]; (split; [exact U|]); rewrite (Fs n U) in *; exact X. }
      change (map (data g) (seq 1 (N.to_nat 0))) with (@nil bytes). right. right.
      assert (Em : content g META = None) by (unfold content; now rewrite Gm). rewrite Em. unfold store_init. cbn [dir_meta dir_files].
      destruct (open_fresh H C key [] (or_introl eq_refl)) as (s & Eo & _ & N & _). rewrite Eo. cbn [bind]. exists s. auto.
    + left. rewrite (V1 j Uj). 2:{ intros n. rewrite <- Fj. split; intros [U X]; (split; [exact U|]); rewrite (Fs n U) in *; exact X. }
      unfold open_folder. rewrite Vf. cbn [bind]. destruct (V2 d eq_refl) as (j2 & Uj2 & Fj2 & ->).
      assert (j2 = j) as ->. { apply N.le_antisymm.
        - destruct (N.eq_dec j2 0); [lia|]. assert (X : (1 <= j2 <= j2)%N) by lia. apply Fj2, Fj in X. lia.
        - destruct (N.eq_dec j 0); [lia|]. assert (X : (1 <= j <= j)%N) by lia. apply Fj, Fj2 in X. lia. }
      assert (Em : content g META = content f META) by (unfold content; now rewrite Gm). rewrite Em.
      assert (Ed : map (data g) (seq 1 (N.to_nat j)) = map (data f) (seq 1 (N.to_nat j))).
      { apply map_ext_in. intros i Ii. apply in_seq in Ii. unfold data, content. rewrite Fs; [reflexivity|]. unfold u32 in *. lia. }
      rewrite Ed. reflexivity.
Qed.

(** The lock is not available (another process has the database open): nothing but the lock
    file is touched, and urkel_open finds what it would have found. *)
Theorem C55_busy : forall H C key o f, wf f -> exists ops, destroy (false :: true :: o) (Some f) = Ok (ops, false) /\
  forall k, exists g, after (Some f) ops k = Some g /\ (forall n, n <> LOCK -> get g n = get f n) /\ open_folder H C key g = open_folder H C key f.
Proof.
  intros H C key o f W. cbn [destroy hd tl orb].
  assert (G1 : forall n, n <> LOCK -> get (locked f) n = get f n).
  { intros n Nn. unfold locked. cbn [get]. destruct (bytes_eqb_spec LOCK n); [congruence|]. rewrite get_del. destruct (bytes_eqb_spec LOCK n); [congruence|reflexivity]. }
  destruct (match get f LOCK with Some EOther => true | _ => false end); (eexists; split; [reflexivity|]); intros k.
  - exists f. unfold after. rewrite firstn_nil. auto.
  - destruct k as [|k]; [exists f; auto|]. rewrite after_cons. exists (locked f). unfold after. rewrite firstn_nil. split; [reflexivity|]. split; [exact G1|].
    apply open_same; [exact W|apply wf_lock, W|exact G1].
Qed.

(** ** Refutation: a failing urkel_destroy destroys the database

    A file of the user in the directory: urkel_destroy removes key and data, cannot remove the
    directory and reports failure; the next urkel_open creates an empty database. *)
From Verif Require Import Demo.
Fixpoint nodup_b (l : list bytes) : bool := match l with [] => true | x :: l => negb (inb x l) && nodup_b l end.
Lemma nodup_b_ok l : nodup_b l = true -> NoDup l.
Proof.
  induction l as [|x l IH]; intros E; [constructor|]. cbn in E. apply andb_true_iff in E. destruct E as [E1 E2]. constructor; [|exact (IH E2)].
  intros I. apply inb_In in I. rewrite I in E1. discriminate.
Qed.
Definition NOTES : bytes := [x6e; x6f; x74; x65; x73].   (* "notes" *)
Definition shared_dir (b : bytes) : folder := [(META, EFile dkey); (NOTES, EFile [x2a]); (filename 1, EFile b)].
Lemma shared_wf b : wf (shared_dir b).
Proof.
  split; cbn [shared_dir map fst]; [apply nodup_b_ok; reflexivity|].
  repeat constructor; try apply digit_cstring, filename_digit; unfold cstring; cbn; intuition discriminate.
Qed.
Lemma shared_view b : dirview (shared_dir b) = Ok (Some (mkdir (Some dkey) [b])).
Proof. vm_compute. reflexivity. Qed.
Lemma shared_database b : database (shared_dir b).
Proof.
  split; [apply shared_wf|]. split; [eexists; apply shared_view|]. intros n _ _. unfold shared_dir. cbn [get].
  destruct (bytes_eqb META n); [discriminate|]. destruct (bytes_eqb NOTES n); [discriminate|]. destruct (bytes_eqb (filename 1) n); discriminate.
Qed.
Lemma shared_destroy b : destroy [] (Some (shared_dir b)) = Ok ([XLock; XUnlink (filename 1); XUnlink META; XUnlink LOCK], false).
Proof. vm_compute. reflexivity. Qed.
Lemma shared_left b : after (Some (shared_dir b)) [XLock; XUnlink (filename 1); XUnlink META; XUnlink LOCK] 4 = Some [(NOTES, EFile [x2a])].
Proof. vm_compute. reflexivity. Qed.
Lemma shared_open b : open_folder toy toyC dkey (shared_dir b) = store_open toy toyC dkey [b] [].
Proof.
  unfold open_folder. rewrite shared_view. cbn [bind]. unfold store_init. cbn [dir_meta dir_files]. change (length dkey <? 32) with false. change (firstn 32 dkey) with dkey. cbv iota.
  destruct (store_open toy toyC dkey [b] []) as [[s|]| | | |]; reflexivity.
Qed.
Lemma left_open : exists s, open_folder toy toyC dkey [(NOTES, EFile [x2a])] = Ok (Some s) /\ m_node (st_state s) = NNull.
Proof. eexists. split; [vm_compute; reflexivity|reflexivity]. Qed.
Theorem C55_failure_refuted : exists f ops g s s',
  database f /\ destroy [] (Some f) = Ok (ops, false) /\ after (Some f) ops (length ops) = Some g /\
  open_folder toy toyC dkey f = Ok (Some s) /\ m_node (st_state s) <> NNull /\
  open_folder toy toyC dkey g = Ok (Some s') /\ m_node (st_state s') = NNull.
Proof.
  assert (Y : match store_open toy toyC dkey [nth 0 (files (pw demo)) []] [] with Ok (Some s) => match m_node (st_state s) with NNull => false | _ => true end | _ => false end = true) by (vm_compute; reflexivity).
  revert Y. generalize (nth 0 (files (pw demo)) []). intros b Y. destruct left_open as (s' & O' & N').
  destruct (store_open toy toyC dkey [b] []) as [[s|]| | | |] eqn:E; try discriminate.
  exists (shared_dir b), [XLock; XUnlink (filename 1); XUnlink META; XUnlink LOCK], [(NOTES, EFile [x2a])], s, s'.
  split; [apply shared_database|]. split; [apply shared_destroy|]. split; [apply shared_left|]. split; [rewrite shared_open; exact E|].
  split; [intros X; rewrite X in Y; discriminate|]. auto.
Qed.

(** The conditions of the theorems: a directory with a lock file left behind. *)
Definition own_dir (b : bytes) : folder := [(LOCK, EFile []); (META, EFile dkey); (filename 1, EFile b)].
Example C55_nonvacuous : forall b, database_only (own_dir b) /\ database (shared_dir b) /\
  (exists ops, destroy [] (Some (own_dir b)) = Ok (ops, true) /\ length ops = 5) /\
  open_folder toy toyC dkey [(LOCK, EFile []); (META, EFile dkey); (filename 2, EFile b)] = Ok None.
Proof.
  intros b. split; [|split; [apply shared_database|split]].
  - split.
    + split; cbn [own_dir map fst]; [apply nodup_b_ok; reflexivity|].
      repeat constructor; try apply digit_cstring, filename_digit; unfold cstring; cbn; intuition discriminate.
    + intros n e. unfold own_dir. cbn [get]. destruct (bytes_eqb_spec LOCK n) as [<-|]; [intros E; injection E as <-; split; [now left|discriminate]|].
      destruct (bytes_eqb_spec META n) as [<-|]; [intros E; injection E as <-; split; [right; now left|discriminate]|].
      destruct (bytes_eqb_spec (filename 1) n) as [<-|]; [intros E; injection E as <-; split; [right; right|discriminate]|discriminate].
      split; [apply filename_digit|]. split; [apply filename_digit|]. rewrite filename_value; unfold u32; lia.
  - eexists. split; [vm_compute; reflexivity|]. reflexivity.
  - vm_compute. reflexivity.
Qed.
