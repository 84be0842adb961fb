(** * Iterators (tree.c 1090-1284) when reads fail: Iter.v with a schedule of failing reads. *)
From Verif Require Export ReadFault IterFacts.
From Coq Require Import ZifyBool ZifyNat ZifyN.

(** Number of failing reads in a schedule. *)
Fixpoint fails (sch : sched) : nat :=
  match sch with [] => 0 | b :: sch => (if b then 1 else 0) + fails sch end.

Section IterF.
Variable rd : ptr -> option bytes.

(** The loop of urkel_iter_seek: tree.c 1190-1247.  After a failed resolve the frame keeps
    child = 0 and stays on the stack. *)
Fixpoint seek_loop_f (fuel : nat) (sch : sched) (it : iterst) : res (sres * iterst * sched) :=
  match fuel with
  | O => NoFuel
  | S fuel =>
    match it_stack it with
    | [] => Abort
    | fr :: rest =>
      match f_node fr with
      | NNull => Ok (SAt (f_node fr), it, sch)
      | NLeaf _ _ _ _ _ => Ok (SAt (f_node fr), it, sch)
      | NInt _ _ _ l r =>
        if 2 <=? f_child fr then Ok (SNone, it, sch) else
        let c := S (f_child fr) in
        let it := mkiter (it_root it) (mkframe (f_node fr) c :: rest) (it_done it) in
        let! it := iter_push it (if c =? 2 then r else l) in
        seek_loop_f fuel sch it
      | NHash h w =>
        if 1 <=? f_child fr then Ok (SNone, it, sch) else
        let it := mkiter (it_root it) (mkframe (f_node fr) 1 :: rest) (it_done it) in
        let! (r, sch) := resolve_f rd sch h w in
        match r with
        | None => Ok (SErr ECORRUPTION, it, sch)
        | Some rn => let! it := iter_push it rn in seek_loop_f fuel sch it
        end
      end
    end
  end.

(** urkel_iter_seek: tree.c 1163-1248. *)
Definition iter_seek_f (sch : sched) (it : iterst) : res (sres * iterst * sched) :=
  if it_done it then Ok (SErr EITEREND, it, sch) else
  match it_stack it with
  | [] => let! it := iter_push it (it_root it) in seek_loop_f SEEK_FUEL sch it
  | _ :: rest =>
    match rest with
    | [] => Ok (SErr EITEREND, mkiter (it_root it) [] true, sch)
    | _ => seek_loop_f SEEK_FUEL sch (mkiter (it_root it) rest (it_done it))
    end
  end.

(** The loop of urkel_iter_next: tree.c 1250-1284. *)
Fixpoint next_loop_f (fuel : nat) (sch : sched) (it : iterst) : res (ires * iterst * sched) :=
  match fuel with
  | O => NoFuel
  | S fuel =>
    let! (r, it, sch) := iter_seek_f sch it in
    match r with
    | SErr e => Ok (IErr e, it, sch)
    | SAt (NLeaf _ _ k v vp) =>
      let! (x, sch) := retrieve_f rd sch v vp in
      match x with
      | None => Ok (IErr ECORRUPTION, it, sch)
      | Some x => Ok (IRec k x, it, sch)
      end
    | _ => next_loop_f fuel sch it
    end
  end.
Definition iter_next_f (sch : sched) (it : iterst) : res (ires * iterst * sched) := next_loop_f NEXT_FUEL sch it.

(** The results of [n] calls of urkel_iter_next; the caller goes on after a failure. *)
Fixpoint iter_calls_f (n : nat) (sch : sched) (it : iterst) : res (list ires) :=
  match n with
  | O => Ok []
  | S n =>
    let! (r, it, sch) := iter_next_f sch it in
    let! rs := iter_calls_f n sch it in
    Ok (r :: rs)
  end.
End IterF.

(** urkel_iter_create on transaction [i], then [n] times urkel_iter_next, with the reads of
    all of them failing according to [sch]. *)
Definition tx_iterate_f (w : world) (sch : sched) (i n : nat) : res (list ires) :=
  match w_db w with
  | None => UB
  | Some d => let! root := live w i in iter_calls_f (st_rd (d_store d)) n sch (iter_create root)
  end.

(** ** Specification: what the results may be for the records [l] in order, when at most
    [f] reads fail.  A call gives the next record; or reports ECORRUPTION and a
    non-empty run of records is passed over; after the last record, EITEREND for ever. *)
Inductive reported : nat -> list (bytes * bytes) -> list ires -> Prop :=
| rp_stop f l : reported f l []
| rp_end f rs : reported f [] rs -> reported f [] (IErr EITEREND :: rs)
| rp_rec f k v l rs : reported f l rs -> reported f ((k, v) :: l) (IRec k v :: rs)
| rp_gap f gap l rs : gap <> [] -> reported f l rs -> reported (S f) (gap ++ l) (IErr ECORRUPTION :: rs).

Lemma reported_le f g l rs : reported f l rs -> f <= g -> reported g l rs.
Proof.
  intros R. revert g. induction R as [f l|f rs R IH|f k v l rs R IH|f gap l rs Ng R IH]; intros g L.
  - constructor.
  - constructor. auto.
  - constructor. auto.
  - destruct g as [|g]; [lia|]. constructor; [exact Ng|]. apply IH. lia.
Qed.

Section F.
Variable H : bytes -> bytes.
Hypothesis H_len : forall m, length (H m) = 32.
Variable rd : ptr -> option bytes.

Lemma fails_tl sch : fails (tl sch) <= fails sch.
Proof. destruct sch; cbn [fails tl]; lia. Qed.
Lemma fails_hd sch : hd false sch = true -> fails (tl sch) < fails sch.
Proof. destruct sch as [|b sch]; cbn [fails tl hd]; [discriminate|]. intros ->. lia. Qed.

Lemma resolve_f_cases sch h w n : resolve rd h w = Ok (Some n) ->
  exists sch', (resolve_f rd sch h w = Ok (Some n, sch') /\ fails sch' <= fails sch) \/
               (resolve_f rd sch h w = Ok (None, sch') /\ fails sch' < fails sch).
Proof.
  unfold resolve, resolve_f, read_node, read_node_f, rd_f. intros E. destruct (_ || _); [discriminate E|].
  exists (tl sch). destruct (hd false sch) eqn:Eh.
  - right. split; [reflexivity|apply fails_hd, Eh].
  - left. split; [|apply fails_tl]. destruct (rd w) as [raw|]; [|discriminate E].
    destruct (node_read raw) as [[x|]| | | |]; cbn [bind] in E |- *; try discriminate E. apply Ok_inj in E. injection E as <-. reflexivity.
Qed.
Lemma retrieve_f_cases sch v vp x : retrieve rd v vp = Ok (Some x) ->
  exists sch', (retrieve_f rd sch v vp = Ok (Some x, sch') /\ fails sch' <= fails sch) \/
               (retrieve_f rd sch v vp = Ok (None, sch') /\ fails sch' < fails sch).
Proof.
  unfold retrieve, retrieve_f, rd_f, check. intros E. destruct v as [y|].
  - exists sch. left. split; [|lia]. destruct (length y <=? VALUE_SIZE); [|discriminate E]. apply Ok_inj in E. injection E as <-. reflexivity.
  - destruct vp as [q|]; [|discriminate E]. destruct (1023 <? psize q)%N; [discriminate E|].
    exists (tl sch). destruct (hd false sch) eqn:Eh; [right; split; [reflexivity|apply fails_hd, Eh]|left].
    split; [|apply fails_tl]. apply Ok_inj in E. rewrite E. reflexivity.
Qed.

(** Going down to the first record, or to a node that cannot be read. *)
Definition lands root fuel sch n t fs : Prop :=
  over (length fs) n t = false ->
  exists sch' tl fs',
    (forall rem, below H rd fs rem false -> below H rd fs' (tl ++ rem) false) /\ length fs' < 256 /\
    ((exists h w k v vp x,
        seek_loop_f rd fuel sch (mkiter root (mkframe n 0 :: fs) false) =
          Ok (SAt (NLeaf h w k v vp), mkiter root (mkframe (NLeaf h w k v vp) 0 :: fs') false, sch') /\
        retrieve rd v vp = Ok (Some x) /\ elems t = (k, x) :: tl /\ fails sch' <= fails sch) \/
     (exists fr gap,
        seek_loop_f rd fuel sch (mkiter root (mkframe n 0 :: fs) false) =
          Ok (SErr ECORRUPTION, mkiter root (fr :: fs') false, sch') /\
        elems t = gap ++ tl /\ gap <> [] /\ fails sch' < fails sch)).

Lemma lands_hash root t path h w fs fuel sch :
  (forall n fs fuel sch, not_hash n -> rep H rd n t -> length fs < 256 -> 257 - length fs <= fuel -> lands root fuel sch n t fs) ->
  wfn path t ->
  rep H rd (NHash h w) t -> length fs < 256 -> 257 - length fs <= fuel -> lands root fuel sch (NHash h w) t fs.
Proof.
  intros Q W R B F Ov. destruct R as [-> D]. destruct (resolve_cost H H_len rd _ _ D) as (n' & E & R' & NH & Ec).
  destruct fuel as [|fuel]; [lia|].
  assert (Ov' : over (S (length fs)) n' t = false).
  { rewrite <- Ov. unfold over. rewrite Ec. cbn [cost]. f_equal. lia. }
  assert (Lt : S (length fs) < 256).
  { unfold over in Ov. cbn [cost] in Ov. apply Nat.ltb_ge in Ov. lia. }
  cbn [seek_loop_f it_stack f_node f_child Nat.leb it_root it_done].
  destruct (resolve_f_cases sch (thash H t) w n' E) as (sch1 & [[E1 L1]|[E1 L1]]); rewrite E1; cbn [bind].
  - unfold iter_push, check. cbn [it_stack it_root it_done length]. destruct (Nat.ltb_spec (S (length fs)) 256) as [_|X]; [|lia]. cbn [bind].
    destruct (Q n' (mkframe (NHash (thash H t) w) 1 :: fs) fuel sch1 NH R') as (sch' & tl & fs' & Bl & Lf & M); [cbn [length]; lia|cbn [length]; lia|exact Ov'|].
    exists sch', tl, fs'. split; [intros rem Br; apply Bl; constructor; exact Br|]. split; [exact Lf|].
    destruct M as [(h1 & w1 & k1 & v1 & vp1 & x1 & S1 & S2 & S3 & S4)|(fr & gap & S1 & S2 & S3 & S4)].
    + left. exists h1, w1, k1, v1, vp1, x1. split; [exact S1|]. split; [exact S2|]. split; [exact S3|lia].
    + right. exists fr, gap. split; [exact S1|]. split; [exact S2|]. split; [exact S3|lia].
  - exists sch1, [], fs. split; [intros rem Br; exact Br|]. split; [lia|]. right.
    exists (mkframe (NHash (thash H t) w) 1), (elems t). split; [reflexivity|]. rewrite app_nil_r. split; [reflexivity|].
    split; [apply (wfn_elems_nonempty path), W|exact L1].
Qed.

Lemma seek_down_f root t : forall n path fs fuel sch,
  rep H rd n t -> wfn path t -> vals_le 1023 t -> length fs < 256 -> 257 - length fs <= fuel -> lands root fuel sch n t fs.
Proof.
  induction t as [|tk tv|pre l IHl r IHr]; intros n path fs fuel sch R W V B F.
  - contradiction W.
  - assert (Lv : length tv <= 1023) by (apply (V tk); cbn; auto).
    assert (Q : forall n fs fuel sch, not_hash n -> rep H rd n (PLeaf tk tv) -> length fs < 256 -> 257 - length fs <= fuel -> lands root fuel sch n (PLeaf tk tv) fs).
    { clear n fs fuel sch R B F. intros n fs fuel sch NH R Lf F _. destruct n as [|h w p l r|h w k v vp|h w].
      - discriminate R.
      - destruct R as (? & ? & ? & X & _). discriminate X.
      - destruct R as (x & E & Hh & Hw & Hn & Hv). injection E as <- <-.
        exists sch, [], fs. split; [intros rem Br; exact Br|]. split; [exact Lf|]. left.
        exists h, w, tk, v, vp, tv. destruct fuel as [|fuel]; [lia|].
        split; [reflexivity|]. split; [apply (retrieve_rep H H_len); [exact Lv|]; destruct Hv as [X|(X1 & X2 & X3)]; auto|].
        split; [reflexivity|lia].
      - exfalso. eapply NH; reflexivity. }
    destruct n as [|h w p l r|h w k v vp|h w]; try (apply Q; [intros ? ?; discriminate|assumption|lia|lia]).
    eapply lands_hash; eauto.
  - pose proof W as [Wl Wr].
    assert (Vl : vals_le 1023 l). { intros k v I. apply (V k v). cbn. apply in_or_app; auto. }
    assert (Vr : vals_le 1023 r). { intros k v I. apply (V k v). cbn. apply in_or_app; auto. }
    assert (Q : forall n fs fuel sch, not_hash n -> rep H rd n (PInt pre l r) -> length fs < 256 -> 257 - length fs <= fuel -> lands root fuel sch n (PInt pre l r) fs).
    { clear n fs fuel sch R B F. intros n fs fuel sch NH R Lf F Ov. destruct n as [|h w p nl nr|h w k v vp|h w].
      - discriminate R.
      - destruct R as (pre' & tl' & tr' & E & Hh & Hw & Ep & Rl & Rr). injection E as <- <- <-.
        destruct fuel as [|fuel]; [lia|].
        pose proof (cost_ge H H_len rd nl l Rl) as Cl.
        assert (Ovs : S (length fs) + cost nl l <= 256 /\ S (length fs) + cost nr r <= 256).
        { unfold over in Ov. cbn [cost] in Ov. apply Nat.ltb_ge in Ov. lia. }
        cbn [seek_loop_f it_stack f_node f_child Nat.leb it_root it_done].
        unfold iter_push, check. cbn [it_stack it_root it_done length].
        destruct (Nat.ltb_spec (S (length fs)) 256) as [Lt|X]; [|lia]; cbn [bind Nat.eqb].
        destruct (IHl nl _ (mkframe (NInt h w p nl nr) 1 :: fs) fuel sch Rl Wl Vl) as (sch' & tl & fs' & Bl & Lf' & M).
        { cbn [length]. lia. } { cbn [length]. lia. } { unfold over. cbn [length]. apply Nat.ltb_ge. lia. }
        exists sch', (tl ++ elems r), fs'. split.
        { intros rem Br. rewrite <- app_assoc. apply Bl.
          replace false with (false || over (S (length fs)) nr r) at 1 by (unfold over; cbn [orb]; apply Nat.ltb_ge; lia). econstructor; eauto. }
        split; [exact Lf'|].
        destruct M as [(h1 & w1 & k1 & v1 & vp1 & x1 & S1 & S2 & S3 & S4)|(fr & gap & S1 & S2 & S3 & S4)].
        + left. exists h1, w1, k1, v1, vp1, x1. split; [exact S1|]. split; [exact S2|]. split; [cbn [elems]; rewrite S3; reflexivity|exact S4].
        + right. exists fr, gap. split; [exact S1|]. split; [cbn [elems]; rewrite S2; now rewrite app_assoc|]. auto.
      - destruct R as (? & X & _). discriminate X.
      - exfalso. eapply NH; reflexivity. }
    destruct n as [|h w p nl nr|h w k v vp|h w]; try (apply Q; [intros ? ?; discriminate|assumption|lia|lia]).
    eapply lands_hash; eauto.
Qed.

(** What one call of urkel_iter_next can do when [rem] is still to come. *)
Definition call_f root (r : res (ires * iterst * sched)) (sch : sched) (rem : list (bytes * bytes)) : Prop :=
  exists a it sch', r = Ok (a, it, sch') /\
    ((rem = [] /\ a = IErr EITEREND /\ ends it /\ fails sch' <= fails sch) \/
     (exists x fs rem', it = mkiter root (x :: fs) false /\ below H rd fs rem' false /\ length fs < 256 /\
        ((exists k v, rem = (k, v) :: rem' /\ a = IRec k v /\ fails sch' <= fails sch) \/
         (exists gap, rem = gap ++ rem' /\ gap <> [] /\ a = IErr ECORRUPTION /\ fails sch' < fails sch)))).

(** After the seek: reading the value. *)
Lemma landed root fuel sch r n t fs rem path : 
  (exists sf, r = (let! (x, it, sch) := seek_loop_f rd sf sch (mkiter root (mkframe n 0 :: fs) false) in
      match x with
      | SErr e => Ok (IErr e, it, sch)
      | SAt (NLeaf _ _ k v vp) =>
        let! (x, sch) := retrieve_f rd sch v vp in
        match x with
        | None => Ok (IErr ECORRUPTION, it, sch)
        | Some x => Ok (IRec k x, it, sch)
        end
      | _ => next_loop_f rd fuel sch it
      end) /\ 257 - length fs <= sf) ->
  rep H rd n t -> wfn path t -> vals_le 1023 t -> length fs < 256 -> over (length fs) n t = false -> below H rd fs rem false ->
  call_f root r sch (elems t ++ rem).
Proof.
  intros (sf & -> & Fs) R W V L Ov B.
  destruct (seek_down_f root t n path fs sf sch R W V L Fs Ov) as (sch1 & tl & fs' & Bl & Lf & M).
  specialize (Bl rem B). destruct M as [(h1 & w1 & k1 & v1 & vp1 & x1 & S1 & S2 & S3 & S4)|(fr & gap & S1 & S2 & S3 & S4)]; rewrite S1; cbn [bind].
  - destruct (retrieve_f_cases sch1 v1 vp1 x1 S2) as (sch2 & [[E1 L1]|[E1 L1]]); rewrite E1; cbn [bind].
    + do 3 eexists. split; [reflexivity|]. right. do 3 eexists. split; [reflexivity|]. split; [exact Bl|]. split; [exact Lf|].
      left. exists k1, x1. rewrite S3. split; [reflexivity|]. split; [reflexivity|lia].
    + do 3 eexists. split; [reflexivity|]. right. do 3 eexists. split; [reflexivity|]. split; [exact Bl|]. split; [exact Lf|].
      right. exists [(k1, x1)]. rewrite S3. split; [reflexivity|]. split; [discriminate|]. split; [reflexivity|lia].
  - do 3 eexists. split; [reflexivity|]. right. do 3 eexists. split; [reflexivity|]. split; [exact Bl|]. split; [exact Lf|].
    right. exists gap. rewrite S2, app_assoc. split; [reflexivity|]. split; [exact S3|]. split; [reflexivity|lia].
Qed.

Lemma next_step_f root fs rem b : below H rd fs rem b -> b = false -> length fs < 256 -> forall x fuel sch, length fs + 1 <= fuel ->
  call_f root (next_loop_f rd fuel sch (mkiter root (x :: fs) false)) sch rem.
Proof.
  induction 1 as [|h w p l r fs rem b t path R W V Bl IH|h w p l r fs rem b Bl IH|h w fs rem b Bl IH]; intros Eb Lf x fuel sch F.
  - destruct fuel as [|fuel]; [cbn in F; lia|]. do 3 eexists. split; [reflexivity|]. left. split; [reflexivity|]. split; [reflexivity|]. split; [reflexivity|lia].
  - destruct fuel as [|fuel]; [cbn in F; lia|]. apply orb_false_elim in Eb. destruct Eb as [-> Ov]. cbn [length] in Lf.
    cbn [next_loop_f]. unfold iter_seek_f. cbn [it_done it_stack it_root].
    destruct seek_fuel as (sf & -> & Esf). cbn [seek_loop_f it_stack f_node f_child Nat.leb it_root it_done].
    unfold iter_push, check. cbn [it_stack it_root it_done length].
    destruct (Nat.ltb_spec (S (length fs)) 256) as [_|X]; [|lia]. cbn [bind Nat.eqb].
    eapply (landed root fuel sch _ r t (mkframe (NInt h w p l r) 2 :: fs) rem path).
    + exists sf. split; [reflexivity|]. cbn [length]. lia.
    + exact R.
    + exact W.
    + exact V.
    + cbn [length]. lia.
    + exact Ov.
    + constructor. exact Bl.
  - destruct fuel as [|fuel]; [cbn in F; lia|]. cbn [next_loop_f]. unfold iter_seek_f. cbn [it_done it_stack it_root].
    destruct seek_fuel as (sf & -> & Esf). cbn [seek_loop_f it_stack f_node f_child Nat.leb it_root it_done bind].
    cbn [length] in F, Lf. apply IH; [exact Eb|lia|lia].
  - destruct fuel as [|fuel]; [cbn in F; lia|]. cbn [next_loop_f]. unfold iter_seek_f. cbn [it_done it_stack it_root].
    destruct seek_fuel as (sf & -> & Esf). cbn [seek_loop_f it_stack f_node f_child Nat.leb it_root it_done bind].
    cbn [length] in F, Lf. apply IH; [exact Eb|lia|lia].
Qed.

Lemma calls_done_f it : ends it -> forall n sch, exists rs, iter_calls_f rd n sch it = Ok rs /\ length rs = n /\ reported 0 [] rs.
Proof.
  intros E. induction n as [|n IH]; intros sch; [exists []; split; [reflexivity|split; [reflexivity|constructor]]|].
  destruct (IH sch) as (rs & Er & Ln & Rp). exists (IErr EITEREND :: rs).
  cbn [iter_calls_f]. unfold iter_next_f. destruct next_fuel as (nf & -> & _). cbn [next_loop_f].
  unfold iter_seek_f. rewrite E. cbn [bind]. rewrite Er. cbn [bind length]. split; [reflexivity|]. split; [now rewrite Ln|]. constructor. exact Rp.
Qed.

(** What follows a call. *)
Lemma after_call root n (IH : forall x fs rem sch, below H rd fs rem false -> length fs < 256 ->
    exists rs, iter_calls_f rd n sch (mkiter root (x :: fs) false) = Ok rs /\ length rs = n /\ reported (fails sch) rem rs) it0 sch rem :
  call_f root (iter_next_f rd sch it0) sch rem ->
  exists rs, iter_calls_f rd (S n) sch it0 = Ok rs /\ length rs = S n /\ reported (fails sch) rem rs.
Proof.
  intros (a & it & sch' & E & M). cbn [iter_calls_f]. rewrite E. cbn [bind].
  destruct M as [(-> & -> & En & Lf)|(x & fs & rem' & -> & B & L & [(k & v & -> & -> & Lf)|(gap & -> & Ng & -> & Lf)])].
  - destruct (calls_done_f it En n sch') as (rs & -> & Ln & Rp). cbn [bind]. eexists. split; [reflexivity|]. cbn [length]. split; [now rewrite Ln|].
    constructor. apply (reported_le 0); [exact Rp|lia].
  - destruct (IH x fs rem' sch' B L) as (rs & -> & Ln & Rp). cbn [bind]. eexists. split; [reflexivity|]. cbn [length]. split; [now rewrite Ln|].
    constructor. eapply reported_le; eassumption.
  - destruct (IH x fs rem' sch' B L) as (rs & -> & Ln & Rp). cbn [bind]. eexists. split; [reflexivity|]. cbn [length]. split; [now rewrite Ln|].
    destruct (fails sch) as [|f]; [lia|]. constructor; [exact Ng|]. eapply reported_le; [eassumption|lia].
Qed.

Lemma calls_from_f root n : forall x fs rem sch, below H rd fs rem false -> length fs < 256 ->
  exists rs, iter_calls_f rd n sch (mkiter root (x :: fs) false) = Ok rs /\ length rs = n /\ reported (fails sch) rem rs.
Proof.
  induction n as [|n IH]; intros x fs rem sch B L; [exists []; split; [reflexivity|split; [reflexivity|constructor]]|].
  apply (after_call root n IH). eapply next_step_f; [exact B|reflexivity|exact L|]. destruct next_fuel as (? & -> & ->); lia.
Qed.

Theorem iterate_f_spec root t sch n : rep H rd root t -> wft t -> vals_le 1023 t -> ih t <= 127 ->
  exists rs, iter_calls_f rd n sch (iter_create root) = Ok rs /\ length rs = n /\ reported (fails sch) (elems t) rs.
Proof.
  intros R W V I. destruct n as [|n]; [exists []; split; [reflexivity|split; [reflexivity|constructor]]|].
  apply (after_call root n (calls_from_f root n)). unfold iter_next_f, iter_create. destruct next_fuel as (nf & -> & Enf).
  destruct W as [->|W].
  - apply rep_null in R. subst root. cbn [next_loop_f]. unfold iter_seek_f. cbn [it_done it_stack it_root].
    unfold iter_push, check. cbn [it_stack it_root it_done length Nat.ltb Nat.leb bind].
    destruct seek_fuel as (sf & -> & _). cbn [seek_loop_f it_stack f_node bind]. destruct nf as [|nf]; [lia|]. cbn [next_loop_f].
    unfold iter_seek_f. cbn [it_done it_stack it_root bind].
    do 3 eexists. split; [reflexivity|]. left. split; [reflexivity|]. split; [reflexivity|]. split; [reflexivity|lia].
  - rewrite <- (app_nil_r (elems t)). cbn [next_loop_f]. unfold iter_seek_f. cbn [it_done it_stack it_root].
    unfold iter_push, check. cbn [it_stack it_root it_done length Nat.ltb Nat.leb bind].
    eapply (landed root nf sch _ root t [] [] []).
    + exists SEEK_FUEL. split; [reflexivity|]. cbn [length]. destruct seek_fuel as (? & -> & ->). lia.
    + exact R.
    + exact W.
    + exact V.
    + cbn [length]. lia.
    + pose proof (cost_le H H_len rd root t R). unfold over. cbn [length]. apply Nat.ltb_ge. lia.
    + constructor.
Qed.
End F.
