(** * Iteration visits the records in key order, exactly when the stack of 256 suffices. *)
From Verif Require Export Iter TreeFacts.
From Coq Require Import ZifyBool ZifyNat ZifyN.

(** Largest number of inner nodes above a record. *)
Fixpoint ih (t : ptree) : nat :=
  match t with PInt _ l r => S (Nat.max (ih l) (ih r)) | _ => 0 end.

(** Stack entries needed to visit all of [t]: one per structure in memory, two per stored node. *)
Fixpoint cost (n : node) (t : ptree) : nat :=
  match n with
  | NHash _ _ => 2 * ih t + 2
  | NInt _ _ _ l r => match t with PInt _ tl tr => S (Nat.max (cost l tl) (cost r tr)) | _ => 1 end
  | _ => 1
  end.

Lemma wfn_elems_nonempty path t : wfn path t -> elems t <> [].
Proof.
  revert path. induction t as [|k v|pre l IHl r IHr]; intros path W; [contradiction W|discriminate|].
  destruct W as [Wl _]. cbn [elems]. specialize (IHl _ Wl). destruct (elems l); [contradiction|discriminate].
Qed.

Section I.
Variable H : bytes -> bytes.
Hypothesis H_len : forall m, length (H m) = 32.
Variable rd : ptr -> option bytes.

Lemma cost_le n : forall t, rep H rd n t -> cost n t <= 2 * ih t + 2.
Proof.
  induction n as [|h w p l IHl r IHr|h w k v vp|h w]; intros t R; cbn [cost]; try lia.
  destruct R as (pre & tl & tr & -> & _ & _ & _ & Rl & Rr). specialize (IHl _ Rl). specialize (IHr _ Rr). cbn [ih]. lia.
Qed.
Lemma cost_ge n : forall t, rep H rd n t -> ih t + 1 <= cost n t.
Proof.
  induction n as [|h w p l IHl r IHr|h w k v vp|h w]; intros t R; cbn [cost]; try lia.
  - cbn [rep] in R. subst t. cbn. lia.
  - destruct R as (pre & tl & tr & -> & _ & _ & _ & Rl & Rr). specialize (IHl _ Rl). specialize (IHr _ Rr). cbn [ih]. lia.
  - destruct R as (x & -> & _). cbn. lia.
Qed.
Lemma resolve_cost t w : on_disk H rd t w ->
  exists n, resolve rd (thash H t) w = Ok (Some n) /\ rep H rd n t /\ (forall h' w', n <> NHash h' w') /\ cost n t = 2 * ih t + 1.
Proof.
  intros D. unfold resolve, read_node.
  destruct t as [|k v|pre l r]; [contradiction D| |].
  - pose proof D as (P & raw & vp & E1 & E2 & E3 & E4).
    destruct P as (_ & _ & P). destruct (N.eqb_spec (psize w) 0) as [X|_]; [lia|].
    destruct (N.ltb_spec 113 (psize w)) as [X|_]; [lia|]. cbn [orb].
    rewrite E1, E2. cbn [bind set_ptr set_hash]. eexists. split; [reflexivity|].
    split; [|split; [discriminate|reflexivity]]. exists v. split; [reflexivity|]. split; [right; reflexivity|].
    split; [exact D|]. split; [discriminate|]. right. split; [reflexivity|]. split; [discriminate|]. eauto.
  - pose proof D as (P & raw & lp & rp & E1 & E2 & Dl & Dr).
    destruct P as (_ & _ & P). destruct (N.eqb_spec (psize w) 0) as [X|_]; [lia|].
    destruct (N.ltb_spec 113 (psize w)) as [X|_]; [lia|]. cbn [orb].
    rewrite E1, E2. cbn [bind set_ptr set_hash]. eexists. split; [reflexivity|].
    split; [|split; [discriminate|cbn [cost ih]; lia]]. exists pre, l, r. split; [reflexivity|]. split; [right; reflexivity|].
    split; [exact D|]. split; [reflexivity|]. split; (split; [reflexivity|assumption]).
Qed.

(** A subtree that does not fit above [m] entries. *)
Definition over (m : nat) (n : node) (t : ptree) : bool := 256 <? m + cost n t.

(** The frames below the one just finished, the records still to come, and whether some
    pending subtree does not fit. *)
Inductive below : list frame -> list (bytes * bytes) -> bool -> Prop :=
| below_nil : below [] [] false
| below_left h w p l r fs rem b t path :
    rep H rd r t -> wfn path t -> vals_le 1023 t ->
    below fs rem b -> below (mkframe (NInt h w p l r) 1 :: fs) (elems t ++ rem) (b || over (S (length fs)) r t)
| below_right h w p l r fs rem b : below fs rem b -> below (mkframe (NInt h w p l r) 2 :: fs) rem b
| below_hash h w fs rem b : below fs rem b -> below (mkframe (NHash h w) 1 :: fs) rem b.

(** Going down to the first record of a tree not entered yet. *)
Definition descends root fuel n t fs : Prop :=
  (seek_loop rd fuel (mkiter root (mkframe n 0 :: fs) false) = Abort /\ over (length fs) n t = true) \/
  exists h w k v vp x tl fs',
    seek_loop rd fuel (mkiter root (mkframe n 0 :: fs) false) =
      Ok (SAt (NLeaf h w k v vp), mkiter root (mkframe (NLeaf h w k v vp) 0 :: fs') false) /\
    retrieve rd v vp = Ok (Some x) /\ elems t = (k, x) :: tl /\ length fs' < 256 /\
    forall rem b, below fs rem b -> below fs' (tl ++ rem) (b || over (length fs) n t).

Lemma descends_hash root t h w fs fuel :
  (forall n fs fuel, not_hash n -> rep H rd n t -> length fs < 256 -> 257 - length fs <= fuel -> descends root fuel n t fs) ->
  rep H rd (NHash h w) t -> length fs < 256 -> 257 - length fs <= fuel -> descends root fuel (NHash h w) t fs.
Proof.
  intros Q R B F. destruct R as [-> D]. destruct (resolve_cost _ _ D) as (n' & E & R' & NH & Ec).
  destruct fuel as [|fuel]; [lia|]. unfold descends.
  cbn [seek_loop it_stack f_node f_child Nat.leb it_root it_done]. rewrite E. cbn [bind].
  unfold iter_push, check. cbn [it_stack it_root it_done length].
  assert (Ov : over (length fs) (NHash (thash H t) w) t = over (S (length fs)) n' t).
  { unfold over. rewrite Ec. cbn [cost]. f_equal. lia. }
  destruct (Nat.ltb_spec (S (length fs)) 256) as [Lt|X]; cbn [bind].
  - rewrite Ov. destruct (Q n' (mkframe (NHash (thash H t) w) 1 :: fs) fuel) as [[E1 O1]|(h1 & w1 & k1 & v1 & vp1 & x1 & tl1 & fs1 & E1 & E2 & E3 & E4 & E5)]; auto.
    { cbn [length]. lia. }
    right. exists h1, w1, k1, v1, vp1, x1, tl1, fs1. split; [exact E1|]. split; [exact E2|]. split; [exact E3|]. split; [exact E4|].
    intros rem b Bl. apply E5. constructor. exact Bl.
  - left. split; [reflexivity|]. unfold over. cbn [cost]. apply Nat.ltb_lt. lia.
Qed.

Lemma seek_down root t : forall n path fs fuel,
  rep H rd n t -> wfn path t -> vals_le 1023 t -> length fs < 256 -> 257 - length fs <= fuel -> descends root fuel n t fs.
Proof.
  induction t as [|tk tv|pre l IHl r IHr]; intros n path fs fuel R W V B F.
  - contradiction W.
  - assert (Lv : length tv <= 1023) by (apply (V tk); cbn; auto).
    assert (Q : forall n fs fuel, not_hash n -> rep H rd n (PLeaf tk tv) -> length fs < 256 -> 257 - length fs <= fuel -> descends root fuel n (PLeaf tk tv) fs).
    { clear n fs fuel R B F. intros n fs fuel NH R Lf F. destruct n as [|h w p l r|h w k v vp|h w].
      - discriminate R.
      - destruct R as (? & ? & ? & X & _). discriminate X.
      - destruct R as (x & E & Hh & Hw & Hn & Hv). injection E as <- <-.
        right. exists h, w, tk, v, vp, tv, [], fs. destruct fuel as [|fuel]; [lia|].
        split; [reflexivity|]. split; [apply (retrieve_rep H H_len); [exact Lv|]; destruct Hv as [X|(X1 & X2 & X3)]; auto|].
        split; [reflexivity|]. split; [exact Lf|]. intros rem b Bl.
        replace (over (length fs) (NLeaf h w tk v vp) (PLeaf tk tv)) with false; [rewrite orb_false_r; exact Bl|].
        unfold over. cbn [cost]. symmetry. apply Nat.ltb_ge. lia.
      - exfalso. eapply NH; reflexivity. }
    destruct n as [|h w p l r|h w k v vp|h w]; try (apply Q; [intros ? ?; discriminate|assumption|lia|lia]).
    apply descends_hash; auto.
  - pose proof W as [Wl Wr].
    assert (Vl : vals_le 1023 l). { intros k v I. apply (V k v). cbn. apply in_or_app; auto. }
    assert (Vr : vals_le 1023 r). { intros k v I. apply (V k v). cbn. apply in_or_app; auto. }
    assert (Q : forall n fs fuel, not_hash n -> rep H rd n (PInt pre l r) -> length fs < 256 -> 257 - length fs <= fuel -> descends root fuel n (PInt pre l r) fs).
    { clear n fs fuel R B F. intros n fs fuel NH R Lf F. destruct n as [|h w p nl nr|h w k v vp|h w].
      - discriminate R.
      - destruct R as (pre' & tl' & tr' & E & Hh & Hw & Ep & Rl & Rr). injection E as <- <- <-.
        destruct fuel as [|fuel]; [lia|]. unfold descends. cbn [seek_loop it_stack f_node f_child Nat.leb it_root it_done].
        unfold iter_push, check. cbn [it_stack it_root it_done length].
        destruct (Nat.ltb_spec (S (length fs)) 256) as [Lt|X]; cbn [bind Nat.eqb].
        + assert (Ov : over (length fs) (NInt h w p nl nr) (PInt pre l r) = over (S (length fs)) nr r || over (S (length fs)) nl l).
          { unfold over. cbn [cost].
            destruct (Nat.ltb_spec 256 (S (length fs) + cost nl l)), (Nat.ltb_spec 256 (S (length fs) + cost nr r)); cbn [orb];
              (apply Nat.ltb_lt; lia) || (apply Nat.ltb_ge; lia). }
          rewrite Ov.
          destruct (IHl nl _ (mkframe (NInt h w p nl nr) 1 :: fs) fuel Rl Wl Vl) as [[E1 O1]|(h1 & w1 & k1 & v1 & vp1 & x1 & tl1 & fs1 & E1 & E2 & E3 & E4 & E5)].
          { cbn [length]. lia. } { cbn [length]. lia. }
          * left. split; [exact E1|]. cbn [length] in O1. rewrite O1. apply orb_true_r.
          * right. exists h1, w1, k1, v1, vp1, x1, (tl1 ++ elems r), fs1. split; [exact E1|]. split; [exact E2|].
            split. { cbn [elems]. rewrite E3. reflexivity. } split; [exact E4|].
            intros rem b Bl. rewrite <- app_assoc, orb_assoc. apply (E5 _ (b || over (S (length fs)) nr r)). econstructor; eauto.
        + left. split; [reflexivity|]. pose proof (cost_ge nl l Rl). unfold over. cbn [cost]. apply Nat.ltb_lt. lia.
      - destruct R as (? & X & _). discriminate X.
      - exfalso. eapply NH; reflexivity. }
    destruct n as [|h w p nl nr|h w k v vp|h w]; try (apply Q; [intros ? ?; discriminate|assumption|lia|lia]).
    apply descends_hash; auto.
Qed.

Lemma seek_fuel : exists f, SEEK_FUEL = S f /\ f = 257.
Proof. exists 257. auto. Qed.
Lemma next_fuel : exists f, NEXT_FUEL = S f /\ f = 258.
Proof. exists 258. auto. Qed.
Global Opaque SEEK_FUEL NEXT_FUEL.

Definition ends (it : iterst) : Prop := it_done it = true.

(** One call, after the frame on top has been finished. *)
Lemma next_step root fs rem b : below fs rem b -> length fs < 256 -> forall x fuel, length fs + 1 <= fuel ->
  match rem with
  | [] => b = false /\ exists it, next_loop rd fuel (mkiter root (x :: fs) false) = Ok (IErr EITEREND, it) /\ ends it
  | (k, v) :: rem' =>
    (b = true /\ next_loop rd fuel (mkiter root (x :: fs) false) = Abort) \/
    exists x' fs', next_loop rd fuel (mkiter root (x :: fs) false) = Ok (IRec k v, mkiter root (x' :: fs') false) /\
      below fs' rem' b /\ length fs' < 256
  end.
Proof.
  induction 1 as [|h w p l r fs rem b t path R W V Bl IH|h w p l r fs rem b Bl IH|h w fs rem b Bl IH]; intros Lf x fuel F.
  - destruct fuel as [|fuel]; [cbn in F; lia|]. split; [reflexivity|]. eexists. split; reflexivity.
  - destruct fuel as [|fuel]; [cbn in F; lia|]. cbn [next_loop]. unfold iter_seek. cbn [it_done it_stack it_root].
    destruct seek_fuel as (sf & -> & Esf). cbn [seek_loop it_stack f_node f_child Nat.leb it_root it_done].
    unfold iter_push, check. cbn [it_stack it_root it_done length]. cbn [length] in Lf.
    destruct (Nat.ltb_spec (S (length fs)) 256) as [_|X]; [|lia]. cbn [bind Nat.eqb].
    destruct (seek_down root t r path (mkframe (NInt h w p l r) 2 :: fs) sf R W V) as [[E1 O1]|(h1 & w1 & k1 & v1 & vp1 & x1 & tl1 & fs1 & E1 & E2 & E3 & E4 & E5)].
    { cbn [length]. lia. } { cbn [length]. lia. }
    + cbn [length] in O1. rewrite E1, O1, orb_true_r. cbn [bind].
      destruct (elems t) as [|[k v] tl] eqn:Et; [exfalso; revert Et; apply (wfn_elems_nonempty path), W|]. cbn [app]. left. auto.
    + rewrite E1. cbn [bind]. rewrite E2. cbn [bind]. rewrite E3. cbn [app]. right.
      eexists _, fs1. split; [reflexivity|]. split; [|exact E4]. apply E5. constructor. exact Bl.
  - destruct fuel as [|fuel]; [cbn in F; lia|]. cbn [next_loop]. unfold iter_seek. cbn [it_done it_stack it_root].
    destruct seek_fuel as (sf & -> & Esf). cbn [seek_loop it_stack f_node f_child Nat.leb it_root it_done bind].
    cbn [length] in F, Lf. apply IH; lia.
  - destruct fuel as [|fuel]; [cbn in F; lia|]. cbn [next_loop]. unfold iter_seek. cbn [it_done it_stack it_root].
    destruct seek_fuel as (sf & -> & Esf). cbn [seek_loop it_stack f_node f_child Nat.leb it_root it_done bind].
    cbn [length] in F, Lf. apply IH; lia.
Qed.

Definition rec_res (e : bytes * bytes) : ires := IRec (fst e) (snd e).

Lemma calls_done it : ends it -> forall n, iter_calls rd n it = Ok (repeat (IErr EITEREND) n).
Proof.
  intros E. induction n as [|n IH]; [reflexivity|]. cbn [iter_calls repeat]. unfold iter_next. destruct next_fuel as (nf & -> & _). cbn [next_loop].
  unfold iter_seek. rewrite E. cbn [bind]. rewrite IH. reflexivity.
Qed.

Definition outcome (l : list (bytes * bytes)) (n : nat) : list ires :=
  firstn n (map rec_res l ++ repeat (IErr EITEREND) n).

Lemma outcome_nil n : outcome [] n = repeat (IErr EITEREND) n.
Proof. unfold outcome. cbn [map app]. rewrite firstn_all2; [reflexivity|]. rewrite repeat_length. lia. Qed.
Lemma outcome_cons e l n : outcome (e :: l) (S n) = rec_res e :: outcome l n.
Proof.
  unfold outcome. cbn [map app firstn]. f_equal. rewrite !firstn_app. f_equal.
  rewrite map_length. rewrite <- (Nat.add_1_r n), repeat_app, firstn_app, repeat_length.
  replace (n - length l - n) with 0 by lia. cbn [firstn]. apply app_nil_r.
Qed.

Lemma calls_from root n : forall x fs rem b, below fs rem b -> length fs < 256 ->
  (b = false -> iter_calls rd n (mkiter root (x :: fs) false) = Ok (outcome rem n)) /\
  (b = true -> length rem <= n -> iter_calls rd n (mkiter root (x :: fs) false) = Abort).
Proof.
  induction n as [|n IH]; intros x fs rem b B L.
  - split; [reflexivity|]. intros -> Lr. destruct rem; [|cbn in Lr; lia].
    destruct (next_step root fs [] true B L x NEXT_FUEL) as [X _]; [destruct next_fuel as (? & -> & ->); lia|discriminate X].
  - cbn [iter_calls].
    pose proof (next_step root fs rem b B L x NEXT_FUEL) as S. unfold iter_next.
    destruct rem as [|[k v] rem].
    + destruct S as (-> & it & E & D); [destruct next_fuel as (? & -> & ->); lia|]. split; [|discriminate]. intros _.
      rewrite E. cbn [bind]. rewrite (calls_done it D). rewrite outcome_nil. reflexivity.
    + destruct S as [[-> E]|(x' & fs' & E & B' & L')]; [destruct next_fuel as (? & -> & ->); lia| |].
      * split; [discriminate|]. intros _ _. rewrite E. reflexivity.
      * destruct (IH x' fs' rem b B' L') as [I1 I2]. rewrite E. cbn [bind]. split.
        -- intros Eb. rewrite (I1 Eb), outcome_cons. reflexivity.
        -- intros Eb Lr. cbn [length] in Lr. rewrite (I2 Eb) by lia. reflexivity.
Qed.

(** The calls after urkel_iter_create return the records in order, then EITEREND; or abort. *)
Theorem iterate_exact root t : rep H rd root t -> wft t -> vals_le 1023 t ->
  (cost root t <= 256 -> forall n, iter_calls rd n (iter_create root) = Ok (outcome (elems t) n)) /\
  (256 < cost root t -> forall n, length (elems t) <= n -> iter_calls rd n (iter_create root) = Abort).
Proof.
  intros R W V. destruct W as [->|W].
  { apply rep_null in R. subst root. split; [|cbn; lia]. intros _ n.
    destruct n as [|n]; [reflexivity|]. cbn [iter_calls]. unfold iter_next, iter_create. destruct next_fuel as (nf & -> & Enf). cbn [next_loop].
    unfold iter_seek. cbn [it_done it_stack it_root]. unfold iter_push, check. cbn [it_stack it_root it_done length Nat.ltb Nat.leb bind].
    destruct seek_fuel as (sf & -> & _). cbn [seek_loop it_stack f_node bind].
    destruct nf as [|nf]; [lia|]. cbn [next_loop].
    unfold iter_seek. cbn [it_done it_stack it_root bind]. rewrite calls_done by reflexivity. cbn [bind elems]. rewrite outcome_nil. reflexivity. }
  assert (Hd : exists e tl, elems t = e :: tl).
  { destruct (elems t) as [|e tl] eqn:Et; [exfalso; revert Et; apply (wfn_elems_nonempty []), W|eauto]. }
  destruct Hd as (e & tl & Et).
  destruct (seek_down root t root [] [] SEEK_FUEL R W V) as [[E1 O1]|(h1 & w1 & k1 & v1 & vp1 & x1 & tl1 & fs1 & E1 & E2 & E3 & E4 & E5)].
  { cbn [length]. lia. } { cbn [length]. destruct seek_fuel as (? & -> & ->). lia. }
  - unfold over in O1. cbn [length] in O1. apply Nat.ltb_lt in O1. split; [lia|]. intros _ n Ln. rewrite Et in Ln. destruct n as [|n]; [cbn in Ln; lia|].
    cbn [iter_calls]. unfold iter_next, iter_create. destruct next_fuel as (nf & -> & Enf). cbn [next_loop].
    unfold iter_seek. cbn [it_done it_stack it_root]. unfold iter_push, check. cbn [it_stack it_root it_done length Nat.ltb Nat.leb bind].
    rewrite E1. reflexivity.
  - specialize (E5 [] false below_nil). rewrite app_nil_r in E5. cbn [orb] in E5.
    assert (G : forall n, iter_calls rd (S n) (iter_create root) =
      let! rs := iter_calls rd n (mkiter root (mkframe (NLeaf h1 w1 k1 v1 vp1) 0 :: fs1) false) in Ok (IRec k1 x1 :: rs)).
    { intros n. cbn [iter_calls]. unfold iter_next, iter_create. destruct next_fuel as (nf & -> & Enf). cbn [next_loop].
      unfold iter_seek. cbn [it_done it_stack it_root]. unfold iter_push, check. cbn [it_stack it_root it_done length Nat.ltb Nat.leb bind].
      rewrite E1. cbn [bind]. rewrite E2. cbn [bind]. reflexivity. }
    split; intros Co.
    + intros [|n]; [reflexivity|]. rewrite G. destruct (calls_from root n (mkframe (NLeaf h1 w1 k1 v1 vp1) 0) fs1 _ _ E5 E4) as [X _].
      rewrite X by (unfold over; cbn [length]; apply Nat.ltb_ge; lia). cbn [bind]. rewrite E3, outcome_cons. reflexivity.
    + intros n Ln. rewrite E3 in Ln. cbn [length] in Ln. destruct n as [|n]; [lia|].
      rewrite G. destruct (calls_from root n (mkframe (NLeaf h1 w1 k1 v1 vp1) 0) fs1 _ _ E5 E4) as [_ X].
      rewrite X; [reflexivity| |lia]. unfold over. cbn [length]. apply Nat.ltb_lt. lia.
Qed.

Theorem iterate_spec root t : rep H rd root t -> wft t -> vals_le 1023 t -> ih t <= 127 ->
  forall n, iter_calls rd n (iter_create root) = Ok (outcome (elems t) n).
Proof. intros R W V B. apply iterate_exact; auto. pose proof (cost_le _ _ R). lia. Qed.
End I.
