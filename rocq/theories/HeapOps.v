(** * urkel_tree_get, _insert, _remove, _prove on the heap: what Tree.v says, and every
    cell accounted for, whatever the files contain. *)
From Verif Require Export HeapFacts.
From Coq Require Import ZifyBool ZifyNat ZifyN.

(** [Q] on success, [E] on a documented error. *)
Definition outcome {A} (r : res A) (Q : A -> Prop) (E : errno -> Prop) : Prop :=
  match r with Ok x => Q x | Fail e => E e | _ => True end.

Section Ops.
Variable H : bytes -> bytes.
Variable rd : ptr -> option bytes.

Lemma hresolve_none m h w : resolve rd h w = Ok None -> exists m', hresolve rd m h w = Ok (None, m') /\ moves m [] m' [].
Proof.
  intros E. unfold hresolve, alloc. rewrite E. cbn [bind].
  assert (Ea : at_ (m ++ [Some KNew]) (length m) = Some KNew) by (rewrite at_app, Nat.eqb_refl; reflexivity).
  rewrite (free_ok _ _ _ Ea). cbn [bind]. eexists. split; [reflexivity|].
  eapply moves_trans; [apply alloc_moves|]. eapply free_moves; [exact Ea|intros []].
Qed.
Lemma hresolve_some m h w n : resolve rd h w = Ok (Some n) ->
  exists a m' F, hresolve rd m h w = Ok (Some a, m') /\ holds m' a n F /\ moves m [] m' F.
Proof.
  intros E. assert (R : record n h).
  { destruct (resolve_inv rd h w) as [E'|[E'|(n' & E' & R)]]; rewrite E in E'; try discriminate. apply Ok_inj in E'. injection E' as <-. exact R. }
  unfold hresolve. rewrite E. cbn [bind]. unfold alloc. destruct R as [(w0 & p & lh & lp & rh & rp & -> & _)|(w0 & k & vp & -> & _)].
  - set (m1 := m ++ [Some KNew]). set (m2 := m1 ++ [Some (KHash lh lp)]). set (m3 := m2 ++ [Some (KHash rh rp)]).
    assert (L1 : length m1 = length m + 1) by (unfold m1; rewrite app_length; reflexivity).
    assert (L2 : length m2 = length m1 + 1) by (unfold m2; rewrite app_length; reflexivity).
    assert (E0 : at_ m3 (length m) = Some KNew).
    { unfold m3. rewrite at_app. destruct (Nat.eqb_spec (length m) (length m2)); [lia|].
      unfold m2. rewrite at_app. destruct (Nat.eqb_spec (length m) (length m1)); [lia|].
      unfold m1. rewrite at_app, Nat.eqb_refl. reflexivity. }
    assert (E1 : at_ m3 (length m1) = Some (KHash lh lp)).
    { unfold m3. rewrite at_app. destruct (Nat.eqb_spec (length m1) (length m2)); [lia|]. unfold m2. rewrite at_app, Nat.eqb_refl. reflexivity. }
    assert (E2 : at_ m3 (length m2) = Some (KHash rh rp)) by (unfold m3; rewrite at_app, Nat.eqb_refl; reflexivity).
    rewrite (put_ok _ _ _ _ E0). cbn [bind]. exists (length m), (upd m3 (length m) (Some (KInt (Some h) (Some w0) p (length m1) (length m2)))), (length m :: [length m1] ++ [length m2]).
    split; [reflexivity|]. split.
    + eapply hd_int.
      * rewrite (at_put _ _ _ _ _ E0), Nat.eqb_refl. reflexivity.
      * apply hd_hash. rewrite (at_put _ _ _ _ _ E0). destruct (Nat.eqb_spec (length m1) (length m)); [lia|exact E1].
      * apply hd_hash. rewrite (at_put _ _ _ _ _ E0). destruct (Nat.eqb_spec (length m2) (length m)); [lia|exact E2].
      * intros [?|[]]; lia.
      * intros [?|[]]; lia.
      * intros x [<-|[]] [?|[]]; lia.
    + eapply moves_trans; [|eapply put_moves; [exact E0|left; reflexivity]].
      eapply moves_trans; [apply (alloc_moves m KNew)|].
      eapply (moves_trans m1 _ m2 [length m; length m1]).
      * eapply (moves_part m1 [] m2 [length m1] [length m]); [apply alloc_moves|intros x [<-|[]]; lia|intros x []|clear; sets|clear; sets].
      * eapply (moves_part m2 [] m3 [length m2] [length m; length m1]); [apply alloc_moves|intros x [<-|[<-|[]]]; lia|intros x []|clear; sets|clear; sets].
  - assert (Ea : at_ (m ++ [Some KNew]) (length m) = Some KNew) by (rewrite at_app, Nat.eqb_refl; reflexivity).
    rewrite (put_ok _ _ _ _ Ea). cbn [bind]. eexists _, _, [length m]. split; [reflexivity|]. split.
    + apply hd_leaf. rewrite (at_put _ _ _ _ _ Ea), Nat.eqb_refl. reflexivity.
    + eapply moves_trans; [apply alloc_moves|]. eapply put_moves; [exact Ea|left; reflexivity].
Qed.

Lemma hretrieve_ok m a h w k v vp F q : holds m a (NLeaf h w k v vp) F -> at_ m a = Some (KLeaf h w k q vp) -> hretrieve rd m q vp = retrieve rd v vp.
Proof.
  intros Hh Ea. destruct (holds_leaf_inv _ _ _ _ _ _ _ _ Hh) as (q' & Ea' & Q). rewrite Ea in Ea'. injection Ea' as <-.
  destruct v as [v|], q as [q|]; try contradiction; [|reflexivity]. destruct Q as (Eq & _). unfold hretrieve. rewrite (load_ok _ _ _ Eq). reflexivity.
Qed.

(** *** urkel_tree_get *)
Lemma hget_ok fuel : forall m a n F key depth want, holds m a n F ->
  outcome (tree_get rd fuel n key depth want)
    (fun v => exists m', hget rd fuel m a key depth want = Ok (inl v, m') /\ moves m [] m' [])
    (fun e => exists m', hget rd fuel m a key depth want = Ok (inr e, m') /\ moves m [] m' []).
Proof.
  induction fuel as [|fuel IH]; intros m a n F key depth want Hh; [exact I|]. cbn [tree_get hget].
  assert (R0 : forall x : bytes + errno, exists m', Ok (x, m) = Ok (x, m') /\ moves m [] m' []) by (intros x; exists m; split; [reflexivity|apply moves_refl]).
  destruct n as [|h w p l r|h w k v vp|h w].
  - destruct (holds_null_inv _ _ _ Hh) as [Ea _]. rewrite (load_ok _ _ _ Ea). apply R0.
  - destruct (holds_sides _ _ _ _ _ _ _ _ Hh) as (la & ra & Ea & S). rewrite (load_ok _ _ _ Ea). cbn [bind].
    pose proof (bits_has_nofail p key depth) as NF. destruct (bits_has p key depth) as [b|e| | |]; cbn [bind nofail] in *; try exact I; [|contradiction].
    destruct b; cbn [negb]; [|apply R0]. pose proof (get_bit_nofail key (depth + bsize p)) as NF2.
    destruct (get_bit key (depth + bsize p)) as [bit|e| | |]; cbn [bind nofail] in *; try exact I; [|contradiction].
    destruct (S bit) as (Fx & Fy & Hx & _). exact (IH _ _ _ _ key (depth + bsize p + 1) want Hx).
  - destruct (holds_leaf_inv _ _ _ _ _ _ _ _ Hh) as (q & Ea & _). rewrite (load_ok _ _ _ Ea). cbn [bind].
    destruct (negb (bytes_eqb k key)); [apply R0|]. destruct want; [|apply R0]. rewrite (hretrieve_ok _ _ _ _ _ _ _ _ _ Hh Ea).
    pose proof (retrieve_nofail rd v vp) as NF. destruct (retrieve rd v vp) as [[x|]|e| | |]; cbn [bind nofail] in *; try exact I; try apply R0. contradiction.
  - destruct (holds_hash_inv _ _ _ _ _ Hh) as [Ea EF]. rewrite (load_ok _ _ _ Ea). cbn [bind].
    pose proof (resolve_nofail rd h w) as NF. destruct (resolve rd h w) as [[rn|]|e| | |] eqn:Er; cbn [bind nofail] in *; try exact I; [| |contradiction].
    + destruct (hresolve_some m h w rn Er) as (b & m1 & Fb & E1 & Hb & M1). rewrite E1. cbn [bind].
      assert (Z : forall m2, moves m1 [] m2 [] -> exists m3, node_destroy m2 b true = Ok m3 /\ moves m [] m3 []).
      { intros m2 M2. destruct (holds_moves _ _ _ _ _ _ _ M2 Hb ltac:(intros ? [])) as [Hb2 _].
        destruct (node_destroy_all _ _ _ _ Hb2) as (m3 & E3 & M3). exists m3. split; [exact E3|].
        eapply moves_trans; [exact M1|]. eapply moves_trans; [apply moves_same, M2|exact M3]. }
      pose proof (IH m1 b rn Fb key depth want Hb) as O. destruct (tree_get rd fuel rn key depth want) as [v|e| | |]; cbn [outcome] in *; try exact I.
      * destruct O as (m2 & E2 & M2). rewrite E2. cbn [bind]. destruct (Z m2 M2) as (m3 & E3 & M3). rewrite E3. exists m3. auto.
      * destruct O as (m2 & E2 & M2). rewrite E2. cbn [bind]. destruct (Z m2 M2) as (m3 & E3 & M3). rewrite E3. exists m3. auto.
    + destruct (hresolve_none m h w Er) as (m1 & E1 & M1). rewrite E1. cbn [bind]. exists m1. auto.
Qed.

(** *** urkel_tree_insert *)
Lemma hinsert_ok fuel : forall m a n F key value depth, holds m a n F ->
  outcome (tree_insert H rd fuel n key value depth)
    (fun n' => exists a' m' F', hinsert H rd fuel m a key value depth = Ok (inl a', m') /\ holds m' a' n' F' /\ moves m F m' F')
    (fun e => exists m', hinsert H rd fuel m a key value depth = Ok (inr e, m') /\ moves m [] m' []).
Proof.
  induction fuel as [|fuel IH]; intros m a n F key value depth Hh; [exact I|]. cbn [tree_insert hinsert].
  destruct n as [|h w p l r|h w k v vp|h w].
  - destruct (holds_null_inv _ _ _ Hh) as [Ea EF]. rewrite (load_ok _ _ _ Ea). cbn [bind outcome].
    destruct (node_destroy_one _ _ _ _ false Hh eq_refl) as (m1 & E1 & M1). rewrite E1. cbn [bind].
    destruct (create_leaf_ok H m1 key value) as (b & m2 & F2 & E2 & H2 & M2). rewrite E2. cbn [bind].
    exists b, m2, F2. split; [reflexivity|]. split; [exact H2|]. eapply moves_trans; eassumption.
  - destruct (holds_sides _ _ _ _ _ _ _ _ Hh) as (la & ra & Ea & S). rewrite (load_ok _ _ _ Ea). cbn [bind].
    assert (La : a < length m) by (eapply at_some_lt, Ea).
    pose proof (bits_count_nofail p key depth) as NF. destruct (bits_count p key depth) as [c|e| | |]; cbn [bind nofail] in *; try exact I; [|contradiction].
    pose proof (get_bit_nofail key (depth + c)) as NF2.
    destruct (get_bit key (depth + c)) as [bit|e| | |]; cbn [bind nofail] in *; try exact I; [|contradiction].
    destruct (negb (c =? bsize p)).
    + destruct (create_leaf_ok H m key value) as (lf & m1 & Fl & E1 & Hlf & M1). rewrite E1. cbn [bind].
      pose proof (bits_split_nofail p c) as NF3. destruct (bits_split p c) as [[front back]|e| | |]; cbn [bind nofail outcome] in *; try exact I; [|contradiction].
      destruct (S false) as (Fx & Fy & Hx & Hy & N1 & N2 & D & EF). cbn [child negb] in Hx, Hy.
      destruct (holds_moves _ _ _ _ _ _ _ M1 Hx ltac:(intros ? [])) as [Hx1 Dx]. destruct (holds_moves _ _ _ _ _ _ _ M1 Hy ltac:(intros ? [])) as [Hy1 Dy].
      destruct (create_internal_ok m1 back la l Fx ra r Fy false Hx1 Hy1 D) as (ch & m2 & Fc & E2 & Hc & M2 & FF). rewrite E2.
      assert (Ea2 : at_ m2 a = Some (KInt h w p la ra)).
      { rewrite (moves_keep _ _ _ _ a M2); [|eapply moves_len; [exact M1|exact La]|rewrite in_app_iff; tauto].
        rewrite (moves_keep _ _ _ _ a M1); [exact Ea|exact La|intros []]. }
      assert (NL : forall z, In z Fl -> ~ In z (Fx ++ Fy)) by (intros z I1 I2; rewrite in_app_iff in I2; destruct I2 as [I2|I2]; [exact (Dx z I1 I2)|exact (Dy z I1 I2)]).
      destruct (holds_moves _ _ _ _ _ _ _ M2 Hlf ltac:(intros z I1 I2; exact (NL z I2 I1))) as [Hlf2 Dl].
      assert (NaL : ~ In a Fl) by (eapply moves_avoid; [exact M1|exact La|intros []]).
      assert (NaC : ~ In a Fc) by (eapply moves_avoid; [exact M2|eapply moves_len; [exact M1|exact La]|rewrite in_app_iff; tauto]).
      destruct (regrow m2 a _ _ _ _ _ lf _ Fl ch _ Fc front bit Ea2 Hlf2 Hc NaL NaC ltac:(intros z I1 I2; exact (Dl z I2 I1))) as (out & m3 & m4 & F' & E3 & E4 & Ho & M3).
      rewrite E3, E4. cbn [bind]. exists out, m4, F'. split; [reflexivity|]. split; [exact Ho|].
      assert (LFl : forall z, In z Fl -> z < length m1) by (eapply holds_lt, Hlf).
      assert (LFx : forall z, In z Fx -> z < length m) by (eapply holds_lt, Hx). assert (LFy : forall z, In z Fy -> z < length m) by (eapply holds_lt, Hy).
      eapply (moves_trans m _ m1 (Fl ++ Fx ++ a :: Fy)); [|eapply (moves_trans m1 _ m2 (Fl ++ a :: Fc)); [|exact M3]].
      * eapply (moves_part m [] m1 Fl (Fx ++ a :: Fy)); [exact M1| |intros ? []|intros z; rewrite EF; clear; sets|clear; sets].
        intros z. rewrite in_app_iff. intros [I1|[<-|I1]]; auto.
      * eapply (moves_part m1 (Fx ++ Fy) m2 Fc (a :: Fl)); [exact M2| | |clear; sets|clear; sets].
        -- intros z [<-|I1]; [eapply moves_len; [exact M1|exact La]|auto].
        -- intros z I1 [<-|I2]; [rewrite in_app_iff in I1; tauto|exact (NL z I2 I1)].
    + destruct (S bit) as (Fx & Fy & Hx & Hy & N1 & N2 & D & EF).
      pose proof (IH m _ _ Fx key value (depth + c + 1) Hx) as O.
      destruct (tree_insert H rd fuel (child l r bit) key value (depth + c + 1)) as [z|e| | |]; cbn [outcome bind] in *; try exact I.
      * destruct O as (z' & m1 & Fz & E1 & Hz & M1). rewrite E1. cbn [bind].
        destruct (holds_moves _ _ _ _ _ _ _ M1 Hy D) as [Hy1 Dz].
        assert (Ea1 : at_ m1 a = Some (KInt h w p la ra)) by (rewrite (moves_keep _ _ _ _ a M1 La N1); exact Ea).
        destruct (regrow m1 a _ _ _ _ _ z' z Fz _ _ Fy p bit Ea1 Hz Hy1 ltac:(eapply moves_avoid; eassumption) N2 Dz) as (out & m2 & m3 & F' & E2 & E3 & Ho & M2).
        rewrite E2, E3. cbn [bind]. exists out, m3, F'. split; [reflexivity|]. split; [exact Ho|].
        eapply moves_trans; [|exact M2]. eapply (moves_part m Fx m1 Fz (a :: Fy)); [exact M1| | |intros y; rewrite EF; clear; sets|clear; sets].
        -- intros y [<-|I1]; [exact La|eapply holds_lt; eassumption].
        -- intros y I1 [<-|I2]; [contradiction|exact (D y I1 I2)].
      * destruct O as (m1 & E1 & M1). rewrite E1. cbn [bind]. exists m1. auto.
  - destruct (holds_leaf_inv _ _ _ _ _ _ _ _ Hh) as (q & Ea & Q). rewrite (load_ok _ _ _ Ea). cbn [bind].
    destruct (bytes_eqb k key).
    + assert (Es : (match q with
                    | None => Ok false
                    | Some q => let! c := load m q in match c with KVal x => Ok (value_equals (Some x) value) | _ => UB end
                    end) = Ok (value_equals v value)).
      { destruct v as [v|], q as [q|]; try contradiction; [|reflexivity]. destruct Q as (Eq & _). rewrite (load_ok _ _ _ Eq). reflexivity. }
      rewrite Es. cbn [bind]. destruct (value_equals v value); cbn [outcome].
      * exists m. split; [reflexivity|apply moves_refl].
      * destruct (create_leaf_ok H m key value) as (b & m1 & F1 & E1 & H1 & M1). rewrite E1. cbn [bind].
        destruct (holds_moves _ _ _ _ _ _ _ M1 Hh ltac:(intros ? [])) as [Hh1 D1].
        destruct (node_destroy_one _ _ _ _ false Hh1 eq_refl) as (m2 & E2 & M2). rewrite E2. cbn [bind].
        exists b, m2, F1. split; [reflexivity|]. split; [eapply (holds_moves _ _ _ _ _ _ _ M2 H1); intros z I1 I2; exact (D1 z I2 I1)|].
        eapply (moves_trans m F m1 (F1 ++ F)).
        -- eapply (moves_part m [] m1 F1 F); [exact M1|eapply holds_lt, Hh|intros ? []|clear; sets|clear; sets].
        -- eapply (moves_part m1 F m2 [] F1); [exact M2|eapply holds_lt, H1|intros z I1 I2; exact (D1 z I2 I1)|clear; sets|clear; sets].
    + pose proof (bits_collide_nofail (key_bits k) key depth) as NF.
      destruct (bits_collide (key_bits k) key depth) as [p|e| | |]; cbn [bind nofail] in *; try exact I; [|contradiction].
      destruct (create_leaf_ok H m key value) as (b & m1 & F1 & E1 & H1 & M1). rewrite E1. cbn [bind].
      pose proof (get_bit_nofail key (depth + bsize p)) as NF2.
      destruct (get_bit key (depth + bsize p)) as [bit|e| | |]; cbn [bind nofail outcome] in *; try exact I; [|contradiction].
      destruct (holds_moves _ _ _ _ _ _ _ M1 Hh ltac:(intros ? [])) as [Hh1 D1].
      destruct (create_internal_ok m1 p b _ F1 a _ F bit H1 Hh1 D1) as (out & m2 & F2 & E2 & H2 & M2 & FF). rewrite E2.
      exists out, m2, F2. split; [reflexivity|]. split; [exact H2|].
      eapply moves_trans; [|exact M2]. eapply (moves_part m [] m1 F1 F); [exact M1|eapply holds_lt, Hh|intros ? []|clear; sets|clear; sets].
  - destruct (holds_hash_inv _ _ _ _ _ Hh) as [Ea EF]. rewrite (load_ok _ _ _ Ea). cbn [bind].
    pose proof (resolve_nofail rd h w) as NF. destruct (resolve rd h w) as [[rn|]|e| | |] eqn:Er; cbn [bind nofail] in *; try exact I; [| |contradiction].
    + destruct (hresolve_some m h w rn Er) as (b & m1 & Fb & E1 & Hb & M1). rewrite E1. cbn [bind].
      destruct (holds_moves _ _ _ _ _ _ _ M1 Hh ltac:(intros ? [])) as [Hh1 D1].
      pose proof (IH m1 b rn Fb key value depth Hb) as O. destruct (tree_insert H rd fuel rn key value depth) as [z|e| | |]; cbn [outcome] in *; try exact I.
      * destruct O as (z' & m2 & Fz & E2 & Hz & M2). rewrite E2. cbn [bind].
        destruct (holds_moves _ _ _ _ _ _ _ M2 Hh1 D1) as [Hh2 D2].
        destruct (node_destroy_one _ _ _ _ false Hh2 eq_refl) as (m3 & E3 & M3). rewrite E3. cbn [bind].
        exists z', m3, Fz. split; [reflexivity|]. split; [eapply (holds_moves _ _ _ _ _ _ _ M3 Hz); intros y I1 I2; exact (D2 y I2 I1)|].
        eapply (moves_trans m _ m1 (Fb ++ F)); [|eapply (moves_trans m1 _ m2 (Fz ++ F))].
        -- eapply (moves_part m [] m1 Fb F); [exact M1|eapply holds_lt, Hh|intros ? []|clear; sets|clear; sets].
        -- eapply moves_frame; [exact M2|eapply holds_lt, Hh1|exact D1].
        -- eapply (moves_part m2 F m3 [] Fz); [exact M3|eapply holds_lt, Hz|intros y I1 I2; exact (D2 y I2 I1)|clear; sets|clear; sets].
      * destruct O as (m2 & E2 & M2). rewrite E2. cbn [bind].
        destruct (holds_moves _ _ _ _ _ _ _ M2 Hb ltac:(intros ? [])) as [Hb2 _].
        destruct (node_destroy_all _ _ _ _ Hb2) as (m3 & E3 & M3). rewrite E3. cbn [bind]. exists m3. split; [reflexivity|].
        eapply moves_trans; [exact M1|]. eapply moves_trans; [apply moves_same, M2|exact M3].
    + destruct (hresolve_none m h w Er) as (m1 & E1 & M1). rewrite E1. cbn [bind outcome]. exists m1. auto.
Qed.

(** *** urkel_tree_remove *)
Definition isnull (n : node) : bool := match n with NNull => true | _ => false end.
Lemma holds_nonnull m a n F : holds m a n F -> isnull n = false ->
  exists c, load m a = Ok c /\ forall (A : Type) (x y : A), (match c with KNull => x | _ => y end) = y.
Proof. intros Hh N. destruct Hh as [a E|a h w E|a h w k vp E|a h w k q v vp E E2|a h w p la l Fl ra r Fr E Hl Hr N1 N2 D]; [discriminate|..]; rewrite (load_ok _ _ _ E); eexists; split; reflexivity. Qed.

(** The sibling takes the place of its parent: tree.c 316-328. *)
Lemma merge_ok m s ns Fs p b : holds m s ns Fs ->
  outcome (match ns with
           | NInt _ _ q sl sr => let! pre := bits_join p q b in Ok (create_internal pre sl sr false)
           | _ => Ok ns
           end)
    (fun n' => exists out m' F',
       (let! sc := load m s in
        match sc with
        | KInt _ _ q sl sr =>
          let! pre := bits_join p q b in
          let (out, m) := hcreate_internal m pre sl sr false in
          let! m := node_destroy m s false in
          Ok (out, m)
        | _ => Ok (s, m)
        end) = Ok (out, m') /\ holds m' out n' F' /\ moves m Fs m' F')
    (fun _ => False).
Proof.
  intros Hh. destruct ns as [|h w q l r|h w k v vp|h w].
  - destruct (holds_null_inv _ _ _ Hh) as [Ea _]. rewrite (load_ok _ _ _ Ea). exists s, m, Fs. split; [reflexivity|]. split; [exact Hh|apply moves_refl].
  - destruct (holds_sides _ _ _ _ _ _ _ _ Hh) as (la & ra & Ea & S). rewrite (load_ok _ _ _ Ea). cbn [bind].
    destruct (S false) as (Fx & Fy & Hx & Hy & N1 & N2 & D & EF). cbn [child negb] in Hx, Hy.
    pose proof (bits_join_nofail p q b) as NF. destruct (bits_join p q b) as [pre|e| | |]; cbn [bind nofail outcome] in *; try exact I; [|contradiction].
    destruct (regrow m s _ _ _ _ _ la l Fx ra r Fy pre false Ea Hx Hy N1 N2 D) as (out & m1 & m2 & F' & E1 & E2 & Ho & M).
    rewrite E1, E2. cbn [bind]. exists out, m2, F'. split; [reflexivity|]. split; [exact Ho|]. eapply moves_set; [exact M|intros z; symmetry; apply EF|reflexivity].
  - destruct (holds_leaf_inv _ _ _ _ _ _ _ _ Hh) as (x & Ea & _). rewrite (load_ok _ _ _ Ea). exists s, m, Fs. split; [reflexivity|]. split; [exact Hh|apply moves_refl].
  - destruct (holds_hash_inv _ _ _ _ _ Hh) as [Ea _]. rewrite (load_ok _ _ _ Ea). exists s, m, Fs. split; [reflexivity|]. split; [exact Hh|apply moves_refl].
Qed.

(** The sibling as it is or read from its file: tree.c 306-315. *)
Lemma side_ok m y ny Fy : holds m y ny Fy ->
  outcome (match ny with
           | NHash h w => let! s := resolve rd h w in match s with None => Abort | Some s => Ok s end
           | _ => Ok ny
           end)
    (fun ns => exists side rs m' Fs,
       (let! yc := load m y in
        match yc with
        | KHash h w =>
          let! (s, m) := hresolve rd m h w in
          match s with None => Abort | Some s => Ok (s, true, m) end
        | _ => Ok (y, false, m)
        end) = Ok (side, rs, m') /\ holds m' side ns Fs /\
       (if rs : bool then holds m' y ny Fy /\ isint ny = false /\ moves m [] m' Fs /\ (forall x, In x Fs -> ~ In x Fy) else m' = m /\ Fs = Fy))
    (fun _ => False).
Proof.
  intros Hh. destruct ny as [|h w q l r|h w k v vp|h w].
  - destruct (holds_null_inv _ _ _ Hh) as [Ea _]. rewrite (load_ok _ _ _ Ea). exists y, false, m, Fy. auto.
  - destruct (holds_int_inv _ _ _ _ _ _ _ _ Hh) as (? & ? & ? & ? & Ea & _). rewrite (load_ok _ _ _ Ea). exists y, false, m, Fy. auto.
  - destruct (holds_leaf_inv _ _ _ _ _ _ _ _ Hh) as (x & Ea & _). rewrite (load_ok _ _ _ Ea). exists y, false, m, Fy. auto.
  - destruct (holds_hash_inv _ _ _ _ _ Hh) as [Ea _]. rewrite (load_ok _ _ _ Ea). cbn [bind].
    pose proof (resolve_nofail rd h w) as NF. destruct (resolve rd h w) as [[rn|]|e| | |] eqn:Er; cbn [bind nofail outcome] in *; try exact I; [|contradiction].
    destruct (hresolve_some m h w rn Er) as (b & m1 & Fb & E1 & Hb & M1). rewrite E1. cbn [bind]. exists b, true, m1, Fb.
    destruct (holds_moves _ _ _ _ _ _ _ M1 Hh ltac:(intros ? [])) as [Hh1 D1]. auto 10.
Qed.

Lemma hremove_ok fuel : forall m a n F key depth, holds m a n F ->
  outcome (tree_remove rd fuel n key depth)
    (fun n' => exists a' m' F', hremove rd fuel m a key depth = Ok (inl a', m') /\ holds m' a' n' F' /\ moves m F m' F')
    (fun e => exists m', hremove rd fuel m a key depth = Ok (inr e, m') /\ moves m [] m' []).
Proof.
  induction fuel as [|fuel IH]; intros m a n F key depth Hh; [exact I|]. cbn [tree_remove hremove].
  destruct n as [|h w p l r|h w k v vp|h w].
  - destruct (holds_null_inv _ _ _ Hh) as [Ea EF]. rewrite (load_ok _ _ _ Ea). cbn [bind outcome]. exists m. split; [reflexivity|apply moves_refl].
  - destruct (holds_sides _ _ _ _ _ _ _ _ Hh) as (la & ra & Ea & S). rewrite (load_ok _ _ _ Ea). cbn [bind].
    assert (La : a < length m) by (eapply at_some_lt, Ea).
    pose proof (bits_has_nofail p key depth) as NF. destruct (bits_has p key depth) as [b|e| | |]; cbn [bind nofail] in *; try exact I; [|contradiction].
    destruct b; cbn [negb outcome]; [|exists m; split; [reflexivity|apply moves_refl]].
    pose proof (get_bit_nofail key (depth + bsize p)) as NF2.
    destruct (get_bit key (depth + bsize p)) as [bit|e| | |]; cbn [bind nofail] in *; try exact I; [|contradiction].
    destruct (S bit) as (Fx & Fy & Hx & Hy & N1 & N2 & D & EF). set (y := if bit then la else ra) in *. set (ny := child l r (negb bit)) in *.
    pose proof (IH m _ _ Fx key (depth + bsize p + 1) Hx) as O.
    destruct (tree_remove rd fuel (child l r bit) key (depth + bsize p + 1)) as [z|e| | |]; cbn [outcome bind] in *; try exact I.
    2:{ destruct O as (m1 & E1 & M1). rewrite E1. cbn [bind]. exists m1. auto. }
    destruct O as (z' & m1 & Fz & E1 & Hz & M1). rewrite E1. cbn [bind].
    destruct (holds_moves _ _ _ _ _ _ _ M1 Hy D) as [Hy1 Dz].
    assert (Ea1 : at_ m1 a = Some (KInt h w p la ra)) by (rewrite (moves_keep _ _ _ _ a M1 La N1); exact Ea).
    assert (NaZ : ~ In a Fz) by (eapply moves_avoid; eassumption).
    assert (LFy : forall x, In x Fy -> x < length m) by (eapply holds_lt, Hy).
    assert (M0 : moves m F m1 (Fz ++ a :: Fy)).
    { eapply (moves_part m Fx m1 Fz (a :: Fy)); [exact M1| | |intros x; rewrite EF; clear; sets|clear; sets].
      - intros x [<-|I1]; [exact La|auto].
      - intros x I1 [<-|I2]; [contradiction|exact (D x I1 I2)]. }
    destruct (isnull z) eqn:Nz.
    + destruct z; try discriminate. destruct (holds_null_inv _ _ _ Hz) as [Ez EFz]. rewrite (load_ok _ _ _ Ez). cbn [bind].
      pose proof (side_ok m1 y ny Fy Hy1) as O1. revert O1.
      destruct (match ny with NHash h w => let! s := resolve rd h w in match s with None => Abort | Some s => Ok s end | _ => Ok ny end) as [ns|e| | |];
        cbn [outcome bind]; intros O1; try exact I; [|contradiction].
      destruct O1 as (side & rs & m2 & Fs & E2 & Hs & Rs).
      assert (Bnd : forall (A : Type) (f : loc * bool * heap -> res A),
        (let! yc := load m1 y in
         let! x := (match yc with KHash h w => let! (s, m) := hresolve rd m1 h w in match s with None => Abort | Some s => Ok (s, true, m) end | _ => Ok (y, false, m1) end) in f x)
        = f (side, rs, m2)).
      { intros A f. revert E2. destruct (load m1 y) as [yc|e| | |]; cbn [bind]; try discriminate.
        intros E2. rewrite E2. reflexivity. }
      rewrite Bnd. cbv beta iota. clear Bnd E2.
      pose proof (merge_ok m2 side ns Fs p (negb bit) Hs) as O2. revert O2.
      destruct (match ns with NInt _ _ q sl sr => let! pre := bits_join p q (negb bit) in Ok (create_internal pre sl sr false) | _ => Ok ns end) as [n'|e| | |];
        cbn [outcome]; intros O2; try exact I; [|contradiction].
      destruct O2 as (out & m3 & F' & E3 & Ho & M3).
      assert (Bnd : forall (A : Type) (f : loc * heap -> res A),
        (let! sc := load m2 side in
         let! x := (match sc with
          | KInt _ _ q sl sr =>
            let! pre := bits_join p q (negb bit) in
            let (out, m) := hcreate_internal m2 pre sl sr false in
            let! m := node_destroy m side false in
            Ok (out, m)
          | _ => Ok (side, m2)
          end) in f x) = f (out, m3)).
      { intros A f. revert E3. destruct (load m2 side) as [yc|e| | |]; cbn [bind]; try discriminate. intros E3. rewrite E3. reflexivity. }
      rewrite Bnd. cbv beta iota. clear Bnd E3.
      (* what is left to free: a, z' and, if the sibling was read, y *)
      set (G := if rs then Fy else []).
      assert (Mg : moves m1 Fy m2 (Fs ++ G) /\ (forall x, In x Fs -> ~ In x G) /\ (forall x, In x G -> In x Fy)).
      { unfold G. destruct rs; destruct Rs as (R1 & R2).
        - destruct R2 as (R2 & R3 & R4). split; [|split; [exact R4|auto]]. eapply (moves_part m1 [] m2 Fs Fy); [exact R3|eapply holds_lt, Hy1|intros ? []|clear; sets|clear; sets].
        - subst m2 Fs. split; [|split; [intros ? ? []|intros ? []]]. eapply moves_set; [apply moves_refl|reflexivity|clear; sets]. }
      destruct Mg as (M2 & Dg & Sg).
      assert (NaS : ~ In a (Fs ++ G)) by (eapply moves_avoid; [exact M2|eapply moves_len; [exact M1|exact La]|exact N2]).
      assert (Ea2 : at_ m2 a = Some (KInt h w p la ra)) by (rewrite (moves_keep _ _ _ _ a M2 (moves_len _ _ _ _ _ M1 La) N2); exact Ea1).
      destruct (holds_moves _ _ _ _ _ _ _ M2 Hz ltac:(intros x I1 I2; exact (Dz x I2 I1))) as [Hz2 Dz2].
      assert (La2 : a < length m2) by (eapply at_some_lt, Ea2).
      assert (NaFs : ~ In a Fs) by (intros I1; apply NaS; rewrite in_app_iff; auto).
      assert (NaG : ~ In a G) by (intros I1; apply NaS; rewrite in_app_iff; auto).
      assert (DsZ : forall x, In x Fs -> ~ In x Fz) by (intros x I1; apply Dz2; rewrite in_app_iff; auto).
      assert (DgZ : forall x, In x G -> ~ In x Fz) by (intros x I1; apply Dz2; rewrite in_app_iff; auto).
      assert (Ea3 : at_ m3 a = Some (KInt h w p la ra)) by (rewrite (moves_keep _ _ _ _ a M3 La2 NaFs); exact Ea2).
      destruct (holds_moves _ _ _ _ _ _ _ M3 Hz2 DsZ) as [Hz3 DoZ].
      assert (NaO : ~ In a F') by (eapply moves_avoid; [exact M3|exact La2|exact NaFs]).
      assert (LG : forall x, In x G -> x < length m2) by (intros x I1; eapply moves_len; [exact M2|eapply moves_len; [exact M1|apply LFy, Sg, I1]]).
      assert (DoG : forall x, In x F' -> ~ In x G) by (intros x I1 I2; eapply moves_avoid; [exact M3|apply LG, I2|intros I3; exact (Dg x I3 I2)|exact I1]).
      rewrite (node_destroy_int _ _ _ _ _ _ _ Ea3). cbn [bind]. set (m4 := upd m3 a None).
      assert (M4 : moves m3 [a] m4 []) by (eapply free_moves; [exact Ea3|intros []]).
      assert (Ho4 : holds m4 out n' F') by (eapply (holds_moves _ _ _ _ _ _ _ M4 Ho); intros x [<-|[]]; exact NaO).
      assert (Hz4 : holds m4 z' NNull Fz) by (eapply (holds_moves _ _ _ _ _ _ _ M4 Hz3); intros x [<-|[]]; exact NaZ).
      assert (M5 : exists m5, (if rs then node_destroy m4 y false else Ok m4) = Ok m5 /\ moves m4 G m5 []).
      { unfold G in *. destruct rs; [|exists m4; split; [reflexivity|apply moves_refl]]. destruct Rs as (Y1 & Y2 & Y3 & Y4).
        assert (Y5 : holds m3 y ny Fy) by (eapply (holds_moves _ _ _ _ _ _ _ M3 Y1); exact Y4).
        assert (Y6 : holds m4 y ny Fy) by (eapply (holds_moves _ _ _ _ _ _ _ M4 Y5); intros x [<-|[]]; exact NaG).
        exact (node_destroy_one _ _ _ _ false Y6 Y2). }
      destruct M5 as (m5 & E5 & M5). match goal with |- context [bind (if rs then ?t else ?u) ?f] => replace (bind (if rs then t else u) f) with (f m5) by (symmetry; exact (f_equal (fun x => bind x f) E5)) end.
      cbv beta.
      destruct (holds_moves _ _ _ _ _ _ _ M5 Ho4 ltac:(intros x I1 I2; exact (DoG x I2 I1))) as [Ho5 _].
      destruct (holds_moves _ _ _ _ _ _ _ M5 Hz4 ltac:(intros x I1; exact (DgZ x I1))) as [Hz5 _].
      destruct (node_destroy_one _ _ _ _ false Hz5 eq_refl) as (m6 & E6 & M6). rewrite E6. cbn [bind].
      destruct (holds_moves _ _ _ _ _ _ _ M6 Ho5 ltac:(intros x I1 I2; exact (DoZ x I2 I1))) as [Ho6 _].
      exists out, m6, F'. split; [reflexivity|]. split; [exact Ho6|].
      assert (LZ : forall x, In x Fz -> x < length m1) by (eapply holds_lt, Hz).
      assert (LZ2 : forall x, In x Fz -> x < length m2) by (eapply holds_lt, Hz2).
      assert (LZ3 : forall x, In x Fz -> x < length m3) by (eapply holds_lt, Hz3).
      assert (LZ4 : forall x, In x Fz -> x < length m4) by (eapply holds_lt, Hz4).
      assert (LO3 : forall x, In x F' -> x < length m3) by (eapply holds_lt, Ho).
      assert (LO4 : forall x, In x F' -> x < length m4) by (eapply holds_lt, Ho4).
      assert (LO5 : forall x, In x F' -> x < length m5) by (eapply holds_lt, Ho5).
      eapply moves_trans; [exact M0|].
      eapply (moves_trans m1 _ m2 (Fs ++ G ++ a :: Fz)).
      { eapply (moves_part m1 Fy m2 (Fs ++ G) (a :: Fz)); [exact M2| | |clear; sets|clear; sets].
        - intros x [<-|I1]; [eapply moves_len; [exact M1|exact La]|auto].
        - intros x I1 [<-|I2]; [contradiction|exact (Dz x I2 I1)]. }
      eapply (moves_trans m2 _ m3 (F' ++ G ++ a :: Fz)).
      { eapply moves_frame; [exact M3| |].
        - intros x. rewrite in_app_iff. intros [I1|[<-|I1]]; auto.
        - intros x I1. rewrite in_app_iff. intros [I2|[<-|I2]]; [exact (Dg x I1 I2)|contradiction|exact (DsZ x I1 I2)]. }
      eapply (moves_trans m3 _ m4 (F' ++ G ++ Fz)).
      { eapply (moves_part m3 [a] m4 [] (F' ++ G ++ Fz)); [exact M4| | |clear; sets|clear; sets].
        - intros x. rewrite !in_app_iff. intros [I1|[I1|I1]]; auto. eapply moves_len; [exact M3|auto].
        - intros x [<-|[]]. rewrite !in_app_iff. tauto. }
      eapply (moves_trans m4 _ m5 (F' ++ Fz)).
      { eapply (moves_part m4 G m5 [] (F' ++ Fz)); [exact M5| | |clear; sets|clear; sets].
        - intros x. rewrite !in_app_iff. intros [I1|I1]; auto.
        - intros x I1. rewrite in_app_iff. intros [I2|I2]; [exact (DoG x I2 I1)|exact (DgZ x I1 I2)]. }
      eapply (moves_part m5 Fz m6 [] F'); [exact M6|exact LO5|intros x I1 I2; exact (DoZ x I2 I1)|clear; sets|clear; sets].
    + assert (Et : (match z with
                    | NNull => let! side := (match ny with NHash h w => let! s := resolve rd h w in match s with None => Abort | Some s => Ok s end | _ => Ok ny end) in
                               match side with NInt _ _ q sl sr => let! pre := bits_join p q (negb bit) in Ok (create_internal pre sl sr false) | _ => Ok side end
                    | _ => Ok (create_internal p z ny bit) end) = Ok (create_internal p z ny bit)) by (destruct z; [discriminate|reflexivity..]).
      rewrite Et. clear Et. cbn [outcome].
      destruct (holds_nonnull m1 z' z Fz Hz Nz) as (c & Ec & Em). rewrite Ec. cbn [bind]. rewrite Em. clear Em Ec.
      destruct (regrow m1 a _ _ _ _ _ z' z Fz y ny Fy p bit Ea1 Hz Hy1 NaZ N2 Dz) as (out & m2 & m3 & F' & E2 & E3 & Ho & M2).
      rewrite E2, E3. cbn [bind]. exists out, m3, F'. split; [reflexivity|]. split; [exact Ho|]. eapply moves_trans; [exact M0|exact M2].
  - destruct (holds_leaf_inv _ _ _ _ _ _ _ _ Hh) as (q & Ea & Q). rewrite (load_ok _ _ _ Ea). cbn [bind].
    destruct (negb (bytes_eqb k key)); cbn [outcome]; [exists m; split; [reflexivity|apply moves_refl]|].
    destruct (node_destroy_one _ _ _ _ false Hh eq_refl) as (m1 & E1 & M1). rewrite E1. cbn [bind]. unfold alloc.
    eexists _, _, [length m1]. split; [reflexivity|]. split; [apply hd_null; rewrite at_app, Nat.eqb_refl; reflexivity|].
    eapply moves_trans; [exact M1|apply alloc_moves].
  - destruct (holds_hash_inv _ _ _ _ _ Hh) as [Ea EF]. rewrite (load_ok _ _ _ Ea). cbn [bind].
    pose proof (resolve_nofail rd h w) as NF. destruct (resolve rd h w) as [[rn|]|e| | |] eqn:Er; cbn [bind nofail] in *; try exact I; [| |contradiction].
    + destruct (hresolve_some m h w rn Er) as (b & m1 & Fb & E1 & Hb & M1). rewrite E1. cbn [bind].
      destruct (holds_moves _ _ _ _ _ _ _ M1 Hh ltac:(intros ? [])) as [Hh1 D1].
      pose proof (IH m1 b rn Fb key depth Hb) as O. destruct (tree_remove rd fuel rn key depth) as [z|e| | |]; cbn [outcome] in *; try exact I.
      * destruct O as (z' & m2 & Fz & E2 & Hz & M2). rewrite E2. cbn [bind].
        destruct (holds_moves _ _ _ _ _ _ _ M2 Hh1 D1) as [Hh2 D2].
        destruct (node_destroy_one _ _ _ _ false Hh2 eq_refl) as (m3 & E3 & M3). rewrite E3. cbn [bind].
        exists z', m3, Fz. split; [reflexivity|]. split; [eapply (holds_moves _ _ _ _ _ _ _ M3 Hz); intros y I1 I2; exact (D2 y I2 I1)|].
        eapply (moves_trans m _ m1 (Fb ++ F)); [|eapply (moves_trans m1 _ m2 (Fz ++ F))].
        -- eapply (moves_part m [] m1 Fb F); [exact M1|eapply holds_lt, Hh|intros ? []|clear; sets|clear; sets].
        -- eapply moves_frame; [exact M2|eapply holds_lt, Hh1|exact D1].
        -- eapply (moves_part m2 F m3 [] Fz); [exact M3|eapply holds_lt, Hz|intros y I1 I2; exact (D2 y I2 I1)|clear; sets|clear; sets].
      * destruct O as (m2 & E2 & M2). rewrite E2. cbn [bind].
        destruct (holds_moves _ _ _ _ _ _ _ M2 Hb ltac:(intros ? [])) as [Hb2 _].
        destruct (node_destroy_all _ _ _ _ Hb2) as (m3 & E3 & M3). rewrite E3. cbn [bind]. exists m3. split; [reflexivity|].
        eapply moves_trans; [exact M1|]. eapply moves_trans; [apply moves_same, M2|exact M3].
    + destruct (hresolve_none m h w Er) as (m1 & E1 & M1). rewrite E1. cbn [bind outcome]. exists m1. auto.
Qed.

(** *** urkel_tree_prove *)
Lemma hprove_ok fuel : forall acc m a n F key depth, holds m a n F ->
  outcome (tree_prove H rd fuel acc n key depth)
    (fun x => exists m' F', hprove H rd fuel acc m a key depth = Ok (inl (fst x), m') /\ holds m' a (snd x) F' /\ moves m F m' F')
    (fun e => exists m' n' F', hprove H rd fuel acc m a key depth = Ok (inr e, m') /\ holds m' a n' F' /\ moves m F m' F').
Proof.
  induction fuel as [|fuel IH]; intros acc m a n F key depth Hh; [exact I|]. cbn [tree_prove hprove].
  destruct n as [|h w p l r|h w k v vp|h w].
  - destruct (holds_null_inv _ _ _ Hh) as [Ea EF]. rewrite (load_ok _ _ _ Ea). cbn [bind outcome fst snd]. exists m, F. split; [reflexivity|]. split; [exact Hh|apply moves_refl].
  - destruct (holds_sides _ _ _ _ _ _ _ _ Hh) as (la & ra & Ea & S). rewrite (load_ok _ _ _ Ea). cbn [bind].
    assert (La : a < length m) by (eapply at_some_lt, Ea).
    pose proof (bits_has_nofail p key depth) as NF. destruct (bits_has p key depth) as [b|e| | |]; cbn [bind nofail] in *; try exact I; [|contradiction].
    destruct b; cbn [negb].
    + pose proof (get_bit_nofail key (depth + bsize p)) as NF2.
      destruct (get_bit key (depth + bsize p)) as [bit|e| | |]; cbn [bind nofail] in *; try exact I; [|contradiction].
      destruct (S bit) as (Fx & Fy & Hx & Hy & N1 & N2 & D & EF).
      pose proof (node_hash_nofail H (child l r (negb bit))) as NF3.
      destruct (node_hash H (child l r (negb bit))) as [[yh y']|e| | |] eqn:Ey; cbn [bind nofail] in *; try exact I; [|contradiction].
      destruct (hnode_hash_ok H _ _ _ _ _ _ Hy Ey) as (m1 & E1 & Hy1 & M1). rewrite E1. cbn [bind].
      pose proof (proof_push_nofail acc p yh) as NF4. destruct (proof_push acc p yh) as [acc'|e| | |]; cbn [bind nofail] in *; try exact I; [|contradiction].
      destruct (holds_moves _ _ _ _ _ _ _ M1 Hx ltac:(intros x I1 I2; exact (D x I2 I1))) as [Hx1 _].
      assert (Ea1 : at_ m1 a = Some (KInt h w p la ra)) by (rewrite (moves_keep _ _ _ _ a M1 La N2); exact Ea).
      assert (La1 : a < length m1) by (eapply at_some_lt, Ea1).
      pose proof (IH acc' m1 _ _ Fx key (depth + bsize p + 1) Hx1) as O.
      assert (Z : forall m2 x' Fx', holds m2 (if bit then ra else la) x' Fx' -> moves m1 Fx m2 Fx' ->
        exists F', holds m2 a (if bit then NInt h w p y' x' else NInt h w p x' y') F' /\ moves m F m2 F').
      { intros m2 x' Fx' Hx2 M2. destruct (holds_moves _ _ _ _ _ _ _ M2 Hy1 D) as [Hy2 D2].
        assert (Ea2 : at_ m2 a = Some (KInt h w p la ra)) by (rewrite (moves_keep _ _ _ _ a M2 La1 N1); exact Ea1).
        destruct (holds_join m2 a h w p la ra bit x' y' Fx' Fy Ea2 Hx2 Hy2 ltac:(eapply moves_avoid; eassumption) N2 D2) as (F' & HF & EF').
        exists F'. split; [exact HF|]. eapply (moves_trans m _ m1 (Fx ++ a :: Fy)).
        - eapply (moves_part m Fy m1 Fy (a :: Fx)); [exact M1| | |intros x; rewrite EF; clear; sets|clear; sets].
          + intros x [<-|I1]; [exact La|eapply holds_lt; [exact Hx|exact I1]].
          + intros x I1 [<-|I2]; [contradiction|exact (D x I2 I1)].
        - eapply (moves_part m1 Fx m2 Fx' (a :: Fy)); [exact M2| | |clear; sets|intros x; rewrite EF'; clear; sets].
          + intros x [<-|I1]; [exact La1|eapply holds_lt; [exact Hy1|exact I1]].
          + intros x I1 [<-|I2]; [contradiction|exact (D x I1 I2)]. }
      destruct (tree_prove H rd fuel acc' (child l r bit) key (depth + bsize p + 1)) as [[pr x']|e| | |]; cbn [outcome bind fst snd] in *; try exact I.
      * destruct O as (m2 & Fx' & E2 & Hx2 & M2). rewrite E2. destruct (Z m2 x' Fx' Hx2 M2) as (F' & HF & MF). exists m2, F'. auto.
      * destruct O as (m2 & x' & Fx' & E2 & Hx2 & M2). rewrite E2. destruct (Z m2 x' Fx' Hx2 M2) as (F' & HF & MF). exists m2, (if bit then NInt h w p y' x' else NInt h w p x' y'), F'. auto.
    + destruct (S false) as (Fx & Fy & Hx & Hy & N1 & N2 & D & EF). cbn [child negb] in Hx, Hy.
      pose proof (node_hash_nofail H l) as NF3. destruct (node_hash H l) as [[lh l']|e| | |] eqn:El; cbn [bind nofail] in *; try exact I; [|contradiction].
      destruct (hnode_hash_ok H _ _ _ _ _ _ Hx El) as (m1 & E1 & Hx1 & M1). rewrite E1. cbn [bind].
      destruct (holds_moves _ _ _ _ _ _ _ M1 Hy D) as [Hy1 _].
      pose proof (node_hash_nofail H r) as NF4. destruct (node_hash H r) as [[rh r']|e| | |] eqn:Er; cbn [bind nofail outcome fst snd] in *; try exact I; [|contradiction].
      destruct (hnode_hash_ok H _ _ _ _ _ _ Hy1 Er) as (m2 & E2 & Hy2 & M2). rewrite E2. cbn [bind].
      destruct (holds_moves _ _ _ _ _ _ _ M2 Hx1 ltac:(intros x I1 I2; exact (D x I2 I1))) as [Hx2 _].
      assert (Ea1 : at_ m1 a = Some (KInt h w p la ra)) by (rewrite (moves_keep _ _ _ _ a M1 La N1); exact Ea).
      assert (La1 : a < length m1) by (eapply at_some_lt, Ea1).
      assert (Ea2 : at_ m2 a = Some (KInt h w p la ra)) by (rewrite (moves_keep _ _ _ _ a M2 La1 N2); exact Ea1).
      destruct (holds_join m2 a h w p la ra false l' r' Fx Fy Ea2 Hx2 Hy2 N1 N2 D) as (F' & HF & EF').
      exists m2, F'. split; [reflexivity|]. split; [exact HF|]. eapply (moves_trans m _ m1 (Fx ++ a :: Fy)).
      * eapply (moves_part m Fx m1 Fx (a :: Fy)); [exact M1| | |intros x; rewrite EF; clear; sets|clear; sets].
        -- intros x [<-|I1]; [exact La|eapply holds_lt; [exact Hy|exact I1]].
        -- intros x I1 [<-|I2]; [contradiction|exact (D x I1 I2)].
      * eapply (moves_part m1 Fy m2 Fy (a :: Fx)); [exact M2| | |clear; sets|intros x; rewrite EF'; clear; sets].
        -- intros x [<-|I1]; [exact La1|eapply holds_lt; [exact Hx1|exact I1]].
        -- intros x I1 [<-|I2]; [contradiction|exact (D x I2 I1)].
  - destruct (holds_leaf_inv _ _ _ _ _ _ _ _ Hh) as (q & Ea & _). rewrite (load_ok _ _ _ Ea). cbn [bind]. rewrite (hretrieve_ok _ _ _ _ _ _ _ _ _ Hh Ea).
    pose proof (retrieve_nofail rd v vp) as NF. destruct (retrieve rd v vp) as [[x|]|e| | |]; cbn [bind nofail] in *; try exact I; [| |contradiction].
    + destruct (bytes_eqb k key); cbn [outcome fst snd]; exists m, F; (split; [reflexivity|]); (split; [exact Hh|apply moves_refl]).
    + cbn [outcome]. exists m, (NLeaf h w k v vp), F. split; [reflexivity|]. split; [exact Hh|apply moves_refl].
  - destruct (holds_hash_inv _ _ _ _ _ Hh) as [Ea EF]. rewrite (load_ok _ _ _ Ea). cbn [bind].
    pose proof (resolve_nofail rd h w) as NF. destruct (resolve rd h w) as [[rn|]|e| | |] eqn:Er; cbn [bind nofail] in *; try exact I; [| |contradiction].
    + destruct (hresolve_some m h w rn Er) as (b & m1 & Fb & E1 & Hb & M1). rewrite E1. cbn [bind].
      destruct (holds_moves _ _ _ _ _ _ _ M1 Hh ltac:(intros ? [])) as [Hh1 D1].
      assert (Z : forall m2 rn' Fb', holds m2 b rn' Fb' -> moves m1 Fb m2 Fb' ->
        exists m3, node_destroy m2 b true = Ok m3 /\ holds m3 a (NHash h w) F /\ moves m F m3 F).
      { intros m2 rn' Fb' Hb2 M2. destruct (node_destroy_all _ _ _ _ Hb2) as (m3 & E3 & M3). exists m3. split; [exact E3|].
        assert (M4 : moves m [] m3 []) by (eapply moves_trans; [exact M1|]; eapply moves_trans; eassumption).
        split; [eapply (holds_moves _ _ _ _ _ _ _ M4 Hh); intros ? []|apply moves_same, M4]. }
      pose proof (IH acc m1 b rn Fb key depth Hb) as O. destruct (tree_prove H rd fuel acc rn key depth) as [[pr rn']|e| | |]; cbn [outcome bind fst snd] in *; try exact I.
      * destruct O as (m2 & Fb' & E2 & Hb2 & M2). rewrite E2. cbn [bind]. destruct (Z m2 rn' Fb' Hb2 M2) as (m3 & E3 & H3 & M3). rewrite E3. cbn [bind]. exists m3, F. auto.
      * destruct O as (m2 & rn' & Fb' & E2 & Hb2 & M2). rewrite E2. cbn [bind]. destruct (Z m2 rn' Fb' Hb2 M2) as (m3 & E3 & H3 & M3). rewrite E3. cbn [bind]. exists m3, (NHash h w), F. auto.
    + destruct (hresolve_none m h w Er) as (m1 & E1 & M1). rewrite E1. cbn [bind outcome]. exists m1, (NHash h w), F. split; [reflexivity|].
      split; [eapply (holds_moves _ _ _ _ _ _ _ M1 Hh); intros ? []|apply moves_same, M1].
Qed.
End Ops.
