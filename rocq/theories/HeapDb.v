(** * urkel_tree_write, urkel_tree_commit and whole sessions on the heap. *)
From Verif Require Export Sim HeapOps.
From Coq Require Import ZifyBool ZifyNat ZifyN.

Definition flatn (n : node) : bool := match n with NNull | NHash _ _ => true | _ => false end.

Section Write.
Variable H : bytes -> bytes.

Lemma holds_child m a n F : holds m a n F -> flatn n = true -> hchild m a = Ok n.
Proof.
  intros Hh N. unfold hchild. destruct Hh as [a E|a h w E|a h w k vp E|a h w k q v vp E E2|a h w p la l Fl ra r Fr E Hl Hr N1 N2 D]; try discriminate;
    rewrite (load_ok _ _ _ E); reflexivity.
Qed.
Lemma node_to_hash_flat n n' : node_to_hash n = Ok n' -> flatn n' = true.
Proof. destruct n as [|[h|] [w|] p l r|[h|] [w|] k v vp|h w]; cbn [node_to_hash]; intros E; try discriminate; apply Ok_inj in E; subst n'; reflexivity. Qed.
Lemma node_to_hash_cell m a n F c : holds m a n F -> at_ m a = Some c -> node_to_hash (flat c NNull NNull) = node_to_hash n.
Proof.
  intros Hh E. destruct Hh as [a E'|a h w E'|a h w k vp E'|a h w k q v vp E' E2|a h w p la l Fl ra r Fr E' Hl Hr N1 N2 D]; rewrite E in E'; injection E' as ->; reflexivity.
Qed.

Lemma hreplace_ok m a n F h n1 out : holds m a n F -> node_hash H n = Ok (h, n1) -> node_to_hash n1 = Ok out ->
  exists b m' F', hreplace H m a = Ok (b, m') /\ holds m' b out F' /\ moves m F m' F'.
Proof.
  intros Hh Eh Et. unfold hreplace, alloc. set (m1 := m ++ [Some KNew]).
  assert (M1 : moves m [] m1 [length m]) by apply alloc_moves.
  assert (E0 : at_ m1 (length m) = Some KNew) by (unfold m1; rewrite at_app, Nat.eqb_refl; reflexivity).
  assert (NF : ~ In (length m) F) by (intros I; pose proof (holds_lt _ _ _ _ Hh _ I); lia).
  destruct (holds_moves _ _ _ _ _ _ _ M1 Hh ltac:(intros ? [])) as [Hh1 _].
  destruct (hnode_hash_ok H _ _ _ _ _ _ Hh1 Eh) as (m2 & E2 & Hh2 & M2). rewrite E2. cbn [bind].
  destruct (holds_at _ _ _ _ Hh2) as (c & Ec). rewrite (load_ok _ _ _ Ec). cbn [bind]. rewrite (node_to_hash_cell _ _ _ _ _ Hh2 Ec), Et. cbn [bind].
  assert (E0' : at_ m2 (length m) = Some KNew) by (rewrite (moves_keep _ _ _ _ _ M2 (at_some_lt _ _ _ E0) NF); exact E0).
  rewrite (put_ok _ _ _ _ E0'). cbn [bind]. set (m3 := upd m2 (length m) _).
  assert (M3 : moves m2 [length m] m3 [length m]) by (eapply put_moves; [exact E0'|left; reflexivity]).
  destruct (holds_moves _ _ _ _ _ _ _ M3 Hh2 ltac:(intros x [<-|[]]; exact NF)) as [Hh3 _].
  destruct (node_destroy_all _ _ _ _ Hh3) as (m4 & E4 & M4). rewrite E4. cbn [bind]. exists (length m), m4, [length m]. split; [reflexivity|].
  assert (E3 : at_ m3 (length m) = Some (match out with NHash h w => KHash h w | _ => KNull end)) by (unfold m3; rewrite (at_put _ _ _ _ _ E0'), Nat.eqb_refl; reflexivity).
  assert (L3 : length m < length m3) by (eapply at_some_lt, E3).
  assert (E5 : at_ m4 (length m) = Some (match out with NHash h w => KHash h w | _ => KNull end)) by (rewrite (moves_keep _ _ _ _ _ M4 L3 NF); exact E3).
  split.
  - pose proof (node_to_hash_flat _ _ Et) as Fl. destruct out; try discriminate; constructor; exact E5.
  - eapply (moves_trans m _ m1 (length m :: F)); [|eapply (moves_trans m1 _ m2 (length m :: F)); [|eapply (moves_trans m2 _ m3 (length m :: F))]].
    + eapply (moves_part m [] m1 [length m] F); [exact M1|eapply holds_lt, Hh|intros ? []|clear; sets|clear; sets].
    + eapply (moves_part m1 F m2 F [length m]); [exact M2|intros x [<-|[]]; eapply at_some_lt, E0|intros x I [<-|[]]; contradiction|clear; sets|clear; sets].
    + eapply (moves_part m2 [length m] m3 [length m] F); [exact M3|eapply holds_lt, Hh2|intros x [<-|[]]; exact NF|clear; sets|clear; sets].
    + eapply (moves_part m3 F m4 [] [length m]); [exact M4|intros x [<-|[]]; exact L3|intros x I [<-|[]]; contradiction|clear; sets|clear; sets].
Qed.

(** A parent cell rewritten with the same children. *)
Lemma reput_int m a h w p la l Fl ra r Fr c h' w' : at_ m a = Some c -> holds m la l Fl -> holds m ra r Fr ->
  ~ In a Fl -> ~ In a Fr -> (forall x, In x Fl -> ~ In x Fr) -> h' = h -> w' = w ->
  holds (upd m a (Some (KInt h w p la ra))) a (NInt h' w' p l r) (a :: Fl ++ Fr).
Proof.
  intros E Hl Hr N1 N2 D -> ->. eapply hd_int; eauto.
  - rewrite (at_put _ _ _ _ _ E), Nat.eqb_refl. reflexivity.
  - eapply holds_frame; [exact Hl|]. intros x I. rewrite (at_put _ _ _ _ _ E). destruct (Nat.eqb_spec x a) as [->|]; [contradiction|reflexivity].
  - eapply holds_frame; [exact Hr|]. intros x I. rewrite (at_put _ _ _ _ _ E). destruct (Nat.eqb_spec x a) as [->|]; [contradiction|reflexivity].
Qed.

Lemma hwrite_node_int s m a h w p l r F n s' : holds m a (NInt h w p l r) F -> flatn l = true -> flatn r = true ->
  write_node s (NInt h w p l r) = Ok (n, s') ->
  exists m', hwrite_node s m a = Ok (s', m') /\ holds m' a n F /\ moves m F m' F.
Proof.
  intros Hh Nl Nr E. destruct (holds_int_inv _ _ _ _ _ _ _ _ Hh) as (la & Fl & ra & Fr & Ea & Hl & Hr & N1 & N2 & D & EF).
  unfold hwrite_node. rewrite (load_ok _ _ _ Ea). cbn [bind]. rewrite (holds_child _ _ _ _ Hl Nl), (holds_child _ _ _ _ Hr Nr). cbn [bind].
  rewrite E. cbn [bind]. rewrite (put_ok _ _ _ _ Ea). cbn [bind]. eexists. split; [reflexivity|].
  assert (En : exists w', n = NInt h w' p l r).
  { revert E. unfold write_node. destruct (node_write _) as [raw|e| | |]; cbn [bind]; try discriminate. destruct w; [discriminate|].
    destruct (slab_write _ _) as [sl|e| | |]; cbn [bind]; try discriminate. intros E. apply Ok_inj in E. injection E as <- _. eauto. }
  destruct En as (w' & ->). cbn [written]. split.
  - rewrite EF. eapply reput_int; eauto.
  - eapply put_moves; [exact Ea|]. rewrite EF. left. reflexivity.
Qed.
Lemma reput_leaf m a h w k v vp F h' w' vp' q : holds m a (NLeaf h w k v vp) F -> at_ m a = Some (KLeaf h w k q vp) ->
  holds (upd m a (Some (KLeaf h' w' k q vp'))) a (NLeaf h' w' k v vp') F /\ moves m F (upd m a (Some (KLeaf h' w' k q vp'))) F.
Proof.
  intros Hh Ea. destruct (holds_leaf_inv _ _ _ _ _ _ _ _ Hh) as (q' & Ea' & Q). rewrite Ea in Ea'. injection Ea' as <-.
  split; [|eapply put_moves; [exact Ea|eapply holds_self, Hh]].
  destruct v as [v|], q as [q|]; try contradiction.
  - destruct Q as (Eq & -> & Na). eapply hd_leafv; rewrite (at_put _ _ _ _ _ Ea).
    + rewrite Nat.eqb_refl. reflexivity.
    + destruct (Nat.eqb_spec q a); [congruence|exact Eq].
  - subst F. apply hd_leaf. rewrite (at_put _ _ _ _ _ Ea), Nat.eqb_refl. reflexivity.
Qed.
Lemma hwrite_node_leaf s m a h w k v vp F n s' : holds m a (NLeaf h w k v vp) F ->
  write_node s (NLeaf h w k v vp) = Ok (n, s') ->
  exists m' w', hwrite_node s m a = Ok (s', m') /\ n = NLeaf h w' k v vp /\ holds m' a n F /\ moves m F m' F.
Proof.
  intros Hh E. destruct (holds_leaf_inv _ _ _ _ _ _ _ _ Hh) as (q & Ea & _). unfold hwrite_node. rewrite (load_ok _ _ _ Ea). cbn [bind].
  assert (En : exists w', n = NLeaf h w' k v vp /\ write_node s (NLeaf h w k None vp) = Ok (NLeaf h w' k None vp, s')).
  { revert E. unfold write_node. cbn [node_write]. destruct vp as [vp|]; cbn [bind]; try discriminate. destruct w; [discriminate|].
    destruct (slab_write _ _) as [sl|e| | |]; cbn [bind]; try discriminate. intros E. apply Ok_inj in E. injection E as <- <-. eauto. }
  destruct En as (w' & -> & E'). rewrite E'. cbn [bind written]. rewrite (put_ok _ _ _ _ Ea). cbn [bind]. exists (upd m a (Some (KLeaf h w' k q vp))), w'.
  split; [reflexivity|]. split; [reflexivity|]. eapply reput_leaf; eassumption.
Qed.
Lemma hwrite_value_ok s m a h w k v vp F n s' : holds m a (NLeaf h w k v vp) F ->
  write_value s (NLeaf h w k v vp) = Ok (n, s') ->
  exists m' vp', hwrite_value s m a = Ok (s', m') /\ n = NLeaf h w k v vp' /\ holds m' a n F /\ moves m F m' F.
Proof.
  intros Hh E. destruct (holds_leaf_inv _ _ _ _ _ _ _ _ Hh) as (q & Ea & Q). unfold hwrite_value. rewrite (load_ok _ _ _ Ea). cbn [bind].
  destruct v as [v|]; [|discriminate]. destruct vp as [vp|]; [discriminate|]. destruct q as [q|]; [|contradiction]. destruct Q as (Eq & _).
  rewrite (load_ok _ _ _ Eq). cbn [bind].
  assert (En : exists vp', n = NLeaf h w k (Some v) vp' /\ write_value s (NLeaf h w k (Some v) None) = Ok (n, s')).
  { split with (x := match n with NLeaf _ _ _ _ vp => vp | _ => None end). split; [|exact E]. revert E. unfold write_value.
    destruct (slab_write _ _) as [sl|e| | |]; cbn [bind]; try discriminate. intros E. apply Ok_inj in E. injection E as <- _. reflexivity. }
  destruct En as (vp' & -> & E'). rewrite E'. cbn [bind]. rewrite (put_ok _ _ _ _ Ea). cbn [bind]. exists (upd m a (Some (KLeaf h w k (Some q) vp'))), vp'.
  split; [reflexivity|]. split; [reflexivity|]. eapply reput_leaf; eassumption.
Qed.

Lemma tree_write_flat n : forall s n' s', tree_write H s n = Ok (Some n', s') -> flatn n' = true.
Proof.
  induction n as [|h w p l IHl r IHr|h w k v vp|h w]; intros s n' s'; cbn [tree_write].
  - intros E. apply Ok_inj in E. injection E as <- _. reflexivity.
  - destruct (tree_write H s l) as [[[l'|] s1]|e| | |]; cbn [bind]; try discriminate.
    destruct (tree_write H s1 r) as [[[r'|] s2]|e| | |]; cbn [bind]; try discriminate.
    match goal with |- context [bind ?x _] => destruct x as [[[n1 s3] ok]|e| | |]; cbn [bind]; try discriminate end.
    destruct ok; cbn [negb]; [|discriminate]. destruct (node_hash H n1) as [[h1 n2]|e| | |]; cbn [bind]; try discriminate.
    destruct (node_to_hash n2) as [o|e| | |] eqn:Et; cbn [bind]; try discriminate. intros E. apply Ok_inj in E. injection E as <- _. eapply node_to_hash_flat, Et.
  - match goal with |- context [bind ?x _] => destruct x as [[[n1 s3] ok]|e| | |]; cbn [bind]; try discriminate end.
    destruct ok; cbn [negb]; [|discriminate]. destruct (node_hash H n1) as [[h1 n2]|e| | |]; cbn [bind]; try discriminate.
    destruct (node_to_hash n2) as [o|e| | |] eqn:Et; cbn [bind]; try discriminate. intros E. apply Ok_inj in E. injection E as <- _. eapply node_to_hash_flat, Et.
  - intros E. apply Ok_inj in E. injection E as <- _. reflexivity.
Qed.

(** What urkel_tree_write leaves behind. *)
Definition wrote (r : res (option node * store)) (m : heap) (a : loc) (F : list loc) (hr : res (option loc * store * heap)) : Prop :=
  match r with
  | Ok (Some n', s') => exists a' m' F', hr = Ok (Some a', s', m') /\ holds m' a' n' F' /\ moves m F m' F'
  | Ok (None, s') => exists n' m' F', hr = Ok (None, s', m') /\ holds m' a n' F' /\ moves m F m' F'
  | _ => True
  end.

(** The end of both branches. *)
Lemma finish_ok m0 F0 m a n F (ok : bool) s : holds m a n F -> moves m0 F0 m F ->
  wrote (if negb ok then Ok (None, s) else
         let! (_, n) := node_hash H n in let! out := node_to_hash n in Ok (Some out, s)) m0 a F0
        (if negb ok then Ok (None, s, m) else let! (out, m) := hreplace H m a in Ok (Some out, s, m)).
Proof.
  intros Hh M. destruct ok; cbn [negb].
  - destruct (node_hash H n) as [[h n1]|e| | |] eqn:Eh; cbn [bind wrote]; try exact I.
    destruct (node_to_hash n1) as [out|e| | |] eqn:Et; cbn [bind wrote]; try exact I.
    destruct (hreplace_ok _ _ _ _ _ _ _ Hh Eh Et) as (b & m' & F' & E & Hb & M'). rewrite E. cbn [bind]. exists b, m', F'. split; [reflexivity|]. split; [exact Hb|].
    eapply moves_trans; eassumption.
  - cbn [wrote]. exists n, m, F. auto.
Qed.

Lemma hwrite_ok fuel : forall s m a n F, holds m a n F -> length F <= fuel -> wrote (tree_write H s n) m a F (hwrite H fuel s m a).
Proof.
  induction fuel as [|fuel IH]; intros s m a n F Hh L.
  { pose proof (holds_self _ _ _ _ Hh) as I. destruct F; [contradiction|cbn [length] in L; lia]. }
  cbn [hwrite]. destruct n as [|h w p l r|h w k v vp|h w]; cbn [tree_write].
  - destruct (holds_null_inv _ _ _ Hh) as [Ea _]. rewrite (load_ok _ _ _ Ea). cbn [bind wrote]. exists a, m, F. split; [reflexivity|]. split; [exact Hh|apply moves_refl].
  - destruct (holds_int_inv _ _ _ _ _ _ _ _ Hh) as (la & Fl & ra & Fr & Ea & Hl & Hr & N1 & N2 & D & EF).
    rewrite (load_ok _ _ _ Ea). cbn [bind]. assert (La : a < length m) by (eapply at_some_lt, Ea).
    assert (LL : length Fl + length Fr <= fuel) by (rewrite EF in L; cbn [length] in L; rewrite app_length in L; lia).
    assert (LFl : forall x, In x Fl -> x < length m) by (eapply holds_lt, Hl). assert (LFr : forall x, In x Fr -> x < length m) by (eapply holds_lt, Hr).
    pose proof (IH s m la l Fl Hl ltac:(lia)) as W1. destruct (tree_write H s l) as [[[l'|] s1]|e| | |] eqn:El; cbn [bind wrote] in *; try exact I.
    2:{ destruct W1 as (n' & m1 & Fl' & E1 & Hl1 & M1). rewrite E1. cbn [bind].
        destruct (holds_moves _ _ _ _ _ _ _ M1 Hr D) as [Hr1 D1].
        assert (Ea1 : at_ m1 a = Some (KInt h w p la ra)) by (rewrite (moves_keep _ _ _ _ a M1 La N1); exact Ea).
        exists (NInt h w p n' r), m1, (a :: Fl' ++ Fr). split; [reflexivity|]. split; [eapply hd_int; eauto; eapply moves_avoid; eassumption|].
        eapply (moves_part m Fl m1 Fl' (a :: Fr)); [exact M1| | |rewrite EF; clear; sets|clear; sets].
        - intros x [<-|I1]; auto.
        - intros x I1 [<-|I2]; [contradiction|exact (D x I1 I2)]. }
    destruct W1 as (la' & m1 & Fl' & E1 & Hl1 & M1). rewrite E1. cbn [bind].
    pose proof (tree_write_flat _ _ _ _ El) as Nl.
    destruct (holds_moves _ _ _ _ _ _ _ M1 Hr D) as [Hr1 D1].
    assert (Ea1 : at_ m1 a = Some (KInt h w p la ra)) by (rewrite (moves_keep _ _ _ _ a M1 La N1); exact Ea).
    assert (NaL : ~ In a Fl') by (eapply moves_avoid; eassumption).
    rewrite (put_ok _ _ _ _ Ea1). cbn [bind]. set (m2 := upd m1 a (Some (KInt h w p la' ra))).
    assert (M2 : moves m1 [a] m2 [a]) by (eapply put_moves; [exact Ea1|left; reflexivity]).
    assert (Ea2 : at_ m2 a = Some (KInt h w p la' ra)) by (unfold m2; rewrite (at_put _ _ _ _ _ Ea1), Nat.eqb_refl; reflexivity).
    destruct (holds_moves _ _ _ _ _ _ _ M2 Hr1 ltac:(intros x [<-|[]]; exact N2)) as [Hr2 _].
    destruct (holds_moves _ _ _ _ _ _ _ M2 Hl1 ltac:(intros x [<-|[]]; exact NaL)) as [Hl2 _].
    assert (La2 : a < length m2) by (eapply at_some_lt, Ea2).
    assert (MA : moves m F m2 (a :: Fl' ++ Fr)).
    { eapply (moves_trans m _ m1 (a :: Fl' ++ Fr)).
      - eapply (moves_part m Fl m1 Fl' (a :: Fr)); [exact M1| | |rewrite EF; clear; sets|clear; sets].
        + intros x [<-|I1]; auto.
        + intros x I1 [<-|I2]; [contradiction|exact (D x I1 I2)].
      - eapply (moves_part m1 [a] m2 [a] (Fl' ++ Fr)); [exact M2| | |clear; sets|clear; sets].
        + intros x. rewrite in_app_iff. intros [I1|I1]; eapply holds_lt; [exact Hl1|exact I1|exact Hr1|exact I1].
        + intros x [<-|[]]. rewrite in_app_iff. tauto. }
    pose proof (IH s1 m2 ra r Fr Hr2 ltac:(lia)) as W2. destruct (tree_write H s1 r) as [[[r'|] s2]|e| | |] eqn:Er; cbn [bind wrote] in *; try exact I.
    2:{ destruct W2 as (n' & m3 & Fr' & E3 & Hr3 & M3). rewrite E3. cbn [bind].
        destruct (holds_moves _ _ _ _ _ _ _ M3 Hl2 ltac:(intros x I1 I2; exact (D1 x I2 I1))) as [Hl3 D3].
        assert (Ea3 : at_ m3 a = Some (KInt h w p la' ra)) by (rewrite (moves_keep _ _ _ _ a M3 La2 N2); exact Ea2).
        exists (NInt h w p l' n'), m3, (a :: Fl' ++ Fr'). split; [reflexivity|]. split.
        - eapply hd_int; eauto; [eapply moves_avoid; eassumption|intros x I1 I2; exact (D3 x I2 I1)].
        - eapply moves_trans; [exact MA|]. eapply (moves_part m2 Fr m3 Fr' (a :: Fl')); [exact M3| | |clear; sets|clear; sets].
          + intros x [<-|I1]; [exact La2|eapply holds_lt; [exact Hl2|exact I1]].
          + intros x I1 [<-|I2]; [contradiction|exact (D1 x I2 I1)]. }
    destruct W2 as (ra' & m3 & Fr' & E3 & Hr3 & M3). rewrite E3. cbn [bind].
    pose proof (tree_write_flat _ _ _ _ Er) as Nr.
    destruct (holds_moves _ _ _ _ _ _ _ M3 Hl2 ltac:(intros x I1 I2; exact (D1 x I2 I1))) as [Hl3 D3].
    assert (Ea3 : at_ m3 a = Some (KInt h w p la' ra)) by (rewrite (moves_keep _ _ _ _ a M3 La2 N2); exact Ea2).
    assert (NaR : ~ In a Fr') by (eapply moves_avoid; eassumption).
    rewrite (put_ok _ _ _ _ Ea3). cbn [bind]. set (m4 := upd m3 a (Some (KInt h w p la' ra'))).
    assert (H4 : holds m4 a (NInt h w p l' r') (a :: Fl' ++ Fr')).
    { eapply reput_int; eauto. intros x I1 I2. exact (D3 x I2 I1). }
    assert (MB : moves m F m4 (a :: Fl' ++ Fr')).
    { eapply moves_trans; [exact MA|]. eapply (moves_trans m2 _ m3 (a :: Fl' ++ Fr')).
      - eapply (moves_part m2 Fr m3 Fr' (a :: Fl')); [exact M3| | |clear; sets|clear; sets].
        + intros x [<-|I1]; [exact La2|eapply holds_lt; [exact Hl2|exact I1]].
        + intros x I1 [<-|I2]; [contradiction|exact (D1 x I2 I1)].
      - eapply put_moves; [exact Ea3|left; reflexivity]. }
    destruct w as [w|].
    + cbn [bind]. exact (finish_ok m F m4 a (NInt h (Some w) p l' r') _ true s2 H4 MB).
    + destruct (write_node s2 (NInt h None p l' r')) as [[n1 s3]|e| | |] eqn:Ew; cbn [bind]; try exact I.
      destruct (hwrite_node_int _ _ _ _ _ _ _ _ _ _ _ H4 Nl Nr Ew) as (m5 & E5 & H5 & M5). rewrite E5. cbn [bind].
      assert (MC : moves m F m5 (a :: Fl' ++ Fr')) by (eapply moves_trans; eassumption).
      destruct (needs_flush s3); cbn [bind].
      * destruct (store_flush s3) as [[ok s4]|e| | |]; cbn [bind]; try exact I. exact (finish_ok m F m5 a n1 _ ok s4 H5 MC).
      * exact (finish_ok m F m5 a n1 _ true s3 H5 MC).
  - destruct (holds_leaf_inv _ _ _ _ _ _ _ _ Hh) as (q & Ea & _). rewrite (load_ok _ _ _ Ea). cbn [bind]. destruct w as [w|].
    + cbn [bind]. exact (finish_ok m F m a _ F true s Hh (moves_refl _ _)).
    + destruct (write_value s (NLeaf h None k v vp)) as [[n1 s1]|e| | |] eqn:Ev; cbn [bind]; try exact I.
      destruct (hwrite_value_ok _ _ _ _ _ _ _ _ _ _ _ Hh Ev) as (m1 & vp' & E1 & -> & H1 & M1). rewrite E1. cbn [bind].
      destruct (write_node s1 (NLeaf h None k v vp')) as [[n2 s2]|e| | |] eqn:Ew; cbn [bind]; try exact I.
      destruct (hwrite_node_leaf _ _ _ _ _ _ _ _ _ _ _ H1 Ew) as (m2 & w' & E2 & -> & H2 & M2). rewrite E2. cbn [bind].
      assert (MC : moves m F m2 F) by (eapply moves_trans; eassumption).
      destruct (needs_flush s2); cbn [bind].
      * destruct (store_flush s2) as [[ok s4]|e| | |]; cbn [bind]; try exact I. exact (finish_ok m F m2 a _ _ ok s4 H2 MC).
      * exact (finish_ok m F m2 a _ _ true s2 H2 MC).
  - destruct (holds_hash_inv _ _ _ _ _ Hh) as [Ea _]. rewrite (load_ok _ _ _ Ea). cbn [bind wrote]. exists a, m, F. split; [reflexivity|]. split; [exact Hh|apply moves_refl].
Qed.

Variable C : bytes -> bytes -> bytes.
Lemma hcommit_ok s m a n F : holds m a n F ->
  match tree_commit H C s n with
  | Ok (Some root, s') => exists a' m' F', hcommit H C s m a = Ok (Some (a', hash_field root), s', m') /\ holds m' a' root F' /\ moves m F m' F' /\ flatn root = true
  | Ok (None, s') => exists m', hcommit H C s m a = Ok (None, s', m') /\ moves m F m' [] /\ (In a F -> at_ m' a = None)
  | _ => True
  end.
Proof.
  intros Hh. unfold tree_commit, hcommit. pose proof (holds_size _ _ _ _ Hh) as Sz.
  pose proof (hwrite_ok (S (length m)) s m a n F Hh ltac:(lia)) as W. destruct (tree_write H s n) as [[[root|] s1]|e| | |] eqn:Ew; cbn [bind wrote] in *; try exact I.
  - destruct W as (b & m1 & Fb & E1 & Hb & M1). rewrite E1. cbn [bind]. pose proof (tree_write_flat _ _ _ _ Ew) as Nf.
    rewrite (holds_child _ _ _ _ Hb Nf). cbn [bind]. destruct (store_commit C s1 root) as [[ok s2]|e| | |]; cbn [bind]; try exact I.
    destruct ok.
    + exists b, m1, Fb. auto.
    + destruct (node_destroy_one m1 b root Fb false Hb ltac:(destruct root; try discriminate; reflexivity)) as (m2 & E2 & M2). rewrite E2. cbn [bind].
      exists m2. split; [reflexivity|]. assert (M : moves m F m2 []) by (eapply moves_trans; eassumption). split; [exact M|]. intros I1. apply M; [exact I1|intros []].
  - destruct W as (n' & m1 & Fb & E1 & Hb & M1). rewrite E1. cbn [bind].
    destruct (node_destroy_all _ _ _ _ Hb) as (m2 & E2 & M2). rewrite E2. cbn [bind]. exists m2. split; [reflexivity|].
    assert (M : moves m F m2 []) by (eapply moves_trans; eassumption). split; [exact M|]. intros I1. apply M; [exact I1|intros []].
Qed.
End Write.

(** ** Root nodes kept by the store are empty or hash nodes *)
Definition fkeep (s s' : store) : Prop := st_state s' = st_state s /\ st_cache s' = st_cache s.
Definition flat_store (s : store) : Prop :=
  flatn (m_node (st_state s)) = true /\ forall h n, cache_lookup (st_cache s) h = Some n -> flatn n = true.
Lemma fkeep_refl s : fkeep s s. Proof. split; reflexivity. Qed.
Lemma fkeep_trans a b c : fkeep a b -> fkeep b c -> fkeep a c.
Proof. intros [A1 A2] [B1 B2]. split; congruence. Qed.
Lemma flat_keep s s' : flat_store s -> fkeep s s' -> flat_store s'.
Proof. intros [A B] [K1 K2]. split; [rewrite K1; exact A|rewrite K2; exact B]. Qed.

Lemma file_write_keep s f x b s' : file_write s f x = (b, s') -> fkeep s s'.
Proof. unfold file_write. destruct x; [intros [= _ <-]; apply fkeep_refl|]. destruct f; intros [= _ <-]; split; reflexivity. Qed.
Lemma store_write_keep s x b s' : store_write s x = Ok (b, s') -> fkeep s s'.
Proof.
  unfold store_write. set (s0 := set_io s (tl (st_io s))). assert (K0 : fkeep s s0) by (split; reflexivity). clearbody s0.
  destruct (_ <? _)%N.
  - intros E. eapply fkeep_trans; [exact K0|]. revert E.
    destruct (match st_io s with [] => WOk | x :: _ => x end) eqn:Ef; unfold check;
      repeat match goal with |- context [if ?b then _ else _] => destruct b end; try discriminate;
      intros E; apply Ok_inj in E; first [injection E as _ <-; split; reflexivity | apply file_write_keep in E; eapply fkeep_trans; [|exact E]; split; reflexivity].
  - intros E. apply Ok_inj in E. apply file_write_keep in E. eapply fkeep_trans; eassumption.
Qed.
Lemma flush_loop_keep ch : forall s i x r s', flush_loop s i ch x = Ok (r, s') -> fkeep s s'.
Proof.
  induction ch as [|n ch IH]; intros s i x r s'; cbn [flush_loop].
  - intros E. apply Ok_inj in E. injection E as _ <-. apply fkeep_refl.
  - destruct (store_write s (firstn n x)) as [[ok s1]|e| | |] eqn:E1; cbn [bind]; try discriminate. apply store_write_keep in E1.
    destruct ok; intros E; [apply IH in E; eapply fkeep_trans; eassumption|apply Ok_inj in E; injection E as _ <-; exact E1].
Qed.
Lemma store_flush_keep s b s' : store_flush s = Ok (b, s') -> fkeep s s'.
Proof.
  unfold store_flush. destruct (flush_loop s _ _ _) as [[r s1]|e| | |] eqn:E1; cbn [bind]; try discriminate. apply flush_loop_keep in E1.
  destruct r; intros E; apply Ok_inj in E; injection E as _ <-; (eapply fkeep_trans; [exact E1|split; reflexivity]).
Qed.
Lemma write_node_keep s n n' s' : write_node s n = Ok (n', s') -> fkeep s s'.
Proof.
  unfold write_node. destruct (node_write n) as [raw|e| | |]; cbn [bind]; try discriminate.
  destruct n as [|h [w|] p l r|h [w|] k v vp|h w]; try discriminate; destruct (slab_write _ _) as [sl|e| | |]; cbn [bind]; try discriminate;
    intros E; apply Ok_inj in E; injection E as _ <-; split; reflexivity.
Qed.
Lemma write_value_keep s n n' s' : write_value s n = Ok (n', s') -> fkeep s s'.
Proof.
  unfold write_value. destruct n as [|h w p l r|h w k [v|] [vp|]|h w]; try discriminate.
  destruct (slab_write _ _) as [sl|e| | |]; cbn [bind]; try discriminate. intros E; apply Ok_inj in E; injection E as _ <-; split; reflexivity.
Qed.

Section Flat.
Variable H : bytes -> bytes.
Variable C : bytes -> bytes -> bytes.
Lemma tree_write_keep n : forall s r s', tree_write H s n = Ok (r, s') -> fkeep s s'.
Proof.
  assert (Fin : forall (n : node) (s : store) (ok : bool) r s', (if negb ok then Ok (None, s) else
         let! (_, n) := node_hash H n in let! out := node_to_hash n in Ok (Some out, s)) = Ok (r, s') -> s' = s).
  { clear n. intros n s ok r s'. destruct ok; cbn [negb]; [|intros E; apply Ok_inj in E; injection E as _ <-; reflexivity].
    destruct (node_hash H n) as [[h n1]|e| | |]; cbn [bind]; try discriminate. destruct (node_to_hash n1) as [o|e| | |]; cbn [bind]; try discriminate.
    intros E; apply Ok_inj in E; injection E as _ <-; reflexivity. }
  induction n as [|h w p l IHl r IHr|h w k v vp|h w]; intros s x s'; cbn [tree_write].
  - intros E. apply Ok_inj in E. injection E as _ <-. apply fkeep_refl.
  - destruct (tree_write H s l) as [[l' s1]|e| | |] eqn:El; cbn [bind]; try discriminate. apply IHl in El.
    destruct l' as [l'|]; [|intros E; apply Ok_inj in E; injection E as _ <-; exact El].
    destruct (tree_write H s1 r) as [[r' s2]|e| | |] eqn:Er; cbn [bind]; try discriminate. apply IHr in Er.
    assert (K2 : fkeep s s2) by (eapply fkeep_trans; eassumption).
    destruct r' as [r'|]; [|intros E; apply Ok_inj in E; injection E as _ <-; exact K2].
    destruct w as [w|]; cbn [bind]; [intros E; apply Fin in E; subst s'; exact K2|].
    destruct (write_node s2 _) as [[n1 s3]|e| | |] eqn:Ew; cbn [bind]; try discriminate. apply write_node_keep in Ew.
    assert (K3 : fkeep s s3) by (eapply fkeep_trans; eassumption).
    destruct (needs_flush s3); cbn [bind]; [|intros E; apply Fin in E; subst s'; exact K3].
    destruct (store_flush s3) as [[ok s4]|e| | |] eqn:Ef; cbn [bind]; try discriminate. apply store_flush_keep in Ef.
    intros E; apply Fin in E; subst s'. eapply fkeep_trans; eassumption.
  - destruct w as [w|]; cbn [bind]; [intros E; apply Fin in E; subst s'; apply fkeep_refl|].
    destruct (write_value s _) as [[n1 s1]|e| | |] eqn:Ev; cbn [bind]; try discriminate. apply write_value_keep in Ev.
    destruct (write_node s1 n1) as [[n2 s3]|e| | |] eqn:Ew; cbn [bind]; try discriminate. apply write_node_keep in Ew.
    assert (K3 : fkeep s s3) by (eapply fkeep_trans; eassumption).
    destruct (needs_flush s3); cbn [bind]; [|intros E; apply Fin in E; subst s'; exact K3].
    destruct (store_flush s3) as [[ok s4]|e| | |] eqn:Ef; cbn [bind]; try discriminate. apply store_flush_keep in Ef.
    intros E; apply Fin in E; subst s'. eapply fkeep_trans; eassumption.
  - intros E. apply Ok_inj in E. injection E as _ <-. apply fkeep_refl.
Qed.

Lemma cache_insert_flat c n c' : cache_insert c n = Ok c' -> (forall h x, cache_lookup c h = Some x -> flatn x = true) ->
  forall h x, cache_lookup c' h = Some x -> flatn x = true.
Proof.
  unfold cache_insert. destruct n as [| | |h0 w]; try discriminate. destruct (cache_lookup c h0); intros E; apply Ok_inj in E; subst c'; auto.
  intros A h x. cbn [cache_lookup]. destruct (bytes_eqb h0 h); [intros [= <-]; reflexivity|apply A].
Qed.
Lemma read_root_flat s p r s' : flat_store s -> read_root H s p = Ok (r, s') -> flat_store s' /\ forall n, r = Some n -> flatn n = true.
Proof.
  intros Fs. unfold read_root. destruct (pidx p =? 0)%N.
  { intros E. apply Ok_inj in E. injection E as <- <-. split; [exact Fs|]. intros n [= <-]. reflexivity. }
  destruct (read_node (st_rd s) p) as [[n|]|e| | |]; cbn [bind]; try discriminate.
  2:{ intros E. apply Ok_inj in E. injection E as <- <-. split; [exact Fs|]. intros n [=]. }
  match goal with |- context [bind ?x _] => destruct x as [[n1|]|e| | |]; cbn [bind]; try discriminate end.
  2:{ intros E. apply Ok_inj in E. injection E as <- <-. split; [exact Fs|]. intros n' [=]. }
  destruct (node_hash H n1) as [[h n2]|e| | |]; cbn [bind]; try discriminate.
  destruct (node_to_hash n2) as [out|e| | |] eqn:Et; cbn [bind]; try discriminate.
  destruct (cache_insert (st_cache s) out) as [c|e| | |] eqn:Ec; cbn [bind]; try discriminate.
  intros E. apply Ok_inj in E. injection E as <- <-. split; [|intros n' [= <-]; eapply node_to_hash_flat, Et].
  destruct Fs as [A B]. split; [exact A|]. exact (cache_insert_flat _ _ _ Ec B).
Qed.
Lemma history_loop_flat fuel : forall s h r s', flat_store s -> history_loop H C fuel s h = Ok (r, s') -> flat_store s' /\ forall n, r = Some n -> flatn n = true.
Proof.
  induction fuel as [|fuel IH]; intros s h r s' Fs; cbn [history_loop]; [discriminate|].
  destruct (pidx _ =? 0)%N.
  { intros E. apply Ok_inj in E. injection E as <- <-. split; [exact Fs|]. intros n [=]. }
  destruct (read_meta C s _) as [[m|]|e| | |]; cbn [bind]; try discriminate.
  2:{ intros E. apply Ok_inj in E. injection E as <- <-. split; [exact Fs|]. intros n [=]. }
  destruct (read_root H s (m_root m)) as [[r1 s1]|e| | |] eqn:Er; cbn [bind]; try discriminate. apply read_root_flat in Er; [|exact Fs]. destruct Er as [F1 R1].
  destruct r1 as [n|].
  2:{ intros E. apply Ok_inj in E. injection E as <- <-. split; [exact F1|]. intros n [=]. }
  assert (F2 : flat_store (set_last s1 m)) by exact F1.
  destruct (bytes_eqb _ _); [|apply IH, F2]. intros E. apply Ok_inj in E. injection E as <- <-. split; [exact F2|]. intros n' [= <-]. auto.
Qed.
Lemma read_history_flat s h r s' : flat_store s -> read_history H C s h = Ok (r, s') -> flat_store s' /\ forall n, r = Some n -> flatn n = true.
Proof.
  intros Fs. unfold read_history. destruct (bytes_eqb h zero_hash).
  { intros E. apply Ok_inj in E. injection E as <- <-. split; [exact Fs|]. intros n [= <-]. reflexivity. }
  destruct (bytes_eqb h _).
  { intros E. apply Ok_inj in E. injection E as <- <-. split; [exact Fs|]. intros n [= <-]. apply Fs. }
  destruct (cache_lookup (st_cache s) h) as [n|] eqn:Ec; [|apply history_loop_flat, Fs].
  intros E. apply Ok_inj in E. injection E as <- <-. split; [exact Fs|]. intros n' [= <-]. eapply Fs, Ec.
Qed.
Lemma store_commit_flat s n ok s' : flat_store s -> store_commit C s n = Ok (ok, s') -> flat_store s'.
Proof.
  intros Fs. unfold store_commit. destruct (write_meta C s n) as [[mt s1]|e| | |] eqn:Em; cbn [bind]; try discriminate.
  assert (X : fkeep s s1 /\ flatn (m_node mt) = true).
  { revert Em. unfold write_meta. destruct (written n) as [w|]; try discriminate. destruct (node_to_hash n) as [rn|e| | |] eqn:Et; cbn [bind]; try discriminate.
    match goal with |- context [bind ?x _] => destruct x as [sl|e| | |]; cbn [bind]; try discriminate end.
    match goal with |- context [bind ?x _] => destruct x as [sl2|e| | |]; cbn [bind]; try discriminate end.
    intros E. apply Ok_inj in E. injection E as <- <-. split; [split; reflexivity|]. cbn [m_node]. eapply node_to_hash_flat, Et. }
  destruct X as [K1 Fm]. clear Em.
  destruct (store_flush s1) as [[b s2]|e| | |] eqn:Ef; cbn [bind]; try discriminate. apply store_flush_keep in Ef.
  assert (F2 : flat_store s2) by (eapply flat_keep; [exact Fs|eapply fkeep_trans; eassumption]). clear Ef K1 Fs.
  destruct b; cbn [negb]; [|intros E; apply Ok_inj in E; injection E as _ <-; exact F2].
  assert (F3 : flat_store (set_state s2 mt)) by (split; [exact Fm|apply F2]). revert F3. generalize (set_state s2 mt). clear -H. intros s3 F3.
  assert (G : forall n, (let! c := cache_insert (st_cache s3) n in Ok (true, set_cache s3 c)) = Ok (ok, s') -> flat_store s').
  { intros n0. destruct (cache_insert (st_cache s3) n0) as [c|e| | |] eqn:Ec; cbn [bind]; try discriminate. intros E. apply Ok_inj in E. injection E as _ <-.
    split; [apply F3|]. exact (cache_insert_flat _ _ _ Ec (proj2 F3)). }
  destruct (m_node mt); [intros E; apply Ok_inj in E; injection E as _ <-; exact F3|apply G..].
Qed.
Lemma tree_commit_flat s n r s' : flat_store s -> tree_commit H C s n = Ok (r, s') -> flat_store s'.
Proof.
  intros Fs. unfold tree_commit. destruct (tree_write H s n) as [[r1 s1]|e| | |] eqn:Ew; cbn [bind]; try discriminate. apply tree_write_keep in Ew.
  assert (F1 : flat_store s1) by (eapply flat_keep; eassumption). destruct r1 as [root|]; [|intros E; apply Ok_inj in E; injection E as _ <-; exact F1].
  destruct (store_commit C s1 root) as [[ok s2]|e| | |] eqn:Ec; cbn [bind]; try discriminate. apply store_commit_flat in Ec; [|exact F1].
  destruct ok; intros E; apply Ok_inj in E; injection E as _ <-; exact Ec.
Qed.
Lemma recover_null key n : forall fs io fs' ops st last, recover C key n fs io = Ok (fs', ops, st, last) -> m_node st = NNull.
Proof.
  induction n as [|n IH]; intros fs io fs' ops st last; cbn [recover].
  - intros E. apply Ok_inj in E. injection E as <- <- <- <-. reflexivity.
  - match goal with |- context [bind ?x _] => destruct x as [[[m off]|]|e| | |]; cbn [bind]; try discriminate end.
    + intros E. apply Ok_inj in E. injection E as <- <- <- <-. reflexivity.
    + destruct (recover C key n _ _) as [[[[fs1 ops1] st1] m1]|e| | |] eqn:Er; cbn [bind]; try discriminate. apply IH in Er.
      intros E. apply Ok_inj in E. injection E as <- <- <- <-. exact Er.
Qed.
Lemma store_open_flat key fs io s : store_open H C key fs io = Ok (Some s) -> flat_store s.
Proof.
  unfold store_open. destruct (recover C key _ _ _) as [[[[fs1 ops1] st1] m1]|e| | |] eqn:Er; cbn [bind]; try discriminate. apply recover_null in Er.
  destruct (match fs1 with [] => _ | _ => _ end) as [fs2 ops2]. unfold check. destruct (_ <? _)%N; try discriminate.
  set (s0 := mkstore _ _ _ _ _ _ _ _ _ _). assert (F0 : flat_store s0) by (split; [cbn [s0 st_state]; rewrite Er; reflexivity|intros h n; cbn; discriminate]). clearbody s0.
  destruct (read_root H s0 (m_root st1)) as [[r s1]|e| | |] eqn:Err; cbn [bind]; try discriminate. apply read_root_flat in Err; [|exact F0]. destruct Err as [F1 R1].
  destruct r as [n|]; intros E; apply Ok_inj in E; [|discriminate]. injection E as <-. split; [apply R1; reflexivity|apply F1].
Qed.
End Flat.
