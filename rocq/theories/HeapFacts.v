(** * The functions of Heap.v do what those of Tree.v, Store.v, Db.v and Iter.v do. *)
From Verif Require Export Corrupt Heap.
From Coq Require Import ZifyBool ZifyNat ZifyN.

(** ** Addresses *)

Lemma at_upd m a c x : at_ (upd m a c) x = if (x =? a) && (a <? length m) then c else at_ m x.
Proof.
  unfold at_. revert a x. induction m as [|o m IH]; intros a x.
  - cbn [upd length]. change (a <? 0) with false. rewrite andb_false_r. reflexivity.
  - destruct a as [|a], x as [|x]; cbn [upd nth length]; try reflexivity.
    rewrite IH. reflexivity.
Qed.
Lemma at_some_lt m a c : at_ m a = Some c -> a < length m.
Proof. unfold at_. intros E. destruct (Nat.lt_ge_cases a (length m)) as [L|L]; [exact L|]. rewrite nth_overflow in E by exact L. discriminate. Qed.
Lemma at_ge m a : length m <= a -> at_ m a = None.
Proof. intros L. unfold at_. apply nth_overflow, L. Qed.
Lemma at_app m c x : at_ (m ++ [Some c]) x = if x =? length m then Some c else at_ m x.
Proof.
  unfold at_. destruct (Nat.eqb_spec x (length m)) as [->|N].
  - rewrite app_nth2, Nat.sub_diag by lia. reflexivity.
  - destruct (Nat.lt_ge_cases x (length m)); [apply app_nth1; assumption|].
    rewrite !nth_overflow; [reflexivity|lia|rewrite app_length; cbn [length]; lia].
Qed.

(** ** Ownership *)

(** The cell [a] and what it points to hold the node structure [n]; [F] lists their
    addresses, which are all different. *)
Inductive holds (m : heap) : loc -> node -> list loc -> Prop :=
| hd_null a : at_ m a = Some KNull -> holds m a NNull [a]
| hd_hash a h w : at_ m a = Some (KHash h w) -> holds m a (NHash h w) [a]
| hd_leaf a h w k vp : at_ m a = Some (KLeaf h w k None vp) -> holds m a (NLeaf h w k None vp) [a]
| hd_leafv a h w k q x vp :
    at_ m a = Some (KLeaf h w k (Some q) vp) -> at_ m q = Some (KVal x) -> holds m a (NLeaf h w k (Some x) vp) [a; q]
| hd_int a h w p la l Fl ra r Fr :
    at_ m a = Some (KInt h w p la ra) -> holds m la l Fl -> holds m ra r Fr ->
    ~ In a Fl -> ~ In a Fr -> (forall x, In x Fl -> ~ In x Fr) ->
    holds m a (NInt h w p l r) (a :: Fl ++ Fr).

(** From [m] to [m'] the cells [F] were given up and the cells [F'] obtained, and
    nothing else happened. *)
Record moves (m : heap) (F : list loc) (m' : heap) (F' : list loc) : Prop := mkmoves {
  mv_len : length m <= length m';
  mv_new : forall x, In x F' -> In x F \/ length m <= x;
  mv_gone : forall x, In x F -> ~ In x F' -> at_ m' x = None;
  mv_rest : forall x, ~ In x F -> ~ In x F' -> at_ m' x = at_ m x }.

Lemma holds_self m a n F : holds m a n F -> In a F.
Proof. destruct 1; left; reflexivity. Qed.
Lemma holds_at m a n F : holds m a n F -> exists c, at_ m a = Some c.
Proof. destruct 1; eauto. Qed.
Lemma holds_all m a n F : holds m a n F -> forall x, In x F -> exists c, at_ m x = Some c.
Proof.
  induction 1 as [a E|a h w E|a h w k vp E|a h w k q x vp E E2|a h w p la l Fl ra r Fr E Hl IHl Hr IHr N1 N2 D]; intros y I; cbn [In] in I; rewrite ?in_app_iff in I.
  - destruct I as [<-|[]]; eauto.
  - destruct I as [<-|[]]; eauto.
  - destruct I as [<-|[]]; eauto.
  - destruct I as [<-|[<-|[]]]; eauto.
  - destruct I as [<-|[I|I]]; eauto.
Qed.
Lemma holds_lt m a n F : holds m a n F -> forall x, In x F -> x < length m.
Proof. intros Hh x I. destruct (holds_all _ _ _ _ Hh x I) as (c & E). eapply at_some_lt, E. Qed.
Lemma holds_frame m m' a n F : holds m a n F -> (forall x, In x F -> at_ m' x = at_ m x) -> holds m' a n F.
Proof.
  induction 1 as [a E|a h w E|a h w k vp E|a h w k q x vp E E2|a h w p la l Fl ra r Fr E Hl IHl Hr IHr N1 N2 D]; intros Eq.
  - apply hd_null. rewrite Eq by (left; reflexivity). exact E.
  - apply hd_hash. rewrite Eq by (left; reflexivity). exact E.
  - apply hd_leaf. rewrite Eq by (left; reflexivity). exact E.
  - eapply hd_leafv; rewrite Eq; eauto; [left; reflexivity|right; left; reflexivity].
  - eapply hd_int; eauto.
    + rewrite Eq by (left; reflexivity). exact E.
    + apply IHl. intros x I. apply Eq. right. apply in_app_iff. auto.
    + apply IHr. intros x I. apply Eq. right. apply in_app_iff. auto.
Qed.
Lemma holds_nodup m a n F : holds m a n F -> NoDup F.
Proof.
  induction 1 as [a E|a h w E|a h w k vp E|a h w k q x vp E E2|a h w p la l Fl ra r Fr E Hl IHl Hr IHr N1 N2 D].
  1-3: repeat constructor; intros [].
  - constructor; [|repeat constructor; intros []]. intros [->|[]]. rewrite E in E2. discriminate.
  - constructor; [rewrite in_app_iff; tauto|].
    clear -IHl IHr D. induction IHl as [|x Fl N _ IH]; [exact IHr|]. cbn [app]. constructor.
    + rewrite in_app_iff. intros [I|I]; [auto|]. eapply D; [left; reflexivity|exact I].
    + apply IH. intros y I. apply D. right. exact I.
Qed.
Lemma NoDup_lt F n : NoDup F -> (forall x, In x F -> x < n) -> length F <= n.
Proof.
  intros N L. rewrite <- (seq_length n 0). apply NoDup_incl_length; [exact N|]. intros x I. apply in_seq. specialize (L x I). lia.
Qed.
Lemma holds_size m a n F : holds m a n F -> length F <= length m.
Proof. intros Hh. apply NoDup_lt; [eapply holds_nodup, Hh|eapply holds_lt, Hh]. Qed.

Lemma moves_refl m F : moves m F m F.
Proof. constructor; auto. intros x I N. contradiction. Qed.
Lemma moves_trans m F m1 F1 m2 F2 : moves m F m1 F1 -> moves m1 F1 m2 F2 -> moves m F m2 F2.
Proof.
  intros [L1 N1 G1 R1] [L2 N2 G2 R2]. constructor; [lia| | |].
  - intros x I. destruct (N2 x I) as [I1|I1]; [destruct (N1 x I1); auto|right; lia].
  - intros x I N. destruct (in_dec Nat.eq_dec x F1) as [I1|I1]; [apply G2; assumption|]. rewrite R2 by assumption. apply G1; assumption.
  - intros x I N. destruct (in_dec Nat.eq_dec x F1) as [I1|I1]; [|rewrite R2 by assumption; apply R1; assumption].
    rewrite G2 by assumption. symmetry. apply at_ge. destruct (N1 x I1); [contradiction|assumption].
Qed.
Lemma moves_frame m F m' F' G : moves m F m' F' -> (forall x, In x G -> x < length m) -> (forall x, In x F -> ~ In x G) ->
  moves m (F ++ G) m' (F' ++ G).
Proof.
  intros [L N Gn R] Lt D. constructor; [exact L| | |].
  - intros x I. rewrite in_app_iff in *. destruct I as [I|I]; [destruct (N x I)|]; auto.
  - intros x I Nx. rewrite in_app_iff in *. apply Gn; tauto.
  - intros x I Nx. rewrite in_app_iff in *. apply R; tauto.
Qed.
Lemma moves_keep m F m' F' x : moves m F m' F' -> x < length m -> ~ In x F -> at_ m' x = at_ m x.
Proof. intros [L N G R] Lt I. apply R; [exact I|]. intros I'. destruct (N x I'); [contradiction|lia]. Qed.
Lemma moves_avoid m F m' F' x : moves m F m' F' -> x < length m -> ~ In x F -> ~ In x F'.
Proof. intros [L N G R] Lt I I'. destruct (N x I'); [contradiction|lia]. Qed.
Lemma moves_set m F G m' F' G' : moves m F m' F' -> (forall x, In x F <-> In x G) -> (forall x, In x F' <-> In x G') -> moves m G m' G'.
Proof.
  intros [L N Gn R] E1 E2. constructor; [exact L| | |].
  - intros x I. rewrite <- E1. apply N. rewrite E2. exact I.
  - intros x. rewrite <- E1, <- E2. apply Gn.
  - intros x. rewrite <- E1, <- E2. apply R.
Qed.
Ltac sets := intros; cbn [In app]; repeat first [rewrite in_app_iff | progress cbn [In app]]; tauto.
(** What another owner has is untouched. *)
Lemma holds_moves m F m' F' b n G : moves m F m' F' -> holds m b n G -> (forall x, In x F -> ~ In x G) ->
  holds m' b n G /\ (forall x, In x F' -> ~ In x G).
Proof.
  intros M Hb D. split.
  - eapply holds_frame; [exact Hb|]. intros x I. eapply moves_keep; [exact M|eapply holds_lt; eassumption|]. intros I'. exact (D x I' I).
  - intros x I' I. eapply moves_avoid; [exact M|eapply holds_lt; [exact Hb|exact I]| |exact I']. intros I2. exact (D x I2 I).
Qed.

(** *** Allocation and release *)
Lemma alloc_moves m c : moves m [] (m ++ [Some c]) [length m].
Proof.
  constructor.
  - rewrite app_length. lia.
  - intros x [<-|[]]. right. lia.
  - intros x [].
  - intros x _ N. rewrite at_app. destruct (Nat.eqb_spec x (length m)) as [->|]; [|reflexivity]. destruct N. left. reflexivity.
Qed.
Lemma free_ok m a c : at_ m a = Some c -> free m a = Ok (upd m a None).
Proof. unfold free. intros ->. reflexivity. Qed.
Lemma load_ok m a c : at_ m a = Some c -> load m a = Ok c.
Proof. unfold load. intros ->. reflexivity. Qed.
Lemma put_ok m a c c' : at_ m a = Some c -> put m a c' = Ok (upd m a (Some c')).
Proof. unfold put. intros ->. reflexivity. Qed.
Lemma at_put m a c c' x : at_ m a = Some c -> at_ (upd m a c') x = if x =? a then c' else at_ m x.
Proof.
  intros E. rewrite at_upd. apply at_some_lt in E. destruct (Nat.ltb_spec a (length m)); [|lia]. rewrite andb_true_r. reflexivity.
Qed.
Lemma free_moves m a c F : at_ m a = Some c -> ~ In a F -> moves m (a :: F) (upd m a None) F.
Proof.
  intros E N. constructor.
  - rewrite upd_length. lia.
  - intros x I. left. right. exact I.
  - intros x I Nx. rewrite (at_put _ _ _ _ _ E). destruct (Nat.eqb_spec x a) as [->|D]; [reflexivity|]. destruct I as [I|I]; [congruence|contradiction].
  - intros x I Nx. rewrite (at_put _ _ _ _ _ E). destruct (Nat.eqb_spec x a) as [->|D]; [|reflexivity]. destruct I. left. reflexivity.
Qed.
Lemma put_moves m a c c' F : at_ m a = Some c -> In a F -> moves m F (upd m a (Some c')) F.
Proof.
  intros E I. constructor; auto.
  - rewrite upd_length. lia.
  - intros x I1 N1. contradiction.
  - intros x N _. rewrite (at_put _ _ _ _ _ E). destruct (Nat.eqb_spec x a) as [->|]; [contradiction|reflexivity].
Qed.

(** *** urkel_node_destroy *)
Definition isint (n : node) : bool := match n with NInt _ _ _ _ _ => true | _ => false end.
Lemma destroy_one m a n F fuel rc : holds m a n F -> isint n = false ->
  exists m', destroy_loop (S fuel) m a rc = Ok m' /\ moves m F m' [].
Proof.
  intros Hh Ni. destruct Hh as [a E|a h w E|a h w k vp E|a h w k q x vp E E2|a h w p la l Fl ra r Fr E Hl Hr N1 N2 D]; [..|discriminate];
    cbn [destroy_loop]; rewrite (load_ok _ _ _ E); cbn [bind].
  - rewrite (free_ok _ _ _ E). eexists. split; [reflexivity|]. eapply free_moves; [exact E|intros []].
  - rewrite (free_ok _ _ _ E). eexists. split; [reflexivity|]. eapply free_moves; [exact E|intros []].
  - rewrite (free_ok _ _ _ E). eexists. split; [reflexivity|]. eapply free_moves; [exact E|intros []].
  - rewrite (free_ok _ _ _ E2). cbn [bind]. assert (Na : q <> a) by (intros ->; rewrite E in E2; discriminate).
    assert (E' : at_ (upd m q None) a = Some (KLeaf h w k (Some q) vp)).
    { rewrite (at_put _ _ _ _ _ E2). destruct (Nat.eqb_spec a q); [congruence|exact E]. }
    rewrite (free_ok _ _ _ E'). eexists. split; [reflexivity|].
    eapply moves_trans; [|eapply free_moves; [exact E'|intros []]].
    eapply moves_set with (F := [q; a]) (F' := [a]); [eapply free_moves; [exact E2|intros [?|[]]; congruence]|intros y; cbn [In]; tauto|tauto].
Qed.
Lemma node_destroy_one m a n F rc : holds m a n F -> isint n = false ->
  exists m', node_destroy m a rc = Ok m' /\ moves m F m' [].
Proof. apply destroy_one. Qed.
Lemma node_destroy_int m a h w p l r : at_ m a = Some (KInt h w p l r) -> node_destroy m a false = Ok (upd m a None).
Proof. intros E. unfold node_destroy. cbn [destroy_loop]. rewrite (load_ok _ _ _ E). cbn [bind]. apply (free_ok _ _ _ E). Qed.
Lemma destroy_all fuel : forall m a n F, holds m a n F -> length F <= fuel ->
  exists m', destroy_loop fuel m a true = Ok m' /\ moves m F m' [].
Proof.
  induction fuel as [|fuel IH]; intros m a n F Hh L.
  { pose proof (holds_self _ _ _ _ Hh) as I. destruct F; [contradiction|cbn [length] in L; lia]. }
  destruct Hh as [a E|a h w E|a h w k vp E|a h w k q x vp E E2|a h w p la l Fl ra r Fr E Hl Hr N1 N2 D].
  1-4: eapply destroy_one; [econstructor; eassumption|reflexivity].
  cbn [destroy_loop]. rewrite (load_ok _ _ _ E). cbn [bind]. cbn [length] in L. rewrite app_length in L.
  destruct (IH m la l Fl Hl ltac:(lia)) as (m1 & E1 & M1). rewrite E1. cbn [bind].
  destruct (holds_moves _ _ _ _ _ _ _ M1 Hr D) as [Hr1 _].
  destruct (IH m1 ra r Fr Hr1 ltac:(lia)) as (m2 & E2 & M2). rewrite E2. cbn [bind].
  assert (Ea : at_ m2 a = Some (KInt h w p la ra)).
  { rewrite (moves_keep _ _ _ _ a M2); [rewrite (moves_keep _ _ _ _ a M1); [exact E|eapply at_some_lt, E|exact N1]| |exact N2].
    destruct M1 as [L1 _ _ _]. apply at_some_lt in E. lia. }
  rewrite (free_ok _ _ _ Ea). eexists. split; [reflexivity|].
  assert (LFr : forall x, In x Fr -> x < length m) by (eapply holds_lt, Hr).
  assert (La : a < length m) by (eapply at_some_lt, E).
  pose proof (moves_frame m Fl m1 [] (a :: Fr) M1 ltac:(intros x [<-|I]; auto) ltac:(intros x I [->|I']; [contradiction|exact (D x I I')])) as T1.
  pose proof (moves_frame m1 Fr m2 [] [a] M2 ltac:(intros x [<-|[]]; destruct M1; lia) ltac:(intros x I [->|[]]; contradiction)) as T2.
  pose proof (free_moves m2 a _ [] Ea ltac:(intros [])) as T3.
  eapply (moves_trans m _ m1 (Fr ++ [a])); [eapply moves_set; [exact T1| |]; clear; sets|].
  eapply moves_trans; [exact T2|exact T3].
Qed.
Lemma node_destroy_all m a n F : holds m a n F -> exists m', node_destroy m a true = Ok m' /\ moves m F m' [].
Proof. intros Hh. eapply destroy_all; [exact Hh|]. pose proof (holds_size _ _ _ _ Hh). lia. Qed.

(** *** Creating nodes *)
Section WithH.
Variable H : bytes -> bytes.
Lemma create_leaf_ok m k v : exists a m' F, hcreate_leaf H m k v = Ok (a, m') /\ holds m' a (create_leaf H k v) F /\ moves m [] m' F.
Proof.
  unfold hcreate_leaf, alloc. set (m1 := m ++ [Some KNew]). set (m2 := m1 ++ [Some (KVal v)]).
  assert (E1 : at_ m2 (length m) = Some KNew).
  { unfold m2, m1. rewrite at_app, app_length. cbn [length]. destruct (Nat.eqb_spec (length m) (length m + 1)); [lia|]. rewrite at_app, Nat.eqb_refl. reflexivity. }
  assert (E2 : at_ m2 (length m1) = Some (KVal v)) by (unfold m2; rewrite at_app, Nat.eqb_refl; reflexivity).
  rewrite (put_ok _ _ _ _ E1). cbn [bind]. eexists _, _, [length m; length m1]. split; [reflexivity|].
  assert (L1 : length m1 = length m + 1) by (unfold m1; rewrite app_length; reflexivity). split.
  - eapply hd_leafv.
    + rewrite (at_put _ _ _ _ _ E1), Nat.eqb_refl. reflexivity.
    + rewrite (at_put _ _ _ _ _ E1). destruct (Nat.eqb_spec (length m1) (length m)); [lia|]. exact E2.
  - eapply moves_trans; [|eapply put_moves; [exact E1|left; reflexivity]].
    eapply moves_trans; [apply (alloc_moves m KNew)|].
    eapply moves_set; [eapply (moves_frame m1 [] m2 [length m1] [length m])|..].
    + apply alloc_moves.
    + intros x [<-|[]]. lia.
    + intros x [].
    + reflexivity.
    + intros x. cbn [In app]. tauto.
Qed.
Lemma create_internal_ok m p x nx Fx y ny Fy bit : holds m x nx Fx -> holds m y ny Fy -> (forall z, In z Fx -> ~ In z Fy) ->
  exists a m' F, hcreate_internal m p x y bit = (a, m') /\ holds m' a (create_internal p nx ny bit) F /\ moves m (Fx ++ Fy) m' F /\
    (forall z, In z F <-> z = length m \/ In z Fx \/ In z Fy).
Proof.
  intros Hx Hy D. unfold hcreate_internal, alloc. set (m' := m ++ [Some _]).
  assert (M : moves m [] m' [length m]) by apply alloc_moves.
  assert (Hx' : holds m' x nx Fx) by (eapply holds_moves; [exact M|exact Hx|intros ? []]).
  assert (Hy' : holds m' y ny Fy) by (eapply holds_moves; [exact M|exact Hy|intros ? []]).
  assert (Lx : ~ In (length m) Fx) by (intros I; pose proof (holds_lt _ _ _ _ Hx _ I); lia).
  assert (Ly : ~ In (length m) Fy) by (intros I; pose proof (holds_lt _ _ _ _ Hy _ I); lia).
  assert (Ea : at_ m' (length m) = Some (KInt None None p (if bit then y else x) (if bit then x else y))) by (unfold m'; rewrite at_app, Nat.eqb_refl; reflexivity).
  assert (M' : moves m (Fx ++ Fy) m' (length m :: Fx ++ Fy)).
  { eapply moves_set; [eapply (moves_frame m [] m' [length m] (Fx ++ Fy) M)|..].
    - intros z I. rewrite in_app_iff in I. destruct I; [eapply (holds_lt _ _ _ _ Hx)|eapply (holds_lt _ _ _ _ Hy)]; assumption.
    - intros z [].
    - reflexivity.
    - reflexivity. }
  destruct bit; eexists _, _, _; (split; [reflexivity|]); (split; [unfold create_internal; eapply hd_int; eauto|]).
  - intros z I1 I2. exact (D z I2 I1).
  - split; [eapply moves_set; [exact M'|reflexivity|]|]; intros z; cbn [In]; rewrite !in_app_iff; intuition.
  - split; [exact M'|]; intros z; cbn [In]; rewrite !in_app_iff; intuition.
Qed.

(** *** Taking a node apart and putting it together *)
Lemma holds_null_inv m a F : holds m a NNull F -> at_ m a = Some KNull /\ F = [a].
Proof. intros Hh. remember NNull as n eqn:En. destruct Hh; try discriminate. auto. Qed.
Lemma holds_hash_inv m a h w F : holds m a (NHash h w) F -> at_ m a = Some (KHash h w) /\ F = [a].
Proof. intros Hh. remember (NHash h w) as n eqn:En. destruct Hh; try discriminate. injection En as <- <-. auto. Qed.
Lemma holds_leaf_inv m a h w k v vp F : holds m a (NLeaf h w k v vp) F ->
  exists q, at_ m a = Some (KLeaf h w k q vp) /\
    match v, q with
    | None, None => F = [a]
    | Some x, Some q => at_ m q = Some (KVal x) /\ F = [a; q] /\ a <> q
    | _, _ => False
    end.
Proof.
  intros Hh. remember (NLeaf h w k v vp) as n eqn:En. destruct Hh as [| |a h' w' k' vp' E|a h' w' k' q x vp' E E2|]; try discriminate; injection En as -> -> -> <- ->.
  - exists None. auto.
  - exists (Some q). split; [exact E|]. split; [exact E2|]. split; [reflexivity|]. intros ->. rewrite E in E2. discriminate.
Qed.
Lemma holds_int_inv m a h w p l r F : holds m a (NInt h w p l r) F ->
  exists la Fl ra Fr, at_ m a = Some (KInt h w p la ra) /\ holds m la l Fl /\ holds m ra r Fr /\
    ~ In a Fl /\ ~ In a Fr /\ (forall x, In x Fl -> ~ In x Fr) /\ F = a :: Fl ++ Fr.
Proof.
  intros Hh. remember (NInt h w p l r) as n eqn:En. destruct Hh as [| | | |a h' w' p' la l' Fl ra r' Fr E Hl Hr N1 N2 D]; try discriminate.
  injection En as -> -> -> -> ->. exists la, Fl, ra, Fr. auto 10.
Qed.
(** The child a key leads to and the other one. *)
Lemma holds_sides m a h w p l r F : holds m a (NInt h w p l r) F ->
  exists la ra, at_ m a = Some (KInt h w p la ra) /\ forall bit : bool, exists Fx Fy,
    holds m (if bit then ra else la) (child l r bit) Fx /\ holds m (if bit then la else ra) (child l r (negb bit)) Fy /\
    ~ In a Fx /\ ~ In a Fy /\ (forall z, In z Fx -> ~ In z Fy) /\ (forall z, In z F <-> In z (Fx ++ a :: Fy)).
Proof.
  intros Hh. destruct (holds_int_inv _ _ _ _ _ _ _ _ Hh) as (la & Fl & ra & Fr & E & Hl & Hr & N1 & N2 & D & ->).
  exists la, ra. split; [exact E|]. intros [|]; cbn [child negb].
  - exists Fr, Fl. split; [exact Hr|]. split; [exact Hl|]. split; [exact N2|]. split; [exact N1|]. split; [intros z I1 I2; exact (D z I2 I1)|clear; sets].
  - exists Fl, Fr. split; [exact Hl|]. split; [exact Hr|]. split; [exact N1|]. split; [exact N2|]. split; [exact D|clear; sets].
Qed.
Lemma holds_join m a h w p la ra (bit : bool) x y Fx Fy : at_ m a = Some (KInt h w p la ra) ->
  holds m (if bit then ra else la) x Fx -> holds m (if bit then la else ra) y Fy ->
  ~ In a Fx -> ~ In a Fy -> (forall z, In z Fx -> ~ In z Fy) ->
  exists F, holds m a (if bit then NInt h w p y x else NInt h w p x y) F /\ (forall z, In z F <-> In z (Fx ++ a :: Fy)).
Proof.
  intros E Hx Hy N1 N2 D. destruct bit.
  - exists (a :: Fy ++ Fx). split; [eapply hd_int; eauto; intros z I1 I2; exact (D z I2 I1)|clear; sets].
  - exists (a :: Fx ++ Fy). split; [eapply hd_int; eauto|clear; sets].
Qed.

Lemma moves_same m m' F : moves m [] m' [] -> moves m F m' F.
Proof.
  intros [L N G R]. constructor; [exact L|auto| |].
  - intros x I N'. contradiction.
  - intros x N1 N2. apply R; intros [].
Qed.
(** Work on a part with the rest standing by. *)
Lemma moves_part m F m' F' G A B : moves m F m' F' -> (forall x, In x G -> x < length m) -> (forall x, In x F -> ~ In x G) ->
  (forall x, In x A <-> In x F \/ In x G) -> (forall x, In x B <-> In x F' \/ In x G) -> moves m A m' B.
Proof.
  intros M L D EA EB. eapply moves_set; [exact (moves_frame m F m' F' G M L D)| |]; intros x; rewrite in_app_iff; [rewrite EA|rewrite EB]; reflexivity.
Qed.
Lemma moves_len m F m' F' x : moves m F m' F' -> x < length m -> x < length m'.
Proof. intros [L _ _ _] Lt. lia. Qed.

Lemma regrow m a h w p0 la ra x nx Fx y ny Fy p bit : at_ m a = Some (KInt h w p0 la ra) ->
  holds m x nx Fx -> holds m y ny Fy -> ~ In a Fx -> ~ In a Fy -> (forall z, In z Fx -> ~ In z Fy) ->
  exists out m1 m2 F', hcreate_internal m p x y bit = (out, m1) /\ node_destroy m1 a false = Ok m2 /\
    holds m2 out (create_internal p nx ny bit) F' /\ moves m (Fx ++ a :: Fy) m2 F'.
Proof.
  intros E Hx Hy N1 N2 D. destruct (create_internal_ok m p x nx Fx y ny Fy bit Hx Hy D) as (out & m1 & F' & Ec & Ho & M & FF).
  assert (La : a < length m) by (eapply at_some_lt, E).
  assert (Na : ~ In a (Fx ++ Fy)) by (rewrite in_app_iff; tauto).
  assert (Ea : at_ m1 a = Some (KInt h w p0 la ra)) by (rewrite (moves_keep _ _ _ _ a M La Na); exact E).
  assert (Na' : ~ In a F') by (eapply moves_avoid; eassumption).
  exists out, m1, (upd m1 a None), F'. split; [exact Ec|]. split; [eapply node_destroy_int, Ea|].
  pose proof (free_moves m1 a _ F' Ea Na') as Mf. split.
  - eapply holds_frame; [exact Ho|]. intros z I. rewrite (at_put _ _ _ _ _ Ea). destruct (Nat.eqb_spec z a) as [->|]; [contradiction|reflexivity].
  - eapply moves_trans; [|exact Mf]. eapply (moves_part m (Fx ++ Fy) m1 F' [a]); [exact M| | | |].
    + intros z [<-|[]]. exact La.
    + intros z I [->|[]]. contradiction.
    + clear. sets.
    + clear. sets.
Qed.

(** *** What cannot fail *)
Definition nofail {A} (r : res A) : Prop := match r with Fail _ => False | _ => True end.
Lemma nofail_bind {A B} (x : res A) (f : A -> res B) : nofail x -> (forall a, nofail (f a)) -> nofail (bind x f).
Proof. destruct x; cbn [bind nofail]; auto. Qed.
Lemma nofail_check {A} b (x : res A) : nofail x -> nofail (check b x).
Proof. destruct b; cbn [check nofail]; auto. Qed.
Lemma get_bit_nofail k i : nofail (get_bit k i).
Proof. unfold get_bit. destruct (nth_error _ _); exact I. Qed.
Lemma set_bit_nofail k i b : nofail (set_bit k i b).
Proof. unfold set_bit. destruct (nth_error _ _); exact I. Qed.
Lemma bits_get_nofail b i : nofail (bits_get b i).
Proof. apply nofail_check, get_bit_nofail. Qed.
Lemma bits_set_nofail b i x : nofail (bits_set b i x).
Proof. apply nofail_check, nofail_bind; [apply set_bit_nofail|intros; exact I]. Qed.
Lemma count_loop_nofail n : forall b i k d, nofail (count_loop n b i k d).
Proof.
  induction n as [|n IH]; intros b i k d; [exact I|]. cbn [count_loop]. apply nofail_bind; [apply bits_get_nofail|]. intros x.
  apply nofail_bind; [apply get_bit_nofail|]. intros y. destruct (Bool.eqb x y); [|exact I]. apply nofail_bind; [apply IH|intros; exact I].
Qed.
Lemma bits_count_from_nofail b i k d : nofail (bits_count_from b i k d).
Proof. do 3 apply nofail_check. apply count_loop_nofail. Qed.
Lemma bits_count_nofail b k d : nofail (bits_count b k d).
Proof. apply bits_count_from_nofail. Qed.
Lemma bits_has_nofail b k d : nofail (bits_has b k d).
Proof. apply nofail_bind; [apply bits_count_nofail|intros; exact I]. Qed.
Lemma copy_loop_nofail n : forall o i s j, nofail (copy_loop n o i s j).
Proof.
  induction n as [|n IH]; intros o i s j; [exact I|]. cbn [copy_loop]. apply nofail_bind; [apply bits_get_nofail|]. intros x.
  apply nofail_bind; [apply bits_set_nofail|]. intros y. apply IH.
Qed.
Lemma bits_init_nofail n : nofail (bits_init n).
Proof. apply nofail_check. exact I. Qed.
Lemma bits_slice_nofail b s e : nofail (bits_slice b s e).
Proof. apply nofail_check, nofail_bind; [apply bits_init_nofail|intros; apply copy_loop_nofail]. Qed.
Lemma bits_split_nofail b i : nofail (bits_split b i).
Proof. apply nofail_bind; [apply bits_slice_nofail|]. intros. apply nofail_bind; [apply bits_slice_nofail|intros; exact I]. Qed.
Lemma bits_collide_nofail b k d : nofail (bits_collide b k d).
Proof. apply nofail_bind; [apply bits_count_from_nofail|intros; apply bits_slice_nofail]. Qed.
Lemma bits_join_nofail l r b : nofail (bits_join l r b).
Proof.
  apply nofail_bind; [apply bits_init_nofail|]. intros o. apply nofail_bind; [unfold copy_bytes; destruct (_ && _); exact I|]. intros d.
  apply nofail_bind; [apply bits_set_nofail|intros; apply copy_loop_nofail].
Qed.
Lemma proof_push_nofail a p h : nofail (proof_push a p h).
Proof. apply nofail_check. exact I. Qed.
Lemma retrieve_nofail rd v vp : nofail (retrieve rd v vp).
Proof. unfold retrieve. destruct v; [apply nofail_check; exact I|]. destruct vp as [q|]; [|exact I]. destruct (_ <? _)%N; exact I. Qed.
Lemma resolve_nofail rd h w : nofail (resolve rd h w).
Proof. destruct (resolve_inv rd h w) as [E|[E|(n & E & _)]]; rewrite E; exact I. Qed.
Lemma node_hash_nofail n : nofail (node_hash H n).
Proof.
  induction n as [|h w p l IHl r IHr|h w k v vp|h w]; cbn [node_hash]; try exact I.
  - destruct h; [exact I|]. apply nofail_bind; [exact IHl|]. intros [lh l']. apply nofail_bind; [exact IHr|]. intros [rh r']. exact I.
  - destruct h; [exact I|]. destruct v; exact I.
Qed.

(** *** urkel_node_hash *)
Lemma hash_loop_ok fuel : forall m a n F h n', holds m a n F -> length F <= fuel -> node_hash H n = Ok (h, n') ->
  exists m', hash_loop H fuel m a = Ok (h, m') /\ holds m' a n' F /\ moves m F m' F.
Proof.
  induction fuel as [|fuel IH]; intros m a n F h n' Hh L E.
  { pose proof (holds_self _ _ _ _ Hh) as I. destruct F; [contradiction|cbn [length] in L; lia]. }
  cbn [hash_loop]. destruct n as [|ho w p l r|ho w k v vp|h0 w]; cbn [node_hash] in E.
  - apply Ok_inj in E. injection E as <- <-. destruct (holds_null_inv _ _ _ Hh) as [Ea _]. rewrite (load_ok _ _ _ Ea). cbn [bind].
    exists m. split; [reflexivity|]. split; [exact Hh|apply moves_refl].
  - destruct (holds_int_inv _ _ _ _ _ _ _ _ Hh) as (la & Fl & ra & Fr & Ea & Hl & Hr & N1 & N2 & D & EF).
    rewrite (load_ok _ _ _ Ea). cbn [bind]. destruct ho as [h0|].
    { apply Ok_inj in E. injection E as <- <-. exists m. split; [reflexivity|]. split; [exact Hh|apply moves_refl]. }
    assert (LL : length Fl + length Fr <= fuel) by (rewrite EF in L; cbn [length] in L; rewrite app_length in L; lia).
    destruct (node_hash H l) as [[lh l']|e| | |] eqn:El; try discriminate. cbn [bind] in E.
    destruct (node_hash H r) as [[rh r']|e| | |] eqn:Er; try discriminate. cbn [bind] in E. apply Ok_inj in E. injection E as <- <-.
    destruct (IH m la l Fl lh l' Hl ltac:(lia) El) as (m1 & E1 & Hl1 & M1). rewrite E1. cbn [bind].
    destruct (holds_moves _ _ _ _ _ _ _ M1 Hr D) as [Hr1 _].
    destruct (IH m1 ra r Fr rh r' Hr1 ltac:(lia) Er) as (m2 & E2 & Hr2 & M2). rewrite E2. cbn [bind].
    assert (Hl2 : holds m2 la l' Fl) by (eapply (holds_moves _ _ _ _ _ _ _ M2 Hl1); intros x I1 I2; exact (D x I2 I1)).
    assert (La : a < length m) by (eapply at_some_lt, Ea).
    assert (Ea2 : at_ m2 a = Some (KInt None w p la ra)).
    { rewrite (moves_keep _ _ _ _ a M2 (moves_len _ _ _ _ _ M1 La) N2), (moves_keep _ _ _ _ a M1 La N1). exact Ea. }
    rewrite (put_ok _ _ _ _ Ea2). cbn [bind]. eexists. split; [reflexivity|].
    assert (Ia : In a (a :: Fl ++ Fr)) by (left; reflexivity).
    pose proof (put_moves m2 a _ (KInt (Some (hash_internal H p lh rh)) w p la ra) F Ea2 ltac:(rewrite EF; exact Ia)) as M3.
    assert (K : forall z, z <> a -> at_ (upd m2 a (Some (KInt (Some (hash_internal H p lh rh)) w p la ra))) z = at_ m2 z).
    { intros z Nz. rewrite (at_put _ _ _ _ _ Ea2). destruct (Nat.eqb_spec z a); [congruence|reflexivity]. }
    split.
    + rewrite EF. eapply hd_int; eauto.
      * rewrite (at_put _ _ _ _ _ Ea2), Nat.eqb_refl. reflexivity.
      * eapply holds_frame; [exact Hl2|]. intros z I. apply K. intros ->. contradiction.
      * eapply holds_frame; [exact Hr2|]. intros z I. apply K. intros ->. contradiction.
    + assert (LFl : forall x, In x Fl -> x < length m) by (eapply holds_lt, Hl).
      assert (LFr : forall x, In x Fr -> x < length m) by (eapply holds_lt, Hr).
      eapply moves_trans; [|eapply moves_trans; [|exact M3]].
      * eapply (moves_part m Fl m1 Fl (a :: Fr)); [exact M1| | | |].
        -- intros z [<-|I]; auto.
        -- intros z I [->|I2]; [contradiction|exact (D z I I2)].
        -- rewrite EF. clear. sets.
        -- instantiate (1 := F). rewrite EF. clear. sets.
      * eapply (moves_part m1 Fr m2 Fr (a :: Fl)); [exact M2| | | |].
        -- intros z [<-|I]; eapply moves_len; [exact M1|exact La|exact M1|auto].
        -- intros z I [->|I2]; [contradiction|exact (D z I2 I)].
        -- rewrite EF. clear. sets.
        -- rewrite EF. clear. sets.
  - destruct (holds_leaf_inv _ _ _ _ _ _ _ _ Hh) as (q & Ea & Q). rewrite (load_ok _ _ _ Ea). cbn [bind]. destruct ho as [h0|].
    { apply Ok_inj in E. injection E as <- <-. exists m. split; [reflexivity|]. split; [exact Hh|apply moves_refl]. }
    destruct v as [v|]; [|discriminate]. apply Ok_inj in E. injection E as <- <-. destruct q as [q|]; [|contradiction].
    destruct Q as (Eq & EF & Na). rewrite (load_ok _ _ _ Eq). cbn [bind]. rewrite (put_ok _ _ _ _ Ea). cbn [bind].
    eexists. split; [reflexivity|]. split; [|eapply put_moves; [exact Ea|rewrite EF; left; reflexivity]].
    rewrite EF. eapply hd_leafv; rewrite (at_put _ _ _ _ _ Ea).
    + rewrite Nat.eqb_refl. reflexivity.
    + destruct (Nat.eqb_spec q a); [congruence|exact Eq].
  - apply Ok_inj in E. injection E as <- <-. destruct (holds_hash_inv _ _ _ _ _ Hh) as [Ea _]. rewrite (load_ok _ _ _ Ea). cbn [bind].
    exists m. split; [reflexivity|]. split; [exact Hh|apply moves_refl].
Qed.
Lemma hnode_hash_ok m a n F h n' : holds m a n F -> node_hash H n = Ok (h, n') ->
  exists m', hnode_hash H m a = Ok (h, m') /\ holds m' a n' F /\ moves m F m' F.
Proof. intros Hh. eapply hash_loop_ok; [exact Hh|]. pose proof (holds_size _ _ _ _ Hh). lia. Qed.
End WithH.
