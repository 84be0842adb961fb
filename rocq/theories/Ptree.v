(** * Pure trees: the mathematical object a node structure stands for. *)
From Verif Require Export Bits Node.
From Coq Require Import ZifyBool ZifyNat ZifyN Sorted Permutation.

Inductive ptree : Type :=
| PNull
| PLeaf (k v : bytes)
| PInt (pre : list bool) (l r : ptree).

(** Records from left to right. *)
Fixpoint elems (t : ptree) : list (bytes * bytes) :=
  match t with
  | PNull => []
  | PLeaf k v => [(k, v)]
  | PInt _ l r => elems l ++ elems r
  end.

(** The key starts with these bits. *)
Definition has (path : list bool) (k : bytes) : Prop := exists s, kbits k = path ++ s.

(** Canonical non-empty subtree: every key below is 32 bytes and follows its path. *)
Fixpoint wfn (path : list bool) (t : ptree) : Prop :=
  match t with
  | PNull => False
  | PLeaf k v => length k = 32 /\ has path k
  | PInt pre l r => wfn (path ++ pre ++ [false]) l /\ wfn (path ++ pre ++ [true]) r
  end.
Definition wft (t : ptree) : Prop := t = PNull \/ wfn [] t.

Definition kbit (k : bytes) (i : nat) : bool := nth i (kbits k) false.

Fixpoint tget (d : nat) (t : ptree) (k : bytes) : option bytes :=
  match t with
  | PNull => None
  | PLeaf k' v => if bytes_eq_dec k' k then Some v else None
  | PInt pre l r =>
    if is_prefix pre (skipn d (kbits k))
    then tget (d + length pre + 1) (if kbit k (d + length pre) then r else l) k
    else None
  end.

Definition mkint (p : list bool) (x y : ptree) (bit : bool) : ptree :=
  if bit then PInt p y x else PInt p x y.

Fixpoint tins (d : nat) (k v : bytes) (t : ptree) : ptree :=
  match t with
  | PNull => PLeaf k v
  | PLeaf k' v' =>
    if bytes_eq_dec k' k then PLeaf k v else
    let b' := skipn d (kbits k') in
    let c := lcp b' (skipn d (kbits k)) in
    mkint (firstn c b') (PLeaf k v) (PLeaf k' v') (kbit k (d + c))
  | PInt pre l r =>
    let c := lcp pre (skipn d (kbits k)) in
    if c =? length pre
    then if kbit k (d + c)
         then PInt pre l (tins (d + c + 1) k v r)
         else PInt pre (tins (d + c + 1) k v l) r
    else mkint (firstn c pre) (PLeaf k v) (PInt (skipn (S c) pre) l r) (kbit k (d + c))
  end.

(** Replacing an internal node by its only remaining child. *)
Definition collapse (pre : list bool) (o : ptree) (bit : bool) : ptree :=
  match o with
  | PInt q l r => PInt (pre ++ bit :: q) l r
  | _ => o
  end.

Fixpoint trem (d : nat) (k : bytes) (t : ptree) : option ptree :=
  match t with
  | PNull => None
  | PLeaf k' v' => if bytes_eq_dec k' k then Some PNull else None
  | PInt pre l r =>
    if is_prefix pre (skipn d (kbits k)) then
      if kbit k (d + length pre)
      then match trem (d + length pre + 1) k r with
           | None => None
           | Some PNull => Some (collapse pre l false)
           | Some z => Some (PInt pre l z)
           end
      else match trem (d + length pre + 1) k l with
           | None => None
           | Some PNull => Some (collapse pre r true)
           | Some z => Some (PInt pre z r)
           end
    else None
  end.

Section Hash.
Variable H : bytes -> bytes.
Fixpoint thash (t : ptree) : bytes :=
  match t with
  | PNull => zero_hash
  | PLeaf k v => hash_value H k v
  | PInt pre l r => hash_internal H (of_bools pre) (thash l) (thash r)
  end.
End Hash.

(** ** Paths *)

Lemma has_nil k : has [] k.
Proof. exists (kbits k). reflexivity. Qed.

Lemma has_app_inv p q k : has (p ++ q) k -> has p k.
Proof. intros (s & E). exists (q ++ s). now rewrite app_assoc. Qed.

Lemma has_skipn path k : has path k -> kbits k = path ++ skipn (length path) (kbits k).
Proof. intros (s & E). rewrite E at 2. rewrite skipn_app_exact by reflexivity. exact E. Qed.

Lemma has_len path k : has path k -> length k = 32 -> length path <= 256.
Proof.
  intros (s & E) L. apply (f_equal (@length bool)) in E.
  rewrite kbits_length, app_length in E. lia.
Qed.

Lemma has_step path pre b k :
  has (path ++ pre ++ [b]) k ->
  is_prefix pre (skipn (length path) (kbits k)) = true /\
  kbit k (length path + length pre) = b.
Proof.
  intros (s & E). unfold kbit. rewrite E, <- !app_assoc. split.
  - rewrite skipn_app_exact by reflexivity. apply is_prefix_iff. eauto.
  - rewrite app_assoc, <- app_length, app_nth2, Nat.sub_diag by lia. reflexivity.
Qed.

Lemma kbit_app path p k b s : kbits k = path ++ p ++ b :: s -> kbit k (length path + length p) = b.
Proof.
  intros E. unfold kbit. rewrite E, app_assoc, <- app_length, app_nth2, Nat.sub_diag by lia. reflexivity.
Qed.

Lemma step_has path pre k :
  has path k -> length k = 32 -> length path + length pre < 256 ->
  is_prefix pre (skipn (length path) (kbits k)) = true ->
  has (path ++ pre ++ [kbit k (length path + length pre)]) k.
Proof.
  intros Hp L Hl Hpre. apply is_prefix_iff in Hpre. destruct Hpre as (s & E).
  pose proof (has_skipn _ _ Hp) as E2. rewrite E in E2.
  destruct s as [|b s].
  - apply (f_equal (@length bool)) in E2. rewrite kbits_length, !app_length in E2. cbn in E2. lia.
  - exists s. rewrite (kbit_app path pre k b s E2). rewrite E2, <- !app_assoc. reflexivity.
Qed.

Lemma has_disj p b k : has (p ++ [b]) k -> has (p ++ [negb b]) k -> False.
Proof.
  intros (s & E) (s' & E'). rewrite E in E'. rewrite <- !app_assoc in E'.
  apply app_inv_head in E'. cbn in E'. injection E'. destruct b; discriminate.
Qed.

Lemma wfn_len path t : wfn path t -> length path <= 256.
Proof.
  revert path; induction t as [|k v|pre l IHl r IHr]; intros path W; cbn in W.
  - tauto.
  - destruct W as [L W]. eapply has_len; eauto.
  - destruct W as [W _]. apply IHl in W. rewrite !app_length in W. lia.
Qed.

Lemma wfn_int_len path pre l r : wfn path (PInt pre l r) -> length path + length pre < 256.
Proof.
  intros [W _]. apply wfn_len in W. rewrite !app_length in W. cbn in W. lia.
Qed.

Lemma wfn_elems path t : wfn path t ->
  forall k v, In (k, v) (elems t) -> length k = 32 /\ has path k.
Proof.
  revert path; induction t as [|k0 v0|pre l IHl r IHr]; intros path W k v I; cbn in *.
  - tauto.
  - destruct I as [E|[]]. injection E as -> ->. exact W.
  - destruct W as [Wl Wr]. apply in_app_or in I. destruct I as [I|I].
    + destruct (IHl _ Wl _ _ I) as [L P]. split; auto. eapply has_app_inv; eauto.
    + destruct (IHr _ Wr _ _ I) as [L P]. split; auto. eapply has_app_inv; eauto.
Qed.

Lemma wfn_nonempty path t : wfn path t -> exists k v, In (k, v) (elems t).
Proof.
  revert path; induction t as [|k0 v0|pre l IHl r IHr]; intros path W; cbn in *.
  - tauto.
  - eauto.
  - destruct W as [Wl Wr]. destruct (IHl _ Wl) as (k & v & I). exists k, v. apply in_or_app; auto.
Qed.

(** ** Lookup *)

Lemma tget_int_child path pre l r k b :
  has (path ++ pre ++ [b]) k ->
  tget (length path) (PInt pre l r) k =
  tget (length (path ++ pre ++ [b])) (if b then r else l) k.
Proof.
  intros Hb. destruct (has_step _ _ _ _ Hb) as [E1 E2]. cbn [tget]. rewrite E1, E2.
  f_equal. rewrite !app_length. cbn. lia.
Qed.

Lemma tget_int_miss path pre k :
  has path k -> length k = 32 -> length path + length pre < 256 ->
  ~ has (path ++ pre ++ [false]) k -> ~ has (path ++ pre ++ [true]) k ->
  is_prefix pre (skipn (length path) (kbits k)) = false.
Proof.
  intros Hp L Hl N0 N1. destruct (is_prefix _ _) eqn:E; [|reflexivity].
  pose proof (step_has _ _ _ Hp L Hl E) as S.
  destruct (kbit k _); contradiction.
Qed.

Lemma has_dec p k : {has p k} + {~ has p k}.
Proof.
  destruct (is_prefix p (kbits k)) eqn:E.
  - left. apply is_prefix_iff in E. exact E.
  - right. intros Hh. assert (is_prefix p (kbits k) = true) by (apply is_prefix_iff; exact Hh). congruence.
Qed.

Lemma int_cases path pre k :
  has path k -> length k = 32 -> length path + length pre < 256 ->
  (exists b, has (path ++ pre ++ [b]) k) \/
  (is_prefix pre (skipn (length path) (kbits k)) = false /\ forall b, ~ has (path ++ pre ++ [b]) k).
Proof.
  intros Hp L Hl. destruct (is_prefix pre (skipn (length path) (kbits k))) eqn:E.
  - left. eexists. eapply step_has; eauto.
  - right. split; auto. intros b Hb. apply has_step in Hb. destruct Hb; congruence.
Qed.

Lemma tget_in path t : wfn path t -> forall k v, has path k -> length k = 32 ->
  tget (length path) t k = Some v <-> In (k, v) (elems t).
Proof.
  revert path; induction t as [|k0 v0|pre l IHl r IHr]; intros path W k v Hp L.
  - contradiction W.
  - cbn. destruct (bytes_eq_dec k0 k) as [->|N]; split; intros E.
    + injection E as ->. auto.
    + destruct E as [E|[]]. congruence.
    + discriminate.
    + destruct E as [E|[]]. injection E as -> ->. contradiction.
  - pose proof (wfn_int_len _ _ _ _ W) as Hl. destruct W as [Wl Wr]. cbn [elems].
    rewrite in_app_iff.
    destruct (int_cases path pre k Hp L Hl) as [(b & Hb)|[E N]].
    + rewrite (tget_int_child _ _ _ _ _ _ Hb). destruct b.
      * rewrite (IHr _ Wr k v Hb L). split; auto. intros [I|I]; auto.
        destruct (wfn_elems _ _ Wl _ _ I) as [_ P]. exfalso.
        rewrite app_assoc in P, Hb. eapply has_disj; [exact P|exact Hb].
      * rewrite (IHl _ Wl k v Hb L). split; auto. intros [I|I]; auto.
        destruct (wfn_elems _ _ Wr _ _ I) as [_ P]. exfalso.
        rewrite app_assoc in P, Hb. eapply has_disj; [exact P|exact Hb].
    + cbn [tget]. rewrite E. split; [discriminate|]. intros [I|I].
      * destruct (wfn_elems _ _ Wl _ _ I) as [_ P]. exfalso. eapply N; eauto.
      * destruct (wfn_elems _ _ Wr _ _ I) as [_ P]. exfalso. eapply N; eauto.
Qed.

Lemma wft_get_in t : wft t -> forall k v, length k = 32 ->
  tget 0 t k = Some v <-> In (k, v) (elems t).
Proof.
  intros [->|W] k v L.
  - cbn. split; [discriminate|tauto].
  - apply (tget_in [] t W k v (has_nil k) L).
Qed.

Lemma wft_elems_len t : wft t -> forall k v, In (k, v) (elems t) -> length k = 32.
Proof.
  intros [->|W] k v I; [contradiction I|]. destruct (wfn_elems _ _ W _ _ I); auto.
Qed.

(** ** Splitting two bit strings *)

Lemma lcp_decomp a b :
  exists p a' b', a = p ++ a' /\ b = p ++ b' /\ length p = lcp a b /\
    (a' = [] \/ b' = [] \/ exists x a'' b'', a' = x :: a'' /\ b' = negb x :: b'').
Proof.
  revert b; induction a as [|x a IH]; intros b.
  - exists [], [], b. cbn. auto.
  - destruct b as [|y b].
    + exists [], (x :: a), []. cbn. repeat split; auto.
    + cbn [lcp]. destruct (Bool.eqb x y) eqn:E.
      * apply Bool.eqb_prop in E. subst y.
        destruct (IH b) as (p & a' & b' & E1 & E2 & L & C).
        exists (x :: p), a', b'. cbn [app length]. rewrite L. rewrite <- E1, <- E2. auto.
      * exists [], (x :: a), (y :: b). cbn. repeat split; auto. right. right.
        exists x, a, b. destruct x, y; cbn in *; auto; discriminate.
Qed.

Lemma firstn_lcp a b p a' : a = p ++ a' -> length p = lcp a b -> firstn (lcp a b) a = p.
Proof. intros E L. rewrite <- L, E. apply firstn_app_exact. reflexivity. Qed.

(** A tree node whose prefix is cut in two behaves the same below the cut. *)
Lemma tget_flatten path p x q l r k :
  has (path ++ p ++ [x]) k ->
  tget (length path) (PInt (p ++ x :: q) l r) k =
  tget (length (path ++ p ++ [x])) (PInt q l r) k.
Proof.
  intros Hx. destruct Hx as (s & E). cbn [tget].
  rewrite E, <- !app_assoc, skipn_app_exact by reflexivity.
  replace (path ++ p ++ [x] ++ s) with ((path ++ p ++ [x]) ++ s)
    by (rewrite <- !app_assoc; reflexivity).
  rewrite skipn_app_exact by reflexivity.
  assert (EQ : is_prefix (p ++ x :: q) (p ++ [x] ++ s) = is_prefix q s).
  { clear E. induction p as [|y p IH]; cbn; [|].
    - destruct x; reflexivity.
    - rewrite Bool.eqb_reflx. exact IH. }
  rewrite EQ. rewrite !app_length. cbn [length].
  replace (length path + (length p + S (length q))) with
          (length path + (length p + 1) + length q) by lia. reflexivity.
Qed.

Lemma wfn_flatten path p x q l r :
  wfn (path ++ p ++ [x]) (PInt q l r) <-> wfn path (PInt (p ++ x :: q) l r).
Proof.
  cbn [wfn]. rewrite <- !app_assoc. cbn [app]. reflexivity.
Qed.

(** ** Insert *)

Lemma tins_spec path t : wfn path t -> forall k v, has path k -> length k = 32 ->
  wfn path (tins (length path) k v t) /\
  forall k', has path k' -> length k' = 32 ->
    tget (length path) (tins (length path) k v t) k' =
    if bytes_eq_dec k k' then Some v else tget (length path) t k'.
Proof.
  revert path; induction t as [|k0 v0|pre l IHl r IHr]; intros path W k v Hp L.
  - contradiction W.
  - destruct W as [L0 H0]. cbn [tins].
    destruct (bytes_eq_dec k0 k) as [->|N].
    + cbn. split; auto. intros k' Hk' L'. destruct (bytes_eq_dec k k'); auto.
    + pose proof (has_skipn _ _ H0) as E0. pose proof (has_skipn _ _ Hp) as E1.
      destruct (lcp_decomp (skipn (length path) (kbits k0)) (skipn (length path) (kbits k)))
        as (p & a' & b' & Ea & Eb & Lp & C).
      set (c := lcp _ _) in *.
      assert (Ef : firstn c (skipn (length path) (kbits k0)) = p) by (eapply firstn_lcp; eauto).
      rewrite Ef.
      assert (LL : length a' = length b').
      { apply (f_equal (@length bool)) in Ea, Eb. rewrite app_length in Ea, Eb.
        rewrite skipn_length, kbits_length in Ea, Eb. lia. }
      destruct C as [->|[->|(x & a2 & b2 & -> & ->)]].
      1: { exfalso. apply N, kbits_inj. rewrite E0, E1, Ea, Eb.
           destruct b'; [reflexivity|discriminate LL]. }
      1: { exfalso. apply N, kbits_inj. rewrite E0, E1, Ea, Eb.
           destruct a'; [reflexivity|discriminate LL]. }
      rewrite Ea in E0. rewrite Eb in E1.
      rewrite <- Lp. rewrite (kbit_app path p k (negb x) b2 E1).
      assert (P0 : has (path ++ p ++ [x]) k0) by (exists a2; rewrite E0, <- !app_assoc; reflexivity).
      assert (P1 : has (path ++ p ++ [negb x]) k) by (exists b2; rewrite E1, <- !app_assoc; reflexivity).
      split.
      * destruct x; cbn in *; auto.
      * intros k' Hk' L'.
        assert (Hl : length path + length p < 256).
        { apply (f_equal (@length bool)) in E0. rewrite kbits_length, !app_length in E0. cbn in E0. lia. }
        assert (G : tget (length path) (mkint p (PLeaf k v) (PLeaf k0 v0) (negb x)) k' =
                    if is_prefix p (skipn (length path) (kbits k'))
                    then (if Bool.eqb (kbit k' (length path + length p)) (negb x)
                          then (if bytes_eq_dec k k' then Some v else None)
                          else (if bytes_eq_dec k0 k' then Some v0 else None)) else None).
        { destruct x; cbn; destruct (kbit k' _); reflexivity. }
        rewrite G. clear G. cbn [tget].
        destruct (bytes_eq_dec k k') as [<-|Nk].
        { destruct (has_step _ _ _ _ P1) as [-> ->]. rewrite Bool.eqb_reflx. reflexivity. }
        destruct (bytes_eq_dec k0 k') as [<-|Nk0].
        { destruct (has_step _ _ _ _ P0) as [-> ->]. destruct x; reflexivity. }
        destruct (is_prefix _ _); [|reflexivity]. match goal with |- (if ?b then _ else _) = _ => destruct b; reflexivity end.
  - pose proof (wfn_int_len _ _ _ _ W) as Hl. cbn [tins].
    rewrite (lcp_full pre). set (c := lcp pre (skipn (length path) (kbits k))).
    destruct (is_prefix pre (skipn (length path) (kbits k))) eqn:E.
    + assert (Hc : c = length pre).
      { pose proof (lcp_full pre (skipn (length path) (kbits k))) as F. rewrite E in F.
        apply Nat.eqb_eq in F. exact F. }
      rewrite Hc.
      pose proof (step_has _ _ _ Hp L Hl E) as Hb.
      destruct W as [Wl Wr].
      assert (D : length path + length pre + 1 = length (path ++ pre ++ [kbit k (length path + length pre)]))
        by (rewrite !app_length; cbn; lia).
      rewrite D. clear D.
      destruct (kbit k (length path + length pre)) eqn:B.
      * destruct (IHr _ Wr k v Hb L) as [W' G]. split; [split; assumption|].
        intros k' Hk' L'.
        destruct (int_cases path pre k' Hk' L' Hl) as [(b & Hb')|[E' N]].
        -- rewrite !(tget_int_child _ _ _ _ _ _ Hb'). destruct b; [apply G; auto|].
           destruct (bytes_eq_dec k k') as [<-|Nk]; [|reflexivity].
           exfalso. rewrite app_assoc in Hb, Hb'. eapply has_disj; [exact Hb|exact Hb'].
        -- cbn [tget]. rewrite E'. destruct (bytes_eq_dec k k') as [<-|Nk]; [congruence|reflexivity].
      * destruct (IHl _ Wl k v Hb L) as [W' G]. split; [split; assumption|].
        intros k' Hk' L'.
        destruct (int_cases path pre k' Hk' L' Hl) as [(b & Hb')|[E' N]].
        -- rewrite !(tget_int_child _ _ _ _ _ _ Hb'). destruct b; [|apply G; auto].
           destruct (bytes_eq_dec k k') as [<-|Nk]; [|reflexivity].
           exfalso. rewrite app_assoc in Hb, Hb'. eapply has_disj; [exact Hb|exact Hb'].
        -- cbn [tget]. rewrite E'. destruct (bytes_eq_dec k k') as [<-|Nk]; [congruence|reflexivity].
    + pose proof (has_skipn _ _ Hp) as E1.
      destruct (lcp_decomp pre (skipn (length path) (kbits k))) as (p & a' & b' & Ea & Eb & Lp & C).
      fold c in Lp.
      assert (Ef : firstn c pre = p) by (eapply firstn_lcp; eauto).
      destruct C as [->|[->|(x & q & b2 & -> & ->)]].
      * exfalso. rewrite app_nil_r in Ea. subst p.
        assert (is_prefix pre (skipn (length path) (kbits k)) = true)
          by (apply is_prefix_iff; eauto). congruence.
      * exfalso. rewrite app_nil_r in Eb. rewrite Eb in E1.
        apply (f_equal (@length bool)) in E1, Ea. rewrite kbits_length, !app_length in *. lia.
      * rewrite Eb in E1. rewrite Ef.
        assert (Es : skipn (S c) pre = q).
        { rewrite Ea, <- Lp. replace (p ++ x :: q) with ((p ++ [x]) ++ q) by (rewrite <- app_assoc; reflexivity).
          apply skipn_app_exact. rewrite app_length; cbn; lia. }
        rewrite Es. rewrite <- Lp. rewrite (kbit_app path p k (negb x) b2 E1).
        assert (P1 : has (path ++ p ++ [negb x]) k) by (exists b2; rewrite E1, <- !app_assoc; reflexivity).
        rewrite Ea in W. apply wfn_flatten in W. split.
        -- destruct x; cbn [negb mkint wfn] in *; auto.
        -- intros k' Hk' L'.
           assert (Hlp : length path + length p < 256).
           { rewrite Ea, app_length in Hl. cbn in Hl. lia. }
           destruct (int_cases path p k' Hk' L' Hlp) as [(b & Hb')|[E' N]].
           ++ assert (G : tget (length path) (mkint p (PLeaf k v) (PInt q l r) (negb x)) k' =
                 if Bool.eqb b (negb x) then (if bytes_eq_dec k k' then Some v else None)
                 else tget (length (path ++ p ++ [b])) (PInt q l r) k').
              { destruct x; cbn [negb mkint]; rewrite (tget_int_child _ _ _ _ _ _ Hb');
                  destruct b; reflexivity. }
              rewrite G, Ea. clear G.
              destruct (Bool.eqb b (negb x)) eqn:Bx.
              ** apply Bool.eqb_prop in Bx. subst b.
                 destruct (bytes_eq_dec k k'); [reflexivity|].
                 cbn [tget]. destruct (is_prefix (p ++ x :: q) _) eqn:Ep; [|reflexivity].
                 exfalso. apply is_prefix_iff in Ep. destruct Ep as (s & Es').
                 assert (has (path ++ p ++ [x]) k').
                 { exists (q ++ s). rewrite (has_skipn _ _ Hk'), Es', <- !app_assoc. reflexivity. }
                 rewrite app_assoc in H, Hb'. eapply has_disj; [exact H|exact Hb'].
              ** assert (b = x) by (destruct b, x; cbn in Bx; congruence). subst b.
                 rewrite <- (tget_flatten _ _ _ _ _ _ _ Hb').
                 destruct (bytes_eq_dec k k') as [<-|]; [|reflexivity].
                 exfalso. rewrite app_assoc in P1, Hb'. eapply has_disj; [exact Hb'|exact P1].
           ++ assert (Nk : k <> k') by (intros <-; exact (N _ P1)).
              destruct (bytes_eq_dec k k'); [contradiction|].
              assert (G : tget (length path) (mkint p (PLeaf k v) (PInt q l r) (negb x)) k' = None).
              { destruct x; cbn [negb mkint tget]; rewrite E'; reflexivity. }
              rewrite G, Ea. cbn [tget].
              destruct (is_prefix (p ++ x :: q) _) eqn:Ep; [|reflexivity].
              exfalso. apply is_prefix_iff in Ep. destruct Ep as (s & Es').
              apply (N x). exists (q ++ s). rewrite (has_skipn _ _ Hk'), Es', <- !app_assoc. reflexivity.
Qed.

(** ** Remove *)

Lemma trem_none path t : wfn path t -> forall k, has path k -> length k = 32 ->
  (trem (length path) k t = None <-> tget (length path) t k = None).
Proof.
  revert path; induction t as [|k0 v0|pre l IHl r IHr]; intros path W k Hp L.
  - contradiction W.
  - cbn. destruct (bytes_eq_dec k0 k); split; congruence.
  - pose proof (wfn_int_len _ _ _ _ W) as Hl. cbn [trem tget].
    destruct (is_prefix pre (skipn (length path) (kbits k))) eqn:E; [|tauto].
    pose proof (step_has _ _ _ Hp L Hl E) as Hb. destruct W as [Wl Wr].
    assert (D : length path + length pre + 1 = length (path ++ pre ++ [kbit k (length path + length pre)]))
      by (rewrite !app_length; cbn; lia).
    rewrite D. clear D.
    destruct (kbit k (length path + length pre)).
    + specialize (IHr _ Wr k Hb L). destruct (trem _ k r) as [[]|];
        split; intros F; try discriminate; tauto || (apply IHr in F; discriminate).
    + specialize (IHl _ Wl k Hb L). destruct (trem _ k l) as [[]|];
        split; intros F; try discriminate; tauto || (apply IHl in F; discriminate).
Qed.

Lemma trem_spec path t : wfn path t -> forall k t', has path k -> length k = 32 ->
  trem (length path) k t = Some t' ->
  (t' = PNull \/ wfn path t') /\
  forall k', has path k' -> length k' = 32 ->
    tget (length path) t' k' = if bytes_eq_dec k k' then None else tget (length path) t k'.
Proof.
  revert path; induction t as [|k0 v0|pre l IHl r IHr]; intros path W k t' Hp L.
  - contradiction W.
  - cbn [trem]. destruct (bytes_eq_dec k0 k) as [->|]; [|discriminate].
    intros E. injection E as <-. split; auto. intros k' _ _. cbn.
    destruct (bytes_eq_dec k k'); reflexivity.
  - pose proof (wfn_int_len _ _ _ _ W) as Hl. cbn [trem].
    destruct (is_prefix pre (skipn (length path) (kbits k))) eqn:E; [|discriminate].
    pose proof (step_has _ _ _ Hp L Hl E) as Hb. destruct W as [Wl Wr].
    assert (D : length path + length pre + 1 = length (path ++ pre ++ [kbit k (length path + length pre)]))
      by (rewrite !app_length; cbn; lia).
    rewrite D. clear D.
    (* collapsing preserves lookups and canonicity *)
    assert (COL : forall o b, wfn (path ++ pre ++ [b]) o ->
              wfn path (collapse pre o b) /\
              forall k', has path k' -> length k' = 32 ->
                tget (length path) (collapse pre o b) k' =
                if has_dec (path ++ pre ++ [b]) k'
                then tget (length (path ++ pre ++ [b])) o k' else None).
    { intros o b Wo. destruct o as [|ko vo|q lo ro].
      - contradiction Wo.
      - destruct Wo as [Lo Ho]. cbn [collapse]. split.
        + split; auto. eapply has_app_inv; eauto.
        + intros k' Hk' L'. destruct (has_dec _ k') as [Hd|Nd]; [reflexivity|].
          cbn. destruct (bytes_eq_dec ko k') as [<-|]; [contradiction|reflexivity].
      - cbn [collapse]. split; [apply wfn_flatten; exact Wo|].
        intros k' Hk' L'. destruct (has_dec _ k') as [Hd|Nd].
        + apply tget_flatten; assumption.
        + cbn [tget]. destruct (is_prefix (pre ++ b :: q) _) eqn:Ep; [|reflexivity].
          exfalso. apply Nd. apply is_prefix_iff in Ep. destruct Ep as (s & Es').
          exists (q ++ s). rewrite (has_skipn _ _ Hk'), Es', <- !app_assoc. reflexivity. }
    destruct (kbit k (length path + length pre)) eqn:B.
    + destruct (trem _ k r) as [z|] eqn:Ez; [|discriminate].
      destruct (IHr _ Wr k z Hb L Ez) as [Wz G].
      intros Et.
      assert (Hdec : forall k', has (path ++ pre ++ [false]) k' -> k <> k').
      { intros k' Hf <-. rewrite app_assoc in Hf, Hb. eapply has_disj; [exact Hf|exact Hb]. }
      assert (CASE : (z = PNull /\ t' = collapse pre l false) \/ (wfn (path ++ pre ++ [true]) z /\ t' = PInt pre l z)).
      { destruct z; injection Et as <-; auto; right; split; auto; destruct Wz as [Wz|Wz]; auto; discriminate. }
      destruct CASE as [[-> ->]|[Wz' ->]].
      * destruct (COL l false Wl) as [Wc Gc]. split; [right; exact Wc|].
        intros k' Hk' L'. rewrite Gc by assumption.
        destruct (has_dec _ k') as [Hd|Nd].
        -- rewrite (tget_int_child _ _ _ _ _ _ Hd).
           destruct (bytes_eq_dec k k') as [<-|]; [exfalso; eapply Hdec; eauto|reflexivity].
        -- destruct (int_cases path pre k' Hk' L' Hl) as [([|] & Hb')|[E' N]]; [|contradiction|].
           ++ rewrite (tget_int_child _ _ _ _ _ _ Hb'). specialize (G k' Hb' L'). cbn in G. exact G.
           ++ cbn [tget]. rewrite E'. destruct (bytes_eq_dec k k'); reflexivity.
      * split; [right; split; assumption|].
        intros k' Hk' L'.
        destruct (int_cases path pre k' Hk' L' Hl) as [([|] & Hb')|[E' N]].
        -- rewrite !(tget_int_child _ _ _ _ _ _ Hb'). apply G; assumption.
        -- rewrite !(tget_int_child _ _ _ _ _ _ Hb').
           destruct (bytes_eq_dec k k') as [<-|]; [exfalso; eapply Hdec; eauto|reflexivity].
        -- cbn [tget]. rewrite E'. destruct (bytes_eq_dec k k'); reflexivity.
    + destruct (trem _ k l) as [z|] eqn:Ez; [|discriminate].
      destruct (IHl _ Wl k z Hb L Ez) as [Wz G].
      intros Et.
      assert (Hdec : forall k', has (path ++ pre ++ [true]) k' -> k <> k').
      { intros k' Hf <-. rewrite app_assoc in Hf, Hb. eapply has_disj; [exact Hb|exact Hf]. }
      assert (CASE : (z = PNull /\ t' = collapse pre r true) \/ (wfn (path ++ pre ++ [false]) z /\ t' = PInt pre z r)).
      { destruct z; injection Et as <-; auto; right; split; auto; destruct Wz as [Wz|Wz]; auto; discriminate. }
      destruct CASE as [[-> ->]|[Wz' ->]].
      * destruct (COL r true Wr) as [Wc Gc]. split; [right; exact Wc|].
        intros k' Hk' L'. rewrite Gc by assumption.
        destruct (has_dec _ k') as [Hd|Nd].
        -- rewrite (tget_int_child _ _ _ _ _ _ Hd).
           destruct (bytes_eq_dec k k') as [<-|]; [exfalso; eapply Hdec; eauto|reflexivity].
        -- destruct (int_cases path pre k' Hk' L' Hl) as [([|] & Hb')|[E' N]]; [contradiction| |].
           ++ rewrite (tget_int_child _ _ _ _ _ _ Hb'). specialize (G k' Hb' L'). cbn in G. exact G.
           ++ cbn [tget]. rewrite E'. destruct (bytes_eq_dec k k'); reflexivity.
      * split; [right; split; assumption|].
        intros k' Hk' L'.
        destruct (int_cases path pre k' Hk' L' Hl) as [([|] & Hb')|[E' N]].
        -- rewrite !(tget_int_child _ _ _ _ _ _ Hb').
           destruct (bytes_eq_dec k k') as [<-|]; [exfalso; eapply Hdec; eauto|reflexivity].
        -- rewrite !(tget_int_child _ _ _ _ _ _ Hb'). apply G; assumption.
        -- cbn [tget]. rewrite E'. destruct (bytes_eq_dec k k'); reflexivity.
Qed.
