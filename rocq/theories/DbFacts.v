(** * The model refines the specification. *)
From Verif Require Export Exec RecoverFacts Bridge.
From Coq Require Import ZifyBool ZifyNat ZifyN Permutation.

(** ** Contents and trees *)
Definition stands (l : recs) (t : ptree) : Prop :=
  records l /\ wft t /\ forall x, In x l <-> In x (elems t).

Lemma find_lookup l k : NoDup (map fst l) -> forall v, lookup l k = Some v <-> In (k, v) l.
Proof.
  unfold lookup. induction l as [|[k0 v0] l IH]; intros ND v; [cbn; split; [discriminate|contradiction]|].
  cbn [map fst] in ND. inversion ND as [|? ? Nk ND']; subst. cbn [find fst].
  destruct (bytes_eqb_spec k0 k) as [->|N].
  - cbn [snd]. split.
    + intros X. left. congruence.
    + intros [X|X]; [congruence|]. exfalso. apply Nk. apply in_map_iff. exists (k, v). auto.
  - rewrite IH by exact ND'. cbn [In]. split; [auto|]. intros [X|X]; [congruence|exact X].
Qed.

Lemma lookup_none l k : NoDup (map fst l) -> lookup l k = None <-> forall v, ~ In (k, v) l.
Proof.
  intros ND. split.
  - intros E v I. apply find_lookup in I; [|exact ND]. congruence.
  - intros N. destruct (lookup l k) as [v|] eqn:E; [|reflexivity]. apply find_lookup in E; [|exact ND]. destruct (N v E).
Qed.

Lemma lookup_tget l t k : stands l t -> length k = 32 -> lookup l k = tget 0 t k.
Proof.
  intros ([ND _] & W & E) L. destruct (tget 0 t k) as [v|] eqn:Eg.
  - apply find_lookup; [exact ND|]. apply E. apply wft_get_in; assumption.
  - apply lookup_none; [exact ND|]. intros v I. apply E in I. apply wft_get_in in I; [congruence|assumption|assumption].
Qed.

Lemma in_del l k x : In x (del l k) <-> In x l /\ fst x <> k.
Proof.
  unfold del. rewrite filter_In. destruct (bytes_eqb_spec (fst x) k) as [E|E]; cbn [negb]; intuition congruence.
Qed.
Lemma nodup_del l k : NoDup (map fst l) -> NoDup (map fst (del l k)).
Proof. apply nodup_filter_map. Qed.
Lemma records_del l k : records l -> records (del l k).
Proof.
  intros [ND F]. split; [apply nodup_del, ND|]. apply Forall_forall. intros x I. apply in_del in I.
  rewrite Forall_forall in F. apply F, I.
Qed.
Lemma records_put l k v : records l -> length k = 32 -> records (put l k v).
Proof.
  intros R L. destruct (records_del l k R) as [ND F]. split.
  - unfold put. cbn [map fst]. constructor; [|exact ND]. intros X. apply in_map_iff in X. destruct X as (x & E & I).
    apply in_del in I. now apply (proj2 I).
  - constructor; assumption.
Qed.

Lemma stands_lookups l t : records l -> wft t -> (forall k, length k = 32 -> lookup l k = tget 0 t k) -> stands l t.
Proof.
  intros R W E. split; [exact R|]. split; [exact W|]. intros [k v]. destruct R as [ND F]. split; intros I.
  - assert (L : length k = 32). { rewrite Forall_forall in F. exact (F _ I). }
    apply wft_get_in; [exact W|exact L|]. rewrite <- E by exact L. apply find_lookup; assumption.
  - pose proof (wft_elems_len t W k v I) as L. apply wft_get_in in I; [|exact W|exact L].
    apply find_lookup; [exact ND|]. rewrite E by exact L. exact I.
Qed.

Lemma lookup_put l k v k' : lookup (put l k v) k' = if bytes_eq_dec k k' then Some v else lookup l k'.
Proof.
  unfold lookup, put. cbn [find fst]. destruct (bytes_eqb_spec k k') as [E|E]; destruct (bytes_eq_dec k k') as [X|X]; try congruence; [reflexivity|].
  unfold del. clear X. induction l as [|[k0 v0] l IH]; [reflexivity|]. cbn [filter fst].
  destruct (bytes_eqb_spec k0 k) as [->|N]; cbn [negb find fst].
  - destruct (bytes_eqb_spec k k'); [congruence|]. exact IH.
  - destruct (bytes_eqb_spec k0 k'); [reflexivity|exact IH].
Qed.
Lemma lookup_del l k k' : lookup (del l k) k' = if bytes_eq_dec k k' then None else lookup l k'.
Proof.
  unfold lookup, del. induction l as [|[k0 v0] l IH]; [destruct (bytes_eq_dec k k'); reflexivity|]. cbn [filter fst].
  destruct (bytes_eqb_spec k0 k) as [->|N]; cbn [negb find fst].
  - destruct (bytes_eqb_spec k k') as [E|E]; destruct (bytes_eq_dec k k'); try congruence; exact IH.
  - destruct (bytes_eqb_spec k0 k') as [->|E]; [destruct (bytes_eq_dec k k'); [congruence|reflexivity]|exact IH].
Qed.

Lemma stands_put l t k v : stands l t -> length k = 32 -> stands (put l k v) (tins 0 k v t).
Proof.
  intros S L. pose proof S as (R & W & _). destruct (tins_wft t k v W L) as [W' G].
  apply stands_lookups; [apply records_put; assumption|exact W'|]. intros k' L'. rewrite lookup_put, G by exact L'.
  destruct (bytes_eq_dec k k'); [reflexivity|]. apply lookup_tget; assumption.
Qed.
Lemma stands_same l t k v : stands l t -> length k = 32 -> tget 0 t k = Some v -> stands (put l k v) t.
Proof.
  intros S L G. pose proof S as (R & W & _). apply stands_lookups; [apply records_put; assumption|exact W|].
  intros k' L'. rewrite lookup_put. destruct (bytes_eq_dec k k') as [<-|N]; [congruence|]. apply lookup_tget; assumption.
Qed.
Lemma stands_del l t k t' : stands l t -> length k = 32 -> trem 0 k t = Some t' -> stands (del l k) t'.
Proof.
  intros S L E. pose proof S as (R & W & _). pose proof (trem_wft t k W L) as T. rewrite E in T. destruct T as (_ & W' & G).
  apply stands_lookups; [apply records_del, R|exact W'|]. intros k' L'. rewrite lookup_del, G by exact L'.
  destruct (bytes_eq_dec k k'); [reflexivity|]. apply lookup_tget; assumption.
Qed.
Lemma stands_nil : stands [] PNull.
Proof. split; [split; constructor|]. split; [now left|]. intros x. reflexivity. Qed.

Lemma vals_le_stands n l t : stands l t -> Forall (fun e => length (snd e) <= n) l -> vals_le n t.
Proof. intros (_ & _ & E) F k v I. apply E in I. rewrite Forall_forall in F. exact (F _ I). Qed.
Lemma vals_le_back n l t : stands l t -> vals_le n t -> Forall (fun e => length (snd e) <= n) l.
Proof. intros (_ & _ & E) F. apply Forall_forall. intros [k v] I. apply E in I. exact (F _ _ I). Qed.

Lemma stands_perm l t : stands l t -> Permutation l (elems t).
Proof.
  intros ([ND _] & W & E). apply NoDup_Permutation.
  - apply (NoDup_map_inv _ _ ND).
  - apply (NoDup_map_inv fst). apply (elems_records t W).
  - exact E.
Qed.
Lemma list_sum_perm a b : Permutation a b -> list_sum a = list_sum b.
Proof. induction 1; unfold list_sum in *; cbn [fold_right]; lia. Qed.
Lemma tcost_elems path t : wfn path t -> tcost t + 113 = list_sum (map (fun e => 226 + length (snd e)) (elems t)).
Proof.
  revert path. induction t as [|k v|pre l IHl r IHr]; intros path W.
  - contradiction W.
  - unfold list_sum. cbn [elems map snd fold_right tcost]. lia.
  - destruct W as [Wl Wr]. cbn [elems tcost]. rewrite map_app, list_sum_app, <- (IHl _ Wl), <- (IHr _ Wr). lia.
Qed.
Lemma tcost_weight l t : stands l t -> (N.of_nat (tcost t + 75) <= weight l)%N.
Proof.
  intros S. unfold weight. pose proof (stands_perm l t S) as P. destruct S as (_ & W & _).
  rewrite (list_sum_perm _ _ (Permutation_map _ P)). destruct W as [->|W]; [cbn; lia|].
  pose proof (tcost_elems _ _ W). lia.
Qed.

Section D.
Variable H : bytes -> bytes.
Hypothesis H_len : forall m, length (H m) = 32.
Variable C : bytes -> bytes -> bytes.
Hypothesis C_len : forall k m, length (C k m) = 20.

Lemma stands_root l t : stands l t -> ref_root H l = thash H t /\ ref_msgs H l = msgs H t.
Proof. intros (R & W & E). apply ref_root_tree; assumption. Qed.

(** ** Node structures and contents *)
Definition holds (s : store) (n : node) (l : recs) : Prop :=
  exists t, rep H (st_rd s) n t /\ stands l t /\ vals_le 1023 t.

Lemma holds_mono s s' n l : rmono s s' -> holds s n l -> holds s' n l.
Proof. intros M (t & R & S & V). exists t. split; [|auto]. revert R. apply rep_mono. exact M. Qed.

Lemma tx_get_ok d n l k : holds (d_store d) n l -> length k = 32 -> tx_get d n k = Ok (get_answer l k).
Proof.
  intros (t & R & S & V) L. unfold tx_get, get_answer. rewrite (lookup_tget l t k S L).
  rewrite (get_root_rep H H_len _ n t k true R (proj1 (proj2 S)) V L). destruct (tget 0 t k); reflexivity.
Qed.
Lemma tx_has_ok d n l k : holds (d_store d) n l -> length k = 32 -> tx_has d n k = Ok (has_answer l k).
Proof.
  intros (t & R & S & V) L. unfold tx_has, has_answer. rewrite (lookup_tget l t k S L).
  rewrite (get_root_rep H H_len _ n t k false R (proj1 (proj2 S)) V L). destruct (tget 0 t k); reflexivity.
Qed.
Lemma tx_root_ok s n l : holds s n l -> exists n', tx_root H n = Ok (AHash (ref_root H l), n') /\ holds s n' l.
Proof.
  intros (t & R & S & V). destruct (node_hash_rep H _ n t R) as (n' & E & R' & _). exists n'.
  unfold tx_root. rewrite E, (proj1 (stands_root l t S)). split; [reflexivity|]. exists t. auto.
Qed.
Lemma tx_insert_ok d n l k v : holds (d_store d) n l -> length k = 32 -> length v <= 1023 ->
  exists n', tx_insert H d n k v = Ok (AOk, n') /\ holds (d_store d) n' (put l k v).
Proof.
  intros (t & R & S & V) L Lv. unfold tx_insert. destruct (Nat.ltb_spec 1023 (length v)) as [X|_]; [lia|].
  destruct (insert_root_rep H H_len _ n t k v R (proj1 (proj2 S)) L) as [(n' & E & R')|(E & G)]; rewrite E.
  - exists n'. split; [reflexivity|]. exists (tins 0 k v t). split; [exact R'|].
    pose proof (stands_put l t k v S L) as S'. split; [exact S'|].
    apply (vals_le_stands _ _ _ S'). constructor; [exact Lv|]. apply Forall_forall. intros x I. apply in_del in I.
    pose proof (vals_le_back _ _ _ S V) as F. rewrite Forall_forall in F. apply F, I.
  - exists n. split; [reflexivity|]. exists t. split; [exact R|]. split; [|exact V]. apply stands_same; assumption.
Qed.
Lemma tx_insert_long d n k v : 1023 < length v -> tx_insert H d n k v = Ok (AErr EINVAL, n).
Proof. intros L. unfold tx_insert. destruct (Nat.ltb_spec 1023 (length v)) as [_|X]; [reflexivity|lia]. Qed.
Lemma tx_remove_ok d n l k : holds (d_store d) n l -> length k = 32 ->
  match lookup l k with
  | Some _ => exists n', tx_remove d n k = Ok (AOk, n') /\ holds (d_store d) n' (del l k)
  | None => tx_remove d n k = Ok (AErr ENOTFOUND, n)
  end.
Proof.
  intros (t & R & S & V) L. rewrite (lookup_tget l t k S L). unfold tx_remove.
  pose proof (remove_root_rep H H_len _ n t k R (proj1 (proj2 S)) L) as E.
  pose proof (trem_wft t k (proj1 (proj2 S)) L) as T. destruct (trem 0 k t) as [t'|] eqn:Et.
  - destruct T as (T & _). destruct (tget 0 t k) as [v|]; [|congruence]. destruct E as (n' & E & R'). rewrite E.
    exists n'. split; [reflexivity|]. exists t'. split; [exact R'|]. pose proof (stands_del l t k t' S L Et) as S'. split; [exact S'|].
    apply (vals_le_stands _ _ _ S'). apply Forall_forall. intros x I. apply in_del in I.
    pose proof (vals_le_back _ _ _ S V) as F. rewrite Forall_forall in F. apply F, I.
  - rewrite T, E. reflexivity.
Qed.

(** The proof depends on the contents only. *)
Definition proof_bytes (l : recs) (k raw : bytes) : Prop :=
  forall t, stands l t -> proof_write (the_proof H t k) = Ok raw.
Lemma stands_fun l t t' : stands l t -> stands l t' -> t = t'.
Proof. intros S S'. apply wft_unique; [exact (proj1 (proj2 S))|exact (proj1 (proj2 S'))|].
  intros x L. rewrite <- (lookup_tget _ _ _ S L), <- (lookup_tget _ _ _ S' L). reflexivity. Qed.

Lemma tx_prove_ok d n l k : holds (d_store d) n l -> length k = 32 ->
  exists raw n', tx_prove H d n k = Ok (AProof raw, n') /\ holds (d_store d) n' l /\ proves H l k (AProof raw) /\ proof_bytes l k raw.
Proof.
  intros (t & R & S & V) L. unfold tx_prove.
  destruct (prove_root_rep H H_len _ n t k R (proj1 (proj2 S)) V L) as (n' & E & R'). rewrite E.
  destruct (the_proof_ok H H_len t k (proj1 (proj2 S)) V L) as (O & _ & raw & Ew & Ev).
  destruct (proof_size_ok _ O) as (raw' & E1 & E2 & E3). rewrite Ew in E1. apply Ok_inj in E1. subst raw'.
  rewrite E2, Ew. cbn [bind]. rewrite Nat.eqb_refl. exists raw, n'. split; [reflexivity|].
  split; [exists t; auto|]. split.
  - exists raw. split; [reflexivity|]. split; [exact E3|]. rewrite (proj1 (stands_root l t S)), (lookup_tget l t k S L). exact Ev.
  - intros t' S'. rewrite (stands_fun _ _ _ S' S). exact Ew.
Qed.
End D.
