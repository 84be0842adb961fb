(** * A commit reads nothing from the data files (store.c 673-800, tree.c 479-575). *)
From Verif Require Export Local Backup.
From Coq Require Import ZifyBool ZifyNat ZifyN.
Local Opaque TREE_FUEL.

(** The same store with other files of the same lengths. *)
Definition twin (s s' : store) : Prop := exists fs', s' = on_files s fs' /\ map (@length byte) fs' = map (@length byte) (st_fs s).
Definition alike {A} (x y : res (A * store)) : Prop :=
  match x, y with
  | Ok (a, t), Ok (b, t') => a = b /\ twin t t'
  | Fail e, Fail e' => e = e'
  | Abort, Abort | UB, UB | NoFuel, NoFuel => True
  | _, _ => False
  end.
Lemma alike_bind {A B} (x y : res (A * store)) (f g : A * store -> res (B * store)) :
  alike x y -> (forall a t t', twin t t' -> alike (f (a, t)) (g (a, t'))) -> alike (bind x f) (bind y g).
Proof.
  intros X F. destruct x as [[a t]|e| | |], y as [[b t']|e'| | |]; cbn [alike bind] in *; try contradiction; try exact Logic.I; [|exact X].
  destruct X as [<- T]. apply F, T.
Qed.
Lemma alike_pure {A B} (x : res A) (f g : A -> res (B * store)) : (forall a, alike (f a) (g a)) -> alike (bind x f) (bind x g).
Proof. intros F. destruct x; cbn [bind alike]; auto. Qed.
Lemma alike_same {A} (x : A) t t' : twin t t' -> alike (Ok (x, t)) (Ok (x, t')).
Proof. intros T. split; [reflexivity|exact T]. Qed.

Lemma twin_fields s s' : twin s s' -> st_slab s' = st_slab s /\ st_key s' = st_key s /\ st_state s' = st_state s /\ st_cache s' = st_cache s /\
  st_index s' = st_index s /\ st_size s' = st_size s /\ st_io s' = st_io s /\ length (st_fs s') = length (st_fs s) /\
  forall i, length (fget (st_fs s') i) = length (fget (st_fs s) i).
Proof.
  intros (fs' & -> & E). destruct s. cbn in *. repeat (split; [reflexivity|]). split.
  - apply (f_equal (@length nat)) in E. rewrite !map_length in E. exact E.
  - intros i. unfold fget. rewrite <- (map_nth (@length byte) fs' [] i), E, map_nth. reflexivity.
Qed.
Lemma twin_slab s s' sl : twin s s' -> twin (set_slab s sl) (set_slab s' sl).
Proof. intros (fs' & -> & E). exists fs'. destruct s. split; [reflexivity|exact E]. Qed.
Lemma twin_io s s' io : twin s s' -> twin (set_io s io) (set_io s' io).
Proof. intros (fs' & -> & E). exists fs'. destruct s. split; [reflexivity|exact E]. Qed.
Lemma twin_cur s s' i n : twin s s' -> twin (set_cur s i n) (set_cur s' i n).
Proof. intros (fs' & -> & E). exists fs'. destruct s. split; [reflexivity|exact E]. Qed.
Lemma twin_state s s' m : twin s s' -> twin (set_state s m) (set_state s' m).
Proof. intros (fs' & -> & E). exists fs'. destruct s. split; [reflexivity|exact E]. Qed.
Lemma twin_cache s s' c : twin s s' -> twin (set_cache s c) (set_cache s' c).
Proof. intros (fs' & -> & E). exists fs'. destruct s. split; [reflexivity|exact E]. Qed.
Lemma twin_fs s s' A B l : twin s s' -> map (@length byte) B = map (@length byte) A -> twin (set_fs s A l) (set_fs s' B l).
Proof. intros (fs' & -> & _) E. exists B. destruct s. split; [reflexivity|exact E]. Qed.
Lemma twin_lengths s s' : twin s s' -> map (@length byte) (st_fs s') = map (@length byte) (st_fs s).
Proof. intros (fs' & -> & E). destruct s. exact E. Qed.
Lemma map_upd {A B} (f : A -> B) l : forall i x, map f (upd l i x) = upd (map f l) i (f x).
Proof. induction l as [|a l IH]; intros [|i] x; cbn [upd map]; try reflexivity. f_equal. apply IH. Qed.

Lemma file_write_twin s s' f d : twin s s' -> fst (file_write s' f d) = fst (file_write s f d) /\ twin (snd (file_write s f d)) (snd (file_write s' f d)).
Proof.
  intros T. pose proof (twin_fields _ _ T) as (E1 & E2 & E3 & E4 & E5 & E6 & E7 & E8 & E9). unfold file_write. rewrite E5, E6.
  assert (X : forall x, twin (set_fs s (upd (st_fs s) (N.to_nat (st_index s) - 1) (fget (st_fs s) (N.to_nat (st_index s) - 1) ++ x)) [OApp (N.to_nat (st_index s) - 1) x])
                             (set_fs s' (upd (st_fs s') (N.to_nat (st_index s) - 1) (fget (st_fs s') (N.to_nat (st_index s) - 1) ++ x)) [OApp (N.to_nat (st_index s) - 1) x])).
  { intros x. apply twin_fs; [exact T|]. rewrite !map_upd, !app_length, E9, (twin_lengths _ _ T). reflexivity. }
  destruct d as [|b d]; [split; [reflexivity|exact T]|]. destruct f; cbn [fst snd]; (split; [reflexivity|]); try apply twin_cur; apply X.
Qed.
Lemma store_write_twin s s' d : twin s s' -> alike (store_write s d) (store_write s' d).
Proof.
  intros T. unfold store_write. pose proof (twin_fields _ _ T) as (_ & _ & _ & _ & _ & _ & E7 & _). rewrite E7.
  set (f := match st_io s with x :: _ => x | [] => WOk end). clearbody f. cbv zeta.
  pose proof (twin_io _ _ (tl (st_io s)) T) as T1. set (t := set_io s (tl (st_io s))) in *. set (t' := set_io s' (tl (st_io s))) in *. clearbody t t'.
  pose proof (twin_fields _ _ T1) as (_ & _ & _ & _ & F5 & F6 & _ & F8 & _). rewrite F5, F6, F8.
  assert (Al : forall u u' g x, twin u u' -> alike (Ok (file_write u g x)) (Ok (file_write u' g x))).
  { intros u u' g x Tu. destruct (file_write_twin u u' g x Tu) as [A B]. destruct (file_write u g x), (file_write u' g x). split; [symmetry; exact A|exact B]. }
  destruct (MAX_FILE_SIZE <? _)%N; [|apply Al, T1].
  set (u := if (N.of_nat (length (st_fs t)) <? st_index t + 1)%N then set_fs t (st_fs t ++ [[]]) [ONew] else t).
  set (u' := if (N.of_nat (length (st_fs t)) <? st_index t + 1)%N then set_fs t' (st_fs t' ++ [[]]) [ONew] else t').
  assert (T2 : twin u u'). { unfold u, u'. destruct (_ <? _)%N; [|exact T1]. apply twin_fs; [exact T1|]. rewrite !map_app, (twin_lengths _ _ T1). reflexivity. }
  clearbody u u'. unfold check. pose proof (twin_fields _ _ T2) as (_ & _ & _ & _ & G5 & _ & _ & _ & G9). rewrite ?G5.
  assert (Bl : blen (fget (st_fs u') (N.to_nat (st_index u + 1) - 1)) = blen (fget (st_fs u) (N.to_nat (st_index u + 1) - 1))) by (unfold blen; rewrite G9; reflexivity).
  destruct f; try (apply alike_same; exact T1); (destruct (_ <? MAX_FILES)%N; [|exact Logic.I]); try (apply alike_same; exact T2);
    rewrite ?Bl; apply Al, twin_cur, T2.
Qed.
Lemma flush_loop_twin cs : forall s s' i d, twin s s' -> alike (flush_loop s i cs d) (flush_loop s' i cs d).
Proof.
  induction cs as [|n cs IH]; intros s s' i d T; cbn [flush_loop]; [apply alike_same, T|].
  apply alike_bind; [apply store_write_twin, T|]. intros [|] t t' Tt; [apply IH, Tt|apply alike_same, Tt].
Qed.
Lemma flush_twin s s' : twin s s' -> alike (store_flush s) (store_flush s').
Proof.
  intros T. unfold store_flush. cbv zeta. pose proof (twin_fields _ _ T) as (E1 & _). rewrite E1.
  apply alike_bind; [apply flush_loop_twin, T|]. intros [j|] t t' Tt; apply alike_same, twin_slab, Tt.
Qed.
Lemma write_node_twin s s' n : twin s s' -> alike (write_node s n) (write_node s' n).
Proof.
  intros T. unfold write_node. pose proof (twin_fields _ _ T) as (E1 & _). rewrite E1. apply alike_pure. intros raw.
  destruct n as [|h w p l r|h w k v vp|h w]; try exact Logic.I; destruct w; try exact Logic.I; apply alike_pure; intros sl; apply alike_same, twin_slab, T.
Qed.
Lemma write_value_twin s s' n : twin s s' -> alike (write_value s n) (write_value s' n).
Proof.
  intros T. unfold write_value. pose proof (twin_fields _ _ T) as (E1 & _). rewrite E1.
  destruct n as [|h w p l r|h w k [v|] [vp|]|h w]; try exact Logic.I; apply alike_pure; intros sl; apply alike_same, twin_slab, T.
Qed.

Section B.
Variable H : bytes -> bytes.
Variable C : bytes -> bytes -> bytes.

Definition ended (n : node) (s : store) : res (option node * store) :=
  let! (n, s, ok) := (if needs_flush s then let! (ok, s) := store_flush s in Ok (n, s, ok) else Ok (n, s, true)) in
  if negb ok then Ok (None, s) else
  let! (_, n) := node_hash H n in let! out := node_to_hash n in Ok (Some out, s).
Lemma ended_twin n s s' : twin s s' -> alike (ended n s) (ended n s').
Proof.
  intros T. unfold ended. pose proof (twin_fields _ _ T) as (E1 & _). unfold needs_flush. rewrite E1.
  assert (Tail : forall (ok : bool) t t', twin t t' ->
    alike (if negb ok then Ok (None, t) else let! (_, n) := node_hash H n in let! out := node_to_hash n in Ok (Some out, t))
          (if negb ok then Ok (None, t') else let! (_, n) := node_hash H n in let! out := node_to_hash n in Ok (Some out, t'))).
  { intros ok t t' Tt. destruct ok; cbn [negb]; [|apply alike_same, Tt]. apply alike_pure. intros [h m]. apply alike_pure. intros o. apply alike_same, Tt. }
  destruct (WRITE_BUFFER <=? _)%N; cbn [bind]; [|exact (Tail true _ _ T)].
  pose proof (flush_twin _ _ T) as X. destruct (store_flush s) as [[a t]|e| | |], (store_flush s') as [[b t']|e'| | |]; cbn [alike bind] in X |- *; try contradiction; try exact Logic.I; [|exact X].
  destruct X as [<- Tt]. exact (Tail a _ _ Tt).
Qed.
Lemma tree_write_twin n : forall s s', twin s s' -> alike (tree_write H s n) (tree_write H s' n).
Proof.
  assert (Tail : forall n t t', twin t t' ->
    alike (let! (_, n) := node_hash H n in let! out := node_to_hash n in Ok (Some out, t)) (let! (_, n) := node_hash H n in let! out := node_to_hash n in Ok (Some out, t'))).
  { intros m t t' Tt. apply alike_pure. intros [h m2]. apply alike_pure. intros o. apply alike_same, Tt. }
  assert (Fin : forall (m : node) t t', twin t t' ->
    alike (let! (n, s) := write_node t m in ended n s) (let! (n, s) := write_node t' m in ended n s)).
  { intros m t t' Tt. apply alike_bind; [apply write_node_twin, Tt|]. intros a u u' Tu. apply ended_twin, Tu. }
  assert (Assoc : forall (x : res (node * store)),
    (let! (n, s, ok) := (let! (n, s) := x in if needs_flush s then let! (ok, s) := store_flush s in Ok (n, s, ok) else Ok (n, s, true)) in
     if negb ok then Ok (None, s) else let! (_, n) := node_hash H n in let! out := node_to_hash n in Ok (Some out, s)) = (let! (n, s) := x in ended n s)).
  { intros x. destruct x as [[m t]| | | |]; reflexivity. }
  induction n as [|h w p l IHl r IHr|h w k v vp|h w]; intros s s' T; cbn [tree_write].
  - apply alike_same, T.
  - apply alike_bind; [apply IHl, T|]. intros [l'|] t t' Tt; [|apply alike_same, Tt].
    apply alike_bind; [apply IHr, Tt|]. intros [r'|] u u' Tu; [|apply alike_same, Tu]. cbv zeta.
    destruct w as [w|]; [cbn [bind negb]; apply Tail, Tu|]. rewrite !Assoc. apply Fin, Tu.
  - destruct w as [w|]; [cbn [bind negb]; apply Tail, T|].
    assert (X : forall z, (let! (n, s, ok) := (let! (n, s) := write_value z (NLeaf h None k v vp) in let! (n, s) := write_node s n in
                 if needs_flush s then let! (ok, s) := store_flush s in Ok (n, s, ok) else Ok (n, s, true)) in
               if negb ok then Ok (None, s) else let! (_, n) := node_hash H n in let! out := node_to_hash n in Ok (Some out, s)) =
              (let! (n, s) := write_value z (NLeaf h None k v vp) in let! (n, s) := write_node s n in ended n s)).
    { intros z. destruct (write_value z _) as [[m t]| | | |]; cbn [bind]; try reflexivity. apply Assoc. }
    rewrite !X. apply alike_bind; [apply write_value_twin, T|]. intros m t t' Tt. apply Fin, Tt.
  - apply alike_same, T.
Qed.
Lemma write_meta_twin s s' n : twin s s' -> alike (write_meta C s n) (write_meta C s' n).
Proof.
  intros T. unfold write_meta. pose proof (twin_fields _ _ T) as (E1 & E2 & E3 & _). destruct (written n); [|exact Logic.I]. rewrite E1, E2, E3.
  apply alike_pure. intros rn. cbv zeta. apply alike_pure. intros sl. apply alike_pure. intros sl2. apply alike_same, twin_slab, T.
Qed.
Lemma tree_commit_twin s s' n : twin s s' -> alike (tree_commit H C s n) (tree_commit H C s' n).
Proof.
  intros T. unfold tree_commit. apply alike_bind; [apply tree_write_twin, T|]. intros [root|] t t' Tt; [|apply alike_same, Tt].
  apply (alike_bind (store_commit C t root) (store_commit C t' root)).
  - unfold store_commit. apply alike_bind; [apply write_meta_twin, Tt|]. intros mt u u' Tu. apply alike_bind; [apply flush_twin, Tu|].
    intros [|] v v' Tv; cbn [negb]; [|apply alike_same, Tv]. cbv zeta. pose proof (twin_fields _ _ Tv) as (_ & _ & _ & E4 & _).
    destruct v as [v1 v2 v3 v4 v5 v6 v7 v8 v9 v10], v' as [q1 q2 q3 q4 q5 q6 q7 q8 q9 q10]. cbn [set_state st_cache] in E4 |- *. subst q7.
    destruct (m_node mt); try (apply alike_same; exact (twin_state _ _ mt Tv)); apply alike_pure; intros c; apply alike_same; exact (twin_cache _ _ c (twin_state _ _ mt Tv)).
  - intros ok u u' Tu. destruct ok; apply alike_same, Tu.
Qed.
End B.
