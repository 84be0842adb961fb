(** * Which bytes of the data files a lookup depends on. *)
From Verif Require Export Sim.
From Coq Require Import ZifyBool ZifyNat ZifyN.
Local Opaque TREE_FUEL.

(** ** The records read by get, has and prove: one list for the three of them *)
Section L.
Variable H : bytes -> bytes.
Hypothesis H_len : forall m, length (H m) = 32.

(** The pointers given to urkel_store_read (store.c 508-520) by urkel_tree_get and
    urkel_tree_prove (tree.c 78-148, 383-477): one per resolved node, and the value of the leaf. *)
Fixpoint visited (rd : ptr -> option bytes) (fuel : nat) (n : node) (key : bytes) (depth : nat) : list ptr :=
  match fuel with
  | O => []
  | S fuel =>
    match n with
    | NNull => []
    | NInt _ _ p l r =>
      match bits_has p key depth with
      | Ok true =>
        match get_bit key (depth + bsize p) with
        | Ok bit => visited rd fuel (child l r bit) key (depth + bsize p + 1)
        | _ => []
        end
      | _ => []
      end
    | NLeaf _ _ _ None (Some q) => if (1023 <? psize q)%N then [] else [q]
    | NLeaf _ _ _ _ _ => []
    | NHash h w =>
      (if (psize w =? 0)%N || (113 <? psize w)%N then [] else [w]) ++
      match resolve rd h w with Ok (Some rn) => visited rd fuel rn key depth | _ => [] end
    end
  end.

Definition agree (rd rd' : ptr -> option bytes) (L : list ptr) : Prop := forall p, In p L -> rd' p = rd p.
Lemma agree_l rd rd' a b : agree rd rd' (a ++ b) -> agree rd rd' a.
Proof. intros A p I. apply A, in_or_app. auto. Qed.
Lemma agree_r rd rd' a b : agree rd rd' (a ++ b) -> agree rd rd' b.
Proof. intros A p I. apply A, in_or_app. auto. Qed.

Lemma resolve_agree rd rd' h w : agree rd rd' (if (psize w =? 0)%N || (113 <? psize w)%N then [] else [w]) -> resolve rd' h w = resolve rd h w.
Proof.
  unfold resolve, read_node. destruct ((psize w =? 0)%N || (113 <? psize w)%N); [reflexivity|].
  intros A. rewrite (A w) by now left. reflexivity.
Qed.
Lemma retrieve_agree rd rd' v vp : agree rd rd' (match v, vp with None, Some q => if (1023 <? psize q)%N then [] else [q] | _, _ => [] end) ->
  retrieve rd' v vp = retrieve rd v vp.
Proof.
  unfold retrieve. destruct v as [x|]; [reflexivity|]. destruct vp as [q|]; [|reflexivity]. destruct (1023 <? psize q)%N; [reflexivity|].
  intros A. now rewrite (A q) by now left.
Qed.

Lemma get_agree rd rd' key want fuel : forall n depth, agree rd rd' (visited rd fuel n key depth) ->
  tree_get rd' fuel n key depth want = tree_get rd fuel n key depth want.
Proof.
  induction fuel as [|fuel IH]; intros n depth A; [reflexivity|]. cbn [tree_get visited] in A |- *.
  destruct n as [|h w p l r|h w k v vp|h w]; [reflexivity| | |].
  - destruct (bits_has p key depth) as [[|]| | | |]; cbn [bind negb]; try reflexivity.
    destruct (get_bit key (depth + bsize p)) as [bit| | | |]; cbn [bind]; try reflexivity. apply IH, A.
  - destruct (negb (bytes_eqb k key)); [reflexivity|]. destruct want; [|reflexivity].
    rewrite (retrieve_agree rd rd'); [reflexivity|]. destruct v; [intros ? []|exact A].
  - rewrite (resolve_agree rd rd') by (eapply agree_l, A). apply agree_r in A.
    destruct (resolve rd h w) as [[rn|]| | | |]; cbn [bind]; try reflexivity. apply IH, A.
Qed.
Lemma prove_agree rd rd' key fuel : forall acc n depth, agree rd rd' (visited rd fuel n key depth) ->
  tree_prove H rd' fuel acc n key depth = tree_prove H rd fuel acc n key depth.
Proof.
  induction fuel as [|fuel IH]; intros acc n depth A; [reflexivity|]. cbn [tree_prove visited] in A |- *.
  destruct n as [|h w p l r|h w k v vp|h w]; [reflexivity| | |].
  - destruct (bits_has p key depth) as [[|]| | | |]; cbn [bind negb]; try reflexivity.
    destruct (get_bit key (depth + bsize p)) as [bit| | | |]; cbn [bind]; try reflexivity.
    destruct (node_hash H (child l r (negb bit))) as [[yh y]| | | |]; cbn [bind]; try reflexivity.
    destruct (proof_push acc p yh) as [acc'| | | |]; cbn [bind]; try reflexivity. rewrite IH by exact A. reflexivity.
  - rewrite (retrieve_agree rd rd'); [reflexivity|]. destruct v; [intros ? []|exact A].
  - rewrite (resolve_agree rd rd') by (eapply agree_l, A). apply agree_r in A.
    destruct (resolve rd h w) as [[rn|]| | | |]; cbn [bind]; try reflexivity. rewrite IH by exact A. reflexivity.
Qed.

(** ** The records read by insert and remove *)
Definition sibling (y : node) : list ptr :=
  match y with NHash _ w => if (psize w =? 0)%N || (113 <? psize w)%N then [] else [w] | _ => [] end.
(** urkel_tree_insert (tree.c 150-268): the nodes on the path. *)
Fixpoint read_insert (rd : ptr -> option bytes) (fuel : nat) (n : node) (key : bytes) (depth : nat) : list ptr :=
  match fuel with
  | O => []
  | S fuel =>
    match n with
    | NInt _ _ p l r =>
      match bits_count p key depth with
      | Ok c =>
        if negb (c =? bsize p) then [] else
        match get_bit key (depth + c) with
        | Ok bit => read_insert rd fuel (child l r bit) key (depth + c + 1)
        | _ => []
        end
      | _ => []
      end
    | NHash h w =>
      sibling n ++ match resolve rd h w with Ok (Some rn) => read_insert rd fuel rn key depth | _ => [] end
    | _ => []
    end
  end.
(** urkel_tree_remove (tree.c 270-381): the nodes on the path, and the sibling of a removed leaf. *)
Fixpoint read_remove (rd : ptr -> option bytes) (fuel : nat) (n : node) (key : bytes) (depth : nat) : list ptr :=
  match fuel with
  | O => []
  | S fuel =>
    match n with
    | NInt _ _ p l r =>
      match bits_has p key depth with
      | Ok true =>
        match get_bit key (depth + bsize p) with
        | Ok bit =>
          read_remove rd fuel (child l r bit) key (depth + bsize p + 1) ++
          match tree_remove rd fuel (child l r bit) key (depth + bsize p + 1) with
          | Ok NNull => sibling (child l r (negb bit))
          | _ => []
          end
        | _ => []
        end
      | _ => []
      end
    | NHash h w =>
      sibling n ++ match resolve rd h w with Ok (Some rn) => read_remove rd fuel rn key depth | _ => [] end
    | _ => []
    end
  end.

Lemma insert_agree rd rd' key value fuel : forall n depth, agree rd rd' (read_insert rd fuel n key depth) ->
  tree_insert H rd' fuel n key value depth = tree_insert H rd fuel n key value depth.
Proof.
  induction fuel as [|fuel IH]; intros n depth A; [reflexivity|]. cbn [tree_insert read_insert] in A |- *.
  destruct n as [|h w p l r|h w k v vp|h w]; [reflexivity| |reflexivity|].
  - destruct (bits_count p key depth) as [c| | | |]; cbn [bind]; try reflexivity.
    destruct (get_bit key (depth + c)) as [bit| | | |]; cbn [bind]; try reflexivity.
    destruct (negb (c =? bsize p)); [reflexivity|]. rewrite IH by exact A. reflexivity.
  - rewrite (resolve_agree rd rd') by (eapply agree_l, A). apply agree_r in A.
    destruct (resolve rd h w) as [[rn|]| | | |]; cbn [bind]; try reflexivity. apply IH, A.
Qed.
Lemma remove_agree rd rd' key fuel : forall n depth, agree rd rd' (read_remove rd fuel n key depth) ->
  tree_remove rd' fuel n key depth = tree_remove rd fuel n key depth.
Proof.
  induction fuel as [|fuel IH]; intros n depth A; [reflexivity|]. cbn [tree_remove read_remove] in A |- *.
  destruct n as [|h w p l r|h w k v vp|h w]; [reflexivity| |reflexivity|].
  - destruct (bits_has p key depth) as [[|]| | | |]; cbn [bind negb]; try reflexivity.
    destruct (get_bit key (depth + bsize p)) as [bit| | | |]; cbn [bind]; try reflexivity.
    rewrite IH by (eapply agree_l, A). apply agree_r in A.
    destruct (tree_remove rd fuel (child l r bit) key (depth + bsize p + 1)) as [z| | | |]; cbn [bind]; try reflexivity.
    destruct z; try reflexivity. destruct (child l r (negb bit)) as [| | |h' w']; try reflexivity. rewrite (resolve_agree rd rd') by exact A. reflexivity.
  - rewrite (resolve_agree rd rd') by (eapply agree_l, A). apply agree_r in A.
    destruct (resolve rd h w) as [[rn|]| | | |]; cbn [bind]; try reflexivity. apply IH, A.
Qed.

(** ** How many there are *)
Fixpoint bytes_of (L : list ptr) : N := match L with [] => 0 | p :: r => psize p + bytes_of r end%N.
Lemma bytes_of_app a b : bytes_of (a ++ b) = (bytes_of a + bytes_of b)%N.
Proof. induction a as [|p a IH]; [reflexivity|]. cbn [app bytes_of]. rewrite IH. lia. Qed.

(** [m] more nodes of the tree may be looked at. *)
Definition few (m : nat) (L : list ptr) : Prop := length L <= Datatypes.S m /\ (bytes_of L <= 113 * N.of_nat m + 1023)%N.
Lemma few_nil m : few m []. Proof. split; cbn; lia. Qed.
Lemma few_le m m' L : few m L -> m <= m' -> few m' L. Proof. intros [A B] M. split; lia. Qed.
Lemma few_cons m L w : few m L -> few (Datatypes.S m) ((if (psize w =? 0)%N || (113 <? psize w)%N then [] else [w]) ++ L).
Proof.
  intros [A B]. destruct (N.eqb_spec (psize w) 0) as [E|E]; cbn [orb]; [split; cbn [app]; lia|].
  destruct (N.ltb_spec 113 (psize w)) as [F|F]; cbn [app]; [split; lia|]. unfold few. cbn [length bytes_of]. split; lia.
Qed.

Definition limit (path : list bool) (t : ptree) : nat := Nat.min (257 - length path) (length (elems t)).
Lemma limit_pos path t : wfn path t -> 1 <= limit path t.
Proof.
  intros W. pose proof (wfn_len _ _ W). destruct (wfn_nonempty _ _ W) as (k & v & I). unfold limit.
  destruct (elems t); [contradiction I|cbn [length]]. lia.
Qed.
Lemma limit_child path pre l r (b : bool) : wfn path (PInt pre l r) ->
  Datatypes.S (limit (path ++ pre ++ [b]) (if b then r else l)) <= limit path (PInt pre l r).
Proof.
  intros W. pose proof (wfn_len _ _ W) as L. destruct W as [Wl Wr]. pose proof (wfn_len _ _ Wl) as Ll. pose proof (wfn_len _ _ Wr) as Lr.
  destruct (wfn_nonempty _ _ Wl) as (k1 & v1 & I1). destruct (wfn_nonempty _ _ Wr) as (k2 & v2 & I2).
  unfold limit. cbn [elems]. rewrite !app_length in *. cbn [length] in *.
  destruct b; destruct (elems l) as [|x1 y1]; destruct (elems r) as [|x2 y2]; try contradiction; cbn [length]; lia.
Qed.

Lemma visited_few rd key fuel : forall n t path depth, rep H rd n t -> wfn path t ->
  match n with NHash _ _ => few (limit path t) (visited rd fuel n key depth)
             | _ => few (pred (limit path t)) (visited rd fuel n key depth) end.
Proof.
  induction fuel as [|fuel IH]; intros n t path depth R W.
  { destruct n; apply few_nil. }
  pose proof (limit_pos path t W) as LP. cbn [visited]. destruct n as [|h w p l r|h w k v vp|h w].
  - apply few_nil.
  - destruct R as (pre & tl & tr & -> & _ & _ & -> & Rl & Rr).
    destruct (bits_has _ key depth) as [[|]| | | |]; try apply few_nil. destruct (get_bit key _) as [bit| | | |]; try apply few_nil.
    pose proof (limit_child path pre tl tr bit W) as LC. destruct W as [Wl Wr].
    assert (X : forall c tc, rep H rd c tc -> wfn (path ++ pre ++ [bit]) tc -> Datatypes.S (limit (path ++ pre ++ [bit]) tc) <= limit path (PInt pre tl tr) ->
      few (pred (limit path (PInt pre tl tr))) (visited rd fuel c key (depth + bsize (of_bools pre) + 1))).
    { intros c tc Rc Wc Lc. specialize (IH c tc _ (depth + bsize (of_bools pre) + 1) Rc Wc). destruct c; (eapply few_le; [exact IH|lia]). }
    destruct bit; eapply X; eauto.
  - destruct R as (x & -> & _). destruct v as [v|]; [apply few_nil|]. destruct vp as [q|]; [|apply few_nil].
    destruct (N.ltb_spec 1023 (psize q)) as [E|E]; [apply few_nil|]. split; cbn [length bytes_of]; lia.
  - destruct R as [-> D]. destruct (resolve_rep H H_len rd t w D) as (rn & -> & Rn & N1 & _).
    pose proof (few_cons (pred (limit path t)) (visited rd fuel rn key depth) w) as Fc.
    replace (Datatypes.S (pred (limit path t))) with (limit path t) in Fc by lia. apply Fc.
    specialize (IH rn t path depth Rn W). destruct rn; try exact IH. exfalso. eapply N1. reflexivity.
Qed.
Lemma visited_root rd key n t : rep H rd n t -> wft t ->
  few (Nat.min 257 (length (elems t))) (visited rd TREE_FUEL n key 0).
Proof.
  intros R [->|W].
  - apply rep_null in R. subst n. destruct TREE_FUEL; apply few_nil.
  - pose proof (visited_few rd key TREE_FUEL n t [] 0 R W) as V. unfold limit in V. cbn [length] in V. rewrite Nat.sub_0_r in V.
    destruct n; (eapply few_le; [exact V|lia]).
Qed.
(** At most [m] nodes. *)
Definition only (m : nat) (L : list ptr) : Prop := length L <= m /\ (bytes_of L <= 113 * N.of_nat m)%N.
Lemma only_nil m : only m []. Proof. split; cbn; lia. Qed.
Lemma only_le m m' L : only m L -> m <= m' -> only m' L. Proof. intros [A B] M. split; lia. Qed.
Lemma only_app m m' a b : only m a -> only m' b -> only (m + m') (a ++ b).
Proof. intros [A B] [A' B']. split; [rewrite app_length; lia|rewrite bytes_of_app; lia]. Qed.
Lemma only_sibling y : only 1 (sibling y).
Proof.
  destruct y as [| | |h w]; try apply only_nil. cbn [sibling]. destruct (N.eqb_spec (psize w) 0) as [E|E]; cbn [orb]; [apply only_nil|].
  destruct (N.ltb_spec 113 (psize w)) as [F|F]; [apply only_nil|]. split; cbn [length bytes_of]; lia.
Qed.

Lemma read_insert_few rd key fuel : forall n t path depth, rep H rd n t -> wfn path t ->
  match n with NHash _ _ => only (limit path t) (read_insert rd fuel n key depth)
             | _ => only (pred (limit path t)) (read_insert rd fuel n key depth) end.
Proof.
  induction fuel as [|fuel IH]; intros n t path depth R W.
  { destruct n; apply only_nil. }
  pose proof (limit_pos path t W) as LP. cbn [read_insert]. destruct n as [|h w p l r|h w k v vp|h w].
  - apply only_nil.
  - destruct R as (pre & tl & tr & -> & _ & _ & -> & Rl & Rr).
    destruct (bits_count _ key depth) as [c| | | |]; try apply only_nil. destruct (negb _); [apply only_nil|].
    destruct (get_bit key _) as [bit| | | |]; try apply only_nil.
    pose proof (limit_child path pre tl tr bit W) as LC. destruct W as [Wl Wr].
    assert (X : forall x tc, rep H rd x tc -> wfn (path ++ pre ++ [bit]) tc -> Datatypes.S (limit (path ++ pre ++ [bit]) tc) <= limit path (PInt pre tl tr) ->
      only (pred (limit path (PInt pre tl tr))) (read_insert rd fuel x key (depth + c + 1))).
    { intros x tc Rc Wc Lc. specialize (IH x tc _ (depth + c + 1) Rc Wc). destruct x; (eapply only_le; [exact IH|lia]). }
    destruct bit; eapply X; eauto.
  - apply only_nil.
  - destruct R as [-> D]. destruct (resolve_rep H H_len rd t w D) as (rn & -> & Rn & N1 & _).
    replace (limit path t) with (1 + pred (limit path t)) by lia. apply only_app; [apply (only_sibling (NHash (thash H t) w))|].
    specialize (IH rn t path depth Rn W). destruct rn; try exact IH. exfalso. eapply N1. reflexivity.
Qed.

Lemma remove_null rd key fuel : forall n t path depth, rep H rd n t -> wfn path t -> tree_remove rd fuel n key depth = Ok NNull ->
  exists k v, t = PLeaf k v.
Proof.
  induction fuel as [|fuel IH]; intros n t path depth R W; [discriminate|]. cbn [tree_remove]. destruct n as [|h w p l r|h w k v vp|h w].
  - discriminate.
  - destruct R as (pre & tl & tr & -> & _ & _ & -> & Rl & Rr). intros E. exfalso. revert E.
    destruct (bits_has _ key depth) as [[|]| | | |]; cbn [bind negb]; try discriminate. destruct (get_bit key _) as [bit| | | |]; cbn [bind]; try discriminate.
    destruct (tree_remove rd fuel (child l r bit) key _) as [z| | | |]; cbn [bind]; try discriminate. destruct z; try solve [unfold create_internal; destruct bit; discriminate].
    assert (X : exists ts q, rep H rd (child l r (negb bit)) ts /\ wfn q ts).
    { destruct W as [Wl Wr]. destruct bit; cbn [negb child]; [exists tl|exists tr]; eexists; split; try eassumption. }
    destruct X as (ts & q & Rs & Ws). destruct (child l r (negb bit)) as [|hh ww pp ll rr|hh ww kk vv qq|hh ww] eqn:Ey.
    + apply rep_null in Rs || cbn in Rs. subst ts. contradiction Ws.
    + cbn [bind]. destruct (bits_join _ pp _) as [pj| | | |]; cbn [bind]; discriminate.
    + cbn [bind]. discriminate.
    + destruct Rs as [-> D]. destruct (resolve_rep H H_len rd ts ww D) as (rn & -> & Rn & N1 & N2). cbn [bind].
      destruct rn; try discriminate; [congruence|]. destruct (bits_join _ _ _) as [pj| | | |]; cbn [bind]; discriminate.
  - destruct R as (x & -> & _). intros _. eauto.
  - destruct R as [-> D]. destruct (resolve_rep H H_len rd t w D) as (rn & -> & Rn & N1 & _). cbn [bind]. intros E. eapply IH; eassumption.
Qed.
Lemma read_remove_few rd key fuel : forall n t path depth, rep H rd n t -> wfn path t ->
  match n with NHash _ _ => only (Datatypes.S (limit path t)) (read_remove rd fuel n key depth)
             | _ => only (limit path t) (read_remove rd fuel n key depth) end /\
  forall k v, t = PLeaf k v -> only 1 (read_remove rd fuel n key depth).
Proof.
  induction fuel as [|fuel IH]; intros n t path depth R W.
  { split; [destruct n; apply only_nil|intros; apply only_nil]. }
  pose proof (limit_pos path t W) as LP. cbn [read_remove]. destruct n as [|h w p l r|h w k v vp|h w].
  - split; [|intros]; apply only_nil.
  - destruct R as (pre & tl & tr & -> & _ & _ & -> & Rl & Rr). split; [|discriminate].
    destruct (bits_has _ key depth) as [[|]| | | |]; try apply only_nil. destruct (get_bit key _) as [bit| | | |]; try apply only_nil.
    pose proof (limit_child path pre tl tr bit W) as LC. destruct W as [Wl Wr].
    assert (X : forall x tc, rep H rd x tc -> wfn (path ++ pre ++ [bit]) tc -> Datatypes.S (limit (path ++ pre ++ [bit]) tc) <= limit path (PInt pre tl tr) ->
      only (limit path (PInt pre tl tr)) (read_remove rd fuel x key (depth + bsize (of_bools pre) + 1) ++
        match tree_remove rd fuel x key (depth + bsize (of_bools pre) + 1) with Ok NNull => sibling (child l r (negb bit)) | _ => [] end)).
    { intros x tc Rc Wc Lc. destruct (IH x tc _ (depth + bsize (of_bools pre) + 1) Rc Wc) as [B B1]. pose proof (limit_pos _ _ Wc) as LPc.
      assert (B2 : only (Datatypes.S (limit (path ++ pre ++ [bit]) tc)) (read_remove rd fuel x key (depth + bsize (of_bools pre) + 1)))
        by (destruct x; (eapply only_le; [exact B|lia])).
      destruct (tree_remove rd fuel x key (depth + bsize (of_bools pre) + 1)) as [z| | | |] eqn:Er; try (rewrite app_nil_r; eapply only_le; [exact B2|lia]).
      destruct z; try (rewrite app_nil_r; eapply only_le; [exact B2|lia]).
      destruct (remove_null rd key fuel x tc _ _ Rc Wc Er) as (k & v & Et). apply (only_le (1 + 1)); [|lia].
      apply only_app; [exact (B1 k v Et)|apply only_sibling]. }
    destruct bit; eapply X; eauto.
  - split; [|intros]; apply only_nil.
  - destruct R as [-> D]. destruct (resolve_rep H H_len rd t w D) as (rn & -> & Rn & N1 & _).
    destruct (IH rn t path depth Rn W) as [B _]. split.
    + change (Datatypes.S (limit path t)) with (1 + limit path t). apply only_app; [apply (only_sibling (NHash (thash H t) w))|].
      destruct rn; try exact B. exfalso. eapply N1. reflexivity.
    + intros k v ->. apply (only_le (1 + 0)); [|lia]. apply only_app; [apply (only_sibling (NHash (thash H (PLeaf k v)) w))|].
      destruct fuel; [apply only_nil|]. destruct rn; try apply only_nil; [|exfalso; eapply N1; reflexivity].
      destruct Rn as (pre' & tl & tr & E & _). discriminate E.
Qed.
Lemma updates_root rd key n t : rep H rd n t -> wft t ->
  only (2 * Nat.min 257 (length (elems t)) + 1) (read_insert rd TREE_FUEL n key 0 ++ read_remove rd TREE_FUEL n key 0).
Proof.
  intros R [->|W].
  - apply rep_null in R. subst n. destruct TREE_FUEL; apply only_nil.
  - pose proof (read_insert_few rd key TREE_FUEL n t [] 0 R W) as V. destruct (read_remove_few rd key TREE_FUEL n t [] 0 R W) as [V' _].
    unfold limit in V, V'. cbn [length] in V, V'. rewrite Nat.sub_0_r in V, V'. generalize dependent (Nat.min 257 (length (elems t))). intros m V V'.
    apply (only_le (m + Datatypes.S m)); [|clear; lia]. apply only_app; [clear V'; destruct n; (eapply only_le; [exact V|clear; lia])|clear V; destruct n; (eapply only_le; [exact V'|clear; lia])].
Qed.
End L.

(** ** Reading damaged files *)
(** The bytes [p] points to are in [fs'] what they are in [fs]. *)
Definition intact (fs fs' : list bytes) (p : ptr) : Prop :=
  forall f, nth_error fs (N.to_nat (pidx p) - 1) = Some f ->
  exists f', nth_error fs' (N.to_nat (pidx p) - 1) = Some f' /\ length f' = length f /\ slice f' (ppos p) (psize p) = slice f (ppos p) (psize p).
Definition on_files (s : store) (fs : list bytes) : store :=
  mkstore fs (st_log s) (st_key s) (st_slab s) (st_state s) (st_last s) (st_cache s) (st_index s) (st_size s) (st_io s).
Lemma rd_intact s fs' p : length fs' = length (st_fs s) -> intact (st_fs s) fs' p -> st_rd (on_files s fs') p = st_rd s p.
Proof.
  intros L A. unfold st_rd, on_files. cbn [st_fs st_index st_size]. destruct ((pidx p =? 0)%N || (st_index s + 1 <? pidx p)%N); [reflexivity|].
  destruct (nth_error (st_fs s) (N.to_nat (pidx p) - 1)) as [f|] eqn:E.
  - destruct (A f E) as (f' & E' & Lf & Sl). rewrite E'. unfold blen in *. rewrite Lf, Sl. reflexivity.
  - assert (X : nth_error fs' (N.to_nat (pidx p) - 1) = None) by (apply nth_error_None; rewrite L; apply nth_error_None; exact E).
    now rewrite X.
Qed.
Lemma agree_intact s fs' L : length fs' = length (st_fs s) -> (forall p, In p L -> intact (st_fs s) fs' p) -> agree (st_rd s) (st_rd (on_files s fs')) L.
Proof. intros E A p I. apply rd_intact; auto. Qed.

(** ** Looking up a committed root *)
Section W.
Variable H : bytes -> bytes.
Hypothesis H_len : forall m, length (H m) = 32.
Variable C : bytes -> bytes -> bytes.
Hypothesis C_len : forall k m, length (C k m) = 20.

Definition guarded (w : ptr) : list ptr := if (psize w =? 0)%N || (113 <? psize w)%N then [] else [w].
(** urkel_store_read_root: store.c 574-607. *)
Definition root_reads (rd : ptr -> option bytes) (p : ptr) : list ptr :=
  if (pidx p =? 0)%N then [] else
  guarded p ++ match read_node rd p with
               | Ok (Some (NLeaf _ _ _ None (Some q))) => if (1023 <? psize q)%N then [] else [q]
               | _ => []
               end.
(** urkel_store_read_history: store.c 841-859. *)
Fixpoint walked (fuel : nat) (s : store) (h : bytes) : list ptr :=
  match fuel with
  | O => []
  | S fuel =>
    let mp := m_meta (st_last s) in
    if (pidx mp =? 0)%N then [] else
    mkptr (pidx mp) (ppos mp) 38 ::
    match read_meta C s mp with
    | Ok (Some m) =>
      root_reads (st_rd s) (m_root m) ++
      match read_root H s (m_root m) with
      | Ok (Some n, s1) => if bytes_eqb (hash_field n) h then [] else walked fuel (set_last s1 m) h
      | _ => []
      end
    | _ => []
    end
  end.
Definition looked_up (s : store) (h : bytes) : list ptr :=
  if bytes_eqb h zero_hash then [] else
  if bytes_eqb h (hash_field (m_node (st_state s))) then [] else
  match cache_lookup (st_cache s) h with Some _ => [] | None => walked (history_fuel s) s h end.

Definition onto {A} (fs' : list bytes) (x : res (A * store)) : res (A * store) :=
  match x with Ok (a, s) => Ok (a, on_files s fs') | Fail e => Fail e | Abort => Abort | UB => UB | NoFuel => NoFuel end.

Lemma read_root_on s p fs' : agree (st_rd s) (st_rd (on_files s fs')) (root_reads (st_rd s) p) ->
  read_root H (on_files s fs') p = onto fs' (read_root H s p).
Proof.
  unfold root_reads, read_root. destruct (pidx p =? 0)%N; [reflexivity|]. intros A.
  assert (E : read_node (st_rd (on_files s fs')) p = read_node (st_rd s) p).
  { apply agree_l in A. unfold read_node, guarded in *. destruct ((psize p =? 0)%N || (113 <? psize p)%N); [reflexivity|]. rewrite (A p) by now left. reflexivity. }
  rewrite E. apply agree_r in A. destruct (read_node (st_rd s) p) as [[n|]| | | |]; cbn [bind onto]; try reflexivity.
  assert (Q : (match n with
       | NLeaf h w k v vp => let! x := retrieve (st_rd (on_files s fs')) v vp in match x with None => Ok None | Some x => Ok (Some (NLeaf h w k (Some x) vp)) end
       | n => Ok (Some n) end) =
      (match n with
       | NLeaf h w k v vp => let! x := retrieve (st_rd s) v vp in match x with None => Ok None | Some x => Ok (Some (NLeaf h w k (Some x) vp)) end
       | n => Ok (Some n) end)).
  { destruct n as [| |? ? ? v vp|]; try reflexivity. rewrite (retrieve_agree (st_rd s) (st_rd (on_files s fs'))); [reflexivity|]. destruct v; [intros ? []|exact A]. }
  rewrite Q. match goal with |- bind ?x _ = _ => destruct x as [[m|]| | | |] end; cbn [bind onto]; try reflexivity.
  destruct (node_hash H m) as [[h m']| | | |]; cbn [bind onto]; try reflexivity. destruct (node_to_hash m') as [out| | | |]; cbn [bind onto]; try reflexivity.
  cbn [on_files st_cache]. destruct (cache_insert (st_cache s) out) as [c| | | |]; reflexivity.
Qed.
Lemma read_root_rd s p r s1 : read_root H s p = Ok (r, s1) -> st_rd s1 = st_rd s.
Proof.
  unfold read_root. destruct (pidx p =? 0)%N. { intros E. apply Ok_inj in E. injection E as _ <-. reflexivity. }
  destruct (read_node (st_rd s) p) as [[n|]| | | |]; cbn [bind]; try discriminate. 2:{ intros E. apply Ok_inj in E. injection E as _ <-. reflexivity. }
  match goal with |- bind ?x _ = _ -> _ => destruct x as [[m|]| | | |] end; cbn [bind]; try discriminate. 2:{ intros E. apply Ok_inj in E. injection E as _ <-. reflexivity. }
  destruct (node_hash H m) as [[h m']| | | |]; cbn [bind]; try discriminate. destruct (node_to_hash m') as [out| | | |]; cbn [bind]; try discriminate.
  destruct (cache_insert (st_cache s) out) as [c| | | |]; cbn [bind]; try discriminate. intros E. apply Ok_inj in E. injection E as _ <-. reflexivity.
Qed.
Lemma on_last s m fs' : set_last (on_files s fs') m = on_files (set_last s m) fs'. Proof. reflexivity. Qed.
Lemma read_root_on_rd s p r s1 fs' : read_root H s p = Ok (r, s1) -> st_rd (on_files s1 fs') = st_rd (on_files s fs').
Proof.
  unfold read_root. destruct (pidx p =? 0)%N. { intros E. apply Ok_inj in E. injection E as _ <-. reflexivity. }
  destruct (read_node (st_rd s) p) as [[n|]| | | |]; cbn [bind]; try discriminate. 2:{ intros E. apply Ok_inj in E. injection E as _ <-. reflexivity. }
  match goal with |- bind ?x _ = _ -> _ => destruct x as [[m|]| | | |] end; cbn [bind]; try discriminate. 2:{ intros E. apply Ok_inj in E. injection E as _ <-. reflexivity. }
  destruct (node_hash H m) as [[h m']| | | |]; cbn [bind]; try discriminate. destruct (node_to_hash m') as [out| | | |]; cbn [bind]; try discriminate.
  destruct (cache_insert (st_cache s) out) as [c| | | |]; cbn [bind]; try discriminate. intros E. apply Ok_inj in E. injection E as _ <-. reflexivity.
Qed.
Lemma loop_on h fs' fuel : forall s, agree (st_rd s) (st_rd (on_files s fs')) (walked fuel s h) ->
  history_loop H C fuel (on_files s fs') h = onto fs' (history_loop H C fuel s h).
Proof.
  induction fuel as [|fuel IH]; intros s A; [reflexivity|]. cbn [history_loop walked] in A |- *. cbv zeta in A |- *.
  change (st_last (on_files s fs')) with (st_last s). destruct (pidx (m_meta (st_last s)) =? 0)%N; [reflexivity|].
  assert (E : read_meta C (on_files s fs') (m_meta (st_last s)) = read_meta C s (m_meta (st_last s))).
  { unfold read_meta. rewrite (A _ (or_introl eq_refl)). reflexivity. }
  assert (A' : agree (st_rd s) (st_rd (on_files s fs')) (match read_meta C s (m_meta (st_last s)) with
    | Ok (Some m) =>
      root_reads (st_rd s) (m_root m) ++
      match read_root H s (m_root m) with
      | Ok (Some n, s1) => if bytes_eqb (hash_field n) h then [] else walked fuel (set_last s1 m) h
      | _ => []
      end
    | _ => []
    end)) by (intros p I; apply A; right; exact I). clear A. rewrite E.
  destruct (read_meta C s (m_meta (st_last s))) as [[m|]| | | |]; cbn [bind onto]; try reflexivity.
  rewrite (read_root_on s (m_root m) fs') by (eapply agree_l, A'). apply agree_r in A'.
  destruct (read_root H s (m_root m)) as [[[n|] s1]| | | |] eqn:Er; cbn [bind onto]; try reflexivity.
  destruct (bytes_eqb (hash_field n) h); [reflexivity|]. rewrite on_last. apply IH.
  change (st_rd (set_last s1 m)) with (st_rd s1). change (st_rd (on_files (set_last s1 m) fs')) with (st_rd (on_files s1 fs')).
  rewrite (read_root_rd _ _ _ _ Er), (read_root_on_rd _ _ _ _ fs' Er). exact A'.
Qed.
Lemma history_on s h fs' : map (@length byte) fs' = map (@length byte) (st_fs s) -> agree (st_rd s) (st_rd (on_files s fs')) (looked_up s h) ->
  read_history H C (on_files s fs') h = onto fs' (read_history H C s h).
Proof.
  intros L. unfold looked_up, read_history. destruct (bytes_eqb h zero_hash); [reflexivity|].
  change (st_state (on_files s fs')) with (st_state s). destruct (bytes_eqb h (hash_field (m_node (st_state s)))); [reflexivity|].
  change (st_cache (on_files s fs')) with (st_cache s). destruct (cache_lookup (st_cache s) h); [reflexivity|].
  intros A. replace (history_fuel (on_files s fs')) with (history_fuel s) by (unfold history_fuel; cbn [on_files st_fs]; now rewrite L).
  apply loop_on, A.
Qed.

Lemma root_reads_few rd p : length (root_reads rd p) <= 2 /\ (bytes_of (root_reads rd p) <= 1136)%N.
Proof.
  unfold root_reads, guarded. destruct (pidx p =? 0)%N; [cbn; lia|].
  assert (X : length (match read_node rd p with
               | Ok (Some (NLeaf _ _ _ None (Some q))) => if (1023 <? psize q)%N then [] else [q]
               | _ => []
               end) <= 1 /\ (bytes_of (match read_node rd p with
               | Ok (Some (NLeaf _ _ _ None (Some q))) => if (1023 <? psize q)%N then [] else [q]
               | _ => []
               end) <= 1023)%N).
  { destruct (read_node rd p) as [[n|]| | | |]; try (cbn; lia). destruct n as [| |? ? ? [?|] [q|]|]; try (cbn; lia).
    destruct (N.ltb_spec 1023 (psize q)); cbn [length bytes_of]; lia. }
  revert X. generalize (match read_node rd p with
               | Ok (Some (NLeaf _ _ _ None (Some q))) => if (1023 <? psize q)%N then [] else [q]
               | _ => []
               end). intros L X.
  destruct (N.eqb_spec (psize p) 0); cbn [orb app]; [lia|]. destruct (N.ltb_spec 113 (psize p)); cbn [app length bytes_of]; lia.
Qed.

Lemma walked_few h : h <> zero_hash -> forall h2 fuel s D,
  (forall p x, rdl D p = Some x -> st_rd s p = Some x) -> length h2 < fuel ->
  chain H C (st_key s) D (m_meta (st_last s)) h2 ->
  length (walked fuel s h) <= 3 * length h2 /\ (bytes_of (walked fuel s h) <= 1174 * N.of_nat (length h2))%N.
Proof.
  intros Hz. induction h2 as [|[t w] h2 IH]; intros fuel s D I F Ch.
  - destruct fuel as [|fuel]; [cbn in F; lia|]. cbn [walked]. cbn [chain] in Ch. rewrite Ch. cbn [pidx ptr0 N.eqb]. cbn. lia.
  - destruct fuel as [|fuel]; [cbn in F; lia|]. cbn [walked length] in *. cbv zeta.
    destruct Ch as (prev & Rec & Ro & Ch). pose proof Rec as (A & B & _).
    destruct (N.eqb_spec (pidx (m_meta (st_last s))) 0) as [X|_]; [lia|].
    rewrite (read_meta_eq C C_len s D _ prev w I Rec (proj1 (chain_ptr H H_len C C_len _ _ _ _ Ch)) (root_ok_ptr _ _ _ _ Ro)). cbn [m_root].
    rewrite (read_root_eq H H_len C C_len s D t w I Ro). destruct (root_reads_few (st_rd s) w) as [R1 R2].
    destruct (cached_fields H s t w) as (C1 & C2 & C3 & C4 & C5 & C6 & C7 & C8 & C9).
    assert (Q : length (if bytes_eqb (hash_field (root_node H t w)) h then [] else walked fuel (set_last (cached H s t w) (mkmeta prev w NNull)) h) <= 3 * length h2 /\
      (bytes_of (if bytes_eqb (hash_field (root_node H t w)) h then [] else walked fuel (set_last (cached H s t w) (mkmeta prev w NNull)) h) <= 1174 * N.of_nat (length h2))%N).
    { destruct (bytes_eqb (hash_field (root_node H t w)) h); [cbn; lia|]. apply (IH fuel _ D).
      - intros p x Ep. rewrite <- (I p x Ep). unfold st_rd. cbn [set_last st_index st_fs st_size]. rewrite C4, C5, C7. reflexivity.
      - lia.
      - cbn [set_last st_key st_last m_meta]. rewrite C1. exact Ch. }
    revert Q. generalize (if bytes_eqb (hash_field (root_node H t w)) h then [] else walked fuel (set_last (cached H s t w) (mkmeta prev w NNull)) h).
    intros L [Q1 Q2]. cbn [bytes_of psize length]. rewrite app_length, bytes_of_app. lia.
Qed.
Lemma looked_up_few s D hist h : sinv H C s D hist ->
  length (looked_up s h) <= 3 * length hist /\ (bytes_of (looked_up s h) <= 1174 * N.of_nat (length hist))%N.
Proof.
  intros I. unfold looked_up. destruct (bytes_eqb_spec h zero_hash) as [E|N]; [cbn; lia|].
  destruct (bytes_eqb h _); [cbn; lia|]. destruct (cache_lookup (st_cache s) h); [cbn; lia|].
  destruct (si_last _ _ _ _ _ I) as (h1 & h2 & E & Ch & _).
  destruct (walked_few h N h2 (history_fuel s) s D (si_rd _ _ _ _ _ I)) as [A B]; [|exact Ch|].
  { unfold history_fuel. fold (total (st_fs s)). pose proof (rd_total H H_len C C_len s D (si_rd _ _ _ _ _ I)). pose proof (si_len _ _ _ _ _ I) as L.
    rewrite E, app_length in L. lia. }
  rewrite E, app_length. lia.
Qed.
End W.
