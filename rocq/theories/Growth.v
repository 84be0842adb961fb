(** * Facts behind Properties_Growth.v: how many bytes updates make a commit write. *)
From Verif Require Export Limits.
From Coq Require Import ZifyBool ZifyNat ZifyN.

(** How many levels lie above [k] in the tree [t]. *)
Fixpoint spine (d : nat) (k : bytes) (t : ptree) : nat :=
  match t with
  | PNull => 0
  | PLeaf k' _ => if bytes_eqb k' k then 0 else 1
  | PInt pre l r =>
    if is_prefix pre (skipn d (kbits k))
    then S (spine (d + length pre + 1) k (if kbit k (d + length pre) then r else l))
    else 1
  end.

Lemma common_long path a b : has path a -> has path b -> length path <= length (common2 (kbits a) (kbits b)).
Proof.
  intros A B. destruct (common2_ge path (kbits a) (kbits b) A B) as (s & ->). rewrite app_length. lia.
Qed.

Lemma spine_witness t : forall path k, wfn path t -> has path k -> length k = 32 ->
  exists ds, NoDup ds /\ length ds = spine (length path) k t /\
  forall d, In d ds -> length path <= d /\
    exists e, In e (elems t) /\ fst e <> k /\ length (common2 (kbits k) (kbits (fst e))) = d.
Proof.
  induction t as [|k' v|pre l IHl r IHr]; intros path k W Hp Lk.
  - contradiction W.
  - destruct W as [_ Hk']. cbn [spine elems]. destruct (bytes_eqb_spec k' k) as [E|N].
    + exists []. split; [constructor|]. split; [reflexivity|]. intros d [].
    + exists [length (common2 (kbits k) (kbits k'))]. split; [repeat constructor; intros []|]. split; [reflexivity|].
      intros d [<-|[]]. split; [apply common_long; assumption|]. exists (k', v). split; [now left|]. split; [exact N|reflexivity].
  - pose proof (wfn_int_len _ _ _ _ W) as Lp. cbn [spine].
    destruct (is_prefix pre (skipn (length path) (kbits k))) eqn:E1.
    + pose proof (step_has _ _ _ Hp Lk Lp E1) as Hb. set (b := kbit k (length path + length pre)) in *. clearbody b.
      pose proof (wfn_child _ _ _ _ b W) as Wb. pose proof (wfn_child _ _ _ _ (negb b) W) as Wy.
      rewrite <- path_len with (b := b).
      assert (IH : exists ds, NoDup ds /\ length ds = spine (length (path ++ pre ++ [b])) k (if b then r else l) /\
        forall d, In d ds -> length (path ++ pre ++ [b]) <= d /\
          exists e, In e (elems (if b then r else l)) /\ fst e <> k /\ length (common2 (kbits k) (kbits (fst e))) = d).
      { destruct b; [apply IHr|apply IHl]; assumption. }
      destruct IH as (ds & N & L & D).
      pose proof (wfn_elems_nonempty _ _ Wy) as Ne. destruct (elems (if negb b then r else l)) as [|[ke ve] rest] eqn:Ee; [congruence|].
      assert (Ie : In (ke, ve) (elems (if negb b then r else l))) by (rewrite Ee; now left).
      assert (He : has (path ++ pre ++ [negb b]) ke) by exact (proj2 (wfn_elems _ _ Wy _ _ Ie)).
      destruct Hb as (sk & Ek). destruct He as (se & Eke).
      assert (Cm : common2 (kbits k) (kbits ke) = path ++ pre).
      { destruct b.
        - assert (X : common2 (kbits ke) (kbits k) = path ++ pre).
          { apply (common2_has _ _ (path ++ pre) se sk false); [rewrite Eke|rewrite Ek]; rewrite <- !app_assoc; reflexivity. }
          pose proof (common2_comm (kbits k) (kbits ke)) as Cc. rewrite X in Cc.
          destruct (common2_ge (path ++ pre) (kbits k) (kbits ke)) as (s & Es).
          { exists ([true] ++ sk). rewrite Ek, <- !app_assoc. reflexivity. }
          { exists ([false] ++ se). rewrite Eke, <- !app_assoc. reflexivity. }
          rewrite Es in Cc |- *. rewrite app_length in Cc. destruct s; [apply app_nil_r|cbn [length] in Cc; lia].
        - apply (common2_has _ _ (path ++ pre) sk se false); [rewrite Ek|rewrite Eke]; rewrite <- !app_assoc; reflexivity. }
      assert (Nk : ke <> k).
      { intros ->. rewrite Ek in Eke. rewrite <- !app_assoc in Eke. apply app_inv_head, app_inv_head in Eke.
        destruct b; discriminate Eke. }
      exists (length (path ++ pre) :: ds). split.
      { constructor; [|exact N]. intros X. apply D in X. destruct X as [X _]. rewrite path_len, app_length in X. lia. }
      split; [cbn [length]; rewrite L; reflexivity|].
      intros d [<-|X].
      * split; [rewrite app_length; lia|]. exists (ke, ve). split.
        { cbn [elems]. apply in_or_app. destruct b; cbn [negb] in Ie; auto. }
        split; [exact Nk|]. cbn [fst]. rewrite Cm. reflexivity.
      * apply D in X. destruct X as (X1 & e & X2 & X3). split; [rewrite path_len in X1; lia|]. exists e. split; [|exact X3].
        cbn [elems]. apply in_or_app. destruct b; auto.
    + pose proof (wfn_elems_nonempty _ _ W) as Ne. destruct (elems (PInt pre l r)) as [|[ke ve] rest] eqn:Ee; [congruence|].
      assert (Ie : In (ke, ve) (elems (PInt pre l r))) by (rewrite Ee; now left).
      assert (He : has path ke) by exact (proj2 (wfn_elems _ _ W _ _ Ie)).
      assert (Nk : ke <> k).
      { intros ->. cbn [elems] in Ie. apply in_app_or in Ie. destruct W as [Wl Wr].
        assert (X : exists b, has (path ++ pre ++ [b]) k).
        { destruct Ie as [Ie|Ie]; [exists false; exact (proj2 (wfn_elems _ _ Wl _ _ Ie))|exists true; exact (proj2 (wfn_elems _ _ Wr _ _ Ie))]. }
        destruct X as (b & X). destruct (has_step _ _ _ _ X) as [X1 _]. congruence. }
      exists [length (common2 (kbits k) (kbits ke))]. split; [repeat constructor; intros []|]. split; [reflexivity|].
      intros d [<-|[]]. split; [apply common_long; assumption|]. exists (ke, ve). split; [now left|]. split; [exact Nk|reflexivity].
Qed.

Lemma spine_levels l t k : stands l t -> length k = 32 -> spine 0 k t <= levels l k.
Proof.
  intros (R & W & E) Lk. destruct W as [->|W]; [cbn; lia|].
  destruct (spine_witness t [] k W (has_nil k) Lk) as (ds & N & L & D). change (length (@nil bool)) with 0 in L. rewrite <- L.
  unfold levels. apply NoDup_incl_length; [exact N|].
  intros d X. apply nodup_In. apply D in X. destruct X as (_ & e & X1 & X2 & <-). apply in_map_iff. exists e. split; [reflexivity|].
  apply in_del. split; [apply E, X1|exact X2].
Qed.

(** Common prefixes of different keys have at most 255 bits. *)
Lemma levels_256 l k : Forall (fun e => length (fst e) = 32) l -> length k = 32 -> levels l k <= 256.
Proof.
  intros F Lk. unfold levels. rewrite <- (seq_length 256 0). apply NoDup_incl_length; [apply NoDup_nodup|].
  intros d X. apply nodup_In, in_map_iff in X. destruct X as (e & <- & X). apply in_del in X. destruct X as [X N].
  rewrite Forall_forall in F. specialize (F _ X). apply in_seq. split; [lia|].
  destruct (common2_prefix (kbits k) (kbits (fst e))) as (s & s' & E1 & E2).
  assert (L1 : length (kbits k) = 256) by (rewrite kbits_length; lia).
  assert (L2 : length (kbits (fst e)) = 256) by (rewrite kbits_length; lia).
  destruct (Nat.lt_ge_cases (length (common2 (kbits k) (kbits (fst e)))) 256) as [G|G]; [lia|]. exfalso. apply N.
  rewrite E1, app_length in L1. rewrite E2, app_length in L2.
  assert (s = []) as -> by (apply length_zero_iff_nil; lia). assert (s' = []) as -> by (apply length_zero_iff_nil; lia).
  rewrite app_nil_r in E1, E2. apply kbits_inj. congruence.
Qed.

Section G.
Variable H : bytes -> bytes.
Hypothesis H_len : forall m, length (H m) = 32.
Variable C : bytes -> bytes -> bytes.
Hypothesis C_len : forall k m, length (C k m) = 20.

(** ** The cost of a node structure *)
Lemma wcost_create p x y b : wcost (create_internal p x y b) = 113 + wcost x + wcost y.
Proof. unfold create_internal. destruct b; cbn [wcost]; lia. Qed.
Lemma wcost_leaf k v : wcost (create_leaf H k v) = 40 + length v.
Proof. reflexivity. Qed.
Lemma wcost_stored n : stored n -> wcost n = 0.
Proof. intros [->|(h & w & ->)]; reflexivity. Qed.

Lemma resolve_wcost rd t w n : on_disk H rd t w -> resolve rd (thash H t) w = Ok (Some n) -> wcost n = 0.
Proof.
  intros D. unfold resolve, read_node. destruct ((psize w =? 0)%N || (113 <? psize w)%N); [discriminate|].
  destruct t as [|k v|pre l r]; [contradiction D| |].
  - destruct D as (P & raw & vp & -> & -> & _). cbn [bind set_ptr set_hash]. intros E. apply Ok_inj in E. injection E as <-. reflexivity.
  - destruct D as (P & raw & lp & rp & -> & -> & _). cbn [bind set_ptr set_hash]. intros E. apply Ok_inj in E. injection E as <-. reflexivity.
Qed.

Lemma hash_wcost n : forall h n', node_hash H n = Ok (h, n') -> wcost n' = wcost n.
Proof.
  induction n as [|h0 w p l IHl r IHr|h0 w k v vp|h0 w]; intros h n' E.
  - cbn in E. apply Ok_inj in E. injection E as <- <-. reflexivity.
  - cbn [node_hash] in E. destruct h0 as [h0|]. { apply Ok_inj in E. injection E as <- <-. reflexivity. }
    destruct (node_hash H l) as [[lh l']| | | |]; cbn [bind] in E; try discriminate E.
    destruct (node_hash H r) as [[rh r']| | | |]; cbn [bind] in E; try discriminate E.
    apply Ok_inj in E. injection E as <- <-. cbn [wcost]. rewrite (IHl _ _ eq_refl), (IHr _ _ eq_refl). reflexivity.
  - cbn [node_hash] in E. destruct h0 as [h0|]. { apply Ok_inj in E. injection E as <- <-. reflexivity. }
    destruct v as [v|]; try discriminate E. apply Ok_inj in E. injection E as <- <-. reflexivity.
  - cbn in E. apply Ok_inj in E. injection E as <- <-. reflexivity.
Qed.

Lemma prove_wcost rd fuel : forall acc n k d p n', tree_prove H rd fuel acc n k d = Ok (p, n') -> wcost n' = wcost n.
Proof.
  induction fuel as [|fuel IH]; intros acc n k d p n' E; [discriminate E|].
  destruct n as [|h w q l r|h w k0 v vp|h w]; cbn [tree_prove] in E.
  - apply Ok_inj in E. injection E as <- <-. reflexivity.
  - destruct (bits_has q k d) as [m| | | |]; cbn [bind] in E; try discriminate E. destruct m; cbn [negb] in E.
    + destruct (get_bit k (d + bsize q)) as [b| | | |]; cbn [bind] in E; try discriminate E.
      destruct (node_hash H (child l r (negb b))) as [[yh y]| | | |] eqn:Ey; cbn [bind] in E; try discriminate E.
      destruct (proof_push acc q yh) as [acc'| | | |]; cbn [bind] in E; try discriminate E.
      destruct (tree_prove H rd fuel acc' (child l r b) k (d + bsize q + 1)) as [[pr x]| | | |] eqn:Ex; cbn [bind] in E; try discriminate E.
      apply Ok_inj in E. injection E as <- <-. apply IH in Ex. apply hash_wcost in Ey. destruct b; cbn [child negb wcost] in *; lia.
    + destruct (node_hash H l) as [[lh l']| | | |] eqn:El; cbn [bind] in E; try discriminate E.
      destruct (node_hash H r) as [[rh r']| | | |] eqn:Er; cbn [bind] in E; try discriminate E.
      apply Ok_inj in E. injection E as <- <-. apply hash_wcost in El, Er. cbn [wcost]. lia.
  - destruct (retrieve rd v vp) as [[x|]| | | |]; cbn [bind] in E; try discriminate E.
    destruct (bytes_eqb k0 k); apply Ok_inj in E; injection E as <- <-; reflexivity.
  - destruct (resolve rd h w) as [[rn|]| | | |]; cbn [bind] in E; try discriminate E.
    destruct (tree_prove H rd fuel acc rn k d) as [[pr x]| | | |]; cbn [bind] in E; try discriminate E.
    apply Ok_inj in E. injection E as <- <-. reflexivity.
Qed.

(** ** Insert and remove *)
Lemma insert_wcost rd fuel : forall n t path key value n',
  rep H rd n t -> wfn path t -> has path key -> length key = 32 ->
  tree_insert H rd fuel n key value (length path) = Ok n' ->
  wcost n' <= wcost n + 113 * (spine (length path) key t + 1) + 40 + length value.
Proof.
  induction fuel as [|fuel IH]; intros n t path key value n' R W Hp Lk E; [discriminate E|].
  destruct n as [|h w p l r|h w k v vp|h w].
  - cbn in R. subst t. contradiction W.
  - destruct R as (pre & tl & tr & -> & _ & _ & -> & Rl & Rr).
    pose proof (wfn_int_len _ _ _ _ W) as Lp. pose proof (wfn_pre_ok _ _ _ _ W) as Lpre.
    cbn [tree_insert] in E. rewrite bits_count_spec in E by (auto using wf_ok, of_bools_wf; lia).
    rewrite bools_of_bools in E by assumption. cbn [bind] in E.
    set (c := lcp pre (skipn (length path) (kbits key))) in *.
    pose proof (lcp_le_l pre (skipn (length path) (kbits key))) as Lc. fold c in Lc.
    rewrite (get_bit_kbit H H_len) in E by (auto; lia). cbn [bind] in E.
    change (bsize (of_bools pre)) with (length pre) in E.
    cbn [spine]. rewrite <- lcp_full. fold c.
    destruct (Nat.eqb_spec c (length pre)) as [Ec|Nc]; cbn [negb] in E.
    + assert (E1 : is_prefix pre (skipn (length path) (kbits key)) = true)
        by (rewrite <- lcp_full; apply Nat.eqb_eq; exact Ec).
      pose proof (step_has _ _ _ Hp Lk Lp E1) as Hb. rewrite Ec in E. clearbody c.
      set (b := kbit key (length path + length pre)) in *. clearbody b.
      rewrite <- path_len with (b := b) in E |- *.
      pose proof (wfn_child _ _ _ _ b W) as Wb.
      assert (Rb : rep H rd (child l r b) (if b then tr else tl)) by (destruct b; assumption).
      destruct (tree_insert H rd fuel (child l r b) key value (length (path ++ pre ++ [b]))) as [z| | | |] eqn:Ez; cbn [bind] in E; try discriminate E.
      apply Ok_inj in E. subst n'. rewrite wcost_create.
      pose proof (IH _ _ _ _ _ _ Rb Wb Hb Lk Ez) as Q. cbn [wcost].
      assert (X : wcost (child l r b) + wcost (child l r (negb b)) = wcost l + wcost r) by (destruct b; cbn [child negb]; lia).
      destruct w; lia.
    + rewrite bits_split_spec in E.
      2: auto using wf_ok, of_bools_wf. 2: cbn [of_bools bsize]; lia.
      rewrite bools_of_bools in E by assumption. cbn [bind] in E. apply Ok_inj in E. subst n'.
      rewrite !wcost_create, wcost_leaf. cbn [wcost]. destruct w; lia.
  - assert (R0 := R). destruct R0 as (x & -> & _). cbn [tree_insert] in E. cbn [spine].
    destruct (bytes_eqb k key) eqn:Ek.
    + destruct (value_equals v value); [discriminate E|]. apply Ok_inj in E. subst n'. rewrite wcost_leaf. lia.
    + destruct (bits_collide (key_bits k) key (length path)) as [p| | | |]; cbn [bind] in E; try discriminate E.
      destruct (get_bit key (length path + bsize p)) as [b| | | |]; cbn [bind] in E; try discriminate E.
      apply Ok_inj in E. subst n'. rewrite wcost_create, wcost_leaf. lia.
  - destruct R as [-> D]. cbn [tree_insert] in E. destruct (resolve_rep H H_len rd _ _ D) as (n1 & Er & R1 & _).
    rewrite Er in E. cbn [bind] in E. pose proof (IH _ _ _ _ _ _ R1 W Hp Lk E) as Q. rewrite (resolve_wcost _ _ _ _ D Er) in Q. cbn [wcost]. exact Q.
Qed.

Lemma remove_wcost rd fuel : forall n t path key n',
  rep H rd n t -> wfn path t -> has path key -> length key = 32 ->
  tree_remove rd fuel n key (length path) = Ok n' ->
  wcost n' <= wcost n + 113 * spine (length path) key t.
Proof.
  induction fuel as [|fuel IH]; intros n t path key n' R W Hp Lk E; [discriminate E|].
  destruct n as [|h w p l r|h w k v vp|h w].
  - discriminate E.
  - destruct R as (pre & tl & tr & -> & _ & _ & -> & Rl & Rr).
    pose proof (wfn_int_len _ _ _ _ W) as Lp. pose proof (wfn_pre_ok _ _ _ _ W) as Lpre.
    cbn [tree_remove] in E. rewrite bits_has_spec in E by (auto using wf_ok, of_bools_wf; lia).
    rewrite bools_of_bools in E by assumption. cbn [bind] in E. cbn [spine].
    destruct (is_prefix pre (skipn (length path) (kbits key))) eqn:E1; cbn [negb] in E; [|discriminate E].
    change (bsize (of_bools pre)) with (length pre) in E.
    rewrite (get_bit_kbit H H_len) in E by (auto; lia). cbn [bind] in E.
    pose proof (step_has _ _ _ Hp Lk Lp E1) as Hb.
    set (b := kbit key (length path + length pre)) in *. clearbody b.
    rewrite <- path_len with (b := b) in E |- *.
    pose proof (wfn_child _ _ _ _ b W) as Wb.
    assert (Rb : rep H rd (child l r b) (if b then tr else tl)) by (destruct b; assumption).
    assert (Ry : rep H rd (child l r (negb b)) (if b then tl else tr)) by (destruct b; assumption).
    assert (X : wcost (child l r b) + wcost (child l r (negb b)) = wcost l + wcost r) by (destruct b; cbn [child negb]; lia).
    destruct (tree_remove rd fuel (child l r b) key (length (path ++ pre ++ [b]))) as [z| | | |] eqn:Ez; cbn [bind] in E; try discriminate E.
    pose proof (IH _ _ _ _ _ Rb Wb Hb Lk Ez) as Q.
    set (sp := spine (length (path ++ pre ++ [b])) key (if b then tr else tl)) in *. clearbody sp.
    set (y := child l r (negb b)) in *. clearbody y. cbn [wcost].
    destruct z as [|zh zw zp zl zr|zh zw zk zv zvp|zh zw].
    + assert (Sd : forall side, (match y with
                 | NHash h w => let! s := resolve rd h w in match s with None => Abort | Some s => Ok s end
                 | _ => Ok y end) = Ok side -> wcost side <= wcost y).
      { intros side Es. destruct y as [|yh yw yp yl yr|yh yw yk yv yvp|yh yw]; try (apply Ok_inj in Es; subst side; lia).
        destruct Ry as [-> D]. destruct (resolve rd (thash H (if b then tl else tr)) yw) as [[s|]| | | |] eqn:Er; cbn [bind] in Es; try discriminate Es.
        apply Ok_inj in Es. subst side. rewrite (resolve_wcost _ _ _ _ D Er). lia. }
      destruct (match y with NHash _ _ => _ | _ => _ end) as [side| | | |]; cbn [bind] in E; try discriminate E.
      specialize (Sd _ eq_refl). destruct side as [|sh sw spp sl sr|sh sw sk sv svp|sh sw].
      * apply Ok_inj in E. subst n'. destruct w; lia.
      * destruct (bits_join (of_bools pre) spp (negb b)) as [q| | | |]; cbn [bind] in E; try discriminate E.
        apply Ok_inj in E. subst n'. rewrite wcost_create. cbn [wcost] in Sd. destruct sw, w; lia.
      * apply Ok_inj in E. subst n'. destruct w; lia.
      * apply Ok_inj in E. subst n'. destruct w; lia.
    + apply Ok_inj in E. subst n'. rewrite wcost_create. destruct w; lia.
    + apply Ok_inj in E. subst n'. rewrite wcost_create. destruct w; lia.
    + apply Ok_inj in E. subst n'. rewrite wcost_create. destruct w; lia.
  - cbn [tree_remove] in E. destruct (negb (bytes_eqb k key)); [discriminate E|]. apply Ok_inj in E. subst n'. cbn [wcost]. lia.
  - destruct R as [-> D]. cbn [tree_remove] in E. destruct (resolve_rep H H_len rd _ _ D) as (n1 & Er & R1 & _).
    rewrite Er in E. cbn [bind] in E. pose proof (IH _ _ _ _ _ R1 W Hp Lk E) as Q. rewrite (resolve_wcost _ _ _ _ D Er) in Q. cbn [wcost]. exact Q.
Qed.

Lemma insert_wcost0 rd fuel n t key value n' : rep H rd n t -> wfn [] t -> length key = 32 ->
  tree_insert H rd fuel n key value 0 = Ok n' -> wcost n' <= wcost n + 113 * (spine 0 key t + 1) + 40 + length value.
Proof. intros R W L. exact (insert_wcost rd fuel n t [] key value n' R W (has_nil key) L). Qed.
Lemma remove_wcost0 rd fuel n t key n' : rep H rd n t -> wfn [] t -> length key = 32 ->
  tree_remove rd fuel n key 0 = Ok n' -> wcost n' <= wcost n + 113 * spine 0 key t.
Proof. intros R W L. exact (remove_wcost rd fuel n t [] key n' R W (has_nil key) L). Qed.
Lemma insert_null rd fuel k v d m : tree_insert H rd fuel NNull k v d = Ok m -> m = create_leaf H k v.
Proof. destruct fuel; [discriminate|]. cbn [tree_insert]. intros E. apply Ok_inj in E. congruence. Qed.
Lemma remove_null rd fuel k d m : tree_remove rd fuel NNull k d = Ok m -> False.
Proof. destruct fuel; discriminate. Qed.
Local Opaque TREE_FUEL.
Lemma tx_insert_wcost d n l k v a n' : holds H (d_store d) n l -> length k = 32 -> tx_insert H d n k v = Ok (a, n') ->
  wcost n' <= wcost n + 113 * (levels l k + 1) + 40 + length v.
Proof.
  intros (t & R & S & V) Lk E. unfold tx_insert in E. destruct (1023 <? length v). { apply Ok_inj in E. injection E as <- <-. lia. }
  pose proof (spine_levels l t k S Lk) as SL.
  destruct (tree_insert H (st_rd (d_store d)) TREE_FUEL n k v 0) as [m|e| | |] eqn:Et; try discriminate E.
  - apply Ok_inj in E. injection E as <- <-. destruct (proj1 (proj2 S)) as [->|W].
    + apply (rep_null H) in R. subst n. apply insert_null in Et. subst m. rewrite wcost_leaf. lia.
    + pose proof (insert_wcost0 _ _ n t k v m R W Lk Et) as Q. lia.
  - destruct e; apply Ok_inj in E; injection E as <- <-; lia.
Qed.

Lemma tx_remove_wcost d n l k a n' : holds H (d_store d) n l -> length k = 32 -> tx_remove d n k = Ok (a, n') ->
  wcost n' <= wcost n + 113 * levels l k.
Proof.
  intros (t & R & S & V) Lk E. unfold tx_remove in E. pose proof (spine_levels l t k S Lk) as SL.
  destruct (tree_remove (st_rd (d_store d)) TREE_FUEL n k 0) as [m|e| | |] eqn:Et; try discriminate E.
  - apply Ok_inj in E. injection E as <- <-. destruct (proj1 (proj2 S)) as [->|W].
    + apply (rep_null H) in R. subst n. apply remove_null in Et. contradiction Et.
    + pose proof (remove_wcost0 _ _ n t k m R W Lk Et) as Q. lia.
  - apply Ok_inj in E; injection E as <- <-; lia.
Qed.

(** ** Commit *)
Lemma commit_wcost d sp D V hist W n l d' t : simdb H C d sp D V hist W -> s_failed sp = false ->
  holds H (d_store d) n l -> Forall (fun e => length (snd e) <= 255) l ->
  tx_commit H C d n = Ok (AOk, d', t) ->
  total (st_fs (d_store d')) <= total (st_fs (d_store d)) + wcost n + 75 /\ exists m, t = TLive m /\ wcost m = 0.
Proof.
  intros S Fa (tr & R & St & VL) F255 E. pose proof S as [S1 S2 S3 S4 S5 S6 S7 S8 S9 S10 S11 S12 S13 S14 S15].
  pose proof (vals_le_stands _ _ _ St F255) as V255. pose proof St as (_ & Wt & _).
  pose proof (tree_commit_spec H H_len C C_len (d_store d) V D hist n tr S1 S2 S3 R Wt V255) as T.
  unfold tx_commit in E. destruct (tree_commit H C (d_store d) n) as [[[n'|] s']| | | |]; cbn [bind] in E; try discriminate E.
  apply Ok_inj in E. injection E as <- <-. cbn [d_store].
  destruct T as (w & V1 & T). cbv zeta in T. destruct T as (E1 & T1 & T2 & T3 & T4 & T5 & T6 & T7 & T8 & T9 & (m & [_ M] & A) & T10 & K).
  destruct (S5 Fa) as (_ & Ef & EV). subst V. rewrite Ef.
  assert (NV : D <> []) by apply (cutof_nonnil _ _ T1). assert (NV1 : V1 <> []) by apply (cutof_nonnil _ _ (cutof_trans _ _ _ S3 T1)).
  destruct (vcommit_adds H H_len C C_len V1 (the_record C (d_store d) w) NV1) as (m2 & M2 & A2). { apply meta_write_length, C_len. }
  rewrite T3. rewrite (total_adds H H_len C C_len _ _ _ A2 NV1), (total_adds H H_len C C_len _ _ _ A).
  2: { apply (view_nonnil _ _ S2). }
  split; [lia|]. exists n'. split; [reflexivity|]. rewrite E1. destruct tr; reflexivity.
Qed.

(** ** One call *)
Definition debt (t : txst) : nat := match t with TLive n => wcost n | _ => 0 end.
Definition owed (w : world) : nat := list_sum (map debt (w_txs w)).
Lemma owed_app a b : list_sum (map debt (a ++ b)) = list_sum (map debt a) + list_sum (map debt b).
Proof. rewrite map_app, list_sum_app. reflexivity. Qed.
Lemma owed_upd l : forall i t, i < length l ->
  list_sum (map debt (upd l i t)) + debt (nth i l TDead) = list_sum (map debt l) + debt t.
Proof.
  unfold list_sum. induction l as [|x l IH]; intros i t L; [cbn in L; lia|]. destruct i as [|i]; cbn [upd map fold_right nth length] in *; [lia|].
  specialize (IH i t ltac:(lia)). lia.
Qed.
Lemma owed_put w d i t n : live w i = Ok n -> owed (put_tx w d i t) + wcost n = owed w + debt t.
Proof.
  unfold live, owed, put_tx. cbn [w_txs]. intros E.
  assert (L : i < length (w_txs w)).
  { destruct (Nat.lt_ge_cases i (length (w_txs w))) as [L|G]; [exact L|]. rewrite nth_overflow in E by exact G. discriminate E. }
  pose proof (owed_upd (w_txs w) i t L) as Q. destruct (nth i (w_txs w) TDead) as [m| |]; try discriminate E. apply Ok_inj in E. subst m. exact Q.
Qed.
Lemma owed_dead (l : list txst) : list_sum (map debt (map (fun _ => TDead) l)) = 0.
Proof. induction l as [|x l IH]; [reflexivity|]. cbn [map debt]. unfold list_sum in *. cbn [fold_right]. exact IH. Qed.

Lemma create_stored d sp D V hist W ro n d' : simdb H C d sp D V hist W -> tx_create H C d ro = Ok (Some n, d') -> stored n.
Proof.
  intros S Q. pose proof (sm_inv _ _ _ _ _ _ _ _ S) as I. unfold tx_create in Q. destruct ro as [h|]; [|destruct (d_revert d)].
  - destruct (read_history H C (d_store d) h) as [[[m|] s1]| | | |] eqn:Er; cbn [bind] in Q; try discriminate Q.
    apply Ok_inj in Q. injection Q as <- <-. eapply history_stored; eassumption.
  - destruct (read_history H C (d_store d) (d_hash d)) as [[[m|] s1]| | | |] eqn:Er; cbn [bind] in Q; try discriminate Q.
    apply Ok_inj in Q. injection Q as <- <-. eapply history_stored; eassumption.
  - apply Ok_inj in Q. injection Q as <- <-. eapply state_stored, I.
Qed.

(** urkel_insert and urkel_remove. *)
Lemma write_growth d sp D V hist W (op : db -> node -> res (answer * node)) x a d' :
  simdb H C d sp D V hist W -> s_failed sp = false -> collision_free H sp ->
  (forall d' n, holds H (d_store d') n (s_cur sp) -> forall a n', op d' n = Ok (a, n') ->
     wcost n' <= wcost n + x /\ (a = AOk -> exists l, holds H (d_store d') n' l /\ Forall (fun e => length (snd e) <= 255) l)) ->
  db_write H C op d = Ok (a, d') ->
  total (st_fs (d_store d')) <= total (st_fs (d_store d)) + x + 75.
Proof.
  intros S Fa CF P. destruct (tx_create_ok H H_len C C_len d sp D hist None (simdb_rdb _ _ _ _ _ _ _ _ S) CF) as (r & d1 & E1 & S1' & Sd & M).
  pose proof (rdb_simdb _ _ _ _ _ _ _ _ _ _ S Sd S1' eq_refl eq_refl) as S'.
  unfold db_write. rewrite E1. cbn [bind]. cbn [seen] in M. destruct M as (n & -> & Hn).
  pose proof (wcost_stored _ (create_stored _ _ _ _ _ _ _ _ _ S E1)) as Z.
  assert (Ef : st_fs (d_store d1) = st_fs (d_store d)) by apply Sd. rewrite <- Ef.
  destruct (op d1 n) as [[a1 n1]| | | |] eqn:Eo; cbn [bind]; try discriminate. destruct (P d1 n Hn a1 n1 Eo) as [Wc Cm].
  destruct a1; intros E; try (apply Ok_inj in E; injection E as <- <-; lia).
  destruct (Cm eq_refl) as (l & Hl & F).
  destruct (tx_commit H C d1 n1) as [[[a2 d2] t]| | | |] eqn:Et; cbn [bind] in E; try discriminate E.
  assert (A2 : a2 = AOk /\ d2 = d').
  { revert Et. unfold tx_commit. destruct (tree_commit H C (d_store d1) n1) as [[[n'|] s']| | | |]; cbn [bind]; intros Et; try discriminate Et;
      apply Ok_inj in Et; injection Et as <- <- <-; cbn [bind] in E; try discriminate E. apply Ok_inj in E. injection E as <- <-. auto. }
  destruct A2 as [-> ->]. destruct (commit_wcost d1 sp D V hist W n1 l d' t S' Fa Hl F Et) as [Q _]. lia.
Qed.
End G.
