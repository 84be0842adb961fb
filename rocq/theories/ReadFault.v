(** * Reads that fail: the API calls when any pread of the data files may fail.

    Tree.v, Store.v and Db.v model urkel_store_read (store.c 508-520) as a function of the
    files; it also returns 0 when the system call fails (EIO, ENOMEM for the mapping,
    EMFILE when the file has to be opened: io_posix.c 1133-1152, store.c 461-491).  Here
    every call of urkel_store_read consumes one entry of a schedule: [true] makes it fail.
    The functions are those of Tree.v, Store.v and Db.v with the schedule threaded through;
    [step_f] with an empty schedule is [step] ([step_f_nil]). *)
From Verif Require Export ApiFacts.
From Coq Require Import ZifyBool ZifyNat ZifyN.

Definition sched := list bool.

Section TreeF.
Variable H : bytes -> bytes.
Variable rd : ptr -> option bytes.

(** urkel_store_read: store.c 508-520. *)
Definition rd_f (sch : sched) (p : ptr) : option bytes * sched :=
  (if hd false sch then None else rd p, tl sch).

(** urkel_store_read_node: store.c 553-572. *)
Definition read_node_f (sch : sched) (w : ptr) : res (option node * sched) :=
  if (psize w =? 0)%N || (113 <? psize w)%N then Ok (None, sch) else
  match rd_f sch w with
  | (None, sch) => Ok (None, sch)
  | (Some raw, sch) =>
    let! r := node_read raw in
    match r with
    | None => Ok (None, sch)
    | Some n => Ok (Some (set_ptr w n), sch)
    end
  end.

(** urkel_store_resolve: store.c 657-671. *)
Definition resolve_f (sch : sched) (h : bytes) (w : ptr) : res (option node * sched) :=
  let! (r, sch) := read_node_f sch w in
  match r with
  | None => Ok (None, sch)
  | Some n => Ok (Some (set_hash h n), sch)
  end.

(** urkel_store_retrieve: store.c 623-655. *)
Definition retrieve_f (sch : sched) (v : option bytes) (vp : option ptr) : res (option bytes * sched) :=
  match v with
  | Some x => check (length x <=? VALUE_SIZE) (Ok (Some x, sch))
  | None =>
    match vp with
    | None => Abort
    | Some q => if (1023 <? psize q)%N then Ok (None, sch) else Ok (rd_f sch q)
    end
  end.

(** urkel_tree_get: tree.c 78-148. *)
Fixpoint tree_get_f (fuel : nat) (sch : sched) (n : node) (key : bytes) (depth : nat) (want : bool) : res bytes :=
  match fuel with
  | O => NoFuel
  | S fuel =>
    match n with
    | NNull => Fail ENOTFOUND
    | NInt _ _ p l r =>
      let! m := bits_has p key depth in
      if negb m then Fail ENOTFOUND else
      let depth := depth + bsize p in
      let! bit := get_bit key depth in
      tree_get_f fuel sch (child l r bit) key (depth + 1) want
    | NLeaf _ _ k v vp =>
      if negb (bytes_eqb k key) then Fail ENOTFOUND else
      if want then
        let! (r, _) := retrieve_f sch v vp in
        match r with None => Fail ECORRUPTION | Some x => Ok x end
      else Ok []
    | NHash h w =>
      let! (r, sch) := resolve_f sch h w in
      match r with
      | None => Fail ECORRUPTION
      | Some rn => tree_get_f fuel sch rn key depth want
      end
    end
  end.

(** urkel_tree_insert: tree.c 150-268. *)
Fixpoint tree_insert_f (fuel : nat) (sch : sched) (n : node) (key value : bytes) (depth : nat) : res node :=
  match fuel with
  | O => NoFuel
  | S fuel =>
    match n with
    | NNull => Ok (create_leaf H key value)
    | NInt _ _ p l r =>
      let! c := bits_count p key depth in
      let depth := depth + c in
      let! bit := get_bit key depth in
      if negb (c =? bsize p) then
        let leaf := create_leaf H key value in
        let! (front, back) := bits_split p c in
        let ch := create_internal back l r false in
        Ok (create_internal front leaf ch bit)
      else
        let x := child l r bit in
        let y := child l r (negb bit) in
        let! z := tree_insert_f fuel sch x key value (depth + 1) in
        Ok (create_internal p z y bit)
    | NLeaf _ _ k v _ =>
      if bytes_eqb k key then
        if value_equals v value then Fail ENOUPDATE else Ok (create_leaf H key value)
      else
        let! p := bits_collide (key_bits k) key depth in
        let depth := depth + bsize p in
        let leaf := create_leaf H key value in
        let! bit := get_bit key depth in
        Ok (create_internal p leaf n bit)
    | NHash h w =>
      let! (r, sch) := resolve_f sch h w in
      match r with
      | None => Fail ECORRUPTION
      | Some rn => tree_insert_f fuel sch rn key value depth
      end
    end
  end.

(** urkel_tree_remove: tree.c 270-381. *)
Fixpoint tree_remove_f (fuel : nat) (sch : sched) (n : node) (key : bytes) (depth : nat) : res (node * sched) :=
  match fuel with
  | O => NoFuel
  | S fuel =>
    match n with
    | NNull => Fail ENOTFOUND
    | NInt _ _ p l r =>
      let! m := bits_has p key depth in
      if negb m then Fail ENOTFOUND else
      let depth := depth + bsize p in
      let! bit := get_bit key depth in
      let x := child l r bit in
      let y := child l r (negb bit) in
      let! (z, sch) := tree_remove_f fuel sch x key (depth + 1) in
      match z with
      | NNull =>
        let! (side, sch) := (match y with
                      | NHash h w =>
                        let! (s, sch) := resolve_f sch h w in
                        match s with None => Abort (* CHECK, line 310 *) | Some s => Ok (s, sch) end
                      | _ => Ok (y, sch)
                      end) in
        match side with
        | NInt _ _ q sl sr =>
          let! pre := bits_join p q (negb bit) in
          Ok (create_internal pre sl sr false, sch)
        | _ => Ok (side, sch)
        end
      | _ => Ok (create_internal p z y bit, sch)
      end
    | NLeaf _ _ k _ _ =>
      if negb (bytes_eqb k key) then Fail ENOTFOUND else Ok (NNull, sch)
    | NHash h w =>
      let! (r, sch) := resolve_f sch h w in
      match r with
      | None => Fail ECORRUPTION
      | Some rn => tree_remove_f fuel sch rn key depth
      end
    end
  end.

(** urkel_tree_prove: tree.c 383-477.  [None] is ECORRUPTION; the node as left behind (with
    the hashes cached so far) is returned in this case too. *)
Fixpoint tree_prove_f (fuel : nat) (sch : sched) (acc : list (bits * bytes)) (n : node) (key : bytes) (depth : nat)
  : res (option proof * node) :=
  match fuel with
  | O => NoFuel
  | S fuel =>
    match n with
    | NNull => Ok (Some (mkproof depth acc TDeadend), n)
    | NInt h w p l r =>
      let! m := bits_has p key depth in
      if negb m then
        let! (lh, l') := node_hash H l in
        let! (rh, r') := node_hash H r in
        Ok (Some (mkproof depth acc (TShort p lh rh)), NInt h w p l' r')
      else
        let depth := depth + bsize p in
        let! bit := get_bit key depth in
        let! (yh, y) := node_hash H (child l r (negb bit)) in
        let! acc := proof_push acc p yh in
        let! (pr, x) := tree_prove_f fuel sch acc (child l r bit) key (depth + 1) in
        Ok (pr, if bit then NInt h w p y x else NInt h w p x y)
    | NLeaf _ _ k v vp =>
      let! (r, _) := retrieve_f sch v vp in
      match r with
      | None => Ok (None, n)
      | Some x =>
        if bytes_eqb k key
        then Ok (Some (mkproof depth acc (TExists x)), n)
        else Ok (Some (mkproof depth acc (TCollision k (H x))), n)
      end
    | NHash h w =>
      let! (r, sch) := resolve_f sch h w in
      match r with
      | None => Ok (None, n)
      | Some rn => let! (pr, _) := tree_prove_f fuel sch acc rn key depth in Ok (pr, n)
      end
    end
  end.

(** ** Facts: without a failing read nothing changes; with one, the call reports it. *)
Definition sub (a b : sched) : Prop := In true a -> In true b.
Lemma sub_refl a : sub a a. Proof. exact (fun x => x). Qed.
Lemma sub_tl a : sub (tl a) a. Proof. destruct a; [exact (fun x => x)|now right]. Qed.
Lemma sub_trans a b c : sub a b -> sub b c -> sub a c. Proof. unfold sub. auto. Qed.
Lemma hd_true a : hd false a = true -> In true a. Proof. destruct a as [|b a]; [discriminate|]. cbn. intros ->. now left. Qed.

Lemma read_node_f_or sch w :
  (exists sch', read_node_f sch w = (let! r := read_node rd w in Ok (r, sch')) /\ sub sch' sch) \/
  (In true sch /\ exists sch', read_node_f sch w = Ok (None, sch') /\ sub sch' sch).
Proof.
  unfold read_node_f, read_node. destruct (_ || _).
  - left. exists sch. split; [reflexivity|apply sub_refl].
  - unfold rd_f. destruct (hd false sch) eqn:E.
    + right. split; [apply hd_true, E|]. exists (tl sch). split; [reflexivity|apply sub_tl].
    + left. exists (tl sch). split; [|apply sub_tl]. destruct (rd w) as [raw|]; [|reflexivity]. destruct (node_read raw) as [[n|]| | | |]; reflexivity.
Qed.
Lemma resolve_f_or sch h w :
  (exists sch', resolve_f sch h w = (let! r := resolve rd h w in Ok (r, sch')) /\ sub sch' sch) \/
  (In true sch /\ exists sch', resolve_f sch h w = Ok (None, sch')).
Proof.
  unfold resolve_f, resolve. destruct (read_node_f_or sch w) as [(sch' & -> & S)|(T & sch' & -> & S)].
  - left. exists sch'. split; [|exact S]. destruct (read_node rd w) as [[n|]| | | |]; reflexivity.
  - right. split; [exact T|]. exists sch'. reflexivity.
Qed.
Lemma retrieve_f_or sch v vp :
  (exists sch', retrieve_f sch v vp = (let! r := retrieve rd v vp in Ok (r, sch')) /\ sub sch' sch) \/
  (In true sch /\ exists sch', retrieve_f sch v vp = Ok (None, sch')).
Proof.
  unfold retrieve_f, retrieve, rd_f. destruct v as [x|].
  - left. exists sch. split; [|apply sub_refl]. unfold check. destruct (_ <=? _); reflexivity.
  - destruct vp as [q|]; [|left; exists sch; split; [reflexivity|apply sub_refl]].
    destruct (_ <? _)%N; [left; exists sch; split; [reflexivity|apply sub_refl]|].
    destruct (hd false sch) eqn:E.
    + right. split; [apply hd_true, E|]. exists (tl sch). reflexivity.
    + left. exists (tl sch). split; [reflexivity|apply sub_tl].
Qed.

Lemma get_f_or fuel : forall sch n key depth want,
  tree_get_f fuel sch n key depth want = tree_get rd fuel n key depth want \/
  (In true sch /\ tree_get_f fuel sch n key depth want = Fail ECORRUPTION).
Proof.
  induction fuel as [|fuel IH]; intros sch n key depth want; [now left|]. cbn [tree_get_f tree_get].
  destruct n as [|h w p l r|h w k v vp|h w].
  - now left.
  - destruct (bits_has p key depth) as [m| | | |]; cbn [bind]; auto. destruct (negb m); auto.
    destruct (get_bit key _) as [b| | | |]; cbn [bind]; auto.
  - destruct (negb _); auto. destruct want; auto.
    destruct (retrieve_f_or sch v vp) as [(sch' & -> & S)|(T & sch' & ->)]; [|now right].
    left. destruct (retrieve rd v vp) as [[x|]| | | |]; reflexivity.
  - destruct (resolve_f_or sch h w) as [(sch' & -> & S)|(T & sch' & ->)]; [|now right].
    destruct (resolve rd h w) as [[x|]| | | |]; cbn [bind]; auto.
    destruct (IH sch' x key depth want) as [->|[T ->]]; auto.
Qed.

Lemma insert_f_or fuel : forall sch n key value depth,
  tree_insert_f fuel sch n key value depth = tree_insert H rd fuel n key value depth \/
  (In true sch /\ tree_insert_f fuel sch n key value depth = Fail ECORRUPTION).
Proof.
  induction fuel as [|fuel IH]; intros sch n key value depth; [now left|]. cbn [tree_insert_f tree_insert].
  destruct n as [|h w p l r|h w k v vp|h w].
  - now left.
  - destruct (bits_count p key depth) as [c| | | |]; cbn [bind]; auto.
    destruct (get_bit key _) as [b| | | |]; cbn [bind]; auto. destruct (negb (c =? bsize p)); auto.
    destruct (IH sch (child l r b) key value (depth + c + 1)) as [->|[T ->]]; auto.
  - now left.
  - destruct (resolve_f_or sch h w) as [(sch' & -> & S)|(T & sch' & ->)]; [|now right].
    destruct (resolve rd h w) as [[x|]| | | |]; cbn [bind]; auto.
    destruct (IH sch' x key value depth) as [->|[T ->]]; auto.
Qed.

Lemma remove_f_or fuel : forall sch n key depth,
  (exists sch', tree_remove_f fuel sch n key depth = (let! r := tree_remove rd fuel n key depth in Ok (r, sch')) /\ sub sch' sch) \/
  (In true sch /\ (tree_remove_f fuel sch n key depth = Fail ECORRUPTION \/
                   tree_remove_f fuel sch n key depth = Abort)).
Proof.
  induction fuel as [|fuel IH]; intros sch n key depth; [left; exists sch; split; [reflexivity|apply sub_refl]|]. cbn [tree_remove_f tree_remove].
  destruct n as [|h w p l r|h w k v vp|h w].
  - left; exists sch; split; [reflexivity|apply sub_refl].
  - destruct (bits_has p key depth) as [m| | | |]; cbn [bind]; try (left; exists sch; split; [reflexivity|apply sub_refl]).
    destruct (negb m); [left; exists sch; split; [reflexivity|apply sub_refl]|].
    destruct (get_bit key _) as [b| | | |]; cbn [bind]; try (left; exists sch; split; [reflexivity|apply sub_refl]).
    destruct (IH sch (child l r b) key (depth + bsize p + 1)) as [(sch' & -> & S)|(T & [->| ->])]; [|right; split; [exact T|now left]|right; split; [exact T|now right]].
    destruct (tree_remove rd fuel (child l r b) key (depth + bsize p + 1)) as [z| | | |]; cbn [bind]; try (left; exists sch'; split; [reflexivity|exact S]).
    destruct z; try (left; exists sch'; split; [reflexivity|exact S]).
    destruct (child l r (negb b)) as [|h0 w0 q sl sr|h0 w0 k0 v0 vp0|h0 w0]; cbn [bind]; try (left; exists sch'; split; [reflexivity|exact S]).
    + left. exists sch'. split; [|exact S]. destruct (bits_join p q (negb b)); reflexivity.
    + destruct (resolve_f_or sch' h0 w0) as [(sch2 & -> & S2)|(T & sch2 & ->)]; [|right; split; [auto|now right]].
      destruct (resolve rd h0 w0) as [[x|]| | | |]; cbn [bind]; try (left; exists sch'; split; [reflexivity|exact S]).
      destruct x as [|h1 w1 q1 sl sr|h1 w1 k1 v1 vp1|h1 w1]; try (left; exists sch2; split; [reflexivity|eapply sub_trans; eassumption]).
      left. exists sch2. split; [|eapply sub_trans; eassumption]. destruct (bits_join p q1 (negb b)); reflexivity.
  - left. exists sch. split; [|apply sub_refl]. destruct (negb _); reflexivity.
  - destruct (resolve_f_or sch h w) as [(sch' & -> & S)|(T & sch' & ->)]; [|right; split; [exact T|now left]].
    destruct (resolve rd h w) as [[x|]| | | |]; cbn [bind]; try (left; exists sch'; split; [reflexivity|exact S]).
    destruct (IH sch' x key depth) as [(sch2 & -> & S2)|(T & X)]; [|right; auto].
    left. exists sch2. split; [reflexivity|eapply sub_trans; eassumption].
Qed.

(** A proof that cannot be made leaves a node structure that stands for the same tree. *)
Lemma prove_f_or (H_len : forall m, length (H m) = 32) fuel : forall sch acc n key depth pr n' t,
  tree_prove H rd fuel acc n key depth = Ok (pr, n') -> rep H rd n t ->
  tree_prove_f fuel sch acc n key depth = Ok (Some pr, n') \/
  (In true sch /\ exists n2, tree_prove_f fuel sch acc n key depth = Ok (None, n2) /\ rep H rd n2 t).
Proof.
  induction fuel as [|fuel IH]; intros sch acc n key depth pr n' t E R; [discriminate|].
  cbn [tree_prove_f tree_prove] in *. destruct n as [|h w p l r|h w k v vp|h w].
  - left. apply Ok_inj in E. injection E as <- <-. reflexivity.
  - destruct (bits_has p key depth) as [m| | | |]; cbn [bind] in *; try discriminate. destruct (negb m).
    + destruct (node_hash H l) as [[lh l']| | | |]; cbn [bind] in *; try discriminate.
      destruct (node_hash H r) as [[rh r']| | | |]; cbn [bind] in *; try discriminate.
      apply Ok_inj in E. injection E as <- <-. now left.
    + destruct (get_bit key _) as [b| | | |]; cbn [bind] in *; try discriminate.
      destruct (node_hash H (child l r (negb b))) as [[yh y]| | | |] eqn:Ey; cbn [bind] in *; try discriminate.
      destruct (proof_push acc p yh) as [acc'| | | |]; cbn [bind] in *; try discriminate.
      destruct (tree_prove H rd fuel acc' (child l r b) key _) as [[pr0 x]| | | |] eqn:Ex; cbn [bind] in *; try discriminate.
      apply Ok_inj in E. injection E as <- <-.
      destruct R as (pre & tl & tr & -> & Hh & Hw & -> & Rl & Rr).
      pose proof (child_rep H rd l r tl tr b Rl Rr) as Rx. pose proof (child_rep H rd l r tl tr (negb b) Rl Rr) as Ry.
      destruct (IH sch acc' _ key _ _ _ _ Ex Rx) as [->|(T & n2 & -> & R2)]; cbn [bind]; [now left|]. right. split; [exact T|]. eexists. split; [reflexivity|].
      destruct (node_hash_rep H rd _ _ Ry) as (y' & Ey' & Ry' & _). rewrite Ey in Ey'. apply Ok_inj in Ey'. injection Ey' as _ <-.
      destruct b; exists pre, tl, tr; cbn [negb] in *; auto 10.
  - destruct (retrieve_f_or sch v vp) as [(sch' & -> & S)|(T & sch' & ->)].
    + destruct (retrieve rd v vp) as [[x|]| | | |]; cbn [bind] in *; try discriminate. left.
      destruct (bytes_eqb k key); apply Ok_inj in E; injection E as <- <-; reflexivity.
    + right. split; [exact T|]. eexists. split; [reflexivity|exact R].
  - destruct (resolve_f_or sch h w) as [(sch' & -> & S)|(T & sch' & ->)].
    2:{ right. split; [exact T|]. eexists. split; [reflexivity|exact R]. }
    destruct R as [-> Dk]. destruct (resolve_rep H H_len rd t w Dk) as (rn & Er & Rn & _). rewrite Er in *. cbn [bind] in *.
    destruct (tree_prove H rd fuel acc rn key depth) as [[pr0 x]| | | |] eqn:Ex; cbn [bind] in *; try discriminate.
    apply Ok_inj in E. injection E as <- <-.
    destruct (IH sch' acc rn key depth _ _ t Ex Rn) as [->|(T & n2 & -> & R2)]; cbn [bind]; [now left|].
    right. split; [auto|]. eexists. split; [reflexivity|]. split; [reflexivity|exact Dk].
Qed.
End TreeF.

Section DbF.
Variable H : bytes -> bytes.
Variable C : bytes -> bytes -> bytes.

(** urkel_store_read_root: store.c 574-607. *)
Definition read_root_f (sch : sched) (s : store) (p : ptr) : res (option node * store * sched) :=
  if (pidx p =? 0)%N then Ok (Some NNull, s, sch) else
  let! (r, sch) := read_node_f (st_rd s) sch p in
  match r with
  | None => Ok (None, s, sch)
  | Some n =>
    let! (n, sch) := (match n with
               | NLeaf h w k v vp =>
                 let! (x, sch) := retrieve_f (st_rd s) sch v vp in
                 match x with
                 | None => Ok (None, sch)
                 | Some x => Ok (Some (NLeaf h w k (Some x) vp), sch)
                 end
               | n => Ok (Some n, sch)
               end) in
    match n with
    | None => Ok (None, s, sch)
    | Some n =>
      let! (_, n) := node_hash H n in
      let! out := node_to_hash n in
      let! c := cache_insert (st_cache s) out in
      Ok (Some out, set_cache s c, sch)
    end
  end.

(** urkel_store_read_meta: store.c 802-812. *)
Definition read_meta_f (sch : sched) (s : store) (p : ptr) : res (option meta * sched) :=
  match rd_f (st_rd s) sch (mkptr (pidx p) (ppos p) 38) with
  | (None, sch) => Ok (None, sch)
  | (Some d, sch) => let! m := meta_read C (st_key s) d in Ok (m, sch)
  end.

(** The loop of urkel_store_read_history: store.c 841-859. *)
Fixpoint history_loop_f (fuel : nat) (sch : sched) (s : store) (h : bytes) : res (option node * store * sched) :=
  match fuel with
  | O => NoFuel
  | S fuel =>
    let mp := m_meta (st_last s) in
    if (pidx mp =? 0)%N then Ok (None, s, sch) else
    let! (r, sch) := read_meta_f sch s mp in
    match r with
    | None => Ok (None, s, sch)
    | Some m =>
      let! (r, s, sch) := read_root_f sch s (m_root m) in
      match r with
      | None => Ok (None, s, sch)
      | Some n =>
        let s := set_last s m in
        if bytes_eqb (hash_field n) h then Ok (Some n, s, sch) else history_loop_f fuel sch s h
      end
    end
  end.

(** urkel_store_read_history: store.c 814-862. *)
Definition read_history_f (sch : sched) (s : store) (h : bytes) : res (option node * store * sched) :=
  if bytes_eqb h zero_hash then Ok (Some NNull, s, sch) else
  if bytes_eqb h (hash_field (m_node (st_state s))) then Ok (Some (m_node (st_state s)), s, sch) else
  match cache_lookup (st_cache s) h with
  | Some n => Ok (Some n, s, sch)
  | None => history_loop_f (history_fuel s) sch s h
  end.

(** urkel_tx_create: tree.c 831-871. *)
Definition tx_create_f (sch : sched) (d : db) (ro : option bytes) : res (option node * db * sched) :=
  match ro with
  | Some h => let! (r, s, sch) := read_history_f sch (d_store d) h in Ok (r, with_store d s, sch)
  | None =>
    if d_revert d
    then let! (r, s, sch) := read_history_f sch (d_store d) (d_hash d) in Ok (r, with_store d s, sch)
    else Ok (Some (m_node (st_state (d_store d))), d, sch)
  end.

(** urkel_tx_inject: tree.c 919-940. *)
Definition tx_inject_f (sch : sched) (d : db) (n : node) (h : bytes) : res (answer * db * node) :=
  let! (r, s, _) := read_history_f sch (d_store d) h in
  match r with
  | Some root => Ok (AOk, with_store d s, root)
  | None => Ok (AErr ENOTFOUND, with_store d s, n)
  end.

(** urkel_tx_get, urkel_tx_has: tree.c 942-976. *)
Definition tx_get_f (sch : sched) (d : db) (n : node) (k : bytes) : res answer :=
  match tree_get_f (st_rd (d_store d)) TREE_FUEL sch n k 0 true with
  | Ok v => Ok (AVal v) | Fail e => Ok (AErr e) | Abort => Abort | UB => UB | NoFuel => NoFuel
  end.
Definition tx_has_f (sch : sched) (d : db) (n : node) (k : bytes) : res answer :=
  match tree_get_f (st_rd (d_store d)) TREE_FUEL sch n k 0 false with
  | Ok _ => Ok AOk | Fail e => Ok (AErr e) | Abort => Abort | UB => UB | NoFuel => NoFuel
  end.

(** urkel_tx_insert, urkel_tx_remove: tree.c 978-1020. *)
Definition tx_insert_f (sch : sched) (d : db) (n : node) (k v : bytes) : res (answer * node) :=
  if 1023 <? length v then Ok (AErr EINVAL, n) else
  match tree_insert_f H (st_rd (d_store d)) TREE_FUEL sch n k v 0 with
  | Ok n' => Ok (AOk, n')
  | Fail ENOUPDATE => Ok (AOk, n)
  | Fail e => Ok (AErr e, n)
  | Abort => Abort | UB => UB | NoFuel => NoFuel
  end.
Definition tx_remove_f (sch : sched) (d : db) (n : node) (k : bytes) : res (answer * node) :=
  match tree_remove_f (st_rd (d_store d)) TREE_FUEL sch n k 0 with
  | Ok (n', _) => Ok (AOk, n')
  | Fail e => Ok (AErr e, n)
  | Abort => Abort | UB => UB | NoFuel => NoFuel
  end.

(** urkel_tx_prove: tree.c 1022-1066.  After ECORRUPTION the transaction keeps the hashes
    cached so far. *)
Definition tx_prove_f (sch : sched) (d : db) (n : node) (k : bytes) : res (answer * node) :=
  match tree_prove_f H (st_rd (d_store d)) TREE_FUEL sch [] n k 0 with
  | Ok (Some p, n') =>
    let! size := proof_size p in
    let! raw := proof_write p in
    if length raw =? size then Ok (AProof raw, n') else UB
  | Ok (None, n') => Ok (AErr ECORRUPTION, n')
  | Fail e => Ok (AErr e, n)
  | Abort => Abort | UB => UB | NoFuel => NoFuel
  end.

(** urkel_inject: tree.c 646-665. *)
Definition db_inject_f (sch : sched) (d : db) (h : bytes) : res (answer * db) :=
  let! (r, s, _) := read_history_f sch (d_store d) h in
  match r with
  | Some _ => Ok (AOk, mkdb s h true)
  | None => UB
  end.

(** urkel_get, urkel_has, urkel_prove: tree.c 667-703, 748-768. *)
Definition db_read_f (op : sched -> db -> node -> res answer) (sch : sched) (d : db) (ro : option bytes) : res (answer * db) :=
  let! (r, d, sch) := tx_create_f sch d ro in
  match r with
  | None => Ok (AErr ENOTFOUND, d)
  | Some n => let! a := op sch d n in Ok (a, d)
  end.

(** urkel_insert, urkel_remove: tree.c 705-746.  Committing reads nothing. *)
Definition db_write_f (op : sched -> db -> node -> res (answer * node)) (sch : sched) (d : db) : res (answer * db) :=
  let! (r, d, sch) := tx_create_f sch d None in
  match r with
  | None => Ok (AErr ENOTFOUND, d)
  | Some n =>
    let! (a, n) := op sch d n in
    match a with
    | AOk =>
      let! (a, d, t) := tx_commit H C d n in
      match t with TLive _ => Ok (a, d) | _ => UB end
    | _ => Ok (a, d)
    end
  end.

(** One API call during which reads fail according to [sch].  (Reads while opening are the
    subject of C32 and C35; the calls below that do not read are those of Db.v.) *)
Definition step_f (w : world) (sch : sched) (c : call) : res (answer * world) :=
  match w_db w with
  | None => UB
  | Some d =>
    match c with
    | CInject h => let! (a, d) := db_inject_f sch d h in Ok (a, mkworld (Some d) (w_txs w))
    | CGet k ro => let! (a, d) := db_read_f (fun sch d n => tx_get_f sch d n k) sch d ro in Ok (a, mkworld (Some d) (w_txs w))
    | CHas k ro => let! (a, d) := db_read_f (fun sch d n => tx_has_f sch d n k) sch d ro in Ok (a, mkworld (Some d) (w_txs w))
    | CProve k ro =>
      let! (a, d) := db_read_f (fun sch d n => let! (a, _) := tx_prove_f sch d n k in Ok a) sch d ro in
      Ok (a, mkworld (Some d) (w_txs w))
    | CInsert k v =>
      let! (a, d) := db_write_f (fun sch d n => tx_insert_f sch d n k v) sch d in Ok (a, mkworld (Some d) (w_txs w))
    | CRemove k =>
      let! (a, d) := db_write_f (fun sch d n => tx_remove_f sch d n k) sch d in Ok (a, mkworld (Some d) (w_txs w))
    | CTxCreate ro =>
      let! (r, d, _) := tx_create_f sch d ro in
      match r with
      | None => Ok (AErr ENOTFOUND, mkworld (Some d) (w_txs w))
      | Some n => Ok (ATx (length (w_txs w)), mkworld (Some d) (w_txs w ++ [TLive n]))
      end
    | CTxInject i h =>
      let! n := live w i in let! (a, d, n) := tx_inject_f sch d n h in Ok (a, put_tx w d i (TLive n))
    | CTxGet i k => let! n := live w i in let! a := tx_get_f sch d n k in Ok (a, w)
    | CTxHas i k => let! n := live w i in let! a := tx_has_f sch d n k in Ok (a, w)
    | CTxInsert i k v =>
      let! n := live w i in let! (a, n) := tx_insert_f sch d n k v in Ok (a, put_tx w d i (TLive n))
    | CTxRemove i k =>
      let! n := live w i in let! (a, n) := tx_remove_f sch d n k in Ok (a, put_tx w d i (TLive n))
    | CTxProve i k =>
      let! n := live w i in let! (a, n) := tx_prove_f sch d n k in Ok (a, put_tx w d i (TLive n))
    | CRoot | CTxDestroy _ | CTxClear _ | CTxRoot _ | CTxCommit _ | CReopen => step H C w c
    end
  end.

(** ** The history walk *)
Hypothesis H_len : forall m, length (H m) = 32.
Hypothesis C_len : forall k m, length (C k m) = 20.

Lemma read_meta_f_or sch s p m : read_meta C s p = Ok m ->
  (exists sch', read_meta_f sch s p = Ok (m, sch') /\ sub sch' sch) \/
  (In true sch /\ exists sch', read_meta_f sch s p = Ok (None, sch')).
Proof.
  unfold read_meta_f, read_meta, rd_f. intros E. destruct (hd false sch) eqn:Eh.
  - right. split; [apply hd_true, Eh|]. eexists. reflexivity.
  - left. exists (tl sch). split; [|apply sub_tl]. destruct (st_rd s _) as [d|]; [rewrite E; reflexivity|]. apply Ok_inj in E. subst m. reflexivity.
Qed.
Lemma read_root_f_or sch s p r s' : read_root H s p = Ok (r, s') ->
  (exists sch', read_root_f sch s p = Ok (r, s', sch') /\ sub sch' sch) \/
  (In true sch /\ exists sch', read_root_f sch s p = Ok (None, s, sch')).
Proof.
  unfold read_root_f, read_root. destruct (pidx p =? 0)%N.
  { intros E. apply Ok_inj in E. injection E as <- <-. left. exists sch. split; [reflexivity|apply sub_refl]. }
  destruct (read_node_f_or (st_rd s) sch p) as [(sch' & -> & S)|(T & sch' & -> & S)].
  2:{ intros _. right. split; [exact T|]. eexists. reflexivity. }
  destruct (read_node (st_rd s) p) as [[n|]| | | |]; cbn [bind]; try discriminate.
  2:{ intros E. apply Ok_inj in E. injection E as <- <-. left. exists sch'. split; [reflexivity|exact S]. }
  assert (Fin : forall n sch2 r s', sub sch2 sch ->
     (let! (_, n) := node_hash H n in let! out := node_to_hash n in let! c := cache_insert (st_cache s) out in Ok (Some out, set_cache s c)) = Ok (r, s') ->
     (let! (_, n) := node_hash H n in let! out := node_to_hash n in let! c := cache_insert (st_cache s) out in Ok (Some out, set_cache s c, sch2)) = Ok (r, s', sch2)).
  { intros n0 sch2 r0 s0 _ E. destruct (node_hash H n0) as [[hh n1]| | | |]; cbn [bind] in *; try discriminate.
    destruct (node_to_hash n1); cbn [bind] in *; try discriminate. destruct (cache_insert _ _); cbn [bind] in *; try discriminate.
    apply Ok_inj in E. injection E as <- <-. reflexivity. }
  destruct n as [|h w q l r0|h w k v vp|h w]; cbn [bind].
  1,2,4: intros E; left; exists sch'; split; [eapply Fin; [exact S|exact E]|exact S].
  destruct (retrieve_f_or (st_rd s) sch' v vp) as [(sch2 & -> & S2)|(T & sch2 & ->)].
  2:{ intros _. right. split; [auto|]. eexists. reflexivity. }
  destruct (retrieve (st_rd s) v vp) as [[x|]| | | |]; cbn [bind]; try discriminate.
  - intros E. left. exists sch2. assert (sub sch2 sch) by (eapply sub_trans; eassumption). split; [eapply Fin; [assumption|exact E]|assumption].
  - intros E. apply Ok_inj in E. injection E as <- <-. left. exists sch2. split; [reflexivity|eapply sub_trans; eassumption].
Qed.

Lemma history_loop_f_or h : h <> zero_hash -> forall h2 fuel sch s D hist,
  sinv H C s D hist -> length h2 < fuel ->
  (exists h1, hist = h1 ++ h2 /\ chain H C (st_key s) D (m_meta (st_last s)) h2 /\
     forall t w, In (t, w) h1 -> t <> PNull -> cache_lookup (st_cache s) (thash H t) <> None) ->
  (exists r s' sch', history_loop H C fuel s h = Ok (r, s') /\ history_loop_f fuel sch s h = Ok (r, s', sch') /\ sub sch' sch) \/
  (In true sch /\ exists s' sch', history_loop_f fuel sch s h = Ok (None, s', sch') /\ sinv H C s' D hist /\ same_db s s').
Proof.
  intros Hz. induction h2 as [|[t w] h2 IH]; intros fuel sch s D hist I F (h1 & E & Ch & Ca).
  - destruct fuel as [|fuel]; [cbn in F; lia|]. cbn [history_loop history_loop_f]. cbn [chain] in Ch. rewrite Ch. cbn [pidx ptr0 N.eqb].
    left. exists None, s, sch. split; [reflexivity|]. split; [reflexivity|apply sub_refl].
  - destruct fuel as [|fuel]; [cbn in F; lia|]. cbn [history_loop history_loop_f length] in *.
    destruct Ch as (prev & Rec & Ro & Ch). pose proof Rec as (A & B & _).
    destruct (N.eqb_spec (pidx (m_meta (st_last s))) 0) as [X|_]; [lia|].
    pose proof (read_meta_eq C C_len s D _ prev w (si_rd _ _ _ _ _ I) Rec (proj1 (chain_ptr H H_len C C_len _ _ _ _ Ch)) (root_ok_ptr H _ _ _ Ro)) as Em.
    destruct (read_meta_f_or sch _ _ _ Em) as [(sch1 & -> & S1)|(T & sch1 & ->)]; cbn [bind].
    2:{ right. split; [exact T|]. exists s, sch1. split; [reflexivity|]. split; [exact I|apply same_db_refl]. }
    rewrite Em. cbn [bind m_root]. clear Em.
    pose proof (read_root_eq H H_len C C_len s D t w (si_rd _ _ _ _ _ I) Ro) as Er.
    destruct (read_root_f_or sch1 _ _ _ _ Er) as [(sch2 & -> & S2)|(T & sch2 & ->)]; cbn [bind].
    2:{ right. split; [auto|]. exists s, sch2. split; [reflexivity|]. split; [exact I|apply same_db_refl]. }
    rewrite Er. cbn [bind]. clear Er.
    set (s1 := cached H s t w). destruct (cached_fields H s t w) as (C1 & C2 & C3 & C4 & C5 & C6 & C7 & C8 & C9). fold s1 in C1, C2, C3, C4, C5, C6, C7, C8, C9.
    set (s2 := set_last s1 (mkmeta prev w NNull)).
    assert (Int : In (t, w) hist) by (rewrite E; apply in_or_app; right; now left).
    assert (Sd : same_db s s2).
    { unfold same_db, s2. cbn [set_last st_fs st_log st_key st_slab st_state st_index st_size st_io]. repeat split; assumption. }
    assert (Ca2 : forall t0 w0, In (t0, w0) (h1 ++ [(t, w)]) -> t0 <> PNull -> cache_lookup (st_cache s2) (thash H t0) <> None).
    { intros t0 w0 In0 N0. change (st_cache s2) with (st_cache s1). apply in_app_or in In0. destruct In0 as [In0|[[= -> ->]|[]]].
      - apply cached_mono, (Ca _ _ In0 N0).
      - apply cached_self, N0. }
    assert (Ch2 : chain H C (st_key s2) D (m_meta (st_last s2)) h2).
    { replace (st_key s2) with (st_key s) by (symmetry; apply Sd). exact Ch. }
    assert (E2 : hist = (h1 ++ [(t, w)]) ++ h2) by (rewrite <- app_assoc; exact E).
    assert (I2 : sinv H C s2 D hist).
    { pose proof I as [I1 I2 I3 I4 I5 I6 I7]. pose proof Sd as (Q1&Q2&Q3&Q4&Q5&Q6&Q7&Q8). constructor.
      - intros p x Ep. rewrite (same_db_rd _ _ Sd). auto.
      - rewrite Q3, Q5. exact I2.
      - rewrite Q5. exact I3.
      - exact I4.
      - exists (h1 ++ [(t, w)]), h2. auto.
      - apply cached_sound; assumption.
      - rewrite Q6. exact I7. }
    assert (S12 : sub sch2 sch) by (eapply sub_trans; eassumption).
    destruct (bytes_eqb (hash_field (root_node H t w)) h) eqn:Eh.
    + left. eexists _, s2, sch2. split; [reflexivity|]. split; [reflexivity|exact S12].
    + destruct (IH fuel sch2 s2 D hist I2 ltac:(lia)) as [(r & s' & sch' & E3 & E4 & S')|(T & s' & sch' & E3 & Is & Ss)]. { exists (h1 ++ [(t, w)]). auto. }
      * left. exists r, s', sch'. split; [exact E3|]. split; [exact E4|eapply sub_trans; eassumption].
      * right. split; [auto|]. exists s', sch'. split; [exact E3|]. split; [exact Is|eauto using same_db_trans].
Qed.

Lemma read_history_f_or sch s D hist h : sinv H C s D hist ->
  (exists r s' sch', read_history H C s h = Ok (r, s') /\ read_history_f sch s h = Ok (r, s', sch') /\ sub sch' sch) \/
  (In true sch /\ exists s' sch', read_history_f sch s h = Ok (None, s', sch') /\ sinv H C s' D hist /\ same_db s s').
Proof.
  intros I. unfold read_history, read_history_f. destruct (bytes_eqb h zero_hash) eqn:Ez.
  { left. eexists _, _, sch. split; [reflexivity|]. split; [reflexivity|apply sub_refl]. }
  assert (Hz : h <> zero_hash) by (intros ->; rewrite bytes_eqb_refl in Ez; discriminate).
  destruct (bytes_eqb h (hash_field (m_node (st_state s)))).
  { left. eexists _, _, sch. split; [reflexivity|]. split; [reflexivity|apply sub_refl]. }
  destruct (cache_lookup (st_cache s) h) as [n|].
  { left. eexists _, _, sch. split; [reflexivity|]. split; [reflexivity|apply sub_refl]. }
  destruct (si_last _ _ _ _ _ I) as (h1 & h2 & Eh & Ch & Ca).
  apply (history_loop_f_or h Hz h2 (history_fuel s) sch s D hist I).
  - unfold history_fuel. fold (total (st_fs s)). pose proof (rd_total H H_len C C_len s D (si_rd _ _ _ _ _ I)). pose proof (si_len _ _ _ _ _ I) as L.
    rewrite Eh, app_length in L. lia.
  - exists h1. auto.
Qed.

(** ** One call *)

(** The call looks for a root other than that of the last commit. *)
Definition looks_up (w : world) (c : call) : Prop :=
  match c with
  | CInject _ | CTxInject _ _ => True
  | CGet _ ro | CHas _ ro | CProve _ ro | CTxCreate ro =>
    ro <> None \/ exists d, w_db w = Some d /\ d_revert d = true
  | CInsert _ _ | CRemove _ => exists d, w_db w = Some d /\ d_revert d = true
  | _ => False
  end.
Definition removes (c : call) : Prop := match c with CRemove _ | CTxRemove _ _ => True | _ => False end.

(** What a failing read does to a call: nothing that lasts. *)
Definition spoiled (w : world) (sp : spec) (D : list bytes) (hist : list (ptree * ptr)) (sch : sched) (c : call) (d : db) : Prop :=
  (exists e d' txs, step_f w sch c = Ok (AErr e, mkworld (Some d') txs) /\
     (e = ECORRUPTION \/ (e = ENOTFOUND /\ looks_up w c)) /\
     rdb H C d' sp D hist /\ same_db (d_store d) (d_store d') /\ Forall2 (txsim H (d_store d')) txs (s_txs sp)) \/
  (step_f w sch c = Abort /\ removes c) \/
  (step_f w sch c = UB /\ exists h, c = CInject h).

Lemma tx_create_f_or sch d sp D hist ro : rdb H C d sp D hist ->
  (exists r d' sch', tx_create H C d ro = Ok (r, d') /\ tx_create_f sch d ro = Ok (r, d', sch') /\ sub sch' sch) \/
  (In true sch /\ (ro <> None \/ d_revert d = true) /\
   exists d' sch', tx_create_f sch d ro = Ok (None, d', sch') /\ rdb H C d' sp D hist /\ same_db (d_store d) (d_store d')).
Proof.
  intros S.
  assert (R : forall h,
    (exists r d' sch', (let! (r, s) := read_history H C (d_store d) h in Ok (r, with_store d s)) = Ok (r, d') /\
       (let! (r, s, sch) := read_history_f sch (d_store d) h in Ok (r, with_store d s, sch)) = Ok (r, d', sch') /\ sub sch' sch) \/
    (In true sch /\ exists d' sch', (let! (r, s, sch) := read_history_f sch (d_store d) h in Ok (r, with_store d s, sch)) = Ok (None, d', sch') /\
       rdb H C d' sp D hist /\ same_db (d_store d) (d_store d'))).
  { intros h. destruct (read_history_f_or sch _ D hist h (rm_inv _ _ _ _ _ _ S)) as [(r & s' & sch' & E1 & E2 & S')|(T & s' & sch' & E2 & I & Sd)].
    - left. rewrite E1, E2. cbn [bind]. eexists _, _, _. split; [reflexivity|]. split; [reflexivity|exact S'].
    - right. split; [exact T|]. rewrite E2. cbn [bind]. eexists _, _. split; [reflexivity|]. split; [eapply same_rdb; eauto|exact Sd]. }
  unfold tx_create, tx_create_f. destruct ro as [h|].
  - destruct (R h) as [X|(T & X)]; [left; exact X|right; split; [exact T|]; split; [left; discriminate|exact X]].
  - destruct (d_revert d) eqn:Er.
    + destruct (R (d_hash d)) as [X|(T & X)]; [left; exact X|right; split; [exact T|]; split; [now right|exact X]].
    + left. eexists _, _, sch. split; [reflexivity|]. split; [reflexivity|apply sub_refl].
Qed.

Lemma read_f_or w sp c d D hist ro sch (op : db -> node -> res answer) (opf : sched -> db -> node -> res answer) :
  w_db w = Some d -> rdb H C d sp D hist -> Forall2 (txsim H (d_store d)) (w_txs w) (s_txs sp) -> collision_free H sp ->
  step H C w c = (let! (a, d) := db_read H C op d ro in Ok (a, mkworld (Some d) (w_txs w))) ->
  step_f w sch c = (let! (a, d) := db_read_f opf sch d ro in Ok (a, mkworld (Some d) (w_txs w))) ->
  (ro <> None \/ d_revert d = true -> looks_up w c) ->
  (forall sch d' n l, seen H sp ro = Some l -> holds H (d_store d') n l ->
     opf sch d' n = op d' n \/ (In true sch /\ opf sch d' n = Ok (AErr ECORRUPTION))) ->
  step_f w sch c = step H C w c \/ (In true sch /\ spoiled w sp D hist sch c d).
Proof.
  intros Ew S F CF E Ef L P. unfold db_read in E. unfold db_read_f in Ef.
  destruct (tx_create_f_or sch d sp D hist ro S) as [(r & d' & sch' & E1 & E2 & Sb)|(T & U & d' & sch' & E2 & S' & Sd)].
  - destruct (tx_create_ok H H_len C C_len d sp D hist ro S CF) as (r' & d2 & E1' & S' & Sd & M).
    rewrite E1 in E1'. apply Ok_inj in E1'. injection E1' as <- <-.
    rewrite E1 in E. rewrite E2 in Ef. cbn [bind] in E, Ef. destruct r as [n|]; [|left; congruence].
    destruct (seen H sp ro) as [l|]; [|discriminate M]. destruct M as (n' & X & Hn). injection X as <-.
    destruct (P sch' d' n l eq_refl Hn) as [Eo|(T & Eo)]; rewrite Eo in Ef; [left; congruence|]. right. split; [auto|]. cbn [bind] in Ef.
    left. exists ECORRUPTION, d', (w_txs w). split; [exact Ef|]. split; [now left|]. split; [exact S'|]. split; [exact Sd|].
    eapply txs_mono; [apply same_rmono, Sd|exact F].
  - right. split; [exact T|]. rewrite E2 in Ef. cbn [bind] in Ef. left. exists ENOTFOUND, d', (w_txs w). split; [exact Ef|].
    split; [right; auto|]. split; [exact S'|]. split; [exact Sd|]. eapply txs_mono; [apply same_rmono, Sd|exact F].
Qed.

Lemma write_f_or w sp c d D hist sch (op : db -> node -> res (answer * node)) (opf : sched -> db -> node -> res (answer * node)) :
  w_db w = Some d -> rdb H C d sp D hist -> Forall2 (txsim H (d_store d)) (w_txs w) (s_txs sp) -> collision_free H sp ->
  step H C w c = (let! (a, d) := db_write H C op d in Ok (a, mkworld (Some d) (w_txs w))) ->
  step_f w sch c = (let! (a, d) := db_write_f opf sch d in Ok (a, mkworld (Some d) (w_txs w))) ->
  (d_revert d = true -> looks_up w c) ->
  (forall sch d' n, opf sch d' n = op d' n \/
     (In true sch /\ (opf sch d' n = Ok (AErr ECORRUPTION, n) \/ (opf sch d' n = Abort /\ removes c)))) ->
  step_f w sch c = step H C w c \/ (In true sch /\ spoiled w sp D hist sch c d).
Proof.
  intros Ew S F CF E Ef L P. unfold db_write in E. unfold db_write_f in Ef.
  destruct (tx_create_f_or sch d sp D hist None S) as [(r & d' & sch' & E1 & E2 & Sb)|(T & U & d' & sch' & E2 & S' & Sd)].
  - destruct (tx_create_ok H H_len C C_len d sp D hist None S CF) as (r' & d2 & E1' & S' & Sd & M).
    rewrite E1 in E1'. apply Ok_inj in E1'. injection E1' as <- <-.
    rewrite E1 in E. rewrite E2 in Ef. cbn [bind] in E, Ef. destruct r as [n|]; [|left; congruence].
    destruct (P sch' d' n) as [Eo|(T & [Eo|[Eo Rm]])]; rewrite Eo in Ef; [left; congruence| |]; right; (split; [auto|]); cbn [bind] in Ef.
    + left. exists ECORRUPTION, d', (w_txs w). split; [exact Ef|]. split; [now left|]. split; [exact S'|]. split; [exact Sd|].
      eapply txs_mono; [apply same_rmono, Sd|exact F].
    + right. left. auto.
  - right. split; [exact T|]. rewrite E2 in Ef. cbn [bind] in Ef. left. exists ENOTFOUND, d', (w_txs w). split; [exact Ef|].
    split; [right; destruct U as [U|U]; [congruence|auto]|]. split; [exact S'|]. split; [exact Sd|]. eapply txs_mono; [apply same_rmono, Sd|exact F].
Qed.

Lemma tx_get_f_or sch d n k : tx_get_f sch d n k = tx_get d n k \/ (In true sch /\ tx_get_f sch d n k = Ok (AErr ECORRUPTION)).
Proof. unfold tx_get_f, tx_get. destruct (get_f_or (st_rd (d_store d)) TREE_FUEL sch n k 0 true) as [->|[T ->]]; auto. Qed.
Lemma tx_has_f_or sch d n k : tx_has_f sch d n k = tx_has d n k \/ (In true sch /\ tx_has_f sch d n k = Ok (AErr ECORRUPTION)).
Proof. unfold tx_has_f, tx_has. destruct (get_f_or (st_rd (d_store d)) TREE_FUEL sch n k 0 false) as [->|[T ->]]; auto. Qed.
Lemma tx_insert_f_or sch d n k v : tx_insert_f sch d n k v = tx_insert H d n k v \/ (In true sch /\ tx_insert_f sch d n k v = Ok (AErr ECORRUPTION, n)).
Proof.
  unfold tx_insert_f, tx_insert. destruct (1023 <? length v); [now left|].
  destruct (insert_f_or H (st_rd (d_store d)) TREE_FUEL sch n k v 0) as [->|[T ->]]; auto.
Qed.
Lemma tx_remove_f_or sch d n k : tx_remove_f sch d n k = tx_remove d n k \/
  (In true sch /\ (tx_remove_f sch d n k = Ok (AErr ECORRUPTION, n) \/ tx_remove_f sch d n k = Abort)).
Proof.
  unfold tx_remove_f, tx_remove. destruct (remove_f_or (st_rd (d_store d)) TREE_FUEL sch n k 0) as [(sch' & -> & S)|(T & [->| ->])]; auto.
  left. destruct (tree_remove _ _ _ _ _); reflexivity.
Qed.
Lemma tx_prove_f_or sch d n k l : holds H (d_store d) n l -> length k = 32 ->
  tx_prove_f sch d n k = tx_prove H d n k \/
  (In true sch /\ exists n2, tx_prove_f sch d n k = Ok (AErr ECORRUPTION, n2) /\ holds H (d_store d) n2 l).
Proof.
  intros Hn Lk. destruct (tx_prove_ok H H_len d n l k Hn Lk) as (raw & n' & E & _). revert E. unfold tx_prove, tx_prove_f.
  destruct (tree_prove H (st_rd (d_store d)) TREE_FUEL [] n k 0) as [[pr m]| | | |] eqn:Et; try discriminate. intros _.
  destruct Hn as (t & R & St & Vl).
  destruct (prove_f_or H (st_rd (d_store d)) H_len TREE_FUEL sch [] n k 0 pr m t Et R) as [->|(T & n2 & -> & R2)]; [now left|].
  right. split; [exact T|]. exists n2. split; [reflexivity|]. exists t. auto.
Qed.

(** A read failing in the middle of a call: the call does what it would have done, or
    reports the failure and leaves the database, the files and every transaction as they
    were; unless the call removes a key or injects a root. *)
Theorem step_f_or w sp d D hist sch c : w_db w = Some d -> rdb H C d sp D hist ->
  Forall2 (txsim H (d_store d)) (w_txs w) (s_txs sp) -> allowed H sp w c ->
  step_f w sch c = step H C w c \/ (In true sch /\ spoiled w sp D hist sch c d).
Proof.
  intros Ew S F [CF OK].
  assert (Lk : forall ro : option bytes, ro <> None \/ d_revert d = true -> ro <> None \/ exists d, w_db w = Some d /\ d_revert d = true).
  { intros ro [X|X]; [now left|right]. eauto. }
  assert (Keep : forall i n l m, txat sp i = Some l -> live w i = Ok n -> holds H (d_store d) m l ->
     Forall2 (txsim H (d_store d)) (upd (w_txs w) i (TLive m)) (s_txs sp)).
  { intros i n l m Et _ Hm. eapply txs_upd1; eassumption. }
  destruct c as [|h|k ro|k ro|k v|k|k ro|ro|i|i|i|i h|i k|i k|i k v|i k|i k|i|]; cbn [call_ok] in OK.
  - left. unfold step_f. rewrite Ew. reflexivity.
  - (* inject *)
    destruct (read_history_f_or sch _ D hist h (rm_inv _ _ _ _ _ _ S)) as [(r & s' & sch' & E1 & E2 & S')|(T & s' & sch' & E2 & I & Sd)].
    + left. unfold step_f, step. rewrite Ew. unfold db_inject_f, db_inject. rewrite E1, E2. reflexivity.
    + right. split; [exact T|]. right. right. split; [|eauto]. unfold step_f. rewrite Ew. unfold db_inject_f. rewrite E2. reflexivity.
  - eapply (read_f_or w sp _ d D hist ro sch (fun d n => tx_get d n k)); [exact Ew|exact S|exact F|exact CF|unfold step; rewrite Ew; reflexivity|unfold step_f; rewrite Ew; reflexivity|apply Lk|].
    intros sch' d' n l _ _. apply tx_get_f_or.
  - eapply (read_f_or w sp _ d D hist ro sch (fun d n => tx_has d n k)); [exact Ew|exact S|exact F|exact CF|unfold step; rewrite Ew; reflexivity|unfold step_f; rewrite Ew; reflexivity|apply Lk|].
    intros sch' d' n l _ _. apply tx_has_f_or.
  - eapply (write_f_or w sp _ d D hist sch (fun d n => tx_insert H d n k v)); [exact Ew|exact S|exact F|exact CF|unfold step; rewrite Ew; reflexivity|unfold step_f; rewrite Ew; reflexivity|cbn; eauto|].
    intros sch' d' n. cbv beta. destruct (tx_insert_f_or sch' d' n k v) as [X|[T X]]; auto.
  - eapply (write_f_or w sp _ d D hist sch (fun d n => tx_remove d n k)); [exact Ew|exact S|exact F|exact CF|unfold step; rewrite Ew; reflexivity|unfold step_f; rewrite Ew; reflexivity|cbn; eauto|].
    intros sch' d' n. cbv beta. destruct (tx_remove_f_or sch' d' n k) as [X|[T [X|X]]]; auto. right. split; [exact T|]. right. split; [exact X|exact I].
  - eapply (read_f_or w sp _ d D hist ro sch (fun d n => let! (a, _) := tx_prove H d n k in Ok a)); [exact Ew|exact S|exact F|exact CF|unfold step; rewrite Ew; reflexivity|unfold step_f; rewrite Ew; reflexivity|apply Lk|].
    intros sch' d' n l _ Hn. cbv beta. destruct (tx_prove_f_or sch' d' n k l Hn OK) as [->|(T & n2 & -> & _)]; auto.
  - (* tx_create *)
    destruct (tx_create_f_or sch d sp D hist ro S) as [(r & d' & sch' & E1 & E2 & Sb)|(T & U & d' & sch' & E2 & S' & Sd)].
    + left. unfold step_f, step. rewrite Ew, E1, E2. reflexivity.
    + right. split; [exact T|]. left. exists ENOTFOUND, d', (w_txs w). split; [unfold step_f; rewrite Ew, E2; reflexivity|].
      split; [right; split; [reflexivity|apply Lk, U]|]. split; [exact S'|]. split; [exact Sd|]. eapply txs_mono; [apply same_rmono, Sd|exact F].
  - left. unfold step_f. rewrite Ew. reflexivity.
  - left. unfold step_f. rewrite Ew. reflexivity.
  - left. unfold step_f. rewrite Ew. reflexivity.
  - (* tx_inject *)
    destruct (txat sp i) as [l|] eqn:Et; [|congruence]. destruct (txs_live H w sp _ i l F Et) as (n & En & Hn).
    destruct (read_history_f_or sch _ D hist h (rm_inv _ _ _ _ _ _ S)) as [(r & s' & sch' & E1 & E2 & S')|(T & s' & sch' & E2 & Is & Sd)].
    + left. unfold step_f, step. rewrite Ew, En. cbn [bind]. unfold tx_inject_f, tx_inject. rewrite E1, E2. reflexivity.
    + right. split; [exact T|]. left. exists ENOTFOUND, (with_store d s'), (upd (w_txs w) i (TLive n)).
      split; [unfold step_f; rewrite Ew, En; cbn [bind]; unfold tx_inject_f; rewrite E2; reflexivity|].
      split; [right; split; [reflexivity|exact I]|]. split; [eapply same_rdb; eauto|]. split; [exact Sd|].
      eapply txs_mono; [apply same_rmono, Sd|]. eapply Keep; eassumption.
  - (* tx_get *)
    destruct OK as [OK _]. destruct (txat sp i) as [l|] eqn:Et; [|congruence]. destruct (txs_live H w sp _ i l F Et) as (n & En & Hn).
    destruct (tx_get_f_or sch d n k) as [X|[T X]].
    + left. unfold step_f, step. rewrite Ew, En. cbn [bind]. rewrite X. reflexivity.
    + right. split; [exact T|]. left. exists ECORRUPTION, d, (w_txs w). split; [unfold step_f; rewrite Ew, En; cbn [bind]; rewrite X; cbn [bind]; rewrite (world_eta _ _ Ew) at 1; reflexivity|].
      split; [now left|]. split; [exact S|]. split; [apply same_db_refl|exact F].
  - (* tx_has *)
    destruct OK as [OK _]. destruct (txat sp i) as [l|] eqn:Et; [|congruence]. destruct (txs_live H w sp _ i l F Et) as (n & En & Hn).
    destruct (tx_has_f_or sch d n k) as [X|[T X]].
    + left. unfold step_f, step. rewrite Ew, En. cbn [bind]. rewrite X. reflexivity.
    + right. split; [exact T|]. left. exists ECORRUPTION, d, (w_txs w). split; [unfold step_f; rewrite Ew, En; cbn [bind]; rewrite X; cbn [bind]; rewrite (world_eta _ _ Ew) at 1; reflexivity|].
      split; [now left|]. split; [exact S|]. split; [apply same_db_refl|exact F].
  - (* tx_insert *)
    destruct OK as [OK _]. destruct (txat sp i) as [l|] eqn:Et; [|congruence]. destruct (txs_live H w sp _ i l F Et) as (n & En & Hn).
    destruct (tx_insert_f_or sch d n k v) as [X|[T X]].
    + left. unfold step_f, step. rewrite Ew, En. cbn [bind]. rewrite X. reflexivity.
    + right. split; [exact T|]. left. exists ECORRUPTION, d, (upd (w_txs w) i (TLive n)). split; [unfold step_f; rewrite Ew, En; cbn [bind]; rewrite X; reflexivity|].
      split; [now left|]. split; [exact S|]. split; [apply same_db_refl|]. eapply Keep; eassumption.
  - (* tx_remove *)
    destruct OK as [OK _]. destruct (txat sp i) as [l|] eqn:Et; [|congruence]. destruct (txs_live H w sp _ i l F Et) as (n & En & Hn).
    destruct (tx_remove_f_or sch d n k) as [X|[T [X|X]]].
    + left. unfold step_f, step. rewrite Ew, En. cbn [bind]. rewrite X. reflexivity.
    + right. split; [exact T|]. left. exists ECORRUPTION, d, (upd (w_txs w) i (TLive n)). split; [unfold step_f; rewrite Ew, En; cbn [bind]; rewrite X; reflexivity|].
      split; [now left|]. split; [exact S|]. split; [apply same_db_refl|]. eapply Keep; eassumption.
    + right. split; [exact T|]. right. left. split; [|exact I]. unfold step_f. rewrite Ew, En. cbn [bind]. rewrite X. reflexivity.
  - (* tx_prove *)
    destruct OK as [OK Lkk]. destruct (txat sp i) as [l|] eqn:Et; [|congruence]. destruct (txs_live H w sp _ i l F Et) as (n & En & Hn).
    destruct (tx_prove_f_or sch d n k l Hn Lkk) as [X|(T & n2 & X & Hn2)].
    + left. unfold step_f, step. rewrite Ew, En. cbn [bind]. rewrite X. reflexivity.
    + right. split; [exact T|]. left. exists ECORRUPTION, d, (upd (w_txs w) i (TLive n2)). split; [unfold step_f; rewrite Ew, En; cbn [bind]; rewrite X; reflexivity|].
      split; [now left|]. split; [exact S|]. split; [apply same_db_refl|]. eapply Keep; eassumption.
  - left. unfold step_f. rewrite Ew. reflexivity.
  - left. unfold step_f. rewrite Ew. reflexivity.
Qed.

(** ** Executions in which reads may fail *)
Definition snext_f (sp : spec) (c : call) (a : answer) : spec :=
  match a with AErr ECORRUPTION | AErr ENOTFOUND => sp | _ => snext H sp c a end.

Definition move_f (w : world) (sp : spec) (w1 : world) (sp1 : spec) : Prop :=
  exists sch c a, allowed H sp w c /\ c <> CReopen /\ step_f w sch c = Ok (a, w1) /\ sp1 = snext_f sp c a.
(** [exec] (Exec.v) with a schedule of failing reads for every call. *)
Inductive fexec (key : bytes) : world -> spec -> Prop :=
| fx_new d : db_open H C key [] [] = Ok (Some d) -> fexec key (mkworld (Some d) []) spec0
| fx_call w sp sch c a w' :
    fexec key w sp -> allowed H sp w c -> step_f w sch c = Ok (a, w') -> fexec key w' (snext_f sp c a)
| fx_faults w sp d io :
    fexec key w sp -> w_db w = Some d -> Forall clean_fault io ->
    fexec key (mkworld (Some (with_store d (set_io (d_store d) io))) (w_txs w)) sp
| fx_crashes w sp l w1 sp1 ops A B wi spi d :
    fexec key w sp -> quiet w -> s_failed sp = false -> aligned (files w) ->
    trail move_f w sp l w1 sp1 -> log w1 = log w ++ ops ->
    no_forgery C key (files w) (files w1) (map (fun x => files (fst x)) l) ->
    remains C key (files w) (files w1) ops A -> reopened H C key A B -> survivor A ((w, sp) :: l) (wi, spi) ->
    db_open H C key B [] = Ok (Some d) ->
    fexec key (mkworld (Some d) []) (crashed spi).

(** Answers that mean "nothing happened" leave the specification as it is. *)
Lemma snext_f_good sp w c a : allowed H sp w c -> good H sp w c a -> snext_f sp c a = snext H sp c a.
Proof.
  intros [_ OK] G. unfold snext_f. destruct a as [|e| | | |]; try reflexivity.
  assert (X : e = ENOTFOUND \/ e = ECORRUPTION -> sp = snext H sp c (AErr e)).
  2:{ destruct e; try reflexivity; apply X; auto. }
  intros Ee. destruct c; cbn [snext commits good call_ok] in *; try reflexivity.
  - destruct (named H (s_hist sp) h); [discriminate G|reflexivity].
  - destruct (1023 <? length v); [reflexivity|discriminate G].
  - destruct (lookup (s_cur sp) k); [discriminate G|reflexivity].
  - destruct (seen H sp ro); [discriminate G|reflexivity].
  - discriminate G.
  - discriminate G.
  - destruct (named H (s_hist sp) h); [discriminate G|reflexivity].
  - destruct (1023 <? length v); [reflexivity|discriminate G].
  - destruct (txat sp i) as [l|]; [|reflexivity]. specialize (G l eq_refl). destruct (lookup l k); [discriminate G|reflexivity].
  - destruct G as [G|[G _]]; [discriminate G|]. injection G as ->. destruct Ee; discriminate.
  - discriminate G.
Qed.

(** A call under read failures, from a state the specification describes. *)
Definition served_f (key : bytes) (w : world) (sp : spec) (sch : sched) (c : call) : Prop :=
  step_f w sch c = step H C w c \/
  (In true sch /\
   ((exists e w', step_f w sch c = Ok (AErr e, w') /\ (e = ECORRUPTION \/ (e = ENOTFOUND /\ looks_up w c)) /\
       sim H C key w' sp /\ files w' = files w /\ log w' = log w /\ (quiet w -> quiet w')) \/
    (step_f w sch c = Abort /\ removes c) \/
    (step_f w sch c = UB /\ exists h, c = CInject h))).

Theorem step_f_ok key w sp sch c : sim H C key w sp -> allowed H sp w c -> served_f key w sp sch c.
Proof.
  intros (d & D & V & hist & W & Ew & K & S & F) A.
  destruct (step_f_or w sp d D hist sch c Ew (simdb_rdb _ _ _ _ _ _ _ _ S) F A) as [X|(T & X)]; [now left|]. right. split; [exact T|].
  destruct X as [(e & d' & txs & E & Ee & S' & Sd & F')|[X|X]]; [left|now right; left|now right; right].
  exists e, (mkworld (Some d') txs). split; [exact E|]. split; [exact Ee|]. split.
  - exists d', D, V, hist, W. split; [reflexivity|]. split; [destruct Sd as (_&_&Y&_); congruence|].
    split; [eapply rdb_simdb; eauto|exact F'].
  - destruct Sd as (A1&A2&_&_&_&_&_&A8). unfold files, log, quiet. rewrite Ew. cbn [w_db]. rewrite A1, A2, A8. auto.
Qed.

Lemma keeps_move_f key : keeps H C key move_f.
Proof.
  intros w sp w1 sp1 S Q Fa (sch & c & a & OK & Nc & E & ->).
  destruct (step_f_ok key w sp sch c S OK) as [X1|(T & [(e & w2 & X1 & Ee & S2 & F2 & L2 & Q2)|[[X1 _]|[X1 _]]])]; rewrite X1 in E; try discriminate.
  - destruct (step_ok H H_len C C_len key w sp c S OK) as (a' & w1' & E' & G & _). rewrite E in E'. apply Ok_inj in E'. injection E' as <- <-.
    rewrite (snext_f_good sp w c a OK G). apply (keeps_move H H_len C C_len key w sp w1 _ S Q Fa). exists c, a. auto.
  - apply Ok_inj in E. injection E as <- <-.
    assert (Es : snext_f sp c (AErr e) = sp) by (unfold snext_f; destruct Ee as [->|[-> _]]; reflexivity). rewrite Es.
    split; [exact S2|]. split; [auto|]. split; [exact Fa|].
    destruct S as (d & D & V & hist & W & Ew & _ & Sd & _). destruct S2 as (d2 & _ & _ & _ & _ & Ew2 & _).
    unfold effect, files, log in *. rewrite Ew, Ew2 in *. exists []. rewrite app_nil_r. split; [exact L2|]. split; [symmetry; exact F2|].
    intros A Cr. inversion Cr; subst. rewrite F2. pose proof (simdb_fs _ _ _ _ _ _ _ _ Sd) as Ne. split; apply cutof_refl', Ne.
Qed.

Theorem fexec_sim key w sp : fexec key w sp -> sim H C key w sp.
Proof.
  induction 1 as [d E|w sp sch c a w' X IH A E|w sp d io X IH Ew F|w sp l w1 sp1 ops A B wi spi d X IH Q Fa Al T El NF Cr Ro Sv Eo].
  - apply exec_sim; [exact H_len|exact C_len|]. apply ex_new, E.
  - destruct (step_f_ok key w sp sch c IH A) as [X1|(T & [(e & w2 & X1 & Ee & S2 & _)|[[X1 _]|[X1 _]]])]; rewrite X1 in E; try discriminate.
    + destruct (step_ok H H_len C C_len key w sp c IH A) as (a' & w1 & E' & G & S & _). rewrite E in E'. apply Ok_inj in E'. injection E' as <- <-.
      rewrite (snext_f_good sp w c a A G). exact S.
    + apply Ok_inj in E. injection E as <- <-. unfold snext_f. destruct Ee as [->|[-> _]]; exact S2.
  - destruct IH as (d0 & D & V & hist & W & Ew' & K & S & Ft). rewrite Ew in Ew'. injection Ew' as <-.
    exists (with_store d (set_io (d_store d) io)), D, V, hist, W. split; [reflexivity|]. split; [exact K|]. split.
    + destruct S as [S1 S2 S3 S4 S5 S6 S7 S8 S9 S10 S11 S12 S13 S14 S15]. constructor; cbn [with_store d_store d_hash d_revert set_io st_state st_io st_fs]; auto.
      * destruct S1; constructor; auto.
      * destruct S2 as (b & c & p & ps & Wv & EV). exists b, c, p, ps. split; [|exact EV]. destruct Wv; constructor; auto.
      * intros Fa. destruct (S5 Fa) as (Cs & X1). split; [destruct Cs; constructor; auto|exact X1].
    + cbn [w_txs]. exact Ft.
  - destruct (crashes_ok H H_len C C_len key _ w sp l w1 sp1 ops A B wi spi (keeps_move_f key) IH Q Fa Al T El NF Cr Ro Sv) as (d' & E' & S & _).
    rewrite Eo in E'. apply Ok_inj in E'. injection E' as <-. exact S.
Qed.

Theorem exec_fexec key w sp : exec H C key w sp -> fexec key w sp.
Proof.
  assert (St : forall w sp c a w', exec H C key w sp -> allowed H sp w c -> step H C w c = Ok (a, w') ->
     step_f w [] c = Ok (a, w') /\ snext_f sp c a = snext H sp c a).
  { intros w0 sp0 c a w' X A E. pose proof (exec_sim H H_len C C_len key _ _ X) as S. split.
    - destruct (step_f_ok key w0 sp0 [] c S A) as [->|([] & _)]. exact E.
    - destruct (step_ok H H_len C C_len key w0 sp0 c S A) as (a' & w1 & E' & G & _). rewrite E in E'. apply Ok_inj in E'. injection E' as <- <-.
      exact (snext_f_good sp0 w0 c a A G). }
  induction 1 as [d E|w sp c a w' X IH A E|w sp d io X IH Ew F|w sp l w1 sp1 ops A B wi spi d X IH Q Fa Al T El NF Cr Ro Sv Eo].
  - apply fx_new, E.
  - destruct (St _ _ _ _ _ X A E) as [E1 <-]. eapply fx_call; eassumption.
  - eapply fx_faults; eassumption.
  - assert (T' : trail move_f w sp l w1 sp1); [|eapply fx_crashes; eassumption].
    clear - T X St. induction T as [w sp|w sp w1 sp1 l w2 sp2 (c & a & OK & Nc & E & ->) T IH]; [constructor|].
    destruct (St _ _ _ _ _ X OK E) as [E1 E2]. econstructor; [|apply IH; eapply ex_call; eassumption].
    exists [], c, a. auto.
Qed.
End DbF.
