(** * Commit records, history, opening and recovery. *)
From Verif Require Export CommitFacts.
From Coq Require Import ZifyBool ZifyNat ZifyN.

Lemma bytes_eqb_eq a b : bytes_eqb a b = true -> a = b.
Proof. destruct (bytes_eqb_spec a b); [auto|discriminate]. Qed.

Section HF.
Variable H : bytes -> bytes.
Hypothesis H_len : forall m, length (H m) = 32.
Variable C : bytes -> bytes -> bytes.
Hypothesis C_len : forall k m, length (C k m) = 20.

(** ** The record format *)
Lemma meta_write_length key m : length (meta_write C key m) = 38.
Proof.
  unfold meta_write. rewrite !app_length, !pointer_write_length, C_len. reflexivity.
Qed.

Lemma meta_roundtrip key m : ptr_ok (m_meta m) -> ptr_ok (m_root m) ->
  meta_read C key (meta_write C key m) = Ok (Some (mkmeta (m_meta m) (m_root m) NNull)).
Proof.
  intros P1 P2. unfold meta_read, meta_write.
  set (d := write32 META_MAGIC ++ pointer_write (m_meta m) ++ pointer_write (m_root m)).
  assert (Ld : length d = 18) by (unfold d; rewrite !app_length, !pointer_write_length; reflexivity).
  rewrite (firstn_app_exact d (C key d) 18) by auto.
  unfold adv. rewrite (skipn_app_exact d (C key d) 18) by auto.
  set (c := C key d). assert (Lc : length c = 20) by apply C_len. clearbody c.
  unfold d at 1 2 3. rewrite <- !app_assoc. rewrite read32_write32 by reflexivity. cbn [bind].
  rewrite N.eqb_refl. cbn [negb]. rewrite skipn_write32, pointer_roundtrip by assumption. cbn [bind].
  replace (skipn 11 (write32 META_MAGIC ++ pointer_write (m_meta m) ++ pointer_write (m_root m) ++ c))
    with (pointer_write (m_root m) ++ c).
  2:{ rewrite app_assoc. symmetry. apply skipn_app_exact. rewrite app_length, pointer_write_length. reflexivity. }
  rewrite pointer_roundtrip by assumption. cbn [bind].
  rewrite <- (app_nil_r c) at 1. rewrite take_app by exact Lc. cbn [bind]. rewrite bytes_eqb_refl. reflexivity.
Qed.

Lemma meta_read_total key d : 38 <= length d -> exists r, meta_read C key d = Ok r.
Proof.
  intros L. unfold meta_read.
  do 38 (destruct d as [|? d]; [cbn [length] in L; lia|]).
  cbn [read32 bind]. destruct (negb _); [eauto|]. unfold pointer_read, adv. cbn [skipn read16 read32 read8 bind].
  unfold take. cbn [length Nat.leb bind]. destruct (bytes_eqb _ _); eauto.
Qed.

(** ** Positions *)

(** The padding and the record added by a commit to the virtual directory. *)
Definition vpad (V : list bytes) : list bytes :=
  let m := (blen (last V []) mod 38)%N in
  if (m =? 0)%N then V else vapp V (repeat x00 (38 - N.to_nat m)).
Definition vcommit (V : list bytes) (rec : bytes) : list bytes := vapp (vpad V) rec.

Lemma vpad_nonnil V : V <> [] -> vpad V <> [].
Proof. intros N. unfold vpad. destruct (_ =? 0)%N; [exact N|apply vapp_nonnil]. Qed.

Lemma vpad_cut V : V <> [] -> cutof V (vpad V).
Proof. intros N. unfold vpad. destruct (_ =? 0)%N; [apply cutof_refl', N|apply vapp_cut, N]. Qed.
Lemma vcommit_cut V r : V <> [] -> cutof V (vcommit V r).
Proof. intros N. eapply cutof_trans; [apply vpad_cut, N|]. apply vapp_cut, vpad_nonnil, N. Qed.

(** The file being written does not end in the last 30 bytes a file may have. *)
Definition room (V : list bytes) : Prop := (blen (last V []) <= MAX_FILE_SIZE - 30)%N.

Lemma blen_repeat x n : blen (repeat x n) = N.of_nat n.
Proof. unfold blen. now rewrite repeat_length. Qed.

Lemma last_vapp V d : V <> [] ->
  last (vapp V d) [] = if (MAX_FILE_SIZE <? blen (last V []) + blen d)%N then d else last V [] ++ d.
Proof. intros N. unfold vapp. destruct (_ <? _)%N; apply last_last. Qed.

Lemma vpad_aligned V : V <> [] -> room V -> (blen (last (vpad V) []) mod 38 = 0)%N.
Proof.
  intros N R. unfold room in R. unfold vpad. destruct (N.eqb_spec (blen (last V []) mod 38) 0) as [E|E]; [exact E|].
  set (m := (blen (last V []) mod 38)%N) in *. set (L := blen (last V [])) in *.
  assert (Hm : (m < 38)%N) by (apply N.mod_lt; lia).
  rewrite last_vapp by exact N. rewrite blen_repeat. fold L.
  assert (D : L = (38 * (L / 38) + m)%N) by (apply N.div_mod; lia).
  assert (Q : (L / 38 < 56512619)%N) by (unfold MAX_FILE_SIZE in R; generalize dependent (L / 38)%N; intros; lia).
  destruct (N.ltb_spec MAX_FILE_SIZE (L + N.of_nat (38 - N.to_nat m))) as [X|X].
  - exfalso. unfold MAX_FILE_SIZE in *. lia.
  - rewrite blen_app, blen_repeat. fold L.
    replace (L + N.of_nat (38 - N.to_nat m))%N with ((L / 38 + 1) * 38)%N by lia. apply N.mod_mul. lia.
Qed.

(** The record ends the last file, at a multiple of 38, and the file's length is one too. *)
Lemma vcommit_end V r : V <> [] -> room V -> blen r = 38%N ->
  exists b f, vcommit V r = b ++ [f ++ r] /\ (blen f mod 38 = 0)%N.
Proof.
  intros N R L. unfold vcommit. pose proof (vpad_aligned V N R) as A. pose proof (vpad_nonnil V N) as N2.
  unfold vapp. destruct (_ <? _)%N.
  - exists (vpad V), []. split; [reflexivity|]. reflexivity.
  - exists (removelast (vpad V)), (last (vpad V) []). auto.
Qed.

Definition total (V : list bytes) : nat := list_sum (map (@length byte) V).
Lemma total_app a b : total (a ++ b) = total a + total b.
Proof. unfold total. rewrite map_app, list_sum_app. reflexivity. Qed.
Lemma total_vapp V d : V <> [] -> total (vapp V d) = total V + length d.
Proof.
  intros N. unfold vapp. destruct (_ <? _)%N.
  - rewrite total_app. unfold total. cbn. lia.
  - rewrite total_app. destruct (exists_last N) as (b & f & ->). rewrite removelast_last, last_last, total_app.
    unfold total. cbn. rewrite app_length. lia.
Qed.
Lemma total_vcommit V r : V <> [] -> total V + length r <= total (vcommit V r).
Proof.
  intros N. unfold vcommit. rewrite total_vapp by (apply vpad_nonnil, N). unfold vpad.
  destruct (_ =? 0)%N; [lia|]. rewrite total_vapp by exact N. lia.
Qed.

Lemma total_cut A V : cutof A V -> total A <= total V.
Proof.
  intros (b & f & x & c & -> & ->). rewrite !total_app. unfold total. cbn. rewrite app_length. lia.
Qed.

(** ** urkel_store_write_meta and urkel_store_commit *)

Definition root_node (t : ptree) (w : ptr) : node := match t with PNull => NNull | _ => NHash (thash H t) w end.

Lemma write_meta_spec s V root w rn : view s V -> written root = Some w -> node_to_hash root = Ok rn ->
  let V' := vcommit V (meta_write C (st_key s) (mkmeta (m_meta (st_state s)) w rn)) in
  exists s', write_meta C s root =
    Ok (mkmeta (mkptr (N.of_nat (length V')) (blen (last V' []) - 38) (psize (m_meta (st_state s)))) w rn, s') /\
    view s' V' /\ prog s s' V V'.
Proof.
  intros VV Ew En V'. unfold write_meta. rewrite Ew, En. cbn [bind].
  destruct (view_slab_end _ _ VV) as (_ & Ep & _). rewrite Ep.
  set (rec := meta_write C (st_key s) (mkmeta (m_meta (st_state s)) w rn)) in *.
  assert (Lr : blen rec = 38%N) by (unfold blen, rec; rewrite meta_write_length; reflexivity).
  assert (Pad : exists sl, (if (blen (last V []) mod 38 =? 0)%N then Ok (st_slab s)
            else slab_write (st_slab s) (repeat x00 (38 - N.to_nat (blen (last V []) mod 38)))) = Ok sl /\
            view (set_slab s sl) (vpad V) /\ prog s (set_slab s sl) V (vpad V)).
  { unfold vpad. destruct (N.eqb_spec (blen (last V []) mod 38) 0) as [E|E].
    - exists (st_slab s). split; [reflexivity|]. replace (set_slab s (st_slab s)) with s by (destruct s; reflexivity).
      split; [exact VV|apply prog_refl, VV].
    - destruct (slab_step H H_len s V (repeat x00 (38 - N.to_nat (blen (last V []) mod 38))) VV) as (sl & E1 & V1 & P1 & _).
      { rewrite blen_repeat. unfold MAX_FILE_SIZE. lia. }
      exists sl. auto. }
  destruct Pad as (sl & -> & V1 & P1). cbn [bind].
  destruct (slab_step H H_len (set_slab s sl) (vpad V) rec V1) as (sl2 & E2 & V2 & P2 & I2 & Ps2 & M2).
  { rewrite Lr. unfold MAX_FILE_SIZE. lia. }
  cbn [set_slab st_slab] in E2. rewrite E2. cbn [bind]. fold (vcommit V rec) in *. 
  exists (set_slab (set_slab s sl) sl2). split. { rewrite I2, Ps2. reflexivity. }
  split; [exact V2|]. eauto using prog_trans.
Qed.

(** ** The chain of commit records *)

(** A record naming the previous record [prev] and the root [rp] is stored at [top]. *)
Definition rec_at (key : bytes) (D : list bytes) (top prev rp : ptr) : Prop :=
  psize top = 0%N /\ (0 < pidx top < 32768)%N /\ (ppos top < 2147483648)%N /\
  rdl D (mkptr (pidx top) (ppos top) 38) = Some (meta_write C key (mkmeta prev rp NNull)).

Definition root_ok (D : list bytes) (t : ptree) (rp : ptr) : Prop :=
  (t = PNull /\ rp = ptr0) \/ (wfn [] t /\ vals_le 255 t /\ on_disk H (rdl D) t rp).

(** The records of the commits [hist] (newest first), the newest stored at [top]. *)
Fixpoint chain (key : bytes) (D : list bytes) (top : ptr) (hist : list (ptree * ptr)) : Prop :=
  match hist with
  | [] => top = ptr0
  | (t, rp) :: h => exists prev, rec_at key D top prev rp /\ root_ok D t rp /\ chain key D prev h
  end.

Lemma root_ok_mono D D' t rp : ext D D' -> root_ok D t rp -> root_ok D' t rp.
Proof.
  intros E [X|(W & L & X)]; [left; exact X|right]. split; [exact W|]. split; [exact L|].
  revert X. apply on_disk_mono, rdl_mono, E.
Qed.

Lemma chain_mono key D D' : ext D D' -> forall hist top, chain key D top hist -> chain key D' top hist.
Proof.
  intros E. induction hist as [|[t rp] h IH]; intros top X; [exact X|].
  destruct X as (prev & (A & B & B2 & R) & Ro & X). exists prev. split; [|split; eauto using root_ok_mono].
  split; [exact A|]. split; [exact B|]. split; [exact B2|]. revert R. apply rdl_mono, E.
Qed.

Lemma root_ok_ptr D t rp : root_ok D t rp -> ptr_ok rp.
Proof.
  intros [[_ ->]|(_ & _ & X)]; [unfold ptr_ok, ptr0; cbn [pidx ppos psize]; lia|].
  eapply node_ptr_ok, on_disk_node_ptr, X.
Qed.
Lemma chain_ptr key D hist top : chain key D top hist -> ptr_ok top /\ psize top = 0%N.
Proof.
  destruct hist as [|[t rp] h].
  - intros ->. unfold ptr_ok, ptr0. cbn [pidx ppos psize]. lia.
  - intros (prev & (A & B & B2 & _) & _). unfold ptr_ok. split; [|exact A]. rewrite A. lia.
Qed.

Lemma root_ok_wft D t rp : root_ok D t rp -> wft t /\ vals_le 255 t.
Proof.
  intros [[-> _]|(W & L & _)]; [split; [now left|intros k v []]|]. split; [right; exact W|exact L].
Qed.

(** ** What the store must look like between calls *)
Record sinv (s : store) (D : list bytes) (hist : list (ptree * ptr)) : Prop := {
  si_rd : forall p x, rdl D p = Some x -> st_rd s p = Some x;
  si_chain : chain (st_key s) D (m_meta (st_state s)) hist;
  si_node : m_node (st_state s) = match hist with [] => NNull | (t, w) :: _ => root_node t w end;
  si_len : 38 * length hist <= total D;
  si_last : exists h1 h2, hist = h1 ++ h2 /\ chain (st_key s) D (m_meta (st_last s)) h2 /\
      forall t w, In (t, w) h1 -> t <> PNull -> cache_lookup (st_cache s) (thash H t) <> None;
  si_cache : forall h n, cache_lookup (st_cache s) h = Some n ->
      exists t w, n = NHash h w /\ h = thash H t /\ t <> PNull /\ In (t, w) hist;
  si_cap : (st_index s < MAX_FILES)%N }.

Lemma sinv_keep s s' D hist : sinv s D hist -> keep s s' -> rmono s s' -> (st_index s' < MAX_FILES)%N -> sinv s' D hist.
Proof.
  intros [A1 A2 A3 A4 A5 A6 A7] (K1 & K2 & K3 & K4) R Cap.
  constructor; rewrite ?K1, ?K2, ?K3, ?K4; auto.
Qed.

Lemma sinv_root s D hist t w : sinv s D hist -> In (t, w) hist -> root_ok D t w.
Proof.
  intros I. pose proof (si_chain _ _ _ I) as X. clear I. revert X. generalize (m_meta (st_state s)).
  induction hist as [|[t' w'] h IH]; intros top X In1; [contradiction|].
  destruct X as (prev & _ & Ro & X). destruct In1 as [[= -> ->]|In1]; eauto.
Qed.

Lemma total_le D : forall F, (forall i f, nth_error D i = Some f -> length f <= length (nth i F [])) -> total D <= total F.
Proof.
  induction D as [|d D IH]; intros F L; [unfold total; cbn; lia|]. destruct F as [|f F].
  - pose proof (L 0 d eq_refl) as L0. cbn [nth length] in L0. 
    assert (total D <= total []). { apply IH. intros i g E. specialize (L (S i) g E). destruct i; exact L. }
    unfold total, list_sum in *. cbn [map fold_right] in *. lia.
  - pose proof (L 0 d eq_refl) as L0. cbn [nth] in L0.
    assert (total D <= total F). { apply IH. intros i g E. apply (L (S i) g E). }
    unfold total, list_sum in *. cbn [map fold_right] in *. lia.
Qed.

Lemma rd_total s D : (forall p x, rdl D p = Some x -> st_rd s p = Some x) -> total D <= total (st_fs s).
Proof.
  intros R. apply total_le. intros i f E.
  specialize (R (mkptr (N.of_nat (i + 1)) 0 (blen f)) f).
  unfold rdl, st_rd in R. cbn [pidx ppos psize] in R.
  destruct (N.eqb_spec (N.of_nat (i + 1)) 0) as [X|_]; [lia|]. cbn [orb] in R.
  replace (N.to_nat (N.of_nat (i + 1)) - 1) with i in R by lia. rewrite E in R.
  destruct (N.eqb_spec (blen f) 0) as [X|Nz]; [unfold blen in X; lia|].
  destruct (N.ltb_spec (blen f) (0 + blen f)) as [X|_]; [lia|].
  assert (Sl : slice f 0 (blen f) = f). { unfold slice, blen. rewrite Nat2N.id. apply firstn_all. }
  rewrite Sl in R. specialize (R eq_refl). destruct (_ <? _)%N; [discriminate|].
  destruct (nth_error (st_fs s) i) as [g|] eqn:Eg; [|discriminate].
  destruct (_ <? _)%N; [discriminate|]. injection R as R. rewrite <- R at 1.
  rewrite (nth_error_nth _ _ _ Eg). unfold slice. rewrite firstn_length, skipn_length. lia.
Qed.

(** ** Reading roots *)
Definition cached (s : store) (t : ptree) (w : ptr) : store :=
  match t with
  | PNull => s
  | _ => set_cache s (match cache_lookup (st_cache s) (thash H t) with
                      | Some _ => st_cache s
                      | None => (thash H t, NHash (thash H t) w) :: st_cache s
                      end)
  end.

Lemma read_root_eq s D t w : (forall p x, rdl D p = Some x -> st_rd s p = Some x) -> root_ok D t w ->
  read_root H s w = Ok (Some (root_node t w), cached s t w).
Proof.
  intros R [[-> ->]|(W & VL & Dk)]; [reflexivity|].
  assert (Dk' : on_disk H (st_rd s) t w) by (revert Dk; apply on_disk_mono, R). clear Dk R.
  unfold read_root.
  assert (W0 : exists raw, st_rd s w = Some raw) by (destruct t; cbn [on_disk] in Dk'; [contradiction| |]; destruct Dk' as (_ & raw & Dk'); exists raw; [destruct Dk' as (? & ? & _)|destruct Dk' as (? & ? & ? & _)]; assumption).
  destruct (N.eqb_spec (pidx w) 0) as [X|_].
  { destruct W0 as (raw & X0). unfold st_rd in X0. rewrite X in X0. discriminate. }
  clear W0. pose proof (on_disk_node_ptr _ _ _ _ Dk') as (P1 & P2 & P3).
  destruct t as [|k v|pre l r]; [contradiction| |].
  - destruct Dk' as (_ & raw & vp & R1 & R2 & R3 & R4). unfold read_node.
    destruct (N.eqb_spec (psize w) 0); [lia|]. destruct (N.ltb_spec 113 (psize w)); [lia|]. cbn [orb].
    rewrite R1, R2. cbn [bind set_ptr retrieve]. destruct (N.ltb_spec 1023 (psize vp)); [lia|]. rewrite R4.
    cbn [bind node_hash node_to_hash]. unfold cache_insert, cached, root_node. cbn [thash].
    destruct (cache_lookup _ _); reflexivity.
  - destruct Dk' as (_ & raw & lp & rp & R1 & R2 & R3 & R4). unfold read_node.
    destruct (N.eqb_spec (psize w) 0); [lia|]. destruct (N.ltb_spec 113 (psize w)); [lia|]. cbn [orb].
    rewrite R1, R2. cbn [bind set_ptr retrieve node_hash node_to_hash]. unfold cache_insert, cached, root_node. cbn [thash].
    destruct (cache_lookup _ _); reflexivity.
Qed.

Lemma lookup_cons k n c h : cache_lookup ((k, n) :: c) h = if bytes_eqb k h then Some n else cache_lookup c h.
Proof. reflexivity. Qed.

Lemma cached_mono s t w h : cache_lookup (st_cache s) h <> None -> cache_lookup (st_cache (cached s t w)) h <> None.
Proof.
  intros N. unfold cached. destruct t; [exact N| |]; cbn [set_cache st_cache];
  (destruct (cache_lookup (st_cache s) (thash H _)); [exact N|]; rewrite lookup_cons; destruct (bytes_eqb _ h); [discriminate|exact N]).
Qed.
Lemma cached_self s t w : t <> PNull -> cache_lookup (st_cache (cached s t w)) (thash H t) <> None.
Proof.
  intros N. unfold cached. destruct t; [congruence| |]; cbn [set_cache st_cache];
  (destruct (cache_lookup (st_cache s) (thash H _)) eqn:E; [congruence|]; rewrite lookup_cons, bytes_eqb_refl; discriminate).
Qed.
Lemma cached_sound s t w (hist : list (ptree * ptr)) :
  (forall h n, cache_lookup (st_cache s) h = Some n ->
      exists t w, n = NHash h w /\ h = thash H t /\ t <> PNull /\ In (t, w) hist) ->
  In (t, w) hist ->
  forall h n, cache_lookup (st_cache (cached s t w)) h = Some n ->
      exists t w, n = NHash h w /\ h = thash H t /\ t <> PNull /\ In (t, w) hist.
Proof.
  intros S I h n E. destruct t as [|k v|pre l r]; [eauto| |];
  (unfold cached in E; cbn [set_cache st_cache] in E;
   destruct (cache_lookup (st_cache s) (thash H _)) as [n0|] eqn:E0; [eauto|]; rewrite lookup_cons in E;
   destruct (bytes_eqb (thash H _) h) eqn:Eh; [|eauto];
   apply bytes_eqb_eq in Eh; injection E as <-; rewrite <- Eh;
   eexists _, w; split; [reflexivity|]; split; [reflexivity|]; split; [discriminate|exact I]).
Qed.

Lemma cached_fields s t w : st_key (cached s t w) = st_key s /\ st_state (cached s t w) = st_state s /\
  st_last (cached s t w) = st_last s /\ st_index (cached s t w) = st_index s /\ st_fs (cached s t w) = st_fs s /\
  st_slab (cached s t w) = st_slab s /\ st_size (cached s t w) = st_size s /\ st_io (cached s t w) = st_io s /\
  st_log (cached s t w) = st_log s.
Proof. destruct t; repeat split. Qed.
Lemma cached_rd s t w p : st_rd (cached s t w) p = st_rd s p.
Proof. destruct t; reflexivity. Qed.

(** Everything but last_meta and the root cache. *)
Definition same_db (s s' : store) : Prop :=
  st_fs s' = st_fs s /\ st_log s' = st_log s /\ st_key s' = st_key s /\ st_slab s' = st_slab s /\
  st_state s' = st_state s /\ st_index s' = st_index s /\ st_size s' = st_size s /\ st_io s' = st_io s.
Lemma same_db_refl s : same_db s s. Proof. repeat split. Qed.
Lemma same_db_trans a b c : same_db a b -> same_db b c -> same_db a c.
Proof. intros (A1&A2&A3&A4&A5&A6&A7&A8) (B1&B2&B3&B4&B5&B6&B7&B8). repeat split; congruence. Qed.
Lemma same_db_rd s s' : same_db s s' -> forall p, st_rd s' p = st_rd s p.
Proof. intros (A1&A2&A3&A4&A5&A6&A7&A8) p. unfold st_rd. rewrite A1, A6, A7. reflexivity. Qed.

Lemma read_meta_eq s D top prev rp : (forall p x, rdl D p = Some x -> st_rd s p = Some x) ->
  rec_at (st_key s) D top prev rp -> ptr_ok prev -> ptr_ok rp ->
  read_meta C s top = Ok (Some (mkmeta prev rp NNull)).
Proof.
  intros R (A & B & B2 & E) P1 P2. unfold read_meta. rewrite (R _ _ E). apply (meta_roundtrip _ (mkmeta prev rp NNull)); assumption.
Qed.

Lemma history_loop_spec h : h <> zero_hash -> forall h2 fuel s D hist,
  sinv s D hist -> length h2 < fuel ->
  (exists h1, hist = h1 ++ h2 /\ chain (st_key s) D (m_meta (st_last s)) h2 /\
     forall t w, In (t, w) h1 -> t <> PNull -> cache_lookup (st_cache s) (thash H t) <> None) ->
  exists r s', history_loop H C fuel s h = Ok (r, s') /\ sinv s' D hist /\ same_db s s' /\
    match r with
    | Some n => exists t w, In (t, w) h2 /\ t <> PNull /\ thash H t = h /\ n = NHash h w
    | None => forall t w, In (t, w) h2 -> thash H t <> h
    end.
Proof.
  intros Hz. induction h2 as [|[t w] h2 IH]; intros fuel s D hist I F (h1 & E & Ch & Ca).
  - destruct fuel as [|fuel]; [cbn in F; lia|]. cbn [history_loop]. cbn [chain] in Ch. rewrite Ch. cbn [pidx ptr0 N.eqb].
    exists None, s. split; [reflexivity|]. split; [exact I|]. split; [apply same_db_refl|]. intros t w [].
  - destruct fuel as [|fuel]; [cbn in F; lia|]. cbn [history_loop length] in *.
    destruct Ch as (prev & Rec & Ro & Ch). pose proof Rec as (A & B & _).
    destruct (N.eqb_spec (pidx (m_meta (st_last s))) 0) as [X|_]; [lia|].
    rewrite (read_meta_eq s D _ prev w (si_rd _ _ _ I) Rec (proj1 (chain_ptr _ _ _ _ Ch)) (root_ok_ptr _ _ _ Ro)). cbn [bind m_root].
    rewrite (read_root_eq s D t w (si_rd _ _ _ I) Ro). cbn [bind].
    set (s1 := cached s t w). destruct (cached_fields s t w) as (C1 & C2 & C3 & C4 & C5 & C6 & C7 & C8 & C9). fold s1 in C1, C2, C3, C4, C5, C6, C7, C8, C9.
    set (s2 := set_last s1 (mkmeta prev w NNull)).
    assert (Int : In (t, w) hist) by (rewrite E; apply in_or_app; right; now left).
    assert (Sd : same_db s s2).
    { unfold same_db, s2. cbn [set_last st_fs st_log st_key st_slab st_state st_index st_size st_io]. repeat split; assumption. }
    assert (Ca2 : forall t0 w0, In (t0, w0) (h1 ++ [(t, w)]) -> t0 <> PNull -> cache_lookup (st_cache s2) (thash H t0) <> None).
    { intros t0 w0 In0 N0. change (st_cache s2) with (st_cache s1). apply in_app_or in In0. destruct In0 as [In0|[[= -> ->]|[]]].
      - apply cached_mono, (Ca _ _ In0 N0).
      - apply cached_self, N0. }
    assert (Ch2 : chain (st_key s2) D (m_meta (st_last s2)) h2).
    { replace (st_key s2) with (st_key s) by (symmetry; apply Sd). exact Ch. }
    assert (E2 : hist = (h1 ++ [(t, w)]) ++ h2) by (rewrite <- app_assoc; exact E).
    assert (I2 : sinv s2 D hist).
    { pose proof I as [I1 I2 I3 I4 I5 I6 I7]. pose proof Sd as (S1&S2&S3&S4&S5&S6&S7&S8). constructor.
      - intros p x Ep. rewrite (same_db_rd _ _ Sd). auto.
      - rewrite S3, S5. exact I2.
      - rewrite S5. exact I3.
      - exact I4.
      - exists (h1 ++ [(t, w)]), h2. auto.
      - apply cached_sound; assumption.
      - rewrite S6. exact I7. }
    destruct (bytes_eqb (hash_field (root_node t w)) h) eqn:Eh.
    + apply bytes_eqb_eq in Eh. eexists _, s2. split; [reflexivity|]. split; [exact I2|]. split; [exact Sd|].
      exists t, w. split; [now left|]. destruct t as [|k v|pre l r].
      * exfalso. apply Hz. rewrite <- Eh. reflexivity.
      * split; [discriminate|]. split; [exact Eh|]. rewrite <- Eh. reflexivity.
      * split; [discriminate|]. split; [exact Eh|]. rewrite <- Eh. reflexivity.
    + destruct (IH fuel s2 D hist I2 ltac:(lia)) as (r & s' & Er & Is & Ss & M). { exists (h1 ++ [(t, w)]). auto. }
      exists r, s'. split; [exact Er|]. split; [exact Is|]. split; [eauto using same_db_trans|]. destruct r as [n|].
      * destruct M as (t' & w' & In' & M). exists t', w'. split; [now right|exact M].
      * intros t' w' [[= <- <-]|In']; [|eauto]. intros X.
        destruct t as [|k v|pre l r]; [now apply Hz|now rewrite <- X, bytes_eqb_refl in Eh|now rewrite <- X, bytes_eqb_refl in Eh].
Qed.

Theorem read_history_spec s D hist h : sinv s D hist ->
  exists r s', read_history H C s h = Ok (r, s') /\ sinv s' D hist /\ same_db s s' /\
    match r with
    | Some n => (h = zero_hash /\ n = NNull) \/
        (h <> zero_hash /\ exists t w, In (t, w) hist /\ t <> PNull /\ thash H t = h /\ n = NHash h w)
    | None => h <> zero_hash /\ forall t w, In (t, w) hist -> thash H t <> h
    end.
Proof.
  intros I. unfold read_history. destruct (bytes_eqb h zero_hash) eqn:Ez.
  - apply bytes_eqb_eq in Ez. exists (Some NNull), s. split; [reflexivity|]. split; [exact I|]. split; [apply same_db_refl|]. auto.
  - assert (Hz : h <> zero_hash) by (intros ->; rewrite bytes_eqb_refl in Ez; discriminate). clear Ez.
    destruct (bytes_eqb h (hash_field (m_node (st_state s)))) eqn:Es.
    + apply bytes_eqb_eq in Es. exists (Some (m_node (st_state s))), s. split; [reflexivity|]. split; [exact I|]. split; [apply same_db_refl|].
      right. split; [exact Hz|]. pose proof (si_node _ _ _ I) as Nd. destruct hist as [|[t w] h0].
      * exfalso. apply Hz. rewrite Es, Nd. reflexivity.
      * exists t, w. split; [now left|]. rewrite Nd in *. destruct t as [|k v|pre l r]; [exfalso; apply Hz; exact Es| |];
        (split; [discriminate|]; split; [symmetry; exact Es|]; rewrite Es; reflexivity).
    + destruct (cache_lookup (st_cache s) h) as [n|] eqn:Ec.
      * destruct (si_cache _ _ _ I _ _ Ec) as (t & w & En & Eh & Nt & Int).
        exists (Some n), s. split; [reflexivity|]. split; [exact I|]. split; [apply same_db_refl|]. right. split; [exact Hz|].
        exists t, w. auto.
      * destruct (si_last _ _ _ I) as (h1 & h2 & Eh & Ch & Ca).
        destruct (history_loop_spec h Hz h2 (history_fuel s) s D hist I) as (r & s' & Er & Is & Ss & M).
        { unfold history_fuel. fold (total (st_fs s)). pose proof (rd_total s D (si_rd _ _ _ I)). pose proof (si_len _ _ _ I) as L.
          rewrite Eh, app_length in L. lia. }
        { exists h1. auto. }
        exists r, s'. split; [exact Er|]. split; [exact Is|]. split; [exact Ss|]. destruct r as [n|].
        -- right. split; [exact Hz|]. destruct M as (t & w & Int & M). exists t, w. split; [|exact M]. rewrite Eh. apply in_or_app. now right.
        -- split; [exact Hz|]. intros t w Int X. rewrite Eh in Int. apply in_app_or in Int. destruct Int as [Int|Int]; [|exact (M t w Int X)].
           destruct t as [|k v|pre l r0]; [now apply Hz| |]; (apply (Ca _ _ Int); [discriminate|rewrite X; exact Ec]).
Qed.

(** ** urkel_store_commit *)
Definition the_record (s : store) (w : ptr) : bytes := meta_write C (st_key s) (mkmeta (m_meta (st_state s)) w NNull).

Lemma sinv_commit s D V' hist t w s' :
  sinv s D hist -> ext D V' -> total D + 38 <= total V' ->
  root_ok V' t w ->
  st_key s' = st_key s -> st_last s' = st_last s ->
  st_cache s' = st_cache (cached s t w) ->
  (forall p x, rdl V' p = Some x -> st_rd s' p = Some x) ->
  (st_index s' < MAX_FILES)%N ->
  m_node (st_state s') = root_node t w ->
  rec_at (st_key s) V' (m_meta (st_state s')) (m_meta (st_state s)) w ->
  sinv s' V' ((t, w) :: hist).
Proof.
  intros [A1 A2 A3 A4 A5 A6 A7] E T Ro K L Ca R Cap Nd Rec. constructor.
  - exact R.
  - rewrite K. exists (m_meta (st_state s)). split; [exact Rec|]. split; [exact Ro|]. eauto using chain_mono.
  - exact Nd.
  - cbn [length]. lia.
  - destruct A5 as (h1 & h2 & -> & Ch & Cc). exists ((t, w) :: h1), h2. split; [reflexivity|]. rewrite K, L, Ca.
    split; [eauto using chain_mono|]. intros t0 w0 [[= <- <-]|In0] N0; [apply cached_self, N0|].
    apply cached_mono, (Cc _ _ In0 N0).
  - rewrite Ca. intros h n X. apply (cached_sound s t w ((t, w) :: hist)) in X; [exact X| |now left].
    intros h0 n0 X0. destruct (A6 _ _ X0) as (t0 & w0 & Y1 & Y2 & Y3 & Y4). exists t0, w0. repeat split; auto. now right.
  - exact Cap.
Qed.

Lemma store_commit_spec s V D hist t w :
  sinv s D hist -> view s V -> cutof D V -> wft t -> vals_le 255 t ->
  ((t = PNull /\ w = ptr0) \/ (t <> PNull /\ (cap16 V -> on_disk H (rdl V) t w))) ->
  let V' := vcommit V (the_record s w) in
  match store_commit C s (root_node t w) with
  | Ok (true, s') => st_fs s' = V' /\ clean_st s' /\ sinv s' V' ((t, w) :: hist) /\ root_ok V' t w /\
       rmono s s' /\ logs s s' V' /\ iosub s s' /\ cutof V V' /\
       m_meta (st_state s') = mkptr (N.of_nat (length V')) (blen (last V' []) - 38) 0 /\ st_key s' = st_key s
  | Ok (false, s') => prog s s' V V' /\ (Forall clean_fault (st_io s) -> view s' V')
  | Abort => cutof V V' /\ (MAX_FILES <= N.of_nat (length V'))%N
  | _ => False
  end.
Proof.
  intros I VV CD W VL Rt V'. unfold store_commit.
  assert (Ew : written (root_node t w) = Some w).
  { destruct Rt as [[-> ->]|[N _]]; [reflexivity|]. destruct t; [congruence|reflexivity|reflexivity]. }
  assert (En : node_to_hash (root_node t w) = Ok (root_node t w)) by (destruct t; reflexivity).
  destruct (write_meta_spec s V _ w _ VV Ew En) as (s1 & E1 & V1 & P1). rewrite E1. cbn [bind]. clear E1.
  change (meta_write C (st_key s) (mkmeta (m_meta (st_state s)) w (root_node t w))) with (the_record s w) in *. fold V' in V1, P1 |- *.
  pose proof (flush_spec s1 V' V1) as F. destruct (store_flush s1) as [[[|] s2]| | | |]; cbn [bind negb]; [| |exact F|split; [apply P1|exact F]|exact F|exact F].
  2:{ destruct F as (F1 & F2 & F3 & F4 & F5 & F6). split.
      - eapply prog_trans; [exact P1|]. constructor; auto. apply cutof_refl'. eauto using view_nonnil.
      - intros Fc. apply F6. apply P1, Fc. }
  destruct F as (F1 & F2 & F3 & F4 & F5 & F6 & F7).
  pose proof (pg_keep _ _ _ _ P1) as K1. pose proof (keep_trans _ _ _ K1 F3) as (G1 & G2 & G3 & G4).
  assert (Cap : (st_index s2 < MAX_FILES)%N) by (apply F7, P1, I).
  pose proof (cl_index _ F2) as Ci. rewrite F1 in Ci.
  assert (C16 : cap16 V') by (unfold cap16; rewrite <- Ci; unfold MAX_FILES in Cap; lia).
  assert (Ro : root_ok V' t w).
  { destruct Rt as [X|[N X]]; [now left|right]. split; [destruct W as [W|W]; [congruence|exact W]|]. split; [exact VL|].
    assert (C16' : cap16 V) by (eapply (cap16_cut H H_len); [apply P1|exact C16]).
    generalize (X C16'). apply on_disk_mono, rdl_mono, cutof_ext, P1. }
  assert (N' : vpad V <> []) by (apply vpad_nonnil; eauto using view_nonnil).
  assert (Lr : blen (the_record s w) = 38%N) by (unfold blen, the_record; rewrite meta_write_length; reflexivity).
  pose proof (vapp_read (vpad V) (the_record s w) N') as RR. fold (vcommit V (the_record s w)) in RR. fold V' in RR. rewrite Lr in RR.
  destruct (view_slab_end _ _ V1) as (_ & _ & Mx).
  assert (NV : V' <> []) by eauto using view_nonnil.
  set (mt := mkmeta _ w (root_node t w)).
  assert (Rec : rec_at (st_key s) V' (m_meta mt) (m_meta (st_state s)) w).
  { unfold rec_at, mt. cbn [m_meta pidx ppos psize]. destruct (chain_ptr _ _ _ _ (si_chain _ _ _ I)) as [_ Z].
    split; [exact Z|]. split. { destruct V'; [congruence|]. unfold cap16 in C16. cbn [length] in *. lia. }
    split; [unfold MAX_FILE_SIZE in Mx; lia|]. exact RR. }
  assert (Z : psize (m_meta (st_state s)) = 0%N) by (eapply chain_ptr, (si_chain _ _ _ I)).
  assert (TT : total D + 38 <= total V').
  { pose proof (total_cut _ _ CD). pose proof (total_vcommit V (the_record s w) (view_nonnil _ _ VV)) as T.
    unfold the_record at 1 in T. rewrite meta_write_length in T. fold V' in T. lia. }
  assert (RM : rmono s s2) by (eapply rmono_trans; [apply P1|exact F5]).
  assert (LG : logs s s2 V') by (eapply logs_trans; [apply P1|exact F6]).
  assert (IO : iosub s s2) by (eapply iosub_trans; [apply P1|exact F4]).
  assert (DV : ext D V'). { apply cutof_ext. eapply cutof_trans; [exact CD|apply P1]. }
  assert (CV : cutof V V') by apply P1.
  assert (Fin : forall s3, s3 = set_cache (set_state s2 mt) (st_cache (cached s t w)) ->
     st_fs s3 = V' /\ clean_st s3 /\ sinv s3 V' ((t, w) :: hist) /\ root_ok V' t w /\
       rmono s s3 /\ logs s s3 V' /\ iosub s s3 /\ cutof V V' /\
       m_meta (st_state s3) = mkptr (N.of_nat (length V')) (blen (last V' []) - 38) 0 /\ st_key s3 = st_key s).
  { intros s3 ->. split; [exact F1|]. split. { destruct F2; constructor; assumption. }
    split.
    - apply (sinv_commit s D V' hist t w); auto.
      + intros p x Ep. change (st_rd s2 p = Some x). rewrite (clean_rd _ F2), F1. exact Ep.
    - split; [exact Ro|]. split; [exact RM|]. split; [exact LG|]. split; [exact IO|]. split; [exact CV|].
      cbn [set_cache set_state st_state]. split; [|exact G1]. unfold mt. cbn [m_meta]. f_equal. exact Z. }
  destruct t as [|k v|pre l r].
  - cbn [root_node m_node mt]. apply Fin. cbn [cached]. rewrite <- G4. destruct s2; reflexivity.
  - cbn [root_node m_node mt cache_insert set_state st_cache]. rewrite G4.
    destruct (cache_lookup (st_cache s) (thash H (PLeaf k v))) eqn:Ec; cbn [bind]; apply Fin; cbn [cached]; rewrite Ec; reflexivity.
  - cbn [root_node m_node mt cache_insert set_state st_cache]. rewrite G4.
    destruct (cache_lookup (st_cache s) (thash H (PInt pre l r))) eqn:Ec; cbn [bind]; apply Fin; cbn [cached]; rewrite Ec; reflexivity.
Qed.
End HF.
