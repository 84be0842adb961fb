(** * C63: copying the data files of a database that is in use. *)
From Verif Require Import Backup Rollover FaultFacts Properties_Lost Properties_Db Properties_Hist Properties_Reopen Demo.
From Coq Require Import ZifyBool ZifyNat ZifyN.

Lemma snext_hist H sp c a : exists y, s_hist (snext H sp c a) = y ++ s_hist sp.
Proof.
  unfold snext. destruct (commits sp c) as [r|] eqn:Ec; destruct c, a; cbn [committed s_hist set_tx] in *;
    repeat match goal with |- context [match ?b with _ => _ end] => destruct b; cbn [committed s_hist set_tx] end;
    try (exists []; reflexivity); eexists [_]; reflexivity.
Qed.
Lemma trail_hist H C w sp l w1 sp1 : trail (move H C) w sp l w1 sp1 -> forall wi spi, In (wi, spi) ((w, sp) :: l) ->
  exists x, s_hist spi = x ++ s_hist sp.
Proof.
  intros T. induction T as [w sp|w sp w1 sp1 l w2 sp2 (c & a & _ & _ & _ & ->) T IH]; intros wi spi [E|I].
  - injection E as <- <-. exists []. reflexivity.
  - destruct I.
  - injection E as <- <-. exists []. reflexivity.
  - destruct (IH wi spi I) as (x & ->). destruct (snext_hist H sp c a) as (y & ->). exists (x ++ y). rewrite app_assoc. reflexivity.
Qed.

Section B.
Variable H : bytes -> bytes.
Hypothesis HL : forall m, length (H m) = 32.
Variable C : bytes -> bytes -> bytes.
Hypothesis CL : forall k m, length (C k m) = 20.

Lemma backup_opens key w sp l w1 sp1 ops B B' :
  exec H C key w sp -> quiet w -> s_failed sp = false -> aligned (files w) ->
  trail (move H C) w sp l w1 sp1 -> collision_free H sp1 -> log w1 = log w ++ ops ->
  no_forgery C key (files w) (files w1) (map (fun x => files (fst x)) l) ->
  backup all_at_once (files w) ops B -> reopened H C key B B' ->
  exists d wi spi, db_open H C key B' [] = Ok (Some d) /\ survivor B ((w, sp) :: l) (wi, spi) /\
    (exists newer, s_hist spi = newer ++ s_hist sp) /\
    let w2 := mkworld (Some d) [] in
    exec H C key w2 (crashed spi) /\
    step H C w2 CRoot = Ok (AHash (ref_root H (hd [] (s_hist spi))), w2) /\
    (forall k, length k = 32 -> exists w3, step H C w2 (CGet k None) = Ok (found (lookup (hd [] (s_hist spi)) k), w3)) /\
    (forall r k, In r (s_hist sp) -> length k = 32 -> exists w3, step H C w2 (CGet k (Some (ref_root H r))) = Ok (found (lookup r k), w3)).
Proof.
  intros X Q F Al T CF1 L NF Bk Ro. pose proof (exec_sim H HL C CL _ _ _ X) as S.
  destruct (trail_ok H C key _ w sp l w1 sp1 (keeps_move H HL C CL key) T S Q F) as (_ & _ & _ & E1 & _).
  destruct (trail_grows H HL C CL key _ _ _ _ _ T S Q F) as (ops' & L' & Ap). rewrite L in L'. apply app_inv_head in L'. subst ops'.
  destruct (backup_cut H HL C CL (files w) (files w1) ops B Ap (fun A Cr => effect_crash _ _ _ _ E1 L Cr) Bk) as [C1 C2].
  pose proof (cut_remains H C HL CL key _ _ ops B C1 C2) as Rm.
  destruct (remains_history H HL C CL key w sp l w1 sp1 ops B B' X Q F Al T CF1 L NF Rm Ro) as (d & wi & spi & Eo & Sv & X2 & R1 & R2).
  destruct Sv as (l1 & l2 & El & Kp & Nk). pose proof (trail_hist _ _ _ _ _ _ _ T wi spi) as Hh.
  destruct Hh as (x & Hx). { rewrite El. apply in_app_iff. right. now left. }
  exists d, wi, spi. split; [exact Eo|]. split; [exists l1, l2; auto|]. split; [exists x; exact Hx|]. cbv zeta. split; [exact X2|]. split; [exact R1|]. split; [exact R2|].
  intros r k I Lk.
  assert (CF2 : collision_free H (crashed spi)) by (exact (trail_free _ _ _ _ _ _ _ (trail_from _ _ _ _ _ _ T _ _ _ El) CF1)).
  destruct (named_hist H HL C CL _ _ _ r X2 CF2) as (l' & El' & Lu & _). { cbn [crashed s_hist]. rewrite Hx. apply in_app_iff. now right. }
  rewrite <- (Lu k). destruct (ask_db H HL C CL _ _ _ (Some (ref_root H r)) l' k X2 CF2 El' Lk) as (w3 & _ & R & _). eauto.
Qed.
End B.

(** ** C63.  [w]: the database when the copying begins; [B]: the data files as copied, from one
    listing of the directory, in any order, while the process makes the calls of [l].  Together
    with the key file (written once, before the first data file) the copy opens, as the database
    was after one of these calls or in the beginning; nothing committed before the copying
    began is missing.  ([reopened]: also if opening the copy is itself interrupted.) *)
Theorem C63_listed_once_partial :
  forall (H : bytes -> bytes), (forall m, length (H m) = 32) ->
  forall (C : bytes -> bytes -> bytes), (forall k m, length (C k m) = 20) ->
  forall key w sp l w1 sp1 ops B B',
  exec H C key w sp -> quiet w -> s_failed sp = false -> aligned (files w) ->
  trail (move H C) w sp l w1 sp1 -> collision_free H sp1 -> log w1 = log w ++ ops ->
  no_forgery C key (files w) (files w1) (map (fun x => files (fst x)) l) ->
  backup all_at_once (files w) ops B -> reopened H C key B B' ->
  exists d wi spi, db_open H C key B' [] = Ok (Some d) /\ survivor B ((w, sp) :: l) (wi, spi) /\
    (exists newer, s_hist spi = newer ++ s_hist sp) /\
    let w2 := mkworld (Some d) [] in
    exec H C key w2 (crashed spi) /\
    step H C w2 CRoot = Ok (AHash (ref_root H (hd [] (s_hist spi))), w2) /\
    (forall k, length k = 32 -> exists w3, step H C w2 (CGet k None) = Ok (found (lookup (hd [] (s_hist spi)) k), w3)) /\
    (forall r k, In r (s_hist sp) -> length k = 32 -> exists w3, step H C w2 (CGet k (Some (ref_root H r))) = Ok (found (lookup r k), w3)).
Proof. exact backup_opens. Qed.

(** ** Looking for the next file after each copy is wrong. *)
Definition LAST : nat := N.to_nat 56512615.
Lemma last_N : N.of_nat LAST = 56512615%N.
Proof. unfold LAST. apply N2Nat.id. Qed.
Global Opaque LAST.

Lemma vcommit_moves f v raw r : blen f = (MAX_FILE_SIZE - 68)%N -> length v = 56 -> length raw = 40 -> length r = 38 ->
  vapp [f] v = [f ++ v] /\ vapp [f ++ v] raw = [f ++ v; raw] /\
  vcommit [f ++ v; raw] r = [f ++ v; (raw ++ repeat x00 36) ++ r].
Proof.
  intros Lf Lv Lw Lr.
  assert (E1 : vapp [f] v = [f ++ v]).
  { unfold vapp. cbn [last removelast app]. replace (blen v) with 56%N by (unfold blen; lia). rewrite Lf. reflexivity. }
  assert (L1 : blen (f ++ v) = (MAX_FILE_SIZE - 12)%N) by (rewrite blen_app, Lf; unfold blen; rewrite Lv; reflexivity).
  assert (E2 : vapp [f ++ v] raw = [f ++ v; raw]).
  { unfold vapp. cbn [last removelast app]. replace (blen raw) with 40%N by (unfold blen; lia). rewrite L1. reflexivity. }
  split; [exact E1|]. split; [exact E2|]. unfold vcommit, vpad. cbn [last].
  assert (Bw : blen raw = 40%N) by (unfold blen; lia). rewrite Bw.
  change (40 mod 38)%N with 2%N. change (2 =? 0)%N with false. cbv iota zeta. change (38 - N.to_nat 2) with 36.
  unfold vapp at 2. cbn [last removelast]. rewrite Bw. change (blen (repeat x00 36)) with 36%N.
  change (MAX_FILE_SIZE <? 40 + 36)%N with false. cbv iota. cbn [app].
  unfold vapp. cbn [last removelast]. rewrite blen_app, Bw. change (blen (repeat x00 36)) with 36%N.
  replace (blen r) with 38%N by (unfold blen; lia). reflexivity.
Qed.

(** Opening the second file's record with only the beginning of the first file. *)
Lemma open_without f v key k prev raw r : length k = 32 -> length v = 56 -> blen f = (MAX_FILE_SIZE - 68)%N -> ptr_ok prev ->
  raw = write8 2 ++ pointer_write (newest [f ++ v] v) ++ k ->
  r = meta_write toyC key (mkmeta prev (newest [f ++ v; raw] raw) NNull) ->
  db_open toy toyC key [f; (raw ++ repeat x00 36) ++ r] [] = Ok None.
Proof.
  intros Lk Lv Lf Pp Er Em.
  assert (L1 : blen (f ++ v) = (MAX_FILE_SIZE - 12)%N) by (rewrite blen_app, Lf; unfold blen; rewrite Lv; reflexivity).
  assert (Eq : newest [f ++ v] v = mkptr 1 (MAX_FILE_SIZE - 68) 56).
  { unfold newest, mark_ptr. cbn [last length]. rewrite L1. replace (blen v) with 56%N by (unfold blen; lia). reflexivity. }
  rewrite Eq in Er.
  assert (Lw : length raw = 40) by (rewrite Er, !app_length, pointer_write_length, Lk; reflexivity).
  assert (Bw : blen raw = 40%N) by (unfold blen; lia).
  assert (Eq2 : newest [f ++ v; raw] raw = mkptr 2 0 40).
  { unfold newest, mark_ptr. cbn [last length]. rewrite Bw. reflexivity. }
  rewrite Eq2 in Em.
  assert (Lr : length r = 38) by (rewrite Em; apply meta_write_length, toyC_len).
  assert (Mr : meta_read toyC key r = Ok (Some (mkmeta prev (mkptr 2 0 40) NNull))).
  { rewrite Em. apply (meta_roundtrip toyC toyC_len); [exact Pp|]. unfold ptr_ok. cbn. lia. }
  assert (Rd : node_read raw = Ok (Some (NLeaf None None k None (Some (mkptr 1 (MAX_FILE_SIZE - 68) 56))))).
  { destruct (node_roundtrip (NLeaf None None k (Some v) (Some (mkptr 1 (MAX_FILE_SIZE - 68) 56))) []) as (raw' & m & E' & Es & R & _).
    { split; [exact Lk|]. unfold ptr_ok. cbn. lia. }
    cbn [node_write] in E'. apply Ok_inj in E'. rewrite <- Er in E'. subst raw'. cbn [stored] in Es. injection Es as <-.
    rewrite app_nil_r in R. exact R. }
  set (g := (raw ++ repeat x00 36) ++ r). assert (Lg : length g = 114) by (unfold g; rewrite !app_length, repeat_length, Lw, Lr; reflexivity).
  assert (Sg : skipn 76 g = r). { unfold g. apply skipn_app_exact. rewrite app_length, repeat_length, Lw. reflexivity. }
  assert (Fg : firstn 40 g = raw). { unfold g. rewrite <- app_assoc. rewrite <- Lw at 1. rewrite firstn_app, Nat.sub_diag, firstn_all, firstn_O, app_nil_r. reflexivity. }
  assert (Rc : recover toyC key 2 [f; g] [] = Ok ([f; g], [OCut 1 114], mkmeta (mkptr 2 76 (psize prev)) (mkptr 2 0 40) NNull, mkmeta prev (mkptr 2 0 40) NNull)).
  { cbn [recover hd]. unfold fget at 1 2. cbn [nth]. rewrite Lg. change (114 / 38) with 3. cbn [find_meta]. change (38 * 2) with 76.
    rewrite Sg, firstn_all2 by lia. rewrite Mr. cbn [bind]. unfold fget. cbn [nth m_meta m_root upd]. change (76 + 38) with 114.
    rewrite firstn_all2 by lia. reflexivity. }
  unfold db_open, store_open. change (length [f; g]) with 2. rewrite Rc. cbn [bind]. change (length [f; g]) with 2.
  unfold check. change (N.of_nat 2 <? MAX_FILES)%N with true. cbv iota. unfold fget. cbn [nth]. change (2 - 1) with 1. cbn [nth m_root].
  unfold read_root. cbn [pidx]. change (2 =? 0)%N with false. cbv iota. unfold read_node. cbn [psize]. change ((40 =? 0)%N || (113 <? 40)%N) with false. cbv iota.
  set (s := mkstore [f; g] _ _ _ _ _ _ _ _ _).
  assert (R1 : st_rd s (mkptr 2 0 40) = Some raw).
  { unfold st_rd. cbn [pidx ppos psize s st_index st_fs st_size]. change ((2 =? 0)%N || (N.of_nat 2 + 1 <? 2)%N) with false. cbv iota.
    change (N.to_nat 2 - 1) with 1. cbn [nth_error]. change (40 =? 0)%N with false. cbv iota. change (2 =? N.of_nat 2)%N with true. cbv iota.
    assert (Bg : blen g = 114%N) by (unfold blen; rewrite Lg; reflexivity). rewrite Bg. change (114 <? 0 + 40)%N with false. cbv iota.
    unfold slice. change (N.to_nat 0) with 0. change (N.to_nat 40) with 40. cbn [skipn]. rewrite Fg. reflexivity. }
  assert (R2 : st_rd s (mkptr 1 (MAX_FILE_SIZE - 68) 56) = None).
  { unfold st_rd. cbn [pidx ppos psize s st_index st_fs st_size]. change ((1 =? 0)%N || (N.of_nat 2 + 1 <? 1)%N) with false. cbv iota.
    change (N.to_nat 1 - 1) with 0. cbn [nth_error]. change (56 =? 0)%N with false. cbv iota. change (1 =? N.of_nat 2)%N with false. cbv iota.
    rewrite Lf. destruct (N.ltb_spec (MAX_FILE_SIZE - 68) (MAX_FILE_SIZE - 68 + 56)); [reflexivity|lia]. }
  rewrite R1. cbn [bind]. rewrite Rd. cbn [bind set_ptr]. unfold retrieve. cbn [psize]. change (1023 <? 56)%N with false. cbv iota. rewrite R2. reflexivity.
Qed.

(** A database of two gigabytes: what it held before the copying and during it is acknowledged
    and can be read; the copy made file after file, until there is no next one, cannot be opened at all. *)
Lemma copy_all P ops t g d : forall fs, copying P (mkcopier fs ops t g d) (mkcopier (apply_ops fs ops) [] t g d).
Proof.
  induction ops as [|o ops IH]; intros fs; [constructor|]. eapply cg_step; [apply cp_op|apply IH].
Qed.
Lemma copying_trans P a b c : copying P a b -> copying P b c -> copying P a c.
Proof. induction 1; intros X; [exact X|]. econstructor; eauto. Qed.
Lemma copy_file P fs ops i t d : fget fs i <> [] -> copying P (mkcopier fs ops (i :: t) [] d) (mkcopier fs ops t [] ((i, fget fs i) :: d)).
Proof.
  intros N. assert (0 < length (fget fs i)) by (destruct (fget fs i); [congruence|cbn; lia]).
  eapply cg_step; [apply (cp_read P fs ops i t [] d (length (fget fs i))); [lia|cbn [length]; lia]|].
  cbn [length skipn app]. rewrite firstn_all. eapply cg_step; [apply cp_eof; lia|constructor].
Qed.
Lemma backup_two f ops f' g : apply_ops [f] ops = [f'; g] -> f <> [] -> g <> [] -> backup one_by_one [f] ops [f; g].
Proof.
  intros Ea Nf Ng. exists [f'; g], [], [(1, g); (0, f)]. split; [|split; [|split; [reflexivity|]]].
  - eapply cg_step; [apply (cp_list one_by_one [f] ops [0] []); split; [cbn; lia|reflexivity]|].
    eapply copying_trans; [apply (copy_file one_by_one [f] ops 0 [] []), Nf|].
    eapply copying_trans; [apply copy_all|]. rewrite Ea.
    eapply cg_step; [apply (cp_list one_by_one [f'; g] [] [1] [(0, f)]); split; [cbn; lia|reflexivity]|].
    apply (copy_file one_by_one [f'; g] [] 1 [] [(0, f)]), Ng.
  - intros t [X _]. cbn [length] in X. lia.
  - intros [|[|i]] L; cbn [length nth] in *; [right; now left|now left|lia].
Qed.

Theorem C63_one_by_one_refuted : exists w sp w1 sp1 ops B w2 w3,
  exec toy toyC dkey w sp /\ quiet w /\ s_failed sp = false /\ aligned (files w) /\
  trail (move toy toyC) w sp [(w1, sp1)] w1 sp1 /\ collision_free toy sp1 /\ log w1 = log w ++ ops /\ aligned (files w1) /\
  backup one_by_one (files w) ops B /\
  step toy toyC w (CGet kfoo None) = Ok (AVal [x01], w2) /\ step toy toyC w1 (CGet kfoo None) = Ok (AVal znew, w3) /\
  db_open toy toyC dkey B [] = Ok None.
Proof.
  destruct (full_run LAST 0 fb_w full_0) as (w & _ & F1); [rewrite last_N; lia|].
  rewrite last_N in F1. change (0 + 56512615)%N with 56512615%N in F1. pose proof F1 as (X & Q & T & f & F & Lf).
  destruct (full_live1 w T) as (h & En).
  assert (A : allowed toy (fb_spec 56512615) w (CTxCommit 1)) by (apply full_allowed; lia).
  destruct (commit_leaf_at toy toy_len toyC toyC_len _ _ _ 1 h kfoo znew l1 X eq_refl Q A) as (w1 & raw & r & E & X' & Q' & Lw & Lr & F' & Er & prev & Pp & Em); [reflexivity|exact En|].
  assert (Lf' : blen f = (MAX_FILE_SIZE - 68)%N) by (rewrite Lf; reflexivity).
  destruct (vcommit_moves f znew raw r Lf' eq_refl Lw Lr) as (V1 & V2 & V3).
  rewrite F, V1 in F', Er, Em. rewrite V2 in F', Em. rewrite V3 in F'.
  assert (CF1 : forall fl tx bs, collision_free toy (mkspec (l1 :: repeat l0 (S (N.to_nat 56512615))) l1 tx fl bs)).
  { intros fl tx bs. apply fb_free. intros l [<-|I]; [now right|left]. apply repeat_spec in I. exact I. }
  assert (CF0 : collision_free toy (fb_spec 56512615)) by (apply A).
  destruct (exec_do toy toy_len toyC toyC_len _ _ _ (CGet kfoo None) X) as (a & w2 & E2 & G2 & _). { split; [exact CF0|reflexivity]. }
  cbn [good seen] in G2. change (s_cur (fb_spec 56512615)) with l0 in G2.
  assert (Ga : get_answer l0 kfoo = AVal [x01]) by (vm_compute; reflexivity). rewrite Ga in G2. subst a.
  destruct (exec_do toy toy_len toyC toyC_len _ _ _ (CGet kfoo None) X') as (a & w3 & E3 & G3 & _). { split; [apply CF1|reflexivity]. }
  cbn [good seen] in G3. change (s_cur (committed (fb_spec 56512615) l1)) with l1 in G3.
  assert (Gb : get_answer l1 kfoo = AVal znew) by (vm_compute; reflexivity). rewrite Gb in G3. subst a.
  assert (Tr : trail (move toy toyC) w (fb_spec 56512615) [(w1, committed (fb_spec 56512615) l1)] w1 (committed (fb_spec 56512615) l1)).
  { econstructor; [|constructor]. exists (CTxCommit 1), AOk. split; [exact A|]. split; [discriminate|]. split; [exact E|reflexivity]. }
  pose proof (exec_sim toy toy_len toyC toyC_len _ _ _ X) as Sm.
  destruct (trail_ok toy toyC dkey _ _ _ _ _ _ (keeps_move toy toy_len toyC toyC_len dkey) Tr Sm Q eq_refl) as (_ & _ & _ & Ef & _).
  assert (Ops : exists ops, log w1 = log w ++ ops /\ apply_ops (files w) ops = files w1).
  { unfold effect, files, log in *. destruct (w_db w); [|contradiction]. destruct (w_db w1); [|contradiction].
    destruct Ef as (ops & L1 & L2 & _). exists ops. auto. }
  destruct Ops as (ops & Lo & Ao).
  exists w, (fb_spec 56512615), w1, (committed (fb_spec 56512615) l1), ops, [f; (raw ++ repeat x00 36) ++ r], w2, w3.
  split; [exact X|]. split; [exact Q|]. split; [reflexivity|]. split. { unfold aligned. rewrite F. cbn [last]. rewrite Lf'. reflexivity. }
  split; [exact Tr|]. split; [apply CF1|]. split; [exact Lo|]. split.
  { unfold aligned. rewrite F'. cbn [last]. rewrite !blen_app. unfold blen. rewrite repeat_length, Lw, Lr. reflexivity. }
  split; [|split; [exact E2|]; split; [exact E3|]]. 2:{ apply (open_without f znew dkey kfoo prev raw r eq_refl eq_refl Lf' Pp Er Em). }

  rewrite F. eapply backup_two; [rewrite <- F; rewrite Ao; exact F'| |].
  - intros ->. discriminate Lf'.
  - intros Y. apply (f_equal (@length byte)) in Y. rewrite !app_length, Lw in Y. discriminate Y.
Qed.


(** ** The hypotheses are met: the process commits twice; the copier lists the directory, copies what
    is there, goes on copying after the first commit and when 100 bytes of the second are written. *)
Lemma copy_more P fs ops i t g d x y : fget fs i = g ++ x ++ y -> x <> [] ->
  copying P (mkcopier fs ops (i :: t) g d) (mkcopier fs ops (i :: t) (g ++ x) d).
Proof.
  intros E N. assert (0 < length x) by (destruct x; [congruence|cbn; lia]).
  assert (Er : g ++ x = g ++ firstn (length x) (skipn (length g) (fget fs i))).
  { rewrite E, skipn_app, skipn_all, Nat.sub_diag. cbn [app skipn]. rewrite firstn_app, firstn_all, Nat.sub_diag, firstn_O, app_nil_r. reflexivity. }
  rewrite Er. eapply cg_step; [apply (cp_read P fs ops i t g d (length x)); [assumption|rewrite E, !app_length; lia]|constructor].
Qed.
Lemma backup_torn f x y z : f <> [] -> x <> [] -> y <> [] ->
  backup all_at_once [f] [OApp 0 x; OApp 0 (y ++ z)] [f ++ x ++ y].
Proof.
  intros Nf Nx Ny. exists [(f ++ x) ++ y], [OApp 0 z], [(0, (f ++ x) ++ y)]. split; [|split; [|split; [reflexivity|]]].
  - eapply cg_step; [apply (cp_list all_at_once [f] _ [0] []); split; reflexivity|].
    eapply copying_trans; [apply (copy_more all_at_once [f] _ 0 [] [] [] f []); [cbn; now rewrite app_nil_r|exact Nf]|].
    eapply cg_step; [apply cp_op|]. cbn [apply_op upd fget nth app].
    eapply copying_trans; [apply (copy_more all_at_once [f ++ x] _ 0 [] f [] x []); [cbn; now rewrite app_nil_r|exact Nx]|].
    eapply cg_step; [apply cp_part|]. cbn [apply_op upd fget nth app].
    eapply copying_trans; [apply (copy_more all_at_once [(f ++ x) ++ y] _ 0 [] (f ++ x) [] y []); [cbn; now rewrite app_nil_r|exact Ny]|].
    eapply cg_step; [apply cp_eof; cbn; lia|constructor].
  - intros t [X _]. discriminate X.
  - intros [|i] L; cbn [length nth] in *; [|lia]. left. rewrite app_assoc. reflexivity.
Qed.
Definition op_bytes (i : nat) : bytes := match nth i two_ops ONew with OApp _ x => x | _ => [] end.
Example C63_nonvacuous : let w := pw demo in let sp := ps demo in let l := [(two_w1, two_s1); (two_w2, two_s2)] in
  exec toy toyC dkey w sp /\ quiet w /\ s_failed sp = false /\ aligned (files w) /\
  trail (move toy toyC) w sp l two_w2 two_s2 /\ collision_free toy two_s2 /\ log two_w2 = log w ++ two_ops /\
  no_forgery toyC dkey (files w) (files two_w2) (map (fun x => files (fst x)) l) /\
  backup all_at_once (files w) two_ops two_cut /\ reopened toy toyC dkey two_cut two_cut /\
  map (@length byte) (files w) = [304] /\ map (@length byte) two_cut = [746] /\ map (@length byte) (files two_w2) = [798].
Proof.
  destruct C19_history_nonvacuous as (X1 & X2 & X3 & X4 & X5 & X6 & X7 & X8 & _ & X10 & X11 & _ & X13 & X14 & _). cbv zeta in *.
  split; [exact X1|]. split; [exact X2|]. split; [exact X3|]. split; [exact X4|]. split; [exact X5|]. split; [exact X6|]. split; [exact X7|]. split; [exact X8|].
  split; [|split; [exact X10|]; split; [exact X11|]; split; [exact X13|exact X14]].
  assert (G : exists f x y z, files (pw demo) = [f] /\ two_ops = [OApp 0 x; OApp 0 (y ++ z)] /\ two_cut = [f ++ x ++ y] /\ f <> [] /\ x <> [] /\ y <> []).
  { exists (nth 0 (files (pw demo)) []), (op_bytes 0), (firstn 100 (op_bytes 1)), (skipn 100 (op_bytes 1)).
    split; [vm_compute; reflexivity|]. split; [vm_compute; reflexivity|]. split; [vm_compute; reflexivity|].
    split; [vm_compute; discriminate|]. split; vm_compute; discriminate. }
  destruct G as (f & x & y & z & -> & -> & -> & N1 & N2 & N3). apply backup_torn; assumption.
Qed.
Print Assumptions C63_listed_once_partial.
Print Assumptions C63_one_by_one_refuted.
