(** * C59: what is acquired is released. *)
From Verif Require Import Resources.

(** [uses P m S I]: in every state that holds [P] and anything else, [m] aborts, or returns
    some [a] with [I a], holding [S a] and everything else unchanged (if no allocation fails). *)
Definition uses {A} (P : list rsc) (m : M A) (S : A -> list rsc) (I : A -> Prop) : Prop :=
  forall h F, Permutation (lv h) (P ++ F) -> memq h = [] ->
  m h = Abort \/ exists a h', m h = Ok (a, h') /\ I a /\ Permutation (lv h') (S a ++ F) /\ memq h' = [].

Definition one (x y : rsc) : nat := if rsc_dec y x then 1 else 0.
Lemma cnt_cons x y l : count_occ rsc_dec (y :: l) x = one x y + count_occ rsc_dec l x.
Proof. cbn [count_occ]. unfold one. destruct (rsc_dec y x); reflexivity. Qed.
Lemma cnt_nil x : count_occ rsc_dec [] x = 0.
Proof. reflexivity. Qed.
Lemma cnt_app x a b : count_occ rsc_dec (a ++ b) x = count_occ rsc_dec a x + count_occ rsc_dec b x.
Proof. apply count_occ_app. Qed.
Lemma cnt_perm a b : Permutation a b -> forall x, count_occ rsc_dec a x = count_occ rsc_dec b x.
Proof. apply Permutation_count_occ. Qed.
#[export] Hint Rewrite cnt_app cnt_cons cnt_nil : cnt.
Ltac perm :=
  intros; apply (Permutation_count_occ rsc_dec); let x := fresh "x" in intro x;
  repeat match goal with E : Permutation _ _ |- _ => pose proof (cnt_perm _ _ E x); clear E end;
  autorewrite with cnt in *; lia.

Lemma u_ret {A} P (a : A) S (I : A -> Prop) : I a -> Permutation P (S a) -> uses P (mret a) S I.
Proof. intros i E h F E2 Z. right. exists a, h. split; [reflexivity|]. split; [exact i|]. split; [|exact Z]. rewrite E2. apply Permutation_app_tail, E. Qed.
Lemma u_call {A B} P D P0 (m : M A) S (I : A -> Prop) (f : A -> M B) T J :
  uses P0 m S I -> Permutation P (P0 ++ D) -> (forall a, I a -> uses (S a ++ D) (f a) T J) -> uses P (mbind m f) T J.
Proof.
  intros X E Y h F E2 Z. destruct (X h (D ++ F)) as [Ab|(a & h' & E3 & i & E4 & Z4)]; [rewrite app_assoc, E2; apply Permutation_app_tail, E|exact Z| |].
  - left. unfold mbind. rewrite Ab. reflexivity.
  - unfold mbind. rewrite E3. cbn [bind]. apply (Y a i h' F); [|exact Z4]. rewrite <- app_assoc. exact E4.
Qed.
Lemma u_end {A} P D P0 (m : M A) S (I : A -> Prop) T (J : A -> Prop) :
  uses P0 m S I -> Permutation P (P0 ++ D) -> (forall a, I a -> Permutation (S a ++ D) (T a) /\ J a) -> uses P m T J.
Proof.
  intros X E Y h F E2 Z. destruct (X h (D ++ F)) as [Ab|(a & h' & E3 & i & E4 & Z4)]; [rewrite app_assoc, E2; apply Permutation_app_tail, E|exact Z|left; exact Ab|].
  right. exists a, h'. destruct (Y a i) as [E5 j]. split; [exact E3|]. split; [exact j|]. split; [|exact Z4].
  rewrite E4, app_assoc. apply Permutation_app_tail, E5.
Qed.
Lemma u_abort {A} P (S : A -> list rsc) I : uses P (fun _ => Abort) S I.
Proof. intros h F _ _. left. reflexivity. Qed.

Notation none := (fun _ => @nil rsc).
Notation any := (fun _ => True).
Lemma u_ask : uses [] ask none any.
Proof. intros h F E Z. right. eexists _, _. split; [reflexivity|]. auto. Qed.
Lemma u_asked : uses [] asked none any.
Proof. intros h F E Z. right. eexists _, _. split; [reflexivity|]. auto. Qed.
Lemma u_acquire k : uses [] (acquire k) (fun i => [(i, k)]) any.
Proof. intros h F E Z. right. exists (nx h). eexists. split; [reflexivity|]. split; [exact I|]. split; [|exact Z]. cbn [lv app]. constructor. exact E. Qed.
Lemma u_release k i : uses [(i, k)] (release k i) none any.
Proof.
  intros h F E Z. destruct (drop_perm _ _ _ E) as (m & E1 & E2). unfold release. rewrite E1. right. exists tt. eexists. split; [reflexivity|]. auto.
Qed.
Lemma u_touch k i : uses [(i, k)] (touch k i) (fun _ => [(i, k)]) any.
Proof.
  intros h F E Z. unfold touch. destruct (in_dec rsc_dec (i, k) (lv h)) as [_|N].
  - right. exists tt, h. auto.
  - exfalso. apply N. apply (Permutation_in _ (Permutation_sym E)). left. reflexivity.
Qed.
Lemma u_grants : uses [] grants none (fun b => b = true).
Proof. intros h F E Z. right. eexists _, _. split; [reflexivity|]. rewrite Z. auto. Qed.

(** Proof steps: [st L]: the next call uses lemma [L]. *)
Ltac atoms l :=
  lazymatch l with
  | ?a ++ ?b => let x := atoms a in let y := atoms b in let r := eval cbn [app] in (x ++ y) in r
  | ?x :: ?l => let y := atoms l in constr:([x] :: y)
  | @nil _ => constr:(@nil (list rsc))
  | _ => constr:([l])
  end.
Ltac without a l :=
  match l with
  | ?b :: ?t => let _ := match goal with _ => constr_eq a b end in t
  | ?b :: ?t => let r := without a t in constr:(b :: r)
  end.
Ltac rest l k :=
  lazymatch k with
  | @nil _ => l
  | ?a :: ?k => let l := without a l in rest l k
  end.
Ltac together l := lazymatch l with @nil _ => constr:(@nil rsc) | ?a :: @nil _ => a | ?a :: ?l => let r := together l in constr:(a ++ r) end.
Definition om (k : kind) (p : option nat) : list rsc := match p with Some i => [(i, k)] | None => [] end.
Definition ofile (f : rfile) : list rsc := (f_mem f, KMem) :: om KFd (f_fd f) ++ om KMap (f_base f).
Definition oopt {A} (o : A -> list rsc) (x : option A) : list rsc := match x with Some a => o a | None => [] end.
Ltac sm := cbv beta; unfold ofile; cbn [om oopt f_mem f_fd f_base fst snd].
Ltac pm := sm; perm.
Ltac frame :=
  sm; match goal with |- Permutation ?P (?P0 ++ ?D) =>
    let l := atoms P in let k := atoms P0 in let r := rest l k in let d := together r in unify D d; perm end.
Ltac st L := eapply u_call; [apply L|frame|let a := fresh "a" in let i := fresh "i" in intros a i; cbv beta in *; try (lazymatch type of i with True => clear i end; lazymatch type of a with unit => clear a | _ => idtac end)].
Ltac ends L := eapply u_end; [apply L|frame|intros ? ?; cbv beta].
Ltac done_ := apply u_ret; [auto|try perm].

Lemma u_malloc : uses [] malloc (om KMem) (fun p => p <> None).
Proof. unfold malloc. st u_grants. subst a. st (u_acquire KMem). apply u_ret; [discriminate|cbn [om]; perm]. Qed.
Lemma u_checked : uses [] checked_malloc (fun i => [(i, KMem)]) any.
Proof. unfold checked_malloc. st u_grants. subst a. ends (u_acquire KMem). split; [perm|auto]. Qed.
Lemma u_sync : uses [] sync_create (fun i => [(i, KSync)]) any.
Proof. unfold sync_create. st u_grants. subst a. ends (u_acquire KSync). split; [perm|auto]. Qed.
Lemma u_orel k p : uses (om k p) (opt_release k p) none any.
Proof. destruct p as [i|]; [apply u_release|apply u_ret; [auto|reflexivity]]. Qed.
Lemma u_free_opt p : uses (om KMem p) (free_opt p) none any.
Proof. destruct p as [i|]; [apply u_release|apply u_ret; [auto|reflexivity]]. Qed.
Lemma u_realloc p : uses (om KMem p) (checked_realloc p) (fun i => [(i, KMem)]) any.
Proof. unfold checked_realloc. st u_grants. subst a. st (u_free_opt p). ends (u_acquire KMem). split; [perm|auto]. Qed.
Lemma u_free_all l : uses (mem l) (free_all l) none any.
Proof.
  induction l as [|i l IH]; cbn [free_all mem map].
  - apply u_ret; [auto|reflexivity].
  - fold (mem l). st (u_release KMem i). ends IH. split; [perm|auto].
Qed.
Lemma mem_app a b : mem (a ++ b) = mem a ++ mem b.
Proof. apply map_app. Qed.

Ltac fin := apply u_ret; [auto|pm].
Lemma u_fs_open : uses [] fs_open (om KFd) any.
Proof. unfold fs_open. st u_asked. destruct a; [st (u_acquire KFd)|]; fin. Qed.
Lemma u_file_close f : uses (ofile f) (file_close f) none any.
Proof. unfold file_close. sm. st (u_touch KMem (f_mem f)). st (u_orel KMap (f_base f)). st (u_orel KFd (f_fd f)). ends (u_release KMem (f_mem f)). split; [perm|auto]. Qed.
Lemma u_file_open b : uses [] (file_open b) (oopt ofile) any.
Proof.
  unfold file_open. st u_fs_open. destruct a as [fd|]; sm; [|fin].
  st u_asked. destruct a; cbn [negb]. 2:{ st (u_release KFd fd). fin. }
  st u_malloc. destruct a as [p|]; [|congruence]. sm. st u_asked. destruct a; cbn [negb]; [|fin].
  st u_asked. destruct a; cbn [negb]. 2:{ st (u_file_close (mkrf p (Some fd) None)). fin. }
  st (u_acquire KMap). destruct b; [st (u_release KFd fd)|]; fin.
Qed.
Lemma u_file_write f : uses (ofile f) (file_write f) (fun r => ofile (fst r)) any.
Proof.
  unfold file_write. sm. st (u_touch KMem (f_mem f)). st u_asked.
  destruct (match f_base f with Some _ => negb a | None => false end); [fin|].
  st (u_orel KMap (f_base f)). sm. st u_asked. destruct a0; cbn [negb]; [|fin].
  st u_asked. destruct a0; cbn [negb]; [|fin]. st (u_acquire KMap). fin.
Qed.

Lemma u_scan_fail l items it d : uses ((l, KMem) :: mem items ++ om KMem it ++ [(d, KDir)]) (scan_fail (Some l) items it d) none (fun r => r = None).
Proof.
  unfold scan_fail. destruct items as [|x items].
  - cbn [mem map]. st (u_ret [] tt none any I (Permutation_refl _)). st (u_free_opt (Some l)). st (u_free_opt it). st (u_release KDir d). fin.
  - set (xs := x :: items).
    eapply (u_call _ (om KMem it ++ [(d, KDir)]) ((l, KMem) :: mem xs)).
    + st (u_touch KMem l). ends (u_free_all xs). split; [|exact I]. instantiate (1 := fun _ => [(l, KMem)]). pm.
    + pm.
    + intros a _. sm. clear a. st (u_free_opt (Some l)). st (u_free_opt it). st (u_release KDir d). fin.
Qed.
Definition olist (r : nat * list nat) : list rsc := (fst r, KMem) :: mem (snd r).
Lemma u_scan_fail' l items it d : uses ((l, KMem) :: mem items ++ om KMem it ++ [(d, KDir)]) (scan_fail (Some l) items it d) (oopt olist) any.
Proof. eapply u_end; [apply u_scan_fail|rewrite app_nil_r; reflexivity|]. intros a ->. split; [reflexivity|exact I]. Qed.
Lemma u_scan_loop d : forall n l size items, uses ((l, KMem) :: mem items ++ [(d, KDir)]) (scan_loop n l size items d) (oopt olist) any.
Proof.
  induction n as [|n IH]; intros l size items; cbn [scan_loop].
  - st u_asked. destruct a; cbn [negb].
    + st (u_release KDir d). apply u_ret; [auto|]. cbn [oopt]. unfold olist. sm. perm.
    + ends (u_scan_fail' l items None d). split; [pm|auto].
  - st u_asked. destruct a; cbn [negb]. 2:{ ends (u_scan_fail' l items None d). split; [pm|auto]. }
    st u_malloc. destruct a as [it|]; [|congruence]. sm. st u_asked. destruct a; cbn [negb].
    2:{ ends (u_scan_fail' l items (Some it) d). split; [pm|auto]. }
    eapply (u_call _ (mem items ++ [(it, KMem)] ++ [(d, KDir)]) [(l, KMem)]) with (S := fun r => om KMem (fst r)) (I := fun r => fst r <> None).
    + destruct (length items =? size).
      * st u_grants. subst a. st (u_release KMem l). st (u_acquire KMem). apply u_ret; [discriminate|pm].
      * apply u_ret; [discriminate|pm].
    + pm.
    + intros [[l'|] size'] N; [|cbn [fst] in N; congruence]. sm. st (u_touch KMem l').
      eapply u_end; [apply (IH l' size' (items ++ [it]))|rewrite mem_app; cbn [mem map]; instantiate (1 := []); perm|]. intros r _. split; [rewrite app_nil_r; reflexivity|exact I].
Qed.
Lemma u_scandir : uses [] scandir (oopt olist) any.
Proof.
  unfold scandir. st u_malloc. destruct a as [l|]; [|congruence]. sm. st u_asked. destruct a; cbn [negb]; [|st (u_release KMem l); fin].
  st (u_acquire KDir). st u_ask.
  eapply u_end; [apply (u_scan_loop a a0 l 8 [])|cbn [mem map]; instantiate (1 := []); perm|]. intros r _. split; [rewrite app_nil_r; reflexivity|exact I].
Qed.
Lemma u_path_resolve : uses [] path_resolve (om KMem) any.
Proof.
  unfold path_resolve. st u_malloc. destruct a as [p|]; [|congruence]. sm. st u_asked. destruct a; cbn [negb]; [|st (u_release KMem p); fin].
  st u_grants. subst a. st (u_release KMem p). st (u_acquire KMem). fin.
Qed.
Lemma u_whole_file : uses [] whole_file none any.
Proof. unfold whole_file. st u_fs_open. destruct a as [fd|]; sm; [|fin]. st u_asked. st (u_release KFd fd). fin. Qed.
Lemma u_open_lock : uses [] open_lock (om KFd) any.
Proof. unfold open_lock. st u_fs_open. destruct a as [fd|]; sm; [|fin]. st u_asked. destruct a; cbn [negb]; [fin|]. st (u_release KFd fd). fin. Qed.
Lemma u_random_bytes : uses [] random_bytes none any.
Proof.
  unfold random_bytes. st u_fs_open. eapply (u_call _ [] (om KFd a)) with (S := om KFd) (I := any).
  - destruct a as [fd|]; [fin|apply u_fs_open].
  - perm.
  - intros [fd|] _; sm; [|fin]. st u_asked. ends (u_release KFd fd). split; [perm|exact I].
Qed.
Lemma u_init_prefix : uses [] init_prefix none any.
Proof.
  unfold init_prefix. st u_path_resolve. destruct a as [p|]; sm; [|fin]. st u_asked. destruct a; cbn [negb]; [|st (u_release KMem p); fin].
  st (u_touch KMem p). st (u_release KMem p). st u_asked. destruct a; [fin|]. ends u_asked. split; [perm|exact I].
Qed.
Lemma u_init_meta : uses [] init_meta none any.
Proof. unfold init_meta. st u_asked. destruct a; [apply u_whole_file|]. st u_random_bytes. apply u_whole_file. Qed.
Lemma u_find_index : uses [] find_index none any.
Proof.
  unfold find_index. st u_scandir. destruct a as [[l items]|]; cbn [oopt]; [|fin]. unfold olist. sm.
  st (u_touch KMem l). st (u_free_all items). st (u_release KMem l). st u_asked. st u_ask. fin.
Qed.
Lemma u_find_meta : uses [] find_meta none any.
Proof.
  unfold find_meta. st u_fs_open. destruct a as [fd|]; sm; [|fin]. st u_asked. destruct a; cbn [negb]; [|st (u_release KFd fd); fin].
  st u_asked. st (u_release KFd fd). fin.
Qed.
Lemma u_recover_loop : forall n, uses [] (recover_loop n) none any.
Proof.
  induction n as [|n IH]; cbn [recover_loop]; [fin|]. st u_find_meta. destruct a; [fin|]. st u_asked. destruct a; cbn [negb]; [|fin].
  ends IH. split; [perm|exact I].
Qed.
Lemma u_recover_state n : uses [] (recover_state n) none any.
Proof. unfold recover_state. st u_checked. st (u_recover_loop n). st (u_release KMem a). fin. Qed.
Lemma u_destroy : uses [] r_destroy none any.
Proof.
  unfold r_destroy. st u_path_resolve. destruct a as [p|]; sm; [|fin]. st u_asked. destruct a; cbn [negb]; [|st (u_release KMem p); fin].
  st u_open_lock. destruct a as [fd|]; sm; [|st (u_release KMem p); fin]. st u_scandir.
  eapply (u_call _ ([(fd, KFd)] ++ [(p, KMem)]) (oopt olist a)) with (S := none) (I := any).
  - destruct a as [[l items]|]; cbn [oopt]; [|fin]. unfold olist. sm. st (u_touch KMem l). st (u_free_all items). st (u_release KMem l). fin.
  - perm.
  - intros ok _. sm. st (u_release KFd fd). st u_asked.
    eapply (u_call _ [(p, KMem)] []) with (S := none) (I := any).
    + destruct ok; [apply u_asked|fin].
    + perm.
    + intros r _. sm. st (u_release KMem p). fin.
Qed.

(** ** The store. *)
Definition ofiles (l : list (nat * rfile)) : list rsc := concat (map (fun x => ofile (snd x)) l).
Definition osto (s : rsto) : list rsc :=
  [(r_lock s, KFd)] ++ om KMem (r_data s) ++ om KMem (r_offs s) ++ om KMem (r_arr s) ++ ofiles (r_files s) ++
  [(r_fm s, KSync)] ++ [(r_map s, KMem)] ++ om KMem (r_tabs s) ++ mem (r_nodes s).
Definition keys (s : rsto) : list nat := map fst (r_files s).
Definition inv (s : rsto) : Prop := NoDup (keys s) /\ forall c, r_cur s = Some c -> c = r_index s /\ In c (keys s).

Lemma ffind_split i : forall l f, ffind i l = Some f -> exists a b, l = a ++ (i, f) :: b /\ ~ In i (map fst a).
Proof.
  induction l as [|[j g] l IH]; intros f E; cbn [ffind] in E; [discriminate|].
  destruct (Nat.eqb_spec i j) as [<-|N].
  - injection E as <-. exists [], l. split; [reflexivity|intros []].
  - destruct (IH f E) as (a & b & -> & Ni). exists ((j, g) :: a), b. split; [reflexivity|]. cbn [map fst In]. intros [X|X]; [congruence|exact (Ni X)].
Qed.
Lemma fdel_split i f : forall a b, ~ In i (map fst a) -> fdel i (a ++ (i, f) :: b) = a ++ b.
Proof.
  induction a as [|[j g] a IH]; intros b N; cbn [app fdel].
  - rewrite Nat.eqb_refl. reflexivity.
  - cbn [map fst In] in N. destruct (Nat.eqb_spec i j) as [X|X]; [exfalso; apply N; left; congruence|]. rewrite IH; [reflexivity|]. intros Y. apply N. right. exact Y.
Qed.
Lemma fset_split i f g : forall a b, ~ In i (map fst a) -> fset i g (a ++ (i, f) :: b) = a ++ (i, g) :: b.
Proof.
  induction a as [|[j h] a IH]; intros b N; cbn [app fset].
  - rewrite Nat.eqb_refl. reflexivity.
  - cbn [map fst In] in N. destruct (Nat.eqb_spec i j) as [X|X]; [exfalso; apply N; left; congruence|]. rewrite IH; [reflexivity|]. intros Y. apply N. right. exact Y.
Qed.
Lemma ffind_none i : forall l, ffind i l = None <-> ~ In i (map fst l).
Proof.
  induction l as [|[j f] l IH]; cbn [ffind map fst In]; [tauto|]. destruct (Nat.eqb_spec i j) as [->|N].
  - split; [discriminate|tauto].
  - rewrite IH. split; [intros X [Y|Y]; [congruence|tauto]|tauto].
Qed.
Lemma ofiles_app a b : ofiles (a ++ b) = ofiles a ++ ofiles b.
Proof. unfold ofiles. rewrite map_app. apply concat_app. Qed.
Lemma ofiles_cons i f b : ofiles ((i, f) :: b) = ofile f ++ ofiles b.
Proof. reflexivity. Qed.
#[export] Hint Rewrite ofiles_app ofiles_cons : cnt.

Definition steady (s s' : rsto) : Prop :=
  r_index s' = r_index s /\ r_cur s' = r_cur s /\ (r_offs s <> None -> r_offs s' <> None).
Lemma steady_refl s : steady s s.
Proof. split; [reflexivity|]. split; [reflexivity|]. auto. Qed.
Lemma steady_trans a b c : steady a b -> steady b c -> steady a c.
Proof. intros (A & B & C) (D & E & F). split; [congruence|]. split; [congruence|]. auto. Qed.
Ltac so := unfold osto, with_files, with_current, with_slab, with_cache in *; cbn [r_lock r_data r_offs r_arr r_len r_files r_fm r_map r_tabs r_nodes r_index r_cur] in *.

(** Closing a file that is not the current one. *)
Lemma u_close_file s i : inv s -> i <> r_index s ->
  uses (osto s) (close_file s i) osto (fun s' => inv s' /\ steady s s' /\ (forall j, j <> i -> In j (keys s) -> In j (keys s')) /\ (forall j, In j (keys s') -> In j (keys s)) /\ (In i (keys s) -> Datatypes.S (length (r_files s')) = length (r_files s))).
Proof.
  intros [Nd Cu] Ni. unfold close_file. destruct (ffind i (r_files s)) as [f|] eqn:E.
  2:{ apply u_ret; [|reflexivity]. split; [split; assumption|]. split; [apply steady_refl|]. split; [auto|]. split; [auto|].
      intros I. exfalso. apply (proj1 (ffind_none i (r_files s)) E I). }
  apply ffind_split in E. destruct E as (a & b & E & Na).
  assert (C0 : (match r_cur (with_files s (r_arr s) (r_len s) (fdel i (r_files s))) with Some c => c =? i | None => false end) = false).
  { cbn [r_cur with_files]. destruct (r_cur s) as [c|] eqn:Ec; [|reflexivity]. destruct (Cu c eq_refl) as [-> _]. apply Nat.eqb_neq. congruence. }
  rewrite C0. cbn zeta. rewrite E, fdel_split by exact Na.
  eapply (u_call _ (osto (with_files s (r_arr s) (r_len s) (a ++ b))) (ofile f)); [apply u_file_close|so; rewrite E; perm|].
  intros x _. apply u_ret; [|perm]. unfold keys in *. rewrite E in *. cbn [r_files with_files].
  rewrite map_app in Nd. cbn [map fst] in Nd. pose proof (NoDup_remove_1 _ _ _ Nd) as Nd1. rewrite <- map_app in Nd1.
  split; [split; [exact Nd1|]|].
  - cbn [r_cur with_files r_index]. intros c Ec. destruct (Cu c Ec) as [X Y]. split; [exact X|]. cbn [r_files with_files keys]. unfold keys. cbn [r_files with_files]. rewrite map_app in Y |- *. cbn [map fst] in Y.
    apply in_app_iff in Y. apply in_app_iff. destruct Y as [Y|[Y|Y]]; [left; exact Y|congruence|right; exact Y].
  - split; [split; [reflexivity|split; [reflexivity|auto]]|]. split; [|split].
    + intros j Nj Ij. rewrite map_app in Ij |- *. cbn [map fst] in Ij. apply in_app_iff in Ij. apply in_app_iff. destruct Ij as [Y|[Y|Y]]; [left; exact Y|congruence|right; exact Y].
    + intros j Ij. rewrite map_app in Ij |- *. cbn [map fst]. apply in_app_iff in Ij. apply in_app_iff. destruct Ij as [Y|Y]; [left; exact Y|right; right; exact Y].
    + intros _. rewrite !app_length. cbn [length]. lia.
Qed.
Lemma filter_all k : forall l : list (nat * rfile), ~ In k (map fst l) -> filter (fun x => negb (fst x =? k)) l = l.
Proof.
  induction l as [|[j f] l IH]; cbn [map fst In filter]; intros N; [reflexivity|]. destruct (Nat.eqb_spec j k) as [->|X]; [tauto|]. cbn [negb]. f_equal. apply IH. tauto.
Qed.
Lemma filter_most k : forall l : list (nat * rfile), NoDup (map fst l) -> length l <= Datatypes.S (length (filter (fun x => negb (fst x =? k)) l)).
Proof.
  induction l as [|[j f] l IH]; cbn [map fst filter length]; intros Nd; [lia|]. inversion Nd as [|? ? Nj Nd']; subst.
  destruct (Nat.eqb_spec j k) as [->|X]; cbn [negb length].
  - rewrite filter_all by exact Nj. lia.
  - specialize (IH Nd'). lia.
Qed.
Lemma u_evict : forall fuel s, inv s -> length (r_files s) <= fuel ->
  uses (osto s) (evict fuel s) osto (fun s' => inv s' /\ steady s s' /\ length (r_files s') <= 32 /\ (forall j, In j (keys s') -> In j (keys s)) /\ (In (r_index s) (keys s) -> In (r_index s) (keys s'))).
Proof.
  induction fuel as [|fuel IH]; intros s V Lf; cbn [evict].
  - destruct (length (r_files s) <=? 32) eqn:E32; [|apply Nat.leb_gt in E32; lia]. apply Nat.leb_le in E32. apply u_ret; [|reflexivity]. split; [exact V|]. split; [apply steady_refl|]. auto.
  - destruct (length (r_files s) <=? 32) eqn:E32. { apply Nat.leb_le in E32. apply u_ret; [|reflexivity]. split; [exact V|]. split; [apply steady_refl|]. auto. }
    apply Nat.leb_gt in E32. eapply (u_call _ (osto s) []); [apply u_ask|reflexivity|]. intros num _. cbn [app].
    assert (Lt : num mod (length (r_files s) - 1) < length (filter (fun x => negb (fst x =? r_index s)) (r_files s))).
    { pose proof (filter_most (r_index s) (r_files s) (proj1 V)). pose proof (Nat.mod_upper_bound num (length (r_files s) - 1)). lia. }
    destruct (nth_error (filter (fun x => negb (fst x =? r_index s)) (r_files s)) (num mod (length (r_files s) - 1))) as [[i f]|] eqn:En.
    2:{ apply nth_error_None in En. lia. }
    apply nth_error_In in En. apply filter_In in En. destruct En as [I Ne]. cbn [fst] in Ne. apply negb_true_iff, Nat.eqb_neq in Ne.
    assert (Ik : In i (keys s)) by (apply (in_map fst) in I; exact I).
    eapply (u_call _ [] (osto s)); [apply (u_close_file s i V Ne)|rewrite app_nil_r; reflexivity|].
    intros s1 (V1 & St1 & K1 & K1' & L1). rewrite app_nil_r. specialize (L1 Ik).
    eapply u_end; [apply (IH s1 V1); lia|rewrite app_nil_r; reflexivity|].
    intros s2 (V2 & St2 & L2 & K2 & K2'). split; [rewrite app_nil_r; reflexivity|]. split; [exact V2|]. split; [exact (steady_trans _ _ _ St1 St2)|]. split; [exact L2|]. split; [auto|].
    intros Ix. destruct St1 as (Ei & _ & _). rewrite <- Ei. apply K2'. rewrite Ei. apply K1; [congruence|exact Ix].
Qed.
Lemma u_fm_insert s i f : inv s -> ~ In i (keys s) ->
  uses (osto s ++ ofile f) (fm_insert s i f) osto (fun s' => inv s' /\ steady s s' /\ keys s' = i :: keys s).
Proof.
  intros V Ni. unfold fm_insert.
  eapply (u_call _ (ofile f) (osto s)) with (S := osto) (I := fun s' => r_files s' = r_files s /\ steady s s').
  - destruct (r_len s <=? i); [|apply u_ret; [split; [reflexivity|apply steady_refl]|reflexivity]].
    destruct (negb (N.of_nat i <? 32767)%N); [apply u_abort|].
    eapply (u_call _ (osto (with_files s None (r_len s) (r_files s))) (om KMem (r_arr s))); [apply u_realloc|so; cbn [om]; perm|].
    intros a _. apply u_ret; [split; [reflexivity|split; [reflexivity|split; [reflexivity|auto]]]|so; cbn [om]; perm].
  - reflexivity.
  - intros s1 (E1 & St1). rewrite (proj2 (ffind_none i (r_files s1))) by (rewrite E1; exact Ni).
    apply u_ret; [|so; rewrite E1; perm]. split; [|split].
    + unfold inv, keys. cbn [r_files with_files r_cur r_index map fst]. rewrite E1. destruct V as [Nd Cu]. split; [constructor; assumption|].
      destruct St1 as (Ei & Ec & _). rewrite Ei, Ec. intros c X. destruct (Cu c X) as [Y Z]. split; [exact Y|right; exact Z].
    + destruct St1 as (Ei & Ec & Eo). split; [exact Ei|]. split; [exact Ec|exact Eo].
    + unfold keys. cbn [r_files with_files map fst]. rewrite E1. reflexivity.
Qed.
Lemma u_open_file s i w : inv s ->
  uses (osto s) (open_file s i w) (fun r => osto (fst r)) (fun r => inv (fst r) /\ steady s (fst r) /\ (snd r = true -> In i (keys (fst r)))).
Proof.
  intros V. unfold open_file. destruct ((i =? 0) || (r_index s + 1 <? i)).
  { apply u_ret; [|reflexivity]. cbn [fst snd]. split; [exact V|]. split; [apply steady_refl|discriminate]. }
  destruct (ffind i (r_files s)) as [f|] eqn:Ef.
  { apply u_ret; [|reflexivity]. cbn [fst snd]. split; [exact V|]. split; [apply steady_refl|]. intros _. apply ffind_split in Ef. destruct Ef as (a & b & E & _). unfold keys. rewrite E, map_app. apply in_app_iff. right. left. reflexivity. }
  apply ffind_none in Ef. eapply (u_call _ (osto s) []); [apply (u_file_open (negb w))|reflexivity|]. intros [f|] _; cbn [oopt].
  2:{ apply u_ret; [|reflexivity]. cbn [fst snd]. split; [exact V|]. split; [apply steady_refl|discriminate]. }
  eapply (u_call _ (ofile f) (osto s)) with (S := osto) (I := fun s' => inv s' /\ steady s s' /\ forall j, In j (keys s') -> In j (keys s)).
  - destruct w; [|apply u_ret; [split; [exact V|split; [apply steady_refl|auto]]|reflexivity]].
    eapply u_end; [apply (u_evict (length (r_files s)) s V (le_n _))|rewrite app_nil_r; reflexivity|].
    intros s1 (V1 & St1 & _ & K & _). split; [rewrite app_nil_r; reflexivity|]. auto.
  - perm.
  - intros s1 (V1 & St1 & K1). assert (Ni : ~ In i (keys s1)) by (intros X; exact (Ef (K1 _ X))).
    eapply (u_call _ [] (osto s1 ++ ofile f)); [apply (u_fm_insert s1 i f V1 Ni)|rewrite app_nil_r; reflexivity|].
    intros s2 (V2 & St2 & K2). apply u_ret; [|rewrite app_nil_r; reflexivity]. cbn [fst snd]. split; [exact V2|]. split; [exact (steady_trans _ _ _ St1 St2)|]. intros _. rewrite K2. left. reflexivity.
Qed.

(** Lifting to states in which other things are held too. *)
Notation keeps s := (fun r => inv (fst r) /\ steady s (fst r)).
Ltac same := rewrite app_nil_r; reflexivity.
Lemma u_store_read s i : inv s -> uses (osto s) (store_read s i) (fun r => osto (fst r)) (keeps s).
Proof.
  intros V. unfold store_read. eapply (u_call _ [] (osto s)); [apply (u_open_file s i false V)|same|].
  intros [s1 ok] (V1 & St1 & _). cbn [fst snd] in *. rewrite app_nil_r. destruct ok; cbn [negb].
  - eapply (u_call _ (osto s1) []); [apply u_asked|reflexivity|]. intros ok _. apply u_ret; [auto|reflexivity].
  - apply u_ret; [auto|reflexivity].
Qed.
Lemma fset_keys i g : forall l, map fst (fset i g l) = map fst l.
Proof. induction l as [|[j f] l IH]; cbn [fset]; [reflexivity|]. destruct (Nat.eqb_spec i j); cbn [map fst]; congruence. Qed.
(** Writing may move on to the next file: the index is not steady. *)
Notation moves s := (fun r => inv (fst r) /\ (r_offs s <> None -> r_offs (fst r) <> None)).
Lemma u_store_write s : inv s -> uses (osto s) (store_write s) (fun r => osto (fst r)) (moves s).
Proof.
  intros V. unfold store_write. eapply (u_call _ (osto s) []); [apply u_asked|reflexivity|]. intros stay _. cbn [app].
  eapply (u_call _ [] (osto s)) with (S := fun r => osto (fst r)) (I := moves s).
  - destruct stay. { apply u_ret; [auto|reflexivity]. }
    eapply (u_call _ [] (osto s)); [apply (u_open_file s (r_index s + 1) true V)|same|].
    intros [s1 ok] (V1 & (Ei1 & Ec1 & Eo1) & K1). cbn [fst snd] in *. rewrite app_nil_r. destruct ok; cbn [negb]; [|apply u_ret; [auto|reflexivity]].
    specialize (K1 eq_refl). eapply (u_call _ (osto s1) []); [apply u_asked|reflexivity|]. intros sync _. cbn [app].
    destruct sync; cbn [negb]; [|apply u_ret; [auto|reflexivity]].
    (* close_file of the current file *)
    unfold close_file. destruct (ffind (r_index s1) (r_files s1)) as [f|] eqn:Ef.
    + pose proof Ef as Ef'. apply ffind_split in Ef. destruct Ef as (a & b & E & Na).
      cbn zeta. rewrite E, fdel_split by exact Na. set (q := with_files s1 (r_arr s1) (r_len s1) (a ++ b)).
      assert (Q : forall (t : bool), osto (if t then with_current q 0 None else q) = osto q /\ r_offs (if t then with_current q 0 None else q) = r_offs s1 /\ r_files (if t then with_current q 0 None else q) = a ++ b) by (intros []; auto).
      destruct (Q (match r_cur q with Some c => c =? r_index s1 | None => false end)) as (Q1 & Q2 & Q3).
      set (q' := if match r_cur q with Some c => c =? r_index s1 | None => false end then with_current q 0 None else q) in *. clearbody q'.
      eapply (u_call _ [] (osto s1)) with (S := osto) (I := fun z => z = q').
      { eapply (u_call _ (osto q) (ofile f)); [apply u_file_close|unfold q; so; rewrite E; perm|]. intros x _. apply u_ret; [reflexivity|rewrite Q1; reflexivity]. }
      { same. }
      intros z ->. rewrite app_nil_r. apply u_ret; [|reflexivity]. cbn [fst]. split; [|cbn [r_offs with_current]; rewrite Q2; auto].
      unfold inv, keys. cbn [r_files with_current r_cur r_index]. rewrite Q3. destruct V1 as [Nd _]. unfold keys in Nd, K1. rewrite E in Nd, K1.
      rewrite map_app in Nd, K1 |- *. cbn [map fst] in Nd, K1. split; [exact (NoDup_remove_1 _ _ _ Nd)|]. intros c X. injection X as <-. split; [reflexivity|].
      apply in_app_iff in K1. apply in_app_iff. destruct K1 as [Y|[Y|Y]]; [left; exact Y|lia|right; exact Y].
    + eapply (u_call _ [] (osto s1)) with (S := osto) (I := fun z => z = s1); [apply u_ret; reflexivity|same|].
      intros z ->. rewrite app_nil_r. apply u_ret; [|reflexivity]. cbn [fst]. split; [|cbn [r_offs with_current]; auto].
      unfold inv, keys in *. cbn [r_files with_current r_cur r_index]. split; [exact (proj1 V1)|]. intros c X. injection X as <-. split; [reflexivity|exact K1].
  - same.
  - intros [s1 ok] (V1 & Eo1). cbn [fst snd] in *. rewrite app_nil_r. destruct ok; cbn [negb]; [|apply u_ret; [auto|reflexivity]].
    destruct (r_cur s1) as [c|] eqn:Ec; [|apply u_ret; [auto|reflexivity]]. destruct (proj2 V1 c Ec) as [_ Ik].
    destruct (ffind c (r_files s1)) as [f|] eqn:Ef. 2:{ exfalso. apply (proj1 (ffind_none _ _) Ef Ik). }
    apply ffind_split in Ef. destruct Ef as (a & b & E & Na).
    eapply (u_call _ (osto (with_files s1 (r_arr s1) (r_len s1) (a ++ b))) (ofile f)); [apply u_file_write|so; rewrite E; perm|].
    intros [f' ok] _. cbn [fst]. apply u_ret.
    + cbn [fst]. split; [|exact Eo1]. unfold inv, keys in *. cbn [r_files with_files r_cur r_index]. rewrite fset_keys. exact V1.
    + cbn [fst]. so. rewrite E, fset_split by exact Na. perm.
Qed.

(** Each step below keeps the invariant: [nx_ L] continues with the store [L] leaves. *)
Ltac q_ := match goal with |- uses ?P _ _ _ => eapply (u_call P P []) end; [first [apply u_asked|apply u_ask]|reflexivity|]; let a := fresh "ans" in intros a _; cbn [app].
Lemma u_slab_write s : inv s -> uses (osto s) (slab_write s) osto (fun s' => inv s' /\ r_offs s' <> None).
Proof.
  intros V. unfold slab_write.
  eapply (u_call _ [] (osto s)) with (S := osto) (I := fun s' => inv s' /\ r_offs s' <> None).
  { destruct (r_offs s) as [o|] eqn:Eo; [apply u_ret; [split; [exact V|congruence]|reflexivity]|].
    eapply (u_call _ (osto s) []); [apply u_checked|reflexivity|]. intros o _. apply u_ret; [split; [exact V|discriminate]|so; rewrite Eo; cbn [om]; perm]. }
  { same. }
  intros s1 (V1 & N1). rewrite app_nil_r. q_.
  eapply (u_call _ [] (osto s1)) with (S := osto) (I := fun s' => inv s' /\ r_offs s' <> None).
  { destruct ans; [apply u_ret; [auto|reflexivity]|].
    eapply (u_call _ (osto (with_slab s1 (r_data s1) None)) (om KMem (r_offs s1))); [apply u_realloc|so; cbn [om]; perm|]. intros o _. apply u_ret; [split; [exact V1|discriminate]|so; cbn [om]; perm]. }
  { same. }
  intros s2 (V2 & N2). rewrite app_nil_r. q_. destruct ans0; [apply u_ret; [auto|reflexivity]|].
  eapply (u_call _ (osto (with_slab s2 None (r_offs s2))) (om KMem (r_data s2))); [apply u_realloc|so; cbn [om]; perm|]. intros o _. apply u_ret; [split; [exact V2|exact N2]|so; cbn [om]; perm].
Qed.
Notation good := (fun r => inv (fst r)).
Lemma u_flush_loop : forall n s, inv s -> uses (osto s) (flush_loop n s) (fun r => osto (fst r)) (moves s).
Proof.
  induction n as [|n IH]; intros s V; cbn [flush_loop]. { apply u_ret; [auto|reflexivity]. }
  eapply (u_call _ [] (osto s)); [apply (u_store_write s V)|same|]. intros [s1 ok] (V1 & O1). cbn [fst snd] in *. rewrite app_nil_r.
  destruct ok; cbn [negb]; [|apply u_ret; [auto|reflexivity]].
  eapply u_end; [apply (IH s1 V1)|same|]. intros [s2 ok] (V2 & O2). cbn [fst] in *. split; [same|auto].
Qed.
Lemma u_flush s : inv s -> r_offs s <> None -> uses (osto s) (flush s) (fun r => osto (fst r)) (moves s).
Proof.
  intros V O. unfold flush. destruct (r_offs s) as [o|] eqn:Eo; [|congruence].
  eapply (u_call _ (osto (with_slab s (r_data s) None)) [(o, KMem)]); [apply (u_touch KMem o)|so; rewrite Eo; cbn [om]; perm|]. intros x _.
  q_. eapply u_end; [apply (u_flush_loop ans s V)|instantiate (1 := []); so; rewrite Eo; cbn [om]; perm|]. intros [s2 ok] (V2 & O2). cbn [fst] in *. split; [same|]. split; [exact V2|]. rewrite <- Eo. auto.
Qed.
Lemma u_cache_insert s : inv s -> uses (osto s) (cache_insert s) osto (fun s' => inv s' /\ steady s s').
Proof.
  intros V. unfold cache_insert. eapply (u_call _ (osto s) []); [apply u_checked|reflexivity|]. intros v _.
  eapply (u_call _ (osto s ++ [(v, KMem)]) []); [apply u_asked|perm|]. intros fits _. cbn [app].
  eapply (u_call _ [(v, KMem)] (osto s)) with (S := osto) (I := fun s' => inv s' /\ steady s s').
  { destruct fits; [apply u_ret; [split; [exact V|apply steady_refl]|reflexivity]|].
    eapply (u_call _ (osto (with_cache s None (r_nodes s))) (om KMem (r_tabs s))); [apply u_realloc|so; cbn [om]; perm|]. intros t _. apply u_ret; [split; [exact V|split; [reflexivity|split; [reflexivity|auto]]]|so; cbn [om]; perm]. }
  { reflexivity. }
  intros s1 (V1 & St1). eapply (u_call _ (osto s1 ++ [(v, KMem)]) []); [apply u_asked|reflexivity|]. intros new _. cbn [app]. destruct new.
  - apply u_ret; [split; [exact V1|exact St1]|]. so. cbn [mem map]. fold (mem (r_nodes s1)). perm.
  - eapply (u_call _ (osto s1) [(v, KMem)]); [apply (u_release KMem v)|perm|]. intros x _. apply u_ret; [auto|perm].
Qed.
Lemma u_read_root s : inv s -> uses (osto s) (read_root s) (fun r => osto (fst r)) (keeps s).
Proof.
  intros V. unfold read_root. q_. destruct ans; cbn [negb]; [|apply u_ret; [split; [exact V|apply steady_refl]|reflexivity]]. q_.
  eapply (u_call _ [] (osto s)); [apply (u_store_read s ans V)|same|]. intros [s1 ok] (V1 & St1). cbn [fst snd] in *. rewrite app_nil_r.
  q_. destruct (negb (ok && ans0)); [apply u_ret; [auto|reflexivity]|]. q_.
  eapply (u_call _ [] (osto s1)) with (S := fun r => osto (fst r)) (I := keeps s1).
  { destruct ans1; [apply u_ret; [split; [exact V1|apply steady_refl]|reflexivity]|]. q_. apply (u_store_read s1 ans1 V1). }
  { same. }
  intros [s2 ok2] (V2 & St2). cbn [fst snd] in *. rewrite app_nil_r. pose proof (steady_trans _ _ _ St1 St2) as St. destruct ok2; cbn [negb]; [|apply u_ret; [auto|reflexivity]].
  eapply (u_call _ [] (osto s2)); [apply (u_cache_insert s2 V2)|same|]. intros s3 (V3 & St3). apply u_ret; [|same]. split; [exact V3|exact (steady_trans _ _ _ St St3)].
Qed.
Lemma u_history_loop : forall n s, inv s -> uses (osto s) (history_loop n s) (fun r => osto (fst r)) good.
Proof.
  induction n as [|n IH]; intros s V; cbn [history_loop]. { q_. apply u_ret; [exact V|reflexivity]. }
  q_. eapply (u_call _ [] (osto s)); [apply (u_store_read s ans V)|same|]. intros [s1 ok] (V1 & _). cbn [fst snd] in *. rewrite app_nil_r.
  q_. destruct (negb (ok && ans0)); [apply u_ret; [auto|reflexivity]|].
  eapply (u_call _ [] (osto s1)); [apply (u_read_root s1 V1)|same|]. intros [s2 ok2] (V2 & _). cbn [fst snd] in *. rewrite app_nil_r.
  destruct ok2; cbn [negb]; [|apply u_ret; [auto|reflexivity]]. apply (IH s2 V2).
Qed.
Lemma u_read_history s : inv s -> uses (osto s) (read_history s) (fun r => osto (fst r)) good.
Proof. intros V. unfold read_history. q_. apply u_history_loop, V. Qed.
Lemma u_write_loop : forall n s, inv s -> uses (osto s) (write_loop n s) (fun r => osto (fst r)) good.
Proof.
  induction n as [|n IH]; intros s V; cbn [write_loop]. { apply u_ret; [exact V|reflexivity]. }
  eapply (u_call _ [] (osto s)); [apply (u_slab_write s V)|same|]. intros s1 (V1 & O1). rewrite app_nil_r. q_.
  eapply (u_call _ [] (osto s1)) with (S := fun r => osto (fst r)) (I := moves s1).
  { destruct ans; [apply u_ret; [auto|reflexivity]|apply (u_flush s1 V1 O1)]. }
  { same. }
  intros [s2 ok] (V2 & O2). cbn [fst snd] in *. rewrite app_nil_r. destruct ok; cbn [negb]; [apply (IH s2 V2)|apply u_ret; [exact V2|reflexivity]].
Qed.
Lemma u_store_commit s : inv s -> uses (osto s) (store_commit s) (fun r => osto (fst r)) good.
Proof.
  intros V. unfold store_commit. q_. eapply (u_call _ [] (osto s)); [apply (u_write_loop ans s V)|same|]. intros [s1 ok] V1. cbn [fst snd] in *. rewrite app_nil_r.
  destruct ok; cbn [negb]; [|apply u_ret; [exact V1|reflexivity]]. q_.
  eapply (u_call _ [] (osto s1)) with (S := osto) (I := inv).
  { destruct ans0; [apply u_ret; [exact V1|reflexivity]|]. eapply u_end; [apply (u_slab_write s1 V1)|same|]. intros s2 (V2 & _). split; [same|exact V2]. }
  { same. }
  intros s2 V2. rewrite app_nil_r. eapply (u_call _ [] (osto s2)); [apply (u_slab_write s2 V2)|same|]. intros s3 (V3 & O3). rewrite app_nil_r.
  eapply (u_call _ [] (osto s3)); [apply (u_flush s3 V3 O3)|same|]. intros [s4 ok] (V4 & _). cbn [fst snd] in *. rewrite app_nil_r.
  destruct ok; cbn [negb]; [|apply u_ret; [exact V4|reflexivity]]. q_. destruct ans1; cbn [negb]; [|apply u_ret; [exact V4|reflexivity]]. q_.
  eapply (u_call _ [] (osto s4)) with (S := osto) (I := inv).
  { destruct ans1; [|apply u_ret; [exact V4|reflexivity]]. eapply u_end; [apply (u_cache_insert s4 V4)|same|]. intros s5 (V5 & _). split; [same|exact V5]. }
  { same. }
  intros s5 V5. rewrite app_nil_r. eapply (u_call _ [] (osto s5)); [apply (u_evict (length (r_files s5)) s5 V5 (le_n _))|same|]. intros s6 (V6 & _). apply u_ret; [exact V6|same].
Qed.
Lemma u_reads_loop : forall n s, inv s -> uses (osto s) (reads_loop n s) osto inv.
Proof.
  induction n as [|n IH]; intros s V; cbn [reads_loop]. { apply u_ret; [exact V|reflexivity]. }
  q_. eapply (u_call _ [] (osto s)); [apply (u_store_read s ans V)|same|]. intros [s1 ok] (V1 & _). cbn [fst snd] in *. rewrite app_nil_r. apply (IH s1 V1).
Qed.
Lemma u_reads s : inv s -> uses (osto s) (reads s) osto inv.
Proof. intros V. unfold reads. q_. apply u_reads_loop, V. Qed.

Lemma u_close_all : forall l, uses (ofiles l) (close_all l) none any.
Proof.
  induction l as [|[i f] l IH]; cbn [close_all]; [fin|]. eapply (u_call _ (ofiles l) (ofile f)); [apply u_file_close|reflexivity|]. intros x _. exact IH.
Qed.
Lemma u_store_clear s : uses (osto s) (store_clear s) none any.
Proof.
  unfold store_clear, osto. st (u_free_opt (r_data s)). st (u_free_opt (r_offs s)). st (u_close_all (r_files s)). st (u_free_opt (r_arr s)).
  st (u_release KSync (r_fm s)). st (u_free_all (r_nodes s)). st (u_free_opt (r_tabs s)). st (u_release KMem (r_map s)). st (u_release KFd (r_lock s)). st u_asked. fin.
Qed.
Definition ival (r : option rsto) : Prop := match r with Some s => inv s | None => True end.
Lemma u_store_init : uses [] store_init (oopt osto) ival.
Proof.
  unfold store_init. st u_init_prefix. destruct a; cbn [negb]; [|apply u_ret; [exact I|reflexivity]]. st u_init_meta. destruct a; cbn [negb]; [|apply u_ret; [exact I|reflexivity]].
  st u_find_index. destruct a as [index|]; [|apply u_ret; [exact I|reflexivity]]. st u_open_lock. destruct a as [lock|]; cbn [om]; [|apply u_ret; [exact I|reflexivity]].
  st (u_recover_state index). destruct a as [ix|]; [|st (u_release KFd lock); apply u_ret; [exact I|reflexivity]].
  st u_sync. st u_checked. st u_random_bytes. cbn zeta. set (s := mkrs lock None None None 0 [] a a0 None [] ix None).
  assert (V : inv s) by (split; [constructor|discriminate]).
  eapply (u_call _ [] (osto s)); [apply (u_open_file s ix true V)|unfold s; so; cbn [om ofiles map concat mem]; perm|]. intros [s1 ok] (V1 & (Ei1 & _) & K1). cbn [fst snd] in *. rewrite app_nil_r.
  destruct ok; cbn [negb].
  2:{ eapply (u_call _ [] (osto s1)); [apply u_store_clear|same|]. intros x _. apply u_ret; [exact I|reflexivity]. }
  cbn zeta. set (s2 := with_current s1 ix (Some ix)). assert (V2 : inv s2) by (split; [exact (proj1 V1)|]; intros c X; injection X as <-; split; [reflexivity|exact (K1 eq_refl)]).
  eapply (u_call _ [] (osto s2)); [apply (u_read_root s2 V2)|same|]. intros [s3 ok] (V3 & _). cbn [fst snd] in *. rewrite app_nil_r.
  destruct ok; cbn [negb]; [apply u_ret; [exact V3|reflexivity]|].
  eapply (u_call _ [] (osto s3)); [apply u_store_clear|same|]. intros x _. apply u_ret; [exact I|reflexivity].
Qed.

(** ** Databases, transactions, iterators, proofs. *)
Definition otx (t : rtx) : list rsc := [(fst t, KMem); (snd t, KSync)].
Definition oit (x : rit) : list rsc := [(fst (fst x), KMem); (snd (fst x), KSync)] ++ oopt otx (snd x).
Definition oout (p : nat) : list rsc := [(p, KMem)].
Definition oall {A} (o : A -> list rsc) (l : list (option A)) : list rsc := concat (map (oopt o) l).
(** What the caller was given and has not destroyed. *)
Definition handed (d : rdb) : list rsc := oall otx (d_txs d) ++ oall oit (d_its d) ++ oall oout (d_outs d).
Definition odb (d : rdb) : list rsc := [(d_mem d, KMem)] ++ [(d_lock d, KSync)] ++ [(d_smem d, KMem)] ++ osto (d_sto d).
Definition dinv (d : rdb) : Prop := inv (d_sto d).
Lemma oall_app {A} (o : A -> list rsc) a b : oall o (a ++ b) = oall o a ++ oall o b.
Proof. unfold oall. rewrite map_app. apply concat_app. Qed.
Lemma oall_cons {A} (o : A -> list rsc) x b : oall o (x :: b) = oopt o x ++ oall o b.
Proof. reflexivity. Qed.
Lemma oall_nil {A} (o : A -> list rsc) : oall o [] = [].
Proof. reflexivity. Qed.
Lemma oopt_some {A} (o : A -> list rsc) x : oopt o (Some x) = o x.
Proof. reflexivity. Qed.
Lemma oopt_none {A} (o : A -> list rsc) : oopt o None = [].
Proof. reflexivity. Qed.
Lemma otx_eq t : otx t = [(fst t, KMem); (snd t, KSync)].
Proof. reflexivity. Qed.
Lemma oit_eq x : oit x = [(fst (fst x), KMem); (snd (fst x), KSync)] ++ oopt otx (snd x).
Proof. reflexivity. Qed.
Lemma oout_eq p : oout p = [(p, KMem)].
Proof. reflexivity. Qed.
#[export] Hint Rewrite @oall_app @oall_cons @oall_nil @oopt_some @oopt_none otx_eq oit_eq oout_eq : cnt.
Lemma nth_split_opt {A} : forall (l : list (option A)) i t, nth i l None = Some t -> exists a b, l = a ++ Some t :: b /\ upd l i None = a ++ None :: b.
Proof.
  induction l as [|x l IH]; intros [|i] t E; cbn [nth] in E; try discriminate.
  - subst x. exists [], l. auto.
  - destruct (IH i t E) as (a & b & E1 & E2). exists (x :: a), b. cbn [upd app]. split; [rewrite E1 at 1; reflexivity|]. rewrite E2. reflexivity.
Qed.
Lemma u_tx_create s old : inv s -> uses (osto s) (tx_create s old) (fun r => osto (fst r) ++ oopt otx (snd r)) good.
Proof.
  intros V. unfold tx_create. eapply (u_call _ (osto s) []); [apply u_checked|reflexivity|]. intros t _.
  eapply (u_call _ [(t, KMem)] (osto s)) with (S := fun r => osto (fst r)) (I := good).
  { destruct old; [apply u_read_history, V|apply u_ret; [exact V|reflexivity]]. }
  { perm. }
  intros [s1 ok] V1. cbn [fst snd] in *. eapply (u_call _ (osto s1 ++ [(t, KMem)]) []); [apply u_sync|reflexivity|]. intros l _.
  destruct ok; cbn [negb]. { apply u_ret; [exact V1|]. cbn [fst snd oopt]. unfold otx. cbn [fst snd]. perm. }
  eapply (u_call _ (osto s1 ++ [(t, KMem)]) [(l, KSync)]); [apply u_release|perm|]. intros x _.
  eapply (u_call _ (osto s1) [(t, KMem)]); [apply u_release|perm|]. intros y _. apply u_ret; [exact V1|cbn [fst snd oopt]; perm].
Qed.
Lemma u_tx_destroy t : uses (otx t) (tx_destroy t) none any.
Proof. unfold tx_destroy, otx. st (u_touch KMem (fst t)). st (u_release KSync (snd t)). ends (u_release KMem (fst t)). split; [perm|exact I]. Qed.
Lemma u_iter_create own : uses (oopt otx own) (iter_create own) oit any.
Proof.
  unfold iter_create. eapply (u_call _ (oopt otx own) []); [apply u_checked|reflexivity|]. intros i _.
  eapply (u_call _ ([(i, KMem)] ++ oopt otx own) []); [apply u_sync|reflexivity|]. intros m _. apply u_ret; [exact I|]. unfold oit. cbn [fst snd]. perm.
Qed.
Lemma u_iter_destroy x : uses (oit x) (iter_destroy x) none any.
Proof.
  destruct x as [[i m] own]. unfold iter_destroy, oit. cbn [fst snd].
  eapply (u_call _ ([(m, KSync)] ++ oopt otx own) [(i, KMem)]); [apply u_touch|perm|]. intros x _.
  eapply (u_call _ ([(m, KSync)] ++ [(i, KMem)]) (oopt otx own)) with (S := none) (I := any).
  { destruct own as [t|]; [apply u_tx_destroy|apply u_ret; [exact I|reflexivity]]. }
  { perm. }
  intros y _. cbn [app]. st (u_release KSync m). ends (u_release KMem i). split; [perm|exact I].
Qed.
Lemma u_prove_out : uses [] prove_out (oopt oout) any.
Proof. unfold prove_out. st u_asked. destruct a; [|fin]. st u_checked. apply u_ret; [exact I|reflexivity]. Qed.
Lemma u_open : uses [] r_open (fun r => match r with inl t => [(t, KMem)] | inr d => odb d end) (fun r => match r with inl _ => True | inr d => dinv d /\ handed d = [] end).
Proof.
  unfold r_open. st u_checked.
  unfold store_open. eapply (u_call _ [(a, KMem)] []) with (S := oopt (fun x => (fst x, KMem) :: osto (snd x))) (I := fun r => ival (option_map snd r)).
  { st u_checked. eapply (u_call _ [(a0, KMem)] []); [apply u_store_init|perm|]. intros [s|] V; cbn [oopt].
    - apply u_ret; [exact V|]. cbn [oopt fst snd]. perm.
    - st (u_release KMem a0). apply u_ret; [exact I|reflexivity]. }
  { perm. }
  intros [[p s]|] V; cbn [oopt fst snd].
  - eapply (u_call _ ((p, KMem) :: osto s ++ [(a, KMem)]) []); [apply u_sync|perm|]. intros l _. apply u_ret; [split; [exact V|reflexivity]|]. unfold odb. cbn [d_mem d_lock d_smem d_sto]. perm.
  - apply u_ret; [exact I|perm].
Qed.
Lemma u_close d : uses (odb d) (r_close d) none any.
Proof.
  unfold r_close, odb. st (u_touch KMem (d_mem d)).
  eapply (u_call _ ([(d_mem d, KMem)] ++ [(d_lock d, KSync)] ++ [(d_smem d, KMem)]) (osto (d_sto d))); [apply u_store_clear|perm|]. intros x _. cbn [app].
  st (u_release KMem (d_smem d)). st (u_release KSync (d_lock d)). ends (u_release KMem (d_mem d)). split; [perm|exact I].
Qed.
Definition whole (d : rdb) : list rsc := odb d ++ handed d.
(** Everything but the store. *)
Definition beside (d : rdb) : list rsc := [(d_mem d, KMem)] ++ [(d_lock d, KSync)] ++ [(d_smem d, KMem)] ++ handed d.
Lemma whole_sto d : Permutation (whole d) (osto (d_sto d) ++ beside d).
Proof. unfold whole, beside, odb. perm. Qed.
Lemma sto_whole d s X : Permutation X (osto s ++ beside d) -> Permutation X (whole (with_sto d s)).
Proof. intros E. rewrite E. unfold whole, beside, odb, handed. cbn [d_mem d_lock d_smem d_sto d_txs d_its d_outs with_sto]. perm. Qed.
Lemma handed_txs d l : handed (with_txs d l) = oall otx l ++ oall oit (d_its d) ++ oall oout (d_outs d).
Proof. reflexivity. Qed.
Lemma handed_its d l : handed (with_its d l) = oall otx (d_txs d) ++ oall oit l ++ oall oout (d_outs d).
Proof. reflexivity. Qed.
Lemma handed_outs d l : handed (with_outs d l) = oall otx (d_txs d) ++ oall oit (d_its d) ++ oall oout l.
Proof. reflexivity. Qed.
Ltac dd := unfold whole, odb, beside, handed in *; cbn [d_mem d_lock d_smem d_sto d_txs d_its d_outs with_sto with_txs with_its with_outs] in *.
Ltac fini V := apply u_ret; [exact V|try (dd; cbn [oopt]; perm)].
Lemma u_touch_tx d i t : nth i (d_txs d) None = Some t -> uses (whole d) (touch KMem (fst t)) (fun _ => whole d) any.
Proof.
  intros E. destruct (nth_split_opt _ _ _ E) as (a & b & E1 & _).
  eapply (u_end _ (odb d ++ [(snd t, KSync)] ++ oall otx (a ++ b) ++ oall oit (d_its d) ++ oall oout (d_outs d)) [(fst t, KMem)]); [apply u_touch|dd; rewrite E1; perm|].
  intros x _. split; [|exact I]. dd. rewrite E1. perm.
Qed.
Lemma u_touch_it d j x : nth j (d_its d) None = Some x -> uses (whole d) (touch KMem (fst (fst x))) (fun _ => whole d) any.
Proof.
  intros E. destruct (nth_split_opt _ _ _ E) as (a & b & E1 & _).
  eapply (u_end _ (odb d ++ [(snd (fst x), KSync)] ++ oopt otx (snd x) ++ oall otx (d_txs d) ++ oall oit (a ++ b) ++ oall oout (d_outs d)) [(fst (fst x), KMem)]); [apply u_touch|dd; rewrite E1; perm|].
  intros y _. split; [|exact I]. dd. rewrite E1. perm.
Qed.
Lemma u_sto {A B} d (m : M A) (T : A -> list rsc) I0 (f : A -> M B) (K : B -> list rsc) J :
  uses (osto (d_sto d)) m T I0 -> (forall a, I0 a -> uses (T a ++ beside d) (f a) K J) -> uses (whole d) (mbind m f) K J.
Proof. intros X Y. eapply u_call; [exact X|apply whole_sto|exact Y]. Qed.
Lemma u_q {A B} P (m : M A) (f : A -> M B) K J : uses [] m none any -> (forall a, uses P (f a) K J) -> uses P (mbind m f) K J.
Proof. intros X Y. eapply (u_call P P []); [exact X|reflexivity|]. intros a _. apply Y. Qed.
Lemma u_call_ok d c : dinv d -> uses (whole d) (r_call d c) whole dinv.
Proof.
  intros V. unfold dinv in V. destruct c as [old|old| | |old|old|i|i|i|i|i|i|j|j|k]; cbn [r_call].
  - eapply u_sto; [apply (u_tx_create _ old V)|]. intros [s [t|]] V1; cbn [fst snd oopt] in *.
    2:{ apply u_ret; [exact V1|apply sto_whole; perm]. }
    eapply (u_call _ (otx t ++ beside d) (osto s)); [apply (u_reads s V1)|perm|]. intros s1 V2.
    eapply (u_call _ (osto s1 ++ beside d) (otx t)); [apply u_tx_destroy|perm|]. intros x _. apply u_ret; [exact V2|apply sto_whole; perm].
  - eapply u_sto; [apply (u_tx_create _ old V)|]. intros [s [t|]] V1; cbn [fst snd oopt] in *.
    2:{ apply u_ret; [exact V1|apply sto_whole; perm]. }
    eapply (u_call _ (otx t ++ beside d) (osto s)); [apply (u_reads s V1)|perm|]. intros s1 V2.
    eapply (u_call _ (osto s1 ++ otx t ++ beside d) []); [apply u_prove_out|reflexivity|]. intros p _.
    eapply (u_call _ (osto s1 ++ oopt oout p ++ beside d) (otx t)); [apply u_tx_destroy|perm|]. intros x _. apply u_ret; [exact V2|]. dd. perm.
  - eapply (u_call (whole d) (whole d) []); [apply u_asked|reflexivity|]. intros old _. cbn [app].
    eapply u_sto; [apply (u_tx_create _ old V)|]. intros [s [t|]] V1; cbn [fst snd oopt] in *.
    2:{ apply u_ret; [exact V1|apply sto_whole; perm]. }
    eapply (u_call _ (otx t ++ beside d) (osto s)); [apply (u_reads s V1)|perm|]. intros s1 V2. apply u_q; [apply u_asked|]. intros ok.
    eapply (u_call _ (otx t ++ beside d) (osto s1)) with (S := osto) (I := inv).
    { destruct ok; [|apply u_ret; [exact V2|reflexivity]]. eapply (u_call _ [] (osto s1)); [apply (u_store_commit s1 V2)|same|]. intros [s2 b] V3. cbn [fst] in *. apply u_ret; [exact V3|same]. }
    { reflexivity. }
    intros s2 V3. eapply (u_call _ (osto s2 ++ beside d) (otx t)); [apply u_tx_destroy|perm|]. intros x _. apply u_ret; [exact V3|apply sto_whole; perm].
  - eapply u_sto; [apply (u_read_history _ V)|]. intros [s b] V1. cbn [fst snd] in *. apply u_ret; [exact V1|apply sto_whole; reflexivity].
  - eapply u_sto; [apply (u_tx_create _ old V)|]. intros [s [t|]] V1; cbn [fst snd oopt] in *.
    2:{ apply u_ret; [exact V1|apply sto_whole; perm]. }
    eapply (u_call _ (osto s ++ beside d) (oopt otx (Some t))); [apply u_iter_create|perm|]. intros x _. apply u_ret; [exact V1|]. dd. perm.
  - eapply u_sto; [apply (u_tx_create _ old V)|]. intros [s t] V1; cbn [fst snd] in *. apply u_ret; [exact V1|]. dd. perm.
  - destruct (nth i (d_txs d) None) as [t|] eqn:E; [|apply u_ret; [exact V|reflexivity]]. destruct (nth_split_opt _ _ _ E) as (a & b & E1 & E2).
    eapply (u_call _ (whole (with_txs d (upd (d_txs d) i None))) (otx t)); [apply u_tx_destroy|rewrite E2; dd; rewrite E1; perm|]. intros x _. apply u_ret; [exact V|reflexivity].
  - destruct (nth i (d_txs d) None) as [t|] eqn:E; [|apply u_ret; [exact V|reflexivity]].
    eapply (u_call _ [] (whole d)); [apply (u_touch_tx d i t E)|same|]. intros x _. rewrite app_nil_r.
    eapply u_sto; [apply (u_reads _ V)|]. intros s V1. apply u_ret; [exact V1|apply sto_whole; reflexivity].
  - destruct (nth i (d_txs d) None) as [t|] eqn:E; [|apply u_ret; [exact V|reflexivity]].
    eapply (u_call _ [] (whole d)); [apply (u_touch_tx d i t E)|same|]. intros x _. rewrite app_nil_r.
    eapply u_sto; [apply (u_reads _ V)|]. intros s V1.
    eapply (u_call _ (osto s ++ beside d) []); [apply u_prove_out|reflexivity|]. intros p _. apply u_ret; [exact V1|]. dd. perm.
  - destruct (nth i (d_txs d) None) as [t|] eqn:E; [|apply u_ret; [exact V|reflexivity]].
    eapply (u_call _ [] (whole d)); [apply (u_touch_tx d i t E)|same|]. intros x _. rewrite app_nil_r.
    eapply u_sto; [apply (u_read_history _ V)|]. intros [s b] V1. cbn [fst snd] in *. apply u_ret; [exact V1|apply sto_whole; reflexivity].
  - destruct (nth i (d_txs d) None) as [t|] eqn:E; [|apply u_ret; [exact V|reflexivity]].
    eapply (u_call _ [] (whole d)); [apply (u_touch_tx d i t E)|same|]. intros x _. rewrite app_nil_r.
    eapply u_sto; [apply (u_store_commit _ V)|]. intros [s b] V1. cbn [fst snd] in *. apply u_ret; [exact V1|apply sto_whole; reflexivity].
  - destruct (nth i (d_txs d) None) as [t|] eqn:E; [|apply u_ret; [exact V|reflexivity]].
    eapply (u_call _ [] (whole d)); [apply (u_touch_tx d i t E)|same|]. intros x _. rewrite app_nil_r.
    eapply (u_call _ (whole d) []); [apply (u_iter_create None)|reflexivity|]. intros y _. apply u_ret; [exact V|]. dd. perm.
  - destruct (nth j (d_its d) None) as [t|] eqn:E; [|apply u_ret; [exact V|reflexivity]].
    eapply (u_call _ [] (whole d)); [apply (u_touch_it d j t E)|same|]. intros x _. rewrite app_nil_r.
    eapply u_sto; [apply (u_reads _ V)|]. intros s V1. apply u_ret; [exact V1|apply sto_whole; reflexivity].
  - destruct (nth j (d_its d) None) as [t|] eqn:E; [|apply u_ret; [exact V|reflexivity]]. destruct (nth_split_opt _ _ _ E) as (a & b & E1 & E2).
    eapply (u_call _ (whole (with_its d (upd (d_its d) j None))) (oit t)); [apply u_iter_destroy|rewrite E2; dd; rewrite E1; perm|]. intros x _. apply u_ret; [exact V|reflexivity].
  - destruct (nth k (d_outs d) None) as [t|] eqn:E; [|apply u_ret; [exact V|reflexivity]]. destruct (nth_split_opt _ _ _ E) as (a & b & E1 & E2).
    eapply (u_call _ (whole (with_outs d (upd (d_outs d) k None))) [(t, KMem)]); [apply u_release|rewrite E2; dd; rewrite E1; perm|]. intros x _. apply u_ret; [exact V|reflexivity].
Qed.
Lemma u_calls : forall cs d, dinv d -> uses (whole d) (r_calls d cs) whole dinv.
Proof.
  induction cs as [|c cs IH]; intros d V; cbn [r_calls]. { apply u_ret; [exact V|reflexivity]. }
  eapply (u_call _ [] (whole d)); [apply (u_call_ok d c V)|same|]. intros d1 V1. rewrite app_nil_r. apply (IH d1 V1).
Qed.

(** ** C59. *)
(** urkel_open, any calls, urkel_close. *)
Definition session (cs : list rcall) : M (nat + rdb) :=
  do! r := r_open in
  match r with
  | inl t => mret (inl t)
  | inr d => do! d := r_calls d cs in do! _ := r_close d in mret (inr d)
  end.
(** The blocks and locks of the transactions, iterators and proofs the caller has not given
    back: a transaction is a block and a lock; an iterator a block, a mutex and, if
    urkel_iterate made it, a transaction; a proof a block. *)
Definition tx_rsc (t : rtx) : list rsc := [(fst t, KMem); (snd t, KSync)].
Definition kept_by_caller (d : rdb) : list rsc :=
  flat_map (fun t => match t with Some t => tx_rsc t | None => [] end) (d_txs d) ++
  flat_map (fun x => match x with
                     | Some (i, m, own) => [(i, KMem); (m, KSync)] ++ match own with Some t => tx_rsc t | None => [] end
                     | None => [] end) (d_its d) ++
  flat_map (fun p => match p with Some p => [(p, KMem)] | None => [] end) (d_outs d).
Lemma kept_handed d : kept_by_caller d = handed d.
Proof.
  unfold kept_by_caller, handed, oall. rewrite !flat_map_concat_map. f_equal. apply (f_equal2 (@app rsc)); [apply (f_equal (@concat rsc)), map_ext; intros [[[i m] own]|]; reflexivity|reflexivity].
Qed.
Lemma u_session cs : uses [] (session cs) (fun r => match r with inl t => [(t, KMem)] | inr d => handed d end) any.
Proof.
  unfold session. eapply (u_call _ [] []); [apply u_open|reflexivity|]. intros [t|d] V; rewrite app_nil_r.
  - apply u_ret; [exact I|reflexivity].
  - destruct V as [V H0]. eapply (u_call _ [] (whole d)); [apply (u_calls cs d V)|unfold whole; rewrite H0, !app_nil_r; reflexivity|]. intros d1 _. rewrite app_nil_r. unfold whole.
    eapply (u_call _ (handed d1) (odb d1)); [apply u_close|reflexivity|]. intros x _. apply u_ret; [exact I|reflexivity].
Qed.
(** From urkel_open to urkel_close, whatever the system calls answer and whatever is called in
    between, nothing is released twice or used after its release, the eviction of files
    terminates, and at the end exactly what was held before is held, with what the caller has
    kept; if urkel_open fails, with one block more.  The process aborts only in the check of
    store.c 268 (more than 32766 data files).  Partial: no memory allocation fails. *)
Theorem C59_session_partial : forall cs h, memq h = [] ->
  session cs h = Abort \/
  exists r h', session cs h = Ok (r, h') /\
    match r with
    | inl t => Permutation (lv h') ((t, KMem) :: lv h)
    | inr d => Permutation (lv h') (kept_by_caller d ++ lv h)
    end.
Proof.
  intros cs h Z. destruct (u_session cs h (lv h) (Permutation_refl _) Z) as [E|(r & h' & E & _ & P & _)]; [left; exact E|]. right. exists r, h'. split; [exact E|].
  destruct r as [t|d]; [exact P|]. rewrite kept_handed. exact P.
Qed.
(** A caller who has given everything back has got rid of everything. *)
Theorem C59_nothing_kept_partial : forall cs h d h', memq h = [] -> session cs h = Ok (inr d, h') ->
  (forall x, In x (d_txs d) -> x = None) -> (forall x, In x (d_its d) -> x = None) -> (forall x, In x (d_outs d) -> x = None) ->
  Permutation (lv h') (lv h).
Proof.
  intros cs h d h' Z E A B C. destruct (C59_session_partial cs h Z) as [E'|(r & h2 & E' & P)]; rewrite E in E'; [discriminate|].
  injection E' as <- <-. enough (K : kept_by_caller d = []) by (rewrite K in P; exact P).
  unfold kept_by_caller.
  assert (Q : forall X (f : option X -> list rsc) l, f None = [] -> (forall x, In x l -> x = None) -> flat_map f l = []).
  { intros X f l F. induction l as [|x l IH]; intros N; cbn [flat_map]; [reflexivity|]. rewrite (N x (or_introl eq_refl)), F, IH; [reflexivity|]. intros y Iy. apply N. right. exact Iy. }
  rewrite !Q; auto.
Qed.
(** urkel_destroy leaves nothing behind. *)
Definition calm {A} (m : M A) : Prop := forall h, m h <> Abort.
Lemma calm_bind {A B} (m : M A) (f : A -> M B) : calm m -> (forall a, calm (f a)) -> calm (mbind m f).
Proof. intros X Y h. unfold mbind. specialize (X h). destruct (m h) as [[a h']|e| | |]; cbn [bind]; try discriminate; [apply Y|congruence]. Qed.
Lemma calm_ret {A} (a : A) : calm (mret a).
Proof. intros h. discriminate. Qed.
Lemma calm_asked : calm asked. Proof. intros h. discriminate. Qed.
Lemma calm_ask : calm ask. Proof. intros h. discriminate. Qed.
Lemma calm_grants : calm grants. Proof. intros h. discriminate. Qed.
Lemma calm_acquire k : calm (acquire k). Proof. intros h. discriminate. Qed.
Lemma calm_release k i : calm (release k i). Proof. intros h. unfold release. destruct (drop _ _); discriminate. Qed.
Lemma calm_touch k i : calm (touch k i). Proof. intros h. unfold touch. destruct (in_dec _ _ _); discriminate. Qed.
Lemma calm_ub {A} : calm (fun _ => @UB (A * rst)). Proof. intros h. discriminate. Qed.
Ltac quiet := repeat first [apply calm_ret|apply calm_asked|apply calm_ask|apply calm_grants|apply calm_acquire|apply calm_release|apply calm_touch|apply calm_ub|apply calm_bind; [|intros]|progress cbv beta zeta|
  match goal with |- calm (match ?x with _ => _ end) => destruct x end].
Lemma calm_free_all l : calm (free_all l).
Proof. induction l as [|i l IH]; cbn [free_all]; quiet. exact IH. Qed.
Lemma calm_scan_fail l items it d : calm (scan_fail l items it d).
Proof. unfold scan_fail, free_opt. quiet; apply calm_free_all. Qed.
Lemma calm_scan_loop d : forall n l size items, calm (scan_loop n l size items d).
Proof. induction n as [|n IH]; intros l size items; cbn [scan_loop]; unfold malloc; quiet; first [apply calm_scan_fail|apply calm_free_all|apply IH]. Qed.
Lemma calm_destroy : calm r_destroy.
Proof. unfold r_destroy, path_resolve, open_lock, scandir, fs_open, close_lock, fs_close, malloc. quiet; first [apply calm_scan_loop|apply calm_free_all]. Qed.
Theorem C59_destroy_partial : forall h, memq h = [] ->
  exists b h', r_destroy h = Ok (b, h') /\ Permutation (lv h') (lv h).
Proof. intros h Z. destruct (u_destroy h (lv h) (Permutation_refl _) Z) as [E|(b & h' & E & _ & P & _)]; [destruct (calm_destroy h E)|]. exists b, h'. auto. Qed.

(** The claim without the exceptions is false.  Every urkel_open that fails leaks a block
    (tree.c 591 returns without freeing it). *)
Fixpoint opens (n : nat) : M (list (nat + rdb)) :=
  match n with O => mret [] | S n => do! r := r_open in do! rs := opens n in mret (r :: rs) end.
Lemma bind_run {A B} (m : M A) (f : A -> M B) h a h' : m h = Ok (a, h') -> mbind m f h = f a h'.
Proof. intros E. unfold mbind. rewrite E. reflexivity. Qed.
Lemma drop_here r l : drop r (r :: l) = Some l.
Proof. cbn [drop]. destruct (rsc_dec r r); [reflexivity|congruence]. Qed.
Lemma run_malloc x l q : malloc (mkrst x l q []) = Ok (Some x, mkrst (Datatypes.S x) ((x, KMem) :: l) q []).
Proof. reflexivity. Qed.
Lemma run_checked x l q : checked_malloc (mkrst x l q []) = Ok (x, mkrst (Datatypes.S x) ((x, KMem) :: l) q []).
Proof. reflexivity. Qed.
Lemma run_asked x l q : asked (mkrst x l (1 :: q) []) = Ok (false, mkrst x l q []).
Proof. reflexivity. Qed.
Lemma run_release x i k l q : release k i (mkrst x ((i, k) :: l) q []) = Ok (tt, mkrst x l q []).
Proof. unfold release. cbn [lv]. rewrite drop_here. reflexivity. Qed.
Lemma resolve_fails x l q : path_resolve (mkrst x l (1 :: q) []) = Ok (None, mkrst (Datatypes.S x) l q []).
Proof.
  unfold path_resolve. rewrite (bind_run _ _ _ _ _ (run_malloc _ _ _)), (bind_run _ _ _ _ _ (run_asked _ _ _)). cbn [negb].
  rewrite (bind_run _ _ _ _ _ (run_release _ _ _ _ _)). reflexivity.
Qed.
Lemma init_fails x l q : store_init (mkrst x l (1 :: q) []) = Ok (None, mkrst (Datatypes.S x) l q []).
Proof.
  assert (E : init_prefix (mkrst x l (1 :: q) []) = Ok (false, mkrst (Datatypes.S x) l q [])).
  { unfold init_prefix. rewrite (bind_run _ _ _ _ _ (resolve_fails x l q)). reflexivity. }
  unfold store_init. rewrite (bind_run _ _ _ _ _ E). reflexivity.
Qed.
Lemma open_fails x l q : r_open (mkrst x l (1 :: q) []) = Ok (inl x, mkrst (Datatypes.S (Datatypes.S (Datatypes.S x))) ((x, KMem) :: l) q []).
Proof.
  assert (E : store_open (mkrst (Datatypes.S x) ((x, KMem) :: l) (1 :: q) []) = Ok (None, mkrst (Datatypes.S (Datatypes.S (Datatypes.S x))) ((x, KMem) :: l) q [])).
  { unfold store_open. rewrite (bind_run _ _ _ _ _ (run_checked _ _ _)), (bind_run _ _ _ _ _ (init_fails _ _ q)), (bind_run _ _ _ _ _ (run_release _ _ _ _ _)). reflexivity. }
  unfold r_open. rewrite (bind_run _ _ _ _ _ (run_checked _ _ _)), (bind_run _ _ _ _ _ E). reflexivity.
Qed.
Theorem C59_open_leak_refuted :
  (forall h t h', memq h = [] -> r_open h = Ok (inl t, h') -> Permutation (lv h') ((t, KMem) :: lv h)) /\
  (forall n h, memq h = [] -> sysq h = repeat 1 n ->
   exists leaked h', opens n h = Ok (map inl leaked, h') /\ length leaked = n /\ Permutation (lv h') (mem leaked ++ lv h)).
Proof.
  assert (A : forall h t h', memq h = [] -> r_open h = Ok (inl t, h') -> Permutation (lv h') ((t, KMem) :: lv h)).
  { intros h t h' Z E. destruct (u_open h (lv h) (Permutation_refl _) Z) as [E'|(r & h2 & E' & _ & P & _)]; rewrite E in E'; [discriminate|]. injection E' as <- <-. exact P. }
  split; [exact A|]. induction n as [|n IH]; intros h Z Q.
  - exists [], h. auto.
  - destruct h as [x l q m]. cbn [memq sysq] in Z, Q. subst m q. cbn [opens repeat].
    assert (E : exists l', r_open (mkrst x l (1 :: repeat 1 n) []) = Ok (inl x, mkrst (Datatypes.S (Datatypes.S (Datatypes.S x))) l' (repeat 1 n) [])).
    { eexists. apply open_fails. }
    destruct E as (l' & E). rewrite (bind_run _ _ _ _ _ E). pose proof (fun Z => A _ _ _ Z E) as P. specialize (P eq_refl). cbn [lv] in P.
    destruct (IH (mkrst (Datatypes.S (Datatypes.S (Datatypes.S x))) l' (repeat 1 n) []) eq_refl eq_refl) as (leaked & h' & E2 & L & P2). cbn [lv] in P2.
    rewrite (bind_run _ _ _ _ _ E2). exists (x :: leaked), h'. split; [reflexivity|]. split; [cbn [length]; congruence|]. cbn [mem map]. fold (mem leaked). cbn [lv]. rewrite P2, P. cbn [app]. symmetry. apply Permutation_middle.
Qed.
(** With failing allocations: urkel_destroy of a directory with nine or more entries
    dereferences a null pointer if the ninth makes realloc fail (io_posix.c 774, 835-841); and
    a failing realloc to a smaller block leaks the path (io_posix.c 1348-1351). *)
Theorem C59_no_memory_refuted :
  (forall n, r_destroy (mkrst 0 [] [0; 0; 0; 0; 0; 9 + n] (repeat 0 12 ++ [1])) = UB) /\
  r_destroy (mkrst 0 [] [] [0; 1]) = Ok (false, mkrst 1 [(0, KMem)] [] []).
Proof. split; [intros n|]; vm_compute; reflexivity. Qed.
(** A session that reads the root and two nodes, commits into a second data file, iterates, proves against
    an old root, and gives everything back; and one that keeps the proof. *)
Definition demo_calls : list rcall :=
  [RTxCreate false; RTxRead 0; RTxCommit 0; RIterate false; RIterNext 0; RProve true; RIterDestroy 0; RTxDestroy 0].
Definition demo_answers : list nat :=
  repeat 0 20 ++ [1; 0; 0; 0; 0; 0] ++ [2; 1; 0; 1; 0] ++ [1; 0; 1; 1; 1; 1; 0; 0; 1; 0; 0; 0; 0] ++ [1; 1; 0; 0; 0; 1; 0; 0; 0; 0; 0; 0; 1; 0].
Theorem C59_nonvacuous :
  (exists d h', session (demo_calls ++ [RFree 0]) (mkrst 0 [] demo_answers []) = Ok (inr d, h') /\
     r_index (d_sto d) = 2 /\ d_txs d = [None] /\ d_its d = [None] /\ d_outs d = [None] /\ lv h' = [] /\ 24 < nx h') /\
  (exists d h' p, session demo_calls (mkrst 0 [] demo_answers []) = Ok (inr d, h') /\ d_outs d = [Some p] /\ lv h' = [(p, KMem)]).
Proof.
  split.
  - eexists _, _. split; [vm_compute; reflexivity|]. cbn [d_sto r_index d_txs d_its d_outs lv nx]. repeat split. lia.
  - eexists _, _, _. split; [vm_compute; reflexivity|]. split; reflexivity.
Qed.
