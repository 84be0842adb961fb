(** * C53: the root cache answers like a map, whatever the roots hash to

    Specification: [first] (the first node stored under a root hash), [distinct] (how many
    root hashes were stored), [expected].  The model: Khash.v, run by [table_run]. *)
From Verif Require Import KhashFacts.
From Coq Require Import Permutation ZifyBool ZifyNat ZifyN.
Local Open Scope N_scope.

(** ** Specification *)
Section Spec.
Variable V : Type.
(** What the store does with the cache: urkel_cache_lookup and urkel_cache_insert. *)
Inductive cop := Look (root : bytes) | Keep (root : bytes) (v : V).
Inductive cans := Found (o : option V) | Kept (stored : bool).

Fixpoint first (H : list cop) (root : bytes) : option V :=
  match H with
  | [] => None
  | Keep r v :: H => if bytes_eqb r root then Some v else first H root
  | Look _ :: H => first H root
  end.
Definition roots (H : list cop) : list bytes := flat_map (fun o => match o with Keep r _ => [r] | Look _ => [] end) H.
Definition distinct (H : list cop) : N := N.of_nat (length (nodup bytes_eq_dec (roots H))).
Definition nodes_in (H : list cop) : list V := flat_map (fun o => match o with Keep _ v => [v] | Look _ => [] end) H.

(** The answer to one operation after the history [H]. *)
Definition answer (H : list cop) (o : cop) : cans :=
  match o with
  | Look r => Found (first H r)
  | Keep r _ => Kept (match first H r with Some _ => false | None => true end)
  end.
Fixpoint expected (H ops : list cop) : list cans :=
  match ops with [] => [] | o :: ops => answer H o :: expected (H ++ [o]) ops end.

(** What holds without any limit: a node found is the one first stored under that root, no
    root is stored twice, and a root is forgotten only after 2^31 others. *)
Definition honest (H : list cop) (o : cop) (a : cans) : Prop :=
  match o, a with
  | Look r, Found (Some v) => first H r = Some v
  | Look r, Found None => first H r = None \/ 2147483648 < distinct H
  | Keep r _, Kept true => first H r = None
  | Keep r _, Kept false => first H r <> None \/ 2147483648 <= distinct H
  | _, _ => False
  end.
Fixpoint honest_all (H ops : list cop) (al : list cans) : Prop :=
  match ops, al with
  | [], [] => True
  | o :: ops, a :: al => honest H o a /\ honest_all (H ++ [o]) ops al
  | _, _ => False
  end.
(** Nodes freed by urkel_cache_insert itself. *)
Fixpoint returned (ops : list cop) (al : list cans) : list V :=
  match ops, al with
  | Keep _ v :: ops, Kept false :: al => v :: returned ops al
  | _ :: ops, _ :: al => returned ops al
  | _, _ => []
  end.

(** ** The program: the hash table of Khash.v *)
Variable hf : bytes -> N.
Fixpoint table_run (h : khash V) (ops : list cop) : res (list cans * khash V) :=
  match ops with
  | [] => Ok ([], h)
  | Look r :: ops =>
    let! o := kc_lookup V hf h r in
    let! (al, h) := table_run h ops in Ok (Found o :: al, h)
  | Keep r v :: ops =>
    let! (h, b) := kc_insert V hf h r v in
    let! (al, h) := table_run h ops in Ok (Kept b :: al, h)
  end.

(** ** Proof *)
Record inv (H : list cop) (m : list (bytes * V)) : Prop := {
  in_first : forall r v, find V m r = Some v -> first H r = Some v;
  in_nodup : NoDup (map fst m);
  in_incl : incl (map fst m) (roots H);
  in_len : N.of_nat (length m) <= 2147483648;
  in_room : N.of_nat (length m) < 2147483648 -> forall r, find V m r = first H r;
  in_all : distinct H <= 2147483648 -> forall r, find V m r = first H r }.

Lemma first_app H o r : first (H ++ [o]) r = match first H r with Some v => Some v | None => first [o] r end.
Proof. induction H as [|[r' | r' v'] H IH]; cbn [app first]; auto. destruct (bytes_eqb r' r); auto. Qed.
Lemma roots_app H o : roots (H ++ [o]) = roots H ++ roots [o].
Proof. apply flat_map_app. Qed.
Lemma distinct_mono H o : distinct H <= distinct (H ++ [o]).
Proof.
  unfold distinct. assert (E : incl (nodup bytes_eq_dec (roots H)) (nodup bytes_eq_dec (roots (H ++ [o])))).
  { intros x I. apply nodup_In in I. apply nodup_In. rewrite roots_app. apply in_or_app. now left. }
  apply NoDup_incl_length in E; [lia|apply NoDup_nodup].
Qed.
Lemma keys_le H (l : list bytes) : NoDup l -> incl l (roots H) -> N.of_nat (length l) <= distinct H.
Proof.
  intros N I. unfold distinct. assert (E : incl l (nodup bytes_eq_dec (roots H))) by (intros x X; apply nodup_In, I, X).
  apply NoDup_incl_length in E; [lia|exact N].
Qed.

Lemma inv_look H m r : inv H m -> inv (H ++ [Look r]) m.
Proof.
  intros [A B D L R E]. constructor; auto.
  - intros r' v F. rewrite first_app, (A _ _ F). reflexivity.
  - rewrite roots_app. cbn. now rewrite app_nil_r.
  - intros L' r'. rewrite first_app. cbn. rewrite R by exact L'. now destruct (first H r').
  - intros L' r'. rewrite first_app. cbn. rewrite E; [now destruct (first H r')|]. pose proof (distinct_mono H (Look r)). lia.
Qed.
Lemma full H m r : inv H m -> find V m r = None -> N.of_nat (length m) = 2147483648 -> forall v, 2147483648 < distinct (H ++ [Keep r v]).
Proof.
  intros I F L v. enough (N.of_nat (length (r :: map fst m)) <= distinct (H ++ [Keep r v])) as X by (cbn [length] in X; rewrite map_length in X; lia).
  apply keys_le.
  - constructor; [now apply find_none|exact (in_nodup _ _ I)].
  - intros x [<-|X]; rewrite roots_app; apply in_or_app; [right; now left|left; now apply (in_incl _ _ I)].
Qed.
Lemma inv_keep H m r v : inv H m -> inv (H ++ [Keep r v]) (add V m r v).
Proof.
  intros I. pose proof I as [A B D L R E]. unfold add. destruct (room V m r) eqn:Rm.
  - assert (F0 : find V m r = None) by (unfold room in Rm; destruct (find V m r); [discriminate|reflexivity]).
    assert (L31 : N.of_nat (length m) < 2147483648) by (unfold room in Rm; rewrite F0 in Rm; lia).
    assert (X : forall r', find V ((r, v) :: m) r' = first (H ++ [Keep r v]) r').
    { intros r'. rewrite first_app, <- R by exact L31. cbn [find first]. destruct (bytes_eqb_spec r r') as [<-|Ne]; [now rewrite F0|]. now destruct (find V m r'). }
    constructor; auto.
    + intros r' w F. now rewrite <- X.
    + cbn. constructor; [now apply find_none|exact B].
    + rewrite roots_app. intros x [<-|Ix]; apply in_or_app; [right; now left|left; auto].
    + cbn [length]. lia.
  - constructor; auto.
    + intros r' w F. rewrite first_app, (A _ _ F). reflexivity.
    + rewrite roots_app. intros x Ix. apply in_or_app. left. auto.
    + intros L31 r'. rewrite first_app, <- R by exact L31. cbn [first]. destruct (find V m r') eqn:F'; [reflexivity|].
      destruct (bytes_eqb_spec r r') as [<-|]; [|reflexivity]. exfalso. unfold room in Rm. rewrite F' in Rm. lia.
    + intros Ld r'. pose proof (distinct_mono H (Keep r v)). rewrite first_app, <- E by lia. cbn [first]. destruct (find V m r') eqn:F'; [reflexivity|].
      destruct (bytes_eqb_spec r r') as [<-|]; [|reflexivity]. exfalso. unfold room in Rm. rewrite F' in Rm.
      pose proof (full H m r I F' ltac:(lia) v). lia.
Qed.

Lemma run_ok : forall ops H h m, repr V hf h m -> inv H m ->
  exists al h' m', table_run h ops = Ok (al, h') /\ repr V hf h' m' /\
    honest_all H ops al /\
    (distinct (H ++ ops) <= 2147483648 -> al = expected H ops) /\
    Permutation (nodes_in ops ++ map snd m) (returned ops al ++ map snd m').
Proof.
  induction ops as [|o ops IH]; intros H h m Rh I.
  - exists [], h, m. cbn. repeat split; auto.
  - assert (DM : forall ops0 H0, distinct H0 <= distinct (H0 ++ ops0)).
    { induction ops0 as [|o0 ops0 IH0]; intros H0; [rewrite app_nil_r; lia|]. specialize (IH0 (H0 ++ [o0])). rewrite <- app_assoc in IH0. cbn [app] in IH0.
      pose proof (distinct_mono H0 o0). lia. }
    destruct o as [r|r v]; cbn [table_run].
    + rewrite (lookup_ok V hf h m r Rh). cbn [bind].
      destruct (IH (H ++ [Look r]) h m Rh (inv_look _ _ _ I)) as (al & h' & m' & -> & R' & Ha & He & Hp). cbn [bind].
      exists (Found (find V m r) :: al), h', m'. split; [reflexivity|]. split; [exact R'|]. split; [|split; [|exact Hp]].
      * split; [|exact Ha]. cbn [honest]. destruct (find V m r) eqn:F; [exact (in_first _ _ I _ _ F)|].
        destruct (N.le_gt_cases (distinct H) 2147483648) as [Q|Q]; [left|right; exact Q]. rewrite <- F. symmetry. exact (in_all _ _ I Q r).
      * intros Ld. cbn [expected answer]. rewrite <- app_assoc in He. rewrite (He Ld). f_equal. f_equal.
        apply (in_all _ _ I). pose proof (DM (Look r :: ops) H). lia.
    + destruct (insert_ok V hf h m r v Rh) as (h1 & -> & R1). cbn [bind].
      destruct (IH (H ++ [Keep r v]) h1 _ R1 (inv_keep _ _ _ _ I)) as (al & h' & m' & -> & R' & Ha & He & Hp). cbn [bind].
      exists (Kept (room V m r) :: al), h', m'. split; [reflexivity|]. split; [exact R'|]. split; [|split].
      * split; [|exact Ha]. cbn [honest]. destruct (room V m r) eqn:Rm; unfold room in Rm; destruct (find V m r) eqn:F; try discriminate.
        -- rewrite <- F. symmetry. apply (in_room _ _ I). pose proof (in_len _ _ I). lia.
        -- left. rewrite (in_first _ _ I _ _ F). discriminate.
        -- right. assert (N.of_nat (length (map fst m)) <= distinct H); [|rewrite map_length in *; lia]. apply keys_le; [exact (in_nodup _ _ I)|exact (in_incl _ _ I)].
      * intros Ld. cbn [expected answer]. rewrite <- app_assoc in He. rewrite (He Ld). f_equal. f_equal.
        rewrite <- (in_all _ _ I) by (pose proof (DM (Keep r v :: ops) H); lia). unfold room. destruct (find V m r) eqn:F; [reflexivity|].
        destruct (N.eqb_spec (N.of_nat (length m)) 2147483648) as [Q|]; [exfalso|reflexivity].
        pose proof (full H m r I F Q v). pose proof (DM ops (H ++ [Keep r v])) as Q2. rewrite <- app_assoc in Q2. cbn [app] in Q2. lia.
      * cbn [nodes_in flat_map app returned]. unfold add in Hp. destruct (room V m r).
        -- cbn [map snd] in Hp. eapply Permutation_trans; [|exact Hp]. apply Permutation_middle.
        -- cbn [app]. constructor. exact Hp.
Qed.
Lemma inv_nil : inv [] [].
Proof. constructor; try reflexivity; try discriminate; [exact (NoDup_nil _)|intros ? []]. Qed.

(** ** C53 *)

(** Whatever 32-bit hashes the roots have, as long as at most 2^31 different roots are
    cached, every lookup answers with the node first stored under that root, or nothing if
    there is none; an insertion stores its node iff the root is new.  [Ok] also says: no
    read or write outside the arrays, no abort, every loop ends. *)
Theorem C53_cache_is_a_map ops : distinct ops <= 2147483648 ->
  exists h, table_run (kh_init V) ops = Ok (expected [] ops, h).
Proof.
  intros L. destruct (run_ok ops [] (kh_init V) [] ltac:(left; auto) inv_nil) as (al & h & m & E & _ & _ & X & _).
  exists h. rewrite E. cbn [app] in X. now rewrite (X L).
Qed.

(** Without that bound. *)
Theorem C53_cache_never_lies ops : exists al h, table_run (kh_init V) ops = Ok (al, h) /\ honest_all [] ops al.
Proof.
  destruct (run_ok ops [] (kh_init V) [] ltac:(left; auto) inv_nil) as (al & h & m & E & _ & X & _). exists al, h. auto.
Qed.

(** Every node handed to the cache is freed exactly once: by the insertion that finds its
    root present, or when the cache is cleared. *)
Theorem C53_cache_frees_once ops : exists al h freed, table_run (kh_init V) ops = Ok (al, h) /\
  kc_clear V h = Ok freed /\ Permutation (nodes_in ops) (returned ops al ++ freed).
Proof.
  destruct (run_ok ops [] (kh_init V) [] ltac:(left; auto) inv_nil) as (al & h & m & E & R & _ & _ & P).
  destruct (clear_ok V hf h m R) as (l & El & Pl). exists al, h, l. split; [exact E|]. split; [exact El|].
  rewrite app_nil_r in P. eapply Permutation_trans; [exact P|]. apply Permutation_app_head. now apply Permutation_sym.
Qed.
End Spec.
Arguments Look {V}. Arguments Keep {V}. Arguments Found {V}. Arguments Kept {V}.

(** ** The association list of Store.v gives the same answers *)
Fixpoint list_run (c : list (bytes * node)) (ops : list (cop node)) : res (list (cans node) * list (bytes * node)) :=
  match ops with
  | [] => Ok ([], c)
  | Look r :: ops => let! (al, c') := list_run c ops in Ok (Found (cache_lookup c r) :: al, c')
  | Keep r n :: ops =>
    let! c' := cache_insert c n in
    let! (al, c'') := list_run c' ops in
    Ok (Kept (match cache_lookup c r with Some _ => false | None => true end) :: al, c'')
  end.
(** The key of a cached node is its hash: store.c 359-363. *)
Definition well_keyed (ops : list (cop node)) : Prop :=
  forall r n, In (Keep r n) ops -> exists p, n = NHash r p.

Lemma list_expected : forall ops H c, well_keyed ops -> (forall r, cache_lookup c r = first node H r) ->
  exists c', list_run c ops = Ok (expected node H ops, c').
Proof.
  induction ops as [|[r|r n] ops IH]; intros H c W E; cbn [list_run expected answer]; [eauto| |].
  - destruct (IH (H ++ [Look r]) c) as (c' & ->).
    + intros r' n' I. apply W. now right.
    + intros r'. rewrite first_app, E. cbn. now destruct (first node H r').
    + cbn [bind]. rewrite E. eauto.
  - destruct (W r n (or_introl eq_refl)) as (p & ->). cbn [cache_insert].
    assert (X : forall c', c' = match cache_lookup c r with Some _ => c | None => (r, NHash r p) :: c end ->
                forall r', cache_lookup c' r' = first node (H ++ [Keep r (NHash r p)]) r').
    { intros c' -> r'. rewrite first_app, <- E. cbn [first]. destruct (cache_lookup c r) eqn:F.
      - destruct (cache_lookup c r') eqn:F'; [reflexivity|]. destruct (bytes_eqb_spec r r') as [<-|]; congruence.
      - cbn [cache_lookup]. destruct (bytes_eqb_spec r r') as [<-|]; [now rewrite F|]. now destruct (cache_lookup c r'). }
    destruct (IH (H ++ [Keep r (NHash r p)]) (match cache_lookup c r with Some _ => c | None => (r, NHash r p) :: c end)) as (c' & Ec).
    + intros r' n' I. apply W. now right.
    + exact (X _ eq_refl).
    + rewrite E in *. destruct (first node H r); cbn [bind]; rewrite Ec; cbn [bind]; eauto.
Qed.

(** So the theorems about the store, proved with the list, speak about the table. *)
Theorem C53_store_cache hf ops : well_keyed ops -> distinct node ops <= 2147483648 ->
  exists al h c, table_run node hf (kh_init node) ops = Ok (al, h) /\ list_run [] ops = Ok (al, c).
Proof.
  intros W L. destruct (C53_cache_is_a_map node hf ops L) as (h & E). destruct (list_expected ops [] [] W ltac:(reflexivity)) as (c & Ec).
  exists (expected node [] ops), h, c. auto.
Qed.

(** ** The hash: murmur3 (x86, 32 bits) on published test vectors; always 32 bits *)
Example murmur_empty_1 : murmur3 [] 1 = 0x514E28B7. Proof. reflexivity. Qed.
Example murmur_test : murmur3 [x74; x65; x73; x74] 0 = 0xba6bd213. Proof. reflexivity. Qed.
Example murmur_tail : murmur3 [x48; x65; x6c; x6c; x6f; x2c; x20; x77; x6f; x72; x6c; x64; x21] 0 = 0xc0363e43. Proof. reflexivity. Qed.

(** Non-vacuity: six roots with the same hash (every probe collides), one of them twice: the
    table is rebuilt once on the way. *)
Definition r_ (b : byte) : bytes := repeat b 32.
Definition ex_ops : list (cop N) :=
  [Look (r_ x01); Keep (r_ x01) 1; Keep (r_ x02) 2; Keep (r_ x03) 3; Keep (r_ x04) 4; Keep (r_ x02) 22; Keep (r_ x05) 5; Keep (r_ x06) 6;
   Look (r_ x02); Look (r_ x06); Look (r_ x07)].
Example ex_distinct : distinct N ex_ops <= 2147483648.
Proof. vm_compute. discriminate. Qed.
Example ex_collide : exists h, table_run N (fun _ => 7) (kh_init N) ex_ops =
  Ok ([Found None; Kept true; Kept true; Kept true; Kept true; Kept false; Kept true; Kept true; Found (Some 2); Found (Some 6); Found None], h) /\
  kb N h = 8 /\ kc_clear N h = Ok [3; 5; 1; 4; 6; 2].
Proof. vm_compute. eexists. repeat split. Qed.
