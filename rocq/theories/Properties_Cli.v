(** * C57: the command line program does what its usage text says. *)
From Coq Require Import Strings.String DecimalString DecimalN Permutation Sorted.
From Verif Require Import Properties_Proof Properties_Sessions Properties_Open Properties_Db Demo Cli CliSpec.
Notation length := List.length.

(** ** Parsing *)
Lemma is_eq a s : is a s = true <-> a = text s.
Proof. unfold is, Cli.str, text. destruct (bytes_eqb_spec a (list_byte_of_string s)); intuition congruence. Qed.
Lemma is_no a s : a <> text s -> is a s = false.
Proof. intros N. destruct (is a s) eqn:E; [apply is_eq in E; contradiction|reflexivity]. Qed.

Definition hashb (l : list item) : bool := existsb (fun i => match i with IHash => true | _ => false end) l.
Lemma hashb_in l : hashb l = true <-> hashed l.
Proof.
  unfold hashb, hashed. rewrite existsb_exists. split.
  - intros (x & I & E). destruct x; try discriminate. exact I.
  - intros I. exists IHash. auto.
Qed.
Definition lastopt (o : option bytes) (l : list bytes) : option bytes :=
  match l with [] => o | x :: t => Some (last t x) end.
Lemma lastopt_cons o x l : lastopt o (x :: l) = lastopt (Some x) l.
Proof. destruct l as [|y l]; [reflexivity|]. cbn [lastopt]. f_equal. revert x y. induction l as [|z l IH]; intros x y; [reflexivity|]. change (last (z :: l) x = last (z :: l) y). rewrite (IH x z), (IH y z). reflexivity. Qed.

Lemma dash_word s c : hd_error s <> Some x2d -> hd_error (text c) = Some x2d -> is s c = false.
Proof. intros A B. apply is_no. intros ->. contradiction. Qed.

Lemma scan_items l : forall ws path root hash args rest,
  Forall2 spelled l ws -> length (args ++ words l) <= 32 ->
  scan (List.concat ws ++ rest) path root hash args =
  scan rest (lastopt path (paths l)) (lastopt root (roots l)) (hash || hashb l) (args ++ words l).
Proof.
  induction l as [|i l IH]; intros ws path root hash args rest F L; inversion F as [|? w ? ws' S F']; subst.
  { cbn [List.concat app paths roots words flat_map lastopt hashb existsb]. rewrite orb_false_r, app_nil_r. reflexivity. }
  cbn [List.concat]. rewrite <- app_assoc. destruct i as [p|h| |s]; cbn [spelled] in S.
  - change (words (IPath p :: l)) with (words l) in *. change (paths (IPath p :: l)) with (p :: paths l). rewrite lastopt_cons.
    change (roots (IPath p :: l)) with (roots l). change (hashb (IPath p :: l)) with (hashb l).
    rewrite <- (IH ws' (Some p) root hash args rest F' L). destruct S as [-> | ->]; reflexivity.
  - change (words (IRoot h :: l)) with (words l) in *. change (roots (IRoot h :: l)) with (h :: roots l). rewrite lastopt_cons.
    change (paths (IRoot h :: l)) with (paths l). change (hashb (IRoot h :: l)) with (hashb l).
    rewrite <- (IH ws' path (Some h) hash args rest F' L). destruct S as (s & S & Dn & Lh).
    assert (E : base16_decode32 s = Ok (Some h)).
    { destruct (C37_decode32 s) as (r & E & R). rewrite E. f_equal. apply R. auto. }
    destruct S as [-> | ->]; cbn [app scan].
    + change (is (text "-r") "--path" || is (text "-r") "-p") with false. change (is (text "-r") "--root" || is (text "-r") "-r") with true.
      cbn iota. rewrite E. reflexivity.
    + change (is (text "--root") "--path" || is (text "--root") "-p") with false. change (is (text "--root") "--root" || is (text "--root") "-r") with true.
      cbn iota. rewrite E. reflexivity.
  - change (words (IHash :: l)) with (words l) in *. change (paths (IHash :: l)) with (paths l). change (roots (IHash :: l)) with (roots l).
    change (hashb (IHash :: l)) with true. rewrite orb_true_r. 
    transitivity (scan (List.concat ws' ++ rest) path root true args); [destruct S as [-> | ->]; reflexivity|].
    rewrite (IH ws' path root true args rest F' L). reflexivity.
  - destruct S as [-> Nd]. change (paths (IWord s :: l)) with (paths l). change (roots (IWord s :: l)) with (roots l).
    change (hashb (IWord s :: l)) with (hashb l). change (words (IWord s :: l)) with (s :: words l) in *.
    replace (args ++ s :: words l) with ((args ++ [s]) ++ words l) in * by (rewrite <- app_assoc; reflexivity).
    rewrite <- (IH ws' path root hash (args ++ [s]) rest F' L). cbn [app scan].
    rewrite !(dash_word s) by (assumption || reflexivity). cbn [orb].
    assert (Ed : (match s with c :: _ => beq c x2d | [] => false end) = false).
    { destruct s as [|c s]; [reflexivity|]. unfold beq. destruct (byte_eq_dec c x2d) as [->|]; [contradiction Nd; reflexivity|reflexivity]. }
    rewrite Ed. rewrite !app_length in L. cbn [length] in L.
    destruct (Nat.eqb_spec (length args) 32); [lia|]. destruct (Nat.leb_spec 32 (length args)); [lia|]. reflexivity.
Qed.

Definition reading (argv args : list bytes) (r : scanned) (path root : option bytes) (hash : bool) : Prop :=
  match r with
  | SDone p' r' h' a' => exists l ws, Forall2 spelled l ws /\ argv = List.concat ws /\ length (args ++ words l) <= 32 /\
      p' = lastopt path (paths l) /\ r' = lastopt root (roots l) /\ h' = hash || hashb l /\ a' = args ++ words l
  | SHelp => exists l ws h rest, Forall2 spelled l ws /\ argv = List.concat ws ++ h :: rest /\ length (args ++ words l) <= 32 /\
      (h = text "-h" \/ h = text "--help")
  | SFail _ => True
  end.
Lemma reading_cons i w argv args args' r path root hash path' root' hash' :
  spelled i w -> reading argv args' r path' root' hash' ->
  (forall l, args ++ words (i :: l) = args' ++ words l /\ lastopt path (paths (i :: l)) = lastopt path' (paths l) /\
     lastopt root (roots (i :: l)) = lastopt root' (roots l) /\ hash || hashb (i :: l) = hash' || hashb l) ->
  reading (w ++ argv) args r path root hash.
Proof.
  intros S R Q. destruct r as [m| |p' r' h' a']; cbn [reading] in *; [exact I| |].
  - destruct R as (l & ws & h & rest & F & -> & L & Hh). destruct (Q l) as (Q1 & _). exists (i :: l), (w :: ws), h, rest.
    split; [constructor; assumption|]. split; [cbn [List.concat]; rewrite <- app_assoc; reflexivity|]. split; [rewrite Q1; exact L|exact Hh].
  - destruct R as (l & ws & F & -> & L & -> & -> & -> & ->). destruct (Q l) as (Q1 & Q2 & Q3 & Q4). exists (i :: l), (w :: ws).
    split; [constructor; assumption|]. split; [reflexivity|]. rewrite Q1, Q2, Q3, Q4. auto.
Qed.
Lemma scan_reads n : forall argv path root hash args, length argv <= n -> length args <= 32 ->
  exists r, scan argv path root hash args = Ok r /\ reading argv args r path root hash.
Proof.
  induction n as [|n IH]; intros argv path root hash args Ln La.
  { destruct argv; [|cbn [length] in Ln; lia]. eexists. split; [reflexivity|]. exists [], []. cbn [words paths roots flat_map lastopt hashb existsb].
    rewrite app_nil_r, orb_false_r. repeat split; auto. }
  destruct argv as [|a argv]; [apply (IH [] path root hash args); [cbn [length]; lia|exact La]|]. cbn [length] in Ln. cbn [scan].
  destruct (is a "--path" || is a "-p") eqn:E1.
  { destruct argv as [|p argv]; [eexists; split; [reflexivity|exact I]|]. cbn [length] in Ln.
    destruct (IH argv (Some p) root hash args) as (r & E & R); [lia|exact La|]. exists r. split; [exact E|].
    apply (reading_cons (IPath p) [a; p] argv args args r path root hash (Some p) root hash); [|exact R|].
    - cbn [spelled]. apply orb_true_iff in E1. destruct E1 as [E1|E1]; apply is_eq in E1; subst a; auto.
    - intros l. cbn [words paths roots flat_map app]. rewrite lastopt_cons. auto. }
  destruct (is a "--root" || is a "-r") eqn:E2.
  { destruct argv as [|s argv]; [eexists; split; [reflexivity|exact I]|]. cbn [length] in Ln.
    destruct (C37_decode32 s) as (x & Ex & Rx). rewrite Ex. cbn [bind]. destruct x as [h|]; [|eexists; split; [reflexivity|exact I]].
    destruct (IH argv path (Some h) hash args) as (r & E & R); [lia|exact La|]. exists r. split; [exact E|].
    apply (reading_cons (IRoot h) [a; s] argv args args r path root hash path (Some h) hash); [|exact R|].
    - cbn [spelled]. exists s. split; [|apply Rx; reflexivity]. apply orb_true_iff in E2. destruct E2 as [E2|E2]; apply is_eq in E2; subst a; auto.
    - intros l. cbn [words paths roots flat_map app]. rewrite lastopt_cons. auto. }
  destruct (is a "--hash" || is a "-H") eqn:E3.
  { destruct (IH argv path root true args) as (r & E & R); [lia|exact La|]. exists r. split; [exact E|].
    apply (reading_cons IHash [a] argv args args r path root hash path root true); [|exact R|].
    - cbn [spelled]. apply orb_true_iff in E3. destruct E3 as [E3|E3]; apply is_eq in E3; subst a; auto.
    - intros l. cbn [words paths roots flat_map app hashb existsb]. rewrite orb_true_r. auto. }
  destruct (is a "--help" || is a "-h") eqn:E4.
  { eexists. split; [reflexivity|]. exists [], [], a, argv. split; [constructor|]. split; [reflexivity|]. split; [cbn [words flat_map]; rewrite app_nil_r; exact La|].
    apply orb_true_iff in E4. destruct E4 as [E4|E4]; apply is_eq in E4; auto. }
  destruct (match a with c :: _ => beq c x2d | [] => false end) eqn:E5; [eexists; split; [reflexivity|exact I]|].
  destruct (Nat.eqb_spec (length args) 32); [eexists; split; [reflexivity|exact I]|]. destruct (Nat.leb_spec 32 (length args)); [lia|].
  destruct (IH argv path root hash (args ++ [a])) as (r & E & R); [lia|rewrite app_length; cbn [length]; lia|]. exists r. split; [exact E|].
  apply (reading_cons (IWord a) [a] argv args (args ++ [a]) r path root hash path root hash); [|exact R|].
  - cbn [spelled]. split; [reflexivity|]. destruct a as [|c a]; [discriminate|]. cbn [hd_error]. intros X. injection X as ->. discriminate E5.
  - intros l. cbn [words paths roots flat_map app hashb existsb orb]. rewrite <- app_assoc. auto.
Qed.

Definition meaning (o : options) : cmd :=
  match o_action o with
  | DoCreate => XCreate | DoDestroy => XDestroy | DoInfo => XInfo | DoRoot => XRoot | DoGet => XGet (o_key o)
  | DoInsert => XInsert (o_key o) (o_value o) | DoRemove => XRemove (o_key o) | DoList => XList | DoProve => XProve (o_key o)
  | DoVerify => XVerify (o_key o) (o_proof o)
  end.

Lemma last_path ps d : match lastopt None ps with Some p => p | None => d end = last ps d.
Proof. destruct ps as [|p ps]; [reflexivity|]. cbn [lastopt]. revert p. induction ps as [|q ps IH]; intros p; [reflexivity|]. change (last (q :: ps) p = last (q :: ps) d).
  rewrite <- (IH q). clear. revert q. induction ps as [|x ps IH]; intros q; [reflexivity|]. change (last (x :: ps) p = last (x :: ps) q). rewrite (IH x). symmetry. 
  revert x q. clear. induction ps as [|y ps IH]; intros x q; [reflexivity|]. change (last (y :: ps) q = last (y :: ps) x). rewrite (IH y q), (IH y x). reflexivity. Qed.

Section Parse.
Variable H : bytes -> bytes.

Lemma key_read l s : exists r, (if hashb l then Ok (inr (H s)) else let! r := base16_decode32 s in Ok (match r with Some k => inr k | None => inl MInvalidKey end)) = Ok r /\
  forall k, r = inr k <-> names_key H l s k.
Proof.
  unfold names_key. destruct (hashb l) eqn:E.
  - eexists. split; [reflexivity|]. apply hashb_in in E. intros k. split; [intros [= <-]; auto|]. intros [[_ ->]|[N _]]; [reflexivity|contradiction].
  - destruct (C37_decode32 s) as (r & Er & R). rewrite Er. cbn [bind]. eexists. split; [reflexivity|].
    assert (N : ~ hashed l) by (intros X; apply hashb_in in X; congruence). intros k. destruct r as [d|].
    + specialize (R k). split; [intros [= <-]; right; split; [exact N|apply R; reflexivity]|].
      intros [[X _]|[_ X]]; [contradiction|]. apply R in X. injection X as ->. reflexivity.
    + split; [discriminate|]. intros [[X _]|[_ X]]; [contradiction|]. apply R in X. discriminate.
Qed.
Lemma value_read t : exists r, base16_decode 1024 t = Ok r /\ forall v, r = Some v <-> denotes t v /\ length v <= 1024.
Proof. destruct (C37_decode 1024 t) as (r & E & R & _). eauto. Qed.
Lemma proof_text t : exists r, base16_decode (length t / 2) t = Ok r /\ forall v, r = Some v <-> denotes t v.
Proof.
  destruct (C37_decode (length t / 2) t) as (r & E & R & _). exists r. split; [exact E|]. intros v. rewrite R. split; [tauto|]. intros Dn. split; [exact Dn|].
  rewrite (denotes_length _ _ Dn). rewrite Nat.mul_comm, Nat.div_mul by lia. lia.
Qed.

Lemma find_action a : match find (fun x => bytes_eqb a (fst x)) actions with
  | None => forall x, In x actions -> a <> fst x
  | Some x => a = fst x /\ In x actions
  end.
Proof.
  destruct (find _ actions) as [x|] eqn:E.
  - apply find_some in E. destruct E as [I E]. destruct (bytes_eqb_spec a (fst x)); [auto|discriminate].
  - intros x I Ex. apply (find_none _ _ E) in I. cbn beta in I. destruct (bytes_eqb_spec a (fst x)); [discriminate|contradiction].
Qed.

Definition rest_of (env path root : option bytes) (hash : bool) (args : list bytes) : res parsed :=
  let path := match path with Some p => p | None => match env with Some p => p | None => Cli.str "." end end in
  match args with
  | [] => Ok PUsage
  | a0 :: _ =>
    match find (fun x => bytes_eqb a0 (fst x)) actions with
    | None => Ok (PFail MInvalidAction)
    | Some (_, act) =>
      let! k :=
        (match act with
         | DoGet | DoInsert | DoRemove | DoProve | DoVerify =>
           match nth_error args 1 with
           | None => Ok (inl MNoKey)
           | Some s => if hash then Ok (inr (H s))
                       else let! r := base16_decode32 s in Ok (match r with Some k => inr k | None => inl MInvalidKey end)
           end
         | _ => Ok (inr [])
         end) in
      match k with
      | inl m => Ok (PFail m)
      | inr key =>
        match act with
        | DoInsert =>
          match nth_error args 2 with
          | None => Ok (PFail MNoValue)
          | Some s => let! r := base16_decode 1024 s in
            match r with None => Ok (PFail MInvalidValue) | Some v => Ok (PRun (mkopt path root act key v [])) end
          end
        | DoVerify =>
          match nth_error args 2 with
          | None => Ok (PFail MNoProof)
          | Some s => let! r := base16_decode (length s / 2) s in
            match r with None => Ok (PFail MInvalidProofHex) | Some p => Ok (PRun (mkopt path root act key [] p)) end
          end
        | _ => Ok (PRun (mkopt path root act key [] []))
        end
      end
    end
  end.
Lemma options_split argv env : options_init H argv env =
  let! s := scan argv None None false [] in
  match s with SFail m => Ok (PFail m) | SHelp => Ok PHelp | SDone path root hash args => rest_of env path root hash args end.
Proof. reflexivity. Qed.

Lemma rest_spec env l : exists r, rest_of env (lastopt None (paths l)) (lastopt None (roots l)) (hashb l) (words l) = Ok r /\ r <> PHelp /\
  forall path ro c, (exists o, r = PRun o /\ o_path o = path /\ o_root o = ro /\ meaning o = c) <->
    command H l (words l) c /\ path = path_meant l env /\ ro = root_meant l.
Proof.
  unfold rest_of. rewrite last_path. change (Cli.str ".") with (text "."). fold (path_meant l env). change (lastopt None (roots l)) with (root_meant l).
  generalize (path_meant l env) as P. generalize (root_meant l) as Ro. intros Ro P.
  destruct (words l) as [|a args].
  { eexists. split; [reflexivity|]. split; [discriminate|]. intros path ro c. split; [intros (o & X & _); discriminate|]. intros (X & _). inversion X. }
  pose proof (find_action a) as FA. destruct (find _ actions) as [[a' act]|].
  2:{ eexists. split; [reflexivity|]. split; [discriminate|]. intros path ro c. split; [intros (o & X & _); discriminate|]. intros (X & _). exfalso.
      assert (Y : In a (map fst actions)) by (inversion X; subst; unfold actions; cbn [map In fst]; repeat first [left; reflexivity | right]).
      apply in_map_iff in Y. destruct Y as (x & Ex & Ix). exact (FA x Ix (eq_sym Ex)). }
  cbn [fst] in FA. destruct FA as [<- I].
  assert (N1 : nth_error (a :: args) 1 = hd_error args) by (destruct args; reflexivity).
  assert (N2 : nth_error (a :: args) 2 = hd_error (tl args)) by (destruct args as [|? [|]]; reflexivity).
  assert (S0 : forall o c, meaning o = c -> o_path o = P -> o_root o = Ro ->
     (forall c', command H l (a :: args) c' <-> c' = c) ->
     exists r, Ok (PRun o) = Ok r /\ r <> PHelp /\ forall path ro c', (exists o, r = PRun o /\ o_path o = path /\ o_root o = ro /\ meaning o = c') <-> command H l (a :: args) c' /\ path = P /\ ro = Ro).
  { intros o c M Ep Er Cm. eexists. split; [reflexivity|]. split; [discriminate|]. intros path ro c'. rewrite Cm. split.
    - intros (o' & X & <- & <- & <-). injection X as <-. auto.
    - intros (-> & -> & ->). eauto. }
  assert (F0 : forall m, (forall c', ~ command H l (a :: args) c') ->
     exists r, Ok (PFail m) = Ok r /\ r <> PHelp /\ forall path ro c', (exists o, r = PRun o /\ o_path o = path /\ o_root o = ro /\ meaning o = c') <-> command H l (a :: args) c' /\ path = P /\ ro = Ro).
  { intros m Nc. eexists. split; [reflexivity|]. split; [discriminate|]. intros path ro c'. split; [intros (o & X & _); discriminate|]. intros (X & _). exfalso. exact (Nc _ X). }
  rewrite N1, N2. clear N1 N2.
  unfold actions in I. cbn [In] in I.
  repeat (destruct I as [I|I]; [injection I as <- <-|]); try contradiction; cbn [bind].
  - apply (S0 _ XCreate); try reflexivity. intros c'. split; [intros X; inversion X; reflexivity|intros ->; constructor].
  - apply (S0 _ XDestroy); try reflexivity. intros c'. split; [intros X; inversion X; reflexivity|intros ->; constructor].
  - apply (S0 _ XInfo); try reflexivity. intros c'. split; [intros X; inversion X; reflexivity|intros ->; constructor].
  - apply (S0 _ XRoot); try reflexivity. intros c'. split; [intros X; inversion X; reflexivity|intros ->; constructor].
  - destruct args as [|s args]; cbn [hd_error]; [apply F0; intros c' X; inversion X|].
    destruct (key_read l s) as (k & E & K). rewrite E. cbn [bind]. destruct k as [m|k].
    { apply F0. intros c' X. inversion X; subst. match goal with Q : names_key _ _ _ _ |- _ => apply K in Q; discriminate end. }
    apply (S0 _ (XGet k)); try reflexivity. intros c'. split.
    + intros X. inversion X; subst. match goal with Q : names_key _ _ _ _ |- _ => apply K in Q; injection Q as <- end. reflexivity.
    + intros ->. constructor. apply K. reflexivity.
  - destruct args as [|s args]; cbn [hd_error tl]; [apply F0; intros c' X; inversion X|].
    destruct (key_read l s) as (k & E & K). rewrite E. cbn [bind]. destruct k as [m|k].
    { apply F0. intros c' X. inversion X; subst. match goal with Q : names_key _ _ _ _ |- _ => apply K in Q; discriminate end. }
    destruct args as [|t args]; cbn [hd_error]; [apply F0; intros c' X; inversion X|].
    destruct (value_read t) as (v & Ev & V). rewrite Ev. cbn [bind]. destruct v as [v|].
    2:{ apply F0. intros c' X. inversion X; subst. match goal with A : denotes t ?v', B : length ?v' <= 1024 |- _ => pose proof (proj2 (V v') (conj A B)) as Y; discriminate Y end. }
    apply (S0 _ (XInsert k v)); try reflexivity. intros c'. split.
    + intros X. inversion X; subst. match goal with Q : names_key _ _ _ _ |- _ => apply K in Q; injection Q as <- end.
      match goal with A : denotes t ?v', B : length ?v' <= 1024 |- _ => pose proof (proj2 (V v') (conj A B)) as Y; injection Y as <- end. reflexivity.
    + intros ->. constructor; [apply K; reflexivity| |]; apply V; reflexivity.
  - destruct args as [|s args]; cbn [hd_error]; [apply F0; intros c' X; inversion X|].
    destruct (key_read l s) as (k & E & K). rewrite E. cbn [bind]. destruct k as [m|k].
    { apply F0. intros c' X. inversion X; subst. match goal with Q : names_key _ _ _ _ |- _ => apply K in Q; discriminate end. }
    apply (S0 _ (XRemove k)); try reflexivity. intros c'. split.
    + intros X. inversion X; subst. match goal with Q : names_key _ _ _ _ |- _ => apply K in Q; injection Q as <- end. reflexivity.
    + intros ->. constructor. apply K. reflexivity.
  - apply (S0 _ XList); try reflexivity. intros c'. split; [intros X; inversion X; reflexivity|intros ->; constructor].
  - destruct args as [|s args]; cbn [hd_error]; [apply F0; intros c' X; inversion X|].
    destruct (key_read l s) as (k & E & K). rewrite E. cbn [bind]. destruct k as [m|k].
    { apply F0. intros c' X. inversion X; subst. match goal with Q : names_key _ _ _ _ |- _ => apply K in Q; discriminate end. }
    apply (S0 _ (XProve k)); try reflexivity. intros c'. split.
    + intros X. inversion X; subst. match goal with Q : names_key _ _ _ _ |- _ => apply K in Q; injection Q as <- end. reflexivity.
    + intros ->. constructor. apply K. reflexivity.
  - destruct args as [|s args]; cbn [hd_error tl]; [apply F0; intros c' X; inversion X|].
    destruct (key_read l s) as (k & E & K). rewrite E. cbn [bind]. destruct k as [m|k].
    { apply F0. intros c' X. inversion X; subst. match goal with Q : names_key _ _ _ _ |- _ => apply K in Q; discriminate end. }
    destruct args as [|t args]; cbn [hd_error]; [apply F0; intros c' X; inversion X|].
    destruct (proof_text t) as (v & Ev & V). rewrite Ev. cbn [bind]. destruct v as [v|].
    2:{ apply F0. intros c' X. inversion X; subst. match goal with A : denotes t _ |- _ => apply V in A; discriminate end. }
    apply (S0 _ (XVerify k v)); try reflexivity. intros c'. split.
    + intros X. inversion X; subst. match goal with Q : names_key _ _ _ _ |- _ => apply K in Q; injection Q as <- end.
      match goal with A : denotes t _ |- _ => apply V in A; injection A as <- end. reflexivity.
    + intros ->. constructor; [apply K; reflexivity|]. apply V; reflexivity.
Qed.

Lemma options_spec env argv : exists r, options_init H argv env = Ok r /\
  (forall path ro c, (exists o, r = PRun o /\ o_path o = path /\ o_root o = ro /\ meaning o = c) <-> asks H env argv path ro c) /\
  (r = PHelp <-> asks_help argv).
Proof.
  rewrite options_split. destruct (scan_reads (length argv) argv None None false [] (le_n _)) as (s & E & R); [cbn [length]; lia|].
  assert (U : forall l ws rest, Forall2 spelled l ws -> length (words l) <= 32 -> scan (List.concat ws ++ rest) None None false [] = scan rest (lastopt None (paths l)) (lastopt None (roots l)) (hashb l) (words l)).
  { intros l ws rest F L. rewrite (scan_items l ws None None false [] rest F L). reflexivity. }
  assert (Help : forall l ws h rest p r b a, Forall2 spelled l ws -> length (words l) <= 32 -> h = text "-h" \/ h = text "--help" ->
     scan (List.concat ws ++ h :: rest) None None false [] = Ok SHelp /\ scan (h :: rest) p r b a = Ok SHelp).
  { intros l ws h rest p r b a F L Hh. rewrite (U l ws _ F L). destruct Hh as [-> | ->]; split; reflexivity. }
  assert (NoH : s <> SHelp -> ~ asks_help argv).
  { intros Ns (l & a & h & r & (L & ws & F & ->) & -> & Hh). destruct (Help l ws h r None None false [] F L Hh) as [X _]. rewrite X in E. apply Ok_inj in E. congruence. }
  assert (Ask : forall path ro c, asks H env argv path ro c -> exists l, s = SDone (lastopt None (paths l)) (lastopt None (roots l)) (hashb l) (words l) /\
     command H l (words l) c /\ path = path_meant l env /\ ro = root_meant l).
  { intros path ro c (l & (L & ws & F & ->) & Cm & Ep & Er). exists l. split; [|auto]. pose proof (U l ws [] F L) as X. rewrite app_nil_r in X.
    rewrite X in E. apply Ok_inj in E. symmetry. exact E. }
  rewrite E. cbn [bind]. destruct s as [m| |p r h a].
  - eexists. split; [reflexivity|]. split.
    + intros path ro c. split; [intros (o & X & _); discriminate|]. intros X. destruct (Ask _ _ _ X) as (l & Y & _). discriminate.
    + split; [discriminate|]. intros X. apply NoH in X; [contradiction|discriminate].
  - eexists. split; [reflexivity|]. split.
    + intros path ro c. split; [intros (o & X & _); discriminate|]. intros X. destruct (Ask _ _ _ X) as (l & Y & _). discriminate.
    + split; [|reflexivity]. intros _. destruct R as (l & ws & h & rest & F & Ea & L & Hh). exists l, (List.concat ws), h, rest. split; [split; [exact L|eauto]|auto].
  - destruct R as (l & ws & F & Ea & L & -> & -> & -> & ->). cbn [orb app] in *.
    destruct (rest_spec env l) as (x & Ex & Nh & Q). exists x. split; [exact Ex|]. split; [|split; [intros; contradiction|]].
    + intros path ro c. rewrite Q. split.
      * intros Y. exists l. split; [split; [exact L|eauto]|exact Y].
      * intros Y. apply Q. destruct (Ask _ _ _ Y) as (l' & El & Y'). injection El as E1 E2 E3 E4.
        destruct (rest_spec env l') as (x' & Ex' & _ & Q'). rewrite E1, E2, E3, E4 in Ex. rewrite Ex in Ex'. apply Ok_inj in Ex'. subst x'. apply Q', Y'.
    + intros X. apply NoH in X; [contradiction|discriminate].
Qed.
End Parse.

(** ** Printing *)
Lemma encode_hex src : base16_encode src = hex src ++ [x00].
Proof.
  induction src as [|b src IH]; [reflexivity|]. cbn [base16_encode]. rewrite IH. unfold hex at 2. cbn [flat_map app]. fold (hex src).
  change charset with digits16. f_equal; [|f_equal].
  - rewrite N.shiftr_div_pow2. reflexivity.
  - change 15%N with (N.ones 4). rewrite N.land_ones. reflexivity.
Qed.
Lemma hex_length src : length (hex src) = 2 * length src.
Proof. unfold hex. induction src as [|b src IH]; [reflexivity|]. cbn [flat_map app length]. lia. Qed.
Lemma print_line src : base16_print src = Ok (hexline src).
Proof.
  unfold base16_print. rewrite encode_hex, removelast_last, app_length, hex_length. cbn [length].
  destruct (Nat.ltb_spec 512 (length src)); [destruct (Nat.ltb_spec (length src * 2 + 1) (2 * length src + 1)); [lia|reflexivity]|].
  destruct (Nat.ltb_spec 1025 (2 * length src + 1)); [lia|reflexivity].
Qed.
Lemma print_lines (l : list (bytes * bytes)) :
  fold_right (fun e r => let! line := base16_print (fst e) in let! out := r in Ok (line ++ out)) (Ok []) l = Ok (List.concat (map hexline (map fst l))).
Proof. induction l as [|e l IH]; [reflexivity|]. cbn [fold_right map List.concat]. rewrite IH, print_line. reflexivity. Qed.

(** ** Sessions of the shell *)
(** The verdict of urkel_verify: [None] if it rejects, otherwise the value or its absence. *)
Definition checks (H : bytes -> bytes) (raw k root : bytes) : option (option bytes) :=
  match urkel_verify H raw k (Some root) with
  | Ok v => match v_err v with Some _ => None | None => Some (if v_exists v then Some (v_value v) else None) end
  | _ => None
  end.
(** Bytes written at most. *)
Definition spent (h : list recs) : N := fold_right (fun l n => (n + weight l)%N) 0%N h.

(** What is asked of a command: the hash does not collide on the contents of the database;
    what is committed has values of at most 255 bytes (C18) and fits; lists are not made of trees
    that are too deep (C15); the files are less than 2 GB, or the last one has its newest record where recovery
    looks (C32). *)
Record may (H : bytes -> bytes) (D : fsys) (A : shelf) (p : bytes) (ro : option bytes) (c : cmd) : Prop := {
  may_hash : no_collision H (flat_map (ref_msgs H) (history (A p))) /\ no_zero H (flat_map (ref_msgs H) (history (A p)));
  may_commit : forall l, commits_new (A p) c = Some l ->
    Forall (fun e => length (snd e) <= 255) l /\ (spent (l :: history (A p)) <= LIMIT)%N;
  may_list : c = XList \/ c = XInfo -> forall l k v, shown H (A p) ro = Some l -> In (k, v) l -> levels l k <= 127;
  may_open : forall d, D p = Some d -> (spent (history (A p)) <= MAX_FILE_SIZE - 30)%N \/ aligned (dir_files d) }.

Section Shell.
Variable H : bytes -> bytes.
Hypothesis H_len : forall m, length (H m) = 32.
Variable C : bytes -> bytes -> bytes.
Hypothesis C_len : forall k m, length (C k m) = 20.
Variable usage : bytes.

(** The path given resolves to the directory [p], and its name fits into the buffers (C46). *)
Definition leads (cwd : option bytes) (junk : byte) (path p : bytes) : Prop :=
  init_prefix cwd junk (Some path) = Ok (Some p) /\ length p <= 1013.

(** Any sequence of commands, in any directories, from an empty file system. *)
Inductive shell : fsys -> shelf -> Prop :=
| sh_start : shell (fun _ => None) (fun _ => None)
| sh_command D A fuel cwd junk fresh env argv path ro c p e :
    shell D A -> asks H env argv path ro c -> leads cwd junk path p -> may H D A p ro c -> length fresh = 32 ->
    cli H C usage fuel cwd junk fresh env argv D = Ok e -> shell (e_fs e) (aput A p (leaves (A p) c))
| sh_nothing D A fuel cwd junk fresh env argv e :
    shell D A -> (forall path ro c, ~ asks H env argv path ro c) ->
    cli H C usage fuel cwd junk fresh env argv D = Ok e -> shell (e_fs e) A.

Definition kept1 (x : option dir) (a : option (list recs)) : Prop :=
  match x, a with
  | None, None => True
  | Some d, Some h => exists key w sp, dir_meta d = Some key /\ length key = 32 /\ exec H C key w sp /\ quiet w /\ s_failed sp = false /\
      files w = dir_files d /\ s_hist sp = h /\ s_bytes sp = spent h
  | _, _ => False
  end.
Definition inv (D : fsys) (A : shelf) : Prop := forall p, kept1 (D p) (A p).

Lemma dfiles l : forall d, exists fs, fold_left dapply (map DFile l) (Some d) = Some (mkdir (dir_meta d) fs).
Proof.
  induction l as [|o l IH]; intros d; [exists (dir_files d); destruct d; reflexivity|]. cbn [map fold_left dapply].
  destruct (IH (mkdir (dir_meta d) (apply_op (dir_files d) o))) as (fs & E). exists fs. exact E.
Qed.

Record session (D D' : fsys) (p key : bytes) (w : world) (sp : spec) : Prop := {
  ss_exec : exec H C key w sp; ss_quiet : quiet w; ss_ok : s_failed sp = false;
  ss_bytes : s_bytes sp = spent (s_hist sp);
  ss_key : length key = 32; ss_meta : exists d, D' p = Some d /\ dir_meta d = Some key;
  ss_rest : forall q, q <> p -> D' q = D q }.

Lemma opens D A cwd junk fresh path p : inv D A -> leads cwd junk path p -> length fresh = 32 ->
  (forall d, D p = Some d -> (spent (history (A p)) <= MAX_FILE_SIZE - 30)%N \/ aligned (dir_files d)) ->
  exists d D' key sp, cli_open H C cwd junk fresh path D = Ok (Some (p, d), D') /\ session D D' p key (mkworld (Some d) []) sp /\
    s_hist sp = history (A p) /\ s_cur sp = now (A p) /\ s_txs sp = [].
Proof.
  intros I [Ep Lp] Lf Al. unfold cli_open. rewrite Ep. cbn [bind]. destruct (Nat.ltb_spec 1013 (length p)) as [X|_]; [lia|].
  assert (FP : forall x, fput D p x p = x) by (intros x; unfold fput; destruct (bytes_eqb_spec p p); congruence).
  assert (FQ : forall x q, q <> p -> fput D p x q = D q) by (intros x q N; unfold fput; destruct (bytes_eqb_spec p q); congruence).
  specialize (I p). destruct (D p) as [d|] eqn:Dp; destruct (A p) as [h|] eqn:Ap; cbn [kept1] in I; try contradiction.
  - destruct I as (key & w & sp & Em & Lk & X & Q & Fa & Ef & Eh & Eb).
    assert (Ali : aligned (files w)).
    { destruct (Al d eq_refl) as [Sm|Y]; [|rewrite Ef; exact Y]. cbn [history] in Sm.
      destruct (exec_sim H H_len C C_len _ _ _ X) as (d0 & D0 & V & hist & W & Ew & K & S & F).
      destruct (sm_ok _ _ _ _ _ _ _ _ S Fa) as (_ & E1 & _). unfold files. rewrite Ew, E1. apply (sm_small _ _ _ _ _ _ _ _ S). rewrite Eb. exact Sm. }
    destruct (C35_open_preserves_partial H C H_len C_len key w sp X Fa Ali) as (db & Eo & _).
    assert (R : rests H C key (files w) sp) by (right; exists w; auto).
    destruct (open_rests H H_len C C_len key (files w) sp db R Eo) as [X2 Q2].
    unfold store_init. rewrite Em. destruct (Nat.ltb_spec (length key) 32) as [Y|_]; [lia|]. rewrite (firstn_all2 key) by lia.
    rewrite Ef in Eo. unfold db_open in Eo. destruct (store_open H C key (dir_files d) []) as [[s|]| | | |]; cbn [bind] in Eo |- *; try discriminate.
    apply Ok_inj in Eo. injection Eo as <-. destruct (dfiles (st_log s) d) as (fs & Efs). cbn [app]. rewrite Efs.
    eexists _, _, key, (crashed sp). split; [reflexivity|]. split.
    + constructor; auto; [unfold crashed; cbn [s_bytes s_hist]; congruence|]. exists (mkdir (dir_meta d) fs). split; [apply FP|exact Em].
    + unfold crashed, now. cbn [s_hist s_cur s_txs history]. rewrite Eh. auto.
  - destruct (open_new H H_len C C_len fresh) as (db & Eo & _). assert (X : exec H C fresh (mkworld (Some db) []) spec0) by (apply ex_new; exact Eo).
    destruct (open_rests H H_len C C_len fresh [] spec0 db (or_introl (conj eq_refl eq_refl)) Eo) as [_ Q].
    unfold store_init. cbn [dir_meta dir_files app]. unfold db_open in Eo. destruct (store_open H C fresh [] []) as [[s|]| | | |]; cbn [bind] in Eo |- *; try discriminate.
    apply Ok_inj in Eo. injection Eo as <-. cbn [app fold_left dapply dir_meta dir_files]. destruct (dfiles (st_log s) (mkdir (Some fresh) [])) as (fs & Efs). rewrite Efs.
    eexists _, _, fresh, spec0. split; [reflexivity|]. split; [|auto].
    constructor; auto. exists (mkdir (Some fresh) fs). split; [apply FP|reflexivity].
Qed.

Lemma closes D D' A p key w sp : inv D A -> session D D' p key w sp -> inv (cli_close p w D') (aput A p (Some (s_hist sp))).
Proof.
  intros I [X Q Fa Eb Lk (d & Dp & Em) R] q. unfold cli_close, fput, aput. rewrite Dp. destruct (bytes_eqb_spec p q) as [<-|N].
  - cbn [kept1]. exists key, w, sp. repeat split; auto.
  - rewrite (R q) by congruence. apply I.
Qed.

Definition key_ok (c : cmd) : Prop :=
  match c with XGet k | XInsert k _ | XRemove k | XProve k | XVerify k _ => length k = 32 | _ => True end.
Lemma asks_key env argv path ro c : asks H env argv path ro c -> key_ok c.
Proof.
  intros (l & _ & Cm & _). assert (K : forall s k, names_key H l s k -> length k = 32) by (intros s k [[_ ->]|(_ & _ & E)]; auto).
  destruct Cm; cbn [key_ok]; try exact I; eapply K; eassumption.
Qed.

Lemma session_read D D' p key w sp c a w' : session D D' p key w sp -> allowed H sp w c -> step H C w c = Ok (a, w') ->
  s_failed (snext H sp c a) = false -> s_bytes (snext H sp c a) = spent (s_hist (snext H sp c a)) -> session D D' p key w' (snext H sp c a).
Proof.
  intros [X Q Fa Eb Lk Em R] Al E F' B'. destruct (exec_do H H_len C C_len key w sp c X Al) as (a1 & w1 & E1 & _ & X1 & Q1 & _).
  rewrite E in E1. apply Ok_inj in E1. injection E1 as <- <-. constructor; auto.
Qed.

Lemma small_value key w sp ro l k v : exec H C key w sp -> (ro = None -> s_cur sp = hd [] (s_hist sp)) -> seen H sp ro = Some l -> lookup l k = Some v -> length v <= 255.
Proof.
  intros X Cu Se Lo. assert (Hl : l = [] \/ In l (s_hist sp)).
  { destruct ro as [h|]; cbn [seen] in Se.
    - unfold named in Se. destruct (bytes_eqb h _); [left; congruence|]. apply find_some in Se. tauto.
    - injection Se as <-. rewrite (Cu eq_refl). destruct (s_hist sp); [left; reflexivity|right; now left]. }
  destruct Hl as [->|I]; [discriminate|]. destruct (exec_hist H H_len C C_len key w sp l X I) as (t & St & V).
  pose proof (vals_le_back 255 l t St V) as F. rewrite Forall_forall in F.
  unfold lookup in Lo. destruct (find _ l) as [e|] eqn:E; [|discriminate]. injection Lo as <-. apply find_some in E. apply F, E.
Qed.

Lemma loop_calls rd e rs : forall it fuel, iter_calls rd (S (length rs)) it = Ok (map (fun x => IRec (fst x) (snd x)) rs ++ [IErr e]) ->
  S (length rs) <= fuel -> iter_loop fuel rd it = Ok (rs, e).
Proof.
  induction rs as [|[k v] rs IH]; intros it fuel E L; (destruct fuel as [|fuel]; [cbn [length] in L; lia|]); cbn [iter_loop].
  - cbn [length iter_calls map app] in E. destruct (iter_next rd it) as [[r it']| | | |]; cbn [bind] in *; try discriminate. apply Ok_inj in E. injection E as ->. reflexivity.
  - cbn [length] in E, L. change (iter_calls rd (S (S (length rs))) it) with (let! (r, it) := iter_next rd it in let! rs := iter_calls rd (S (length rs)) it in Ok (r :: rs)) in E.
    destruct (iter_next rd it) as [[r it']| | | |]; cbn [bind] in *; try discriminate.
    destruct (iter_calls rd (S (length rs)) it') as [rs'| | | |] eqn:E2; cbn [bind] in E; try discriminate. apply Ok_inj in E. cbn [map fst snd app] in E. injection E as -> ->.
    rewrite (IH it' fuel E2) by lia. reflexivity.
Qed.

Lemma iterates D D' p key w sp ro : session D D' p key w sp -> collision_free H sp -> s_txs sp = [] ->
  (forall l k v, seen H sp ro = Some l -> In (k, v) l -> levels l k <= 127) ->
  exists N, forall fuel, N <= fuel -> exists w' sp', session D D' p key w' sp' /\ s_hist sp' = s_hist sp /\
    match seen H sp ro with
    | None => cli_iterate H C fuel w ro = Ok (None, w')
    | Some l => exists sorted, Permutation sorted l /\ StronglySorted (fun a b => lex_lt (fst a) (fst b)) sorted /\
        cli_iterate H C fuel w ro = Ok (Some (sorted, EITEREND), w')
    end.
Proof.
  intros S CF Tx Lv. assert (Al : allowed H sp w (CTxCreate ro)) by (split; [exact CF|exact Logic.I]).
  destruct (exec_do H H_len C C_len key w sp _ (ss_exec _ _ _ _ _ _ S) Al) as (a & w' & E & G & _).
  cbn [good] in G. unfold cli_iterate. rewrite E. cbn [bind].
  assert (S' : session D D' p key w' (snext H sp (CTxCreate ro) a)).
  { eapply session_read; [exact S|exact Al|exact E| |]; cbn [snext]; (destruct (seen H sp ro); [cbn [add_tx s_failed s_bytes s_hist]|]); apply S. }
  destruct (seen H sp ro) as [l|] eqn:Se.
  2:{ exists 0. intros fuel _. exists w', (snext H sp (CTxCreate ro) a). split; [exact S'|]. split; [cbn [snext]; rewrite Se; reflexivity|]. rewrite G. reflexivity. }
  assert (Hs : s_hist (snext H sp (CTxCreate ro) a) = s_hist sp) by (cbn [snext]; rewrite Se; reflexivity).
  assert (Tx' : txat (snext H sp (CTxCreate ro) a) 0 = Some l) by (cbn [snext]; rewrite Se; unfold txat, add_tx; cbn [s_txs]; rewrite Tx; reflexivity).
  rewrite Tx in G. cbn [length] in G. subst a.
  destruct (C14_iteration H H_len C C_len key w' _ 0 l (ss_exec _ _ _ _ _ _ S') Tx' (fun k v => Lv l k v eq_refl)) as (sorted & P & So & It).
  exists (Datatypes.S (length sorted)). intros fuel L. exists w', (snext H sp (CTxCreate ro) (ATx 0)). split; [exact S'|]. split; [exact Hs|].
  exists sorted. split; [exact P|]. split; [exact So|]. specialize (It (Datatypes.S (length sorted))). unfold tx_iterate in It.
  destruct (w_db w') as [d|]; [|discriminate]. destruct (live w' 0) as [root| | | |]; cbn [bind] in *; try discriminate.
  rewrite (loop_calls _ EITEREND sorted (iter_create root) fuel); [reflexivity| |exact L]. rewrite It. f_equal.
  rewrite firstn_app, map_length. replace (Datatypes.S (length sorted) - length sorted) with 1 by lia.
  rewrite firstn_all2 by (rewrite map_length; lia). reflexivity.
Qed.

Lemma sorted_keys l : StronglySorted (fun a b : bytes * bytes => lex_lt (fst a) (fst b)) l -> StronglySorted lex_lt (map fst l).
Proof.
  induction 1 as [|e l S IH F]; [constructor|]. cbn [map]. constructor; [exact IH|]. rewrite Forall_forall in *. intros k I. apply in_map_iff in I. destruct I as (x & <- & I). apply F, I.
Qed.
Lemma sum_perm (f : bytes * bytes -> nat) a b : Permutation a b -> list_sum (map f a) = list_sum (map f b).
Proof. intros P. induction P; cbn [map list_sum fold_right] in *; try lia. unfold list_sum in *. lia. Qed.

Lemma body D D' A p key w sp o : session D D' p key w sp -> s_hist sp = history (A p) -> s_cur sp = now (A p) -> s_txs sp = [] ->
  may H D A p (o_root o) (meaning o) -> key_ok (meaning o) -> o_action o <> DoDestroy -> o_action o <> DoVerify ->
  exists N, forall fuel, N <= fuel -> exists out m w' sp', cli_body H C fuel o w = Ok (out, m, w') /\
    expected H (checks H) (A p) (o_root o) (meaning o) out (match m with None => true | Some _ => false end) /\
    session D D' p key w' sp' /\ leaves (A p) (meaning o) = Some (s_hist sp').
Proof.
  intros S Eh Ec Et M Ko Nd Nv. destruct M as [Mh Mc Ml _].
  assert (CF : collision_free H sp) by (unfold collision_free; rewrite Eh; exact Mh).
  assert (See : forall ro, seen H sp ro = shown H (A p) ro) by (intros [h|]; cbn [seen shown]; rewrite ?Eh, ?Ec; reflexivity).
  assert (Cur : forall ro : option bytes, ro = None -> s_cur sp = hd [] (s_hist sp)) by (intros ro _; rewrite Ec, Eh; reflexivity).
  pose proof (ss_exec _ _ _ _ _ _ S) as X. pose proof (ss_ok _ _ _ _ _ _ S) as Fa. pose proof (ss_bytes _ _ _ _ _ _ S) as Eb.
  unfold cli_body, meaning in *. destruct (o_action o) eqn:Ea; try contradiction; cbn [expected leaves key_ok commits_new] in *.
  - (* create *) exists 0. intros fuel _. eexists [], None, w, sp. rewrite Eh. repeat split; auto; apply S.
  - (* info *)
    assert (Al : allowed H sp w CRoot) by (split; [exact CF|exact I]).
    destruct (exec_do H H_len C C_len key w sp _ X Al) as (a & w1 & E & G & _). cbn [good] in G. subst a.
    pose proof (session_read _ _ _ _ _ _ _ _ _ S Al E Fa Eb) as S1. cbn [snext] in S1.
    destruct (iterates _ _ _ _ _ _ (o_root o) S1 CF Et) as (N & It). { intros l k v. rewrite See. apply Ml. auto. }
    exists N. intros fuel L. destruct (It fuel L) as (w2 & sp2 & S2 & H2 & R). rewrite See in R. rewrite E. cbn [bind].
    destruct (shown H (A p) (o_root o)) as [l|].
    + destruct R as (sorted & P & So & ->). cbn [bind errno_eqb_end negb]. rewrite print_line. cbn [bind].
      eexists _, _, w2, sp2. split; [reflexivity|]. split; [|split; [exact S2|rewrite H2, Eh; reflexivity]]. split; [reflexivity|].
      rewrite (Permutation_length P), (sum_perm _ _ _ P), Ec. reflexivity.
    + rewrite R. cbn [bind]. eexists _, _, w2, sp2. split; [reflexivity|]. split; [split; reflexivity|]. split; [exact S2|rewrite H2, Eh; reflexivity].
  - (* root *)
    assert (Al : allowed H sp w CRoot) by (split; [exact CF|exact I]).
    destruct (exec_do H H_len C C_len key w sp _ X Al) as (a & w1 & E & G & _). cbn [good] in G. subst a.
    pose proof (session_read _ _ _ _ _ _ _ _ _ S Al E Fa Eb) as S1. cbn [snext] in S1.
    exists 0. intros fuel _. rewrite E. cbn [bind]. rewrite print_line. cbn [bind]. eexists _, _, w1, sp. split; [reflexivity|].
    split; [split; [reflexivity|rewrite Ec; reflexivity]|]. split; [exact S1|rewrite Eh; reflexivity].
  - (* get *)
    assert (Al : allowed H sp w (CGet (o_key o) (o_root o))) by (split; [exact CF|exact Ko]).
    destruct (exec_do H H_len C C_len key w sp _ X Al) as (a & w1 & E & G & _). cbn [good] in G.
    pose proof (session_read _ _ _ _ _ _ _ _ _ S Al E Fa Eb) as S1. cbn [snext] in S1.
    exists 0. intros fuel _. rewrite E. cbn [bind]. pose proof (small_value key w sp (o_root o)) as Sv. rewrite See in G, Sv.
    destruct (shown H (A p) (o_root o)) as [l|]; [unfold get_answer in G; destruct (lookup l (o_key o)) as [v|] eqn:Lo|]; subst a.
    + destruct (Nat.ltb_spec 1024 (length v)) as [Y|_]; [specialize (Sv l (o_key o) v X (Cur _) eq_refl Lo); lia|].
      rewrite print_line. cbn [bind]. eexists _, _, w1, sp. split; [reflexivity|]. split; [split; reflexivity|]. split; [exact S1|rewrite Eh; reflexivity].
    + eexists _, _, w1, sp. split; [reflexivity|]. split; [split; reflexivity|]. split; [exact S1|rewrite Eh; reflexivity].
    + eexists _, _, w1, sp. split; [reflexivity|]. split; [split; reflexivity|]. split; [exact S1|rewrite Eh; reflexivity].
  - (* insert *)
    assert (Cm : commits sp (CInsert (o_key o) (o_value o)) = if length (o_value o) <=? 1023 then Some (put (now (A p)) (o_key o) (o_value o)) else None).
    { cbn [commits]. rewrite Ec. destruct (Nat.ltb_spec 1023 (length (o_value o))); destruct (Nat.leb_spec (length (o_value o)) 1023); try lia; reflexivity. }
    assert (Al : allowed H sp w (CInsert (o_key o) (o_value o))).
    { split; [exact CF|]. split; [exact Ko|]. intros l El. rewrite Cm in El. split; [|apply S]. destruct (Mc l El) as [M1 M2]. split; [exact M1|].
      rewrite Eb, Eh. exact M2. }
    destruct (exec_do H H_len C C_len key w sp _ X Al) as (a & w1 & E & G & _). cbn [good] in G.
    assert (Sn : snext H sp (CInsert (o_key o) (o_value o)) a = match commits sp (CInsert (o_key o) (o_value o)) with None => sp | Some l => committed sp l end) by reflexivity.
    assert (S1 : session D D' p key w1 (snext H sp (CInsert (o_key o) (o_value o)) a)).
    { eapply session_read; [exact S|exact Al|exact E| |]; rewrite Sn, Cm; (destruct (length (o_value o) <=? 1023); [|assumption]); [reflexivity|].
      cbn [committed s_bytes s_hist spent fold_right]. fold (spent (s_hist sp)). rewrite Eb. reflexivity. }
    exists 0. intros fuel _. rewrite E. cbn [bind]. eexists _, _, w1, _. split; [reflexivity|]. split; [|split; [exact S1|]].
    + destruct (Nat.ltb_spec 1023 (length (o_value o))); destruct (Nat.leb_spec (length (o_value o)) 1023); try lia; subst a; split; reflexivity.
    + rewrite Sn, Cm. destruct (length (o_value o) <=? 1023); cbn [committed s_hist]; rewrite ?Eh; reflexivity.
  - (* remove *)
    assert (Cm : commits sp (CRemove (o_key o)) = match lookup (now (A p)) (o_key o) with Some _ => Some (del (now (A p)) (o_key o)) | None => None end).
    { cbn [commits]. rewrite Ec. destruct (lookup (now (A p)) (o_key o)); reflexivity. }
    assert (Al : allowed H sp w (CRemove (o_key o))).
    { split; [exact CF|]. split; [exact Ko|]. intros l El. rewrite Cm in El. split; [|apply S]. destruct (Mc l El) as [M1 M2]. split; [exact M1|].
      rewrite Eb, Eh. exact M2. }
    destruct (exec_do H H_len C C_len key w sp _ X Al) as (a & w1 & E & G & _). cbn [good] in G.
    assert (Sn : snext H sp (CRemove (o_key o)) a = match commits sp (CRemove (o_key o)) with None => sp | Some l => committed sp l end) by reflexivity.
    assert (S1 : session D D' p key w1 (snext H sp (CRemove (o_key o)) a)).
    { eapply session_read; [exact S|exact Al|exact E| |]; rewrite Sn, Cm; (destruct (lookup (now (A p)) (o_key o)); [|assumption]); [reflexivity|].
      cbn [committed s_bytes s_hist spent fold_right]. fold (spent (s_hist sp)). rewrite Eb. reflexivity. }
    exists 0. intros fuel _. rewrite E. cbn [bind]. eexists _, _, w1, _. split; [reflexivity|]. split; [|split; [exact S1|]].
    + rewrite Ec in G. destruct (lookup (now (A p)) (o_key o)); subst a; split; reflexivity.
    + rewrite Sn, Cm. destruct (lookup (now (A p)) (o_key o)); cbn [committed s_hist]; rewrite ?Eh; reflexivity.
  - (* list *)
    destruct (iterates _ _ _ _ _ _ (o_root o) S CF Et) as (N & It). { intros l k v. rewrite See. apply Ml. auto. }
    exists N. intros fuel L. destruct (It fuel L) as (w2 & sp2 & S2 & H2 & R). rewrite See in R.
    destruct (shown H (A p) (o_root o)) as [l|].
    + destruct R as (sorted & P & So & ->). cbn [bind errno_eqb_end]. rewrite print_lines. cbn [bind].
      eexists _, _, w2, sp2. split; [reflexivity|]. split; [|split; [exact S2|rewrite H2, Eh; reflexivity]]. split; [reflexivity|].
      exists (map fst sorted). split; [apply Permutation_map, P|]. split; [apply sorted_keys, So|reflexivity].
    + rewrite R. cbn [bind]. eexists _, _, w2, sp2. split; [reflexivity|]. split; [split; reflexivity|]. split; [exact S2|rewrite H2, Eh; reflexivity].
  - (* prove *)
    assert (Al : allowed H sp w (CProve (o_key o) (o_root o))) by (split; [exact CF|exact Ko]).
    destruct (exec_do H H_len C C_len key w sp _ X Al) as (a & w1 & E & G & _). cbn [good] in G.
    pose proof (session_read _ _ _ _ _ _ _ _ _ S Al E Fa Eb) as S1. cbn [snext] in S1.
    exists 0. intros fuel _. rewrite E. cbn [bind]. rewrite See in G.
    destruct (shown H (A p) (o_root o)) as [l|]; [destruct G as (raw & -> & _ & V)|subst a].
    + rewrite print_line. cbn [bind]. eexists _, _, w1, sp. split; [reflexivity|]. split; [split; [reflexivity|]|split; [exact S1|rewrite Eh; reflexivity]].
      exists raw. split; [reflexivity|]. unfold checks. rewrite V. destruct (lookup l (o_key o)); reflexivity.
    + eexists _, _, w1, sp. split; [reflexivity|]. split; [split; reflexivity|]. split; [exact S1|rewrite Eh; reflexivity].
Qed.

(** More rounds of the iteration loops change nothing. *)
Lemma loop_mono rd x : forall fuel fuel' it, iter_loop fuel rd it = Ok x -> fuel <= fuel' -> iter_loop fuel' rd it = Ok x.
Proof.
  intros fuel. revert x. induction fuel as [|fuel IH]; intros x fuel' it E L; [discriminate|]. destruct fuel' as [|fuel']; [lia|]. cbn [iter_loop] in *.
  destruct (iter_next rd it) as [[[k v|e] it']| | | |]; cbn [bind] in *; try discriminate; [|exact E].
  destruct (iter_loop fuel rd it') as [[l e]| | | |] eqn:E2; cbn [bind] in E; try discriminate. rewrite (IH _ fuel' it' E2) by lia. exact E.
Qed.
Lemma iterate_mono fuel fuel' w ro x : cli_iterate H C fuel w ro = Ok x -> fuel <= fuel' -> cli_iterate H C fuel' w ro = Ok x.
Proof.
  intros E L. unfold cli_iterate in *. destruct (step H C w (CTxCreate ro)) as [[a w']| | | |]; cbn [bind] in *; try discriminate.
  destruct a; try exact E. destruct (w_db w') as [d|]; [|exact E]. destruct (live w' i) as [root| | | |]; cbn [bind] in *; try discriminate.
  destruct (iter_loop fuel _ _) as [y| | | |] eqn:E2; cbn [bind] in E; try discriminate. rewrite (loop_mono _ _ _ fuel' _ E2 L). exact E.
Qed.
Lemma body_mono fuel fuel' o w x : cli_body H C fuel o w = Ok x -> fuel <= fuel' -> cli_body H C fuel' o w = Ok x.
Proof.
  intros E L. unfold cli_body in *. destruct (o_action o); try exact E.
  - destruct (step H C w CRoot) as [[a w']| | | |]; cbn [bind] in *; try discriminate. destruct a; try exact E.
    destruct (cli_iterate H C fuel w' (o_root o)) as [y| | | |] eqn:E2; cbn [bind] in E; try discriminate. rewrite (iterate_mono _ fuel' _ _ _ E2 L). exact E.
  - destruct (cli_iterate H C fuel w (o_root o)) as [y| | | |] eqn:E2; cbn [bind] in E; try discriminate. rewrite (iterate_mono _ fuel' _ _ _ E2 L). exact E.
Qed.

Definition action_eq (a b : action) : {a = b} + {a <> b}.
Proof. decide equality. Defined.

Lemma command_runs D A cwd junk fresh env argv path ro c p :
  inv D A -> asks H env argv path ro c -> leads cwd junk path p -> may H D A p ro c -> length fresh = 32 ->
  exists N, forall fuel, N <= fuel -> exists e, cli H C usage fuel cwd junk fresh env argv D = Ok e /\
    expected H (checks H) (A p) ro c (e_out e) (e_ok e) /\ (e_ok e = false <-> e_err e <> None) /\ inv (e_fs e) (aput A p (leaves (A p) c)).
Proof.
  intros I As Ld M Lf. pose proof (asks_key _ _ _ _ _ As) as Ko.
  destruct (options_spec H env argv) as (r & Er & R & _). destruct (proj2 (R path ro c) As) as (o & -> & <- & <- & <-). clear R.
  unfold cli. rewrite Er. cbn [bind]. 
  assert (AP : forall x, aput A p x p = x) by (intros x; unfold aput; destruct (bytes_eqb_spec p p); congruence).
  assert (FP : forall q, aput A p (A p) q = A q) by (intros q; unfold aput; destruct (bytes_eqb_spec p q); congruence).
  destruct (action_eq (o_action o) DoDestroy) as [Ed|Nd]; [|destruct (action_eq (o_action o) DoVerify) as [Ev|Nv]].
  - exists 0. intros fuel _. unfold cli_main. rewrite Ed. unfold cli_destroy. destruct Ld as [-> Lp]. cbn [bind].
    destruct (Nat.ltb_spec 1013 (length p)); [lia|]. unfold meaning. rewrite Ed. cbn [expected leaves]. pose proof (I p) as Ip.
    destruct (D p) as [d|] eqn:Dp; destruct (A p) as [h|] eqn:Ap; cbn [kept1] in Ip; try contradiction; cbn [bind]; (eexists; split; [reflexivity|]); cbn [e_out e_ok e_err e_fs].
    + split; [split; reflexivity|]. split; [split; [discriminate|congruence]|]. intros q. unfold fput, aput. destruct (bytes_eqb_spec p q); [exact Logic.I|apply I].
    + split; [split; reflexivity|]. split; [split; [discriminate|reflexivity]|]. intros q. unfold aput. destruct (bytes_eqb_spec p q) as [<-|]; [rewrite Dp; exact Logic.I|apply I].
  - exists 0. intros fuel _. unfold cli_main. rewrite Ev. unfold meaning in Ko |- *. rewrite Ev in Ko |- *. cbn [expected leaves key_ok] in *.
    assert (IA : inv D (aput A p (A p))) by (intros q; rewrite FP; apply I).
    destruct (o_root o) as [root|].
    + unfold checks. destruct (C10_verifier_total H H_len (o_proof o) (o_key o) (Some root) Ko) as (v & Evv & Lv & _). rewrite Evv. cbn [bind].
      destruct (v_err v); [eexists; split; [reflexivity|]; cbn [e_out e_ok e_err e_fs]; split; [split; reflexivity|]; split; [split; [discriminate|reflexivity]|exact IA]|].
      destruct (v_exists v).
      * destruct (Nat.ltb_spec 1024 (length (v_value v))); [lia|]. rewrite print_line. cbn [bind]. eexists. split; [reflexivity|]. cbn [e_out e_ok e_err e_fs].
        split; [split; reflexivity|]. split; [split; [discriminate|congruence]|exact IA].
      * eexists. split; [reflexivity|]. cbn [e_out e_ok e_err e_fs]. split; [split; reflexivity|]. split; [split; [discriminate|congruence]|exact IA].
    + eexists. split; [reflexivity|]. cbn [e_out e_ok e_err e_fs]. split; [split; reflexivity|]. split; [split; [discriminate|reflexivity]|exact IA].
  - destruct (opens D A cwd junk fresh (o_path o) p I Ld Lf (may_open _ _ _ _ _ _ M)) as (d & D' & key & sp & Eo & S & Eh & Ec & Et).
    destruct (body D D' A p key _ sp o S Eh Ec Et M Ko Nd Nv) as (N & B). exists N. intros fuel L.
    destruct (B fuel L) as (out & m & w' & sp' & Eb & Ex & S' & El).
    assert (Em : cli_main H C fuel cwd junk fresh o D = Ok (mkexit out m (match m with None => true | Some _ => false end) (cli_close p w' D'))).
    { unfold cli_main. destruct (o_action o); try contradiction; rewrite Eo; cbn [bind]; rewrite Eb; reflexivity. }
    rewrite Em. eexists. split; [reflexivity|]. cbn [e_out e_ok e_err e_fs]. split; [exact Ex|]. split; [destruct m; split; congruence|].
    rewrite El. eapply closes; [exact I|exact S'].
Qed.

Lemma cli_mono fuel fuel' cwd junk fresh env argv D e : cli H C usage fuel cwd junk fresh env argv D = Ok e -> fuel <= fuel' ->
  cli H C usage fuel' cwd junk fresh env argv D = Ok e.
Proof.
  intros E L. unfold cli in *. destruct (options_init H argv env) as [[m| | |o]| | | |]; cbn [bind] in *; try exact E. unfold cli_main in *.
  assert (Q : (let! (r, D0) := cli_open H C cwd junk fresh (o_path o) D in
    match r with
    | None => Ok (mkexit [] (Some (match o_action o with DoCreate => MCreate | _ => MOpen end)) false D0)
    | Some (p, d) => let! (out, m, w) := cli_body H C fuel o (mkworld (Some d) []) in Ok (mkexit out m (match m with None => true | Some _ => false end) (cli_close p w D0))
    end) = Ok e ->
    (let! (r, D0) := cli_open H C cwd junk fresh (o_path o) D in
    match r with
    | None => Ok (mkexit [] (Some (match o_action o with DoCreate => MCreate | _ => MOpen end)) false D0)
    | Some (p, d) => let! (out, m, w) := cli_body H C fuel' o (mkworld (Some d) []) in Ok (mkexit out m (match m with None => true | Some _ => false end) (cli_close p w D0))
    end) = Ok e).
  { destruct (cli_open _ _ _ _ _ _ _) as [[[[p d]|] D0]| | | |]; cbn [bind]; try discriminate; auto.
    destruct (cli_body H C fuel o (mkworld (Some d) [])) as [y| | | |] eqn:Eb; cbn [bind]; try discriminate. rewrite (body_mono _ fuel' _ _ _ Eb L). auto. }
  destruct (o_action o); try exact E; apply Q, E.
Qed.

Lemma nothing_runs fuel cwd junk fresh env argv D : (forall path ro c, ~ asks H env argv path ro c) ->
  exists e, cli H C usage fuel cwd junk fresh env argv D = Ok e /\ e_fs e = D /\ (e_ok e = true <-> asks_help argv) /\
    (e_ok e = true -> e_out e = usage).
Proof.
  intros No. destruct (options_spec H env argv) as (r & Er & R & Hp). unfold cli. rewrite Er. cbn [bind]. destruct r as [m| | |o].
  - eexists. split; [reflexivity|]. cbn [e_fs e_ok e_out]. split; [reflexivity|]. rewrite <- Hp. split; [split; discriminate|discriminate].
  - eexists. split; [reflexivity|]. cbn [e_fs e_ok e_out]. split; [reflexivity|]. rewrite <- Hp. split; [split; discriminate|discriminate].
  - eexists. split; [reflexivity|]. cbn [e_fs e_ok e_out]. split; [reflexivity|]. rewrite <- Hp. split; [split; reflexivity|reflexivity].
  - exfalso. apply (No (o_path o) (o_root o) (meaning o)). apply R. exists o. auto.
Qed.

Lemma shell_inv D A : shell D A -> inv D A.
Proof.
  induction 1 as [|D A fuel cwd junk fresh env argv path ro c p e S IH As Ld M Lf E|D A fuel cwd junk fresh env argv e S IH No E].
  - intros p. exact Logic.I.
  - destruct (command_runs D A cwd junk fresh env argv path ro c p IH As Ld M Lf) as (N & R).
    destruct (R (Nat.max fuel N)) as (e' & E' & _ & _ & I); [lia|]. rewrite (cli_mono _ (Nat.max fuel N) _ _ _ _ _ _ _ E) in E' by lia.
    apply Ok_inj in E'. subst e'. exact I.
  - destruct (nothing_runs fuel cwd junk fresh env argv D No) as (e' & E' & F & _). rewrite E in E'. apply Ok_inj in E'. subst e'. rewrite F. exact IH.
Qed.
End Shell.

(** ** Theorems *)

(** C57: after any sequence of command lines in any directories, every command line that means
    something prints what CliSpec.v says, exits with the status it says, prints a message exactly when it
    fails, and leaves the database it says ([sh_command]: the next command finds [leaves]). *)
Theorem C57_commands_partial :
  forall (H : bytes -> bytes), (forall m, length (H m) = 32) ->
  forall (C : bytes -> bytes -> bytes), (forall k m, length (C k m) = 20) ->
  forall usage D A cwd junk fresh env argv path ro c p,
  shell H C usage D A -> asks H env argv path ro c -> leads cwd junk path p -> may H D A p ro c -> length fresh = 32 ->
  exists n, forall fuel, n <= fuel -> exists e, cli H C usage fuel cwd junk fresh env argv D = Ok e /\
    expected H (checks H) (A p) ro c (e_out e) (e_ok e) /\ (e_ok e = false <-> e_err e <> None) /\
    shell H C usage (e_fs e) (aput A p (leaves (A p) c)).
Proof.
  intros H HL C CL usage D A cwd junk fresh env argv path ro c p S As Ld M Lf.
  destruct (command_runs H HL C CL usage D A cwd junk fresh env argv path ro c p (shell_inv H HL C CL usage D A S) As Ld M Lf) as (N & R).
  exists N. intros fuel L. destruct (R fuel L) as (e & E & Ex & Er & _). exists e. split; [exact E|]. split; [exact Ex|]. split; [exact Er|].
  eapply sh_command; eassumption.
Qed.

(** Every other command line changes nothing, and fails unless help was asked for. *)
Theorem C57_rejected : forall H C usage fuel cwd junk fresh env argv D, (forall path ro c, ~ asks H env argv path ro c) ->
  exists e, cli H C usage fuel cwd junk fresh env argv D = Ok e /\ e_fs e = D /\ (e_ok e = true <-> asks_help argv) /\
    (e_ok e = true -> e_out e = usage).
Proof. intros H C usage. intros. apply nothing_runs. assumption. Qed.

Lemma ref_root_length H l : (forall m, length (H m) = 32) -> length (ref_root H l) = 32.
Proof.
  intros HL. unfold ref_root. change 257 with (S 256). generalize 256. intros n. destruct l as [|[k v] [|e l]]; cbn [ref_root_at].
  - apply repeat_length.
  - apply HL.
  - apply HL.
Qed.
Lemma hex_denotes d : denotes (hex d) d.
Proof. destruct (C37_encode d) as (s & E & _ & _ & Dn & _). rewrite encode_hex in E. apply app_inj_tail in E. destruct E as [-> _]. exact Dn. Qed.
Lemma hex_word d : hd_error (hex d) <> Some x2d.
Proof.
  destruct d as [|b d]; [discriminate|]. unfold hex. cbn [flat_map app hd_error]. generalize (N.to_nat (b2n b / 16)). intros n E.
  destruct n as [|[|[|[|[|[|[|[|[|[|[|[|[|[|[|[|n]]]]]]]]]]]]]]]]; try destruct n; discriminate E.
Qed.

(** What prove prints, pasted into verify: the value is printed, or nothing for an absent key,
    and the exit status is 0; wherever and whenever verify is run. *)
Theorem C57_prove_verify :
  forall (H : bytes -> bytes), (forall m, length (H m) = 32) ->
  forall (C : bytes -> bytes -> bytes), (forall k m, length (C k m) = 20) ->
  forall usage D A cwd junk fresh env argv path ro k l p,
  shell H C usage D A -> asks H env argv path ro (XProve k) -> leads cwd junk path p -> may H D A p ro (XProve k) -> length fresh = 32 ->
  shown H (A p) ro = Some l ->
  exists n, forall fuel, n <= fuel -> exists e s, cli H C usage fuel cwd junk fresh env argv D = Ok e /\ e_out e = s ++ [x0a] /\
    forall fuel' cwd' junk' fresh' env' D',
      cli H C usage fuel' cwd' junk' fresh' env' [text "verify"; hex k; s; text "-r"; hex (ref_root H l)] D' =
      Ok (mkexit (match lookup l k with Some v => hexline v | None => [] end) None true D').
Proof.
  intros H HL C CL usage D A cwd junk fresh env argv path ro k l p S As Ld M Lf Sh. pose proof (asks_key H HL _ _ _ _ _ As) as Lk. cbn [key_ok] in Lk.
  destruct (C57_commands_partial H HL C CL usage D A cwd junk fresh env argv path ro (XProve k) p S As Ld M Lf) as (N & R).
  exists N. intros fuel L. destruct (R fuel L) as (e & E & Ex & _). cbn [expected] in Ex. rewrite Sh in Ex. destruct Ex as (_ & raw & Eo & Ck).
  exists e, (hex raw). split; [exact E|]. split; [exact Eo|]. intros fuel' cwd' junk' fresh' env' D'.
  assert (As' : asks H env' [text "verify"; hex k; hex raw; text "-r"; hex (ref_root H l)] (path_meant [] env') (Some (ref_root H l)) (XVerify k raw)).
  { pose proof (ref_root_length H l HL) as Lr. generalize dependent (ref_root H l). intros R0 _ Lr. exists [IWord (text "verify"); IWord (hex k); IWord (hex raw); IRoot R0]. split; [split|split; [|split; reflexivity]].
    - cbn [words flat_map app length]. lia.
    - exists [[text "verify"]; [hex k]; [hex raw]; [text "-r"; hex R0]]. split; [|reflexivity].
      repeat (apply Forall2_cons); [| | | |constructor]; cbn [spelled].
      + split; [reflexivity|discriminate].
      + split; [reflexivity|apply hex_word].
      + split; [reflexivity|apply hex_word].
      + exists (hex R0). split; [now left|]. split; [apply hex_denotes|exact Lr].
    - cbn [words flat_map app]. constructor; [|apply hex_denotes]. right. split; [intros [X|[X|[X|[X|[]]]]]; discriminate|]. split; [apply hex_denotes|exact Lk]. }
  destruct (options_spec H env' [text "verify"; hex k; hex raw; text "-r"; hex (ref_root H l)]) as (r & Er & Rr & _).
  destruct (proj2 (Rr _ _ _) As') as (o & -> & _ & Ero & Em). unfold cli. rewrite Er. cbn [bind]. unfold cli_main, meaning in *.
  destruct (o_action o); try discriminate. injection Em as -> ->. rewrite Ero.
  unfold checks in Ck. destruct (C10_verifier_total H HL raw k (Some (ref_root H l)) Lk) as (v & Evv & Lv & _). rewrite Evv in Ck |- *. cbn [bind].
  destruct (v_err v); [discriminate|]. injection Ck as Ck. destruct (v_exists v); rewrite <- Ck.
  - destruct (Nat.ltb_spec 1024 (length (v_value v))); [lia|]. rewrite print_line. reflexivity.
  - reflexivity.
Qed.

(** ** Examples and refutations *)
Definition DB : bytes := text "/db".
Lemma raw_key H l k : length k = 32 -> ~ In IHash l -> names_key H l (hex k) k.
Proof. intros L N. right. split; [exact N|]. split; [apply hex_denotes|exact L]. Qed.
Lemma ask_insert H env k v : length k = 32 -> length v <= 1024 -> asks H env [text "insert"; hex k; hex v; text "-p"; DB] DB None (XInsert k v).
Proof.
  intros Lk Lv. exists [IWord (text "insert"); IWord (hex k); IWord (hex v); IPath DB]. split; [split|split; [|split; reflexivity]].
  - cbn [words flat_map app length]. lia.
  - exists [[text "insert"]; [hex k]; [hex v]; [text "-p"; DB]]. split; [|reflexivity].
    repeat (apply Forall2_cons); [| | | |constructor]; cbn [spelled]; try (split; [reflexivity|apply hex_word]); [split; [reflexivity|discriminate]|now left].
  - cbn [words flat_map app]. constructor; [|apply hex_denotes|exact Lv]. apply raw_key; [exact Lk|]. intros [X|[X|[X|[X|[]]]]]; discriminate.
Qed.
Lemma ask_get H env k : length k = 32 -> asks H env [text "get"; text "-p"; DB; hex k] DB None (XGet k).
Proof.
  intros Lk. exists [IWord (text "get"); IPath DB; IWord (hex k)]. split; [split|split; [|split; reflexivity]].
  - cbn [words flat_map app length]. lia.
  - exists [[text "get"]; [text "-p"; DB]; [hex k]]. split; [|reflexivity].
    repeat (apply Forall2_cons); [| | |constructor]; cbn [spelled]; [split; [reflexivity|discriminate]|now left|split; [reflexivity|apply hex_word]].
  - cbn [words flat_map app]. constructor. apply raw_key; [exact Lk|]. intros [X|[X|[X|[]]]]; discriminate.
Qed.
Lemma ask_info H env r : length r = 32 -> asks H env [text "info"; text "-p"; DB; text "--root"; hex r] DB (Some r) XInfo.
Proof.
  intros Lr. exists [IWord (text "info"); IPath DB; IRoot r]. split; [split|split; [|split; reflexivity]].
  - cbn [words flat_map app length]. lia.
  - exists [[text "info"]; [text "-p"; DB]; [text "--root"; hex r]]. split; [|reflexivity].
    repeat (apply Forall2_cons); [| | |constructor]; cbn [spelled]; [split; [reflexivity|discriminate]|now left|].
    exists (hex r). split; [now right|]. split; [apply hex_denotes|exact Lr].
  - cbn [words flat_map app]. constructor.
Qed.
Lemma leads_db : leads None x00 DB DB.
Proof. split; [vm_compute; reflexivity|]. unfold DB. vm_compute. lia. Qed.

(** Conditions on a small database. *)
Lemma may_small D A p h ro c : A p = h ->
  nocoll_b toy (flat_map (ref_msgs toy) (history h)) = true -> nozero_b toy (flat_map (ref_msgs toy) (history h)) = true ->
  (forall l, commits_new h c = Some l -> forallb (fun e => length (snd e) <=? 255) l && (spent (l :: history h) <=? LIMIT)%N = true) ->
  (c = XList \/ c = XInfo -> forall l k v, shown toy h ro = Some l -> In (k, v) l -> levels l k <= 127) ->
  (spent (history h) <=? MAX_FILE_SIZE - 30)%N = true -> may toy D A p ro c.
Proof.
  intros <- E1 E2 E3 E4 E5. constructor.
  - split; [apply nocoll_b_ok, E1|apply nozero_b_ok, E2].
  - intros l El. specialize (E3 l El). apply andb_true_iff in E3. destruct E3 as [X Y]. split; [|apply N.leb_le, Y].
    apply Forall_forall. rewrite forallb_forall in X. intros e I. apply Nat.leb_le, X, I.
  - exact E4.
  - intros d _. left. apply N.leb_le, E5.
Qed.

Definition H1 : option (list recs) := Some [[(kfoo, v1)]].
Definition H2 : option (list recs) := Some [put [(kfoo, v1)] kbar v2; [(kfoo, v1)]].
Lemma aput_get A p x : aput A p x p = x.
Proof. unfold aput. destruct (bytes_eqb_spec p p); congruence. Qed.
(** Two insertions by two processes. *)
Lemma two_inserts usage : exists D A, shell toy toyC usage D A /\ A DB = H2.
Proof.
  pose proof (sh_start toy toyC usage) as S0. set (D0 := fun _ => None) in S0. set (A0 := fun _ => None) in S0.
  assert (E0 : A0 DB = None) by reflexivity. clearbody A0 D0.
  destruct (C57_commands_partial toy toy_len toyC toyC_len usage D0 A0 None x00 dkey None _ _ _ _ _ S0 (ask_insert toy None kfoo v1 eq_refl ltac:(vm_compute; lia)) leads_db) as (n & R).
  { apply (may_small _ _ _ _ _ _ E0); [vm_compute; reflexivity|vm_compute; reflexivity| |intros [X|X]; discriminate|vm_compute; reflexivity].
    intros l X. vm_compute in X. injection X as <-. vm_compute. reflexivity. }
  { reflexivity. }
  destruct (R n (le_n _)) as (e & _ & _ & _ & S1). clear R. rewrite E0 in S1.
  change (leaves None (XInsert kfoo v1)) with H1 in S1. set (A1 := aput A0 DB H1) in S1. assert (E1 : A1 DB = H1) by apply aput_get. clearbody A1.
  destruct (C57_commands_partial toy toy_len toyC toyC_len usage (e_fs e) A1 None x00 dkey None _ _ _ _ _ S1 (ask_insert toy None kbar v2 eq_refl ltac:(vm_compute; lia)) leads_db) as (n' & R).
  { apply (may_small _ _ _ _ _ _ E1); [vm_compute; reflexivity|vm_compute; reflexivity| |intros [X|X]; discriminate|vm_compute; reflexivity].
    intros l X. vm_compute in X. injection X as <-. vm_compute. reflexivity. }
  { reflexivity. }
  destruct (R n' (le_n _)) as (e' & _ & _ & _ & S2). rewrite E1 in S2. change (leaves H1 (XInsert kbar v2)) with H2 in S2.
  eexists _, _. split; [exact S2|apply aput_get].
Qed.

Lemma info_shape : forall (a b ab n c d t R : bytes), a ++ b = ab -> a ++ b ++ n ++ c ++ d ++ n ++ t ++ R = ab ++ n ++ (c ++ d ++ n) ++ t ++ R.
Proof. intros. subst ab. rewrite <- !app_assoc. reflexivity. Qed.

(** info --root R describes two different states: the number of items and the size are those of
    the contents named R, the root printed is that of the newest contents. *)
Theorem C57_info_root_refuted : exists usage D A r l fuel e pre r',
  shell toy toyC usage D A /\ shown toy (A DB) (Some r) = Some l /\ ref_root toy l = r /\ length l = 1 /\
  asks toy None [text "info"; text "-p"; DB; text "--root"; hex r] DB (Some r) XInfo /\
  cli toy toyC usage fuel None x00 dkey None [text "info"; text "-p"; DB; text "--root"; hex r] D = Ok e /\ e_ok e = true /\
  e_out e = text "Items: 1" ++ [x0a] ++ pre ++ text "Root:  " ++ hexline r' /\ r' <> r.
Proof.
  destruct (two_inserts []) as (D & A & S & EA). set (r := ref_root toy [(kfoo, v1)]).
  assert (Lr : length r = 32) by apply (ref_root_length toy _ toy_len).
  assert (Sh : shown toy (A DB) (Some r) = Some [(kfoo, v1)]) by (rewrite EA; vm_compute; reflexivity).
  destruct (C57_commands_partial toy toy_len toyC toyC_len [] D A None x00 dkey None _ _ _ _ _ S (ask_info toy None r Lr) leads_db) as (n & R).
  { apply (may_small _ _ _ _ _ _ EA); [vm_compute; reflexivity|vm_compute; reflexivity|discriminate| |vm_compute; reflexivity]. intros _ l k v X.
    rewrite <- EA, Sh in X. injection X as <-. intros [X|[]]. injection X as <- <-. vm_compute. lia. }
  { reflexivity. }
  destruct (R n (le_n _)) as (e & E & Ex & _). cbn [expected] in Ex. rewrite Sh in Ex. destruct Ex as [Eo Ex].
  exists [], D, A, r, [(kfoo, v1)], n, e,
    (text "Size:  " ++ number (list_sum (map (fun e => 32 + length (snd e)) [(kfoo, v1)])) ++ [x0a]), (ref_root toy (now (A DB))).
  split; [exact S|]. split; [exact Sh|]. split; [reflexivity|]. split; [reflexivity|].
  split; [exact (ask_info toy None r Lr)|]. split; [exact E|]. split; [exact Eo|].
  split.
  - rewrite Ex. apply info_shape. reflexivity.
  - rewrite EA. unfold r. vm_compute. discriminate.
Qed.

(** Asking for a key in a directory without a database fails, and creates a database there. *)
Theorem C57_reading_creates_refuted : forall H, (forall m, length (H m) = 32) -> forall C, (forall k m, length (C k m) = 20) ->
  forall usage fresh k, length fresh = 32 -> length k = 32 -> exists fuel e,
  asks H None [text "get"; text "-p"; DB; hex k] DB None (XGet k) /\
  cli H C usage fuel None x00 fresh None [text "get"; text "-p"; DB; hex k] (fun _ => None) = Ok e /\ e_ok e = false /\ e_fs e DB <> None.
Proof.
  intros H HL C CL usage fresh k Lf Lk.
  destruct (C57_commands_partial H HL C CL usage _ _ None x00 fresh None _ _ _ _ _ (sh_start H C usage) (ask_get H None k Lk) leads_db) as (n & R).
  { constructor; cbn [history flat_map].
    - split; [intros a b []|intros a []].
    - discriminate.
    - intros [X|X]; discriminate.
    - discriminate. }
  { exact Lf. }
  destruct (R n (le_n _)) as (e & E & Ex & _ & S). exists n, e. split; [apply ask_get, Lk|]. split; [exact E|].
  split; [apply Ex|]. pose proof (shell_inv H HL C CL usage _ _ S DB) as I. rewrite aput_get in I. cbn [leaves commits_new history] in I.
  intros X. rewrite X in I. exact I.
Qed.

(** The conditions of the theorems: a command on a database with two commits; its answer. *)
Theorem C57_nonvacuous : exists usage D A, shell toy toyC usage D A /\ A DB = H2 /\ may toy D A DB None (XGet kfoo) /\
  asks toy None [text "get"; text "-p"; DB; hex kfoo] DB None (XGet kfoo) /\ leads None x00 DB DB /\
  expected toy (checks toy) (A DB) None (XGet kfoo) (text "01020304" ++ [x0a]) true.
Proof.
  destruct (two_inserts []) as (D & A & S & EA). exists [], D, A. split; [exact S|]. split; [exact EA|]. split; [|split; [apply ask_get; reflexivity|]].
  - apply (may_small _ _ _ _ _ _ EA); [vm_compute; reflexivity|vm_compute; reflexivity|discriminate|intros [X|X]; discriminate|vm_compute; reflexivity].
  - split; [exact leads_db|]. rewrite EA. vm_compute. auto.
Qed.
Print Assumptions C57_commands_partial.
Print Assumptions C57_rejected.
Print Assumptions C57_prove_verify.
Print Assumptions C57_info_root_refuted.
Print Assumptions C57_reading_creates_refuted.
