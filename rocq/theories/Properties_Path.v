(** * C43, C46: the database path and the buffers built from it. *)
From Verif Require Import Path Properties_Names.
From Coq Require Import ZifyBool ZifyNat ZifyN.

(** ** Specification *)

(** The components of a path: the (possibly empty) pieces between slashes. *)
Fixpoint pieces (s : bytes) : list bytes :=
  match s with
  | [] => [[]]
  | c :: s => if byte_eq_dec c slash then [] :: pieces s else
      match pieces s with h :: t => (c :: h) :: t | [] => [[c]] end
  end.
(** Following the components from directory [dir] (innermost name first): an empty one and
    "." stay, ".." goes to the parent (the root is its own parent), any other goes down. *)
Fixpoint follow (dir : list bytes) (cs : list bytes) : list bytes :=
  match cs with
  | [] => dir
  | c :: cs =>
    if bytes_eq_dec c [] then follow dir cs else
    if bytes_eq_dec c [dot] then follow dir cs else
    if bytes_eq_dec c [dot; dot] then follow (tl dir) cs else follow (c :: dir) cs
  end.
(** The directory an absolute path names, outermost name first. *)
Definition named (s : bytes) : list bytes := rev (follow [] (pieces s)).
(** The canonical path of a directory. *)
Definition canonical (d : list bytes) : bytes :=
  match d with [] => [slash] | _ => concat (map (cons slash) d) end.
Definition absolute (s : bytes) : Prop := exists t, s = slash :: t.
(** A proper component. *)
Definition proper (c : bytes) : Prop := c <> [] /\ c <> [dot] /\ c <> [dot; dot] /\ ~ In slash c.

(** ** Facts *)
Lemma beq_spec a b : reflect (a = b) (beq a b).
Proof. unfold beq. destruct (byte_eq_dec a b); constructor; assumption. Qed.
Lemma load_app a b i : load (a ++ b) (length a + i) = load b i.
Proof. unfold load. rewrite nth_error_app2 by lia. replace (length a + i - length a) with i by lia. reflexivity. Qed.
Lemma load_at a c b i : i = length a -> load (a ++ c :: b) i = Ok c.
Proof. intros ->. replace (length a) with (length a + 0) by lia. rewrite load_app. reflexivity. Qed.

Lemma pieces_flat p : ~ In slash p -> pieces p = [p].
Proof.
  induction p as [|c p IH]; intros F; [reflexivity|]. cbn [pieces]. destruct (byte_eq_dec c slash) as [->|]; [destruct F; now left|].
  rewrite IH; [reflexivity|]. intros I. apply F. now right.
Qed.
Lemma pieces_cut p s : ~ In slash p -> pieces (p ++ slash :: s) = p :: pieces s.
Proof.
  induction p as [|c p IH]; intros F; cbn [app pieces].
  - destruct (byte_eq_dec slash slash); [reflexivity|contradiction].
  - destruct (byte_eq_dec c slash) as [->|]; [destruct F; now left|].
    rewrite IH; [reflexivity|]. intros I. apply F. now right.
Qed.
Lemma pieces_head s : exists h, ~ In slash h /\ (s = h \/ exists t, s = h ++ slash :: t).
Proof.
  induction s as [|c s (h & F & Q)]; [exists []; split; [intros []|now left]|].
  destruct (byte_eq_dec c slash) as [->|N]; [exists []; split; [intros []|right; exists s; reflexivity]|].
  exists (c :: h). split; [intros [->|I]; [now apply N|exact (F I)]|]. destruct Q as [->|[t ->]]; [now left|right; exists t; reflexivity].
Qed.

Lemma follow_proper d c cs : proper c -> follow d (c :: cs) = follow (c :: d) cs.
Proof.
  intros (A & B & D & _). cbn [follow]. destruct (bytes_eq_dec c []); [contradiction|]. destruct (bytes_eq_dec c [dot]); [contradiction|].
  destruct (bytes_eq_dec c [dot; dot]); [contradiction|]. reflexivity.
Qed.
Lemma follow_empty d cs : follow d ([] :: cs) = follow d cs.
Proof. reflexivity. Qed.
Lemma follow_dot d cs : follow d ([dot] :: cs) = follow d cs.
Proof. reflexivity. Qed.
Lemma follow_dots d cs : follow d ([dot; dot] :: cs) = follow (tl d) cs.
Proof. reflexivity. Qed.

Lemma pieces_noslash s : Forall (fun c => ~ In slash c) (pieces s).
Proof.
  induction s as [|c s IH]; [repeat constructor; intros []|]. cbn [pieces]. destruct (byte_eq_dec c slash); [constructor; [intros []|exact IH]|].
  destruct (pieces s) as [|h t]; [repeat constructor; intros [|[]]; congruence|]. inversion IH; subst. constructor; [|assumption].
  intros [|I]; [congruence|contradiction].
Qed.
Lemma follow_all_proper cs : forall d, Forall proper d -> Forall (fun c => ~ In slash c) cs -> Forall proper (follow d cs).
Proof.
  induction cs as [|c cs IH]; intros d D F; [exact D|]. inversion F as [|? ? F1 F2]; subst. cbn [follow].
  destruct (bytes_eq_dec c []); [auto|]. destruct (bytes_eq_dec c [dot]); [auto|]. destruct (bytes_eq_dec c [dot; dot]).
  - apply IH; [|exact F2]. destruct D; cbn; [constructor|assumption].
  - apply IH; [|exact F2]. constructor; [|exact D]. repeat split; assumption.
Qed.

(** The output so far: complete components and the one in progress. *)
Definition outp (cs : list bytes) (p : bytes) : bytes := slash :: concat (map (fun c => c ++ [slash]) cs) ++ p.
Lemma outp_push cs p : outp (cs ++ [p]) [] = outp cs p ++ [slash].
Proof. unfold outp. rewrite map_app, concat_app. cbn. rewrite !app_nil_r, <- app_assoc. reflexivity. Qed.
Lemma outp_more cs p c : outp cs (p ++ [c]) = outp cs p ++ [c].
Proof. unfold outp. cbn. rewrite <- app_assoc. reflexivity. Qed.
Lemma outp_end cs : exists a, outp cs [] = a ++ [slash].
Proof.
  destruct cs as [|c cs _] using rev_ind; [exists []; reflexivity|]. exists (outp cs c). apply outp_push.
Qed.

Lemma wind_spec a x rest b : ~ In slash b -> forall n, n = length a + 1 + length b + 1 ->
  wind (a ++ slash :: b ++ x :: rest) n = Ok (length a + 1).
Proof.
  revert x rest. induction b as [|y b IH] using rev_ind; intros x rest F n ->.
  - replace (length a + 1 + length (@nil byte) + 1) with (S (S (length a))) by (cbn [length]; lia). cbn [wind].
    destruct (Nat.eqb_spec (S (length a)) 0); [lia|]. cbn [Nat.sub]. rewrite Nat.sub_0_r, load_at by reflexivity.
    cbn [bind]. destruct (beq_spec slash slash); [|contradiction]. f_equal; lia.
  - rewrite app_length in *. replace (length a + 1 + (length b + length [y]) + 1) with (S (S (length a + 1 + length b))) by (cbn [length]; lia).
    cbn [wind]. destruct (Nat.eqb_spec (S (length a + 1 + length b)) 0); [lia|]. cbn [Nat.sub]. rewrite Nat.sub_0_r.
    rewrite <- app_assoc. cbn [app].
    assert (X : load (a ++ slash :: b ++ y :: x :: rest) (length a + 1 + length b) = Ok y).
    { replace (length a + 1 + length b) with (length a + (1 + length b)) by lia. rewrite load_app.
      change (load (slash :: b ++ y :: x :: rest) (1 + length b)) with (load (b ++ y :: x :: rest) (length b)). apply load_at. reflexivity. }
    rewrite X. cbn [bind]. destruct (beq_spec y slash) as [->|N]; [destruct F; apply in_app_iff; right; now left|].
    specialize (IH y (x :: rest)). change (S (length a + 1 + length b)) with (S (length a + 1 + length b)).
    rewrite <- (IH ltac:(intros I; apply F, in_app_iff; now left) (S (length a + 1 + length b)) ltac:(lia)). cbn [wind].
    reflexivity.
Qed.

Lemma skip_spec mem a : forall k x t fuel, mem = a ++ slash :: repeat slash k ++ x :: t -> x <> slash -> k < fuel ->
  skip_slashes fuel mem (length a) = Ok (length a + 1 + k).
Proof.
  intros k. revert a. induction k as [|k IH]; intros a x t fuel E N L; (destruct fuel as [|fuel]; [lia|]); cbn [skip_slashes].
  - rewrite E, load_app. cbn. destruct (beq_spec x slash); [contradiction|]. f_equal. lia.
  - rewrite E at 1. rewrite load_app. cbn [repeat app]. change (load (slash :: slash :: repeat slash k ++ x :: t) 1) with (Ok slash).
    cbn [bind]. destruct (beq_spec slash slash); [|contradiction].
    replace (length a + 1) with (length (a ++ [slash])) by (rewrite app_length; reflexivity).
    rewrite (IH (a ++ [slash]) x t fuel); [f_equal; rewrite app_length; cbn; lia| |exact N|lia]. rewrite E, <- app_assoc. reflexivity.
Qed.

Lemma copy_spec o gap c t : exists gap', length gap' = length gap /\
  store_at (o ++ gap ++ c :: t) (length o) c = Ok (o ++ c :: gap' ++ t).
Proof.
  unfold store_at. destruct gap as [|g gap].
  - exists []. split; [reflexivity|]. rewrite app_length. cbn [length app]. destruct (Nat.ltb_spec (length o) (length o + S (length t))); [|lia].
    rewrite upd_app_r by lia. rewrite Nat.sub_diag. reflexivity.
  - exists (gap ++ [c]). split; [rewrite app_length; cbn; lia|]. rewrite !app_length. cbn [length app].
    match goal with |- context[?a <? ?b] => destruct (Nat.ltb_spec a b); [|lia] end.
    rewrite upd_app_r by lia. rewrite Nat.sub_diag. cbn [upd]. rewrite <- app_assoc. reflexivity.
Qed.

(** Which dot segment a component is. *)
Definition kind (h : bytes) : nat := if bytes_eq_dec h [dot] then 1 else if bytes_eq_dec h [dot; dot] then 2 else 0.
Lemma dots_spec a h z t l : l = length a -> ~ In slash h -> ~ In x00 h -> z = slash \/ z = x00 ->
  dots (a ++ h ++ z :: t) l = Ok (kind h).
Proof.
  intros -> F Z Q. unfold dots. replace (length a) with (length a + 0) at 1 by lia. rewrite !load_app.
  assert (D : z <> dot) by (destruct Q as [->| ->]; discriminate).
  assert (B : beq z slash || beq z x00 = true).
  { destruct Q as [->| ->]; reflexivity. }
  destruct h as [|c1 h]; cbn [app].
  { cbn. destruct (beq_spec z dot); [contradiction|]. reflexivity. }
  change (load (c1 :: h ++ z :: t) 0) with (Ok c1). cbn [bind]. destruct (beq_spec c1 dot) as [->|N1]; cbn [negb].
  2:{ unfold kind. destruct (bytes_eq_dec (c1 :: h) [dot]) as [E|_]; [congruence|]. destruct (bytes_eq_dec (c1 :: h) [dot; dot]) as [E|_]; [congruence|reflexivity]. }
  change (load (dot :: h ++ z :: t) 1) with (load (h ++ z :: t) 0). change (load (dot :: h ++ z :: t) 2) with (load (h ++ z :: t) 1).
  destruct h as [|c2 h]; cbn [app].
  { change (load (z :: t) 0) with (Ok z). cbn [bind]. rewrite B. reflexivity. }
  change (load (c2 :: h ++ z :: t) 0) with (Ok c2). change (load (c2 :: h ++ z :: t) 1) with (load (h ++ z :: t) 0). cbn [bind].
  destruct (beq_spec c2 slash) as [->|Ns]; [destruct F; right; now left|]. destruct (beq_spec c2 x00) as [->|Nz]; [destruct Z; right; now left|]. cbn [orb].
  unfold kind. destruct (bytes_eq_dec (dot :: c2 :: h) [dot]) as [E|_]; [congruence|].
  destruct (beq_spec c2 dot) as [->|N2]; cbn [negb].
  2:{ destruct (bytes_eq_dec (dot :: c2 :: h) [dot; dot]) as [E|_]; [congruence|reflexivity]. }
  destruct h as [|c3 h]; cbn [app].
  { change (load (z :: t) 0) with (Ok z). cbn [bind]. rewrite B. reflexivity. }
  change (load (c3 :: h ++ z :: t) 0) with (Ok c3). cbn [bind].
  destruct (beq_spec c3 slash) as [->|Ms]; [destruct F; right; right; now left|]. destruct (beq_spec c3 x00) as [->|Mz]; [destruct Z; right; right; now left|].
  cbn [orb]. destruct (bytes_eq_dec (dot :: dot :: c3 :: h) [dot; dot]) as [E|_]; [congruence|reflexivity].
Qed.

Lemma slashes s : exists k t, s = repeat slash k ++ t /\ (forall c t', t = c :: t' -> c <> slash).
Proof.
  induction s as [|c s (k & t & -> & N)]; [exists 0, []; split; [reflexivity|discriminate]|].
  destruct (byte_eq_dec c slash) as [->|X]; [exists (S k), t; split; [reflexivity|exact N]|].
  exists 0, (c :: repeat slash k ++ t). split; [reflexivity|]. intros c' t' [= <- _]. exact X.
Qed.
Lemma follow_slashes k t d : follow d (pieces (repeat slash k ++ t)) = follow d (pieces t).
Proof. induction k as [|k IH]; [reflexivity|]. cbn [repeat app pieces]. destruct (byte_eq_dec slash slash); [exact IH|contradiction]. Qed.

Definition opt (p : bytes) : list bytes := match p with [] => [] | _ => [p] end.

Lemma loop_spec : forall n s fuel gap cs p junk l w, length s <= n -> length s < fuel -> cstring s -> Forall proper cs -> ~ In slash p ->
  (p = [] \/ proper (hd [] (pieces (p ++ s)))) -> w = length (outp cs p) -> l = w + length gap ->
  exists cs' p' rest, normalize_loop fuel (outp cs p ++ gap ++ s ++ x00 :: junk) l w = Ok (outp cs' p' ++ rest, length (outp cs' p')) /\
    length (outp cs' p') + length rest = l + length s + 1 + length junk /\
    length (outp cs' p') <= l + length s /\ Forall proper cs' /\ (p' = [] \/ proper p') /\
    cs' ++ opt p' = rev (follow (rev cs) (pieces (p ++ s))).
Proof.
  induction n as [|n IH]; intros s fuel gap cs p junk l w Ln Lf Z Pc Fp Q Ew El.
  all: destruct fuel as [|fuel]; [lia|]; cbn [normalize_loop].
  all: destruct s as [|c s].
  2:{ cbn in Ln; lia. }
  1,2: assert (X : load (outp cs p ++ gap ++ [] ++ x00 :: junk) l = Ok x00) by
    (rewrite app_assoc; apply load_at; rewrite app_length; lia);
    rewrite X; cbn [bind]; change (beq x00 x00) with true; exists cs, p, (gap ++ x00 :: junk); rewrite <- Ew;
    split; [reflexivity|]; split; [rewrite app_length; cbn [length]; lia|]; split; [cbn; lia|]; split; [exact Pc|];
    rewrite app_nil_r in *; rewrite (pieces_flat p Fp) in *; destruct p as [|c p];
    [split; [now left|]; cbn; rewrite rev_involutive, app_nil_r; reflexivity|];
    destruct Q as [|Q]; [discriminate|]; cbn [hd] in Q; split; [now right|];
    rewrite (follow_proper _ _ _ Q); cbn [follow rev opt]; rewrite rev_involutive; reflexivity.
  assert (Nc : c <> x00) by (intros ->; apply Z; now left).
  assert (Z' : cstring s) by (intros I; apply Z; now right).
  assert (X : load (outp cs p ++ gap ++ (c :: s) ++ x00 :: junk) l = Ok c).
  { rewrite app_assoc. apply load_at. rewrite app_length. lia. }
  rewrite X. cbn [bind]. destruct (beq_spec c x00); [contradiction|].
  assert (W : 0 < w) by (rewrite Ew; unfold outp; cbn; lia).
  destruct (Nat.eqb_spec w 0); [lia|].
  (* copying one character *)
  assert (Copy : (p = [] -> c <> slash) -> proper (hd [] (pieces (p ++ c :: s))) ->
    exists cs' p' rest, bind (store_at (outp cs p ++ gap ++ (c :: s) ++ x00 :: junk) w c) (fun mem => normalize_loop fuel mem (l + 1) (w + 1))
      = Ok (outp cs' p' ++ rest, length (outp cs' p')) /\
    length (outp cs' p') + length rest = l + length (c :: s) + 1 + length junk /\
    length (outp cs' p') <= l + length (c :: s) /\ Forall proper cs' /\ (p' = [] \/ proper p') /\
    cs' ++ opt p' = rev (follow (rev cs) (pieces (p ++ c :: s)))).
  { intros N0 G. destruct (copy_spec (outp cs p) gap c (s ++ x00 :: junk)) as (gap' & Lg & E).
    cbn [app]. rewrite Ew, E. cbn [bind].
    destruct (byte_eq_dec c slash) as [->|Ns].
    - assert (Gp : proper p). { rewrite (pieces_cut p s Fp) in G. exact G. }
      specialize (IH s fuel gap' (cs ++ [p]) [] junk (l + 1) (length (outp cs p) + 1)).
      rewrite outp_push in IH. rewrite <- app_assoc in IH. cbn [app] in IH.
      destruct IH as (cs' & p' & rest & E' & L1 & L2 & Pc' & Pp' & V).
      + cbn in Ln; lia.
      + cbn in Lf; lia.
      + exact Z'.
      + apply Forall_app. split; [exact Pc|]. constructor; [exact Gp|constructor].
      + intros [].
      + now left.
      + rewrite app_length. reflexivity.
      + rewrite Lg. lia.
      + exists cs', p', rest. split; [exact E'|]. split; [cbn [length]; lia|]. split; [cbn [length]; lia|]. split; [exact Pc'|]. split; [exact Pp'|].
        rewrite V, (pieces_cut p s Fp), (follow_proper _ _ _ Gp), rev_app_distr. reflexivity.
    - specialize (IH s fuel gap' cs (p ++ [c]) junk (l + 1) (length (outp cs p) + 1)).
      rewrite outp_more in IH. rewrite <- !app_assoc in IH. cbn [app] in IH.
      destruct IH as (cs' & p' & rest & E' & L1 & L2 & Pc' & Pp' & V).
      + cbn in Ln; lia.
      + cbn in Lf; lia.
      + exact Z'.
      + exact Pc.
      + intros I. apply in_app_iff in I. destruct I as [I|[I|[]]]; [exact (Fp I)|congruence].
      + right. exact G.
      + rewrite app_length. reflexivity.
      + rewrite Lg. lia.
      + exists cs', p', rest. split; [exact E'|]. split; [cbn [length]; lia|]. split; [cbn [length]; lia|]. split; [exact Pc'|]. split; [exact Pp'|exact V]. }
  destruct p as [|q p0 _] using rev_ind.
  2:{ (* inside a component *)
    assert (Y : load (outp cs (p0 ++ [q]) ++ gap ++ (c :: s) ++ x00 :: junk) (w - 1) = Ok q).
    { rewrite outp_more in *. rewrite <- app_assoc. cbn [app]. apply load_at. rewrite Ew, app_length. cbn. lia. }
    rewrite Y. cbn [bind]. destruct (beq_spec q slash) as [->|_]; [destruct Fp; apply in_app_iff; right; now left|]. cbn [negb].
    apply Copy; [destruct p0; discriminate|]. destruct Q as [Q|Q]; [destruct p0; discriminate|exact Q]. }
  clear Q Fp. cbn [app] in Copy |- *.
  assert (Y : load (outp cs [] ++ gap ++ c :: s ++ x00 :: junk) (w - 1) = Ok slash).
  { destruct (outp_end cs) as [a Ea]. rewrite Ea in *. rewrite <- app_assoc. cbn [app]. apply load_at. rewrite Ew, app_length. cbn. lia. }
  rewrite Y. cbn [bind]. change (beq slash slash) with true. cbn [negb].
  (* skipping input *)
  assert (Skip : forall d s', c :: s = d ++ s' -> d <> [] -> follow (rev cs) (pieces (c :: s)) = follow (rev cs) (pieces s') ->
    exists cs' p' rest, normalize_loop fuel (outp cs [] ++ gap ++ c :: s ++ x00 :: junk) (l + length d) w = Ok (outp cs' p' ++ rest, length (outp cs' p')) /\
    length (outp cs' p') + length rest = l + length (c :: s) + 1 + length junk /\
    length (outp cs' p') <= l + length (c :: s) /\ Forall proper cs' /\ (p' = [] \/ proper p') /\
    cs' ++ opt p' = rev (follow (rev cs) (pieces (c :: s)))).
  { intros d s' E Nd V. change (c :: s ++ x00 :: junk) with ((c :: s) ++ x00 :: junk). rewrite V. rewrite E.
    assert (Ls : length (c :: s) = length d + length s') by (rewrite E; apply app_length). assert (length d > 0) by (destruct d; [congruence|cbn; lia]).
    destruct (IH s' fuel (gap ++ d) cs [] junk (l + length d) w) as (cs' & p' & rest & E' & L1 & L2 & Pc' & Pp' & V').
    + cbn [length] in *. lia.
    + cbn [length] in *. lia.
    + intros I. apply Z. rewrite E. apply in_app_iff. now right.
    + exact Pc.
    + intros [].
    + now left.
    + exact Ew.
    + rewrite app_length. lia.
    + exists cs', p', rest. rewrite <- !app_assoc in E' |- *. rewrite app_length. split; [exact E'|]. split; [lia|]. split; [lia|]. split; [exact Pc'|].
      split; [exact Pp'|exact V']. }
  destruct (beq_spec c slash) as [->|Ns].
  { destruct (slashes s) as (k & t & E & N). 
    assert (S' : exists x t', t ++ x00 :: junk = x :: t' /\ x <> slash).
    { destruct t as [|x t]; [exists x00, junk; split; [reflexivity|discriminate]|]. exists x, (t ++ x00 :: junk). split; [reflexivity|]. eapply N; reflexivity. }
    destruct S' as (x & t' & Et & Nx).
    assert (M : outp cs [] ++ gap ++ slash :: s ++ x00 :: junk = (outp cs [] ++ gap) ++ slash :: repeat slash k ++ x :: t').
    { rewrite E, <- !app_assoc, Et. reflexivity. }
    assert (Lk : length s = k + length t) by (rewrite E, app_length, repeat_length; reflexivity).
    pose proof (fun f => skip_spec _ _ k x t' f M Nx) as Sk. replace (length (outp cs [] ++ gap)) with l in Sk by (rewrite app_length; lia).
    rewrite Sk.
    2:{ rewrite !app_length. cbn [length]. rewrite app_length. lia. }
    cbn [bind]. replace (l + 1 + k) with (l + length (repeat slash (S k))) by (rewrite repeat_length; lia).
    apply (Skip (repeat slash (S k)) t); [rewrite E; reflexivity|discriminate|]. rewrite E. apply (follow_slashes (S k)). }
  destruct (pieces_head (c :: s)) as (h & Fh & Eh).
  assert (Zh : ~ In x00 h).
  { intros I. apply Z. destruct Eh as [->|[t ->]]; [exact I|]. apply in_app_iff. now left. }
  assert (Nh : h <> []).
  { intros ->. destruct Eh as [Eh|[t Eh]]; cbn in Eh; congruence. }
  assert (D : dots (outp cs [] ++ gap ++ c :: s ++ x00 :: junk) l = Ok (kind h)).
  { rewrite (app_assoc (outp cs []) gap). change (c :: s ++ x00 :: junk) with ((c :: s) ++ x00 :: junk). destruct Eh as [->|[t ->]].
    - apply dots_spec; [rewrite app_length; lia|exact Fh|exact Zh|now right].
    - rewrite <- (app_assoc h). cbn [app]. apply dots_spec; [rewrite app_length; lia|exact Fh|exact Zh|now left]. }
  rewrite D. cbn [bind]. unfold kind. destruct (bytes_eq_dec h [dot]) as [->|N1]; [|destruct (bytes_eq_dec h [dot; dot]) as [->|N2]].
  - (* "." *)
    unfold past. replace (l + 1) with (length ((outp cs [] ++ gap) ++ [dot])) by (rewrite !app_length; cbn [length]; lia).
    destruct Eh as [Eh|[t Eh]].
    + assert (Y' : load (outp cs [] ++ gap ++ c :: s ++ x00 :: junk) (length ((outp cs [] ++ gap) ++ [dot])) = Ok x00).
      { change (c :: s ++ x00 :: junk) with ((c :: s) ++ x00 :: junk). rewrite Eh, !app_assoc. apply load_at. reflexivity. }
      rewrite Y'. cbn [bind]. change (beq x00 x00) with true. cbn match.
      replace (length ((outp cs [] ++ gap) ++ [dot])) with (l + length [dot]) by (rewrite !app_length; cbn [length]; lia).
      apply (Skip [dot] []); [rewrite app_nil_r; exact Eh|discriminate|rewrite Eh; reflexivity].
    + cbn [app] in Eh. assert (Y' : load (outp cs [] ++ gap ++ c :: s ++ x00 :: junk) (length ((outp cs [] ++ gap) ++ [dot])) = Ok slash).
      { change (c :: s ++ x00 :: junk) with ((c :: s) ++ x00 :: junk). rewrite Eh. change ((dot :: slash :: t) ++ x00 :: junk) with ([dot] ++ slash :: t ++ x00 :: junk).
        rewrite !app_assoc. apply load_at. reflexivity. }
      rewrite Y'. cbn [bind]. change (beq slash x00) with false. cbn match.
      replace (length ((outp cs [] ++ gap) ++ [dot]) + 1) with (l + length [dot; slash]) by (rewrite !app_length; cbn [length]; lia).
      apply (Skip [dot; slash] t); [exact Eh|discriminate|rewrite Eh; reflexivity].
  - (* ".." *)
    assert (Wd : exists cs0 gap0, (if 1 <? w then wind (outp cs [] ++ gap ++ c :: s ++ x00 :: junk) w else Ok w) = Ok (length (outp cs0 [])) /\
      outp cs [] = outp cs0 [] ++ gap0 /\ rev cs0 = tl (rev cs) /\ Forall proper cs0).
    { destruct cs as [|b cs _] using rev_ind.
      - exists [], []. rewrite Ew. cbn. auto.
      - apply Forall_app in Pc. destruct Pc as [Pc Pb]. inversion Pb as [|? ? Pb1 _]; subst. clear Pb. destruct (outp_end cs) as [a Ea].
        exists cs, (b ++ [slash]). rewrite outp_push. rewrite rev_app_distr.
        assert (Eo : outp cs b = outp cs [] ++ b). { unfold outp. cbn. rewrite app_nil_r. reflexivity. }
        rewrite Eo, Ea. split; [|split; [|split; [reflexivity|exact Pc]]].
        2:{ rewrite <- !app_assoc. reflexivity. }
        rewrite !app_length. cbn [length]. destruct (Nat.ltb_spec 1 (length a + 1 + length b + 1)); [|lia].
        rewrite <- !app_assoc. cbn [app].
        apply wind_spec; [apply Pb1|lia]. }
    destruct Wd as (cs0 & gap0 & Ewd & Eo & Er & Pc0). rewrite Ewd. cbn [bind].
    assert (Lw : w = length (outp cs0 []) + length gap0) by (rewrite Ew, Eo, app_length; reflexivity).
    assert (Wind : forall d s', c :: s = d ++ s' -> d <> [] -> follow (rev cs) (pieces (c :: s)) = follow (tl (rev cs)) (pieces s') ->
      exists cs' p' rest, normalize_loop fuel (outp cs [] ++ gap ++ c :: s ++ x00 :: junk) (l + length d) (length (outp cs0 [])) = Ok (outp cs' p' ++ rest, length (outp cs' p')) /\
      length (outp cs' p') + length rest = l + length (c :: s) + 1 + length junk /\
      length (outp cs' p') <= l + length (c :: s) /\ Forall proper cs' /\ (p' = [] \/ proper p') /\
      cs' ++ opt p' = rev (follow (rev cs) (pieces (c :: s)))).
    { intros d s' E Nd V. change (c :: s ++ x00 :: junk) with ((c :: s) ++ x00 :: junk). rewrite V. rewrite E.
      assert (Ls : length (c :: s) = length d + length s') by (rewrite E; apply app_length). assert (length d > 0) by (destruct d; [congruence|cbn; lia]).
      destruct (IH s' fuel (gap0 ++ gap ++ d) cs0 [] junk (l + length d) (length (outp cs0 []))) as (cs' & p' & rest & E' & L1 & L2 & Pc' & Pp' & V').
      + cbn [length] in *. lia.
      + cbn [length] in *. lia.
      + intros I. apply Z. rewrite E. apply in_app_iff. now right.
      + exact Pc0.
      + intros [].
      + now left.
      + reflexivity.
      + rewrite !app_length. lia.
      + exists cs', p', rest. rewrite Eo. rewrite <- !app_assoc in E' |- *. rewrite app_length. split; [exact E'|]. split; [lia|]. split; [lia|]. split; [exact Pc'|].
        split; [exact Pp'|rewrite <- Er; exact V']. }
    unfold past. replace (l + 2) with (length ((outp cs [] ++ gap) ++ [dot; dot])) by (rewrite !app_length; cbn [length]; lia).
    destruct Eh as [Eh|[t Eh]].
    + assert (Y' : load (outp cs [] ++ gap ++ c :: s ++ x00 :: junk) (length ((outp cs [] ++ gap) ++ [dot; dot])) = Ok x00).
      { change (c :: s ++ x00 :: junk) with ((c :: s) ++ x00 :: junk). rewrite Eh, !app_assoc. apply load_at. reflexivity. }
      rewrite Y'. cbn [bind]. change (beq x00 x00) with true. cbn match.
      replace (length ((outp cs [] ++ gap) ++ [dot; dot])) with (l + length [dot; dot]) by (rewrite !app_length; cbn [length]; lia).
      apply (Wind [dot; dot] []); [rewrite app_nil_r; exact Eh|discriminate|rewrite Eh; reflexivity].
    + cbn [app] in Eh. assert (Y' : load (outp cs [] ++ gap ++ c :: s ++ x00 :: junk) (length ((outp cs [] ++ gap) ++ [dot; dot])) = Ok slash).
      { change (c :: s ++ x00 :: junk) with ((c :: s) ++ x00 :: junk). rewrite Eh. change ((dot :: dot :: slash :: t) ++ x00 :: junk) with ([dot; dot] ++ slash :: t ++ x00 :: junk).
        rewrite !app_assoc. apply load_at. reflexivity. }
      rewrite Y'. cbn [bind]. change (beq slash x00) with false. cbn match.
      replace (length ((outp cs [] ++ gap) ++ [dot; dot]) + 1) with (l + length [dot; dot; slash]) by (rewrite !app_length; cbn [length]; lia).
      apply (Wind [dot; dot; slash] t); [exact Eh|discriminate|rewrite Eh; reflexivity].
  - (* an ordinary component *)
    apply Copy; [intros _; exact Ns|]. assert (H : hd [] (pieces (c :: s)) = h).
    { destruct Eh as [->|[t ->]]; [rewrite (pieces_flat h Fh)|rewrite (pieces_cut h t Fh)]; reflexivity. }
    rewrite H. repeat split; assumption.
Qed.

Lemma nth_outp_strip cs' p' rest : (p' = [] \/ proper p') -> Forall proper cs' ->
  strip (outp cs' p' ++ rest) (length (outp cs' p')) = Ok (length (canonical (cs' ++ opt p'))) /\
  exists rest', outp cs' p' ++ rest = canonical (cs' ++ opt p') ++ rest'.
Proof.
  intros P F.
  assert (K : forall d c, canonical (d ++ [c]) = outp d [] ++ c /\ (d ++ [c] <> [])).
  { intros d c. split; [|destruct d; discriminate]. unfold canonical, outp. cbn. rewrite app_nil_r.
    destruct (d ++ [c]) eqn:E; [destruct d; discriminate|]. rewrite <- E. clear E. induction d as [|x d IH]; [cbn; rewrite app_nil_r; reflexivity|].
    cbn [app map concat] in *. rewrite IH, <- !app_assoc. reflexivity. }
  assert (Ls : forall a x (r : bytes), x <> slash -> strip (slash :: a ++ x :: r) (length a + 2) = Ok (length a + 2)).
  { intros a x r N. replace (length a + 2) with (S (length (slash :: a))) by (cbn [length]; lia). cbn [strip].
    destruct (Nat.ltb_spec 1 (S (length (slash :: a)))) as [_|X]; [|cbn in X; lia]. rewrite (load_at (slash :: a) x r) by reflexivity. cbn [bind].
    destruct (beq_spec x slash); [contradiction|reflexivity]. }
  assert (Lp : forall c (r : bytes) d, proper c -> strip (outp d c ++ r) (length (outp d c)) = Ok (length (outp d c))).
  { intros c r d (Nc & _ & _ & Fc). destruct c as [|y c _] using rev_ind; [congruence|]. assert (y <> slash) by (intros ->; apply Fc, in_app_iff; right; now left).
    unfold outp. cbn [app]. rewrite app_assoc, <- app_assoc. cbn [app].
    specialize (Ls (concat (map (fun c => c ++ [slash]) d) ++ c) y r ltac:(assumption)).
    cbn [length]. rewrite app_length. cbn [length]. replace (S (length (concat (map (fun c0 => c0 ++ [slash]) d) ++ c) + 1)) with (length (concat (map (fun c0 => c0 ++ [slash]) d) ++ c) + 2) by lia.
    rewrite <- app_assoc in Ls. cbn [app] in Ls. rewrite <- app_assoc. exact Ls. }
  destruct P as [->|P].
  - cbn [opt]. rewrite app_nil_r. destruct cs' as [|c cs _] using rev_ind.
    + cbn. split; [reflexivity|]. exists rest. reflexivity.
    + apply Forall_app in F. destruct F as [F Fc]. inversion Fc as [|? ? Pc _]; subst. destruct (K cs c) as [E _]. rewrite E, outp_push.
      assert (Eo : outp cs c = outp cs [] ++ c). { unfold outp. cbn. rewrite app_nil_r. reflexivity. }
      rewrite <- Eo. split; [|exists (slash :: rest); rewrite <- app_assoc; reflexivity].
      rewrite app_length. cbn [length]. rewrite Nat.add_1_r, <- app_assoc. cbn [app strip].
      destruct (Nat.ltb_spec 1 (S (length (outp cs c)))) as [_|X]; [|unfold outp in X; cbn in X; lia].
      rewrite load_at by reflexivity. cbn [bind]. destruct (beq_spec slash slash); [|contradiction]. apply Lp, Pc.
  - destruct p' as [|x p']; [destruct P as [X _]; congruence|]. cbn [opt]. destruct (K cs' (x :: p')) as [E _]. rewrite E.
    assert (Eo : outp cs' (x :: p') = outp cs' [] ++ x :: p'). { unfold outp. cbn. rewrite app_nil_r. reflexivity. }
    rewrite <- Eo. split; [apply Lp, P|exists rest; reflexivity].
Qed.

(** ** The theorems *)

(** Normalising an absolute path in place: no read or write outside the buffer, the result
    is the canonical path of the directory named, and no longer than the input. *)
Theorem C43_normalize : forall s junk, cstring s -> absolute s ->
  exists rest, path_normalize (s ++ x00 :: junk) = Ok (canonical (named s) ++ x00 :: rest, length (canonical (named s))) /\
    length (canonical (named s)) + length rest = length s + length junk /\
    length (canonical (named s)) <= length s.
Proof.
  intros s junk Z [t ->]. unfold path_normalize. change (load ((slash :: t) ++ x00 :: junk) 0) with (Ok slash). cbn [bind].
  change (beq slash slash) with true. cbn [negb andb].
  destruct (loop_spec (length t) t (length ((slash :: t) ++ x00 :: junk)) [] [] [] junk 1 1) as (cs & p & rest & E & L1 & L2 & Pc & Pp & V); try reflexivity.
  - rewrite app_length. cbn [length]. lia.
  - intros I. apply Z. now right.
  - constructor.
  - intros [].
  - now left.
  - unfold outp in E at 1. cbn [map concat app] in E. cbn [app]. cbn [app] in E. rewrite E. cbn [bind].
    assert (N : named (slash :: t) = cs ++ opt p).
    { rewrite V. unfold named. cbn [pieces]. destruct (byte_eq_dec slash slash); [reflexivity|contradiction]. }
    rewrite N. destruct (nth_outp_strip cs p rest Pp Pc) as [S (rest' & Er)]. rewrite S. cbn [bind]. rewrite Er.
    assert (Lr : length (canonical (cs ++ opt p)) + length rest' = length (outp cs p) + length rest) by (rewrite <- !app_length, Er; reflexivity).
    assert (Lc : length (canonical (cs ++ opt p)) <= length (outp cs p)).
    { clear - S. revert S. generalize (outp cs p ++ rest) as m. intros m. generalize (length (outp cs p)) as n. intros n. generalize (length (canonical (cs ++ opt p))) as k.
      induction n as [|n IH]; intros k S; cbn [strip] in S; [injection S as <-; lia|]. destruct (1 <? Datatypes.S n); [|injection S as <-; lia].
      destruct (load m n) as [c| | | |]; try discriminate. cbn [bind] in S. destruct (beq c slash); [|injection S as <-; lia]. apply IH in S. lia. }
    destruct rest' as [|y rest']; [cbn [length] in *; lia|]. exists rest'.
    unfold store_at. rewrite app_length. cbn [length]. destruct (Nat.ltb_spec (length (canonical (cs ++ opt p))) (length (canonical (cs ++ opt p)) + Datatypes.S (length rest'))); [|lia].
    cbn [bind]. rewrite upd_app_r by lia. rewrite Nat.sub_diag. cbn [upd]. cbn [length] in *. split; [reflexivity|]. split; lia.
Qed.
Print Assumptions C43_normalize.

(** The canonical path has no empty, "." or ".." component, and names the same directory. *)
Theorem C43_canonical : forall s, Forall proper (named s) /\ absolute (canonical (named s)) /\
  (named s <> [] -> pieces (canonical (named s)) = [] :: named s) /\ named (canonical (named s)) = named s.
Proof.
  intros s. assert (P : Forall proper (named s)).
  { unfold named. apply Forall_rev, follow_all_proper; [constructor|apply pieces_noslash]. }
  split; [exact P|]. revert P. generalize (named s) as d. intros d P.
  assert (A : d <> [] -> pieces (canonical d) = [] :: d).
  { intros N. destruct d as [|c d]; [congruence|]. unfold canonical. clear N. revert c P. induction d as [|c' d IH]; intros c P; inversion P as [|? ? P1 P2]; subst.
    - cbn [map concat app]. rewrite app_nil_r. change (slash :: c) with ([] ++ slash :: c). rewrite pieces_cut by (intros []). rewrite pieces_flat by apply P1. reflexivity.
    - specialize (IH c' P2). cbn [map concat app] in IH |- *. change (slash :: c ++ slash :: c' ++ concat (map (cons slash) d)) with ([] ++ slash :: c ++ slash :: c' ++ concat (map (cons slash) d)).
      rewrite pieces_cut by (intros []). rewrite pieces_cut by apply P1. f_equal. f_equal.
      change (slash :: c' ++ concat (map (cons slash) d)) with ([] ++ slash :: c' ++ concat (map (cons slash) d)) in IH. rewrite pieces_cut in IH by (intros []).
      injection IH as IH. exact IH. }
  split; [destruct d; [exists []; reflexivity|eexists; reflexivity]|]. split; [exact A|].
  unfold named. destruct d as [|c d]; [reflexivity|]. rewrite A by discriminate. rewrite follow_empty.
  assert (G : forall d e, Forall proper d -> follow e d = rev d ++ e).
  { clear. induction d as [|c d IH]; intros e F; [reflexivity|]. inversion F; subst. rewrite follow_proper by assumption. rewrite IH by assumption. cbn [rev]. rewrite <- app_assoc. reflexivity. }
  rewrite G by exact P. rewrite app_nil_r, rev_involutive. reflexivity.
Qed.
Print Assumptions C43_canonical.

(** What the path argument of urkel_open means: an absolute path itself, otherwise a path
    below the working directory; [None] when that is unknown or the two together are longer
    than 8191 bytes. *)
Definition meant (cwd : option bytes) (path : option bytes) : option bytes :=
  let p := match path with Some p => p | None => [] end in
  match p with
  | c :: _ => if byte_eq_dec c slash then Some p else
      match cwd with Some d => if length d + length p <=? 2 ^ 13 - 1 then Some (d ++ slash :: p) else None | None => None end
  | [] => match cwd with Some d => if length d <=? 2 ^ 13 - 1 then Some d else None | None => None end
  end.

Theorem C43_resolve : forall cwd junk path, (forall p, path = Some p -> cstring p) -> (forall d, cwd = Some d -> cstring d /\ absolute d) ->
  path_resolve cwd junk path = Ok (match meant cwd path with Some s => Some (canonical (named s) ++ [x00]) | None => None end).
Proof.
  intros cwd junk path Zp Zd. unfold path_resolve, meant, path_max.
  assert (G : forall s j, cstring s -> absolute s -> bind (path_normalize (s ++ x00 :: j)) (fun '(mem, n) => Ok (Some (firstn (n + 1) mem))) = Ok (Some (canonical (named s) ++ [x00]))).
  { intros s j Z A. destruct (C43_normalize s j Z A) as (rest & E & _). rewrite E. cbn [bind]. f_equal. f_equal.
    rewrite firstn_app. rewrite firstn_all2 by lia. f_equal. replace (length (canonical (named s)) + 1 - length (canonical (named s))) with 1 by lia. reflexivity. }
  assert (T : 2 ^ 13 <> 0) by (apply Nat.pow_nonzero; lia).
  generalize dependent (2 ^ 13). intros M T. 
  assert (Zp' : cstring (match path with Some p => p | None => [] end)) by (destruct path; [apply Zp; reflexivity|intros []]).
  destruct (match path with Some p => p | None => [] end) as [|c p].
  - destruct cwd as [d|]; cbn [bind]; [|reflexivity]. destruct (Zd d eq_refl) as [Zc Ac].
    destruct (Nat.leb_spec (length d) (M - 1)) as [L|L].
    + destruct (Nat.ltb_spec M (length d)); [lia|]. cbn [length]. destruct (Nat.ltb_spec M (length d + 1 + 0)); [lia|]. cbn [bind]. apply G; assumption.
    + destruct (Nat.ltb_spec M (length d)); [reflexivity|]. cbn [length]. destruct (Nat.ltb_spec M (length d + 1 + 0)); [reflexivity|lia].
  - unfold beq. destruct (byte_eq_dec c slash) as [->|N].
    + cbn [bind]. change ((slash :: p) ++ [x00]) with ((slash :: p) ++ x00 :: []). apply G; [exact Zp'|eexists; reflexivity].
    + destruct cwd as [d|]; cbn [bind]; [|reflexivity]. destruct (Zd d eq_refl) as [Zc Ac].
      destruct (Nat.leb_spec (length d + length (c :: p)) (M - 1)) as [L|L].
      * destruct (Nat.ltb_spec M (length d)); [lia|]. destruct (Nat.ltb_spec M (length d + 1 + length (c :: p))); [lia|]. cbn [bind]. apply G.
        -- intros I. apply in_app_iff in I. destruct I as [I|[I|I]]; [exact (Zc I)|discriminate|exact (Zp' I)].
        -- destruct Ac as [t ->]. eexists; reflexivity.
      * destruct (Nat.ltb_spec M (length d)); [reflexivity|]. destruct (Nat.ltb_spec M (length d + 1 + length (c :: p))); [reflexivity|lia].
Qed.
Print Assumptions C43_resolve.

(** "/a//./b/../c/" under any working directory, and "../x" under "/a/b". *)
Example c43_witness :
  let a := x61 in let b := x62 in let c := x63 in let x := x78 in
  path_resolve None x00 (Some [slash; a; slash; slash; dot; slash; b; slash; dot; dot; slash; c; slash]) = Ok (Some [slash; a; slash; c; x00]) /\
  path_resolve (Some [slash; a; slash; b]) x00 (Some [dot; dot; slash; x]) = Ok (Some [slash; a; slash; x; x00]).
Proof. vm_compute. auto. Qed.

(** ** C46: the buffers for file names *)

Lemma store_all_ok s : forall a b c, length b = length s -> store_all (a ++ b ++ c) (length a) s = Ok (a ++ s ++ c).
Proof.
  induction s as [|x s IH]; intros a b c L; [destruct b; [reflexivity|discriminate]|]. destruct b as [|y b]; [discriminate|]. cbn [store_all].
  unfold store_at. rewrite !app_length. cbn [length]. destruct (Nat.ltb_spec (length a) (length a + (S (length b) + length c))); [|lia]. cbn [bind].
  rewrite upd_app_r by lia. rewrite Nat.sub_diag. cbn [app upd].
  specialize (IH (a ++ [x]) b c). rewrite <- app_assoc in IH. cbn [app] in IH.
  replace (length a + 1) with (length (a ++ [x])) by (rewrite app_length; reflexivity).
  rewrite IH by (injection L as L; exact L). rewrite <- app_assoc. reflexivity.
Qed.
Lemma store_all_ub s : forall i mem, length mem < i + length s -> i <= length mem -> store_all mem i s = UB.
Proof.
  induction s as [|x s IH]; intros i mem L G; cbn [length] in L; [lia|]. cbn [store_all]. unfold store_at.
  destruct (Nat.ltb_spec i (length mem)); [|reflexivity]. cbn [bind]. apply IH; rewrite upd_length; lia.
Qed.
Lemma store_path_fits prefix mem name : length prefix + length name + 2 <= length mem ->
  exists rest, store_path prefix mem name = Ok ((prefix ++ slash :: name) ++ x00 :: rest).
Proof.
  intros L. unfold store_path. set (s := prefix ++ slash :: name ++ [x00]).
  assert (Ls : length s = length prefix + length name + 2) by (unfold s; rewrite app_length; cbn [length]; rewrite app_length; cbn [length]; lia).
  exists (skipn (length s) mem). pose proof (store_all_ok s [] (firstn (length s) mem) (skipn (length s) mem)) as E. cbn [app length] in E.
  rewrite firstn_skipn in E. rewrite E by (rewrite firstn_length; lia). f_equal. unfold s. rewrite <- !app_assoc. cbn [app]. rewrite <- app_assoc. reflexivity.
Qed.

(** The string a buffer holds. *)
Definition holds (mem s : bytes) : Prop := cstring s /\ exists rest, mem = s ++ x00 :: rest.

Lemma init_prefix_len cwd junk path prefix : (forall p, path = Some p -> cstring p) -> (forall d, cwd = Some d -> cstring d /\ absolute d) ->
  init_prefix cwd junk path = Ok (Some prefix) -> length prefix <= 1014 /\ cstring prefix.
Proof.
  intros Zp Zd E. unfold init_prefix in E. rewrite (C43_resolve cwd junk path Zp Zd) in E. cbn [bind] in E.
  destruct (meant cwd path) as [s|] eqn:M; [|discriminate]. rewrite app_length in E. cbn [length] in E. rewrite Nat.add_sub in E.
  unfold URKEL_PATH_MAX in E. destruct (Nat.ltb_spec 1024 (length (canonical (named s)) + 10)); [discriminate|].
  injection E as <-. rewrite firstn_app, firstn_all, Nat.sub_diag. cbn [firstn]. rewrite app_nil_r. split; [lia|].
  assert (Zs : cstring s).
  { unfold meant in M. assert (Zp' : cstring (match path with Some p => p | None => [] end)) by (destruct path; [apply Zp; reflexivity|intros []]).
    destruct (match path with Some p => p | None => [] end) as [|c p].
    - destruct cwd as [d|]; [|discriminate]. destruct (length d <=? 2 ^ 13 - 1); [|discriminate]. injection M as <-. apply (Zd d eq_refl).
    - destruct (byte_eq_dec c slash); [injection M as <-; exact Zp'|]. destruct cwd as [d|]; [|discriminate].
      destruct (length d + length (c :: p) <=? 2 ^ 13 - 1); [|discriminate]. injection M as <-. intros I. apply in_app_iff in I.
      destruct I as [I|[I|I]]; [exact (proj1 (Zd d eq_refl) I)|discriminate|exact (Zp' I)]. }
  assert (Zc : Forall (fun c => ~ In x00 c) (named s)).
  { unfold named. apply Forall_rev.
    assert (Q : Forall (fun c => ~ In x00 c) (pieces s)).
    { clear - Zs. induction s as [|c s IH]; [repeat constructor; intros []|]. assert (Zs' : cstring s) by (intros I; apply Zs; now right).
      specialize (IH Zs'). cbn [pieces]. destruct (byte_eq_dec c slash); [constructor; [intros []|exact IH]|].
      assert (c <> x00) by (intros ->; apply Zs; now left).
      destruct (pieces s) as [|h t]; [repeat constructor; intros [|[]]; congruence|]. inversion IH; subst. constructor; [|assumption]. intros [|I]; [congruence|contradiction]. }
    assert (G : forall cs d, Forall (fun c => ~ In x00 c) cs -> Forall (fun c => ~ In x00 c) d -> Forall (fun c => ~ In x00 c) (follow d cs)).
    { clear. induction cs as [|c cs IH]; intros d F D; [exact D|]. inversion F; subst. cbn [follow]. destruct (bytes_eq_dec c []); [auto|]. destruct (bytes_eq_dec c [dot]); [auto|].
      destruct (bytes_eq_dec c [dot; dot]); apply IH; try assumption; [destruct D; [constructor|assumption]|constructor; assumption]. }
    apply G; [exact Q|constructor]. }
  intros I. unfold canonical in I. destruct (named s) as [|c d]; [destruct I as [I|[]]; discriminate|].
  apply in_concat in I. destruct I as (x & Ix & I). apply in_map_iff in Ix. destruct Ix as (y & <- & Iy). destruct I as [I|I]; [discriminate|].
  rewrite Forall_forall in Zc. exact (Zc y Iy I).
Qed.

Lemma filename_length n : length (filename n) = 10.
Proof. rewrite filename_digits. apply digits_length. Qed.

(** For an accepted path of up to 1013 bytes every name fits; every name but a data file's
    always does.  (A data file's name is C33's; "lock" and "meta" are four bytes.) *)
Theorem C46_path_buffers_partial : forall cwd junk path prefix mem,
  (forall p, path = Some p -> cstring p) -> (forall d, cwd = Some d -> cstring d /\ absolute d) ->
  init_prefix cwd junk path = Ok (Some prefix) -> length mem = URKEL_PATH_MAX + 1 ->
  (forall name, cstring name -> length name = 4 -> exists out, store_path prefix mem name = Ok out /\ holds out (prefix ++ slash :: name)) /\
  (length prefix <= 1013 -> forall index, u32 index -> exists out, store_path_index prefix mem index = Ok out /\ holds out (prefix ++ slash :: filename index)).
Proof.
  intros cwd junk path prefix mem Zp Zd E L. destruct (init_prefix_len _ _ _ _ Zp Zd E) as [Lp Zx]. unfold URKEL_PATH_MAX in L.
  assert (J : forall name, cstring name -> cstring (prefix ++ slash :: name)).
  { intros name Zn I. apply in_app_iff in I. destruct I as [I|[I|I]]; [exact (Zx I)|discriminate|exact (Zn I)]. }
  split.
  - intros name Zn Ln. destruct (store_path_fits prefix mem name) as (rest & R); [rewrite Ln; lia|]. eexists. split; [exact R|]. split; [apply J, Zn|eexists; reflexivity].
  - intros Lt index U. unfold store_path_index. destruct (C33_roundtrip (repeat x00 11) index eq_refl U) as (Es & Cs & _). pose proof (filename_length index) as Lf.
    rewrite Es. assert (Ef : firstn 10 (filename index ++ [x00]) = filename index).
    { rewrite firstn_app, Lf, Nat.sub_diag, firstn_O, app_nil_r. apply firstn_all2. lia. }
    rewrite Ef. destruct (store_path_fits prefix mem (filename index)) as (rest & R); [rewrite Lf; lia|].
    eexists. split; [exact R|]. split; [apply J, Cs|eexists; reflexivity].
Qed.
Print Assumptions C46_path_buffers_partial.

(** A path of 1014 bytes is accepted, and then naming any data file writes past the buffer
    (char path[URKEL_PATH_MAX + 1]); urkel_open does that for file 1 at the latest. *)
Definition long_path : bytes := slash :: repeat x61 1013.
Theorem C46_path_buffers_refuted : forall cwd junk,
  cstring long_path /\ init_prefix cwd junk (Some long_path) = Ok (Some long_path) /\
  forall mem index, length mem = URKEL_PATH_MAX + 1 -> u32 index -> store_path_index long_path mem index = UB.
Proof.
  intros cwd junk. assert (Z : cstring long_path).
  { intros I. assert (X : existsb (fun c => beq c x00) long_path = true) by (apply existsb_exists; exists x00; split; [exact I|reflexivity]).
    vm_compute in X. discriminate. }
  split; [exact Z|]. split.
  - unfold init_prefix. unfold path_resolve. vm_compute. reflexivity.
  - intros mem index L U. unfold store_path_index, store_path. destruct (C33_roundtrip (repeat x00 11) index eq_refl U) as (Es & _). pose proof (filename_length index) as Lf.
    rewrite Es. rewrite firstn_app, Lf, Nat.sub_diag. rewrite firstn_all2 by lia. rewrite firstn_O, app_nil_r.
    apply store_all_ub; [|lia]. rewrite L. unfold URKEL_PATH_MAX, long_path. rewrite app_length. cbn [length]. rewrite app_length, repeat_length, Lf. cbn [length]. lia.
Qed.
Print Assumptions C46_path_buffers_refuted.
