(** * The specification of the command line program: what a command line means, and what every
    command prints and does, in terms of key/value maps.  Nothing here refers to the model of
    the program (Cli.v) or of the library. *)
From Coq Require Import Strings.String DecimalString DecimalN.
From Coq Require Import Permutation Sorted.
From Verif Require Export SpecDb Properties_Names.
Notation length := List.length.
Definition text (s : string) : bytes := list_byte_of_string s.

(** ** Command lines *)
Inductive cmd :=
| XCreate | XDestroy | XInfo | XRoot | XGet (k : bytes) | XInsert (k v : bytes) | XRemove (k : bytes) | XList
| XProve (k : bytes) | XVerify (k raw : bytes).

(** Options and other words, in any order. *)
Inductive item := IPath (p : bytes) | IRoot (h : bytes) | IHash | IWord (s : bytes).
Definition spelled (i : item) (w : list bytes) : Prop :=
  match i with
  | IPath p => w = [text "-p"; p] \/ w = [text "--path"; p]
  | IRoot h => exists s, (w = [text "-r"; s] \/ w = [text "--root"; s]) /\ denotes s h /\ length h = 32
  | IHash => w = [text "-H"] \/ w = [text "--hash"]
  | IWord s => w = [s] /\ hd_error s <> Some x2d
  end.
Definition words (l : list item) : list bytes := flat_map (fun i => match i with IWord s => [s] | _ => [] end) l.
Definition paths (l : list item) : list bytes := flat_map (fun i => match i with IPath p => [p] | _ => [] end) l.
Definition roots (l : list item) : list bytes := flat_map (fun i => match i with IRoot h => [h] | _ => [] end) l.
Definition hashed (l : list item) : Prop := In IHash l.
Definition line_of (l : list item) (argv : list bytes) : Prop :=
  length (words l) <= 32 /\ exists ws, Forall2 spelled l ws /\ argv = concat ws.

Section Spec.
Variable H : bytes -> bytes.

(** Keys are 64 hexadecimal digits, or with --hash any text, which is hashed. *)
Definition names_key (l : list item) (s k : bytes) : Prop :=
  (hashed l /\ k = H s) \/ (~ hashed l /\ denotes s k /\ length k = 32).
Inductive command (l : list item) : list bytes -> cmd -> Prop :=
| c_create r : command l (text "create" :: r) XCreate
| c_destroy r : command l (text "destroy" :: r) XDestroy
| c_info r : command l (text "info" :: r) XInfo
| c_root r : command l (text "root" :: r) XRoot
| c_get s k r : names_key l s k -> command l (text "get" :: s :: r) (XGet k)
| c_insert s k t v r : names_key l s k -> denotes t v -> length v <= 1024 -> command l (text "insert" :: s :: t :: r) (XInsert k v)
| c_remove s k r : names_key l s k -> command l (text "remove" :: s :: r) (XRemove k)
| c_list r : command l (text "list" :: r) XList
| c_prove s k r : names_key l s k -> command l (text "prove" :: s :: r) (XProve k)
| c_verify s k t raw r : names_key l s k -> denotes t raw -> command l (text "verify" :: s :: t :: r) (XVerify k raw).

(** The last --path counts, then $URKEL_PATH, then "."; the last --root counts. *)
Definition path_meant (l : list item) (env : option bytes) : bytes :=
  last (paths l) (match env with Some p => p | None => text "." end).
Definition root_meant (l : list item) : option bytes :=
  match roots l with [] => None | h :: t => Some (last t h) end.

Definition asks (env : option bytes) (argv : list bytes) (path : bytes) (ro : option bytes) (c : cmd) : Prop :=
  exists l, line_of l argv /\ command l (words l) c /\ path = path_meant l env /\ ro = root_meant l.
Definition asks_help (argv : list bytes) : Prop :=
  exists l a h r, line_of l a /\ argv = a ++ h :: r /\ (h = text "-h" \/ h = text "--help").

(** ** What commands print and do.  A database is the list of its committed contents, newest
    first; directories without one are [None]. *)
Definition shelf := bytes -> option (list recs).
Definition aput (A : shelf) (p : bytes) (x : option (list recs)) : shelf := fun q => if bytes_eqb p q then x else A q.
Definition history (x : option (list recs)) : list recs := match x with Some h => h | None => [] end.
Definition now (x : option (list recs)) : recs := hd [] (history x).
(** The contents a command looks at: the newest, or those named by --root. *)
Definition shown (x : option (list recs)) (ro : option bytes) : option recs :=
  match ro with None => Some (now x) | Some r => named H (history x) r end.

Definition digits16 : bytes := text "0123456789abcdef".
Definition hex (d : bytes) : bytes :=
  flat_map (fun b => [nth (N.to_nat (b2n b / 16)) digits16 x00; nth (N.to_nat (b2n b mod 16)) digits16 x00]) d.
Definition hexline (d : bytes) : bytes := hex d ++ [x0a].
Definition number (n : nat) : bytes := text (NilZero.string_of_uint (N.to_uint (N.of_nat n))).

Definition failed (out : bytes) (ok : bool) : Prop := out = [] /\ ok = false.
Definition done (out : bytes) (ok : bool) : Prop := out = [] /\ ok = true.
(** [checks raw k root]: the verdict of the verifier (Codec.v): [None] for an invalid proof. *)
Variable checks : bytes -> bytes -> bytes -> option (option bytes).
Definition expected (x : option (list recs)) (ro : option bytes) (c : cmd) (out : bytes) (ok : bool) : Prop :=
  match c with
  | XCreate => done out ok
  | XDestroy => match x with Some _ => done out ok | None => failed out ok end
  | XInfo =>
    match shown x ro with
    | None => failed out ok
    | Some l => ok = true /\
      out = text "Items: " ++ number (length l) ++ [x0a] ++
            text "Size:  " ++ number (list_sum (map (fun e => 32 + length (snd e)) l)) ++ [x0a] ++
            text "Root:  " ++ hexline (ref_root H (now x))
    end
  | XRoot => ok = true /\ out = hexline (ref_root H (now x))
  | XGet k =>
    match shown x ro with
    | None => failed out ok
    | Some l => match lookup l k with Some v => ok = true /\ out = hexline v | None => failed out ok end
    end
  | XInsert k v => if length v <=? 1023 then done out ok else failed out ok
  | XRemove k => match lookup (now x) k with Some _ => done out ok | None => failed out ok end
  | XList =>
    match shown x ro with
    | None => failed out ok
    | Some l => ok = true /\ exists ks, Permutation ks (map fst l) /\ StronglySorted lex_lt ks /\ out = concat (map hexline ks)
    end
  | XProve k =>
    match shown x ro with
    | None => failed out ok
    | Some l => ok = true /\ exists raw, out = hexline raw /\ checks raw k (ref_root H l) = Some (lookup l k)
    end
  | XVerify k raw =>
    match ro with
    | None => failed out ok
    | Some r =>
      match checks raw k r with
      | None => failed out ok
      | Some None => done out ok
      | Some (Some v) => ok = true /\ out = hexline v
      end
    end
  end.

(** The contents a command commits, if it does. *)
Definition commits_new (x : option (list recs)) (c : cmd) : option recs :=
  match c with
  | XInsert k v => if length v <=? 1023 then Some (put (now x) k v) else None
  | XRemove k => match lookup (now x) k with Some _ => Some (del (now x) k) | None => None end
  | _ => None
  end.
(** The database afterwards.  Every command but destroy and verify creates it if there is none. *)
Definition leaves (x : option (list recs)) (c : cmd) : option (list recs) :=
  match c with
  | XDestroy => None
  | XVerify _ _ => x
  | _ => Some (match commits_new x c with Some l => l :: history x | None => history x end)
  end.
End Spec.
