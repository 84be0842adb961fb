(** * The command line program: src/urkel.c.

    [argv] is argv[1], argv[2], ...; C strings are their characters.  Memory allocation does
    not fail; printf and fprintf succeed. *)
From Coq Require Import Strings.String DecimalString DecimalN.
From Verif Require Export Exec Proc Names Path.

Definition str (s : string) : bytes := list_byte_of_string s.
Definition is (a : bytes) (s : string) : bool := bytes_eqb a (str s).
Notation length := List.length.

(** Actions: urkel.c 140-164. *)
Inductive action := DoCreate | DoDestroy | DoInfo | DoRoot | DoGet | DoInsert | DoRemove | DoList | DoProve | DoVerify.
Definition actions : list (bytes * action) :=
  [(str "create", DoCreate); (str "destroy", DoDestroy); (str "info", DoInfo); (str "root", DoRoot); (str "get", DoGet);
   (str "insert", DoInsert); (str "remove", DoRemove); (str "list", DoList); (str "prove", DoProve); (str "verify", DoVerify)].

(** What is printed on stderr. *)
Inductive message :=
| MInvalidArgument (a : bytes) | MInvalidRoot | MUnknown (a : bytes) | MTooMany | MInvalidAction | MNoKey | MInvalidKey
| MNoValue | MInvalidValue | MNoProof | MInvalidProofHex
| MOpen | MCreate | MDestroy | MIterator | MIteration | MNotFound | MWrite | MRemove | MNoRoot | MInvalidProof.

(** urkel_options_t: urkel.c 218-230 (fields never written are [ [] ]). *)
Record options := mkopt { o_path : bytes; o_root : option bytes; o_action : action; o_key : bytes; o_value : bytes; o_proof : bytes }.

(** The options loop: urkel.c 247-296.  [path], [root], [hash], [args]: the variables. *)
Inductive scanned := SFail (m : message) | SHelp | SDone (path root : option bytes) (hash : bool) (args : list bytes).
Fixpoint scan (argv : list bytes) (path root : option bytes) (hash : bool) (args : list bytes) : res scanned :=
  match argv with
  | [] => Ok (SDone path root hash args)
  | a :: rest =>
    if is a "--path" || is a "-p" then
      match rest with
      | [] => Ok (SFail (MInvalidArgument a))
      | p :: rest => scan rest (Some p) root hash args
      end
    else if is a "--root" || is a "-r" then
      match rest with
      | [] => Ok (SFail (MInvalidArgument a))
      | s :: rest =>
        let! r := base16_decode32 s in
        match r with
        | None => Ok (SFail MInvalidRoot)
        | Some h => scan rest path (Some h) hash args
        end
      end
    else if is a "--hash" || is a "-H" then scan rest path root true args
    else if is a "--help" || is a "-h" then Ok SHelp
    else if match a with c :: _ => beq c x2d | [] => false end then Ok (SFail (MUnknown a))
    else if length args =? 32 then Ok (SFail MTooMany)
    else if 32 <=? length args then UB                          (* args[32] *)
    else scan rest path root hash (args ++ [a])
  end.

(** urkel_options_init: urkel.c 233-398.  [env]: getenv("URKEL_PATH"). *)
Inductive parsed := PFail (m : message) | PUsage | PHelp | PRun (o : options).
Section Cli.
Variable H : bytes -> bytes.
Variable C : bytes -> bytes -> bytes.

Definition options_init (argv : list bytes) (env : option bytes) : res parsed :=
  let! s := scan argv None None false [] in
  match s with
  | SFail m => Ok (PFail m)
  | SHelp => Ok PHelp
  | SDone path root hash args =>
    let path := match path with Some p => p | None => match env with Some p => p | None => str "." end end in  (* 298-303 *)
    match args with
    | [] => Ok PUsage                                                                                          (* 305-308 *)
    | a0 :: _ =>
      match find (fun x => bytes_eqb a0 (fst x)) actions with                                                   (* 310-320 *)
      | None => Ok (PFail MInvalidAction)
      | Some (_, act) =>
        let! k :=                                                                                              (* 322-355 *)
          (match act with
           | DoGet | DoInsert | DoRemove | DoProve | DoVerify =>
             match nth_error args 1 with
             | None => Ok (inl MNoKey)
             | Some s => if hash then Ok (inr (H s))
                         else let! r := base16_decode32 s in Ok (match r with Some k => inr k | None => inl MInvalidKey end)
             end
           | _ => Ok (inr [])
           end) in
        match k with
        | inl m => Ok (PFail m)
        | inr key =>
          match act with
          | DoInsert =>                                                                                        (* 358-372: unsigned char value[1024] *)
            match nth_error args 2 with
            | None => Ok (PFail MNoValue)
            | Some s => let! r := base16_decode 1024 s in
              match r with None => Ok (PFail MInvalidValue) | Some v => Ok (PRun (mkopt path root act key v [])) end
            end
          | DoVerify =>                                                                                        (* 374-394: a buffer of strlen / 2 + 1 bytes *)
            match nth_error args 2 with
            | None => Ok (PFail MNoProof)
            | Some s => let! r := base16_decode (length s / 2) s in
              match r with None => Ok (PFail MInvalidProofHex) | Some p => Ok (PRun (mkopt path root act key [] p)) end
            end
          | _ => Ok (PRun (mkopt path root act key [] []))
          end
        end
      end
    end
  end.

(** urkel_base16_print: urkel.c 111-131: the line printed.  The buffer has 1025 bytes, or
    twice the length plus 1. *)
Definition base16_print (src : bytes) : res bytes :=
  let e := base16_encode src in
  let room := if 512 <? length src then length src * 2 + 1 else 1025 in
  if room <? length e then UB else Ok (removelast e ++ [x0a]).

(** The file system: what is at a path without links; only the directories urkel_open and
    urkel_destroy are given, which contain nothing else.  Parent directories exist. *)
Definition fsys := bytes -> option dir.
Definition fput (D : fsys) (p : bytes) (x : option dir) : fsys := fun q => if bytes_eqb p q then x else D q.
(** stdout, stderr, the exit status (true for 0), and the file system. *)
Record exited := mkexit { e_out : bytes; e_err : option message; e_ok : bool; e_fs : fsys }.

(** urkel_open: tree.c 581-603, with urkel_store_init by steps (Proc.v).  [fresh]: the random
    key drawn if there is none.  After a prefix of 1014 characters a buffer overflows (C46). *)
Definition cli_open (cwd : option bytes) (junk : byte) (fresh path : bytes) (D : fsys) : res (option (bytes * db) * fsys) :=
  let! p := init_prefix cwd junk (Some path) in
  match p with
  | None => Ok (None, D)
  | Some p =>
    if 1013 <? length p then UB else
    let! (ops, s) := store_init H C fresh (D p) in
    let D := fput D p (fold_left dapply ops (D p)) in
    match s with
    | None => Ok (None, D)
    | Some s => Ok (Some (p, mkdb s (hash_field (m_node (st_state s))) false), D)
    end
  end.
(** urkel_close leaves the files as they are. *)
Definition cli_close (p : bytes) (w : world) (D : fsys) : fsys :=
  fput D p (match D p with Some d => Some (mkdir (dir_meta d) (files w)) | None => None end).

(** urkel_destroy: tree.c 615-621, store.c 1152-1212 on a directory with nothing else in it
    (Destroy.v: C55_complete). *)
Definition cli_destroy (cwd : option bytes) (junk : byte) (path : bytes) (D : fsys) : res (bool * fsys) :=
  let! p := init_prefix cwd junk (Some path) in
  match p with
  | None => Ok (false, D)
  | Some p =>
    if 1013 <? length p then UB else
    match D p with None => Ok (false, D) | Some _ => Ok (true, fput D p None) end
  end.

(** while (urkel_iter_next(...)): urkel.c 475-479, 546-547; the records and the error that
    ends the loop.  (For "list" the code passes no value buffer; here values are read.) *)
Fixpoint iter_loop (fuel : nat) (rd : ptr -> option bytes) (it : iterst) : res (list (bytes * bytes) * errno) :=
  match fuel with
  | O => NoFuel
  | S fuel =>
    let! (r, it) := iter_next rd it in
    match r with
    | IRec k v => let! (l, e) := iter_loop fuel rd it in Ok ((k, v) :: l, e)
    | IErr e => Ok ([], e)
    end
  end.
(** urkel_iterate: tree.c 812-829; [None] for NULL. *)
Definition cli_iterate (fuel : nat) (w : world) (ro : option bytes) : res (option (list (bytes * bytes) * errno) * world) :=
  let! (a, w) := step H C w (CTxCreate ro) in
  match a, w_db w with
  | ATx i, Some d =>
    let! root := live w i in
    let! r := iter_loop fuel (st_rd (d_store d)) (iter_create root) in
    Ok (Some r, w)
  | _, _ => Ok (None, w)
  end.
Definition errno_eqb_end (e : errno) : bool := match e with EITEREND => true | _ => false end.

(** printf("%lu"). *)
Definition decimal (n : nat) : bytes := str (NilZero.string_of_uint (N.to_uint (N.of_nat n))).

(** The part of urkel_main between opening and closing: urkel.c 437-595: what is printed, the
    message of the [goto fail] taken, and the database. *)
Definition cli_body (fuel : nat) (o : options) (w : world) : res (bytes * option message * world) :=
  match o_action o with
  | DoInfo =>
    let! (a, w) := step H C w CRoot in
    match a with
    | AHash root =>
      let! (it, w) := cli_iterate fuel w (o_root o) in
      match it with
      | None => Ok ([], Some MIterator, w)
      | Some (l, e) =>
        if negb (errno_eqb_end e) then Ok ([], Some MIteration, w) else
        let! line := base16_print root in
        Ok (str "Items: " ++ decimal (length l) ++ [x0a] ++
            str "Size:  " ++ decimal (list_sum (map (fun e => 32 + length (snd e)) l)) ++ [x0a] ++
            str "Root:  " ++ line, None, w)
      end
    | _ => UB
    end
  | DoRoot =>
    let! (a, w) := step H C w CRoot in
    match a with AHash root => let! line := base16_print root in Ok (line, None, w) | _ => UB end
  | DoGet =>
    let! (a, w) := step H C w (CGet (o_key o) (o_root o)) in
    match a with
    | AVal v => if 1024 <? length v then UB else let! line := base16_print v in Ok (line, None, w)
    | _ => Ok ([], Some MNotFound, w)
    end
  | DoInsert =>
    let! (a, w) := step H C w (CInsert (o_key o) (o_value o)) in
    Ok ([], match a with AOk => None | _ => Some MWrite end, w)
  | DoRemove =>
    let! (a, w) := step H C w (CRemove (o_key o)) in
    Ok ([], match a with AOk => None | _ => Some MRemove end, w)
  | DoList =>
    let! (it, w) := cli_iterate fuel w (o_root o) in
    match it with
    | None => Ok ([], Some MIterator, w)
    | Some (l, e) =>
      let! out := fold_right (fun e r => let! line := base16_print (fst e) in let! out := r in Ok (line ++ out)) (Ok []) l in
      Ok (out, if errno_eqb_end e then None else Some MIteration, w)
    end
  | DoProve =>
    let! (a, w) := step H C w (CProve (o_key o) (o_root o)) in
    match a with
    | AProof raw => let! line := base16_print raw in Ok (line, None, w)
    | _ => Ok ([], Some MWrite, w)
    end
  | _ => Ok ([], None, w)
  end.

(** urkel_main: urkel.c 413-606. *)
Definition cli_main (fuel : nat) (cwd : option bytes) (junk : byte) (fresh : bytes) (o : options) (D : fsys) : res exited :=
  match o_action o with
  | DoDestroy =>
    let! (ok, D) := cli_destroy cwd junk (o_path o) D in
    Ok (mkexit [] (if ok then None else Some MDestroy) ok D)
  | DoVerify =>
    match o_root o with
    | None => Ok (mkexit [] (Some MNoRoot) false D)
    | Some root =>
      let! v := urkel_verify H (o_proof o) (o_key o) (Some root) in
      match v_err v with
      | Some _ => Ok (mkexit [] (Some MInvalidProof) false D)
      | None =>
        if v_exists v
        then if 1024 <? length (v_value v) then UB else let! line := base16_print (v_value v) in Ok (mkexit line None true D)
        else Ok (mkexit [] None true D)
      end
    end
  | act =>
    let! (r, D) := cli_open cwd junk fresh (o_path o) D in
    match r with
    | None => Ok (mkexit [] (Some (match act with DoCreate => MCreate | _ => MOpen end)) false D)
    | Some (p, d) =>
      let! (out, m, w) := cli_body fuel o (mkworld (Some d) []) in
      Ok (mkexit out m (match m with None => true | Some _ => false end) (cli_close p w D))
    end
  end.

(** main: urkel.c 613-633, urkel_usage: 171-211 (its text is [usage]). *)
Variable usage : bytes.
Definition cli (fuel : nat) (cwd : option bytes) (junk : byte) (fresh : bytes) (env : option bytes) (argv : list bytes) (D : fsys) : res exited :=
  let! r := options_init argv env in
  match r with
  | PFail m => Ok (mkexit [] (Some m) false D)
  | PUsage => Ok (mkexit usage None false D)
  | PHelp => Ok (mkexit usage None true D)
  | PRun o => cli_main fuel cwd junk fresh o D
  end.
End Cli.
