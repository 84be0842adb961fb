(** * tree.c 1090-1284: iterators. *)
From Verif Require Export Tree.
From Coq Require Import ZifyBool ZifyNat ZifyN.

(** urkel_state_t: tree.c 35-40.  [f_child] is child + 1; depth and resolved are only used
    for memory management. *)
Record frame := mkframe { f_node : node; f_child : nat }.

(** urkel_iter_t: tree.c 42-52 (top of the stack first).  The node structures cannot
    change while the iterator lives: it holds the transaction's read lock. *)
Record iterst := mkiter { it_root : node; it_stack : list frame; it_done : bool }.

(** urkel_iter_create: tree.c 1090-1108. *)
Definition iter_create (root : node) : iterst := mkiter root [] false.

(** urkel_iter_push: tree.c 1134-1149. *)
Definition iter_push (it : iterst) (n : node) : res iterst :=
  check (length (it_stack it) <? 256)
  (Ok (mkiter (it_root it) (mkframe n 0 :: it_stack it) (it_done it))).

(** What urkel_iter_seek leaves in iter->node, or the error it returns 0 with. *)
Inductive sres : Type := SNone | SAt (n : node) | SErr (e : errno).

Section Iter.
Variable rd : ptr -> option bytes.

(** The loop of urkel_iter_seek: tree.c 1190-1247. *)
Fixpoint seek_loop (fuel : nat) (it : iterst) : res (sres * iterst) :=
  match fuel with
  | O => NoFuel
  | S fuel =>
    match it_stack it with
    | [] => Abort
    | fr :: rest =>
      match f_node fr with
      | NNull => Ok (SAt (f_node fr), it)
      | NLeaf _ _ _ _ _ => Ok (SAt (f_node fr), it)
      | NInt _ _ _ l r =>
        if 2 <=? f_child fr then Ok (SNone, it) else
        let c := S (f_child fr) in
        let it := mkiter (it_root it) (mkframe (f_node fr) c :: rest) (it_done it) in
        let! it := iter_push it (if c =? 2 then r else l) in
        seek_loop fuel it
      | NHash h w =>
        if 1 <=? f_child fr then Ok (SNone, it) else
        let it := mkiter (it_root it) (mkframe (f_node fr) 1 :: rest) (it_done it) in
        let! r := resolve rd h w in
        match r with
        | None => Ok (SErr ECORRUPTION, it)
        | Some rn => let! it := iter_push it rn in seek_loop fuel it
        end
      end
    end
  end.

(** Every turn of the loop returns or pushes, and a push beyond 256 entries aborts. *)
Definition SEEK_FUEL := 258.

(** urkel_iter_seek: tree.c 1163-1248. *)
Definition iter_seek (it : iterst) : res (sres * iterst) :=
  if it_done it then Ok (SErr EITEREND, it) else
  match it_stack it with
  | [] => let! it := iter_push it (it_root it) in seek_loop SEEK_FUEL it
  | _ :: rest =>
    match rest with
    | [] => Ok (SErr EITEREND, mkiter (it_root it) [] true)
    | _ => seek_loop SEEK_FUEL (mkiter (it_root it) rest (it_done it))
    end
  end.

(** Result of urkel_iter_next. *)
Inductive ires : Type := IRec (k v : bytes) | IErr (e : errno).

(** The loop of urkel_iter_next: tree.c 1250-1284, with a value buffer. *)
Fixpoint next_loop (fuel : nat) (it : iterst) : res (ires * iterst) :=
  match fuel with
  | O => NoFuel
  | S fuel =>
    let! (r, it) := iter_seek it in
    match r with
    | SErr e => Ok (IErr e, it)
    | SAt (NLeaf _ _ k v vp) =>
      let! x := retrieve rd v vp in
      match x with
      | None => Ok (IErr ECORRUPTION, it)
      | Some x => Ok (IRec k x, it)
      end
    | _ => next_loop fuel it
    end
  end.
Definition NEXT_FUEL := 259.
Definition iter_next (it : iterst) : res (ires * iterst) := next_loop NEXT_FUEL it.

(** The results of [n] calls of urkel_iter_next. *)
Fixpoint iter_calls (n : nat) (it : iterst) : res (list ires) :=
  match n with
  | O => Ok []
  | S n =>
    let! (r, it) := iter_next it in
    let! rs := iter_calls n it in
    Ok (r :: rs)
  end.
End Iter.
