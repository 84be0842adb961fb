(** * Resources: memory blocks, descriptors, mappings, directory streams and locks that are
    acquired and must be released.

    A resource is a number, never used twice, and its kind.  Releasing or using one that is
    not held is [UB].  [sysq] holds the answers of the operating system, in order (0, or none
    left: success); [memq] those of the memory allocator (0, or none left: success). *)
From Verif Require Export Prelude.
From Coq Require Export Permutation.

Inductive kind := KMem | KFd | KMap | KDir | KSync.
Definition rsc : Type := nat * kind.
Definition kind_dec (a b : kind) : {a = b} + {a <> b}.
Proof. decide equality. Defined.
Definition rsc_dec (a b : rsc) : {a = b} + {a <> b}.
Proof. decide equality; [apply kind_dec|apply Nat.eq_dec]. Defined.

Record rst := mkrst { nx : nat; lv : list rsc; sysq : list nat; memq : list nat }.
Definition M (A : Type) : Type := rst -> res (A * rst).
Definition mret {A} (a : A) : M A := fun h => Ok (a, h).
Definition mbind {A B} (m : M A) (f : A -> M B) : M B := fun h => let! (a, h) := m h in f a h.
Notation "'do!' x ':=' m 'in' k" := (mbind m (fun x => k))
  (at level 200, x pattern, m at level 100, k at level 200, right associativity).
Definition lift {A} (r : res A) : M A := fun h => let! a := r in Ok (a, h).

(** The next answer of the system, of the allocator. *)
Definition ask : M nat := fun h => Ok (hd 0 (sysq h), mkrst (nx h) (lv h) (tl (sysq h)) (memq h)).
Definition asked : M bool := do! n := ask in mret (n =? 0).
Definition grants : M bool := fun h => Ok (hd 0 (memq h) =? 0, mkrst (nx h) (lv h) (sysq h) (tl (memq h))).

Definition acquire (k : kind) : M nat := fun h => Ok (nx h, mkrst (S (nx h)) ((nx h, k) :: lv h) (sysq h) (memq h)).
Fixpoint drop (r : rsc) (l : list rsc) : option (list rsc) :=
  match l with
  | [] => None
  | x :: l => if rsc_dec r x then Some l else match drop r l with Some l => Some (x :: l) | None => None end
  end.
Definition release (k : kind) (i : nat) : M unit := fun h =>
  match drop (i, k) (lv h) with Some l => Ok (tt, mkrst (nx h) l (sysq h) (memq h)) | None => UB end.
Definition touch (k : kind) (i : nat) : M unit := fun h =>
  if in_dec rsc_dec (i, k) (lv h) then Ok (tt, h) else UB.

(** malloc; checked_malloc: internal.h 140-158, which aborts. *)
Definition malloc : M (option nat) := do! g := grants in if g then do! i := acquire KMem in mret (Some i) else mret None.
Definition checked_malloc : M nat := do! g := grants in if g then acquire KMem else fun _ => Abort.
(** realloc of a block ([None]: NULL): a new block, the old one is gone; checked_realloc
    aborts. *)
Definition checked_realloc (p : option nat) : M nat :=
  do! g := grants in
  if g then do! _ := match p with Some i => release KMem i | None => mret tt end in acquire KMem else fun _ => Abort.
Definition free_opt (p : option nat) : M unit := match p with Some i => release KMem i | None => mret tt end.
Fixpoint free_all (l : list nat) : M unit :=
  match l with [] => mret tt | i :: l => do! _ := release KMem i in free_all l end.

Definition mem (l : list nat) : list rsc := map (fun i => (i, KMem)) l.
Lemma drop_perm r : forall l l', Permutation l (r :: l') -> exists m, drop r l = Some m /\ Permutation m l'.
Proof.
  induction l as [|x l IH]; intros l' E.
  - apply Permutation_nil_cons in E. destruct E.
  - cbn [drop]. destruct (rsc_dec r x) as [<-|N].
    + exists l. split; [reflexivity|]. apply Permutation_cons_inv in E. exact E.
    + assert (I : In x l'). { assert (I : In x (r :: l')) by (apply (Permutation_in _ E); left; reflexivity). destruct I as [I|I]; [congruence|exact I]. }
      apply in_split in I. destruct I as (a & b & ->).
      assert (E2 : Permutation l (r :: a ++ b)).
      { apply (Permutation_cons_inv (a := x)). rewrite E. rewrite perm_swap. constructor. symmetry. apply Permutation_middle. }
      destruct (IH _ E2) as (m & -> & Pm). exists (x :: m). split; [reflexivity|]. rewrite Pm. apply Permutation_middle.
Qed.
