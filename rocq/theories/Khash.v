(** * The root cache: khash.h as instantiated by store.c 34-35 and 67-72, urkel_cache_* (store.c
    309-379), urkel_murmur3 (util.c 182-232).

    Store.v uses an association list for the cache; this file models the hash table itself:
    open addressing with triangular probing, packed flag words, in-place rehashing with
    "kick-out".  Keys are the 32 bytes the stored pointers point to (each points into the
    node it is stored with, which lives until the cache is cleared).  Allocation succeeds
    (a failing one aborts: store.c 366-369).  khint_t is uint32_t: additions that could
    exceed 32 bits are reduced, except i + step, whose sum is masked with a smaller power of
    two anyway; size_t is taken to have 64 bits (the byte counts of 253-261 do not overflow).  Deletion (kh_del) is not used by store.c; deleted slots
    are still tested for, as the code does. *)
From Verif Require Export Store.
From Coq Require Import Floats.SpecFloat.

Local Open Scope N_scope.
Definition W32 : N := 4294967296.

(** ** Flag words: khash.h 165-171.  Two bits per bucket: bit 1 "empty", bit 0 "deleted". *)
Definition flag_bit (fl : list N) (i b : N) : res bool :=
  match nth_error fl (N.to_nat (N.shiftr i 4)) with
  | Some w => Ok (N.testbit w (N.shiftl (N.land i 15) 1 + b))
  | None => UB
  end.
Definition isempty (fl : list N) (i : N) : res bool := flag_bit fl i 1.
Definition isdel (fl : list N) (i : N) : res bool := flag_bit fl i 0.
Definition iseither (fl : list N) (i : N) : res bool :=
  let! e := isempty fl i in let! d := isdel fl i in Ok (e || d).
Definition on_word (fl : list N) (i : N) (f : N -> N) : res (list N) :=
  match nth_error fl (N.to_nat (N.shiftr i 4)) with
  | Some w => Ok (upd fl (N.to_nat (N.shiftr i 4)) (f w))
  | None => UB
  end.
Definition set_isempty_false fl i := on_word fl i (fun w => N.clearbit w (N.shiftl (N.land i 15) 1 + 1)).
Definition set_isboth_false fl i :=
  on_word fl i (fun w => N.clearbit (N.clearbit w (N.shiftl (N.land i 15) 1 + 1)) (N.shiftl (N.land i 15) 1 + 0)).
Definition set_isdel_true fl i := on_word fl i (fun w => N.setbit w (N.shiftl (N.land i 15) 1 + 0)).
(** __ac_fsize: khash.h 173; the memset with 0xaa: 255. *)
Definition fsize (m : N) : N := if m <? 16 then 1 else N.shiftr m 4.
Definition fresh_flags (m : N) : list N := repeat 0xaaaaaaaa (N.to_nat (fsize m)).

(** kroundup32: khash.h 176. *)
Definition kroundup32 (x : N) : N :=
  let x := (x + (W32 - 1)) mod W32 in
  let x := N.lor x (N.shiftr x 1) in
  let x := N.lor x (N.shiftr x 2) in
  let x := N.lor x (N.shiftr x 4) in
  let x := N.lor x (N.shiftr x 8) in
  let x := N.lor x (N.shiftr x 16) in
  (x + 1) mod W32.

(** (khint_t)(n * __ac_HASH_UPPER + 0.5) in IEEE double arithmetic, khash.h 192, 251, 303.
    The literal 0.77 denotes 1733885856537641 / 2^51. *)
Definition dbl (m : positive) (e : Z) : spec_float := binary_normalize 53 1024 (Zpos m) e false.
Definition of_uint (n : N) : spec_float := binary_normalize 53 1024 (Z.of_N n) 0 false.
Definition to_uint (f : spec_float) : N :=
  match f with S754_finite false m e => Z.to_N (Z.shiftl (Zpos m) e) | _ => 0 end.
Definition upper (n : N) : N :=
  to_uint (SFadd 53 1024 (SFmul 53 1024 (of_uint n) (dbl 1733885856537641 (-51))) (dbl 1 (-1))).

(** ** The table: khash.h 194-200.  [None] in an array: not initialised. *)
Section Table.
Variable V : Type.
Record khash := mkkh {
  kb : N; ksize : N; kocc : N; kupper : N;
  kflags : list N; kkeys : list (option bytes); kvals : list (option V) }.
(** kh_init: khash.h 212-214. *)
Definition kh_init : khash := mkkh 0 0 0 0 [] [] [].

Definition aget {A} (l : list (option A)) (i : N) : res A :=
  match nth_error l (N.to_nat i) with Some (Some x) => Ok x | _ => UB end.
Definition aput {A} (l : list (option A)) (i : N) (x : A) : res (list (option A)) :=
  if i <? N.of_nat (length l) then Ok (upd l (N.to_nat i) (Some x)) else UB.

(** CACHE_HASH; CACHE_EQUAL is [bytes_eqb]. *)
Variable hf : bytes -> N.

(** The loop of kh_get: khash.h 237-241. *)
Fixpoint get_loop (fuel : nat) (h : khash) (key : bytes) (i last step : N) : res N :=
  match fuel with
  | O => NoFuel
  | S fuel =>
    let! e := isempty (kflags h) i in
    let! go := (if e then Ok false else
                let! d := isdel (kflags h) i in
                if d then Ok true else
                let! k := aget (kkeys h) i in Ok (negb (bytes_eqb k key))) in
    if go then
      let step := step + 1 in
      let i := N.land (i + step) (kb h - 1) in
      if i =? last then Ok (kb h) else get_loop fuel h key i last step
    else let! x := iseither (kflags h) i in Ok (if x then kb h else i)
  end.
(** Triangular probing comes back to its start after twice the number of buckets. *)
Definition probes (n : N) : nat := N.to_nat (2 * n).
(** kh_get: khash.h 230-243. *)
Definition kh_get (h : khash) (key : bytes) : res N :=
  if kb h =? 0 then Ok 0 else
  let i := N.land (hf key) (kb h - 1) in get_loop (probes (kb h)) h key i i 0.

(** ** Rehashing: khash.h 244-306 *)

(** while (!isempty(new_flags, i)) i = (i + (++step)) & new_mask: 281. *)
Fixpoint empty_loop (fuel : nat) (nf : list N) (mask i step : N) : res N :=
  match fuel with
  | O => NoFuel
  | S fuel =>
    let! e := isempty nf i in
    if e then Ok i else empty_loop fuel nf mask (N.land (i + (step + 1)) mask) (step + 1)
  end.

(** The old flags, the new flags, keys, vals. *)
Definition arrays := (list N * list N * list (option bytes) * list (option V))%type.

(** The kick-out process: 277-292; [n] is h->n_buckets, [nb] new_n_buckets. *)
Fixpoint kick (fuel : nat) (n nb : N) (a : arrays) (key : bytes) (val : V) : res arrays :=
  match fuel with
  | O => NoFuel
  | S fuel =>
    let '(fl, nf, ks, vs) := a in
    let! i := empty_loop (probes nb) nf (nb - 1) (N.land (hf key) (nb - 1)) 0 in
    let! nf := set_isempty_false nf i in
    let! out := (if i <? n then let! x := iseither fl i in Ok (negb x) else Ok false) in
    if out then
      let! k := aget ks i in
      let! ks := aput ks i key in
      let! v := aget vs i in
      let! vs := aput vs i val in
      let! fl := set_isdel_true fl i in
      kick fuel n nb (fl, nf, ks, vs) k v
    else
      let! ks := aput ks i key in
      let! vs := aput vs i val in
      Ok (fl, nf, ks, vs)
  end.

(** for (j = 0; j != h->n_buckets; ++j): 269-294.  [c] buckets remain. *)
Fixpoint rehash (c : nat) (j n nb : N) (a : arrays) : res arrays :=
  match c with
  | O => Ok a
  | S c =>
    let '(fl, nf, ks, vs) := a in
    let! x := iseither fl j in
    if x then rehash c (j + 1) n nb a else
    let! key := aget ks j in
    let! val := aget vs j in
    let! fl := set_isdel_true fl j in
    let! a := kick (N.to_nat n + 1) n nb (fl, nf, ks, vs) key val in
    rehash c (j + 1) n nb a
  end.

Definition grow {A} (l : list (option A)) (n : N) : list (option A) :=
  l ++ repeat None (N.to_nat n - length l).

(** kh_resize: khash.h 244-306. *)
Definition kh_resize (h : khash) (nb : N) : res khash :=
  let nb := kroundup32 nb in
  let nb := if nb <? 4 then 4 else nb in
  if upper nb <=? ksize h then Ok h else
  let nf := fresh_flags nb in
  let ks := if kb h <? nb then grow (kkeys h) nb else kkeys h in
  let vs := if kb h <? nb then grow (kvals h) nb else kvals h in
  let! (_, nf, ks, vs) := rehash (N.to_nat (kb h)) 0 (kb h) nb (kflags h, nf, ks, vs) in
  let ks := if nb <? kb h then firstn (N.to_nat nb) ks else ks in
  let vs := if nb <? kb h then firstn (N.to_nat nb) vs else vs in
  Ok (mkkh nb (ksize h) (ksize h) (upper nb) nf ks vs).

(** ** kh_put: khash.h 307-348 *)

(** The loop of 325-329.  [inl i]: left at bucket i; [inr x]: back at the start, x = site.
    With it the last deleted bucket passed ([site], n_buckets if none). *)
Fixpoint put_loop (fuel : nat) (h : khash) (key : bytes) (i last step site : N) : res ((N + N) * N) :=
  match fuel with
  | O => NoFuel
  | S fuel =>
    let! e := isempty (kflags h) i in
    let! d := isdel (kflags h) i in
    let! go := (if e then Ok false else
                if d then Ok true else
                let! k := aget (kkeys h) i in Ok (negb (bytes_eqb k key))) in
    if go then
      let site := if d then i else site in
      let step := step + 1 in
      let i := N.land (i + step) (kb h - 1) in
      if i =? last then Ok (inr site, site) else put_loop fuel h key i last step site
    else Ok (inl i, site)
  end.

(** The bucket and *ret (0 present, 1 empty before, 2 deleted before). *)
Definition kh_put (h : khash) (key : bytes) : res (khash * N * N) :=
  let! h := (if kupper h <=? kocc h then
               if (2 * ksize h) mod W32 <? kb h
               then kh_resize h ((kb h + (W32 - 1)) mod W32)
               else kh_resize h ((kb h + 1) mod W32)
             else Ok h) in
  let n := kb h in
  let i := N.land (hf key) ((n + (W32 - 1)) mod W32) in
  let! e := isempty (kflags h) i in
  let! x := (if e then Ok i else
             let! (r, site) := put_loop (probes n) h key i i 0 n in
             let '(x, i) := match r with inl i => (n, i) | inr x => (x, i) end in
             if x =? n then
               let! e := isempty (kflags h) i in
               Ok (if e && negb (site =? n) then site else i)
             else Ok x) in
  let! e := isempty (kflags h) x in
  if e then
    let! ks := aput (kkeys h) x key in
    let! fl := set_isboth_false (kflags h) x in
    Ok (mkkh n (ksize h + 1) (kocc h + 1) (kupper h) fl ks (kvals h), x, 1)
  else
    let! d := isdel (kflags h) x in
    if d then
      let! ks := aput (kkeys h) x key in
      let! fl := set_isboth_false (kflags h) x in
      Ok (mkkh n (ksize h + 1) (kocc h) (kupper h) fl ks (kvals h), x, 2)
    else Ok (h, x, 0).

(** ** urkel_cache_lookup, urkel_cache_insert: store.c 335-379 *)
Definition kc_lookup (h : khash) (key : bytes) : res (option V) :=
  let! x := kh_get h key in
  if x =? kb h then Ok None else let! v := aget (kvals h) x in Ok (Some v).
(** The result: was the node stored?  If not, it is freed at once (376-378). *)
Definition kc_insert (h : khash) (key : bytes) (v : V) : res (khash * bool) :=
  let! (h, x, ret) := kh_put h key in
  if ret =? 0 then Ok (h, false) else
  let! vs := aput (kvals h) x v in
  Ok (mkkh (kb h) (ksize h) (kocc h) (kupper h) (kflags h) (kkeys h) vs, true).
(** urkel_cache_clear: store.c 316-333: the nodes freed, in order ([c] buckets remain). *)
Fixpoint clear_loop (c : nat) (i : N) (h : khash) : res (list V) :=
  match c with
  | O => Ok []
  | S c =>
    let! x := iseither (kflags h) i in
    if x then clear_loop c (i + 1) h else
    let! v := aget (kvals h) i in
    let! l := clear_loop c (i + 1) h in Ok (v :: l)
  end.
Definition kc_clear (h : khash) : res (list V) := clear_loop (N.to_nat (kb h)) 0 h.
End Table.

(** ** urkel_murmur3: util.c 182-232 *)
Definition rotl32 (x y : N) : N := N.lor (N.shiftl x y mod W32) (N.shiftr x (32 - y)).
Definition mul32 (x y : N) : N := (x * y) mod W32.
Definition mix1 (k : N) : N := mul32 (rotl32 (mul32 k 0xcc9e2d51) 15) 0x1b873593.
Fixpoint murmur_loop (fuel : nat) (h1 : N) (d : bytes) : N * bytes :=
  match fuel, d with
  | S fuel, a :: b :: c :: e :: d' =>
    let k := b2n e * 16777216 + b2n c * 65536 + b2n b * 256 + b2n a in
    let h1 := N.lxor h1 (mix1 k) in
    let h1 := rotl32 h1 13 in
    murmur_loop fuel ((h1 * 5 + 0xe6546b64) mod W32) d'
  | _, _ => (h1, d)
  end.
Definition murmur3 (data : bytes) (seed : N) : N :=
  let '(h1, d) := murmur_loop (length data) seed data in
  let h1 :=
    match d with
    | [a] => N.lxor h1 (mix1 (b2n a))
    | [a; b] => N.lxor h1 (mix1 (N.lxor (b2n b * 256) (b2n a)))
    | [a; b; c] => N.lxor h1 (mix1 (N.lxor (N.lxor (b2n c * 65536) (b2n b * 256)) (b2n a)))
    | _ => h1
    end in
  let h1 := N.lxor h1 (N.of_nat (length data) mod W32) in
  let h1 := N.lxor h1 (N.shiftr h1 16) in
  let h1 := mul32 h1 0x85ebca6b in
  let h1 := N.lxor h1 (N.shiftr h1 13) in
  let h1 := mul32 h1 0xc2b2ae35 in
  N.lxor h1 (N.shiftr h1 16).
Definition cache_hash (k : bytes) : N := murmur3 k 0.
