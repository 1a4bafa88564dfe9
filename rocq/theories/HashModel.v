(** Model of opm/core/pressure/msmfem/hash_set.c.

    Simplifications valid for the whole file:
    - [size_t] values are [nat] (no wrap-around: tables stay below 2^31 entries);
    - keys and table entries ([int]) are [Z];
    - [hash_set_idx], which uses floating point, is an arbitrary function [h];
      the theorems assume only [h k m < m] for k >= 0 and m > 0 (hash_set.c:72-78
      computes floor(m*x) with 0 <= x < 1 and m a power of two, which is exact). *)
From Verif Require Import Base.

(** Macro IS_POW2, hash_set.c:33. *)
Definition is_pow2 (x : nat) : bool := bool_decide (Nat.land x (x - 1) = 0).

(** The shift distances i = 1, 2, 4, ... < CHAR_BIT * sizeof(size_t) of the loop
    hash_set.c:61-63 (64-bit size_t). *)
Definition shifts : list nat := [1; 2; 4; 8; 16; 32].
Definition smear (m : nat) : nat := foldl (λ m i, Nat.lor m (Nat.shiftr m i)) m shifts.

(** hash_set_size, hash_set.c:39-66. *)
Definition hash_set_size (m : nat) : nat :=
  if decide (m = 0) then 1
  else if is_pow2 m then m
  else S (smear (m - 1)).

(** struct hash_set, hash_set.h:37-40. *)
Record hash_set := HashSet { hs_m : nat; hs_s : list Z }.

Section hash.
Variable h : Z → nat → nat.

(** The for loop hash_set.c:102-105; [fuel] is m - i. Returns the final j. *)
Fixpoint probe_loop (fuel : nat) (k : Z) (m h2 j : nat) (s : list Z) : option nat :=
  x ← s !! j;
  match fuel with
  | 0 => Some j
  | S fuel' =>
      if decide (x ≠ (-1)%Z ∧ x ≠ k)
      then probe_loop fuel' k m h2 (Nat.land (j + h2) (m - 1)) s
      else Some j
  end.

(** hash_set_insert_core, hash_set.c:84-114, with its asserts.  Returns the
    index and the new contents. *)
Definition insert_core (k : Z) (m : nat) (s : list Z) : option (nat * list Z) :=
  if decide (0 < m ∧ is_pow2 m) then
    let j := h k m in
    if decide (j < m) then
      x ← s !! j;
      s ← (if decide (x = (-1)%Z) then upd s j k else Some s);
      x ← s !! j;
      if decide (x = k) then Some (j, s)
      else
        let h2 := 2 * h k (Nat.max (Nat.div2 m) 1) + 1 in
        j ← probe_loop (m - 1) k m h2 j s;
        x ← s !! j;
        if decide (x = (-1)%Z ∨ x = k) then s' ← upd s j k; Some (j, s')
        else Some (m + 1, s)
    else None
  else None.

(** The re-insertion loop hash_set.c:133-136 with its assert. *)
Fixpoint reinsert (l : list Z) (m : nat) (s : list Z) : option (list Z) :=
  match l with
  | [] => Some s
  | x :: l =>
      r ← insert_core x m s;
      if decide (r.1 < m) then reinsert l m r.2 else None
  end.

(** hash_set_expand, hash_set.c:120-150; the result is -1 (here [false]) when
    memory is exhausted. *)
Definition expand (m : nat) (t : hash_set) (o : list bool)
    : option (bool * hash_set * list bool) :=
  if decide (hs_m t < m) then
    let '(b, o) := next_alloc o in
    if (b : bool) then
      s ← reinsert (take (hs_m t) (hs_s t)) m (replicate m (-1)%Z);
      Some (true, HashSet m s, o)
    else Some (false, t, o)
  else None.

(** hash_set_allocate, hash_set.c:169-192. *)
Definition allocate (m : nat) (o : list bool) : option hash_set * list bool :=
  let '(b1, o) := next_alloc o in
  if b1 then
    let '(b2, o) := next_alloc o in
    let sz := hash_set_size m in
    if b2 then (Some (HashSet sz (replicate sz (-1)%Z)), o) else (None, o)
  else (None, o).

(** hash_set_insert, hash_set.c:197-225. *)
Definition insert (k : Z) (t : hash_set) (o : list bool)
    : option (Z * hash_set * list bool) :=
  if decide (0 ≤ k)%Z then
    if is_pow2 (hs_m t) then
      r ← insert_core k (hs_m t) (hs_s t);
      let '(i, s) := r in
      let t := HashSet (hs_m t) s in
      if decide (i = hs_m t + 1) then
        r ← expand (2 * hs_m t) t o;
        let '(ok, t, o) := r in
        if (ok : bool) then
          r ← insert_core k (hs_m t) (hs_s t);
          let '(i, s) := r in
          if decide (i < hs_m t) then Some (k, HashSet (hs_m t) s, o) else None
        else Some ((-1)%Z, t, o)
      else Some (k, t, o)
    else None
  else None.

(** hash_set_count_elms, hash_set.c:229-241. *)
Definition count_elms (t : hash_set) : nat :=
  foldl (λ n x, n + (if decide (x ≠ (-1)%Z) then 1 else 0)) 0 (take (hs_m t) (hs_s t)).

(** A client: insert every key of a list; collects the returned values. *)
Fixpoint insert_all (ks : list Z) (t : hash_set) (o : list bool)
    : option (list Z * hash_set * list bool) :=
  match ks with
  | [] => Some ([], t, o)
  | k :: ks =>
      r ← insert k t o;
      let '(x, t, o) := r in
      r ← insert_all ks t o;
      let '(xs, t, o) := r in
      Some (x :: xs, t, o)
  end.
End hash.
