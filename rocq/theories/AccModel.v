(** Accumulation into arrays of doubles, and the double loop over the cells of
    a grid and their faces that carries one running index, used all over
    /repo/opm/core.  Doubles are real numbers: no rounding. *)
From Coq Require Import Reals.
From Verif Require Import Base LoopModel.

(** [l[k] += v]. *)
Definition addto (l : list R) (k : nat) (v : R) : option (list R) :=
  x ← l !! k; upd l k (x + v)%R.

(** [for (c = i = 0; c < n; c++) for (; i < pos[c + 1]; i++) body] (for example
    pressure/tpfa/trans_tpfa.c:74-80).  The state is [i] and what the body
    changes. *)
Definition csr_step {S} (pos : list nat) (body : nat → nat → S → option S) (c : nat) (s : nat * S) :
    option (nat * S) :=
  e ← pos !! Datatypes.S c;
  t ← for_loop (e - s.1) s.1 (body c) s.2;
  Some (s.1 `max` e, t).
Definition csr_loop {S} (n : nat) (pos : list nat) (body : nat → nat → S → option S) (s : S) : option S :=
  snd <$> for_loop n 0 (csr_step pos body) (0, s).
