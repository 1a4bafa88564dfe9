(** Counted loops and arrays written through an advancing pointer, as used by
    opm/core/grid/cart_grid.c and others. *)
From Verif Require Import Base.

(** [for (i = lo; i < lo + n; ++i) body]. *)
Fixpoint for_loop {S} (n lo : nat) (body : nat → S → option S) (s : S) : option S :=
  match n with
  | 0 => Some s
  | Datatypes.S n => s ← body lo s; for_loop n (Datatypes.S lo) body s
  end.

(** An allocated array and a pointer into it. *)
Record stream (A : Type) := Stream { st_arr : list A; st_pos : nat }.
Arguments Stream {A}. Arguments st_arr {A}. Arguments st_pos {A}.
Definition open {A} (l : list A) : stream A := Stream l 0.

(** [*p++ = v]; writing outside of the array is undefined. *)
Definition put {A} (s : stream A) (v : A) : option (stream A) :=
  a ← upd (st_arr s) (st_pos s) v; Some (Stream a (S (st_pos s))).
(** Several such statements in a row. *)
Fixpoint puts {A} (s : stream A) (vs : list A) : option (stream A) :=
  match vs with [] => Some s | v :: vs => s ← put s v; puts s vs end.
(** [p[1] = p[0] + w; ++p]. *)
Definition bump (w : nat) (s : stream nat) : option (stream nat) :=
  v ← st_arr s !! st_pos s;
  a ← upd (st_arr s) (st_pos s + 1) (v + w);
  Some (Stream a (st_pos s + 1)).
