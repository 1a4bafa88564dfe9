(** Model of opm/core/pressure/msmfem/dfs.c.

    Simplifications valid for the whole file: [int] has unlimited range; array
    positions and vertex numbers are [nat]; [None] is an out-of-bounds access or
    running out of fuel, so a theorem that claims [Some] for all large fuel
    claims both termination and absence of undefined behaviour.  The stack and
    the counters share the array work as in the code: the stack starts at
    work[0], the counters at work[size], and nothing stops the stack from
    running into the counters. *)
From Verif Require Import Base.

Record dfs_state := DS { d_work : list nat; d_sp : nat; d_color : list Z }.
Definition unvisited : Z := -1.   (* dfs.c:32 *)
Definition visited : Z := -2.     (* dfs.c:32 *)

Section dfs.
Variable size : nat.
Variables ia ja : list nat.

(** Initialisation loop, dfs.c:39-42; [n] iterations are left. *)
Fixpoint dfs_init (n i : nat) (work : list nat) (color : list Z) : option (list nat * list Z) :=
  match n with
  | 0 => Some (work, color)
  | S n =>
    color ← upd color i unvisited;
    e ← ia !! S i; b ← ia !! i;
    work ← upd work (size + i) (e - b);
    dfs_init n (S i) work color
  end.

(** Body of the inner while loop, dfs.c:54-68. *)
Definition dfs_step (ncol : nat) (s : dfs_state) : option dfs_state :=
  let '(DS work sp color) := s in
  c ← work !! (sp - 1);
  k ← work !! (size + c);
  if decide (0 < k) then
    b ← ia !! c;
    child ← ja !! (b + k - 1);
    work ← upd work (size + c) (k - 1);
    col ← color !! child;
    if decide (col = unvisited) then
      work ← upd work sp child;
      color ← upd color c visited;
      Some (DS work (S sp) color)
    else Some (DS work sp color)
  else
    color ← upd color c (Z.of_nat ncol);
    Some (DS work (sp - 1) color).

(** The inner while loop, dfs.c:53-69. *)
Fixpoint dfs_while (fuel : nat) (ncol : nat) (s : dfs_state) : option dfs_state :=
  match fuel with
  | 0 => None
  | S fuel =>
    if decide (d_sp s = 0) then Some s
    else s ← dfs_step ncol s; dfs_while fuel ncol s
  end.

(** The seed loop, dfs.c:45-71; [n] iterations are left. *)
Fixpoint dfs_seeds (fuel n i ncol : nat) (s : dfs_state) : option (nat * dfs_state) :=
  match n with
  | 0 => Some (ncol, s)
  | S n =>
    col ← d_color s !! i;
    if decide (0 ≤ col)%Z then dfs_seeds fuel n (S i) ncol s
    else
      work ← upd (d_work s) (d_sp s) i;
      color ← upd (d_color s) i visited;
      s ← dfs_while fuel ncol (DS work (S (d_sp s)) color);
      dfs_seeds fuel n (S i) (S ncol) s
  end.

End dfs.

(** dfs, dfs.c:29-72: number of colours, colours and work array. *)
Definition dfs_call (fuel size : nat) (ia ja : list nat) (color : list Z) (work : list nat) :
    option (nat * list Z * list nat) :=
  '(work, color) ← dfs_init size ia size 0 work color;
  '(ncol, s) ← dfs_seeds size ia ja fuel size 0 0 (DS work 0 color);
  Some (ncol, d_color s, d_work s).

(** The same without the work array. *)
Definition dfs_run (fuel size : nat) (ia ja : list nat) (color : list Z) (work : list nat) :
    option (nat * list Z) :=
  fst <$> dfs_call fuel size ia ja color work.
