(** Model of opm/core/pressure/mimetic/mimetic.c: inner products of the mimetic
    discretization.

    Simplifications valid for the whole file:
    - doubles are real numbers; dividing by zero is [None];
    - the LAPACK routines dgeqrf and dorgqr together are a function [qr] from the
      leading part of the matrix to the orthonormal factor; the workspace they
      use is not modelled beyond its size, nor is their return code;
    - the BLAS routines dsyrk and dgemm are loops that compute what their
      documentation says. *)
From Coq Require Import Reals.
From Verif Require Import Base LoopModel TableModel.
Local Open Scope R_scope.

(** sum of [h lo], ..., [h (lo + n - 1)]. *)
Definition sum_loop (n : nat) (h : nat → option R) : option R := for_loop n 0 (λ i t, x ← h i; Some (t + x)) 0.

(** dsyrk with "Upper Triangular", "No Transpose" (called at mimetic.c:134):
    C := a1 A A' + a2 C for the entries on and above the diagonal; [A] is
    [m] x [n] with leading dimension [ldA], [C] starts at [off]. *)
Definition dsyrk_upper (m n : nat) (a1 : R) (A : list R) (ldA : nat) (a2 : R) (C : list R) (off ldC : nat) : option (list R) :=
  for_loop m 0 (λ j, for_loop (j + 1) 0 (λ i C,
    s ← sum_loop n (λ k, x ← A !! (i + k * ldA)%nat; y ← A !! (j + k * ldA)%nat; Some (x * y));
    c ← C !! (off + (i + j * ldC))%nat;
    upd C (off + (i + j * ldC)) (a1 * s + a2 * c))) C.
(** dgemm with "No Transpose" twice and beta = 0 (called at mimetic.c:180): the
    old contents of [C] are not read. *)
Definition dgemm_nn0 (m n k : nat) (a1 : R) (A : list R) (ldA : nat) (B : list R) (offB ldB : nat) (C : list R) (ldC : nat) : option (list R) :=
  for_loop n 0 (λ j, for_loop m 0 (λ i C,
    s ← sum_loop k (λ l, x ← A !! (i + l * ldA)%nat; y ← B !! (offB + (l + j * ldB))%nat; Some (x * y));
    upd C (i + j * ldC) (a1 * s))) C.
(** dgemm with "No Transpose", "Transpose" (called at mimetic.c:187). *)
Definition dgemm_nt (m n k : nat) (a1 : R) (A : list R) (ldA : nat) (B : list R) (ldB : nat) (a2 : R) (C : list R) (off ldC : nat) : option (list R) :=
  for_loop n 0 (λ j, for_loop m 0 (λ i C,
    s ← sum_loop k (λ l, x ← A !! (i + l * ldA)%nat; y ← B !! (j + l * ldB)%nat; Some (x * y));
    c ← C !! (off + (i + j * ldC))%nat;
    upd C (off + (i + j * ldC)) (a1 * s + a2 * c))) C.

Section mim.
Variable qr : nat → nat → list R → list R.

(** mim_ip_span_nullspace, mimetic.c:96-150; [X] starts at [off]. The matrix
    tau has room for three columns (line 110). *)
Definition mim_ip_span_nullspace (nf nconn d : nat) (C A X : list R) (off : nat) : option (list R * list R) :=
  X ← for_loop nf 0 (λ j X,
        X ← for_loop nf 0 (λ i X, upd X (off + (i + j * nconn)) 0) X;
        upd X (off + j * (nconn + 1)) 1) X;
  C ← for_loop d 0 (λ j, for_loop nf 0 (λ i C, c ← C !! (i + j * nf)%nat; a ← A !! i; upd C (i + j * nf) (c * a))) C;
  if decide (3 < d)%nat then None else
  M ← slice C 0 (nf * d);
  C ← memcpy C 0 (qr nf d M);
  X ← dsyrk_upper nf d (-1) C nf 1 X off nconn;
  X ← for_loop nf 0 (λ j, for_loop (j + 1) 0 (λ i X,
        x ← X !! (off + (i + j * nconn))%nat; a ← A !! i; b ← A !! j; upd X (off + (i + j * nconn)) (x * (a * b)))) X;
  X ← for_loop nf 0 (λ j, for_loop (nf - (j + 1)) (j + 1) (λ i X,
        x ← X !! (off + (j + i * nconn))%nat; upd X (off + (i + j * nconn)) x)) X;
  Some (C, X).

(** mim_ip_linpress_exact, mimetic.c:154-190; [K] starts at [offK], [Binv] at
    [off]. *)
Definition mim_ip_linpress_exact (nf nconn d : nat) (vol : R) (K : list R) (offK : nat) (N Binv : list R) (off : nat) (work : list R) (lwork : nat) : option (list R * list R) :=
  if decide (lwork < d * nf)%nat then None else
  t ← sum_loop d (λ i, K !! (offK + (i + i * d))%nat);
  work ← dgemm_nn0 nf d d 1 N nf K offK d work nf;
  a1 ← rdiv 1 vol;
  a2 ← rdiv (6 * t) (INR d * vol);
  Binv ← dgemm_nt nf nf d a1 work nf N nf a2 Binv off nconn;
  Some (Binv, work).

(** mim_ip_simple, mimetic.c:82-92. *)
Definition mim_ip_simple (nf nconn d : nat) (v : R) (K : list R) (offK : nat) (C A N Binv : list R) (off : nat) (work : list R) (lwork : nat) : option (list R * list R * list R) :=
  '(C, Binv) ← mim_ip_span_nullspace nf nconn d C A Binv off;
  '(Binv, work) ← mim_ip_linpress_exact nf nconn d v K offK N Binv off work lwork;
  Some (C, Binv, work).

Section all.
Variables (d : nat) (pconn conn : list nat) (fneighbour : list Z) (fcentroid fnormal farea ccentroid cvol perm : list R).

(** The loop over the connections of cell [c], mimetic.c:59-69. *)
Definition gather (c p nconn : nat) (cc : list R) (s : list R * list R * list R) : option (list R * list R * list R) :=
  for_loop nconn 0 (λ i '(C, N, A),
    f ← conn !! (p + i)%nat;
    b ← fneighbour !! (2 * f)%nat;
    let s := 2 * (if decide (b = Z.of_nat c) then 1 else 0) - 1 in
    a ← farea !! f;
    A ← upd A i a;
    '(C, N) ← for_loop d 0 (λ j '(C, N),
      x ← fcentroid !! (j + f * d)%nat; y ← cc !! j;
      C ← upd C (i + j * nconn) (x - y);
      n ← fnormal !! (j + f * d)%nat;
      N ← upd N (i + j * nconn) (s * n);
      Some (C, N)) (C, N);
    Some (C, N, A)) s.

(** The variables of mim_ip_simple_all that survive a pass. *)
Record mstate := MState { m_cc : list R; m_C : list R; m_N : list R; m_A : list R; m_work : list R; m_pos : nat; m_Binv : list R }.
(** The body of the loop over cells, mimetic.c:52-75. *)
Definition mim_cell (lwork : nat) (c : nat) (s : mstate) : option mstate :=
  cc ← for_loop d 0 (λ j cc, x ← ccentroid !! (j + c * d)%nat; upd cc j x) (m_cc s);
  p ← pconn !! c; e ← pconn !! (c + 1)%nat;
  let nconn := (e - p)%nat in
  '(C, N, A) ← gather c p nconn cc (m_C s, m_N s, m_A s);
  v ← cvol !! c;
  '(C, Binv, work) ← mim_ip_simple nconn nconn d v perm (c * d * d) C A N (m_Binv s) (m_pos s) (m_work s) lwork;
  Some (MState cc C N A work (m_pos s + nconn * nconn) Binv).

(** mim_ip_simple_all, mimetic.c:29-78; [junk] fills new memory, [o] tells which
    allocations succeed. *)
Definition mim_ip_simple_all (ncells max_nconn : nat) (junk : R) (o : list bool) (Binv : list R) : option (list R * list bool) :=
  let lwork := (64 * (max_nconn * d))%nat in
  let '(a1, o) := next_alloc o in let '(a2, o) := next_alloc o in let '(a3, o) := next_alloc o in let '(a4, o) := next_alloc o in
  if a1 && a2 && a3 && a4 then
    s ← for_loop ncells 0 (mim_cell lwork)
      (MState (replicate 3 0) (replicate (max_nconn * d) junk) (replicate (max_nconn * d) junk) (replicate max_nconn junk) (replicate lwork junk) 0 Binv);
    Some (m_Binv s, o)
  else Some (Binv, o).
End all.
End mim.

(** The while part of the loops in mim_ip_compute_gpress and
    mim_ip_density_update, mimetic.c:210 and 248: [i] runs up to [e]; nothing is
    done if it is there already. *)
Definition upto (e : nat) (body : nat → list R → option (list R)) (s : nat * list R) : option (nat * list R) :=
  l ← for_loop (e - s.1) s.1 body s.2; Some (Nat.max s.1 e, l).
(** mim_ip_compute_gpress, mimetic.c:194-219. *)
Definition mim_ip_compute_gpress (nc d : nat) (grav : list R) (pconn conn : list nat) (fcentroid ccentroid gpress : list R) : option (list R) :=
  s ← for_loop nc 0 (λ c s,
    e ← pconn !! (c + 1)%nat;
    upto e (λ i gpress,
      f ← conn !! i;
      gpress ← upd gpress i 0;
      for_loop d 0 (λ j gpress,
        g ← grav !! j; x ← fcentroid !! (f * d + j)%nat; y ← ccentroid !! (c * d + j)%nat;
        v ← gpress !! i;
        upd gpress i (v + g * (x - y))) gpress) s) (0%nat, gpress);
  Some s.2.
(** mim_ip_mobility_update, mimetic.c:222-240. *)
Definition mim_ip_mobility_update (nc : nat) (pconn : list nat) (totmob Binv0 Binv : list R) : option (list R) :=
  '(_, Binv) ← for_loop nc 0 (λ c '(p2, Binv),
    e ← pconn !! (c + 1)%nat; b ← pconn !! c;
    let n := (e - b)%nat in
    Binv ← for_loop (n * n) 0 (λ i Binv, m ← totmob !! c; x ← Binv0 !! (p2 + i)%nat; upd Binv (p2 + i) (m * x)) Binv;
    Some ((p2 + n * n)%nat, Binv)) (0%nat, Binv);
  Some Binv.
(** mim_ip_density_update, mimetic.c:243-255. *)
Definition mim_ip_density_update (nc : nat) (pconn : list nat) (omega gpress0 gpress : list R) : option (list R) :=
  s ← for_loop nc 0 (λ c s,
    e ← pconn !! (c + 1)%nat;
    upto e (λ i gpress, w ← omega !! c; x ← gpress0 !! i; upd gpress i (w * x)) s) (0%nat, gpress);
  Some s.2.
