(** Model of opm/core/transport/reorder/reordersequence.cpp and
    ReorderSolverInterface.cpp.

    Fluxes are only negated and compared with zero; they are an abstract type
    with these operations, so that both doubles (including NaN) and real
    numbers are covered. *)
From Verif Require Import Base GridModel TarjanModel.

Section reorder.
Context {F : Type} (fpos fneg : F → bool) (fopp : F → F).
Variable g : ugrid.
Variable flux : list F.

(** The flux out of cell i through face f, reordersequence.cpp:58-59 and 86-87. *)
Definition out_flux (i f : nat) : option F :=
  a ← u_facecells g !! (2 * f); x ← flux !! f;
  Some (if decide (Z.of_nat i = a) then x else fopp x).

(** Inner loop at reordersequence.cpp:55-66; [js] are the values of j. *)
Fixpoint up_row (i : nat) (js : list nat) (work : list nat) : option (list nat) :=
  match js with
  | [] => Some work
  | j :: js =>
    f ← u_cellfaces g !! j;
    th ← out_flux i f;
    work ← (if fpos th then upd work f i else Some work);
    up_row i js work
  end.
(** Loop at reordersequence.cpp:53-67. *)
Fixpoint up_cells (n i : nat) (work : list nat) : option (list nat) :=
  match n with
  | 0 => Some work
  | S n =>
    b ← u_facepos g !! i; e ← u_facepos g !! S i;
    work ← up_row i (seq b (e - b)) work;
    up_cells n (S i) work
  end.

(** Inner loop at reordersequence.cpp:74-93. *)
Fixpoint fill_row (i : nat) (js : list nat) (work ja : list nat) (p : nat) : option (list nat * nat) :=
  match js with
  | [] => Some (ja, p)
  | j :: js =>
    f ← u_cellfaces g !! j;
    a ← u_facecells g !! (2 * f + 0); b ← u_facecells g !! (2 * f + 1);
    if decide (a = -1 ∨ b = -1)%Z then fill_row i js work ja p
    else
      th ← out_flux i f;
      if fneg th then
        w ← work !! f;
        ja ← upd ja p w;
        fill_row i js work ja (S p)
      else fill_row i js work ja p
  end.
(** Loop at reordersequence.cpp:72-95. *)
Fixpoint fill_cells (n i : nat) (work ia ja : list nat) (p : nat) : option (list nat * list nat) :=
  match n with
  | 0 => Some (ia, ja)
  | S n =>
    b ← u_facepos g !! i; e ← u_facepos g !! S i;
    '(ja, p) ← fill_row i (seq b (e - b)) work ja p;
    ia ← upd ia (S i) p;
    fill_cells n (S i) work ia ja p
  end.

(** make_upwind_graph, reordersequence.cpp:36-96. *)
Definition make_upwind_graph (ia ja work : list nat) : option (list nat * list nat) :=
  work ← up_cells (u_nc g) 0 work;
  ia ← upd ia 0 0;
  fill_cells (u_nc g) 0 work ia ja 0.

(** compute_reorder_sequence_graph and compute_sequence,
    reordersequence.cpp:101-148, with the two assertions; the work array is
    reused by tarjan, which clears it first.  The result holds sequence,
    components and ncomponents. *)
Definition compute_sequence (fuel : nat) : option (list nat * list nat * nat) :=
  let nc := u_nc g in let nf := u_nf g in
  '(ia, ja) ← make_upwind_graph (replicate (S nc) 0) (replicate nf 0) (replicate (Nat.max nf (3 * nc)) 0);
  '(sequence, components, ncomp) ← tarjan fuel nc ia ja;
  if decide (0 < ncomp ∧ ncomp ≤ nc) then Some (sequence, components, ncomp) else None.

(** reorderAndTransport, ReorderSolverInterface.cpp:30-64.  The virtual
    functions solveSingleCell and solveMultiCell are parameters acting on the
    solver's state. *)
Section transport.
Context {S' : Type} (single : nat → S' → option S') (multi : list nat → S' → option S').
Fixpoint components_loop (n comp : nat) (sequence components : list nat) (s : S') : option S' :=
  match n with
  | 0 => Some s
  | S n =>
    b ← components !! comp; e ← components !! (comp + 1);
    s ← (if decide (e - b = 1) then c ← sequence !! b; single c s
         else cs ← slice sequence b (e - b); multi cs s);
    components_loop n (comp + 1) sequence components s
  end.
Definition reorder_and_transport (fuel : nat) (s : S') : option S' :=
  '(sequence, components, ncomp) ← compute_sequence fuel;
  components_loop ncomp 0 sequence (take (ncomp + 1) components) s.
End transport.
End reorder.
