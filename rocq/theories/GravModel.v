(** Model of the gravity part of
    opm/core/transport/reorder/TransportSolverTwophaseReorder.cpp: segregation of
    two phases column by column.  Doubles are real numbers: no rounding. *)
From Coq Require Import Reals.
From Verif Require Import Base GridModel LoopModel TableModel RootModel TwoModel.

Section grav.
Variable g : ugrid.
Variables gravflux pv : list R.
Variable dt : R.
Variable kr : nat → R → R → R * R.
Variables visc_w visc_o : R.
(** smin_[2*cell] and smax_[2*cell], the range of the water saturation. *)
Variables smin smax : list R.
Variable tol : R.
Variable maxit : Z.
Local Open Scope R_scope.
Notation mobility := (mobility kr visc_w visc_o).

(** saturation_[cell], mob_[2*cell] and mob_[2*cell + 1], and
    reorder_iterations_[cell], TransportSolverTwophaseReorder.hpp:101-128. *)
Notation gval := (R * (R * R) * Z)%type.

(** struct GravityResidual, TransportSolverTwophaseReorder.cpp:472-479.  A
    neighbour is given by gf[nb] and its two mobilities, which the code reads
    from mob_ at each evaluation; they do not change while the cell is solved. *)
Record grav_residual := GravResidual {
  gr_cell : nat; gr_s0 : R; gr_dtpv : R; gr_nb : list (R * (R * R)) }.
(** The constructor, TransportSolverTwophaseReorder.cpp:480-502. *)
Definition make_grav (cells : list nat) (pos : nat) (cg : list R) (x : list gval) : option grav_residual :=
  cell ← cells !! pos;
  nb0 ← (if decide (0 < pos)%nat then
           n ← cells !! (pos - 1)%nat; f ← cg !! (pos - 1)%nat; '(_, m, _) ← x !! n; Some [(- f, m)]
         else Some []);
  nb1 ← (if decide (pos < length cells - 1)%nat then
           n ← cells !! (pos + 1)%nat; f ← cg !! pos; '(_, m, _) ← x !! n; Some [(f, m)]
         else Some []);
  '(s0, _, _) ← x !! cell; p ← pv !! cell; dtpv ← rdiv dt p;
  Some (GravResidual cell s0 dtpv (nb0 ++ nb1)).
(** One step of the loop in operator(), TransportSolverTwophaseReorder.cpp:508-521. *)
Definition grav_term (dtpv : R) (mobcell : R * R) (nb : R * (R * R)) : R :=
  let '(gf, mnb) := nb in
  let m0 := if Rlt_dec gf 0 then mobcell.1 else mnb.1 in
  let m1 := if Rlt_dec gf 0 then mnb.2 else mobcell.2 in
  if Rlt_dec 0 (m0 + m1) then - dtpv * gf * m0 * m1 / (m0 + m1) else 0.
(** operator(), TransportSolverTwophaseReorder.cpp:503-523. *)
Definition grav_at (r : grav_residual) (s : R) : R :=
  foldl (λ res nb, res + grav_term (gr_dtpv r) (mobility (gr_cell r) s) nb) (s - gr_s0 r) (gr_nb r).

(** solveSingleCellGravity, TransportSolverTwophaseReorder.cpp:571-585. *)
Definition grav_single (cells : list nat) (pos : nat) (cg : list R) (x : list gval) : option (list gval) :=
  cell ← cells !! pos;
  r ← make_grav cells pos cg x;
  '(s_old, _, it) ← x !! cell;
  lo ← smin !! cell; hi ← smax !! cell;
  '(s, it) ← (if Rlt_dec tol (Rabs (grav_at r s_old)) then
       '(res, iters_used, _, _) ← rf_solve (grav_at r) maxit (Z.to_nat maxit + 1)%nat lo hi tol 0%Z;
       s ← continue_on_error res; Some (s, (it + iters_used)%Z)
     else Some (s_old, it));
  let s := Rmin (Rmax s lo) hi in
  upd x cell (s, mobility cell s, it).

(** The fluxes of a column, TransportSolverTwophaseReorder.cpp:594-607: the loop
    over the faces [js] of a cell, and over the cells.  A cell without a face
    to the next one keeps 0. *)
Fixpoint col_face (cell next : nat) (js : list nat) (v : R) : option R :=
  match js with
  | [] => Some v
  | j :: js =>
    face ← u_cellfaces g !! j;
    c1 ← u_facecells g !! (2 * face)%nat; c2 ← u_facecells g !! (2 * face + 1)%nat;
    if decide (c1 = Z.of_nat next ∨ c2 = Z.of_nat next) then
      gf ← gravflux !! face;
      col_face cell next js (if decide (c1 = Z.of_nat cell) then gf else - gf)
    else col_face cell next js v
  end.
Fixpoint col_fluxes (cells : list nat) : option (list R) :=
  match cells with
  | [] => Some []
  | cell :: l =>
    match l with
    | [] => Some []
    | next :: _ =>
      b ← u_facepos g !! cell; e ← u_facepos g !! S cell;
      v ← col_face cell next (seq b (e - b)) 0;
      vs ← col_fluxes l;
      Some (v :: vs)
    end
  end.

(** One solve from the initial saturation,
    TransportSolverTwophaseReorder.cpp:624-625 and 626-627. *)
Definition grav_from (cells : list nat) (cg s0 : list R) (pos : nat) (x : list gval) : option (list gval) :=
  cell ← cells !! pos; s ← s0 !! pos;
  '(_, m, it) ← x !! cell;
  x ← upd x cell (s, m, it);
  grav_single cells pos cg x.
Definition sat_at (cells : list nat) (pos : nat) (x : list gval) : option R :=
  cell ← cells !! pos; '(s, _, _) ← x !! cell; Some s.
(** Body of the loop over the column, TransportSolverTwophaseReorder.cpp:620-631,
    with max_s_change. *)
Definition grav_body (cells : list nat) (cg s0 : list R) (ci : nat) (st : R * list gval) : option (R * list gval) :=
  let '(max_s_change, x) := st in
  let ci2 := (length cells - ci - 1)%nat in
  old0 ← sat_at cells ci x; old1 ← sat_at cells ci2 x;
  x ← grav_from cells cg s0 ci x;
  x ← grav_from cells cg s0 ci2 x;
  new0 ← sat_at cells ci x; new1 ← sat_at cells ci2 x;
  Some (Rmax max_s_change (Rmax (Rabs (new0 - old0)) (Rabs (new1 - old1))), x).
(** The do-while loop and the test behind it,
    TransportSolverTwophaseReorder.cpp:615-640.  An inner [None] is the exception. *)
Fixpoint grav_rounds (fuel : nat) (cells : list nat) (cg s0 : list R) (num_iters : Z) (x : list gval) :
    option (option (Z * list gval)) :=
  match fuel with
  | 0%nat => None
  | S fuel =>
    '(max_s_change, x) ← for_loop (length cells) 0 (grav_body cells cg s0) (0, x);
    if Rlt_dec tol max_s_change then
      if decide (num_iters + 1 < maxit)%Z then grav_rounds fuel cells cg s0 (num_iters + 1) x
      else Some None
    else Some (Some ((num_iters + 1)%Z, x))
  end.
(** solveGravityColumn, TransportSolverTwophaseReorder.cpp:589-640.  Taking the
    address of col_gravflux[0] for a column of one cell is not counted as an
    error; it is not read. *)
Definition grav_column (cells : list nat) (x : list gval) : option (option (Z * list gval)) :=
  cg ← col_fluxes cells;
  s0 ← mapM (λ c, v ← x !! c; Some (v.1.1)) cells;
  grav_rounds (Z.to_nat maxit + 1)%nat cells cg s0 0 x.
(** The loop over the columns, TransportSolverTwophaseReorder.cpp:663-667. *)
Fixpoint grav_columns (cols : list (list nat)) (num_iters : Z) (x : list gval) : option (option (Z * list gval)) :=
  match cols with
  | [] => Some (Some (num_iters, x))
  | col :: cols =>
    r ← grav_column col x;
    match r with
    | None => Some None
    | Some (n, x) => grav_columns cols (num_iters + n)%Z x
    end
  end.
(** The saturations of the cells, which the state keeps in one array
    (opm/core/simulator/TwophaseState.hpp). *)
Fixpoint sat_pairs (l : list R) : list (R * R) :=
  match l with w :: o :: l => (w, o) :: sat_pairs l | _ => [] end.
(** solveGravity, TransportSolverTwophaseReorder.cpp:644-672; [its] are the old
    reorder_iterations_, which it does not reset. *)
Definition grav_solve (cols : list (list nat)) (its : list Z) (saturation : list R) : option (option (list R * Z)) :=
  if Req_EM_T visc_w 0 then None else if Req_EM_T visc_o 0 then None else
  let x := imap (λ c (v : R * R * Z), let '(s, so, it) := v in
                 let '(kw, ko) := kr c s so in (s, (kw / visc_w, ko / visc_o), it)) (zip (sat_pairs saturation) its) in
  r ← grav_columns cols 0 x;
  Some (match r with
        | None => None
        | Some (n, x) => Some (to_both_sat (map (λ v : gval, v.1.1) x), n)
        end).
End grav.

(** initGravity, TransportSolverTwophaseReorder.cpp:536-558, from the
    transmissibilities on: the loop over the faces.  [cc] are the centroids of the
    cells, [drho] is the difference of the densities. *)
Local Open Scope R_scope.
Definition grav_dim (dim : nat) (grav cc : list R) (a b : Z) (d : nat) (gdz : R) : option R :=
  gd ← grav !! d; x ← cc !! (dim * Z.to_nat a + d)%nat; y ← cc !! (dim * Z.to_nat b + d)%nat;
  Some (gdz + gd * (x - y)).
Definition grav_face (g : ugrid) (dim : nat) (grav cc : list R) (drho : R) (f : nat) (gravflux : list R) : option (list R) :=
  a ← u_facecells g !! (2 * f)%nat; b ← u_facecells g !! (2 * f + 1)%nat;
  gdz ← (if decide (a ≠ (-1)%Z ∧ b ≠ (-1)%Z) then for_loop dim 0 (grav_dim dim grav cc a b) 0 else Some 0);
  t ← gravflux !! f;
  upd gravflux f (t * (drho * gdz)).
Definition init_gravity (g : ugrid) (dim : nat) (grav cc : list R) (drho : R) (trans : list R) : option (list R) :=
  for_loop (u_nf g) 0 (grav_face g dim grav cc drho) trans.
