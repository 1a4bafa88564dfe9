(** Model of opm/core/transport/reorder/TransportSolverTwophaseReorder.cpp:
    implicit transport of two incompressible phases, one cell or one cycle of
    cells at a time.  Doubles are modelled as real numbers, so rounding is left
    out.  The relative permeabilities (props_.relperm with one point) are any
    function [kr] of the cell and the two saturations. *)
From Coq Require Import Reals.
From Verif Require Import Base GridModel ReorderModel TofModel TableModel RootModel.

Section two.
Variable g : ugrid.
Variables flux pv src : list R.
Variable dt : R.
Variable kr : nat → R → R → R * R.
Variables visc_w visc_o tol : R.
Variable maxit : Z.
Local Open Scope R_scope.

(** What the solver keeps of a cell: saturation_[cell], fractionalflow_[cell] and
    reorder_iterations_[cell], TransportSolverTwophaseReorder.hpp:101-128. *)
Notation cellval := (R * R * Z)%type.

(** mobility, TransportSolverTwophaseReorder.cpp:526-532. *)
Definition mobility (cell : nat) (s : R) : R * R :=
  let '(kw, ko) := kr cell s (1 - s) in (kw / visc_w, ko / visc_o).
(** fracFlow, TransportSolverTwophaseReorder.cpp:454-462; [frac_defined] tells
    whether no division by zero occurs. *)
Definition frac_flow (s : R) (cell : nat) : R :=
  let '(mw, mo) := mobility cell s in mw / (mw + mo).
Definition frac_defined (s : R) (cell : nat) : bool :=
  let '(mw, mo) := mobility cell s in
  if Req_EM_T visc_w 0 then false else if Req_EM_T visc_o 0 then false else
  if Req_EM_T (mw + mo) 0 then false else true.

(** struct Residual, TransportSolverTwophaseReorder.cpp:131-140. *)
Record residual := Residual {
  r_cell : nat; r_s0 : R; r_influx : R; r_outflux : R; r_comp : R; r_dtpv : R }.

(** The loop over the faces in its constructor,
    TransportSolverTwophaseReorder.cpp:153-174; [js] are the values of i. *)
Fixpoint residual_loop (cell : nat) (js : list nat) (influx outflux comp_term : R) (x : list cellval) :
    option (R * R * R) :=
  match js with
  | [] => Some (influx, outflux, comp_term)
  | j :: js =>
    f ← u_cellfaces g !! j;
    a ← u_facecells g !! (2 * f)%nat; b ← u_facecells g !! (2 * f + 1)%nat; d ← flux !! f;
    let fl := if decide (Z.of_nat cell = a) then d else - d in
    let other := if decide (Z.of_nat cell = a) then b else a in
    if decide (other = (-1)%Z) then residual_loop cell js influx outflux comp_term x
    else if Rlt_dec fl 0 then
      '(_, ff, _) ← x !! Z.to_nat other;
      residual_loop cell js (influx + fl * ff) outflux (comp_term - fl) x
    else residual_loop cell js influx (outflux + fl) (comp_term - fl) x
  end.
(** The constructor, TransportSolverTwophaseReorder.cpp:141-175. *)
Definition make_residual (cell : nat) (x : list cellval) : option residual :=
  '(s0, _, _) ← x !! cell;
  q ← src !! cell; p ← pv !! cell;
  let src_flux := - q in
  let influx := if Rlt_dec src_flux 0 then src_flux else 0 in
  let outflux := if Rlt_dec src_flux 0 then 0 else src_flux in
  dtpv ← rdiv dt p;
  b ← u_facepos g !! cell; e ← u_facepos g !! S cell;
  '(influx, outflux, comp_term) ← residual_loop cell (seq b (e - b)) influx outflux q x;
  Some (Residual cell s0 influx outflux comp_term dtpv).
(** operator(), TransportSolverTwophaseReorder.cpp:176-179. *)
Definition residual_at (r : residual) (s : R) : R :=
  s - r_s0 r + r_dtpv r * (r_outflux r * frac_flow s (r_cell r) + r_influx r + s * r_comp r).

(** solveSingleCell, TransportSolverTwophaseReorder.cpp:183-197: the new value of
    the cell.  The root finder continues on errors; [None] also where the
    fractional flow is evaluated with a division by zero. *)
Definition two_cell (cell : nat) (x : list cellval) : option cellval :=
  r ← make_residual cell x;
  '(s_old, _, it) ← x !! cell;
  '(res, iters_used, _, evals) ←
    rf_solve_guess (residual_at r) maxit (Z.to_nat maxit + 1)%nat s_old 0 1 tol 0%Z;
  s ← continue_on_error res;
  if forallb (λ y, frac_defined y cell) (s :: evals)
  then Some (s, frac_flow s cell, (it + iters_used)%Z) else None.
Definition two_single (cell : nat) (x : list cellval) : option (list cellval) :=
  v ← two_cell cell x; upd x cell v.

(** ** solveMultiCell, TransportSolverTwophaseReorder.cpp:227-453, with
    EXPERIMENT_GAUSS_SEIDEL defined as it is at line 35.
    [ia] and [ja] are ia_downw_ and ja_downw_. *)
Section multi.
Variables (ia ja : list nat) (cells : list nat).
(** pos, TransportSolverTwophaseReorder.cpp:325-330 ([None] for -1). *)
Fixpoint positions (i : nat) (cells : list nat) (pos : list (option nat)) : option (list (option nat)) :=
  match cells with
  | [] => Some pos
  | c :: cells => pos ← upd pos c (Some i); positions (S i) cells pos
  end.
(** Initial fractional flows and s0, TransportSolverTwophaseReorder.cpp:341-346. *)
Fixpoint init_cells (cells : list nat) (x : list cellval) : option (list cellval * list R) :=
  match cells with
  | [] => Some (x, [])
  | c :: cells =>
    '(s, _, it) ← x !! c;
    if frac_defined s c then
      x ← upd x c (s, frac_flow s c, it);
      '(x, s0) ← init_cells cells x;
      Some (x, s :: s0)
    else None
  end.
(** Marking of the downwind cells, TransportSolverTwophaseReorder.cpp:390-396;
    [js] are the values of j. *)
Fixpoint mark (pos : list (option nat)) (js : list nat) (needs : list bool) : option (list bool) :=
  match js with
  | [] => Some needs
  | j :: js =>
    d ← ja !! j; ci ← pos !! d;
    needs ← match ci with Some ci => upd needs ci true | None => Some needs end;
    mark pos js needs
  end.
(** One pass over the cells, TransportSolverTwophaseReorder.cpp:354-405; [n]
    cells are left, [i] is the next one. *)
Fixpoint sweep (pos : list (option nat)) (s0 : list R) (n i : nat) (needs : list bool) (count : nat) (x : list cellval) :
    option (list bool * nat * list cellval) :=
  match n with
  | 0%nat => Some (needs, count, x)
  | S n =>
    b ← needs !! i;
    if negb b then sweep pos s0 n (S i) needs count x else
    cell ← cells !! i;
    '(old_s, ff, it) ← x !! cell;
    s ← s0 !! i;
    x ← upd x cell (s, ff, it);
    x ← two_single cell x;
    '(new_s, _, _) ← x !! cell;
    needs ← (if Rlt_dec (/ 10 ^ 9) (Rabs (new_s - old_s)) then
               b ← ia !! cell; e ← ia !! (cell + 1)%nat; mark pos (seq b (e - b)) needs
             else Some needs);
    needs ← upd needs i false;
    sweep pos s0 n (S i) needs (S count) x
  end.
(** The do-while loop and the test behind it,
    TransportSolverTwophaseReorder.cpp:352-415; [n] more rounds are allowed.  An
    inner [None] is the exception for lack of convergence. *)
Fixpoint rounds (pos : list (option nat)) (s0 : list R) (n : nat) (needs : list bool) (x : list cellval) :
    option (option (list cellval)) :=
  '(needs, count, x) ← sweep pos s0 (length cells) 0 needs 0 x;
  if decide (count = 0%nat) then Some (Some x) else
  match n with
  | 0%nat => Some None
  | S n => rounds pos s0 n needs x
  end.
Definition two_multi (x : list cellval) : option (option (list cellval)) :=
  pos ← positions 0 cells (replicate (u_nc g) None);
  '(x, s0) ← init_cells cells x;
  rounds pos s0 299 (replicate (length cells) true) x.
End multi.

(** solve, TransportSolverTwophaseReorder.cpp:88-119.  [ia0], [ja0] are the old
    contents of ia_downw_ and ja_downw_, [ff0] those of fractionalflow_.  The
    graph of upwind neighbours (ia_upw_, ja_upw_) is computed by the code but not
    read, and left out.  The result is [None] for undefined behaviour, an inner
    [None] for the exception of solveMultiCell. *)
Definition lift {A} (f : A → option A) (x : option A) : option (option A) :=
  match x with None => Some None | Some x => Some <$> f x end.
Definition two_transport (fuel : nat) (ia0 ja0 : list nat) (x : list cellval) : option (option (list cellval)) :=
  '(ia, ja) ← make_upwind_graph r_pos r_neg Ropp g (map Ropp flux) ia0 ja0 (replicate (Nat.max (u_nf g) (3 * u_nc g)) 0%nat);
  reorder_and_transport r_pos r_neg Ropp g flux
    (λ c, lift (two_single c))
    (λ cs x, match x with None => Some None | Some x => two_multi ia ja cs x end) fuel (Some x).
End two.

(** toWaterSat, miscUtilities.cpp:424-432. *)
Fixpoint to_water_sat (sboth : list R) : list R :=
  match sboth with w :: _ :: l => w :: to_water_sat l | _ => [] end.
(** toBothSat, miscUtilities.cpp:436-445. *)
Fixpoint to_both_sat (sw : list R) : list R :=
  match sw with w :: l => w :: (1 - w)%R :: to_both_sat l | [] => [] end.

(** The whole of solve, TransportSolverTwophaseReorder.cpp:88-119: from and to
    the interleaved saturations of the state. *)
Definition two_solve (g : ugrid) (flux pv src : list R) (dt : R) (kr : nat → R → R → R * R) (visc_w visc_o tol : R) (maxit : Z)
    (fuel : nat) (ia0 ja0 : list nat) (ff0 : list R) (saturation : list R) : option (option (list R * list (R * R * Z))) :=
  r ← two_transport g flux pv src dt kr visc_w visc_o tol maxit fuel ia0 ja0
        (zip_with (λ s ff, (s, ff, 0%Z)) (to_water_sat saturation) ff0);
  Some (match r with
        | None => None
        | Some x => Some (to_both_sat (map (λ v : R * R * Z, v.1.1) x), x)
        end).
