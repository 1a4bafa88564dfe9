(** Model of opm/core/tof/TofReorder.cpp: time-of-flight and tracers by
    single point upwinding.  Doubles are modelled as real numbers, so rounding
    is left out; the multidimensional upwind variant (lines 199-243 and 265-end)
    and the sanity check of the sources (66-72, 107-113) are not modelled. *)
From Coq Require Import Reals.
From Verif Require Import Base GridModel ReorderModel.

Definition r_pos (x : R) : bool := if Rlt_dec 0 x then true else false.
Definition r_neg (x : R) : bool := if Rlt_dec x 0 then true else false.

Section tof.
Variable g : ugrid.
Variables flux pv src : list R.
Local Open Scope R_scope.

(** The value of a cell: its time-of-flight and its tracers.  The code keeps
    them in tof_[cell] and tracer_[num_tracers_*cell + tr]. *)
Notation cellval := (R * list R)%type.

(** Loop at TofReorder.cpp:156-182 over the faces of a cell; [js] are the values
    of i.  [own] is the row of tracers of the cell itself, updated in place. *)
Fixpoint tof_loop (cell : nat) (js : list nat) (up dn : R) (own : list R) (x : list cellval) :
    option (R * R * list R) :=
  match js with
  | [] => Some (up, dn, own)
  | j :: js =>
    f ← u_cellfaces g !! j;
    a ← u_facecells g !! (2 * f)%nat; b ← u_facecells g !! (2 * f + 1)%nat; d ← flux !! f;
    let fl := if decide (Z.of_nat cell = a) then d else - d in
    let other := if decide (Z.of_nat cell = a) then b else a in
    if Rlt_dec fl 0 then
      if decide (other = (-1)%Z) then tof_loop cell js up dn own x
      else
        '(t, row) ← x !! Z.to_nat other;
        tof_loop cell js (up + fl * t) dn (zip_with (λ p q, p + fl * q) own row) x
    else tof_loop cell js up (dn + fl) own x
  end.

(** solveSingleCell, TofReorder.cpp:142-194: the new value of the cell. *)
Definition tof_cell (cell : nat) (x : list cellval) : option cellval :=
  s ← src !! cell; p ← pv !! cell; '(_, own) ← x !! cell;
  b ← u_facepos g !! cell; e ← u_facepos g !! S cell;
  '(up, dn, own) ← tof_loop cell (seq b (e - b)) 0 (Rmax (- s) 0) own x;
  Some ((p - up) / dn, if Rle_dec s 0 then map (λ q, q * (-1 / dn)) own else own).

Definition tof_single (cell : nat) (x : list cellval) : option (list cellval) :=
  v ← tof_cell cell x; upd x cell v.

(** solveMultiCell, TofReorder.cpp:248-254. *)
Fixpoint tof_multi (cells : list nat) (x : list cellval) : option (list cellval) :=
  match cells with [] => Some x | c :: cells => x ← tof_single c x; tof_multi cells x end.

(** Cells with a positive source, TofReorder.cpp:118-123. *)
Definition tracer_heads : list nat :=
  filter (λ c, option_map r_pos (src !! c) = Some true) (seq 0 (u_nc g)).

(** solveTof, TofReorder.cpp:58-81 (no tracers) and solveTofTracer, 98-137:
    times zero, tracer tr one in its head and zero elsewhere.  The assignments
    at 127-129 are written as the table they produce. *)
Definition solve_tof (fuel : nat) : option (list cellval) :=
  reorder_and_transport r_pos r_neg Ropp g flux tof_single tof_multi fuel
    (replicate (u_nc g) (0, [])).
Definition solve_tof_tracer (fuel : nat) : option (list cellval) :=
  reorder_and_transport r_pos r_neg Ropp g flux tof_single tof_multi fuel
    (map (λ c, (0, map (λ h, if decide (h = c) then 1 else 0) tracer_heads)) (seq 0 (u_nc g))).
End tof.
